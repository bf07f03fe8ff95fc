(** Work items whose memory accesses interleave.

    This file models no particular source file.  A kernel in which work items read what other work items
    write (here: the passes over the tree of src/shammodels/sph/.../compute_tree_mass_moments.hpp and
    SGSFMMPlummer.cpp) is a family of programs, one per work item, over two shared buffers: flags (u8) and
    scalars.  Each access is one step; the schedule says which work item makes the next step.  The memory is
    sequentially consistent. *)
From Verif Require Import Base.
From Coq Require Import ZifyBool ZifyNat.
Local Open Scope nat_scope.

Section Prog.
  Context {T : Type}.
  Inductive prog : Type :=
  | Done
  | Fault                                      (* undefined behaviour *)
  | RdF (a : nat) (k : nat -> prog)            (* read a flag *)
  | RdX (a : nat) (k : T -> prog)              (* read a scalar *)
  | WrF (a : nat) (v : nat) (p : prog)
  | WrX (a : nat) (v : T) (p : prog).
  Definition mem : Type := list nat * list T.

  (** one access *)
  Definition pstep (p : prog) (m : mem) : res (prog * mem) :=
    match p with
    | Done => Ok (Done, m)
    | Fault => UB
    | RdF a k => v <- aget (fst m) a ;; Ok (k v, m)
    | RdX a k => v <- aget (snd m) a ;; Ok (k v, m)
    | WrF a v p => f <- aset (fst m) a v ;; Ok (p, (f, snd m))
    | WrX a v p => x <- aset (snd m) a v ;; Ok (p, (fst m, x))
    end.
  Definition istep (g : nat) (st : list prog * mem) : res (list prog * mem) :=
    p <- aget (fst st) g ;; pm <- pstep p (snd st) ;; ps <- aset (fst st) g (fst pm) ;; Ok (ps, snd pm).
  (** the whole kernel: [sched] is the work item making each successive step; a work item that has finished
      does nothing when it is scheduled again *)
  Definition irun (progs : list prog) (sched : list nat) (m : mem) : res mem :=
    st <- rfold istep sched (progs, m) ;; Ok (snd st).

  (** read n scalars from address a on *)
  Fixpoint rdn (n a : nat) (acc : list T) (k : list T -> prog) : prog :=
    match n with O => k acc | S n' => RdX a (fun v => rdn n' (S a) (acc ++ [v]) k) end.
  (** write the scalars vs from address a on *)
  Fixpoint wrn (vs : list T) (a : nat) (p : prog) : prog :=
    match vs with [] => p | v :: vs' => WrX a v (wrn vs' (S a) p) end.

  (** at most n accesses are left *)
  Fixpoint within (n : nat) (p : prog) {struct p} : Prop :=
    match p with
    | Done => True
    | Fault => False
    | RdF _ k => match n with O => False | S n' => forall v, within n' (k v) end
    | RdX _ k => match n with O => False | S n' => forall v, within n' (k v) end
    | WrF _ _ q => match n with O => False | S n' => within n' q end
    | WrX _ _ q => match n with O => False | S n' => within n' q end
    end.
  Lemma within_mono p : forall n n', n <= n' -> within n p -> within n' p.
  Proof.
    induction p as [| |a k IH|a k IH|a v p IH|a v p IH]; intros n n' L H; cbn [within] in *; auto.
    - destruct n; [exact (False_ind _ H)|]. destruct n'; [lia|]. intros v. apply (IH v n); auto. lia.
    - destruct n; [exact (False_ind _ H)|]. destruct n'; [lia|]. intros v. apply (IH v n); auto. lia.
    - destruct n; [exact (False_ind _ H)|]. destruct n'; [lia|]. apply (IH n); auto. lia.
    - destruct n; [exact (False_ind _ H)|]. destruct n'; [lia|]. apply (IH n); auto. lia.
  Qed.
  Lemma within_rdn n : forall a acc k c, (forall l, length l = length acc + n -> within c (k l)) -> within (n + c) (rdn n a acc k).
  Proof.
    induction n as [|n IH]; intros a acc k c H; cbn [rdn].
    - apply H. lia.
    - cbn [Nat.add within]. intros v. apply IH. intros l Hl. apply H. rewrite app_length in Hl. cbn [length] in Hl. lia.
  Qed.
  Lemma within_wrn vs : forall a p c, within c p -> within (length vs + c) (wrn vs a p).
  Proof. induction vs as [|v vs IH]; intros a p c H; cbn [wrn length Nat.add within]; auto. Qed.

  (** ** Rely-guarantee reasoning *)
  Section RG.
    Variables (n : nat) (Inv : mem -> Prop) (G : nat -> mem -> mem -> Prop) (Post : nat -> mem -> Prop).
    (** an assertion of work item g that the steps of the others preserve *)
    Definition stable (g : nat) (P : mem -> Prop) : Prop :=
      forall h m m', h <> g -> h < n -> Inv m -> G h m m' -> P m -> P m'.
    Fixpoint safe (g : nat) (P : mem -> Prop) (p : prog) : Prop :=
      match p with
      | Done => forall m, Inv m -> P m -> Post g m
      | Fault => forall m, Inv m -> P m -> False
      | RdF a k => forall m, Inv m -> P m -> exists v, nth_error (fst m) a = Some v /\
          exists P', stable g P' /\ P' m /\ safe g P' (k v)
      | RdX a k => forall m, Inv m -> P m -> exists v, nth_error (snd m) a = Some v /\
          exists P', stable g P' /\ P' m /\ safe g P' (k v)
      | WrF a v p => forall m, Inv m -> P m -> a < length (fst m) /\
          (let m' := (upd (fst m) a v, snd m) in Inv m' /\ G g m m' /\ exists P', stable g P' /\ P' m' /\ safe g P' p)
      | WrX a v p => forall m, Inv m -> P m -> a < length (snd m) /\
          (let m' := (fst m, upd (snd m) a v) in Inv m' /\ G g m m' /\ exists P', stable g P' /\ P' m' /\ safe g P' p)
      end.

    Definition threads_ok (ps : list prog) (m : mem) : Prop :=
      length ps = n /\ Inv m /\
      forall g p, nth_error ps g = Some p -> exists P, stable g P /\ P m /\ safe g P p.

    Lemma istep_ok g ps m : g < n -> threads_ok ps m -> exists p ps' m' p', nth_error ps g = Some p /\ istep g (ps, m) = Ok (ps', m') /\
      threads_ok ps' m' /\ ps' = upd ps g p' /\ (forall c, within (S c) p -> within c p') /\ (p = Done -> p' = Done).
    Proof.
      intros Hg (L & HI & HT). destruct (nth_error ps g) as [p|] eqn:E; [|apply nth_error_None in E; lia].
      destruct (HT g p E) as (P & SP & HP & SF).
      assert (OTH : forall p' m', Inv m' -> (m' = m \/ G g m m') -> (exists P', stable g P' /\ P' m' /\ safe g P' p') ->
        threads_ok (upd ps g p') m').
      { intros p' m' HI' HG HP'. split; [now rewrite length_upd|]. split; auto. intros h q Hq. destruct (Nat.eq_dec g h) as [<-|NE].
        - rewrite nth_error_upd_eq in Hq by lia. injection Hq as <-. exact HP'.
        - rewrite nth_error_upd_neq in Hq by auto. destruct (HT h q Hq) as (Q & SQ & HQ & SFQ). exists Q. split; auto. split; auto.
          destruct HG as [->|HG]; auto. apply (SQ g m m'); auto. }
      assert (AS : forall q, aset ps g q = Ok (upd ps g q)) by (intros; apply aset_lt; lia).
      exists p. unfold istep. cbn [fst snd]. unfold aget at 1. rewrite E. cbn [rbind].
      destruct p as [| |a k|a k|a v p|a v p]; cbn [pstep safe] in *.
      - cbn [rbind fst snd]. rewrite AS. cbn [rbind]. exists (upd ps g Done), m, Done. split; [reflexivity|]. split; [reflexivity|]. split; [apply OTH; auto; exists P; auto|]. split; [reflexivity|]. split; auto.
      - destruct (SF m HI HP).
      - destruct (SF m HI HP) as (v & Ev & P' & S' & H' & SF'). unfold aget. rewrite Ev. cbn [rbind fst snd]. rewrite AS. cbn [rbind].
        exists (upd ps g (k v)), m, (k v). split; [reflexivity|]. split; [reflexivity|]. split; [apply OTH; auto; exists P'; auto|]. split; [reflexivity|]. split; [|discriminate].
        intros c H. apply H.
      - destruct (SF m HI HP) as (v & Ev & P' & S' & H' & SF'). unfold aget. rewrite Ev. cbn [rbind fst snd]. rewrite AS. cbn [rbind].
        exists (upd ps g (k v)), m, (k v). split; [reflexivity|]. split; [reflexivity|]. split; [apply OTH; auto; exists P'; auto|]. split; [reflexivity|]. split; [|discriminate].
        intros c H. apply H.
      - destruct (SF m HI HP) as (La & HI' & HG & P' & S' & H' & SF'). rewrite aset_lt by auto. cbn [rbind fst snd]. rewrite AS. cbn [rbind].
        eexists (upd ps g p), _, p. split; [reflexivity|]. split; [reflexivity|]. split; [apply OTH; auto; exists P'; auto|]. split; [reflexivity|]. split; [|discriminate].
        intros c H. apply H.
      - destruct (SF m HI HP) as (La & HI' & HG & P' & S' & H' & SF'). rewrite aset_lt by auto. cbn [rbind fst snd]. rewrite AS. cbn [rbind].
        eexists (upd ps g p), _, p. split; [reflexivity|]. split; [reflexivity|]. split; [apply OTH; auto; exists P'; auto|]. split; [reflexivity|]. split; [|discriminate].
        intros c H. apply H.
    Qed.

    (** [sched] names only existing work items; each has at most as many accesses left as it is scheduled *)
    Lemma irun_gen sched : forall ps m, threads_ok ps m -> Forall (fun g => g < n) sched ->
      (forall g p, nth_error ps g = Some p -> within (count_occ Nat.eq_dec sched g) p) ->
      exists ps' m', rfold istep sched (ps, m) = Ok (ps', m') /\ threads_ok ps' m' /\ forall g p, nth_error ps' g = Some p -> p = Done.
    Proof.
      induction sched as [|g sched IH]; intros ps m HT HS HW; cbn [rfold].
      - exists ps, m. split; auto. split; auto. intros g p Hp. specialize (HW g p Hp). cbn [count_occ] in HW. destruct p; cbn [within] in HW; tauto.
      - inversion HS as [|? ? Hg HS']; subst. destruct (istep_ok g ps m Hg HT) as (p & ps' & m' & p' & E & E' & HT' & -> & HC & HD).
        rewrite E'. cbn [rbind]. apply IH; auto. intros h q Hq. destruct (Nat.eq_dec g h) as [<-|NE].
        + rewrite nth_error_upd_eq in Hq by (destruct HT as (-> & _); auto). injection Hq as <-. specialize (HW g p E).
          cbn [count_occ] in HW. destruct (Nat.eq_dec g g) as [_|X]; [auto|congruence].
        + rewrite nth_error_upd_neq in Hq by auto. specialize (HW h q Hq). cbn [count_occ] in HW. destruct (Nat.eq_dec g h); [congruence|auto].
    Qed.

    Theorem irun_ok sched ps m K : threads_ok ps m -> Forall (fun g => g < n) sched -> (forall g, g < n -> K <= count_occ Nat.eq_dec sched g) ->
      (forall g p, nth_error ps g = Some p -> within K p) ->
      exists m', irun ps sched m = Ok m' /\ Inv m' /\ forall g, g < n -> Post g m'.
    Proof.
      intros HT HS HC HW. destruct (irun_gen sched ps m HT HS) as (ps' & m' & E & (L & HI & HT') & HD).
      { intros g p Hp. apply (within_mono p K); [|eauto]. apply HC. destruct HT as (<- & _). apply nth_error_Some. congruence. }
      exists m'. unfold irun. rewrite E. cbn [rbind snd]. split; auto. split; auto. intros g Hg.
      destruct (nth_error ps' g) as [p|] eqn:Ep; [|apply nth_error_None in Ep; lia].
      destruct (HT' g p Ep) as (P & SP & HP & SF). rewrite (HD g p Ep) in SF. cbn [safe] in SF. auto.
    Qed.

    (** rules for blocks of accesses *)
    Lemma safe_weaken g p : forall P Q : mem -> Prop, (forall m, Inv m -> Q m -> P m) -> safe g P p -> safe g Q p.
    Proof.
      destruct p as [| |a k|a k|a v p|a v p]; cbn [safe]; intros P Q HQ H m HI Hm; exact (H m HI (HQ m HI Hm)).
    Qed.
    (** a pure hypothesis *)
    Lemma safe_pure g (P : mem -> Prop) (H : Prop) p : (H -> safe g P p) -> safe g (fun m => P m /\ H) p.
    Proof.
      intros X. destruct p as [| |a k|a k|a v p|a v p]; cbn [safe] in *; intros m HI (A & B); exact (X B m HI A).
    Qed.
    (** reading n scalars: P i l holds after i of them, [l], have been read *)
    Lemma safe_rdn g k n0 : forall q i a acc (P : nat -> list T -> mem -> Prop), i + q = n0 ->
      (forall j l, stable g (P j l)) ->
      (forall j l m, i <= j -> j < n0 -> Inv m -> P j l m -> exists v, nth_error (snd m) (a + (j - i)) = Some v /\ P (S j) (l ++ [v]) m) ->
      (forall l, safe g (P n0 l) (k l)) -> safe g (P i acc) (rdn q a acc k).
    Proof.
      intros q. induction q as [|q IH]; intros i a acc P E ST RD K; cbn [rdn].
      - replace n0 with i in * by lia. apply K.
      - cbn [safe]. intros m HI Hm. destruct (RD i acc m) as (v & Ev & Hv); auto; [lia|]. rewrite Nat.sub_diag, Nat.add_0_r in Ev.
        exists v. split; auto. exists (P (S i) (acc ++ [v])). split; auto. split; auto. apply (IH (S i)); auto; [lia|].
        intros j l m' Hi Hj HI' Hl. destruct (RD j l m') as (v' & Ev' & Hv'); auto; [lia|]. exists v'. split; auto.
        replace (S a + (j - S i)) with (a + (j - i)) by lia. exact Ev'.
    Qed.
    (** writing the scalars vs: P i holds after i of them have been written *)
    Lemma safe_wrn g p vs0 : forall vs i a (P : nat -> mem -> Prop), vs = skipn i vs0 -> i <= length vs0 ->
      (forall j, stable g (P j)) ->
      (forall j v m, i <= j -> nth_error vs0 j = Some v -> Inv m -> P j m -> a + (j - i) < length (snd m) /\
         (let m' := (fst m, upd (snd m) (a + (j - i)) v) in Inv m' /\ G g m m' /\ P (S j) m')) ->
      safe g (P (length vs0)) p -> safe g (P i) (wrn vs a p).
    Proof.
      intros vs. induction vs as [|v vs IH]; intros i a P E Hi ST WR K; cbn [wrn].
      - assert (length (skipn i vs0) = 0) by (rewrite <- E; reflexivity). rewrite skipn_length in H. replace (length vs0) with i in * by lia. exact K.
      - assert (Ei : nth_error vs0 i = Some v /\ vs = skipn (S i) vs0 /\ S i <= length vs0).
        { clear - E Hi. revert i E Hi. induction vs0 as [|w vs0 IH0]; intros i E Hi.
          - rewrite skipn_nil in E. discriminate.
          - destruct i as [|i]; [cbn [skipn] in E; injection E as <- <-; cbn [nth_error skipn length]; split; [reflexivity|]; split; [reflexivity|lia]|].
            cbn [skipn] in E. cbn [length] in Hi. destruct (IH0 i E) as (A1 & A2 & A3); [lia|]. cbn [nth_error skipn length]. split; auto. split; auto. lia. }
        destruct Ei as (Ev & Evs & Li). cbn [safe]. intros m HI Hm. destruct (WR i v m) as (La & HI' & HG & HP'); auto.
        rewrite Nat.sub_diag, Nat.add_0_r in *. split; auto. cbv zeta. split; auto. split; auto. exists (P (S i)). split; auto. split; auto.
        apply (IH (S i)); auto. intros j w m' Hj Hw HI2 HP2. destruct (WR j w m') as (X1 & X2); auto; [lia|].
        replace (S a + (j - S i)) with (a + (j - i)) by lia. auto.
    Qed.
  End RG.
End Prog.
Arguments prog : clear implicits.
Arguments mem : clear implicits.
