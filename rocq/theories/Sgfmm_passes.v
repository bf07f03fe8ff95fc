(** The two passes over the tree whose work items read what others write: correct in every interleaving. *)
From Verif Require Import Base Interleave.
From Coq Require Import ZifyBool ZifyNat.
Local Open Scope nat_scope.

Lemma addr_inj K g c h d : c < K -> d < K -> g * K + c = h * K + d -> g = h /\ c = d.
Proof.
  intros H1 H2 E. destruct (Nat.lt_trichotomy g h) as [L|[->|L]]; [|split; lia|]; exfalso.
  - assert (S g * K <= h * K) by (apply Nat.mul_le_mono_r; lia). lia.
  - assert (S h * K <= g * K) by (apply Nat.mul_le_mono_r; lia). lia.
Qed.
Lemma addr_lt K total g c : g < total -> c < K -> g * K + c < total * K.
Proof. intros H1 H2. assert (S g * K <= total * K) by (apply Nat.mul_le_mono_r; lia). lia. Qed.
Lemma firstn_snoc {A} (l : list A) i v : nth_error l i = Some v -> firstn (S i) l = firstn i l ++ [v].
Proof. revert i. induction l as [|a l IH]; intros [|i] H; cbn [nth_error] in H; try discriminate; [injection H as ->; reflexivity|]. cbn [firstn app]. f_equal. now apply IH. Qed.

(** cell [id] of the buffer [x], of K scalars per cell, holds v *)
Definition cell_is {T} (K : nat) (x : list T) (id : nat) (v : list T) : Prop := forall c, c < K -> nth_error x (id * K + c) = nth_error v c.

Section Up.
  Context {T : Type} (K off total : nat) (L R : nat -> nat) (comb : nat -> list T -> list T -> list T) (ht : nat -> nat) (val : nat -> list T).
  Hypothesis Hoff : off <= total.
  Hypothesis HL : forall g, g < off -> L g < total /\ ht (L g) < ht g.
  Hypothesis HR : forall g, g < off -> R g < total /\ ht (R g) < ht g.
  Hypothesis Hval : forall g, g < off -> val g = comb g (val (L g)) (val (R g)).
  Hypothesis Hlen : forall id, id < total -> length (val id) = K.
  Hypothesis Hcomb : forall g a b, length (comb g a b) = K.
  Hypothesis Hleaf : forall id, off <= id -> ht id = 0.

  Definition uprog (g : nat) : prog T :=
    rdn K (L g * K) [] (fun a => rdn K (R g * K) [] (fun b => wrn (comb g a b) (g * K) Done)).
  Definition usettled (k : nat) (x : list T) : Prop :=
    length x = total * K /\ forall id, id < total -> ht id <= k -> cell_is K x id (val id).

  Section Pass.
    Variable k : nat.
    Let Inv (m : mem T) : Prop := usettled k (snd m).
    Let G (g : nat) (m m' : mem T) : Prop :=
      exists c v, c < K /\ m' = (fst m, upd (snd m) (g * K + c) v) /\ (ht g <= S k -> nth_error (val g) c = Some v).
    Let Post (g : nat) (m : mem T) : Prop := ht g <= S k -> cell_is K (snd m) g (val g).

    Lemma Inv_write g c v m : g < off -> c < K -> (ht g <= S k -> nth_error (val g) c = Some v) -> Inv m -> Inv (fst m, upd (snd m) (g * K + c) v).
    Proof.
      intros Hg Hc Hv (LX & HX). split; [cbn [snd]; now rewrite length_upd|]. intros id Hid Hh d Hd. cbn [snd].
      destruct (Nat.eq_dec (g * K + c) (id * K + d)) as [E|NE].
      - destruct (addr_inj K g c id d) as [<- <-]; auto. rewrite nth_error_upd_eq by (rewrite LX; apply addr_lt; lia). symmetry. apply Hv. lia.
      - rewrite nth_error_upd_neq by auto. now apply HX.
    Qed.

    Lemma uprog_safe g : g < off -> safe off Inv G Post g (fun _ => True) (uprog g).
    Proof.
      intros Hg. destruct (HL g Hg) as [L1 L2]. destruct (HR g Hg) as [R1 R2]. unfold uprog.
      apply (safe_weaken _ _ _ _ _ _ (fun m => (fun i l (_ : mem T) => length l = i /\ (ht g <= S k -> l = firstn i (val (L g)))) 0 [] m)); [intros; split; auto|].
      apply (safe_rdn off Inv G Post g _ K K 0 (L g * K) [] (fun i l _ => length l = i /\ (ht g <= S k -> l = firstn i (val (L g))))); auto.
      { intros j l h m m' _ _ _ _ H. exact H. }
      { intros j l m _ Hj HI (Ll & Hl). destruct HI as (LX & HX).
        destruct (nth_error (snd m) (L g * K + (j - 0))) as [v|] eqn:E.
        2:{ apply nth_error_None in E. pose proof (addr_lt K total (L g) (j - 0) L1). lia. }
        exists v. split; auto. split; [rewrite app_length; cbn [length]; lia|]. intros Hh. rewrite (Hl Hh). symmetry. apply firstn_snoc.
        rewrite <- E. replace (j - 0) with j by lia. symmetry. apply HX; auto. lia. }
      intros a.
      apply (safe_weaken _ _ _ _ _ _ (fun m => (fun i l (_ : mem T) => (ht g <= S k -> a = val (L g)) /\ length l = i /\ (ht g <= S k -> l = firstn i (val (R g)))) 0 [] m)).
      { intros m _ (La & Ha). split; [|split; auto]. intros Hh. rewrite (Ha Hh). apply firstn_all2. rewrite Hlen; auto. }
      apply (safe_rdn off Inv G Post g _ K K 0 (R g * K) [] (fun i l _ => (ht g <= S k -> a = val (L g)) /\ length l = i /\ (ht g <= S k -> l = firstn i (val (R g))))); auto.
      { intros j l h m m' _ _ _ _ H. exact H. }
      { intros j l m _ Hj HI (Ha & Ll & Hl). destruct HI as (LX & HX).
        destruct (nth_error (snd m) (R g * K + (j - 0))) as [v|] eqn:E.
        2:{ apply nth_error_None in E. pose proof (addr_lt K total (R g) (j - 0) R1). lia. }
        exists v. split; auto. split; auto. split; [rewrite app_length; cbn [length]; lia|]. intros Hh. rewrite (Hl Hh). symmetry. apply firstn_snoc.
        rewrite <- E. replace (j - 0) with j by lia. symmetry. apply HX; auto. lia. }
      intros b.
      set (W := fun i (m : mem T) => ht g <= S k -> comb g a b = val g /\ forall c, c < i -> c < K -> nth_error (snd m) (g * K + c) = nth_error (val g) c).
      apply (safe_weaken _ _ _ _ _ _ (W 0)).
      { intros m _ (Ha & Lb & Hb) Hh. split; [|lia]. rewrite (Ha Hh), (Hb Hh). rewrite firstn_all2 by (rewrite Hlen; auto). symmetry. now apply Hval. }
      apply (safe_wrn off Inv G Post g _ (comb g a b) (comb g a b) 0 (g * K) W); auto; [lia| | |].
      - intros j h m m' NE Hh _ (d & v & Hd & -> & _) H Hk. destruct (H Hk) as [E1 E2]. split; auto. intros c Hc Hc'. cbn [snd].
        rewrite nth_error_upd_neq; [now apply E2|]. intros X. apply addr_inj in X; auto. destruct X. congruence.
      - intros j v m _ Ev HI HW. assert (Hj : j < K) by (rewrite <- (Hcomb g a b); apply nth_error_Some; congruence).
        rewrite Nat.sub_0_r. destruct HI as (LX & HX). split; [rewrite LX; apply addr_lt; lia|]. cbv zeta.
        assert (Hv : ht g <= S k -> nth_error (val g) j = Some v) by (intros Hh; destruct (HW Hh) as [<- _]; exact Ev).
        split; [apply Inv_write; auto; split; auto|]. split; [exists j, v; auto|]. intros Hh. destruct (HW Hh) as [E1 E2]. split; auto. intros c Hc Hc'.
        cbn [snd]. destruct (Nat.eq_dec c j) as [->|NE].
        + rewrite nth_error_upd_eq by (rewrite LX; apply addr_lt; lia). symmetry. auto.
        + rewrite nth_error_upd_neq by lia. apply E2; auto. lia.
      - cbn [safe]. rewrite Hcomb. intros m _ H Hh. destruct (H Hh) as [_ E]. intros c Hc. apply E; auto.
    Qed.

    Lemma within_uprog g : within (3 * K) (uprog g).
    Proof.
      unfold uprog. replace (3 * K) with (K + (K + (K + 0))) by lia. apply within_rdn. intros a _. apply within_rdn. intros b _.
      rewrite <- (Hcomb g a b) at 1. apply within_wrn. exact I.
    Qed.

    Theorem upass sched flags x : usettled k x -> Forall (fun g => g < off) sched -> (forall g, g < off -> 3 * K <= count_occ Nat.eq_dec sched g) ->
      exists m', irun (map uprog (seq 0 off)) sched (flags, x) = Ok m' /\ usettled (S k) (snd m').
    Proof.
      intros HS HF HC. destruct (irun_ok off Inv G Post sched (map uprog (seq 0 off)) (flags, x) (3 * K)) as (m' & E & HI & HP); auto.
      - split; [now rewrite map_length, seq_length|]. split; [exact HS|]. intros g p Hp. rewrite nth_error_map in Hp.
        destruct (nth_error (seq 0 off) g) as [g'|] eqn:Eg; [|discriminate]. injection Hp as <-.
        assert (g < off) by (rewrite <- (seq_length off 0); apply nth_error_Some; congruence). rewrite nth_error_nth' with (d := 0) in Eg by (now rewrite seq_length).
        rewrite seq_nth in Eg by auto. injection Eg as <-. exists (fun _ => True). split; [intros h m1 m2 _ _ _ _ _; exact I|]. split; auto. now apply uprog_safe.
      - intros g p Hp. rewrite nth_error_map in Hp. destruct (nth_error (seq 0 off) g); [|discriminate]. injection Hp as <-. apply within_uprog.
      - exists m'. split; auto. destruct HI as (LX & HX). split; auto. intros id Hid Hh. destruct (Nat.lt_ge_cases id off) as [Hi|Hi].
        + apply HP; auto.
        + apply HX; auto. rewrite Hleaf; auto. lia.
    Qed.
  End Pass.
End Up.

Section Down.
  Context {T : Type} (K off total : nat) (L R : nat -> nat) (upL upR : nat -> list T -> list T -> list T) (dep : nat -> nat) (ini val : nat -> list T).
  Hypothesis Hoff : off <= total.
  Hypothesis HL : forall g, g < off -> L g < total /\ dep (L g) = S (dep g).
  Hypothesis HR : forall g, g < off -> R g < total /\ dep (R g) = S (dep g).
  Hypothesis HLR : forall g, g < off -> L g <> R g.
  Hypothesis Hdis : forall g h, g < off -> h < off -> g <> h -> L g <> L h /\ L g <> R h /\ R g <> L h /\ R g <> R h.
  Hypothesis HvL : forall g, g < off -> val (L g) = upL g (val g) (ini (L g)).
  Hypothesis HvR : forall g, g < off -> val (R g) = upR g (val g) (ini (R g)).
  Hypothesis Hv : forall id, id < total -> length (val id) = K.
  Hypothesis Hi : forall id, id < total -> length (ini id) = K.
  Hypothesis Hroot : dep 0 = 0.
  Hypothesis HuL : forall g a b, length (upL g a b) = K.
  Hypothesis HuR : forall g a b, length (upR g a b) = K.

  Definition dprog (g : nat) : prog T :=
    RdF g (fun f => if f =? 1 then
    RdF (L g) (fun fl => if fl =? 0 then
    RdF (R g) (fun fr => if fr =? 0 then
      rdn K (g * K) [] (fun my => rdn K (L g * K) [] (fun ml => rdn K (R g * K) [] (fun mr =>
      wrn (upL g my ml) (L g * K) (wrn (upR g my mr) (R g * K) (WrF (L g) 1 (WrF (R g) 1 Done))))))
    else Done) else Done) else Done).

  Definition flag (m : mem T) (id f : nat) : Prop := nth_error (fst m) id = Some f.
  Definition dinv (m : mem T) : Prop :=
    length (fst m) = total /\ length (snd m) = total * K /\ flag m 0 1 /\
    forall id, id < total -> (flag m id 0 \/ flag m id 1) /\ (flag m id 1 -> cell_is K (snd m) id (val id)).
  (** the children of g are both done or both untouched *)
  Definition closed (m : mem T) (g : nat) : Prop :=
    (flag m (L g) 1 /\ flag m (R g) 1) \/
    (flag m (L g) 0 /\ flag m (R g) 0 /\ cell_is K (snd m) (L g) (ini (L g)) /\ cell_is K (snd m) (R g) (ini (R g))).
  (** between two passes: everything down to depth k is done *)
  Definition dsettled (k : nat) (m : mem T) : Prop :=
    dinv m /\ (forall g, g < off -> closed m g) /\ (forall id, id < total -> dep id <= k -> flag m id 1).
  (** what the steps of work item h do *)
  Definition dguar (h : nat) (m m' : mem T) : Prop :=
    forall id, id < total ->
      ((id <> L h /\ id <> R h) -> (forall f, flag m id f -> flag m' id f) /\ (forall c, c < K -> nth_error (snd m') (id * K + c) = nth_error (snd m) (id * K + c))) /\
      (flag m id 1 -> flag m' id 1).

  Section Pass.
    Variable k : nat.
    Definition dpost (g : nat) (m : mem T) : Prop := closed m g /\ (dep g <= k -> flag m (L g) 1 /\ flag m (R g) 1).
    Notation dsafe := (safe off dinv dguar dpost).
    Notation dstable := (stable off dinv dguar).

    Lemma own g h m m' : g < off -> h < off -> h <> g -> dguar h m m' ->
      (forall f, flag m (L g) f -> flag m' (L g) f) /\ (forall f, flag m (R g) f -> flag m' (R g) f) /\
      (forall v, cell_is K (snd m) (L g) v -> cell_is K (snd m') (L g) v) /\ (forall v, cell_is K (snd m) (R g) v -> cell_is K (snd m') (R g) v) /\
      (flag m g 1 -> flag m' g 1).
    Proof.
      intros Hg Hh NE HG. destruct (HL g Hg) as [L1 _], (HR g Hg) as [R1 _]. destruct (Hdis g h Hg Hh) as (D1 & D2 & D3 & D4); auto.
      destruct (HG (L g) L1) as [A _]. destruct (HG (R g) R1) as [B _]. destruct (HG g) as [_ C]; [lia|].
      destruct A as [A1 A2]; auto. destruct B as [B1 B2]; auto. split; auto. split; auto. split; [intros v X c Hc; rewrite A2 by auto; auto|].
      split; [intros v X c Hc; rewrite B2 by auto; auto|auto].
    Qed.
    Lemma flag_fun m id f f' : flag m id f -> flag m id f' -> f = f'.
    Proof. unfold flag. congruence. Qed.
    Lemma flag_ex m id : dinv m -> id < total -> exists f, flag m id f.
    Proof. intros (_ & _ & _ & H) Hid. destruct (H id Hid) as [[X|X] _]; eauto. Qed.

    (** reading one cell, known to hold v, under an assertion P about the memory *)
    Lemma safe_read g id v (P : mem T -> Prop) kk : id < total -> length v = K ->
      dstable g P -> (forall m, dinv m -> P m -> cell_is K (snd m) id v) ->
      dsafe g P (kk v) -> dsafe g P (rdn K (id * K) [] kk).
    Proof.
      intros Hid Lv ST HC HK.
      apply (safe_weaken _ _ _ _ _ _ (fun m => P m /\ ([] : list T) = firstn 0 v)); [auto|].
      apply (safe_rdn off dinv dguar dpost g _ K K 0 (id * K) [] (fun i l m => P m /\ l = firstn i v)); auto.
      - intros j l h m m' NE Hh HI HG (A & B). split; [eapply ST; eauto|exact B].
      - intros j l m _ Hj HI (A & ->). rewrite Nat.sub_0_r. rewrite (HC m HI A j Hj).
        destruct (nth_error v j) as [w|] eqn:E; [|apply nth_error_None in E; lia]. exists w. split; auto. split; auto. symmetry. now apply firstn_snoc.
      - intros l. apply (safe_weaken _ _ _ _ _ _ (fun m => P m /\ l = v)).
        { intros m _ (A & B). split; auto. rewrite B. apply firstn_all2. lia. }
        apply safe_pure. intros ->. exact HK.
    Qed.
    (** writing one cell whose flag is 0, child of g: [P] is kept by such writes *)
    Lemma safe_write g id v (P Q : mem T -> Prop) p : g < off -> (id = L g \/ id = R g) -> length v = K ->
      dstable g P -> (forall m, dinv m -> P m -> flag m id 0) ->
      (forall m c w, dinv m -> P m -> c < K -> P (fst m, upd (snd m) (id * K + c) w)) ->
      (forall m, P m -> cell_is K (snd m) id v -> Q m) ->
      dsafe g Q p -> dsafe g P (wrn v (id * K) p).
    Proof.
      intros Hg Hid Lv ST HF HW HQ HK. destruct (HL g Hg) as [L1 _], (HR g Hg) as [R1 _].
      assert (Hid' : id < total) by (destruct Hid; subst; auto).
      set (W := fun i (m : mem T) => P m /\ forall c, c < i -> c < K -> nth_error (snd m) (id * K + c) = nth_error v c).
      apply (safe_weaken _ _ _ _ _ _ (W 0)); [intros m _ H; split; auto; lia|].
      apply (safe_wrn off dinv dguar dpost g _ v v 0 (id * K) W); auto; [lia| | |].
      - intros j h m m' NE Hh HI HG (A & B). split; [eapply ST; eauto|]. intros c Hc Hc'.         destruct (Hdis g h Hg Hh) as (D1 & D2 & D3 & D4); auto.
        destruct (HG id Hid') as [X _]. destruct X as [_ X]; [destruct Hid; subst id; auto|]. rewrite X by auto. auto.
      - intros j w m _ Ew HI (A & B). assert (Hj : j < K) by (rewrite <- Lv; apply nth_error_Some; congruence). rewrite Nat.sub_0_r.
        pose proof (HF m HI A) as F0. assert (HW' := fun w => HW m j w HI A Hj). destruct HI as (I1 & I2 & I0 & I3). split; [rewrite I2; now apply addr_lt|]. cbv zeta.
        assert (OTH : forall x u, x <> id -> cell_is K (snd m) x u -> cell_is K (upd (snd m) (id * K + j) w) x u).
        { intros x u NE H c Hc. rewrite nth_error_upd_neq; [now apply H|]. intros E. apply addr_inj in E; auto. destruct E. congruence. }
        split; [split; [exact I1|split; [cbn [snd]; now rewrite length_upd|split; [exact I0|]]]|split].
        + intros x Hx. destruct (I3 x Hx) as [X Y]. split; [exact X|]. intros F1. cbn [snd]. apply OTH; [|apply Y; exact F1].
          intros ->. pose proof (flag_fun m id 0 1 F0 F1). lia.
        + intros x Hx. split; [|intros F1; exact F1]. intros (N1 & N2). split; [intros f F; exact F|]. cbn [snd]. intros c Hc. apply nth_error_upd_neq. intros E. apply addr_inj in E; auto. destruct E, Hid; congruence.
        + split; [apply HW'|]. intros c Hc Hc'. cbn [snd]. destruct (Nat.eq_dec c j) as [->|NE].
          * rewrite nth_error_upd_eq by (rewrite I2; now apply addr_lt). symmetry. exact Ew.
          * rewrite nth_error_upd_neq by lia. apply B; auto. lia.
      - rewrite Lv. apply (safe_weaken _ _ _ _ _ _ Q); auto. intros m _ (A & B). apply HQ; auto. intros c Hc. auto.
    Qed.

    Lemma dprog_safe g : g < off -> dsafe g (fun m => closed m g /\ (dep g <= k -> flag m g 1)) (dprog g).
    Proof.
      intros Hg. destruct (HL g Hg) as [L1 L2], (HR g Hg) as [R1 R2]. pose proof (HLR g Hg) as NE. unfold dprog.
      assert (ST0 : forall P : mem T -> Prop, (forall m m', (forall f, flag m (L g) f -> flag m' (L g) f) -> (forall f, flag m (R g) f -> flag m' (R g) f) ->
        (forall v, cell_is K (snd m) (L g) v -> cell_is K (snd m') (L g) v) -> (forall v, cell_is K (snd m) (R g) v -> cell_is K (snd m') (R g) v) ->
        (flag m g 1 -> flag m' g 1) -> P m -> P m') -> dstable g P).
      { intros P H h m m' NEh Hh HI HG HP. destruct (own g h m m' Hg Hh NEh HG) as (A & B & C & D & E'). eapply H; eauto. }
      assert (CL : forall m m', (forall f, flag m (L g) f -> flag m' (L g) f) -> (forall f, flag m (R g) f -> flag m' (R g) f) ->
        (forall v, cell_is K (snd m) (L g) v -> cell_is K (snd m') (L g) v) -> (forall v, cell_is K (snd m) (R g) v -> cell_is K (snd m') (R g) v) -> closed m g -> closed m' g).
      { intros m m' A B C D [(X & Y)|(X & Y & Z & W)]; [left|right]; auto. }
      cbn [safe]. intros m HI (HC & HK). destruct (flag_ex m g HI) as (f & Ff); [lia|]. exists f. split; [exact Ff|].
      destruct (Nat.eqb_spec f 1) as [->|NF].
      2:{ exists (fun m => closed m g /\ (dep g <= k -> False)). split; [apply ST0; intros m1 m2 A B C D _ (X & Y); split; eauto|]. split.
          { split; auto. intros Hk. apply NF. eapply flag_fun; eauto. }
          cbn [safe]. intros m1 _ (X & Y). split; auto. intros Hk. destruct (Y Hk). }
      exists (fun m => closed m g /\ flag m g 1). split; [apply ST0; intros m1 m2 A B C D E (X & Y); split; eauto|]. split; [auto|].
      clear m HI HC HK Ff. cbn [safe]. intros m HI (HC & F1). destruct (flag_ex m (L g) HI L1) as (fl & Fl). exists fl. split; [exact Fl|].
      assert (DN : forall m, flag m (L g) 1 -> flag m (R g) 1 -> dpost g m) by (intros; split; [left|]; auto).
      destruct (Nat.eqb_spec fl 0) as [->|NF].
      2:{ exists (fun m => flag m (L g) 1 /\ flag m (R g) 1). split; [apply ST0; intros m1 m2 A B _ _ _ (X & Y); auto|]. split.
          { destruct HC as [H|(H & _)]; auto. exfalso. apply NF. eapply flag_fun; eauto. }
          cbn [safe]. intros m1 _ (X & Y). auto. }
      set (P2 := fun m : mem T => flag m g 1 /\ flag m (L g) 0 /\ flag m (R g) 0 /\ cell_is K (snd m) (L g) (ini (L g)) /\ cell_is K (snd m) (R g) (ini (R g))).
      assert (S2 : dstable g P2) by (apply ST0; intros m1 m2 A B C D E (X1 & X2 & X3 & X4 & X5); unfold P2; auto 6).
      exists P2. split; [exact S2|]. split.
      { destruct HC as [(H & _)|(H1 & H2 & H3 & H4)]; [pose proof (flag_fun _ _ _ _ H Fl); lia|]. unfold P2; auto. }
      clear m HI HC F1 Fl. cbn [safe]. intros m HI HP2. pose proof HP2 as (_ & _ & Fr & _). exists 0. split; [exact Fr|]. exists P2. split; auto. split; auto.
      rewrite Nat.eqb_refl. clear m HI HP2 Fr.
      apply (safe_read g g (val g) P2); auto; [lia|apply Hv; lia|intros m (_ & _ & _ & HI) (F & _); apply HI; auto; lia|].
      apply (safe_read g (L g) (ini (L g)) P2); auto; [intros m _ (_ & _ & _ & X & _); exact X|].
      apply (safe_read g (R g) (ini (R g)) P2); auto; [intros m _ (_ & _ & _ & _ & X); exact X|].
      set (P3 := fun m : mem T => flag m (L g) 0 /\ flag m (R g) 0).
      set (P4 := fun m : mem T => flag m (L g) 0 /\ flag m (R g) 0 /\ cell_is K (snd m) (L g) (val (L g))).
      set (P5 := fun m : mem T => flag m (L g) 0 /\ flag m (R g) 0 /\ cell_is K (snd m) (L g) (val (L g)) /\ cell_is K (snd m) (R g) (val (R g))).
      assert (S3 : dstable g P3) by (apply ST0; intros m1 m2 A B C D E (X1 & X2); unfold P3; auto 6).
      assert (S4 : dstable g P4) by (apply ST0; intros m1 m2 A B C D E (X1 & X2 & X3); unfold P4; auto 6).
      assert (S5 : dstable g P5) by (apply ST0; intros m1 m2 A B C D E (X1 & X2 & X3 & X4); unfold P5; auto 6).
      apply (safe_weaken _ _ _ _ _ _ P3); [intros m _ (_ & X & Y & _); split; auto|].
      rewrite <- HvL, <- HvR by auto.
      apply (safe_write g (L g) (val (L g)) P3 P4); auto; [intros m _ (X & _); auto|intros m (X & Y) Z; split; auto|].
      apply (safe_write g (R g) (val (R g)) P4 P5); auto; [intros m _ (_ & X & _); auto| |intros m (X & Y & Z) W; split; auto|].
      { intros m c w HI (X & Y & Z) Hc. split; auto. split; auto. intros d Hd. cbn [snd]. rewrite nth_error_upd_neq; [now apply Z|].
        intros E. apply addr_inj in E; auto. destruct E. congruence. }
      cbn [safe]. intros m HI (F1 & F2 & C1 & C2). pose proof HI as (I1 & I2 & I0 & I3). split; [rewrite I1; auto|]. cbv zeta.
      assert (FO : forall id id' f v, id < total -> id' <> id -> (flag m id' f <-> flag (upd (fst m) id v, snd m) id' f)) by (intros; unfold flag; cbn [fst]; rewrite nth_error_upd_neq by auto; tauto).
      assert (FS : flag (upd (fst m) (L g) 1, snd m) (L g) 1) by (unfold flag; cbn [fst]; apply nth_error_upd_eq; lia).
      split; [split; [cbn [fst]; now rewrite length_upd|split; [exact I2|split; [apply FO; auto; congruence|]]]|split].
      { intros id Hid. destruct (Nat.eq_dec id (L g)) as [->|N]; [split; [right; exact FS|intros _; exact C1]|].
        destruct (I3 id Hid) as [X Y]. rewrite <- !FO by auto. auto. }
      { intros id Hid. split; [intros (N1 & N2); split; [intros f; rewrite <- FO by auto; auto|auto]|].
        intros F. destruct (Nat.eq_dec id (L g)) as [->|N]; [exact FS|]. now rewrite <- FO. }
      set (P6 := fun m : mem T => flag m (L g) 1 /\ cell_is K (snd m) (R g) (val (R g))).
      exists P6. split; [apply ST0; intros m1 m2 A B C D E (X1 & X2); unfold P6; auto|]. split; [split; auto|].
      clear m HI F1 F2 C1 C2 I0 I1 I2 I3 FO FS. intros m HI (F1 & C2). pose proof HI as (I1 & I2 & I0 & I3). split; [rewrite I1; auto|].
      assert (FO : forall id id' f v, id < total -> id' <> id -> (flag m id' f <-> flag (upd (fst m) id v, snd m) id' f)) by (intros; unfold flag; cbn [fst]; rewrite nth_error_upd_neq by auto; tauto).
      assert (FS : flag (upd (fst m) (R g) 1, snd m) (R g) 1) by (unfold flag; cbn [fst]; apply nth_error_upd_eq; lia).
      split; [split; [cbn [fst]; now rewrite length_upd|split; [exact I2|split; [apply FO; auto; congruence|]]]|split].
      { intros id Hid. destruct (Nat.eq_dec id (R g)) as [->|N]; [split; [right; exact FS|intros _; exact C2]|].
        destruct (I3 id Hid) as [X Y]. rewrite <- !FO by auto. auto. }
      { intros id Hid. split; [intros (N1 & N2); split; [intros f; rewrite <- FO by auto; auto|auto]|].
        intros F. destruct (Nat.eq_dec id (R g)) as [->|N]; [exact FS|]. now rewrite <- FO. }
      exists (fun m => flag m (L g) 1 /\ flag m (R g) 1). split; [apply ST0; intros m1 m2 A B _ _ _ (X & Y); auto|].
      split; [split; [now apply FO|exact FS]|]. intros m1 _ (X & Y). auto.
    Qed.

    Lemma within_dprog g : within (5 * K + 5) (dprog g).
    Proof.
      unfold dprog. replace (5 * K + 5) with (S (S (S (K + (K + (K + (K + (K + 2)))))))) by lia. cbn [within]. intros f.
      destruct (f =? 1); [|exact I]. cbn [within]. intros fl. destruct (fl =? 0); [|exact I]. cbn [within]. intros fr. destruct (fr =? 0); [|exact I].
      apply within_rdn. intros a _. apply within_rdn. intros b _. apply within_rdn. intros c _.
      rewrite <- (HuL g a b) at 1. apply within_wrn. rewrite <- (HuR g a c) at 1. apply within_wrn. cbn [within]. exact I.
    Qed.

    Theorem dpass sched m : dsettled k m -> Forall (fun g => g < off) sched -> (forall g, g < off -> 5 * K + 5 <= count_occ Nat.eq_dec sched g) ->
      (forall id, id < total -> id = 0 \/ exists g, g < off /\ (id = L g \/ id = R g)) ->
      exists m', irun (map dprog (seq 0 off)) sched m = Ok m' /\ dsettled (S k) m'.
    Proof.
      intros (HI & HC & HK) HF HN HP0. destruct (irun_ok off dinv dguar (fun g m => dpost g m) sched (map dprog (seq 0 off)) m (5 * K + 5)) as (m' & E & HI' & HP); auto.
      - split; [now rewrite map_length, seq_length|]. split; [exact HI|]. intros g p Hp. rewrite nth_error_map in Hp.
        destruct (nth_error (seq 0 off) g) as [g'|] eqn:Eg; [|discriminate]. injection Hp as <-.
        assert (Hg : g < off) by (rewrite <- (seq_length off 0); apply nth_error_Some; congruence). rewrite nth_error_nth' with (d := 0) in Eg by (now rewrite seq_length).
        rewrite seq_nth in Eg by auto. injection Eg as <-. exists (fun m => closed m g /\ (dep g <= k -> flag m g 1)). split; [|split; [split; [auto|intros; apply HK; auto; lia]|now apply dprog_safe]].
        intros h m1 m2 NE Hh _ HG (X & Y). destruct (own g h m1 m2 Hg Hh NE HG) as (A & B & C & D & E'). split; [|auto].
        destruct X as [(X1 & X2)|(X1 & X2 & X3 & X4)]; [left|right]; auto.
      - intros g p Hp. rewrite nth_error_map in Hp. destruct (nth_error (seq 0 off) g); [|discriminate]. injection Hp as <-. apply within_dprog.
      - exists m'. split; auto. split; auto. split; [intros g Hg; apply HP; auto|]. intros id Hid Hd.
        destruct (HP0 id Hid) as [->|(g & Hg & X)].
        + (* the flag of the root is never cleared *)
          apply HI'.
        + destruct (HP g Hg) as (_ & Y). destruct (HL g Hg) as [_ L2], (HR g Hg) as [_ R2].
          destruct X as [->| ->]; apply Y; lia.
    Qed.
  End Pass.
End Down.
