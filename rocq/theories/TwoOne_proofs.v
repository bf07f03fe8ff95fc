(** Proofs about the enforcement of the 2:1 balance: the merge flags and the refinement sweeps *)
From Verif Require Import Base Par Amr Amr_spec TwoOne TwoOne_spec.
From Coq Require Import ZArith ZifyBool ZifyNat.
Local Open Scope Z_scope.

(* ---------- the merge kernel ---------- *)
Definition kinv (cnt : nat) (ok : nat -> bool) (init : list bool) (s : list bool * list prog) : Prop :=
  let '(flags, pr) := s in
  length flags = cnt /\ length pr = cnt /\
  (forall j, nth j flags false = true -> nth j init false = true) /\
  (forall g k acc, nth_error pr g = Some (k, acc) ->
     (k <= 8 \/ k = 9)%nat /\ ((k < 9)%nat -> acc = true -> forall l, (l < k)%nat -> nth (g + l) init false = true) /\
     (0 < k -> k < 9 -> g + 8 <= cnt)%nat /\
     (k = 9%nat -> nth g flags false = true ->
        (g + 8 <= cnt)%nat /\ ok g = true /\ forall l, (l < 8)%nat -> nth (g + l) init false = true)).

Lemma item_step_inv cnt ok init gid s : kinv cnt ok init s -> (gid < cnt)%nat ->
  exists s', item_step cnt ok gid s = Ok s' /\ kinv cnt ok init s' /\
    (forall g, g <> gid -> nth_error (snd s') g = nth_error (snd s) g) /\
    (forall k a, nth_error (snd s) gid = Some (k, a) ->
       exists k' a', nth_error (snd s') gid = Some (k', a') /\ (k' = 9 \/ k' = S k)%nat).
Proof.
  destruct s as [flags pr]. intros (L1 & L2 & M & P) Hg. unfold item_step.
  destruct (nth_error pr gid) as [[k acc]|] eqn:E; [|apply nth_error_None in E; lia].
  unfold aget at 1. rewrite E. cbn [rbind]. destruct (P _ _ _ E) as (Hk & HA & HR & HF).
  destruct ((gid + 8 <=? cnt)%nat && (k <? 8)%nat) eqn:C.
  - apply andb_prop in C as [C1 C2]. apply Nat.leb_le in C1. apply Nat.ltb_lt in C2.
    rewrite (aget_lt flags _ false) by lia. cbn [rbind]. rewrite aset_lt by lia. cbn [rbind].
    eexists. split; [reflexivity|]. split; [|split].
    + split; [auto|]. split; [now rewrite length_upd|]. split; [auto|].
      intros g k' a' E'. destruct (Nat.eq_dec gid g) as [->|NE].
      * rewrite nth_error_upd_eq in E' by lia. injection E' as <- <-.
        split; [lia|]. split; [|split; [lia|intros X; lia]].
        intros _ X l Hl. apply andb_prop in X as [X1 X2].
        destruct (Nat.eq_dec l k) as [->|]; [apply M; exact X2|apply HA; auto; lia].
      * rewrite nth_error_upd_neq in E' by auto. exact (P _ _ _ E').
    + intros g NE. simpl. apply nth_error_upd_neq. auto.
    + intros k0 a0 E0. simpl in *. rewrite E in E0. injection E0 as <- <-. rewrite nth_error_upd_eq by lia. eauto.
  - destruct (Nat.eqb_spec k 9) as [->|K9].
    + eexists. split; [reflexivity|]. split; [exact (conj L1 (conj L2 (conj M P)))|]. split; auto.
      intros k0 a0 E0. simpl in *. rewrite E in *. injection E0 as <- <-. eauto.
    + set (dm := if (gid + 8 <=? cnt)%nat then acc && ok gid else false).
      rewrite aset_lt by lia. cbn [rbind]. rewrite aset_lt by lia. cbn [rbind].
      assert (D : dm = true -> (gid + 8 <= cnt)%nat /\ ok gid = true /\ forall l, (l < 8)%nat -> nth (gid + l) init false = true).
      { unfold dm. destruct (Nat.leb_spec (gid + 8) (cnt)) as [Q|Q]; [|discriminate]. intros X. apply andb_prop in X as [X1 X2].
        split; auto. split; auto. intros l Hl. apply HA; auto; [lia|].
        cbn [andb] in C. apply Nat.ltb_ge in C. lia. }
      eexists. split; [reflexivity|]. split; [|split].
      * split; [now rewrite length_upd|]. split; [now rewrite length_upd|]. split.
        { intros j Hj. destruct (Nat.eq_dec gid j) as [<-|NE].
          - rewrite nth_upd_eq in Hj by lia. apply D in Hj. destruct Hj as (_ & _ & Hj). specialize (Hj 0%nat ltac:(lia)). now rewrite Nat.add_0_r in Hj.
          - rewrite nth_upd_neq in Hj by auto. auto. }
        intros g k' a' E'. destruct (Nat.eq_dec gid g) as [->|NE].
        { rewrite nth_error_upd_eq in E' by lia. injection E' as <- <-. split; [lia|]. split; [intros X; lia|]. split; [lia|].
          intros _ X. rewrite nth_upd_eq in X by lia. auto. }
        { rewrite nth_error_upd_neq in E' by auto. destruct (P _ _ _ E') as (A1 & A2 & A3 & A4). split; [exact A1|]. split; [exact A2|]. split; [exact A3|].
          intros X Y. rewrite nth_upd_neq in Y by auto. now apply A4. }
      * intros g NE. simpl. apply nth_error_upd_neq. auto.
      * intros k0 a0 E0. simpl in *. rewrite nth_error_upd_eq by lia. eauto.
Qed.

Lemma kernel_gen cnt ok init sched : Forall (fun i => (i < cnt)%nat) sched -> forall s, kinv cnt ok init s ->
  exists s', rfold (item_step cnt ok) sched s = Ok s' /\ kinv cnt ok init s' /\
    forall g k a, nth_error (snd s) g = Some (k, a) -> exists k' a', nth_error (snd s') g = Some (k', a') /\
      (k' = 9 \/ k' = k + count_occ Nat.eq_dec sched g)%nat.
Proof.
  induction sched as [|i t IH]; intros F s K; cbn [rfold].
  - exists s. split; auto. split; auto. intros g k a E. exists k, a. split; [exact E|]. right. simpl. lia.
  - inversion F as [|? ? Hi Ft]; subst. destruct (item_step_inv cnt ok init i s K Hi) as (s1 & E1 & K1 & N1 & G1).
    rewrite E1. cbn [rbind]. destruct (IH Ft s1 K1) as (s2 & E2 & K2 & G2). exists s2. split; auto. split; auto.
    intros g k a E. cbn [count_occ]. destruct (Nat.eq_dec i g) as [->|NE].
    + destruct (G1 _ _ E) as (k1 & a1 & A1 & B1). destruct (G2 _ _ _ A1) as (k2 & a2 & A2 & B2). exists k2, a2. split; auto.
      assert (Q : (k2 <= 8 \/ k2 = 9)%nat). { destruct s2 as [f2 p2]. destruct K2 as (_ & _ & _ & P2). exact (proj1 (P2 _ _ _ A2)). }
      destruct B2 as [B2|B2]; auto. destruct B1 as [B1|B1]; lia.
    + destruct (G2 g k a) as (k2 & a2 & A2 & B2); [rewrite N1; auto|]. exists k2, a2. auto.
Qed.

Lemma merge_kernel_ok cnt ok init sched : length init = cnt -> complete (cnt) sched ->
  exists flags pr, merge_kernel sched cnt ok init = Ok (flags, pr) /\ all_done pr /\ length flags = cnt /\
    (forall g, nth g flags false = true ->
       (g + 8 <= cnt)%nat /\ ok g = true /\ forall l, (l < 8)%nat -> nth (g + l) init false = true).
Proof.
  intros LI (F & CC). unfold merge_kernel.
  assert (K : kinv cnt ok init (init, repeat (0%nat, true) (cnt))).
  { split; auto. split; [now rewrite repeat_length|]. split; [auto|]. intros g k a E.
    apply nth_error_In, repeat_spec in E. injection E as -> ->. split; [lia|]. split; [intros; lia|]. split; [lia|]. intros; lia. }
  destruct (kernel_gen cnt ok init sched F _ K) as ([flags pr] & E & K' & G). exists flags, pr. split; auto.
  destruct K' as (L1 & L2 & M & P). simpl in G.
  assert (DONE : forall g k a, nth_error pr g = Some (k, a) -> k = 9%nat).
  { intros g k a Eg. assert (Hg : (g < cnt)%nat) by (rewrite <- L2; apply nth_error_Some; congruence).
    destruct (G g 0%nat true) as (k' & a' & A & B).
    { rewrite (nth_error_nth' _ (0%nat, true)) by (rewrite repeat_length; lia). now rewrite nth_repeat. }
    rewrite Eg in A. injection A as -> ->. specialize (CC g Hg). destruct (P _ _ _ Eg) as (Q & _). lia. }
  split; [|split; auto].
  - apply Forall_forall. intros [k a] Hin. apply In_nth_error in Hin as [g Hg]. exact (DONE _ _ _ Hg).
  - intros g Hg. destruct (nth_error pr g) as [[k a]|] eqn:Eg.
    + pose proof (DONE _ _ _ Eg) as ->. destruct (P _ _ _ Eg) as (_ & _ & _ & Q). now apply Q.
    + apply nth_error_None in Eg. rewrite nth_overflow in Hg by lia. discriminate.
Qed.


(* ---------- the refinement sweeps ---------- *)
Lemma w64_small x : (0 <= x <= 100)%Z -> w64 x = x.
Proof. intros H. unfold w64, wrapZ. apply Z.mod_small. change (2 ^ 64)%Z with 18446744073709551616%Z. lia. Qed.

Section Refine.
Local Open Scope nat_scope.
Variables (cnt : nat) (lev : list Z) (graph : list (list nat)).
Hypothesis Hlev : length lev >= cnt.
Hypothesis Hgr : length graph >= cnt.
Hypothesis Hb : forall i, i < cnt -> (0 <= nth i lev 0 <= 62)%Z.

(** the link i -> n forces the neighbour n of a block i which is split to be split *)
Definition forces (i n : nat) : Prop := i < cnt /\ n < cnt /\ In n (nth i graph []) /\ (nth n lev 0 < nth i lev 0)%Z.
Inductive Reach (F : list bool) : nat -> Prop :=
| reach0 n : nth n F false = true -> Reach F n
| reachS i n : Reach F i -> forces i n -> Reach F n.

Definition left (p : pc) (i : nat) : list nat := match p with Start => nth i graph [] | Links l => l | WriteFlag n l => n :: l | WriteChanged l => l end.
Definition meas (p : pc) (i : nat) : nat :=
  match p with Start => 1 + 3 * length (nth i graph []) | Links l => 3 * length l | WriteFlag _ l => 2 + 3 * length l | WriteChanged l => 1 + 3 * length l end.
Definition rinv (F0 : list bool) (s : list bool * bool * list pc) : Prop :=
  let '(F, ch, pcs) := s in
  length F = cnt /\ length pcs = cnt /\
  (forall n, nth n F0 false = true -> nth n F false = true) /\
  (forall n, nth n F false = true -> Reach F0 n) /\
  (forall i p, nth_error pcs i = Some p ->
     (match p with Start => True | Links l => l <> [] -> Reach F0 i | WriteFlag n l => Reach F0 i /\ nth n F0 false = false /\ forces i n
      | WriteChanged l => Reach F0 i /\ exists n, nth n F false = true /\ nth n F0 false = false end) /\
     incl (left p i) (nth i graph []) /\
     (nth i F0 false = true -> forall n, forces i n -> In n (left p i) \/ nth n F false = true)) /\
  (ch = true -> exists n, nth n F false = true /\ nth n F0 false = false) /\
  (ch = false -> (forall n, nth n F false = nth n F0 false) \/ exists i l, nth_error pcs i = Some (WriteChanged l)).

Lemma ref_step_inv F0 i s : rinv F0 s -> i < cnt ->
  exists s', ref_step cnt lev graph i s = Ok s' /\ rinv F0 s' /\
    (forall j, j <> i -> nth_error (snd s') j = nth_error (snd s) j) /\
    (forall p, nth_error (snd s) i = Some p -> exists p', nth_error (snd s') i = Some p' /\ (meas p' i = 0 \/ meas p' i < meas p i)).
Proof.
  destruct s as [[F ch] pcs]. intros (LF & LP & M0 & M1 & P & C1 & C2) Hi. unfold ref_step.
  destruct (nth_error pcs i) as [p|] eqn:E; [|apply nth_error_None in E; lia].
  unfold aget at 1. rewrite E. cbn [rbind]. destruct (P _ _ E) as (PA & PB & PC).
  (* a step which only moves the program of the item *)
  assert (MOVE : forall p', (forall l, p <> WriteChanged l) ->
     (match p' with Start => True | Links l => l <> [] -> Reach F0 i | WriteFlag n l => Reach F0 i /\ nth n F0 false = false /\ forces i n | WriteChanged l => False end) ->
     incl (left p' i) (nth i graph []) ->
     (nth i F0 false = true -> forall n, forces i n -> In n (left p' i) \/ nth n F false = true) ->
     (meas p' i = 0 \/ meas p' i < meas p i) ->
     exists s', (pcs' <- aset pcs i p' ;; Ok (F, ch, pcs')) = Ok s' /\ rinv F0 s' /\
       (forall j, j <> i -> nth_error (snd s') j = nth_error pcs j) /\
       (forall q, nth_error (snd (F, ch, pcs)) i = Some q -> exists p'', nth_error (snd s') i = Some p'' /\ (meas p'' i = 0 \/ meas p'' i < meas q i))).
  { intros p' NW A B C D. rewrite aset_lt by lia. cbn [rbind]. eexists. split; [reflexivity|]. split; [|split].
    - split; auto. split; [now rewrite length_upd|]. split; auto. split; auto. split; [|split].
      + intros j q Ej. destruct (Nat.eq_dec i j) as [<-|NE].
        * rewrite nth_error_upd_eq in Ej by lia. injection Ej as <-. split; [|split; auto]. destruct p'; try exact A; destruct A.
        * rewrite nth_error_upd_neq in Ej by auto. exact (P _ _ Ej).
      + exact C1.
      + intros X. destruct (C2 X) as [Y|(j & l & Ej)]; [now left|right]. exists j, l. destruct (Nat.eq_dec i j) as [<-|NE].
        * rewrite E in Ej. injection Ej as ->. now destruct (NW l).
        * now rewrite nth_error_upd_neq.
    - intros j NE. simpl. apply nth_error_upd_neq. auto.
    - intros q Eq. simpl in Eq. rewrite E in Eq. injection Eq as <-. simpl. rewrite nth_error_upd_eq by lia. eauto. }
  destruct p as [|l|n l|l].
  - rewrite (aget_lt F _ false) by lia. cbn [rbind]. destruct (nth i F false) eqn:FI.
    + rewrite (aget_lt graph _ []) by lia. cbn [rbind]. apply MOVE; [discriminate|intros _; auto|exact PB|exact PC|right; simpl; lia].
    + apply MOVE; [discriminate|intros X; now destruct X|intros x []| |left; reflexivity].
      intros X. apply M0 in X. congruence.
  - destruct l as [|n l].
    + eexists. split; [reflexivity|]. split; [exact (conj LF (conj LP (conj M0 (conj M1 (conj P (conj C1 C2))))))|]. split; auto.
      intros q Eq. simpl in *. rewrite E in *. injection Eq as <-. eexists. split; [reflexivity|left; reflexivity].
    + assert (RI : Reach F0 i) by (apply PA; discriminate). assert (IL : incl l (nth i graph [])) by (intros x Hx; apply PB; now right).
      destruct (Nat.leb_spec cnt n) as [G|G].
      * apply MOVE; [discriminate|intros _; auto|exact IL| |right; simpl; lia].
        intros X m Hm. destruct (PC X m Hm) as [[<-|Y]|Y]; auto. destruct Hm as (_ & Hm & _). lia.
      * rewrite (aget_lt lev _ 0%Z) by lia. cbn [rbind]. rewrite (aget_lt F _ false) by lia. cbn [rbind]. rewrite (aget_lt lev _ 0%Z) by lia. cbn [rbind].
        pose proof (Hb i Hi) as B1. pose proof (Hb n G) as B2. rewrite !w64_small by (unfold b2Z; try (rewrite w64_small); destruct (nth n F false); lia).
        destruct (nth n F false) eqn:FN; cbn [b2Z negb andb].
        { rewrite andb_false_r. apply MOVE; [discriminate|intros _; auto|exact IL| |right; simpl; lia].
          intros X m Hm. destruct (PC X m Hm) as [[<-|Y]|Y]; auto. }
        rewrite andb_true_r. destruct (Z.ltb_spec (nth n lev 0 + 0 + 1) (nth i lev 0 + 1))%Z as [Q|Q].
        { apply MOVE; [discriminate| |exact PB|exact PC|right; simpl; lia].
          split; auto. split; [|split; [exact Hi|split; [exact G|split; [apply PB; now left|lia]]]].
          destruct (nth n F0 false) eqn:Y; auto. apply M0 in Y. congruence. }
        { apply MOVE; [discriminate|intros _; auto|exact IL| |right; simpl; lia].
          intros X m Hm. destruct (PC X m Hm) as [[<-|Y]|Y]; auto. destruct Hm as (_ & _ & _ & Hm). lia. }
  - destruct PA as (RI & N0 & FO). assert (Hn : n < cnt) by (destruct FO; tauto).
    rewrite aset_lt by lia. cbn [rbind]. rewrite aset_lt by lia. cbn [rbind].
    assert (UP : forall m, nth m (upd F n true) false = true <-> (m = n \/ nth m F false = true)).
    { intros m. destruct (Nat.eq_dec n m) as [<-|NE]; [rewrite nth_upd_eq by lia; tauto|rewrite nth_upd_neq by auto]. split; [tauto|]. intros [->|]; tauto. }
    eexists. split; [reflexivity|]. split; [|split].
    + split; [now rewrite length_upd|]. split; [now rewrite length_upd|]. split; [intros m Hm; apply UP; auto|]. split.
      { intros m Hm. apply UP in Hm as [->|Hm]; auto. eapply reachS; eauto. }
      split; [|split].
      * intros j q Ej. destruct (Nat.eq_dec i j) as [<-|NE].
        -- rewrite nth_error_upd_eq in Ej by lia. injection Ej as <-. split; [split; auto; exists n; split; [apply UP; auto|auto]|].
           split; [intros x Hx; apply PB; now right|]. intros X m Hm. rewrite UP. destruct (PC X m Hm) as [[<-|Y]|Y]; auto.
        -- rewrite nth_error_upd_neq in Ej by auto. destruct (P _ _ Ej) as (A & B & C). split; [|split; auto].
           ++ destruct q; auto. destruct A as (A1 & m & A2 & A3). split; auto. exists m. split; auto. apply UP. auto.
           ++ intros X m Hm. rewrite UP. destruct (C X m Hm); auto.
      * intros X. destruct (C1 X) as (m & A & B). exists m. split; auto. apply UP. auto.
      * intros _. right. exists i, l. apply nth_error_upd_eq. lia.
    + intros j NE. simpl. apply nth_error_upd_neq. auto.
    + intros q Eq. simpl in *. rewrite E in Eq. injection Eq as <-. rewrite nth_error_upd_eq by lia. eexists. split; [reflexivity|right; simpl; lia].
  - destruct PA as (RI & W). rewrite aset_lt by lia. cbn [rbind]. eexists. split; [reflexivity|]. split; [|split].
    + split; auto. split; [now rewrite length_upd|]. split; auto. split; auto. split; [|split; [intros _; exact W|discriminate]].
      intros j q Ej. destruct (Nat.eq_dec i j) as [<-|NE].
      * rewrite nth_error_upd_eq in Ej by lia. injection Ej as <-. split; [auto|]. split; auto.
      * rewrite nth_error_upd_neq in Ej by auto. exact (P _ _ Ej).
    + intros j NE. simpl. apply nth_error_upd_neq. auto.
    + intros q Eq. simpl in *. rewrite E in Eq. injection Eq as <-. rewrite nth_error_upd_eq by lia. eexists. split; [reflexivity|right; simpl; lia].
Qed.

Lemma ref_gen F0 sched : Forall (fun i => i < cnt) sched -> forall s, rinv F0 s ->
  exists s', rfold (ref_step cnt lev graph) sched s = Ok s' /\ rinv F0 s' /\
    forall i p, nth_error (snd s) i = Some p -> exists p', nth_error (snd s') i = Some p' /\
      (meas p' i = 0 \/ meas p' i + count_occ Nat.eq_dec sched i <= meas p i).
Proof.
  induction sched as [|i t IH]; intros F s K; cbn [rfold].
  - exists s. split; auto. split; auto. intros j p Ej. exists p. split; auto. right. simpl. lia.
  - inversion F as [|? ? Hi Ft]; subst. destruct (ref_step_inv F0 i s K Hi) as (s1 & E1 & K1 & N1 & G1).
    rewrite E1. cbn [rbind]. destruct (IH Ft s1 K1) as (s2 & E2 & K2 & G2). exists s2. split; auto. split; auto.
    intros j p Ej. cbn [count_occ]. destruct (Nat.eq_dec i j) as [<-|NE].
    + destruct (G1 _ Ej) as (p1 & A1 & B1). destruct (G2 _ _ A1) as (p2 & A2 & B2). exists p2. split; auto. lia.
    + destruct (G2 j p) as (p2 & A2 & B2); [rewrite N1; auto|]. exists p2. auto.
Qed.

Lemma ref_sweep_ok F0 sched : length F0 = cnt -> complete_sweep cnt graph sched ->
  exists F ch pcs, ref_sweep cnt lev graph sched F0 = Ok (F, ch, pcs) /\ length F = cnt /\
    (forall n, nth n F0 false = true -> nth n F false = true) /\
    (forall n, nth n F false = true -> Reach F0 n) /\
    (forall i n, nth i F0 false = true -> forces i n -> nth n F false = true) /\
    (ch = true -> exists n, nth n F false = true /\ nth n F0 false = false) /\
    (ch = false -> forall n, nth n F false = nth n F0 false).
Proof.
  intros LF (FS & CS). unfold ref_sweep.
  assert (K : rinv F0 (F0, false, repeat Start cnt)).
  { split; auto. split; [apply repeat_length|]. split; auto. split; [intros; now constructor|]. split; [|split; [discriminate|auto]].
    intros i p E. apply nth_error_In, repeat_spec in E as ->. split; auto. split; [intros x; auto|]. intros _ n (_ & _ & Hn & _). now left. }
  destruct (ref_gen F0 sched FS _ K) as ([[F ch] pcs] & E & (LF' & LP & M0 & M1 & P & C1 & C2) & G). cbn [snd] in G.
  assert (DONE : forall i p, nth_error pcs i = Some p -> p = Links []).
  { intros i p Ei. assert (Hi : i < cnt) by (rewrite <- LP; apply nth_error_Some; congruence).
    destruct (G i Start) as (p' & E' & D). { rewrite (nth_error_nth' _ Start) by (rewrite repeat_length; lia). now rewrite nth_repeat. }
    rewrite Ei in E'. injection E' as <-. specialize (CS i Hi). cbn [meas] in D. assert (Z : meas p i = 0) by lia.
    destruct p as [|[|]| |]; cbn in Z; lia || reflexivity. }
  exists F, ch, pcs. split; auto. split; auto. split; auto. split; auto. split; [|split; auto].
  - intros i n Hi HF. assert (Hc : i < cnt) by (destruct HF; auto). destruct (nth_error pcs i) as [p|] eqn:Ei; [|apply nth_error_None in Ei; lia].
    pose proof (DONE _ _ Ei) as ->. destruct (P _ _ Ei) as (_ & _ & Q). destruct (Q Hi n HF) as [[]|]; auto.
  - intros X. destruct (C2 X) as [Y|(i & l & Ei)]; auto. apply DONE in Ei. discriminate.
Qed.

Lemma Reach_trans F G n : (forall m, nth m G false = true -> Reach F m) -> Reach G n -> Reach F n.
Proof. intros H R. induction R; [auto|eapply reachS; eauto]. Qed.

Definition front (F : list bool) (B : Z) : Prop := forall i n, nth i F false = true -> forces i n -> nth n F false = false -> (nth i lev 0 <= B)%Z.
Lemma ref_loop_ok fuel : forall pass B F sched, length F = cnt -> (forall p, complete_sweep cnt graph (sched p)) -> front F B -> (B < Z.of_nat fuel)%Z -> (0 < fuel) ->
  exists F' k, ref_loop fuel pass cnt lev graph sched F = Ok (F', k) /\ length F' = cnt /\ (k <= pass + fuel) /\
    forall n, nth n F' false = true <-> Reach F n.
Proof.
  induction fuel as [|fuel IH]; intros pass B F sched LF HS HF HB Hf; [lia|]. cbn [ref_loop].
  destruct (ref_sweep_ok F (sched pass) LF (HS pass)) as (F1 & ch & pcs & E & L1 & M0 & M1 & MC & C1 & C2). rewrite E. cbn [rbind].
  assert (NEW : forall n, nth n F1 false = true -> nth n F false = false -> (nth n lev 0 <= B - 1)%Z).
  { intros n Hn Hn0. apply M1 in Hn. clear - Hn Hn0 HF. induction Hn as [n Hn|i n Hi IH FO]; [congruence|].
    destruct (nth i F false) eqn:X.
    - pose proof (HF i n X FO Hn0). destruct FO as (_ & _ & _ & FO). lia.
    - specialize (IH eq_refl). destruct FO as (_ & _ & _ & FO). lia. }
  destruct ch.
  - destruct (C1 eq_refl) as (m & Hm & Hm0). pose proof (NEW m Hm Hm0) as Bm.
    assert (Hmc : m < cnt) by (destruct (Nat.lt_ge_cases m cnt); auto; rewrite nth_overflow in Hm by lia; discriminate).
    pose proof (Hb m Hmc).
    destruct (IH (S pass) (B - 1)%Z F1 sched) as (F2 & k & E2 & L2 & K2 & R2); auto; try lia.
    + intros i n Hi FO Hn. destruct (nth i F false) eqn:X; [|auto]. rewrite (MC i n X FO) in Hn. discriminate.
    + exists F2, k. split; auto. split; auto. split; [lia|]. intros n. rewrite R2. split.
      * apply Reach_trans. auto.
      * apply Reach_trans. intros x Hx. constructor. auto.
  - exists F1, (S pass). split; auto. split; auto. split; [lia|]. intros n. rewrite (C2 eq_refl). split; [now constructor|].
    intros R. induction R as [n Hn|i n R IHR FO]; auto. rewrite <- (C2 eq_refl). eapply MC; eauto.
Qed.
Lemma enforce_refinement_ok F sched : length F = cnt -> (forall p, complete_sweep cnt graph (sched p)) ->
  exists F' k, enforce_refinement cnt lev graph sched F = Ok (F', k) /\ length F' = cnt /\ k <= 100 /\ forall n, nth n F' false = true <-> Reach F n.
Proof.
  intros LF HS. unfold enforce_refinement. destruct (ref_loop_ok 100 0 62 F sched) as (F' & k & E & L & K & R); auto; try lia.
  - intros i n _ (Hi & _) _. apply Hb, Hi.
  - exists F', k. auto.
Qed.
End Refine.
