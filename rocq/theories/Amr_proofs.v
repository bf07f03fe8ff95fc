(** Proofs about the change of the AMR grid *)
From Verif Require Import Base Par Scan_spec Morton Morton_spec Morton_proofs Amr Amr_spec.
From Coq Require Import ZArith Reals Lra.
Local Open Scope Z_scope.

(* ---------- selection ---------- *)
Lemma flagged_in fl i : In i (flagged fl) <-> nth i fl false = true.
Proof.
  unfold flagged. rewrite filter_In, in_seq. split; [tauto|]. intros H. split; auto.
  destruct (Nat.lt_ge_cases i (length fl)) as [A|A]; [lia|]. rewrite nth_overflow in H by lia. discriminate.
Qed.
Lemma flagged_nodup fl : NoDup (flagged fl).
Proof. apply NoDup_filter, seq_NoDup. Qed.
Lemma flagged_lt fl i : In i (flagged fl) -> (i < length fl)%nat.
Proof. unfold flagged. rewrite filter_In, in_seq. lia. Qed.

(* ---------- the merge kernel ---------- *)
Definition eight (st : list block) (gid : nat) : list (Z3 * Z3) := map coords (firstn 8 (skipn gid st)).
Definition kinv (st : list block) (init : list bool) (s : list bool * list prog) : Prop :=
  let '(flags, pr) := s in
  length flags = length st /\ length pr = length st /\
  (forall j, nth j flags false = true -> nth j init false = true) /\
  (forall g k acc, nth_error pr g = Some (k, acc) ->
     (k <= 8 \/ k = 9)%nat /\ ((k < 9)%nat -> acc = true -> forall l, (l < k)%nat -> nth (g + l) init false = true) /\
     (0 < k -> k < 9 -> g + 8 <= length st)%nat /\
     (k = 9%nat -> nth g flags false = true ->
        (g + 8 <= length st)%nat /\ are_mergeable (eight st g) = true /\ forall l, (l < 8)%nat -> nth (g + l) init false = true)).

Lemma nth_error_nth_true (l : list bool) i b : nth_error l i = Some b -> nth i l false = b.
Proof. intros H. now apply nth_error_nth. Qed.

Lemma item_step_inv st init gid s : kinv st init s -> (gid < length st)%nat ->
  exists s', item_step st gid s = Ok s' /\ kinv st init s' /\
    (forall g, g <> gid -> nth_error (snd s') g = nth_error (snd s) g) /\
    (forall k a, nth_error (snd s) gid = Some (k, a) ->
       exists k' a', nth_error (snd s') gid = Some (k', a') /\ (k' = 9 \/ k' = S k)%nat).
Proof.
  destruct s as [flags pr]. intros (L1 & L2 & M & P) Hg. unfold item_step.
  destruct (nth_error pr gid) as [[k acc]|] eqn:E; [|apply nth_error_None in E; lia].
  unfold aget at 1. rewrite E. cbn [rbind]. destruct (P _ _ _ E) as (Hk & HA & HR & HF).
  destruct ((gid + 8 <=? length st)%nat && (k <? 8)%nat) eqn:C.
  - apply andb_prop in C as [C1 C2]. apply Nat.leb_le in C1. apply Nat.ltb_lt in C2.
    rewrite (aget_lt flags _ false) by lia. cbn [rbind]. rewrite aset_lt by lia. cbn [rbind].
    eexists. split; [reflexivity|]. split; [|split].
    + split; [auto|]. split; [now rewrite length_upd|]. split; [auto|].
      intros g k' a' E'. destruct (Nat.eq_dec gid g) as [->|NE].
      * rewrite nth_error_upd_eq in E' by lia. injection E' as <- <-.
        split; [lia|]. split; [|split; [lia|intros X; lia]].
        intros _ X l Hl. apply andb_prop in X as [X1 X2].
        destruct (Nat.eq_dec l k) as [->|]; [apply M; exact X2|apply HA; auto; lia].
      * rewrite nth_error_upd_neq in E' by auto. exact (P _ _ _ E').
    + intros g NE. simpl. apply nth_error_upd_neq. auto.
    + intros k0 a0 E0. simpl in *. rewrite E in E0. injection E0 as <- <-. rewrite nth_error_upd_eq by lia. eauto.
  - destruct (Nat.eqb_spec k 9) as [->|K9].
    + eexists. split; [reflexivity|]. split; [exact (conj L1 (conj L2 (conj M P)))|]. split; auto.
      intros k0 a0 E0. simpl in *. rewrite E in *. injection E0 as <- <-. eauto.
    + set (dm := if (gid + 8 <=? length st)%nat then acc && are_mergeable (map coords (firstn 8 (skipn gid st))) else false).
      rewrite aset_lt by lia. cbn [rbind]. rewrite aset_lt by lia. cbn [rbind].
      assert (D : dm = true -> (gid + 8 <= length st)%nat /\ are_mergeable (eight st gid) = true /\ forall l, (l < 8)%nat -> nth (gid + l) init false = true).
      { unfold dm. destruct (Nat.leb_spec (gid + 8) (length st)) as [Q|Q]; [|discriminate]. intros X. apply andb_prop in X as [X1 X2].
        split; auto. split; auto. intros l Hl. apply HA; auto; [lia|].
        cbn [andb] in C. apply Nat.ltb_ge in C. lia. }
      eexists. split; [reflexivity|]. split; [|split].
      * split; [now rewrite length_upd|]. split; [now rewrite length_upd|]. split.
        { intros j Hj. destruct (Nat.eq_dec gid j) as [<-|NE].
          - rewrite nth_upd_eq in Hj by lia. apply D in Hj. destruct Hj as (_ & _ & Hj). specialize (Hj 0%nat ltac:(lia)). now rewrite Nat.add_0_r in Hj.
          - rewrite nth_upd_neq in Hj by auto. auto. }
        intros g k' a' E'. destruct (Nat.eq_dec gid g) as [->|NE].
        { rewrite nth_error_upd_eq in E' by lia. injection E' as <- <-. split; [lia|]. split; [intros X; lia|]. split; [lia|].
          intros _ X. rewrite nth_upd_eq in X by lia. auto. }
        { rewrite nth_error_upd_neq in E' by auto. destruct (P _ _ _ E') as (A1 & A2 & A3 & A4). split; [exact A1|]. split; [exact A2|]. split; [exact A3|].
          intros X Y. rewrite nth_upd_neq in Y by auto. now apply A4. }
      * intros g NE. simpl. apply nth_error_upd_neq. auto.
      * intros k0 a0 E0. simpl in *. rewrite nth_error_upd_eq by lia. eauto.
Qed.

Lemma kernel_gen st init sched : Forall (fun i => (i < length st)%nat) sched -> forall s, kinv st init s ->
  exists s', rfold (item_step st) sched s = Ok s' /\ kinv st init s' /\
    forall g k a, nth_error (snd s) g = Some (k, a) -> exists k' a', nth_error (snd s') g = Some (k', a') /\
      (k' = 9 \/ k' = k + count_occ Nat.eq_dec sched g)%nat.
Proof.
  induction sched as [|i t IH]; intros F s K; cbn [rfold].
  - exists s. split; auto. split; auto. intros g k a E. exists k, a. split; [exact E|]. right. simpl. lia.
  - inversion F as [|? ? Hi Ft]; subst. destruct (item_step_inv st init i s K Hi) as (s1 & E1 & K1 & N1 & G1).
    rewrite E1. cbn [rbind]. destruct (IH Ft s1 K1) as (s2 & E2 & K2 & G2). exists s2. split; auto. split; auto.
    intros g k a E. cbn [count_occ]. destruct (Nat.eq_dec i g) as [->|NE].
    + destruct (G1 _ _ E) as (k1 & a1 & A1 & B1). destruct (G2 _ _ _ A1) as (k2 & a2 & A2 & B2). exists k2, a2. split; auto.
      assert (Q : (k2 <= 8 \/ k2 = 9)%nat). { destruct s2 as [f2 p2]. destruct K2 as (_ & _ & _ & P2). exact (proj1 (P2 _ _ _ A2)). }
      destruct B2 as [B2|B2]; auto. destruct B1 as [B1|B1]; lia.
    + destruct (G2 g k a) as (k2 & a2 & A2 & B2); [rewrite N1; auto|]. exists k2, a2. auto.
Qed.

Lemma merge_kernel_ok st init sched : length init = length st -> complete (length st) sched ->
  exists flags pr, merge_kernel sched st init = Ok (flags, pr) /\ all_done pr /\ length flags = length st /\
    (forall g, nth g flags false = true ->
       (g + 8 <= length st)%nat /\ are_mergeable (eight st g) = true /\ forall l, (l < 8)%nat -> nth (g + l) init false = true).
Proof.
  intros LI (F & CC). unfold merge_kernel.
  assert (K : kinv st init (init, repeat (0%nat, true) (length st))).
  { split; auto. split; [now rewrite repeat_length|]. split; [auto|]. intros g k a E.
    apply nth_error_In, repeat_spec in E. injection E as -> ->. split; [lia|]. split; [intros; lia|]. split; [lia|]. intros; lia. }
  destruct (kernel_gen st init sched F _ K) as ([flags pr] & E & K' & G). exists flags, pr. split; auto.
  destruct K' as (L1 & L2 & M & P). simpl in G.
  assert (DONE : forall g k a, nth_error pr g = Some (k, a) -> k = 9%nat).
  { intros g k a Eg. assert (Hg : (g < length st)%nat) by (rewrite <- L2; apply nth_error_Some; congruence).
    destruct (G g 0%nat true) as (k' & a' & A & B).
    { rewrite (nth_error_nth' _ (0%nat, true)) by (rewrite repeat_length; lia). now rewrite nth_repeat. }
    rewrite Eg in A. injection A as -> ->. specialize (CC g Hg). destruct (P _ _ _ Eg) as (Q & _). lia. }
  split; [|split; auto].
  - apply Forall_forall. intros [k a] Hin. apply In_nth_error in Hin as [g Hg]. exact (DONE _ _ _ Hg).
  - intros g Hg. destruct (nth_error pr g) as [[k a]|] eqn:Eg.
    + pose proof (DONE _ _ _ Eg) as ->. destruct (P _ _ _ Eg) as (_ & _ & _ & Q). now apply Q.
    + apply nth_error_None in Eg. rewrite nth_overflow in Hg by lia. discriminate.
Qed.

(* ---------- the cells of the new blocks ---------- *)
Ltac explode l H := (* a list of length 8 as eight elements *)
  let T := fresh in
  do 8 (destruct l as [|?c l]; [discriminate H|]); destruct l as [|? ?]; [|discriminate H].

Lemma apply_refine_ok old new : length old = 8%nat -> length new = 8%nat -> Forall (fun c => length c = 8%nat) new ->
  apply_refine old new = Ok (map (fun v => repeat v 8) old).
Proof.
  intros Ho Hn F. explode old Ho. explode new Hn.
  repeat match goal with H : Forall _ (_ :: _) |- _ => inversion H; clear H; subst end.
  repeat match goal with H : length ?l = 8%nat |- _ => explode l H; clear H end.
  reflexivity.
Qed.
Definition child (cur : block) (pid : nat) : block :=
  let c := nth pid (get_split (bmin cur) (bmax cur)) ((0, 0, 0), (0, 0, 0)) in
  mkB (fst c) (snd c) (repeat (nth pid (cells cur) czero) 8).
