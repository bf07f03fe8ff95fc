(** The stack machine performs the depth first walk. *)
From Verif Require Import Base Karras Karras_spec Traverse Traverse_spec.
From Coq Require Import ZifyBool ZifyNat NArith.
Local Open Scope nat_scope.

Fixpoint nvis (off : nat) (cond : nat -> bool) (t : tree) : nat :=
  match t with Leaf _ => 1 | Node i l r => if cond i then S (nvis off cond l + nvis off cond r) else 1 end.
Lemma nvis_bound off cond t : nvis off cond t <= 2 * length (internals t) + 1.
Proof. induction t; simpl; [lia|]. destruct (cond i); rewrite ?app_length; lia. Qed.

Lemma node_id_reads cells off b id t : reads cells b id t -> node_id off t = if b then id + off else id.
Proof. intros H. inversion H; reflexivity. Qed.

Lemma reads_node_inv cells b id i l r : reads cells b id (Node i l r) ->
  exists c, nth_error cells i = Some c /\ (0 <= lchild c)%Z /\ (0 <= rchild c)%Z /\
    reads cells (lflag c) (Z.to_nat (lchild c)) l /\ reads cells (rflag c) (Z.to_nat (rchild c)) r.
Proof. intros H. inversion H; subst. eauto 10. Qed.

Section T.
  Variables (depth : nat) (cells : list cell) (off : nat) (cond : nat -> bool).
  Hypothesis Hoff : (Z.of_nat off < 2 ^ 32)%Z.

  Definition small (t : tree) : Prop :=
    (forall k, In k (leaves t) -> (Z.of_nat (k + off) < 2 ^ 32)%Z) /\ (forall i, In i (internals t) -> i < off).

  Lemma child_ok z fl t : (0 <= z)%Z -> reads cells fl (Z.to_nat z) t -> small t -> child_id off z fl = node_id off t.
  Proof.
    intros Hz R [S1 S2]. unfold child_id. inversion R; subst; cbn [node_id].
    - specialize (S1 (Z.to_nat z) (or_introl eq_refl)). rewrite Z.mul_1_r, Z.mod_small by lia. lia.
    - specialize (S2 (Z.to_nat z) (or_introl eq_refl)). rewrite Z.mul_0_r, Z.mod_small by lia. lia.
  Qed.

  Lemma trav_sub : forall t b id, reads cells b id t -> small t -> forall fuel stack c log,
    length stack = depth -> c < depth -> height t <= c -> nth c stack 0%N = N.of_nat (node_id off t) ->
    exists stack', length stack' = depth /\ (forall x, c < x -> nth x stack' 0%N = nth x stack 0%N) /\
      trav_loop (nvis off cond t + fuel) depth cells off cond stack c log
      = trav_loop fuel depth cells off cond stack' (S c) (log ++ map (event_of off cond) (frontier off cond t)).
  Proof.
    induction t as [k|i l IHl r IHr]; intros b id R SM fuel stack c log HL Hc Hh Hn.
    - cbn [nvis Nat.add trav_loop]. replace (c <? depth) with true by lia.
      rewrite (aget_lt stack c 0%N) by lia. cbn [rbind]. rewrite Hn, Nat2N.id. rewrite aset_lt by lia. cbn [rbind node_id frontier map].
      exists (upd stack c nindex). split; [now rewrite length_upd|]. split; [intros; apply nth_upd_neq; lia|].
      unfold event_of. cbn [node_id]. destruct (cond (k + off)); auto.
      unfold is_id_leaf. replace (off <=? k + off) with true by lia. reflexivity.
    - destruct (reads_node_inv _ _ _ _ _ _ R) as (cc & En & L0 & R0 & Rl & Rr). cbn [nvis].
      assert (Hi : i < off) by (apply SM; simpl; auto).
      cbn [frontier node_id] in *. destruct (cond i) eqn:Ci.
      + cbn [Nat.add trav_loop]. replace (c <? depth) with true by lia.
        rewrite (aget_lt stack c 0%N) by lia. cbn [rbind]. rewrite Hn, Nat2N.id. rewrite aset_lt by lia. cbn [rbind].
        rewrite Ci. unfold is_id_leaf. replace (off <=? i) with false by lia.
        unfold get_left_child, get_right_child, aget. rewrite En. cbn [rbind].
        assert (SMl : small l).
        { destruct SM as [A B]. split; intros; [apply A|apply B]; simpl; [apply in_or_app; auto|right; apply in_or_app; auto]. }
        assert (SMr : small r).
        { destruct SM as [A B]. split; intros; [apply A|apply B]; simpl; [apply in_or_app; auto|right; apply in_or_app; auto]. }
        rewrite (child_ok _ _ l L0 Rl SMl), (child_ok _ _ r R0 Rr SMr).
        cbn [height] in Hh. destruct c as [|c]; [lia|].
        cbn [push]. rewrite aset_lt by (rewrite length_upd; lia). cbn [rbind fst snd].
        cbn [push]. rewrite aset_lt by (rewrite !length_upd; lia). cbn [rbind fst snd].
        set (st1 := upd (upd (upd stack (S c) nindex) (S c) (N.of_nat (node_id off r))) c (N.of_nat (node_id off l))).
        assert (L1 : length st1 = depth) by (unfold st1; now rewrite !length_upd).
        replace (nvis off cond l + nvis off cond r + fuel) with (nvis off cond l + (nvis off cond r + fuel)) by lia.
        destruct (IHl _ _ Rl SMl (nvis off cond r + fuel) st1 c log) as (st2 & L2 & N2 & E2); auto; try lia.
        { unfold st1. apply nth_upd_eq. rewrite !length_upd; lia. }
        rewrite E2.
        destruct (IHr _ _ Rr SMr fuel st2 (S c) (log ++ map (event_of off cond) (frontier off cond l))) as (st3 & L3 & N3 & E3); auto; try lia.
        { rewrite N2 by lia. unfold st1. rewrite nth_upd_neq by lia. apply nth_upd_eq. rewrite length_upd; lia. }
        rewrite E3. exists st3. split; auto. split.
        * intros x Hx. rewrite N3 by lia. rewrite N2 by lia. unfold st1. rewrite !nth_upd_neq by lia. reflexivity.
        * rewrite map_app, app_assoc. reflexivity.
      + cbn [Nat.add trav_loop]. replace (c <? depth) with true by lia.
        rewrite (aget_lt stack c 0%N) by lia. cbn [rbind]. rewrite Hn, Nat2N.id. rewrite aset_lt by lia. cbn [rbind].
        rewrite Ci. exists (upd stack c nindex). split; [now rewrite length_upd|]. split; [intros; apply nth_upd_neq; lia|].
        cbn [map]. unfold event_of. cbn [node_id]. rewrite Ci. reflexivity.
  Qed.
End T.

Lemma traversal_ok depth cells cond garbage t root b id :
  reads cells b id t -> root = node_id (length cells) t ->
  (Z.of_nat (length cells) < 2 ^ 32)%Z ->
  small (length cells) t -> length (internals t) <= length cells ->
  S (height t) <= depth -> length garbage = depth ->
  stack_based_traversal depth cells cond root garbage = Ok (map (event_of (length cells) cond) (frontier (length cells) cond t)).
Proof.
  intros R -> HO SM LI HH LG. unfold stack_based_traversal. destruct depth as [|d]; [lia|].
  rewrite aset_lt by lia. cbn [rbind].
  pose proof (nvis_bound (length cells) cond t).
  replace (2 * length cells + 2) with (nvis (length cells) cond t + (2 * length cells + 2 - nvis (length cells) cond t)) by lia.
  set (fu := 2 * length cells + 2 - nvis (length cells) cond t).
  assert (A1 : length (upd garbage d (N.of_nat (node_id (length cells) t))) = S d) by now rewrite length_upd.
  assert (A2 : nth d (upd garbage d (N.of_nat (node_id (length cells) t))) 0%N = N.of_nat (node_id (length cells) t)) by (apply nth_upd_eq; lia).
  destruct (trav_sub (S d) cells (length cells) cond HO t b id R SM fu _ d [] A1 ltac:(lia) ltac:(lia) A2) as (st' & _ & _ & E).
  rewrite E. cbn [app]. assert (F : exists f, fu = S f) by (exists (fu - 1); unfold fu; lia). destruct F as (f & ->).
  cbn [trav_loop]. replace (S d <? S d) with false by lia. reflexivity.
Qed.

(** properties of the frontier *)
Lemma frontier_leaves off cond t : flat_map leaves (frontier off cond t) = leaves t.
Proof.
  induction t as [k|i l IHl r IHr]; simpl; auto.
  destruct (cond i); simpl; [|now rewrite app_nil_r]. now rewrite flat_map_app, IHl, IHr.
Qed.
Lemma frontier_kind off cond t u : In u (frontier off cond t) ->
  In u (subtrees t) /\ match u with Leaf _ => True | Node i _ _ => cond i = false end.
Proof.
  induction t as [k|i l IHl r IHr]; simpl.
  - intros [<-|[]]. auto.
  - destruct (cond i) eqn:C.
    + intros H. apply in_app_or in H. destruct H as [H|H]; [destruct (IHl H)|destruct (IHr H)]; split; auto; right; apply in_or_app; auto.
    + intros [<-|[]]. auto.
Qed.
Lemma found_spec off cond t :
  (forall i, In i (internals t) -> i < off) ->
  found_leaves off (map (event_of off cond) (frontier off cond t))
  = flat_map (fun u => match u with Leaf k => if cond (k + off) then [k] else [] | Node _ _ _ => [] end) (frontier off cond t).
Proof.
  intros _. unfold found_leaves. rewrite flat_map_concat_map, map_map, <- flat_map_concat_map.
  assert (H : forall u, In u (frontier off cond t) -> match u with Leaf _ => True | Node i _ _ => cond i = false end)
    by (intros u Hu; now apply frontier_kind in Hu).
  revert H. generalize (frontier off cond t). intros L. induction L as [|u L IH]; intros H; simpl; auto.
  rewrite IH by (intros; apply H; simpl; auto). f_equal. specialize (H u (or_introl eq_refl)).
  unfold event_of. destruct u as [k|i l r]; cbn [node_id].
  - destruct (cond (k + off)); auto. f_equal. lia.
  - now rewrite H.
Qed.
Lemma found_accepted off (cond : nat -> bool) t k : 
  In k (flat_map (fun u => match u with Leaf k => if cond (k + off) then [k] else [] | Node _ _ _ => [] end) (frontier off cond t))
  <-> accepted off cond t k.
Proof.
  induction t as [j|i l IHl r IHr]; simpl.
  - rewrite app_nil_r. destruct (cond (j + off)); simpl; intuition congruence.
  - destruct (cond i) eqn:C.
    + rewrite flat_map_app, in_app_iff, IHl, IHr. tauto.
    + simpl. split; [tauto|]. intros [X _]. discriminate.
Qed.
(** the found leaves are a sublist of the leaves *)
Lemma found_sorted off (cond : nat -> bool) t : StronglySorted lt (leaves t) ->
  StronglySorted lt (flat_map (fun u => match u with Leaf k => if cond (k + off) then [k] else [] | Node _ _ _ => [] end) (frontier off cond t)).
Proof.
  rewrite <- (frontier_leaves off cond t). generalize (frontier off cond t). intros L.
  induction L as [|u L IH]; simpl; intros H; auto.
  assert (SA : forall (l1 l2 : list nat), StronglySorted lt (l1 ++ l2) -> StronglySorted lt l1 /\ StronglySorted lt l2 /\ forall a b, In a l1 -> In b l2 -> a < b).
  { clear. induction l1 as [|h l1 IH]; simpl; intros l2 H; [split; [constructor|split; [auto|tauto]]|].
    inversion H as [|? ? H1 H2]; subst. destruct (IH _ H1) as (A & B & C). rewrite Forall_app, !Forall_forall in H2. destruct H2 as [H2 H3].
    split; [constructor; auto; now apply Forall_forall|]. split; auto. intros a b [<-|Ha] Hb; auto. }
  destruct (SA _ _ H) as (H1 & H2 & H3). specialize (IH H2).
  destruct u as [k|]; simpl; auto. destruct (cond (k + off)); simpl; auto. constructor; auto.
  apply Forall_forall. intros x Hx. apply H3; [simpl; auto|].
  apply in_flat_map in Hx. destruct Hx as (v & Hv & Hx). apply in_flat_map. exists v. split; auto.
  destruct v; [|destruct Hx]. destruct (cond (k0 + off)); [auto|destruct Hx].
Qed.
