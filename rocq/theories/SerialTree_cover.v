(** The reduction over the patch tree bounds the value of each patch, at every node whose box contains a position of
    the patch. *)
From Verif Require Import Base Par Patch Patch_spec PatchTree PatchTree_spec Sched Sched_spec Sched_proofs Sched_hist_proofs
  Domain Domain_spec SerialTree SerialTree_spec SerialTree_proofs SerialTree_build SerialTree_search SerialTree_leafs SerialTree_field SerialTree_main.
From Verif Require Domain_main.
Local Open Scope Z_scope.

Section G.
Variable obj : Type.
Variable pos : obj -> v3.
Variable W : nat.
Context {C : Type}.
Variables (leb ltb : C -> C -> bool) (to_box : pcoord -> res (range C)) (cellof : vec3 C -> v3) (g : pcoord).
Hypothesis Hconv : forall b, inside b g -> exists r, to_box b = Ok r /\
  forall v, is_in_patch_converted leb ltb v (fst r) (snd r) = true <-> in_box (cellof v) b.
Variables (bs : list pcoord) (s : sched obj) (rs : list Z) (fuel : nat).
Hypothesis HW : (1 <= W)%nat.
Hypothesis Hist : sched_history obj pos W bs s.
Hypothesis Hin : forall b, In b bs -> inside b g.
Hypothesis Hnext : t_next (s_tree _ s) <= 2 ^ 32.
Hypothesis HP : Permutation rs (t_roots (s_tree _ s)).
Hypothesis Hfuel : (65 <= fuel)%nat.
Notation t := (t_with_roots rs (s_tree _ s)).
Variables (st : sstate C) (roots : list Z).
Hypothesis HB : build_from_patch_tree to_box fuel t = Ok (st, roots).
Notation contains := (contains leb ltb to_box).
Let s_ok := s_ok obj pos W bs s HW Hist.
Let t_ok := t_ok obj pos W bs s rs HW Hist HP.
Let leaf_patch := leaf_patch obj pos W bs s rs HW Hist.
Let node_inside := node_inside obj pos W leb ltb to_box cellof g Hconv bs s rs fuel HW Hist Hin HP Hfuel.

Lemma field_cover {T} (t0 e : T) (op : T -> T -> T) (get : Z -> res T) (orders : nat -> list act) :
  (forall a b c, op a (op b c) = op (op a b) c) -> (forall a, op e a = a) -> (forall a, op a e = a) ->
  (forall p, In p (s_global _ s) -> valid_patch W p -> exists v, get (p_id p) = Ok v) ->
  (forall l, (l < Z.to_nat (ss_level st))%nat -> level_execution (length (ss_tree st)) (orders l)) ->
  exists f, make_patch_tree_field t0 get (fold_right op e) st orders = Ok f /\ length f = length (ss_tree st) /\
    forall i m, nth_error (ss_tree st) i = Some m ->
    forall p v, In p (s_global _ s) -> valid_patch W p -> contains (p_box p) v -> in_node leb ltb v m = true ->
    exists b vs x, to_box b = Ok (sn_min m, sn_max m) /\ inside b g /\ box_within (p_box p) b /\
      get (p_id p) = Ok x /\ In x vs /\ nth_error f i = Some (fold_right op e vs).
Proof.
  intros Hass Hl Hr Hget HO.
  destruct (built_arrays obj pos W leb ltb to_box cellof g Hconv bs s rs fuel HW Hist Hin Hnext HP Hfuel st roots HB) as (Hser & Hlev & HF & Hhd). pose proof Hser as (HL & HL2 & HS).
  pose proof (pre_all_NoDup t t_ok fuel) as HND.
  destruct (field_ok to_box t t_ok (pre_all t fuel) st Hser HND Hlev
    (complete obj pos W bs s rs fuel HW Hist HP Hfuel) (leaf_linked obj pos W leb ltb to_box cellof g Hconv bs s rs fuel HW Hist Hin Hfuel) (inner_linked obj pos W bs s rs HW Hist)
    (rootl obj pos W bs s rs HW Hist HP) (ok_leaf_childs _ t_ok) (small obj pos W bs s rs fuel HW Hist Hnext HP)
    t0 get (fold_right op e)) with (orders := orders) as (f & E & Lf & Hf); auto.
  { intros x n id Hn Hlf Hk. destruct (leaf_patch x n Hn Hlf) as (p & Hp & Vp & El & _). destruct (Hget p Hp Vp) as (v & Hv). exists v. congruence. }
  exists f. split; auto. split; [congruence|]. intros i m Hm p v Hp Vp Cp Hv.
  destruct (nth_error (pre_all t fuel) i) as [x|] eqn:Hx.
  2:{ apply nth_error_None in Hx. pose proof (nth_lt _ _ _ Hm). lia. }
  destruct (HS i x Hx) as (n & m' & Hn & Hm' & _ & Hb & _). assert (m' = m) by congruence. subst m'.
  destruct (Hf i x Hx) as (w & Hw & NV).
  destruct (node_value_fold t get op e t_ok Hass Hl Hr 65 x (hle_all t t_ok x n 65 Hn ltac:(lia)) w NV) as (ys & vs & ND & Iff & FV & ->).
  destruct (Hget p Hp Vp) as (xv & Hxv).
  pose proof (node_inside x n Hn) as Ib.
  destruct (patch_node obj pos W s p s_ok Hp Vp) as (y & k & H1 & H2 & H3 & H4).
  pose proof H1 as H1'. apply (ok_leaf _ (so_tree _ _ _ _ s_ok)) in H1. destruct H1 as (k' & Hk' & Hkl). assert (k' = k) by congruence. subst k'.
  assert (Cn : in_box (cellof v) (n_box n)).
  { destruct (Hconv _ Ib) as (r & Er & Hr'). apply Hr'. assert (r = (sn_min m, sn_max m)) by congruence. subst r. exact Hv. }
  assert (Cy : in_box (cellof v) (n_box k)).
  { rewrite H4. apply (contains_cell leb ltb to_box cellof g Hconv); auto. eapply Domain_main.patch_inside; eauto. }
  destruct (leaf_below t 65 x t_ok (hle_all t t_ok x n 65 Hn ltac:(lia)) n _ Hn Cn) as (z & q & D & Hq & Hql & Hqb).
  assert (z = y).
  { destruct (Z.eq_dec z y) as [|Ne]; auto. exfalso.
    assert (Hz : In z (t_leaf (s_tree _ s))) by (apply (ok_leaf _ (so_tree _ _ _ _ s_ok)); exists q; auto).
    apply (proj2 (so_part _ _ _ _ s_ok) z y q k Hz H1' Ne Hq H2 (cellof v)). split; auto. }
  subst z.
  assert (Hy : In y ys) by (apply Iff; split; auto; exists k; auto).
  destruct (F2_in_l _ _ _ _ FV Hy) as (w & Hwi & k' & id & A1 & A2 & A3 & A4).
  assert (k' = k) by (change (t_map t y) with (t_map (s_tree _ s) y) in A1; congruence). subst k'.
  exists (n_box n), vs, xv. split; auto. split; auto. split; [|split; [|split]]; auto.
  - rewrite <- H4. exact (desc_within t x y n k t_ok D Hn A1).
  - assert (w = xv) by congruence. now subst w.
Qed.
End G.
