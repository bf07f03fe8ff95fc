(** Property theorems C48 (see properties.jsonl): direct, particle-walk and leaf-walk self gravity. *)
Require Import Reals Lra.
From Verif Require Import Fmm_tensors Fmm_ops Fmm_spec Fmm_orders Fmm_green Fmm_reps.
From Verif Require Import Base Bits Par Morton Morton_spec Karras Karras_spec Traverse Traverse_spec Reduction Reduction_spec Scan Scan_spec P_Scan SortSearch SortSearch_spec
  Integer BVH BVH_spec BVH_prop BVH_main P_BVH P_Traverse Dtt Dtt_spec Dtt_scan Dtt_sep P_Dtt Interleave Sgfmm Sgfmm_util Sgfmm_tree Sgfmm_down Sgfmm_field Sgfmm_part Sgfmm_spec Sgfmm_main Sgfmm_mom P_Sgfmm
  Sgmm Sgmm_spec Sgmm_proofs Sgmm_main Sgmm_direct.
From Coq Require Import ZifyBool ZifyNat ZifyN.
Local Open Scope nat_scope.

(** ** Direct sum *)
(** The reference loop and the tiled kernel, for every order of the groups and of their items, add to each
    acceleration the softened action of every other particle. *)
Theorem C48_direct : forall xyz G gm eps axyz, (0 < eps)%R -> length axyz = length xyz ->
  (exists ax', direct_ref xyz G gm (eps * eps) axyz = Ok ax' /\ direct_sum xyz G gm eps axyz ax') /\
  forall env, (Z.of_nat (length xyz) < 2 ^ 31)%Z -> direct_env_ok env ->
    exists ax', direct_tiled xyz env G gm (eps * eps) axyz = Ok ax' /\ direct_sum xyz G gm eps axyz ax'.
Proof.
  intros xyz G gm eps axyz EP LA. split; [now apply direct_ref_ok|]. intros env SZ EV. now apply direct_tiled_ok.
Qed.
Print Assumptions C48_direct.

(** so the accelerations of the particles (equal masses) keep the same sum *)
Theorem C48_direct_momentum : forall xyz G gm eps axyz ax', length axyz = length xyz -> direct_sum xyz G gm eps axyz ax' ->
  forall c, Rsum (fun a => comp a c) ax' = Rsum (fun a => comp a c) axyz.
Proof.
  intros xyz G gm eps axyz ax' LA [L D] c.
  assert (NS : forall l : list Fmm_tensors.vec3, Rsum (fun a => comp a c) l = Rsum (fun i => comp (nth i l (mkv 0 0 0)) c) (seq 0 (length l))).
  { induction l as [|x l IH]; [reflexivity|]. cbn [length seq]. rewrite !Rsum_cons, <- seq_shift, Rsum_map, IH. reflexivity. }
  rewrite !NS, L, LA. transitivity (Rsum (fun i => (comp (nth i axyz (mkv 0 0 0)) c + Rsum (fun j => softened G gm eps (position xyz i) (position xyz j) c) (seq 0 (length xyz)))%R) (seq 0 (length xyz))).
  - apply Rsum_ext. intros i Hi. apply in_seq in Hi. rewrite D by lia. f_equal. rewrite Rsum_filter. apply Rsum_ext. intros j _. unfold ind. destruct (Nat.eqb_spec j i) as [->|]; cbn [negb]; auto.
    pose proof (softened_neg G gm eps (position xyz i) (position xyz i) c). lra.
  - rewrite Rsum_plus, (antisym_sum (fun i j => softened G gm eps (position xyz i) (position xyz j) c)); [ring|]. intros i j _ _. rewrite softened_neg. ring.
Qed.
Print Assumptions C48_direct_momentum.

(** ** Walks of the tree *)
(** For every tree built from the particles (also with a single leaf), every order 1 to 5, opening angle theta > 0
    and schedule, each particle i receives from each particle j exactly one contribution: that of the largest cell around
    j that fits in the opening angle seen from i, expanded to order p - 1 about the centre of the cell; or the exact
    softened one if there is no such cell. *)
Theorem C48_particle_walk : exists D, potential_derivatives 5 D /\
  forall o b code xyz B theta depth sd env order garbage G gm eps axyz,
  built Rleb b code xyz xyz (length xyz) B -> (0 < eps)%R -> (0 < theta)%R ->
  N.to_nat b <= depth -> N.to_nat b + 1 <= sd -> mm_env_ok o B (length xyz) sd env order garbage -> length axyz = length xyz ->
  exists ax', sgmm o B xyz depth sd env order garbage theta G gm eps axyz = Ok ax' /\ length ax' = length xyz /\
    forall i, i < length xyz -> exists f : nat -> ix -> R,
      (forall j, j < length xyz -> walk_acts D (ordn o - 1) theta (position xyz i) 0 B xyz G gm eps i j (f j)) /\
      forall c, comp (nth i ax' (mkv 0 0 0)) c = (comp (nth i axyz (mkv 0 0 0)) c + Rsum (fun j => f j c) (seq 0 (length xyz)))%R.
Proof.
  exists Dgrav. split; [exact green05_derivatives|]. intros o b code xyz B theta depth sd env order garbage G gm eps axyz HB EP TH HD HS EV LA.
  destruct (sg_setup b code xyz B HB) as (t & objs & RP & SZ & HH & _ & N0). apply (sgmm_ok o B xyz Rleb _ _ t objs gm RP SZ); auto; lia.
Qed.
Print Assumptions C48_particle_walk.

(** The same when one walk is done for each leaf: the walk is seen from the centre of the leaf of i, with its size *)
Theorem C48_leaf_walk : exists D, potential_derivatives 5 D /\
  forall o b code xyz B theta depth sd env order garbage G gm eps axyz,
  built Rleb b code xyz xyz (length xyz) B -> (0 < eps)%R -> (0 < theta)%R ->
  N.to_nat b <= depth -> N.to_nat b + 1 <= sd -> mm_env_ok o B (b_leafs B) sd env order garbage -> length axyz = length xyz ->
  exists ax', sgfmm o B xyz depth sd env order garbage theta G gm eps axyz = Ok ax' /\ length ax' = length xyz /\
    forall i, i < length xyz -> exists a (f : nat -> ix -> R), length (b_cells B) <= a < total_cell_count B /\ In i (cell_objects B a) /\
      (forall j, j < length xyz -> walk_acts D (ordn o - 1) theta (cell_center B a) (half_size B a) B xyz G gm eps i j (f j)) /\
      forall c, comp (nth i ax' (mkv 0 0 0)) c = (comp (nth i axyz (mkv 0 0 0)) c + Rsum (fun j => f j c) (seq 0 (length xyz)))%R.
Proof.
  exists Dgrav. split; [exact green05_derivatives|]. intros o b code xyz B theta depth sd env order garbage G gm eps axyz HB EP TH HD HS EV LA.
  destruct (sg_setup b code xyz B HB) as (t & objs & RP & SZ & HH & _ & N0).
  destruct (sgfmm_ok o B xyz Rleb _ _ t objs gm RP SZ theta depth sd env order garbage G eps axyz) as (ax' & E & L & H); auto; try lia.
  exists ax'. split; auto. split; auto. intros i Hi. pose proof (rp_count _ _ _ _ _ _ _ RP) as RC.
  destruct (leaf_of B xyz Rleb _ _ t objs RP SZ i Hi) as (k & Hk & Hik).
  assert (HL : In k (leaves t)) by (rewrite (T_leaves B xyz Rleb _ _ t objs RP); apply in_seq; lia). pose proof (leaf_sub _ _ HL) as SL.
  assert (Hid : k + length (b_cells B) < total_cell_count B) by (apply (T_total B xyz Rleb _ _ t objs RP SZ (Leaf k) SL)).
  assert (IC : In i (cell_objects B (k + length (b_cells B)))).
  { rewrite (cell_objects_eq B xyz Rleb _ _ t objs RP) by auto. change (k + length (b_cells B)) with (node_id (length (b_cells B)) (Leaf k)). rewrite (T_find B xyz Rleb _ _ t objs RP) by auto. now rewrite leaf_below. }
  destruct (H k i) as (f & F1 & F2); [lia|auto|]. exists (k + length (b_cells B)), f. split; [lia|]. auto.
Qed.
Print Assumptions C48_leaf_walk.

Lemma boxes b code xyz B : built Rleb b code xyz xyz (length xyz) B -> forall a, a < total_cell_count B -> forall i, In i (cell_objects B a) -> forall k,
  (- half_size B a <= comp (position xyz i) k - comp (cell_center B a) k <= half_size B a)%R.
Proof.
  intros HB a Ha i Hi k. destruct (sg_setup b code xyz B HB) as (t & objs & RP & SZ & HH & _ & N0).
  rewrite (cell_objects_eq B xyz Rleb _ _ t objs RP) in Hi by auto.
  destruct (T_find_ok B xyz Rleb _ _ t objs RP a Ha) as [X Y]. destruct (rp_box _ _ _ _ _ _ _ RP _ X) as (bx & E & TB). rewrite Y in E.
  assert (RL : forall x y, Rleb x y = true -> (x <= y)%R) by (intros x y H; unfold Rleb in H; destruct (Rle_dec x y); [auto|discriminate]).
  unfold position, cell_center, half_size. rewrite E. destruct bx as [[[x0 y0] z0] [[x1 y1] z1]].
  pose proof (TB cx ltac:(simpl; auto)) as [T1 _]. pose proof (TB cy ltac:(simpl; auto)) as [T2 _]. pose proof (TB cz ltac:(simpl; auto)) as [T3 _].
  specialize (T1 i Hi). specialize (T2 i Hi). specialize (T3 i Hi). destruct (nth i xyz (0, 0, 0)%R) as [[px py] pz]. unfold cx, cy, cz in *. cbn [fst snd] in *.
  destruct T1 as [U1 U2], T2 as [U3 U4], T3 as [U5 U6]. apply RL in U1, U2, U3, U4, U5, U6.
  pose proof (Rmax_l (x1 - x0) (Rmax (y1 - y0) (z1 - z0))). pose proof (Rmax_r (x1 - x0) (Rmax (y1 - y0) (z1 - z0))). pose proof (Rmax_l (y1 - y0) (z1 - z0)). pose proof (Rmax_r (y1 - y0) (z1 - z0)).
  destruct k; cbn [comp vx vy vz]; lra.
Qed.
(** An expanded cell is seen, from the particle or the leaf, as small as the opening angle requires: each coordinate of each
    of its particles is within theta times the distance (minus the half size of the leaf) of its centre *)
Theorem C48_acceptance : forall b code xyz B theta s h a j, built Rleb b code xyz xyz (length xyz) B ->
  a < total_cell_count B -> apart theta s h B a -> In j (cell_objects B a) ->
  (0 < norm2 (Fmm_spec.vsub (cell_center B a) s) /\ forall k, Rabs (comp (position xyz j) k - comp (cell_center B a) k) + h <= theta * sqrt (norm2 (Fmm_spec.vsub (cell_center B a) s)))%R.
Proof.
  intros b code xyz B theta s h a j HB Ha [A1 A2] Hj. split; auto. intros k. pose proof (boxes b code xyz B HB a Ha j Hj k) as K. assert (Rabs (comp (position xyz j) k - comp (cell_center B a) k) <= half_size B a)%R by (apply Rabs_le; lra). lra.
Qed.
Print Assumptions C48_acceptance.

(** With an opening angle of exactly 0, which suggests an exact sum, the walk of a particle that is alone in its leaf expands
    a cell whose centre is the particle itself: the derivatives of 1/r are taken at r = 0 (NaN in the code). *)
Theorem C48_zero_angle_refuted : forall b code xyz B sd garbage i a,
  built Rleb b code xyz xyz (length xyz) B -> N.to_nat b + 1 <= sd -> length garbage = sd ->
  length (b_cells B) <= a < total_cell_count B -> cell_objects B a = [i] ->
  exists log id, stack_based_traversal sd (b_cells B) (node_cond B (fun _ => open_node 0 (position xyz i) 0)) 0 garbage = Ok log /\
    In (Excluded id) log /\ In i (cell_objects B id) /\ cell_center B id = position xyz i.
Proof.
  intros b code xyz B sd garbage i a HB HS HG [Ha1 Ha2] HO. pose proof (boxes b code xyz B HB) as BX.
  destruct (sg_setup b code xyz B HB) as (t & objs & RP & SZ & HH & _ & N0).
  set (cond := node_cond B (fun _ => open_node 0 (position xyz i) 0)).
  rewrite (walk_ok B xyz Rleb _ _ t objs RP SZ cond sd garbage) by (auto; lia).
  assert (TFa := T_find_ok B xyz Rleb _ _ t objs RP a Ha2). destruct TFa as [XA YA].
  assert (Ii : In i (below objs (find_node (b_cells B) t a))) by (rewrite <- (cell_objects_eq B xyz Rleb _ _ t objs RP) by auto; rewrite HO; simpl; auto).
  assert (Hi : i < length xyz) by (apply (below_lt B xyz Rleb _ _ t objs RP _ _ XA Ii)).
  destruct (owner_in B xyz Rleb _ _ t objs RP SZ cond i Hi) as [UF UJ]. set (u := owner B t objs cond i) in *. pose proof (frontier_sub _ _ _ _ UF) as US.
  pose proof (T_total B xyz Rleb _ _ t objs RP SZ u US) as UT. set (id := node_id (length (b_cells B)) u) in *.
  assert (IU : In i (cell_objects B id)).
  { rewrite (cell_objects_eq B xyz Rleb _ _ t objs RP) by auto. unfold id. now rewrite (T_find B xyz Rleb _ _ t objs RP). }
  destruct (half_box B xyz Rleb _ _ t objs RP u US) as (bx & EB & EC & EH & ECC). fold id in EB, EH, ECC.
  assert (OPEN : cond id = if Req_EM_T (norm2 (Fmm_spec.vsub (cell_center B id) (position xyz i))) 0 then (if Rlt_dec 0 (0 * 2) then true else false)
     else if Rlt_dec 0 ((half_size B id + 0) * / sqrt (norm2 (Fmm_spec.vsub (cell_center B id) (position xyz i)))) then true else false).
  { unfold cond, node_cond. rewrite EB. unfold open_node. cbv zeta. rewrite EH, ECC, EC. change (v3sub (v3div (v3add (tov (fst bx)) (tov (snd bx))) 2) (position xyz i)) with (Fmm_spec.vsub (v3div (v3add (tov (fst bx)) (tov (snd bx))) 2) (position xyz i)).
    change (norm2 ?v) with (vx v * vx v + vy v * vy v + vz v * vz v)%R. destruct (Req_EM_T _ _); reflexivity. }
  assert (EQC : (forall k, comp (cell_center B id) k = comp (position xyz i) k) -> cell_center B id = position xyz i) by (intros H; apply comp_ext; auto).
  assert (HZ : (half_size B id <= 0)%R -> cell_center B id = position xyz i).
  { intros H. apply EQC. intros k. pose proof (BX id UT i IU k). lra. }
  assert (NN : forall v : Fmm_tensors.vec3, (0 <= norm2 v)%R) by (intros v; unfold norm2; pose proof (Rle_0_sqr (vx v)); pose proof (Rle_0_sqr (vy v)); pose proof (Rle_0_sqr (vz v)); unfold Rsqr in *; lra).
  assert (CC : cond id = false /\ cell_center B id = position xyz i).
  { destruct (Req_EM_T (norm2 (Fmm_spec.vsub (cell_center B id) (position xyz i))) 0) as [Z|NZ].
    - split; [rewrite OPEN; destruct (Rlt_dec 0 (0 * 2)); [exfalso; lra|auto]|]. apply EQC. unfold norm2 in Z. intros k.
      set (v := Fmm_spec.vsub (cell_center B id) (position xyz i)) in *. assert (V : comp v k = (comp (cell_center B id) k - comp (position xyz i) k)%R) by (destruct k; reflexivity).
      pose proof (Rle_0_sqr (vx v)). pose proof (Rle_0_sqr (vy v)). pose proof (Rle_0_sqr (vz v)). unfold Rsqr in *.
      assert (K : (comp v k * comp v k = 0)%R) by (destruct k; cbn [comp]; lra). apply Rmult_integral in K. lra.
    - exfalso. pose proof (NN (Fmm_spec.vsub (cell_center B id) (position xyz i))) as P. assert (SP : (0 < sqrt (norm2 (Fmm_spec.vsub (cell_center B id) (position xyz i))))%R) by (apply sqrt_lt_R0; lra).
      assert (CN : cell_center B id <> position xyz i).
      { intros H. apply NZ. rewrite H. unfold norm2. cbn. ring. }
      destruct (Rlt_dec 0 ((half_size B id + 0) * / sqrt (norm2 (Fmm_spec.vsub (cell_center B id) (position xyz i))))) as [L|L].
      + (* opened: the frontier cell is the leaf of i, reduced to a point *)
        pose proof (frontier_node _ _ _ _ UF) as FN. destruct u as [k|i0 l r] eqn:EU; [|unfold id in OPEN; cbn [node_id] in OPEN; rewrite FN in OPEN; discriminate].
        apply CN. apply HZ. unfold id. cbn [node_id].
        assert (EA : k + length (b_cells B) = a).
        { destruct (find_node (b_cells B) t a) as [k'|i' l' r'] eqn:EF.
          - rewrite leaf_below in UJ, Ii. assert (k = k').
            { assert (L1 : In k (leaves t)) by (eapply sub_leaf_in; eauto; simpl; auto). assert (L2 : In k' (leaves t)) by (eapply sub_leaf_in; eauto; simpl; auto). rewrite (T_leaves B xyz Rleb _ _ t objs RP) in L1, L2. apply in_seq in L1, L2.
              apply (objs_dis B xyz Rleb _ _ t objs RP SZ k k' i); auto; lia. }
            subst k'. exact YA.
          - cbn [node_id] in YA. pose proof (T_id B xyz Rleb _ _ t objs RP _ XA) as T. cbn in T. lia. }
        rewrite EA. unfold half_size. destruct (rp_box _ _ _ _ _ _ _ RP _ XA) as (ba & E & TB). rewrite YA in E. rewrite E.
        change (flat_map objs (leaves (find_node (b_cells B) t a))) with (below objs (find_node (b_cells B) t a)) in TB. rewrite <- (cell_objects_eq B xyz Rleb _ _ t objs RP) in TB by auto. rewrite HO in TB.
        destruct ba as [[[x0 y0] z0] [[x1 y1] z1]].
        assert (PT : forall x, In x (@coords R) -> x (fst ((x0, y0, z0), (x1, y1, z1))) = x (snd ((x0, y0, z0), (x1, y1, z1)))).
        { intros x Hx. destruct (TB x Hx) as (_ & (o1 & O1 & Q1) & (o2 & O2 & Q2)). destruct O1 as [<-|[]]. destruct O2 as [<-|[]]. cbn [fst snd] in *. congruence. }
        pose proof (PT cx ltac:(simpl; auto)) as T1. pose proof (PT cy ltac:(simpl; auto)) as T2. pose proof (PT cz ltac:(simpl; auto)) as T3. unfold cx, cy, cz in T1, T2, T3. cbn [fst snd] in T1, T2, T3. subst.
        assert (ZZ : forall u : R, (u - u = 0)%R) by (intros; ring). rewrite !ZZ. rewrite (Rmax_left 0 0) by lra. rewrite (Rmax_left 0 0) by lra. lra.
      + apply CN. apply HZ. apply Rnot_lt_le in L. apply (Rmult_le_compat_r (sqrt (norm2 (Fmm_spec.vsub (cell_center B id) (position xyz i))))) in L; [|lra]. rewrite Rmult_assoc, Rinv_l in L by lra. lra. }
  destruct CC as [CF CP]. exists (map (event_of (length (b_cells B)) cond) (frontier (length (b_cells B)) cond t)), id. split; auto. split; [|auto].
  apply in_map_iff. exists u. split; auto. unfold event_of. fold id. now rewrite CF.
Qed.
Print Assumptions C48_zero_angle_refuted.

(** ** The hypotheses are satisfiable: the four particles of [exs_xyz] *)
Definition exs_denv : direct_env := {| de_groups := fun k => rev (seq 0 k); de_load := fun _ _ => rev (seq 0 32); de_accum := fun _ _ => rev (seq 0 32); de_write := fun _ => rev (seq 0 32);
  de_scr := fun _ => repeat (mkv 7 7 7, 7%R) 32 |}.
Example C48_nonvacuous : direct_env_ok exs_denv /\
  exists B, built Rleb 3 exs_code exs_xyz exs_xyz (length exs_xyz) B /\ b_leafs B = 4 /\
    forall o, (exists env order garbage, mm_env_ok o B (length exs_xyz) 4 env order garbage) /\ (exists env order garbage, mm_env_ok o B (b_leafs B) 4 env order garbage).
Proof.
  assert (RP : forall k, Permutation (rev (seq 0 k)) (seq 0 k)) by (intros; symmetry; apply Permutation_rev).
  split; [constructor; intros; cbn [exs_denv de_groups de_load de_accum de_write de_scr]; try apply RP; reflexivity|].
  destruct C47_nonvacuous as (B & HB & E & _). exists B. split; auto. split; auto. intros o.
  pose proof (exs_env_ok o B (length exs_xyz) 0 0) as [V1 V2 V3 _ _ _ _ _ _ _ _ _ _ _].
  split; exists (exs_env o B (length exs_xyz) 0 0).
  - exists (rev (seq 0 (length exs_xyz))), (fun _ => repeat 9%N 4). constructor; auto.
  - exists (rev (seq 0 (b_leafs B))), (fun _ => repeat 9%N 4). constructor; auto.
Qed.
