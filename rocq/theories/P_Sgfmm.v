(** Property theorems C47 (see properties.jsonl): tree self gravity of the particles. *)
Require Import Reals Lra.
From Verif Require Import Fmm_tensors Fmm_ops Fmm_spec Fmm_orders Fmm_green Fmm_reps.
From Verif Require Import Base Bits Par Morton Morton_spec Karras Karras_spec Traverse Traverse_spec Reduction Reduction_spec Scan Scan_spec P_Scan SortSearch SortSearch_spec
  Integer BVH BVH_spec BVH_prop BVH_main P_BVH P_Traverse Dtt Dtt_spec Dtt_scan Dtt_sep P_Dtt Interleave Sgfmm Sgfmm_util Sgfmm_tree Sgfmm_down Sgfmm_field Sgfmm_part Sgfmm_spec Sgfmm_main Sgfmm_mom.
From Coq Require Import ZifyBool ZifyNat ZifyN.
Local Open Scope nat_scope.

(** every particle is below at most one cell of each level *)
Lemma incidences_height (objs : nat -> list nat) u : length (flat_map (fun v => flat_map objs (leaves v)) (subtrees u)) <= length (flat_map objs (leaves u)) * (height u + 1).
Proof.
  induction u as [k|i l IHl r IHr]; cbn [subtrees flat_map leaves height]; rewrite ?flat_map_app, ?app_length.
  - cbn [length flat_map]. lia.
  - set (a := length (flat_map objs (leaves l))) in *. set (b := length (flat_map objs (leaves r))) in *.
    assert (a * (height l + 1) <= a * (S (Nat.max (height l) (height r)))) by (apply Nat.mul_le_mono_l; lia).
    assert (b * (height r + 1) <= b * (S (Nat.max (height l) (height r)))) by (apply Nat.mul_le_mono_l; lia). nia.
Qed.

Section Setup.
  Context (b : N) (code : vec R -> N) (xyz : list (vec R)) (B : @bvh R).
  Hypothesis HB : built Rleb b code xyz xyz (length xyz) B.
  Lemma sg_setup : exists t objs, represents Rleb (fun o => nth o xyz (0, 0, 0)%R) (fun o => nth o xyz (0, 0, 0)%R) (length xyz) B t objs /\
    (Z.of_nat (b_leafs B) <= 2 ^ 24 + 1)%Z /\ height t <= N.to_nat b /\ incidence_count B <= length xyz * (N.to_nat b + 1) /\ 0 < length xyz.
  Proof.
    destruct (setup Rleb b code xyz xyz (length xyz) B (0, 0, 0)%R HB) as (t & objs & RP & SZ & HH & _). exists t, objs. repeat (split; auto).
    - transitivity (length xyz * (height t + 1)); [|apply Nat.mul_le_mono_l; lia].
      assert (LT : length (flat_map objs (leaves t)) = length xyz) by (rewrite (Permutation_length (rp_partition _ _ _ _ _ _ _ RP)); apply seq_length).
      rewrite <- LT. etransitivity; [|apply incidences_height]. apply Nat.eq_le_incl. rewrite <- (incs_count B xyz Rleb _ _ t objs RP). unfold incs.
      assert (G : forall l, length (flat_map (fun c => map (pair c) (below objs (find_node (b_cells B) t c))) (map (node_id (length (b_cells B))) l)) =
        length (flat_map (fun c => below objs (find_node (b_cells B) t (node_id (length (b_cells B)) c))) l)).
      { induction l as [|u l IH]; [reflexivity|]. cbn [map flat_map]. rewrite !app_length, IH, map_length. reflexivity. }
      assert (PE : forall (f : nat -> list (nat * nat)) l l', Permutation l l' -> length (flat_map f l) = length (flat_map f l')).
      { intros f l l' P. induction P; cbn [flat_map]; rewrite ?app_length in *; lia. }
      rewrite <- (PE _ _ _ (ids_perm B xyz Rleb _ _ t objs RP)), G. f_equal.
      assert (TF : forall u, In u (subtrees t) -> find_node (b_cells B) t (node_id (length (b_cells B)) u) = u) by (intros u Hu; eapply T_find; eauto).
      revert TF. generalize (subtrees t) as l. induction l as [|u l IH]; intros TF; [reflexivity|]. cbn [flat_map]. rewrite IH by (intros; apply TF; simpl; auto).
      rewrite TF by (simpl; auto). reflexivity.
    - destruct HB as (w & err & vtop & vbot & level & env & HI & _). apply (bi_pos _ _ _ _ _ _ _ _ _ _ HI).
  Qed.
End Setup.

Lemma sg_dgrav : forall o b code xyz B mac low depth bcap env G gm eps axyz m q,
  built Rleb b code xyz xyz (length xyz) B -> 2 <= b_leafs B -> (0 < eps)%R ->
  N.to_nat b <= depth -> N.to_nat b <= bcap ->
  (Z.of_nat (length xyz * (N.to_nat b + 1)) < 2 ^ 31)%Z ->
  dtt_recursive_ref mac B low = Ok (m, q) -> (Z.of_nat (length m + length q) < 2 ^ 30)%Z ->
  sg_env_ok o B (length xyz) (length m) (length q) env ->
  (se_impl env = PARALLEL_SELECT -> exists nb, grid_code Rleb nb code) ->
  length axyz = length xyz ->
  dtt_correct mac B low (length xyz) m q /\
  exists ax', sgsfmm o B xyz Rleb mac low depth bcap env G gm eps axyz = Ok ax' /\ length ax' = length xyz /\
    forall i, i < length xyz -> exists f : nat -> ix -> R,
      (forall j, j < length xyz -> acts Dgrav (ordn o - 1) B xyz m q G gm eps i j (f j)) /\
      forall c, comp (nth i ax' (mkv 0 0 0)) c = (comp (nth i axyz (mkv 0 0 0)) c + Rsum (fun j => f j c) (seq 0 (length xyz)))%R.
Proof.
  intros o b code xyz B mac low depth bcap env G gm eps axyz m q HB L2 EP HD Hb IC E BD EV IM LA.
  destruct (sg_setup b code xyz B HB) as (t & objs & RP & SZ & HH & INC & N0).
  destruct (C45_reference R Rleb b code xyz xyz (length xyz) B mac low HB) as (m0 & q0 & E0 & DC & _). rewrite E in E0. injection E0 as <- <-. split; auto.
  destruct (C45_traversal R Rleb b code xyz xyz (length xyz) B mac low m q (se_dtt env) bcap (se_impl env) true HB Hb E BD (so_dtt _ _ _ _ _ _ EV)) as (m' & q' & offs & ET & PM & PQ & DC' & OF).
  { intros H. split; auto. }
  destruct offs as [[om oq]|]; [|discriminate]. destruct OF as (_ & GM & GQ).
  pose proof (rp_count _ _ _ _ _ _ _ RP) as RC. 
  assert (HT : 1 <= height t).
  { destruct (T_node B xyz Rleb _ _ t objs RP 0) as (l & r & F & X); [lia|]. pose proof (subtree_height _ _ X) as S. cbn [height] in S. lia. }
  rewrite P31 in IC. assert (length xyz * 2 <= length xyz * (N.to_nat b + 1)) by (apply Nat.mul_le_mono_l; lia).
  destruct (sgsfmm_ok o B xyz Rleb _ _ t objs gm RP SZ) with (D := Dgrav) (mac := mac) (low := low) (depth := depth) (bcap := bcap) (env := env) (G := G) (eps := eps) (axyz := axyz) (m := m') (q := q') (om := om) (oq := oq) as (ax' & ES & LS & S); auto; rewrite ?P31; try lia.
  { rewrite (Permutation_length PM), (Permutation_length PQ). exact EV. }
  exists ax'. split; auto. split; auto. intros i Hi. destruct (S i Hi) as (f & A & V). exists f. split; auto.
  intros j Hj. destruct (A j Hj) as [x y I1 I2 I3 I4|x y I1 I2 I3 I4].
  - apply (acts_far _ _ _ _ _ _ _ _ _ _ _ _ x y); auto. eapply Permutation_in; eauto.
  - apply (acts_near _ _ _ _ _ _ _ _ _ _ _ _ x y); auto. eapply Permutation_in; eauto.
Qed.

(** C47.  For every set of particles over a tree of C33 with at least two leaves, every order of the expansions (1
    to 5), every acceptance criterion and every schedule, the accelerations increase by the sum, over all the particles
    j (the particle itself included), of the action of j: the exact softened one, or the one expanded to
    order o - 1 in one pair of cells that the criterion accepted. *)
Theorem C47_self_gravity : exists D, potential_derivatives 5 D /\
  forall o b code xyz B mac low depth bcap env G gm eps axyz m q,
  built Rleb b code xyz xyz (length xyz) B -> 2 <= b_leafs B -> (0 < eps)%R ->
  N.to_nat b <= depth -> N.to_nat b <= bcap ->
  (Z.of_nat (length xyz * (N.to_nat b + 1)) < 2 ^ 31)%Z ->
  dtt_recursive_ref mac B low = Ok (m, q) -> (Z.of_nat (length m + length q) < 2 ^ 30)%Z ->
  sg_env_ok o B (length xyz) (length m) (length q) env ->
  (se_impl env = PARALLEL_SELECT -> exists nb, grid_code Rleb nb code) ->
  length axyz = length xyz ->
  dtt_correct mac B low (length xyz) m q /\
  exists ax', sgsfmm o B xyz Rleb mac low depth bcap env G gm eps axyz = Ok ax' /\ length ax' = length xyz /\
    forall i, i < length xyz -> exists f : nat -> ix -> R,
      (forall j, j < length xyz -> acts D (ordn o - 1) B xyz m q G gm eps i j (f j)) /\
      forall c, comp (nth i ax' (mkv 0 0 0)) c = (comp (nth i axyz (mkv 0 0 0)) c + Rsum (fun j => f j c) (seq 0 (length xyz)))%R.
Proof. exists Dgrav. split; [exact green05_derivatives|exact sg_dgrav]. Qed.
Print Assumptions C47_self_gravity.

(** The criterion of the code is symmetric and only accepts cells for which the expansion makes sense: the centres
    differ and every coordinate of the displacement is less than theta times their distance. *)
Theorem C47_acceptance : forall b code xyz B theta a c i j,
  built Rleb b code xyz xyz (length xyz) B -> accepts (mac_std_opti theta) B a c true ->
  a < total_cell_count B -> c < total_cell_count B -> In i (cell_objects B a) -> In j (cell_objects B c) ->
  let r := Fmm_spec.vsub (cell_center B c) (cell_center B a) in
  let e := Fmm_spec.vsub (Fmm_spec.vsub (position xyz j) (cell_center B c)) (Fmm_spec.vsub (position xyz i) (cell_center B a)) in
  (0 < norm2 r /\ forall k, comp e k * comp e k < theta * theta * norm2 r)%R.
Proof.
  intros b code xyz B theta a c i j HB (ba & bc & EA & EC & HM) Ha Hc Hi Hj r e.
  destruct (sg_setup b code xyz B HB) as (t & objs & RP & SZ & HH & INC & N0).
  assert (BX : forall a ba i, a < total_cell_count B -> box_at B a = Some ba -> In i (cell_objects B a) -> forall k,
    (comp (tov (fst ba)) k <= comp (position xyz i) k <= comp (tov (snd ba)) k)%R /\ comp (cell_center B a) k = ((comp (tov (fst ba)) k + comp (tov (snd ba)) k) / 2)%R).
  { clear - RP. intros a ba i Ha EA Hi k. rewrite (cell_objects_eq B xyz Rleb _ _ t objs RP) in Hi by auto.
    destruct (T_find_ok B xyz Rleb _ _ t objs RP a Ha) as [X Y]. destruct (rp_box _ _ _ _ _ _ _ RP _ X) as (bx & E & TB). rewrite Y, EA in E. injection E as <-.
    assert (RL : forall x y, Rleb x y = true -> (x <= y)%R) by (intros x y H; unfold Rleb in H; destruct (Rle_dec x y); [auto|discriminate]).
    unfold position, cell_center. rewrite EA. destruct ba as [[[x0 y0] z0] [[x1 y1] z1]]. 
    pose proof (TB cx ltac:(simpl; auto)) as [T1 _]. pose proof (TB cy ltac:(simpl; auto)) as [T2 _]. pose proof (TB cz ltac:(simpl; auto)) as [T3 _].
    specialize (T1 i Hi). specialize (T2 i Hi). specialize (T3 i Hi). destruct (nth i xyz (0, 0, 0)%R) as [[px py] pz]. cbn [cx cy cz fst snd] in *. unfold cx, cy, cz in *. cbn [fst snd] in *.
    destruct T1 as [U1 U2], T2 as [U3 U4], T3 as [U5 U6]. apply RL in U1, U2, U3, U4, U5, U6. destruct k; cbn; split; auto; lra. }
  pose proof (BX a ba i Ha EA Hi) as BA. pose proof (BX c bc j Hc EC Hj) as BC. clear BX.
  unfold mac_std_opti in HM. cbv zeta in HM.
  set (sa := v3div (v3sub (tov (snd ba)) (tov (fst ba))) 2) in *. set (sb := v3div (v3sub (tov (snd bc)) (tov (fst bc))) 2) in *.
  set (delta := v3sub (v3div (v3add (tov (snd ba)) (tov (fst ba))) 2) (v3div (v3add (tov (snd bc)) (tov (fst bc))) 2)) in *.
  assert (ND : dot3 delta delta = norm2 r).
  { assert (K : forall k, comp delta k = (- comp r k)%R).
    { intros k. destruct (BA k) as [_ A]. destruct (BC k) as [_ C]. unfold r, delta. destruct k; cbn in *; rewrite A, C; unfold Rdiv; ring. }
    pose proof (K X0) as K0. pose proof (K X1) as K1. pose proof (K X2) as K2. cbn [comp] in *. unfold dot3, norm2. rewrite K0, K1, K2. ring. }
  rewrite ND in HM. destruct (Req_EM_T (norm2 r) 0) as [Z|NZ]; [discriminate|].
  assert (P0 : (0 < norm2 r)%R).
  { assert (0 <= norm2 r)%R; [|lra]. unfold norm2. pose proof (Rle_0_sqr (vx r)). pose proof (Rle_0_sqr (vy r)). pose proof (Rle_0_sqr (vz r)). unfold Rsqr in *. lra. }
  split; auto. intros k. destruct (Rlt_dec _ _) as [LT|]; [|discriminate]. clear HM.
  set (S := (max_component sa + max_component sb)%R) in *.
  assert (SQ : (S * S < theta * theta * norm2 r)%R).
  { apply (Rmult_lt_compat_r (norm2 r)) in LT; auto. unfold Rdiv in LT. rewrite Rmult_assoc, Rinv_l, Rmult_1_r in LT by auto. exact LT. }
  assert (EK : (- S <= comp e k <= S)%R).
  { pose proof (max_component_ge sa k) as MA. pose proof (max_component_ge sb k) as MB. destruct (BA k) as [A1 A2]. destruct (BC k) as [C1 C2].
    assert (SA : comp sa k = ((comp (tov (snd ba)) k - comp (tov (fst ba)) k) / 2)%R) by (destruct k; reflexivity).
    assert (SB : comp sb k = ((comp (tov (snd bc)) k - comp (tov (fst bc)) k) / 2)%R) by (destruct k; reflexivity).
    assert (EE : comp e k = ((comp (position xyz j) k - comp (cell_center B c) k) - (comp (position xyz i) k - comp (cell_center B a) k))%R) by (destruct k; reflexivity).
    rewrite EE, A2, C2. rewrite SA in MA. rewrite SB in MB. unfold S. lra. }
  assert (comp e k * comp e k <= S * S)%R; [|lra]. nra.
Qed.
Print Assumptions C47_acceptance.

(** With the criterion of the code the total momentum does not change: the accelerations of the particles, which all
    have the same mass, sum to what they summed to. *)
Theorem C47_momentum : forall o b code xyz B theta low depth bcap env G gm eps axyz m q,
  built Rleb b code xyz xyz (length xyz) B -> 2 <= b_leafs B -> (0 < eps)%R ->
  N.to_nat b <= depth -> N.to_nat b <= bcap ->
  (Z.of_nat (length xyz * (N.to_nat b + 1)) < 2 ^ 31)%Z ->
  dtt_recursive_ref (mac_std_opti theta) B low = Ok (m, q) -> (Z.of_nat (length m + length q) < 2 ^ 30)%Z ->
  sg_env_ok o B (length xyz) (length m) (length q) env ->
  (se_impl env = PARALLEL_SELECT -> exists nb, grid_code Rleb nb code) ->
  length axyz = length xyz ->
  exists ax', sgsfmm o B xyz Rleb (mac_std_opti theta) low depth bcap env G gm eps axyz = Ok ax' /\
    forall c, Rsum (fun a => comp a c) ax' = Rsum (fun a => comp a c) axyz.
Proof.
  intros o b code xyz B theta low depth bcap env G gm eps axyz m q HB L2 EP HD Hb IC E BD EV IM LA.
  destruct (sg_dgrav o b code xyz B (mac_std_opti theta) low depth bcap env G gm eps axyz m q) as (DC & ax' & ES & LS & S); auto.
  exists ax'. split; auto. intros c.
  destruct (C45_symmetric R Rleb b code xyz xyz (length xyz) B (mac_std_opti theta) low m q HB (mac_sym theta) E) as [SM SQ].
  assert (CH : forall n, n <= length xyz -> exists F : nat -> nat -> R, forall i, i < n -> exists f : nat -> ix -> R, (forall j, j < length xyz -> acts Dgrav (ordn o - 1) B xyz m q G gm eps i j (f j) /\ F i j = f j c) /\
    comp (nth i ax' (mkv 0 0 0)) c = (comp (nth i axyz (mkv 0 0 0)) c + Rsum (F i) (seq 0 (length xyz)))%R).
  { induction n as [|n IH]; intros Hn; [exists (fun _ _ => 0%R); intros; lia|]. destruct (IH ltac:(lia)) as (F & HF). destruct (S n ltac:(lia)) as (f & A & V).
    exists (fun i j => if i =? n then f j c else F i j). intros i Hi. destruct (Nat.eqb_spec i n) as [->|NE].
    - exists f. split; auto.
    - apply HF. lia. }
  destruct (CH (length xyz) (le_n _)) as (F & HF).
  assert (AN : forall i j, In i (seq 0 (length xyz)) -> In j (seq 0 (length xyz)) -> F i j = (- F j i)%R).
  { intros i j Hi Hj. apply in_seq in Hi, Hj. destruct (HF i ltac:(lia)) as (f & A & _). destruct (HF j ltac:(lia)) as (g & A' & _).
    destruct (A j ltac:(lia)) as [A1 A2]. destruct (A' i ltac:(lia)) as [A3 A4]. rewrite A2, A4.
    apply (acts_neg (ordn o - 1)) in A3; auto; [|destruct o; cbn; lia].
    pose proof (acts_unique (ordn o - 1) B xyz m q G gm eps _ low (length xyz) i j _ _ DC (proj2 Hi) (proj2 Hj) A1 A3 c) as U. exact U. }
  assert (SUM : forall L : list Fmm_tensors.vec3, length L = length xyz -> Rsum (fun a => comp a c) L = Rsum (fun i => comp (nth i L (mkv 0 0 0)) c) (seq 0 (length xyz))).
  { intros L HL. rewrite <- HL. clear. rewrite <- (Rsum_map _ _ (fun a => comp a c) (fun i => nth i L (mkv 0 0 0))). f_equal.
    induction L as [|x L IH]; [reflexivity|]. cbn [length seq map nth]. f_equal. rewrite <- seq_shift, map_map. exact IH. }
  rewrite !SUM by auto. rewrite (Rsum_ext _ _ (fun i => (comp (nth i axyz (mkv 0 0 0)) c + Rsum (F i) (seq 0 (length xyz)))%R)).
  2:{ intros i Hi. apply in_seq in Hi. destruct (HF i ltac:(lia)) as (f & _ & V). exact V. }
  rewrite Rsum_plus, antisym_sum by auto. ring.
Qed.
Print Assumptions C47_momentum.

(** With a criterion that accepts nothing (a zero opening angle) the accelerations are exactly those of direct summation. *)
Theorem C47_direct : forall o b code xyz B theta low depth bcap env G gm eps axyz m q,
  built Rleb b code xyz xyz (length xyz) B -> 2 <= b_leafs B -> (0 < eps)%R -> theta = 0%R ->
  N.to_nat b <= depth -> N.to_nat b <= bcap ->
  (Z.of_nat (length xyz * (N.to_nat b + 1)) < 2 ^ 31)%Z ->
  dtt_recursive_ref (mac_std_opti theta) B low = Ok (m, q) -> (Z.of_nat (length m + length q) < 2 ^ 30)%Z ->
  sg_env_ok o B (length xyz) (length m) (length q) env ->
  (se_impl env = PARALLEL_SELECT -> exists nb, grid_code Rleb nb code) ->
  length axyz = length xyz ->
  exists ax', sgsfmm o B xyz Rleb (mac_std_opti theta) low depth bcap env G gm eps axyz = Ok ax' /\ length ax' = length xyz /\
    forall i c, i < length xyz -> comp (nth i ax' (mkv 0 0 0)) c =
      (comp (nth i axyz (mkv 0 0 0)) c + Rsum (fun j => softened G gm eps (position xyz i) (position xyz j) c) (seq 0 (length xyz)))%R.
Proof.
  intros o b code xyz B theta low depth bcap env G gm eps axyz m q HB L2 EP -> HD Hb IC E BD EV IM LA.
  destruct (sg_dgrav o b code xyz B (mac_std_opti 0) low depth bcap env G gm eps axyz m q) as (DC & ax' & ES & LS & S); auto.
  exists ax'. split; auto. split; auto. intros i c Hi. destruct (S i Hi) as (f & A & V). rewrite V. f_equal. apply Rsum_ext. intros j Hj. apply in_seq in Hj.
  destruct (A j ltac:(lia)) as [x y I1 I2 I3 I4|x y I1 I2 I3 I4]; auto. exfalso.
  destruct (dc_m2l _ _ _ _ _ _ DC x y I1) as (ba & bb & _ & _ & HM). unfold mac_std_opti in HM. cbv zeta in HM.
  destruct (Req_EM_T _ 0) as [|NZ]; [discriminate|]. destruct (Rlt_dec _ _) as [LT|]; [|discriminate]. clear HM.
  set (d := v3sub _ _) in *. set (s := (max_component _ + max_component _)%R) in *.
  assert (0 <= dot3 d d)%R by (unfold dot3; pose proof (Rle_0_sqr (vx d)); pose proof (Rle_0_sqr (vy d)); pose proof (Rle_0_sqr (vz d)); unfold Rsqr in *; lra).
  assert (0 <= s * s)%R by apply Rle_0_sqr. assert (0 <= s * s / dot3 d d)%R by (apply Rmult_le_pos; auto; left; apply Rinv_0_lt_compat; lra). lra.
Qed.
Print Assumptions C47_direct.

(** A tree with a single leaf (for instance a single particle, or particles that all have the same code) has no internal
    cell: the local-to-local step launches a kernel over zero work items, which throws. *)
Theorem C47_single_leaf_throws : forall o b code xyz B mac low depth bcap env G gm eps axyz m q,
  built Rleb b code xyz xyz (length xyz) B -> b_leafs B = 1 -> 0 < depth -> N.to_nat b <= depth -> N.to_nat b <= bcap ->
  dtt_recursive_ref mac B low = Ok (m, q) -> sg_env_ok o B (length xyz) (length m) (length q) env ->
  (se_impl env = PARALLEL_SELECT -> exists nb, grid_code Rleb nb code) ->
  sgsfmm o B xyz Rleb mac low depth bcap env G gm eps axyz = Throw.
Proof.
  intros o b code xyz B mac low depth bcap env G gm eps axyz m q HB L1 H0 HD Hb E EV IM.
  destruct (sg_setup b code xyz B HB) as (t & objs & RP & SZ & HH & INC & N0).
  assert (BD : (Z.of_nat (length m + length q) < 2 ^ 30)%Z).
  { destruct (C45_reference R Rleb b code xyz xyz (length xyz) B mac low HB) as (m0 & q0 & E0 & _ & LL). rewrite E in E0. injection E0 as <- <-. rewrite L1 in LL. change (2 ^ 30)%Z with 1073741824%Z. lia. }
  destruct (C45_traversal R Rleb b code xyz xyz (length xyz) B mac low m q (se_dtt env) bcap (se_impl env) true HB Hb E BD (so_dtt _ _ _ _ _ _ EV)) as (m' & q' & offs & ET & PM & PQ & DC' & OF).
  { intros H. split; auto. }
  destruct offs as [[om oq]|]; [|discriminate]. destruct OF as (_ & GM & GQ).
  pose proof EV as [V1 V2 V3 V4 V5 V6 V7 V8 V9 V10 V11 V12 V13 V14].
  assert (IDM : forall p, In p m' -> fst p < total_cell_count B /\ snd p < total_cell_count B) by (intros [x y] H; apply (dc_ids _ _ _ _ _ _ DC' x y), in_or_app; auto).
  unfold sgsfmm. destruct (moments_ok o B xyz Rleb _ _ t objs RP SZ gm depth env) as (mass & E1 & MD); auto; [lia|]. rewrite E1. cbn [rbind]. rewrite ET. cbn [rbind fst snd].
  destruct (m2l_kernel_ok o B xyz Rleb _ _ t objs gm RP SZ (se_m2l env) m' om mass (se_grav env (total_cell_count B * grav_terms o)) MD GM IDM V5 (V6 _)) as (gr1 & ini & E2 & L2 & C2 & F2). rewrite E2. cbn [rbind].
  unfold l2l. rewrite aset_lt by (rewrite repeat_length; unfold total_cell_count; lia). cbn [rbind].
  destruct depth as [|depth]; [lia|]. cbn [down_loop]. pose proof (rp_count _ _ _ _ _ _ _ RP). replace (length (b_cells B) =? 0) with true by lia. reflexivity.
Qed.
Print Assumptions C47_single_leaf_throws.

(* ------------------------------------------------------------------ *)
(** Four particles on a line, codes 0, 1, 6, 7, one leaf each. *)
Definition exs_xyz : list (vec R) := [(0, 0, 0); (1, 0, 0); (100, 0, 0); (101, 0, 0)]%R.
Definition exs_code (v : vec R) : N :=
  if Rle_dec (cx v) (1 / 2) then 0%N else if Rle_dec (cx v) 50 then 1%N else if Rle_dec (cx v) (201 / 2) then 6%N else 7%N.
Definition exs_red (n : nat) : red_env := {|
  re_orders := fun _ => rev (seq 0 n); re_g1 := repeat 9%Z n; re_g2 := repeat 8%Z n;
  re_ce := {| ce_scan := fun l n => Scan.exclusive_sum_fallback (repeat 9%Z n) l n; ce_order := fun n => rev (seq 0 n); ce_garbage := fun k => repeat 5 k |};
  re_order := fun k => rev (seq 0 k); re_garbage := fun k => repeat 4 k; re_old := fun k => repeat 3%N k |}.
Definition exs_benv (n p : nat) : @bvh_env R := {|
  e_o1 := rev (seq 0 n); e_o2 := rev (seq 0 (p - n)); e_codes := fun k => repeat 1%N k;
  e_oi := fun k => rev (seq 0 k); e_map := fun k => repeat 7 k; e_sort := fun _ _ n => rev (seq 0 n); e_stencil := 4;
  e_red := exs_red n; e_karras := fun n => rev (seq 0 n); e_cells := fun n => repeat (mkcell 9 true 9 true 9) n;
  e_leaf := fun n => rev (seq 0 n); e_min := fun n => repeat (0,0,0)%R n; e_max := fun n => repeat (0,0,0)%R n;
  e_prop := fun n _ => flat_map (fun _ => seq 0 n) (seq 0 6) |}.
Lemma exs_benv_ok n p : bvh_env_ok n p (exs_benv n p).
Proof.
  assert (RP : forall k, Permutation (rev (seq 0 k)) (seq 0 k)) by (intros; symmetry; apply Permutation_rev).
  constructor; cbn [e_o1 e_o2 e_codes e_oi e_map e_sort e_red e_karras e_cells e_leaf e_min e_max e_prop exs_benv]; intros; try apply repeat_length; try apply RP; auto.
  - constructor; cbn [re_orders re_g1 re_g2 re_ce re_order re_garbage re_old exs_red ce_scan ce_order ce_garbage]; intros; try apply repeat_length; try apply RP; auto.
    apply (C19_exclusive_host (repeat 9%Z n) T n H). rewrite repeat_length. lia.
  - intros g. apply count_rounds.
Qed.
Lemma Rleb_order : total_preorder Rleb.
Proof. split; unfold Rleb; intros; repeat destruct (Rle_dec _ _); auto; try discriminate; exfalso; lra. Qed.
Lemma exs_code_lt v : (exs_code v < 2 ^ 3)%N.
Proof. unfold exs_code. repeat destruct (Rle_dec _ _); reflexivity. Qed.
Lemma nodup_len (l : list N) : length (nodup N.eq_dec l) <= length l.
Proof. induction l as [|x l IH]; [auto|]. cbn [nodup]. destruct (in_dec _ _ _); cbn [length]; lia. Qed.
Lemma exs_input xyz : 0 < length xyz <= 4 -> (forall p x, In p xyz -> In x coords -> 0 <= x p <= 101)%R ->
  bvh_input Rleb 32 3 exs_code (2 ^ 32 - 1) (101, 101, 101)%R (0, 0, 0)%R xyz xyz (length xyz).
Proof.
  intros [L0 L4] HX. constructor; auto; try lia.
  - apply Rleb_order.
  - intros; apply exs_code_lt.
  - pose proof (nodup_len (map exs_code (firstn (length xyz) xyz))) as H. rewrite map_length, firstn_length in H. change (2 ^ 24 + 1)%Z with 16777217%Z. lia.
  - intros o p x H E Hx. apply nth_error_In in E. pose proof (HX p x E Hx). unfold Rleb. destruct (Rle_dec _ _) as [|N]; auto. exfalso. apply N.
    destruct Hx as [<-|[<-|[<-|[]]]]; unfold cx, cy, cz in *; cbn [fst snd] in *; lra.
  - intros o p x H E Hx. apply nth_error_In in E. pose proof (HX p x E Hx). unfold Rleb. destruct (Rle_dec _ _) as [|N]; auto. exfalso. apply N.
    destruct Hx as [<-|[<-|[<-|[]]]]; unfold cx, cy, cz in *; cbn [fst snd] in *; lra.
Qed.
Lemma exs_codes : map exs_code exs_xyz = [0; 1; 6; 7]%N.
Proof. unfold exs_xyz, exs_code, cx. cbn [map fst]. repeat destruct (Rle_dec _ _); try reflexivity; exfalso; lra. Qed.
(** the leaves of the tree only depend on the codes *)
Lemma exs_leafs xyz B : length xyz = 1 \/ length xyz = 4 ->
  rebuild Rleb 32 exs_code (2 ^ 32 - 1) (101, 101, 101)%R (0, 0, 0)%R (exs_benv (length xyz) (length xyz)) xyz xyz (length xyz) 0 = Ok B ->
  match sort_morton_set (rev (seq 0 (length xyz))) (fun _ _ n => rev (seq 0 n)) 4 (repeat 7 (length xyz)) (map exs_code xyz) (length xyz) with
  | Ok (keys, _) => match reduce_morton_set 32 (exs_red (length xyz)) (length xyz) keys 0 with Ok (_, leafs, _) => b_leafs B = leafs | _ => False end
  | _ => False end.
Proof.
  intros HL E. unfold rebuild in E.
  assert (RU : N.to_nat (roundup_pow2_32 (N.of_nat (length xyz))) = length xyz) by (destruct HL as [-> | ->]; reflexivity). rewrite RU in E.
  replace (length xyz =? 0) with false in E by lia.
  rewrite (BVH_sort.morton_code_set_ok exs_code) in E.
  2-7: try lia; cbn [e_codes exs_benv e_o1 e_o2]; try apply repeat_length; rewrite ?Nat.sub_diag; symmetry; apply Permutation_rev.
  rewrite Nat.sub_diag, firstn_all in E. cbn [repeat] in E. rewrite app_nil_r in E. cbn [rbind e_oi e_sort e_stencil e_map e_red exs_benv] in E.
  destruct (sort_morton_set _ _ _ _ _ _) as [[keys mp]| |]; try discriminate E. cbn [rbind] in E.
  destruct (reduce_morton_set _ _ _ _ _) as [[[red lf] rc]| |]; try discriminate E. cbn [rbind] in E.
  destruct (karras_alg _ _ _ _); try discriminate E. cbn [rbind] in E. destruct (fill_leafs _ _ _ _ _ _ _ _ _ _ _); try discriminate E. cbn [rbind] in E.
  destruct (propagate_aabb_up _ _ _ _ _); try discriminate E. cbn [rbind] in E. injection E as <-. reflexivity.
Qed.
Lemma exs_built xyz : length xyz = 1 \/ length xyz = 4 -> (forall p x, In p xyz -> In x coords -> 0 <= x p <= 101)%R ->
  exists B, built Rleb 3 exs_code xyz xyz (length xyz) B /\
    rebuild Rleb 32 exs_code (2 ^ 32 - 1) (101, 101, 101)%R (0, 0, 0)%R (exs_benv (length xyz) (length xyz)) xyz xyz (length xyz) 0 = Ok B.
Proof.
  intros HL HX. assert (RU : N.to_nat (roundup_pow2_32 (N.of_nat (length xyz))) = length xyz) by (destruct HL as [-> | ->]; reflexivity).
  assert (HI := exs_input xyz ltac:(lia) HX). pose proof (exs_benv_ok (length xyz) (length xyz)) as HE. rewrite <- RU in HE at 2.
  destruct (C33_build R Rleb 32 3 exs_code (2 ^ 32 - 1) (101, 101, 101)%R (0, 0, 0)%R xyz xyz (length xyz) 0 _ (0, 0, 0)%R HI HE) as (B & t & objs & E & _).
  rewrite RU in *. exists B. split; auto. exists 32%N, (2 ^ 32 - 1)%N, (101, 101, 101)%R, (0, 0, 0)%R, 0, (exs_benv (length xyz) (length xyz)). rewrite RU. auto.
Qed.

(** an environment for given sizes: everything in reverse order, round-robin interleavings *)
Definition exs_rr (n c : nat) : list nat := flat_map (fun _ => seq 0 n) (seq 0 c).
Definition exs_denv (B : @bvh R) (nm nq : nat) : dtt_env :=
  let n := total_cell_count B in
  let re k := {| re_count := rev (seq 0 k); re_scatter := rev (seq 0 k); re_sort := rev (seq 0 n); re_junk := fun k => repeat (7, 7) k; Dtt.re_impl := LocalInsertionSort |} in
  {| de_scan_ip := fun buf len => exclusive_sum_in_place_fallback buf len; de_scan := fun buf len => exclusive_sum_fallback (repeat 9%Z len) buf len;
     de_pass := fun _ k => {| pe_main := rev (seq 0 k); pe_task := rev (seq 0 k); pe_m2l := rev (seq 0 k); pe_p2p := rev (seq 0 k);
                              pe_junk := fun k => repeat (7, 7) k; pe_junkZ := fun k => repeat 7%Z k |};
     de_j1 := [(8, 8)]; de_j2 := [9%Z]; de_o1 := rev (seq 0 n); de_o2 := rev (seq 0 n); de_jz := fun k => repeat 5%Z k; de_jp := fun k => repeat (6, 6) k;
     de_rm := re nm; de_rp := re nq |}.
Definition exs_env (o : mmorder) (B : @bvh R) (np nm nq : nat) : sg_env := {|
  se_leaf := rev (seq 0 (b_leafs B)); se_mass := fun k => repeat 5%R k; se_up := fun _ => exs_rr (length (b_cells B)) (3 * mass_terms o);
  se_dtt := exs_denv B nm nq; se_impl := SCAN_MULTIPASS;
  se_m2l := rev (seq 0 (total_cell_count B)); se_grav := fun k => repeat 6%R k; se_down := fun _ => exs_rr (length (b_cells B)) (5 * grav_terms o + 5);
  se_l2p := rev (seq 0 (b_leafs B));
  se_count := rev (seq 0 (incidence_count B)); se_scat := rev (seq 0 (incidence_count B)); se_cont := fun k => repeat 3 k; se_sort := rev (seq 0 np);
  se_range_sort := ptr_insert_sort Nat.ltb; se_p2p := rev (seq 0 np) |}.
Lemma exs_rr_ok n c : fair_schedule n c (exs_rr n c).
Proof.
  unfold exs_rr. split.
  - apply Forall_forall. intros g Hg. apply in_flat_map in Hg. destruct Hg as (k & _ & Hg). apply in_seq in Hg. lia.
  - intros g Hg. assert (H : forall l : list nat, count_occ Nat.eq_dec (flat_map (fun _ => seq 0 n) l) g = length l).
    { induction l as [|x l IH]; [reflexivity|]. cbn [flat_map length]. rewrite count_occ_app, IH. f_equal.
      pose proof (NoDup_count_occ' Nat.eq_dec (seq 0 n)) as [H _]. rewrite H; auto; [apply seq_NoDup|apply in_seq; lia]. }
    rewrite H, seq_length. lia.
Qed.
Lemma exs_env_ok o B np nm nq : sg_env_ok o B np nm nq (exs_env o B np nm nq).
Proof.
  assert (RP : forall k, Permutation (rev (seq 0 k)) (seq 0 k)) by (intros; symmetry; apply Permutation_rev).
  constructor; cbn [se_leaf se_mass se_up se_dtt se_m2l se_grav se_down se_l2p se_count se_scat se_cont se_sort se_range_sort se_p2p exs_env]; intros; try apply repeat_length; try apply RP; try apply exs_rr_ok.
  - constructor; cbn; intros; try apply repeat_length; try apply RP.
    + intros buf len H0 H1. apply (C19_exclusive_host (repeat 0%Z len) buf len H1). rewrite repeat_length. lia.
    + intros buf len H0 H1. apply (C19_exclusive_host (repeat 9%Z len) buf len H1). rewrite repeat_length. lia.
    + constructor; cbn; intros; try apply repeat_length; apply RP.
    + constructor; cbn; intros; try apply repeat_length; try apply RP. exact I.
    + constructor; cbn; intros; try apply repeat_length; try apply RP. exact I.
  - now left.
Qed.
Lemma exs_coords p x : In p exs_xyz -> In x coords -> (0 <= x p <= 101)%R.
Proof.
  intros Hp Hx. destruct Hp as [<-|[<-|[<-|[<-|[]]]]]; destruct Hx as [<-|[<-|[<-|[]]]]; unfold cx, cy, cz; cbn [fst snd]; lra.
Qed.

(** the hypotheses of the theorems hold for these particles, every order, criterion, ... *)
Example C47_nonvacuous : exists B, built Rleb 3 exs_code exs_xyz exs_xyz (length exs_xyz) B /\ b_leafs B = 4 /\
  forall o mac low, exists m q env,
    (Z.of_nat (length exs_xyz * (N.to_nat 3 + 1)) < 2 ^ 31)%Z /\ dtt_recursive_ref mac B low = Ok (m, q) /\ (Z.of_nat (length m + length q) < 2 ^ 30)%Z /\
    sg_env_ok o B (length exs_xyz) (length m) (length q) env /\ se_impl env = SCAN_MULTIPASS.
Proof.
  destruct (exs_built exs_xyz) as (B & HB & E); [right; reflexivity|exact exs_coords|]. exists B. split; auto.
  apply exs_leafs in E; [|right; reflexivity]. rewrite exs_codes in E. change (length exs_xyz) with 4 in E. vm_compute in E. change (b_leafs B = 4) in E. split; auto.
  intros o mac low. destruct (C45_reference R Rleb 3 exs_code exs_xyz exs_xyz (length exs_xyz) B mac low HB) as (m & q & E0 & _ & LL). rewrite E in LL.
  exists m, q, (exs_env o B (length exs_xyz) (length m) (length q)). split; [now vm_compute|]. split; auto. split; [change (2 ^ 30)%Z with 1073741824%Z; lia|]. split; [apply exs_env_ok|reflexivity].
Qed.

(** A single particle: the code throws although the result is the (zero) self action. *)
Theorem C47_single_particle_refuted : exists B m q env, built Rleb 3 exs_code [(0, 0, 0)%R] [(0, 0, 0)%R] 1 B /\
  dtt_recursive_ref (mac_std_opti (1 / 2)) B false = Ok (m, q) /\ sg_env_ok M4 B 1 (length m) (length q) env /\
  forall G gm eps a, sgsfmm M4 B [(0, 0, 0)%R] Rleb (mac_std_opti (1 / 2)) false 32 32 env G gm eps [a] = Throw.
Proof.
  destruct (exs_built [(0, 0, 0)%R]) as (B & HB & E); [left; reflexivity| |].
  { intros p x [<-|[]] [<-|[<-|[<-|[]]]]; unfold cx, cy, cz; cbn [fst snd]; lra. }
  assert (EC : map exs_code [(0, 0, 0)%R] = [0%N]) by (unfold exs_code, cx; cbn [map fst]; destruct (Rle_dec _ _); [reflexivity|exfalso; lra]).
  apply exs_leafs in E; [|left; reflexivity]. rewrite EC in E. change (length [(0, 0, 0)%R]) with 1 in E. vm_compute in E. change (b_leafs B = 1) in E.
  destruct (C45_reference R Rleb 3 exs_code _ _ _ B (mac_std_opti (1 / 2)) false HB) as (m & q & E0 & _ & LL).
  exists B, m, q, (exs_env M4 B 1 (length m) (length q)). split; [exact HB|]. split; [exact E0|]. split; [apply exs_env_ok|].
  intros. eapply (C47_single_leaf_throws M4 3 exs_code [(0, 0, 0)%R]); eauto; try lia; [apply exs_env_ok|intros H; discriminate H].
Qed.
Print Assumptions C47_single_particle_refuted.
