(** Property theorems C25 and C26 (see properties.jsonl). *)
From Verif Require Import Base Patch Patch_spec Patch_proofs PatchTree PatchTree_spec PatchTree_proofs.
From Coq Require Import ZifyBool ZifyNat ZifyN.
Local Open Scope Z_scope.

(** C25: splitting a box with at least two cells per axis gives eight pairwise disjoint boxes which
    cover exactly the box. *)
Theorem C25_split_partition : forall b, splittable b ->
  length (get_split b) = 8%nat /\ partition_of (get_split b) b.
Proof. intros b H; split; [apply length_get_split|now apply get_split_partition]. Qed.
Print Assumptions C25_split_partition.

(** C25: merging the pieces gives the box back. *)
Theorem C25_merge_inverse : forall b, splittable b -> merge8 (get_split b) = Ok b.
Proof. exact merge_split. Qed.
Print Assumptions C25_merge_inverse.

(** C25: cubes of side 2^k split into cubes of side 2^(k-1). *)
Theorem C25_power_of_two_sides : forall b k c, splittable b -> 1 <= k -> cube (2 ^ k) b ->
  In c (get_split b) -> cube (2 ^ (k - 1)) c.
Proof. exact split_cube. Qed.
Print Assumptions C25_power_of_two_sides.

(** C25 on patches: the eight new patches carry the eight boxes, keep id, owner and pack index, and
    merging them gives back the patch, with the load rounded down to a multiple of 8 and the pack
    index reset. *)
Theorem C25_patch_split_merge : forall p, splittable (p_box p) -> 0 <= p_load p < 2 ^ 64 ->
  map p_box (patch_split p) = get_split (p_box p) /\
  (forall q, In q (patch_split p) -> p_id q = p_id p /\ p_owner q = p_owner p /\ p_pack q = p_pack p) /\
  merge_patch8 (patch_split p) =
    Ok (Patch (p_id p) u64_max (p_load p - p_load p mod 8) (p_box p) (p_owner p)).
Proof.
  intros p Hs Hl. split; [|split].
  - unfold patch_split. rewrite map_map. cbn. apply map_id.
  - intros q Hq. unfold patch_split in Hq. apply in_map_iff in Hq. destruct Hq as (b & <- & _). auto.
  - now apply merge_patch_split.
Qed.
Print Assumptions C25_patch_split_merge.

Definition C25_box := PC (V3 0 16 32) (V3 15 31 47).
Example C25_nonvacuous :
  splittable C25_box /\ cube (2 ^ 4) C25_box /\
  nth_error (get_split C25_box) 5 = Some (PC (V3 8 16 40) (V3 15 23 47)).
Proof. unfold splittable, cube, side_ok; cbn. repeat split; lia. Qed.

(** C25, limit of the contract: a box with a single cell at coordinate 0 is "split" into boxes which
    overlap and leave the parent (unsigned wrap of 0 - 1). *)
Theorem C25_unit_box_refuted :
  exists b c p, cube 1 b /\ nth_error (get_split b) 0 = Some c /\ in_box p c /\ ~ in_box p b.
Proof.
  exists (PC (V3 0 0 0) (V3 0 0 0)), (PC (V3 0 0 0) (V3 u64_max u64_max u64_max)), (V3 5 5 5).
  split; [unfold cube; cbn; lia|]. split; [reflexivity|]. unfold in_box, u64_max; cbn. lia.
Qed.
Print Assumptions C25_unit_box_refuted.

(** C26: after any history of allowed operations the tree is well formed and the boxes of its leaves
    cut the boxes of the roots. *)
Theorem C26_tree_invariant : forall ops t, tree_history ops t ->
  tree_ok t /\ leaves_partition_roots t.
Proof. exact tree_history_ok. Qed.
Print Assumptions C26_tree_invariant.

(** C26: and every allowed operation succeeds (no exception, no access to a missing node). *)
Theorem C26_tree_progress : forall ops t o, tree_history ops t -> tree_allowed o t ->
  exists t', tree_step o t = Ok t'.
Proof. intros ops t o H Ha. eapply tree_progress; eauto. now apply tree_history_ok in H. Qed.
Print Assumptions C26_tree_progress.

(** C26: merging any other existing node is rejected by an exception. *)
Theorem C26_merge_rejects : forall ops t id n, tree_history ops t -> t_map t id = Some n ->
  ~ In id (t_ponly t) -> merge_node_dm1 id t = Throw.
Proof. intros ops t id n H Hn Hp. eapply merge_node_rejects; eauto. now apply tree_history_ok in H. Qed.
Print Assumptions C26_merge_rejects.

(** C26: a split followed by the merge of the same node restores the leaves and the box. *)
Theorem C26_split_then_merge : forall ops t id n, tree_history ops t -> tree_allowed (TSplit id) t ->
  t_map t id = Some n ->
  exists t1 t2, split_node id t = Ok t1 /\ merge_node_dm1 id t1 = Ok t2 /\
    (forall x, In x (t_leaf t2) <-> In x (t_leaf t)) /\
    (forall x, In x (t_ponly t2) <-> In x (t_ponly t)) /\
    exists n2, t_map t2 id = Some n2 /\ n_box n2 = n_box n.
Proof.
  intros ops t id n Hh Ha Hn. destruct (tree_history_ok _ _ Hh) as (Inv & _).
  pose proof Ha as (A & B & C & D). cbn in Ha.
  destruct (split_node_spec t id n Inv A Hn) as (t1 & E & R & N & M & L & P & _).
  { unfold u64_max in C; lia. }
  pose proof (split_node_ok _ _ _ Inv A B C D E) as Inv1.
  assert (Hin : In id (t_ponly t1)) by (apply P; auto).
  assert (Hm : t_map t1 id = Some (Node (n_box n) (n_level n) (n_parent n) (zseq (t_next t) 8) false true (n_linked n) (n_load n))).
  { rewrite M, Z.eqb_refl. reflexivity. }
  destruct (merge_node_spec t1 id _ Inv1 Hin Hm) as (t2 & only & E2 & R2 & N2 & M2 & HO & L2 & P2 & _).
  assert (Fresh : forall x, In x (t_leaf t) -> ~ (t_next t <= x < t_next t + 8)).
  { intros x Hx. apply (ok_leaf _ Inv) in Hx. destruct Hx as (m & Hx & _). apply (ok_ids _ Inv) in Hx. lia. }
  exists t1, t2. split; auto. split; auto. split; [|split].
  - intros x. rewrite L2, L. cbn [n_childs]. change 8 with (Z.of_nat 8).
    pose proof (zseq_In (t_next t) 8 x) as Zx. specialize (Fresh x). change 8 with (Z.of_nat 8) in Fresh.
    split.
    + intros [([(H1 & _)|H1] & H2)| ->]; auto. tauto.
    + intros Hx. destruct (Z.eq_dec x id); auto. left. split; [auto|]. tauto.
  - intros x. rewrite P2, P. cbn [n_parent].
    assert (Hidp : ~ In id (t_ponly t)).
    { intros Hp. apply (ok_ponly _ Inv) in Hp. destruct Hp as (m & Hm' & Hl & _).
      apply (ok_leaf _ Inv) in A. destruct A as (m2 & Hm2 & Hl2). congruence. }
    assert (Hpar : n_parent n <> u64_max -> forall m, t_map t (n_parent n) = Some m ->
       exists m1, t_map t1 (n_parent n) = Some m1 /\ n_childs m1 = n_childs m).
    { intros Hp m Hmm. destruct (ok_parent _ Inv _ _ Hn Hp) as (Lt & _). rewrite M.
      replace (n_parent n =? id) with false by lia. apply (ok_ids _ Inv) in Hmm as Hr.
      replace ((t_next t <=? n_parent n) && (n_parent n <? t_next t + 8)) with false by lia.
      destruct (_ && _); [rewrite Hmm; cbn; eexists; split; reflexivity|eauto]. }
    assert (Hleaf1 : forall c, In c (t_leaf t1) <-> (In c (t_leaf t) /\ c <> id) \/ t_next t <= c < t_next t + 8) by exact L.
    assert (HOnly : only = true <-> n_parent n <> u64_max /\ In (n_parent n) (t_ponly t)).
    { rewrite HO. cbn [n_parent]. split.
      - intros (Hp & Hc). split; auto. apply (ok_ponly _ Inv).
        destruct (ok_parent _ Inv _ _ Hn Hp) as (Lt & pm & Hpm & Hpl & Hpin).
        exists pm. split; auto. split; auto. intros c Hcin.
        destruct (Hpar Hp _ Hpm) as (m1 & Hm1 & Ec).
        assert (Hcin1 : In c (n_childs m1)) by congruence.
        destruct (Hc _ Hm1 c Hcin1) as [->|Hcl]; [apply (ok_leaf _ Inv); exact A|].
        apply (ok_leaf _ Inv1) in Hcl. apply L in Hcl. destruct Hcl as [(Hcl & _)|Hcl]; [apply (ok_leaf _ Inv); exact Hcl|].
        apply In_nth_error in Hcin. destruct Hcin as (k & Hk).
        destruct (proj2 (ok_children _ Inv _ _ Hpm Hpl) _ _ Hk) as (mc & Hmc & _).
        apply (ok_ids _ Inv) in Hmc. lia.
      - intros (Hp & Hin2). split; auto. intros m1 Hm1 c Hcin.
        apply (ok_ponly _ Inv) in Hin2. destruct Hin2 as (m & Hmm & Hl & Hall).
        destruct (Hpar Hp _ Hmm) as (m1' & Hm1' & Ec). rewrite Hm1 in Hm1'; injection Hm1' as <-.
        rewrite Ec in Hcin. specialize (Hall c Hcin). destruct (Z.eq_dec c id); auto. right.
        apply (ok_leaf _ Inv1). apply L. left. split; auto. apply (ok_leaf _ Inv); exact Hall. }
    split.
    + intros [([(H1 & H2)|H1] & H3)|(H1 & ->)]; auto; [congruence|]. now apply HOnly.
    + intros Hx. destruct (Z.eq_dec x id) as [->|Hxi]; [contradiction|].
      destruct (Z.eq_dec (n_parent n) u64_max) as [Hp|Hp]; [left; auto|].
      destruct (Z.eq_dec x (n_parent n)) as [->|Hxp]; [right; split; [apply HOnly; auto|reflexivity]|left; auto].
  - eexists. split; [rewrite M2, Z.eqb_refl; reflexivity|reflexivity].
Qed.
Print Assumptions C26_split_then_merge.

(** C26, limit of the contract: get_split_nodes takes its id as u32, so splitting a leaf whose id does
    not fit in 32 bits gives children whose parent link is wrong, for every well formed tree. *)
Theorem C26_ids_over_32_bits_refuted : forall t id n,
  tree_ok t -> In id (t_leaf t) -> t_map t id = Some n -> 2 ^ 32 <= id -> t_next t + 8 <= u64_max ->
  exists t' c m, split_node id t = Ok t' /\ In c (t_leaf t') /\ t_map t' c = Some m /\
    (exists n', t_map t' id = Some n' /\ In c (n_childs n')) /\ n_parent m <> id.
Proof.
  intros t id n Inv Hl Hn H32 Hnx. pose proof (ok_ids _ Inv _ _ Hn) as Hid.
  destruct (split_node_spec t id n Inv Hl Hn) as (t' & E & R & N & M & L & P & _).
  { unfold u64_max in Hnx; lia. }
  destruct (split_child_some n id 0) as (b & _ & B2); [lia|].
  eexists t', (t_next t), _. split; [exact E|]. split; [apply L; lia|]. split.
  { rewrite M. replace (t_next t =? id) with false by lia.
    replace ((t_next t <=? t_next t) && (t_next t <? t_next t + 8)) with true by lia.
    rewrite Z.sub_diag. exact B2. }
  split.
  - eexists. split; [rewrite M, Z.eqb_refl; reflexivity|]. cbn [n_childs]. apply zseq_In. lia.
  - cbn [n_parent]. unfold w32, wrapZ. pose proof (Z.mod_pos_bound id (2 ^ 32)). lia.
Qed.
Print Assumptions C26_ids_over_32_bits_refuted.

(** A concrete history: one root, two nested splits, one merge. *)
Definition C26_ops := [TRoot 0 C25_box; TSplit 0; TSplit 3; TMerge 3].
Definition C26_isok {A} (r : res A) : bool := match r with Ok _ => true | _ => false end.
Definition C26_get {A} (d : A) (r : res A) : A := match r with Ok a => a | _ => d end.
Lemma C26_ok {A} (d : A) (r : res A) : C26_isok r = true -> r = Ok (C26_get d r).
Proof. destruct r; simpl; congruence. Qed.
Definition C26_t1 := insert_root_node 0 C25_box empty_ptree.
Definition C26_t2 := C26_get C26_t1 (split_node 0 C26_t1).
Definition C26_t3 := C26_get C26_t1 (split_node 3 C26_t2).
Definition C26_t4 := C26_get C26_t1 (merge_node_dm1 3 C26_t3).
Example C26_nonvacuous : tree_history C26_ops C26_t4 /\
  length (t_leaf C26_t4) = 8%nat /\ t_ponly C26_t4 = [0] /\ t_next C26_t4 = 17.
Proof.
  assert (Hs : forall b, b = C25_box \/ b = PC (V3 0 24 32) (V3 7 31 39) -> splittable b).
  { intros b [->| ->]; unfold splittable, side_ok; cbn; lia. }
  assert (L1 : t_leaf C26_t1 = [0]) by (vm_compute; reflexivity).
  assert (L2 : In 3 (t_leaf C26_t2)) by (vm_compute; tauto).
  assert (N1 : t_next C26_t1 = 1) by (vm_compute; reflexivity).
  assert (N2 : t_next C26_t2 = 9) by (vm_compute; reflexivity).
  assert (P3 : In 3 (t_ponly C26_t3)) by (vm_compute; tauto).
  assert (B1 : option_map n_box (t_map C26_t1 0) = Some C25_box) by (vm_compute; reflexivity).
  assert (B2 : option_map n_box (t_map C26_t2 3) = Some (PC (V3 0 24 32) (V3 7 31 39))) by (vm_compute; reflexivity).
  assert (E2 : split_node 0 C26_t1 = Ok C26_t2) by (apply C26_ok; vm_compute; reflexivity).
  assert (E3 : split_node 3 C26_t2 = Ok C26_t3) by (apply C26_ok; vm_compute; reflexivity).
  assert (E4 : merge_node_dm1 3 C26_t3 = Ok C26_t4) by (apply C26_ok; vm_compute; reflexivity).
  split.
  - change C26_ops with (((([] ++ [TRoot 0 C25_box]) ++ [TSplit 0]) ++ [TSplit 3]) ++ [TMerge 3]).
    eapply TH_step; [eapply TH_step; [eapply TH_step; [eapply TH_step; [apply TH_init| |exact (eq_refl (Ok C26_t1))]| |]| |]| |].
    + split; [vm_compute; congruence|]. split; [unfold wf_box, C25_box; cbn [cmin cmax vx vy vz]; lia|intros r n []].
    + split; [rewrite L1; left; reflexivity|]. split; [lia|].
      split; [rewrite N1; vm_compute; congruence|]. intros n En. rewrite En in B1. injection B1 as E. apply Hs. left; exact E.
    + exact E2.
    + split; [exact L2|]. split; [lia|].
      split; [rewrite N2; vm_compute; congruence|]. intros n En. rewrite En in B2. injection B2 as E. apply Hs. right; exact E.
    + exact E3.
    + exact P3.
    + exact E4.
  - clear. split; [vm_compute; reflexivity|]. split; vm_compute; reflexivity.
Qed.
