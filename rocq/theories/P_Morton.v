(** Properties C13 and C14: Morton codes. *)
From Verif Require Import Base Bits Morton Morton_spec Morton_proofs.
Open Scope N_scope.

(** The code is the interleaving of the coordinates, fits in 63 bits (is never the error code), and
    decodes to the coordinates. *)
Theorem C13_encode_decode_64 : forall x y z, x <= max_val_64 -> y <= max_val_64 -> z <= max_val_64 ->
  interleaving 21 (icoord_to_morton_64 x y z) (x, y, z) /\
  icoord_to_morton_64 x y z < 2 ^ 63 /\ icoord_to_morton_64 x y z <> err_code_64 /\
  morton_to_icoord_64 (icoord_to_morton_64 x y z) = (x, y, z).
Proof.
  intros x y z Hx Hy Hz. pose proof (encode_64 x y z) as I. split; [exact I|].
  assert (L : icoord_to_morton_64 x y z < 2 ^ 63) by apply I. split; [exact L|].
  split; [intros E; rewrite E in L; vm_compute in L; discriminate|].
  destruct (decode_64 (icoord_to_morton_64 x y z)) as (G & D). eapply (interleaving_coord_inj 21); [exact G| |exact (D L)|exact I].
  unfold max_val_64 in *. cbn [in_grid]. change (2 ^ 21) with 2097152. lia.
Qed.
Theorem C13_encode_decode_32 : forall x y z, x <= max_val_32 -> y <= max_val_32 -> z <= max_val_32 ->
  interleaving 10 (icoord_to_morton_32 x y z) (x, y, z) /\
  icoord_to_morton_32 x y z < 2 ^ 30 /\ icoord_to_morton_32 x y z <> err_code_32 /\
  morton_to_icoord_32 (icoord_to_morton_32 x y z) = (x, y, z).
Proof.
  intros x y z Hx Hy Hz. pose proof (encode_32 x y z) as I. split; [exact I|].
  assert (L : icoord_to_morton_32 x y z < 2 ^ 30) by apply I. split; [exact L|].
  split; [intros E; rewrite E in L; vm_compute in L; discriminate|].
  destruct (decode_32 (icoord_to_morton_32 x y z)) as (G & D). eapply (interleaving_coord_inj 10); [exact G| |exact (D L)|exact I].
  unfold max_val_32 in *. cbn [in_grid]. change (2 ^ 10) with 1024. lia.
Qed.

(** Every code below 2^63 (2^30) is the code of a grid point, which decoding finds. *)
Theorem C13_decode_encode_64 : forall m, m < 2 ^ 63 ->
  let '(x, y, z) := morton_to_icoord_64 m in
  x <= max_val_64 /\ y <= max_val_64 /\ z <= max_val_64 /\ icoord_to_morton_64 x y z = m.
Proof.
  intros m Hm. destruct (decode_64 m) as (G & D). specialize (D Hm). destruct (morton_to_icoord_64 m) as [[x y] z].
  destruct G as (A & B & C). change (2 ^ 21) with 2097152 in *. unfold max_val_64.
  split; [lia|]. split; [lia|]. split; [lia|]. eapply interleaving_code_inj; [apply encode_64|exact D].
Qed.
Theorem C13_decode_encode_32 : forall m, m < 2 ^ 30 ->
  let '(x, y, z) := morton_to_icoord_32 m in
  x <= max_val_32 /\ y <= max_val_32 /\ z <= max_val_32 /\ icoord_to_morton_32 x y z = m.
Proof.
  intros m Hm. destruct (decode_32 m) as (G & D). specialize (D Hm). destruct (morton_to_icoord_32 m) as [[x y] z].
  destruct G as (A & B & C). change (2 ^ 10) with 1024 in *. unfold max_val_32.
  split; [lia|]. split; [lia|]. split; [lia|]. eapply interleaving_code_inj; [apply encode_32|exact D].
Qed.

(** The codes are monotone in each coordinate: the codes of the points of a box lie between the codes
    of its two extreme corners. *)
Theorem C13_monotone_64 : forall x y z x' y' z', x <= x' <= max_val_64 -> y <= y' <= max_val_64 -> z <= z' <= max_val_64 ->
  icoord_to_morton_64 x y z <= icoord_to_morton_64 x' y' z'.
Proof.
  intros x y z x' y' z' Hx Hy Hz. unfold max_val_64 in *.
  eapply (interleaving_le 21 _ _ (x, y, z) (x', y', z')); [| |apply encode_64|apply encode_64|cbn; lia]; cbn [in_grid]; change (2 ^ 21) with 2097152; lia.
Qed.
Theorem C13_monotone_32 : forall x y z x' y' z', x <= x' <= max_val_32 -> y <= y' <= max_val_32 -> z <= z' <= max_val_32 ->
  icoord_to_morton_32 x y z <= icoord_to_morton_32 x' y' z'.
Proof.
  intros x y z x' y' z' Hx Hy Hz. unfold max_val_32 in *.
  eapply (interleaving_le 10 _ _ (x, y, z) (x', y', z')); [| |apply encode_32|apply encode_32|cbn; lia]; cbn [in_grid]; change (2 ^ 10) with 1024; lia.
Qed.

(** Two dimensional bit spreading is undone by its contraction. *)
Theorem C13_bits_2d : (forall x, x < 2 ^ 32 -> contract_bits_64_1 (expand_bits_64_1 x) = x) /\
  (forall x, x < 2 ^ 16 -> contract_bits_32_1 (expand_bits_32_1 x) = x).
Proof. split; [apply expand_contract_64_1|apply expand_contract_32_1]. Qed.

Example C13_nonvacuous : icoord_to_morton_64 3 5 2097151 < 2 ^ 63 /\ icoord_to_morton_64 3 5 2097151 = 1317624576693539567 /\
  morton_to_icoord_64 1317624576693539567 = (3, 5, 2097151) /\ icoord_to_morton_32 1023 1 512 = 747784486 /\ morton_to_icoord_32 747784486 = (1023, 1, 512).
Proof. vm_compute. repeat split; reflexivity. Qed.

(** C14: the points sharing a prefix of n bits with m are exactly those of the box with corner the
    decoded prefix and extent get_offset(n). *)
Theorem C14_prefix_is_a_box_64 : forall n m c, 1 <= n <= 64 -> m < 2 ^ 63 -> c < 2 ^ 63 ->
  exists mask off, get_mask 64 n = Ok mask /\ get_offset_64 n = Ok off /\
    (same_prefix 64 n c m <->
     in_box (morton_to_icoord_64 c) (morton_to_icoord_64 (N.land m mask)) (vplus (morton_to_icoord_64 (N.land m mask)) off)).
Proof.
  intros n m c Hn Hm Hc. destruct (mask_bits 64 n) as (mask & Em & Mb); [lia|]. exists mask, (box_size (64 - n)).
  split; [exact Em|]. split; [apply offset_64; exact Hn|]. set (q := N.land m mask).
  assert (Qb : forall i, N.testbit q i = N.testbit m i && (64 - n <=? i)).
  { intros i. unfold q. rewrite N.land_spec, Mb. destruct (N.ltb_spec i 64) as [|Hi]; [now rewrite andb_true_r|]. rewrite (testbit_high m 63); auto. lia. }
  assert (Lq : q < 2 ^ 63) by (apply lt_pow2_bits; intros i Hi; rewrite Qb, (testbit_high m 63) by auto; reflexivity).
  destruct (decode_64 c) as (Gc & Ic). destruct (decode_64 q) as (Gq & Iq).
  rewrite <- (prefix_box 21 (64 - n) c q (morton_to_icoord_64 c) (morton_to_icoord_64 q) Gc Gq (Ic Hc) (Iq Lq)).
  2:{ intros i Hi. rewrite Qb. destruct (N.leb_spec (64 - n) i); [lia|apply andb_false_r]. }
  split; intros H i; [intros Hi|intros _ Hi].
  - rewrite Qb. destruct (N.leb_spec (64 - n) i); [|lia]. rewrite andb_true_r. destruct (N.lt_ge_cases i 64) as [X|X]; [apply H; auto|].
    rewrite (testbit_high c 63), (testbit_high m 63); auto; lia.
  - rewrite (H i Hi), Qb. destruct (N.leb_spec (64 - n) i); [apply andb_true_r|lia].
Qed.
Theorem C14_prefix_is_a_box_32 : forall n m c, 2 <= n <= 32 -> m < 2 ^ 30 -> c < 2 ^ 30 ->
  exists mask off, get_mask 32 n = Ok mask /\ get_offset_32 n = Ok off /\
    (same_prefix 32 n c m <->
     in_box (morton_to_icoord_32 c) (morton_to_icoord_32 (N.land m mask)) (vplus (morton_to_icoord_32 (N.land m mask)) off)).
Proof.
  intros n m c Hn Hm Hc. destruct (mask_bits 32 n) as (mask & Em & Mb); [lia|]. exists mask, (box_size (32 - n)).
  split; [exact Em|]. split; [apply offset_32; exact Hn|]. set (q := N.land m mask).
  assert (Qb : forall i, N.testbit q i = N.testbit m i && (32 - n <=? i)).
  { intros i. unfold q. rewrite N.land_spec, Mb. destruct (N.ltb_spec i 32) as [|Hi]; [now rewrite andb_true_r|]. rewrite (testbit_high m 30); auto. lia. }
  assert (Lq : q < 2 ^ 30) by (apply lt_pow2_bits; intros i Hi; rewrite Qb, (testbit_high m 30) by auto; reflexivity).
  destruct (decode_32 c) as (Gc & Ic). destruct (decode_32 q) as (Gq & Iq).
  rewrite <- (prefix_box 10 (32 - n) c q (morton_to_icoord_32 c) (morton_to_icoord_32 q) Gc Gq (Ic Hc) (Iq Lq)).
  2:{ intros i Hi. rewrite Qb. destruct (N.leb_spec (32 - n) i); [lia|apply andb_false_r]. }
  split; intros H i; [intros Hi|intros _ Hi].
  - rewrite Qb. destruct (N.leb_spec (32 - n) i); [|lia]. rewrite andb_true_r. destruct (N.lt_ge_cases i 32) as [X|X]; [apply H; auto|].
    rewrite (testbit_high c 30), (testbit_high m 30); auto; lia.
  - rewrite (H i Hi), Qb. destruct (N.leb_spec (32 - n) i); [apply andb_true_r|lia].
Qed.

(** compute_cell_ranges: for a tree cell whose first and last leaves have the codes m1 < m2, the cell
    box holds exactly the points sharing their common prefix; the boxes written for leaf children hold
    exactly the points sharing one more bit with m2 (right) and m1 (left). *)
Theorem C14_cell_boxes_64 : forall m1 m2, m1 < m2 -> m2 < 2 ^ 63 ->
  exists n lo hi rlo rhi llo lhi, prefix_length 64 m1 m2 n /\
    cell_boxes_64 m1 m2 = Ok ((lo, hi), (rlo, rhi), (llo, lhi)) /\
    forall c, c < 2 ^ 63 ->
      (in_box (morton_to_icoord_64 c) lo hi <-> same_prefix 64 n c m1) /\
      (in_box (morton_to_icoord_64 c) rlo rhi <-> same_prefix 64 (n + 1) c m2) /\
      (in_box (morton_to_icoord_64 c) llo lhi <-> same_prefix 64 (n + 1) c m1).
Proof.
  intros m1 m2 H1 H2.
  refine (cell_boxes_ok 21 64 32 get_offset_64 morton_to_icoord_64 _ _ _ _ offset_64 decode_64 m1 m2 H1 H2); clear; lia.
Qed.
Theorem C14_cell_boxes_32 : forall m1 m2, m1 < m2 -> m2 < 2 ^ 30 ->
  exists n lo hi rlo rhi llo lhi, prefix_length 32 m1 m2 n /\
    cell_boxes_32 m1 m2 = Ok ((lo, hi), (rlo, rhi), (llo, lhi)) /\
    forall c, c < 2 ^ 30 ->
      (in_box (morton_to_icoord_32 c) lo hi <-> same_prefix 32 n c m1) /\
      (in_box (morton_to_icoord_32 c) rlo rhi <-> same_prefix 32 (n + 1) c m2) /\
      (in_box (morton_to_icoord_32 c) llo lhi <-> same_prefix 32 (n + 1) c m1).
Proof.
  intros m1 m2 H1 H2.
  refine (cell_boxes_ok 10 32 16 get_offset_32 morton_to_icoord_32 _ _ _ _ offset_32 decode_32 m1 m2 H1 H2); clear; lia.
Qed.

(** In particular every code between m1 and m2 is in the box of the cell, m1 in the left half and m2 in
    the right half. *)
Theorem C14_cell_contains_its_leaves_64 : forall m1 m2 lo hi rlo rhi llo lhi, m1 < m2 -> m2 < 2 ^ 63 ->
  cell_boxes_64 m1 m2 = Ok ((lo, hi), (rlo, rhi), (llo, lhi)) ->
  (forall c, m1 <= c <= m2 -> in_box (morton_to_icoord_64 c) lo hi) /\
  in_box (morton_to_icoord_64 m1) llo lhi /\ in_box (morton_to_icoord_64 m2) rlo rhi.
Proof.
  intros m1 m2 lo hi rlo rhi llo lhi H1 H2 E. destruct (C14_cell_boxes_64 m1 m2 H1 H2) as (n & lo' & hi' & rlo' & rhi' & llo' & lhi' & (P & _) & E' & K).
  rewrite E in E'. injection E' as <- <- <- <- <- <-. split; [|split].
  - intros c Hc. apply (K c); [lia|]. intros i Hi Hn.
    destruct (N.eq_dec c m1) as [->|Hne]; auto.
    assert (m1 < c) by lia. destruct (lt_bit m1 c H) as (j & F & T & U & _).
    destruct (N.lt_ge_cases j i) as [X|X]; [symmetry; auto|]. exfalso.
    assert (Hj : j < 63) by (destruct (N.lt_ge_cases j 63); auto; rewrite (testbit_high c 63) in T; auto; [discriminate|lia]).
    assert (m2 < c); [|lia]. apply (lt_from_bit m2 c j); auto.
    + rewrite <- P; auto; lia.
    + intros k Hk. rewrite <- U by auto. destruct (N.lt_ge_cases k 64); [symmetry; apply P; auto; lia|rewrite (testbit_high m2 63), (testbit_high m1 63); auto; lia].
  - apply (K m1); [lia|]. intros i _ _. reflexivity.
  - apply (K m2); [lia|]. intros i _ _. reflexivity.
Qed.

Example C14_nonvacuous : cell_boxes_64 5 7 = Ok ((1, 0, 0, (2, 2, 2)), (1, 1, 0, (2, 2, 2)), (1, 0, 0, (2, 1, 2))) /\
  same_prefix 64 62 5 7 /\ get_offset_64 1 = Ok (2097152, 2097152, 2097152).
Proof. split; [vm_compute; reflexivity|]. split; [|vm_compute; reflexivity]. intros i Hi Hn. destruct (N.eq_dec i 2) as [->|]; [reflexivity|]. rewrite (testbit_high 5 3), (testbit_high 7 3); try reflexivity; lia. Qed.

Print Assumptions C13_encode_decode_64.
Print Assumptions C13_encode_decode_32.
Print Assumptions C13_decode_encode_64.
Print Assumptions C13_decode_encode_32.
Print Assumptions C13_monotone_64.
Print Assumptions C13_monotone_32.
Print Assumptions C13_bits_2d.
Print Assumptions C14_prefix_is_a_box_64.
Print Assumptions C14_prefix_is_a_box_32.
Print Assumptions C14_cell_boxes_64.
Print Assumptions C14_cell_boxes_32.
Print Assumptions C14_cell_contains_its_leaves_64.
