(** Property C15: the Hilbert index. *)
From Verif Require Import Base Bits Morton Morton_spec Morton_proofs Hilbert Hilbert_proofs.
From Coq Require Import ZifyBool ZifyNat ZifyN.
Open Scope N_scope.

(** Sum of the absolute differences of the coordinates. *)
Definition manhattan (p q : triple) : N :=
  let '(x, y, z) := p in let '(x', y', z') := q in
  (N.max x x' - N.min x x') + (N.max y y' - N.min y y') + (N.max z z' - N.min z z').

(** The index of a grid point is below 2^63. *)
Theorem C15_defined : forall x y z, exists h, icoord_to_hilbert x y z = Ok h /\ h < 2 ^ 63.
Proof. intros x y z. destruct (hilbert_val x y z) as (h & E & L & _). eauto. Qed.

(** Distinct grid points have distinct indices. *)
Theorem C15_injective : forall x y z x' y' z' h,
  in_grid 21 (x, y, z) -> in_grid 21 (x', y', z') ->
  icoord_to_hilbert x y z = Ok h -> icoord_to_hilbert x' y' z' = Ok h -> (x, y, z) = (x', y', z').
Proof.
  intros x y z x' y' z' h (Hx & Hy & Hz) (Hx' & Hy' & Hz') E E'.
  destruct (hilbert_val x y z) as (h1 & E1 & _ & V1). destruct (hilbert_val x' y' z') as (h2 & E2 & _ & V2).
  rewrite E in E1. rewrite E' in E2. injection E1 as <-. injection E2 as <-. rewrite V1 in V2.
  apply val8_inj in V2; [|rewrite !enc_length; unfold pt; now rewrite !planes_length]. apply enc_inj in V2; [|exact init_state].
  destruct (pt_val x y z Hx Hy Hz) as (A & B & C). destruct (pt_val x' y' z' Hx' Hy' Hz') as (A' & B' & C'). rewrite V2 in *. congruence.
Qed.

(** Every index below 2^63 is reached. *)
Theorem C15_surjective : forall h, h < 2 ^ 63 -> exists x y z, in_grid 21 (x, y, z) /\ icoord_to_hilbert x y z = Ok h.
Proof.
  intros h Hh. destruct (digits_of 21 h Hh) as (ds & Hl & Hv).
  destruct (planes_of_list (dec (sid, false) ds)) as (x & y & z & Hx & Hy & Hz & E). rewrite dec_length, Hl in *.
  exists x, y, z. split; [split; [exact Hx|split; [exact Hy|exact Hz]]|].
  destruct (hilbert_val x y z) as (h' & E' & _ & V). rewrite E'. f_equal. rewrite V. unfold pt. rewrite E, enc_dec by exact init_state. exact Hv.
Qed.

(** The curve is continuous: consecutive indices are the indices of neighbouring points. *)
Theorem C15_consecutive_are_neighbours : forall x y z x' y' z' h,
  in_grid 21 (x, y, z) -> in_grid 21 (x', y', z') ->
  icoord_to_hilbert x y z = Ok h -> icoord_to_hilbert x' y' z' = Ok (h + 1) -> manhattan (x, y, z) (x', y', z') = 1.
Proof.
  intros x y z x' y' z' h (Hx & Hy & Hz) (Hx' & Hy' & Hz') E E'.
  destruct (hilbert_val x y z) as (h1 & E1 & _ & V1). destruct (hilbert_val x' y' z') as (h2 & E2 & _ & V2).
  rewrite E in E1. rewrite E' in E2. injection E1 as <-. injection E2 as <-. rewrite V1 in V2.
  apply enc_adjacent in V2; [|exact init_state|unfold pt; now rewrite !planes_length].
  destruct (pt_val x y z Hx Hy Hz) as (A & B & C). destruct (pt_val x' y' z' Hx' Hy' Hz') as (A' & B' & C').
  unfold dist, dist1 in V2. rewrite A, B, C, A', B', C' in V2. unfold manhattan. clear -V2. lia.
Qed.

(** The curve is hierarchical: two points are in the same aligned cube of side 2^k iff their indices are
    in the same aligned interval of length 8^k.  So a patch that is an aligned power of two cube is a
    contiguous piece of the curve. *)
Theorem C15_cubes_are_intervals : forall k x y z x' y' z' h h', k <= 21 ->
  in_grid 21 (x, y, z) -> in_grid 21 (x', y', z') ->
  icoord_to_hilbert x y z = Ok h -> icoord_to_hilbert x' y' z' = Ok h' ->
  (h / 8 ^ k = h' / 8 ^ k <-> x / 2 ^ k = x' / 2 ^ k /\ y / 2 ^ k = y' / 2 ^ k /\ z / 2 ^ k = z' / 2 ^ k).
Proof.
  intros k x y z x' y' z' h h' Hk (Hx & Hy & Hz) (Hx' & Hy' & Hz') E E'.
  destruct (hilbert_val x y z) as (h1 & E1 & _ & V1). destruct (hilbert_val x' y' z') as (h2 & E2 & _ & V2).
  rewrite E in E1. rewrite E' in E2. injection E1 as <-. injection E2 as <-.
  set (n := (21 - N.to_nat k)%nat).
  assert (Hl : length (pt x y z) = length (pt x' y' z')) by (unfold pt; now rewrite !planes_length).
  assert (L21 : length (enc (sid, false) (pt x y z)) = 21%nat) by (rewrite enc_length; unfold pt; apply planes_length).
  assert (L21' : length (enc (sid, false) (pt x' y' z')) = 21%nat) by (rewrite enc_length; unfold pt; apply planes_length).
  pose proof (val8_prefix n (enc (sid, false) (pt x y z)) (enc (sid, false) (pt x' y' z')) ltac:(congruence) ltac:(rewrite L21; unfold n; lia)) as P.
  rewrite L21 in P. replace (N.of_nat (21 - n)) with k in P by (unfold n; lia). rewrite V1, V2, <- P.
  rewrite <- (enc_prefix n _ _ (sid, false) init_state Hl). unfold pt. rewrite firstn_planes by (unfold n; lia).
  replace (N.of_nat (21 - n)) with k by (unfold n; lia). change (N.of_nat 21) with 21.
  rewrite <- !N.shiftr_div_pow2, !shiftr_eq_bits. split.
  - intros H. assert (G : forall j, k <= j -> pl (x, y, z) j = pl (x', y', z') j).
    { intros j Hj. destruct (N.lt_ge_cases j 21); [apply H; auto|]. cbn [pl]. now rewrite !(testbit_high _ 21). }
    split; [|split]; intros j Hj; specialize (G j Hj); cbn [pl] in G; congruence.
  - intros (A & B & C) j (Hj & _). cbn [pl]. rewrite A, B, C by auto. reflexivity.
Qed.

(** The curve starts at the origin. *)
Theorem C15_starts_at_origin : icoord_to_hilbert 0 0 0 = Ok 0.
Proof. vm_compute. reflexivity. Qed.

Lemma quad_eq x y z : quad_icoord_to_hilbert x y z =
  (u <- icoord_to_hilbert (x / quad_divisor) (y / quad_divisor) (z / quad_divisor) ;;
   l <- icoord_to_hilbert (x mod quad_divisor) (y mod quad_divisor) (z mod quad_divisor) ;; Ok (u, l)).
Proof. unfold quad_icoord_to_hilbert, icoord_to_hilbert. reflexivity. Qed.
Lemma quad_div_eq : quad_divisor = 2 ^ 21.
Proof. reflexivity. Qed.
Lemma quad_range x : x < 2 ^ 42 -> x / quad_divisor < 2 ^ 21 /\ x mod quad_divisor < 2 ^ 21.
Proof.
  intros Hx. rewrite quad_div_eq. split; [|apply N.mod_lt; apply N.pow_nonzero; discriminate].
  apply N.div_lt_upper_bound; [apply N.pow_nonzero; discriminate|]. rewrite <- N.pow_add_r. exact Hx.
Qed.
Lemma quad_join a b : a < 2 ^ 21 -> b < 2 ^ 21 ->
  (b + a * quad_divisor) / quad_divisor = a /\ (b + a * quad_divisor) mod quad_divisor = b /\ b + a * quad_divisor < 2 ^ 42.
Proof.
  intros Ha Hb. rewrite quad_div_eq. assert (P : 2 ^ 21 <> 0) by (apply N.pow_nonzero; discriminate).
  rewrite N.div_add, N.mod_add, N.div_small, N.mod_small by auto. split; [reflexivity|]. split; [reflexivity|].
  replace 42 with (21 + 21) by reflexivity. rewrite N.pow_add_r. generalize dependent (2 ^ 21). intros; nia.
Qed.

(** The 126 bit variant: distinct points of the 2^42 grid have distinct pairs, both below 2^63, and every
    pair is reached. *)
Theorem C15_quad_bijective :
  (forall x y z, exists u l, quad_icoord_to_hilbert x y z = Ok (u, l) /\ u < 2 ^ 63 /\ l < 2 ^ 63) /\
  (forall x y z x' y' z' p, in_grid 42 (x, y, z) -> in_grid 42 (x', y', z') ->
     quad_icoord_to_hilbert x y z = Ok p -> quad_icoord_to_hilbert x' y' z' = Ok p -> (x, y, z) = (x', y', z')) /\
  (forall u l, u < 2 ^ 63 -> l < 2 ^ 63 -> exists x y z, in_grid 42 (x, y, z) /\ quad_icoord_to_hilbert x y z = Ok (u, l)).
Proof.
  pose proof quad_range as R. split; [|split].
  - intros x y z. rewrite quad_eq.
    destruct (C15_defined (x / quad_divisor) (y / quad_divisor) (z / quad_divisor)) as (u & E & Hu).
    destruct (C15_defined (x mod quad_divisor) (y mod quad_divisor) (z mod quad_divisor)) as (l & E' & Hl).
    rewrite E, E'. cbn [rbind]. exists u, l. split; [reflexivity|]. split; [exact Hu|exact Hl].
  - intros x y z x' y' z' p (Hx & Hy & Hz) (Hx' & Hy' & Hz') E E'. rewrite quad_eq in E, E'.
    apply rbind_ok in E. destruct E as (u & U & E). apply rbind_ok in E. destruct E as (l & L & E). injection E as <-.
    apply rbind_ok in E'. destruct E' as (u' & U' & E'). apply rbind_ok in E'. destruct E' as (l' & L' & E'). injection E' as -> ->.
    destruct (R x Hx) as (X1 & X2), (R y Hy) as (Y1 & Y2), (R z Hz) as (Z1 & Z2), (R x' Hx') as (X1' & X2'), (R y' Hy') as (Y1' & Y2'), (R z' Hz') as (Z1' & Z2').
    pose proof (C15_injective _ _ _ _ _ _ u (conj X1 (conj Y1 Z1)) (conj X1' (conj Y1' Z1')) U U') as A.
    pose proof (C15_injective _ _ _ _ _ _ l (conj X2 (conj Y2 Z2)) (conj X2' (conj Y2' Z2')) L L') as B.
    injection A as A1 A2 A3. injection B as B1 B2 B3.
    assert (D0 : quad_divisor <> 0) by (rewrite quad_div_eq; apply N.pow_nonzero; discriminate).
    rewrite (N.div_mod x quad_divisor D0), (N.div_mod y quad_divisor D0), (N.div_mod z quad_divisor D0), A1, A2, A3, B1, B2, B3, <- !N.div_mod by exact D0.
    reflexivity.
  - intros u l Hu Hl. destruct (C15_surjective u Hu) as (x & y & z & (Gx & Gy & Gz) & E). destruct (C15_surjective l Hl) as (x' & y' & z' & (Gx' & Gy' & Gz') & E').
    exists (x' + x * quad_divisor), (y' + y * quad_divisor), (z' + z * quad_divisor).
    destruct (quad_join x x' Gx Gx') as (X1 & X2 & X3), (quad_join y y' Gy Gy') as (Y1 & Y2 & Y3), (quad_join z z' Gz Gz') as (Z1 & Z2 & Z3).
    split; [split; [exact X3|split; [exact Y3|exact Z3]]|]. rewrite quad_eq, X1, X2, Y1, Y2, Z1, Z2, E, E'. reflexivity.
Qed.

Example C15_nonvacuous : icoord_to_hilbert 5 9 1 = Ok 3815 /\ icoord_to_hilbert 6 9 1 = Ok 3816 /\ in_grid 21 (5, 9, 1) /\
  quad_icoord_to_hilbert 2097157 9 1 = Ok (1, 3815).
Proof. vm_compute. repeat split; reflexivity. Qed.

Print Assumptions C15_defined.
Print Assumptions C15_injective.
Print Assumptions C15_surjective.
Print Assumptions C15_consecutive_are_neighbours.
Print Assumptions C15_cubes_are_intervals.
Print Assumptions C15_starts_at_origin.
Print Assumptions C15_quad_bijective.
