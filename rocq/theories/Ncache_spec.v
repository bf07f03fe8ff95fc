(** What the neighbour lists must contain, without trees. *)
Require Import Reals.
From Verif Require Import Base Scan Scan_spec BVH BVH_spec Dtt Dtt_spec Sgfmm_spec Ncache.
Local Open Scope nat_scope.

Definition pos_of (xyz : list (vec R)) (i : nat) : vec R := nth i xyz (0, 0, 0)%R.
Definition h_of (hpart : list R) (i : nat) : R := nth i hpart 0%R.
(** square of the distance *)
Definition dist2 (p q : vec R) : R :=
  ((cx p - cx q) * (cx p - cx q) + (cy p - cy q) * (cy p - cy q) + (cz p - cz q) * (cz p - cz q))%R.
(** each is inside the support, enlarged by htol, of one of the two *)
Definition interacts (xyz : list (vec R)) (hpart : list R) (htol Rkern : R) (a b : nat) : Prop :=
  let d := sqrt (dist2 (pos_of xyz a) (pos_of xyz b)) in
  (d <= Rkern * (htol * h_of hpart a) \/ d <= Rkern * (htol * h_of hpart b))%R.
(** the list read through the cache for particle a is exactly the set of the particles it interacts with *)
Definition lists_neighbours (xyz : list (vec R)) (hpart : list R) (htol Rkern : R) (obj_cnt : nat) (c : ocache) : Prop :=
  forall a, a < obj_cnt -> exists l, for_each_object c a = Ok l /\ NoDup l /\
    forall b, In b l <-> b < length xyz /\ interacts xyz hpart htol Rkern a b.

Record nc_env_ok (B : @bvh R) (obj_cnt : nat) (env : nc_env) (sd : nat) : Prop := {
  no_leaf : Permutation (ne_leaf env) (seq 0 (b_leafs B));
  no_field : forall n, length (ne_field env n) = n;
  no_up : forall i, fair_schedule (length (b_cells B)) 3 (ne_up env i);
  no_scale : Permutation (ne_scale env) (seq 0 (total_cell_count B));
  no_scan : scan_ok (ne_scan env);
  no_stack : forall k i, length (ne_stack env k i) = sd;
  no_l1 : Permutation (ne_l1 env) (seq 0 (b_leafs B)); no_l2 : Permutation (ne_l2 env) (seq 0 (b_leafs B));
  no_own : Permutation (ne_own env) (seq 0 obj_cnt);
  no_p1 : Permutation (ne_p1 env) (seq 0 obj_cnt); no_p2 : Permutation (ne_p2 env) (seq 0 obj_cnt);
  no_jz : forall n, length (ne_jz env n) = n; no_jn : forall n, length (ne_jn env n) = n }.

(** at most [m] - 1 pairs satisfy P *)
Definition fewer_pairs (P : nat -> nat -> Prop) (m : Z) : Prop :=
  forall L : list (nat * nat), NoDup L -> (forall p, In p L -> P (fst p) (snd p)) -> (Z.of_nat (length L) < m)%Z.
(** two boxes touch after one of them has grown by r on every side *)
Definition boxes_within (r : R) (p q : vec R * vec R) : Prop :=
  forall c, In c (@coords R) -> (c (fst p) - r <= c (snd q) /\ c (fst q) - r <= c (snd p))%R.
(** the boxes of the leaves k and l are within the reach of a particle of one of them *)
Definition near_leafs (B : @bvh R) (hpart : list R) (htol Rkern : R) (k l : nat) : Prop :=
  let off := length (b_cells B) in
  k < b_leafs B /\ l < b_leafs B /\ exists bk bl i, box_at B (off + k) = Some bk /\ box_at B (off + l) = Some bl /\
    In i (cell_objects B (off + k) ++ cell_objects B (off + l)) /\ boxes_within (Rkern * (htol * h_of hpart i)) bk bl.
