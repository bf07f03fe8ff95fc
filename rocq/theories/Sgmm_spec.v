(** Specification vocabulary of the tree walks of self gravity (C48). *)
Require Import Reals.
From Verif Require Import Fmm_tensors Fmm_ops Fmm_spec Fmm_orders.
From Verif Require Import Base Karras Traverse Reduction Scan SortSearch SortSearch_spec BVH BVH_spec Dtt Dtt_spec Sgfmm Sgfmm_spec Sgmm.
Local Open Scope R_scope.

(** half of the longest side of the box of a cell *)
Definition half_size (B : @bvh R) (b : nat) : R :=
  match box_at B b with
  | Some ((x, y, z), (x', y', z')) => Rmax (x' - x) (Rmax (y' - y) (z' - z)) / 2
  | None => 0
  end.
(** seen from a ball-like region of centre s and half size h, cell b fits in the opening angle *)
Definition apart (theta : R) (s : vec3) (h : R) (B : @bvh R) (b : nat) : Prop :=
  0 < norm2 (vsub (cell_center B b) s) /\ half_size B b + h <= theta * sqrt (norm2 (vsub (cell_center B b) s)).
(** the action of particle j on particle i, in a walk for the region (s, h): expanded in the largest cell around j
    that fits in the opening angle, exact if there is none *)
Inductive walk_acts (D : vec3 -> word -> R) (n : nat) (theta : R) (s : vec3) (h : R) (B : @bvh R) (xyz : list (vec R)) (G gm eps : R)
    (i j : nat) (f : ix -> R) : Prop :=
| walk_far b : (b < total_cell_count B)%nat -> In j (cell_objects B b) -> apart theta s h B b ->
    (forall b', (b' < total_cell_count B)%nat -> In j (cell_objects B b') -> apart theta s h B b' -> incl (cell_objects B b') (cell_objects B b)) ->
    (forall c, f c = expanded D n G gm s (cell_center B b) (position xyz i) (position xyz j) c) -> walk_acts D n theta s h B xyz G gm eps i j f
| walk_near : (forall b, (b < total_cell_count B)%nat -> In j (cell_objects B b) -> ~ apart theta s h B b) ->
    (forall c, f c = softened G gm eps (position xyz i) (position xyz j) c) -> walk_acts D n theta s h B xyz G gm eps i j f.

Local Open Scope nat_scope.
Record mm_env_ok (o : mmorder) (B : @bvh R) (items sd : nat) (env : sg_env) (order : list nat) (garbage : nat -> list N) : Prop := {
  mo_leaf : Permutation (se_leaf env) (seq 0 (b_leafs B));
  mo_mass : forall k, length (se_mass env k) = k;
  mo_up : forall k, fair_schedule (length (b_cells B)) (3 * mass_terms o) (se_up env k);
  mo_order : Permutation order (seq 0 items);
  mo_stack : forall i, length (garbage i) = sd }.
(** the orders and memory of the tiled direct sum: any order of the groups and, in each phase, of the items of a group *)
Record direct_env_ok (env : direct_env) : Prop := {
  do_groups : forall k, Permutation (de_groups env k) (seq 0 k);
  do_load : forall g k, Permutation (de_load env g k) (seq 0 32);
  do_accum : forall g k, Permutation (de_accum env g k) (seq 0 32);
  do_write : forall g, Permutation (de_write env g) (seq 0 32);
  do_scr : forall g, length (de_scr env g) = 32 }.
(** the accelerations ax' are ax plus the softened action of all the other particles *)
Definition direct_sum (xyz : list (vec R)) (G gm eps : R) (ax ax' : list vec3) : Prop :=
  length ax' = length ax /\
  forall i c, i < length xyz -> comp (nth i ax' (mkv 0 0 0)) c =
    (comp (nth i ax (mkv 0 0 0)) c + Rsum (fun j => softened G gm eps (position xyz i) (position xyz j) c) (filter (fun j => negb (j =? i)) (seq 0 (length xyz))))%R.
