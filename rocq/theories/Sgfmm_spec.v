(** Specification vocabulary of the self gravity of particles. *)
Require Import Reals.
From Verif Require Import Fmm_tensors Fmm_ops Fmm_spec Fmm_orders.
From Verif Require Import Base Karras Traverse Reduction Scan SortSearch SortSearch_spec BVH BVH_spec Dtt Dtt_spec Sgfmm.
Local Open Scope R_scope.

(** <= of the coordinates *)
Definition Rleb (a b : R) : bool := if Rle_dec a b then true else false.

Definition position (xyz : list (vec R)) (j : nat) : vec3 := let '(x, y, z) := nth j xyz (0, 0, 0) in mkv x y z.
(** the middle of the stored box of a cell *)
Definition cell_center (B : @bvh R) (a : nat) : vec3 :=
  match box_at B a with
  | Some ((x, y, z), (x', y', z')) => mkv ((x + x') / 2) ((y + y') / 2) ((z + z') / 2)
  | None => mkv 0 0 0
  end.

(** Newton's acceleration of a particle at x by a mass gm at y, with Plummer softening eps:
    G gm (y - x) / (|y - x|^2 + eps^2)^(3/2) *)
Definition softened (G gm eps : R) (x y : vec3) (c : ix) : R :=
  G * gm * comp (vsub y x) c / sqrt (norm2 (vsub y x) + eps * eps) ^ 3.
(** The same with - G gm grad (1/r) expanded to order n around the vector between the centres sA, sB; D is
    the family of the partial derivatives of 1/r *)
Definition expanded (D : vec3 -> word -> R) (n : nat) (G gm : R) (sA sB x y : vec3) (c : ix) : R :=
  - G * gm * taylor D n (vsub sB sA) (vsub (vsub y sB) (vsub x sA)) c.

(** the acceleration of particle i by particle j: expanded if some far pair of cells (a list m) contains (i, j),
    exact if some near pair does (a list q) *)
Inductive acts (D : vec3 -> word -> R) (n : nat) (B : @bvh R) (xyz : list (vec R)) (m q : list ipair) (G gm eps : R)
    (i j : nat) (f : ix -> R) : Prop :=
| acts_far a b : In (a, b) m -> In i (cell_objects B a) -> In j (cell_objects B b) ->
    (forall c, f c = expanded D n G gm (cell_center B a) (cell_center B b) (position xyz i) (position xyz j) c) -> acts D n B xyz m q G gm eps i j f
| acts_near a b : In (a, b) q -> In i (cell_objects B a) -> In j (cell_objects B b) ->
    (forall c, f c = softened G gm eps (position xyz i) (position xyz j) c) -> acts D n B xyz m q G gm eps i j f.

Local Open Scope nat_scope.
(** number of pairs (cell, particle below it): the size of the inverted list *)
Definition incidence_count (B : @bvh R) : nat := length (flat_map (cell_objects B) (seq 0 (total_cell_count B))).
(** every work item below n makes at least c accesses, no other makes any *)
Definition fair_schedule (n c : nat) (s : list nat) : Prop :=
  Forall (fun g => g < n) s /\ forall g, g < n -> c <= count_occ Nat.eq_dec s g.
(** the range sort of segmented_sort_in_place: the local insertion sort, or std::sort on the host *)
Definition range_sort_ok (rs : list nat -> nat -> nat -> res (list nat)) : Prop :=
  rs = ptr_insert_sort Nat.ltb \/ exists srt, (forall l, Permutation (srt l) l /\ sorted_by Nat.ltb (srt l)) /\ rs = std_sort_range srt.

(** what the code gets from its environment: every order of the independent work items, every fair interleaving of
    the accesses of the tree passes, any content of new memory *)
Record sg_env_ok (o : mmorder) (B : @bvh R) (npart nm nq : nat) (env : sg_env) : Prop := {
  so_leaf : Permutation (se_leaf env) (seq 0 (b_leafs B));
  so_mass : forall k, length (se_mass env k) = k;
  so_up : forall k, fair_schedule (length (b_cells B)) (3 * mass_terms o) (se_up env k);
  so_dtt : dtt_env_ok B nm nq (se_dtt env);
  so_m2l : Permutation (se_m2l env) (seq 0 (total_cell_count B));
  so_grav : forall k, length (se_grav env k) = k;
  so_down : forall k, fair_schedule (length (b_cells B)) (5 * grav_terms o + 5) (se_down env k);
  so_l2p : Permutation (se_l2p env) (seq 0 (b_leafs B));
  so_count : Permutation (se_count env) (seq 0 (incidence_count B));
  so_scat : Permutation (se_scat env) (seq 0 (incidence_count B));
  so_cont : forall k, length (se_cont env k) = k;
  so_sort : Permutation (se_sort env) (seq 0 npart);
  so_range_sort : range_sort_ok (se_range_sort env);
  so_p2p : Permutation (se_p2p env) (seq 0 npart) }.
