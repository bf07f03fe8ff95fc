(** Vocabulary of the statements about patches: points, boxes as sets of points. *)
From Verif Require Import Base Patch.
Local Open Scope Z_scope.

(** A point with integer coordinates belongs to an (inclusive) box. *)
Definition in_box (p : v3) (b : pcoord) : Prop :=
  vx (cmin b) <= vx p <= vx (cmax b) /\
  vy (cmin b) <= vy p <= vy (cmax b) /\
  vz (cmin b) <= vz p <= vz (cmax b).

Definition disjoint (a b : pcoord) : Prop := forall p, ~ (in_box p a /\ in_box p b).

(** One side of a box: at least two cells, coordinates on 64 bits, and not the whole u64 range. *)
Definition side_ok (lo hi : Z) : Prop := 0 <= lo /\ lo < hi /\ hi < 2 ^ 64 /\ hi - lo < 2 ^ 64 - 1.
Definition splittable (b : pcoord) : Prop :=
  side_ok (vx (cmin b)) (vx (cmax b)) /\
  side_ok (vy (cmin b)) (vy (cmax b)) /\
  side_ok (vz (cmin b)) (vz (cmax b)).

(** A box with at least one cell, whose coordinates are u64. *)
Definition wf_box (b : pcoord) : Prop :=
  (0 <= vx (cmin b) <= vx (cmax b) /\ vx (cmax b) < 2 ^ 64) /\
  (0 <= vy (cmin b) <= vy (cmax b) /\ vy (cmax b) < 2 ^ 64) /\
  (0 <= vz (cmin b) <= vz (cmax b) /\ vz (cmax b) < 2 ^ 64).

(** Box of side [s] on every axis (number of cells). *)
Definition cube (s : Z) (b : pcoord) : Prop :=
  vx (cmax b) - vx (cmin b) + 1 = s /\
  vy (cmax b) - vy (cmin b) + 1 = s /\
  vz (cmax b) - vz (cmin b) + 1 = s.

(** [l] cuts [b] into pieces: every point of [b] is in exactly one piece and nothing else is. *)
Definition partition_of (l : list pcoord) (b : pcoord) : Prop :=
  (forall p, in_box p b <-> exists c, In c l /\ in_box p c) /\
  (forall i j a c, nth_error l i = Some a -> nth_error l j = Some c -> i <> j -> disjoint a c).
