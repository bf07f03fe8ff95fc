(** Vocabulary of the statements about patches and positions. *)
From Verif Require Import Base Patch Patch_spec Domain F64.
From Coq Require Import Reals.
From Flocq Require Import BinarySingleNaN.
Local Open Scope Z_scope.

(** [b] is a non empty box of cells of the patch grid [g]. *)
Definition inside (b g : pcoord) : Prop :=
  (vx (cmin g) <= vx (cmin b) /\ vx (cmin b) <= vx (cmax b) /\ vx (cmax b) <= vx (cmax g)) /\
  (vy (cmin g) <= vy (cmin b) /\ vy (cmin b) <= vy (cmax b) /\ vy (cmax b) <= vy (cmax g)) /\
  (vz (cmin g) <= vz (cmin b) /\ vz (cmin b) <= vz (cmax b) /\ vz (cmax b) <= vz (cmax g)).
(** The patch grid fits in u64, bounds included. *)
Definition grid_ok (g : pcoord) : Prop :=
  0 <= vx (cmin g) <= vx (cmax g) /\ vx (cmax g) < u64_max /\
  0 <= vy (cmin g) <= vy (cmax g) /\ vy (cmax g) < u64_max /\
  0 <= vz (cmin g) <= vz (cmax g) /\ vz (cmax g) < u64_max.

(** Bounds of the simulation box on one axis: finite, increasing, of magnitude at most 2^900. *)
Definition bounds_ok (lo hi : f64) : Prop :=
  is_finite lo = true /\ is_finite hi = true /\ (fval lo < fval hi)%R /\
  (Rabs (fval lo) <= IZR (2 ^ 900))%R /\ (Rabs (fval hi) <= IZR (2 ^ 900))%R.
Definition box_ok (b : range f64) : Prop :=
  bounds_ok (wx (fst b)) (wx (snd b)) /\ bounds_ok (wy (fst b)) (wy (snd b)) /\ bounds_ok (wz (fst b)) (wz (snd b)).
(** The same for integer positions. *)
Definition ibounds_ok (lo hi : Z) : Prop := 0 <= lo < hi /\ hi <= u64_max.
Definition ibox_ok (b : range Z) : Prop :=
  ibounds_ok (wx (fst b)) (wx (snd b)) /\ ibounds_ok (wy (fst b)) (wy (snd b)) /\ ibounds_ok (wz (fst b)) (wz (snd b)).

(** The number of cells is a power of two, the length of the box is a double and is not tiny. *)
Definition exact_axis (slo shi : Z) (dlo dhi : f64) : Prop :=
  (exists k, 0 <= k <= 63 /\ shi - slo + 1 = 2 ^ k) /\ (fval (f_sub dhi dlo) = fval dhi - fval dlo)%R /\
  (/ IZR (2 ^ 900) <= fval dhi - fval dlo)%R.

Definition exact_box (g : pcoord) (box : range f64) : Prop :=
  exact_axis (vx (cmin g)) (vx (cmax g)) (wx (fst box)) (wx (snd box)) /\
  exact_axis (vy (cmin g)) (vy (cmax g)) (wy (fst box)) (wy (snd box)) /\
  exact_axis (vz (cmin g)) (vz (cmax g)) (wz (fst box)) (wz (snd box)).

(** The sides of the grid and of the box are multiples of one another, in the same direction on every axis. *)
Definition commensurable (g : pcoord) (box : range Z) : Prop :=
  let sx := vx (cmax g) + 1 - vx (cmin g) in let sy := vy (cmax g) + 1 - vy (cmin g) in let sz := vz (cmax g) + 1 - vz (cmin g) in
  let dx := wx (snd box) - wx (fst box) in let dy := wy (snd box) - wy (fst box) in let dz := wz (snd box) - wz (fst box) in
  (sx <= dx /\ sy <= dy /\ sz <= dz /\ dx mod sx = 0 /\ dy mod sy = 0 /\ dz mod sz = 0) \/
  (dx < sx /\ dy < sy /\ dz < sz /\ sx mod dx = 0 /\ sy mod dy = 0 /\ sz mod dz = 0).

(** The position [v] is inside the box of positions which the code computes for the box of cells [b]. *)
Definition f_contains (fma : bool) (g : pcoord) (box : range f64) (b : pcoord) (v : vec3 f64) : Prop :=
  exists r, patch_coord_to_domain fma g box b = Ok r /\ is_in_patch_converted f_leb f_ltb v (fst r) (snd r) = true.
Definition i_contains (g : pcoord) (box : range Z) (b : pcoord) (v : vec3 Z) : Prop :=
  exists r, patch_coord_to_domain_u64 g box b = Ok r /\ is_in_patch_converted Z.leb Z.ltb v (fst r) (snd r) = true.
