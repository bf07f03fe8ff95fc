(** Model of the boundary conditions on the positions: sycl_position_modulo and sycl_position_sheared_modulo
    (src/shamrock/src/math/integrators.cpp:206-236 and 256-327), called on every patch by fields_apply_periodicity
    and fields_apply_shearing_periodicity (SchedulerUtility.hpp:122-160) from apply_position_boundary (sph Solver.cpp:938-978,
    gsph Solver.cpp:889-935).  The reattribution that follows is C44.

    Arithmetic: every operation is the exact one followed by [rnd]: the identity for the statements about real numbers,
    the rounding to nearest of binary64 otherwise (no overflow, no NaN).  fmod is exact (in binary64 its result is
    always representable: [fmod_format]). *)
From Verif Require Import Base Patch Domain SphGhost.
From Coq Require Import Reals.
From Flocq Require Import Core.
Local Open Scope Z_scope.

(** A loop in which item i reads and writes only the element i of a buffer. *)
Definition par_update {A} (f : A -> res A) (order : list nat) (buf : list A) : res (list A) :=
  par_for order (fun i out => a <- aget out i ;; v <- f a ;; aset out i v) buf.

(** fmod(x, d): x - n d, n the quotient rounded towards zero. *)
Definition fmod (x d : R) : R := (x - IZR (Ztrunc (x / d)) * d)%R.
(** i32 arithmetic: an overflow is undefined. *)
Definition i32 (z : Z) : res Z := if (- 2 ^ 31 <=? z) && (z <? 2 ^ 31) then Ok z else UB.

Section Rnd.
Variable rnd : R -> R.
Definition radd (a b : R) : R := rnd (a + b)%R.
Definition rsub (a b : R) : R := rnd (a - b)%R.
Definition rmul (a b : R) : R := rnd (a * b)%R.
Definition rdiv (a b : R) : R := rnd (a / b)%R.

(** cpp:226-229 and 315-318, one component. *)
Definition wrap_axis (lo delt r : R) : R :=
  let r := fmod r delt in
  let r := radd r delt in
  let r := fmod r delt in
  radd r lo.
(** cpp:216-232: one component of box_max - box_min is delt. *)
Definition modulo_axis (lo hi x : R) : R := wrap_axis lo (rsub hi lo) (rsub x lo).
Definition position_modulo (box : range R) (x : vec3 R) : vec3 R :=
  W3 (modulo_axis (wx (fst box)) (wx (snd box)) (wx x))
     (modulo_axis (wy (fst box)) (wy (snd box)) (wy x))
     (modulo_axis (wz (fst box)) (wz (snd box)) (wz x)).

(** cnt_per (cpp:287-289): int(v) truncates. *)
Definition cnt_per (v : R) : res Z :=
  k <- to_int v ;; if Rle_bool 0 v then Ok k else i32 (k - 1).
(** cpp:277-321: position and velocity. *)
Definition sheared_modulo (box : range R) (shear_base shear_dir : v3) (shear_value shear_speed : R) (xv : vec3 R * vec3 R)
  : res (vec3 R * vec3 R) :=
  let '(x, v) := xv in
  let lo := fst box in let hi := snd box in
  let delt := W3 (rsub (wx hi) (wx lo)) (rsub (wy hi) (wy lo)) (rsub (wz hi) (wz lo)) in
  let r := W3 (rsub (wx x) (wx lo)) (rsub (wy x) (wy lo)) (rsub (wz x) (wz lo)) in
  xoff <- cnt_per (rdiv (wx r) (wx delt)) ;;
  yoff <- cnt_per (rdiv (wy r) (wy delt)) ;;
  zoff <- cnt_per (rdiv (wz r) (wz delt)) ;;
  dx <- i32 (xoff * vx shear_base) ;;
  dy <- i32 (yoff * vy shear_base) ;;
  dz <- i32 (zoff * vz shear_base) ;;
  dxy <- i32 (dx + dy) ;;
  d <- i32 (dxy + dz) ;;
  ex <- i32 (d * vx shear_dir) ;;
  ey <- i32 (d * vy shear_dir) ;;
  ez <- i32 (d * vz shear_dir) ;;
  let shift := W3 (rmul (IZR ex) shear_value) (rmul (IZR ey) shear_value) (rmul (IZR ez) shear_value) in
  let shift_speed := W3 (rmul (IZR ex) shear_speed) (rmul (IZR ey) shear_speed) (rmul (IZR ez) shear_speed) in
  let v := W3 (rsub (wx v) (wx shift_speed)) (rsub (wy v) (wy shift_speed)) (rsub (wz v) (wz shift_speed)) in
  let r := W3 (rsub (wx r) (wx shift)) (rsub (wy r) (wy shift)) (rsub (wz r) (wz shift)) in
  Ok (W3 (wrap_axis (wx lo) (wx delt) (wx r)) (wrap_axis (wy lo) (wy delt) (wy r)) (wrap_axis (wz lo) (wz delt) (wz r)), v).

(** BCConfig (shammodels/sph/config/BCConfig.hpp:40-113). *)
Inductive bc_config := BC_Free | BC_Periodic | BC_Shear (shear_base shear_dir : v3) (shear_speed : R).
(** apply_position_boundary (Solver.cpp:955-976) on one particle. *)
Definition boundary_item (cfg : bc_config) (time_val : R) (box : range R) (xv : vec3 R * vec3 R) : res (vec3 R * vec3 R) :=
  match cfg with
  | BC_Free => Ok xv
  | BC_Periodic => Ok (position_modulo box (fst xv), snd xv)
  | BC_Shear base dir speed => sheared_modulo box base dir (rmul speed time_val) speed xv
  end.
(** On all the patches of a rank: (id, positions and velocities); [order] is the order of the work items. *)
Fixpoint apply_position_boundary (cfg : bc_config) (time_val : R) (box : range R) (order : Z -> list nat)
    (ps : list (Z * list (vec3 R * vec3 R))) : res (list (Z * list (vec3 R * vec3 R))) :=
  match ps with
  | [] => Ok []
  | (id, l) :: ps =>
      l' <- (match cfg with BC_Free => Ok l | _ => par_update (boundary_item cfg time_val box) (order id) l end) ;;
      ps' <- apply_position_boundary cfg time_val box order ps ;;
      Ok ((id, l') :: ps')
  end.
(** The configuration of the ghosts at the same time (Solver::gen_ghost_handler, sph Solver.hpp:166-212; both are called with the time of the end of the step, Solver.cpp:2039, 1084). *)
Definition gen_ghost_config (cfg : bc_config) (time_val : R) : ghost_config :=
  match cfg with
  | BC_Free => Free
  | BC_Periodic => Periodic
  | BC_Shear base dir speed => ShearingPeriodic base dir (rmul speed time_val) speed
  end.
End Rnd.
