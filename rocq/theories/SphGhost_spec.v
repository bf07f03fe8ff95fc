(** Vocabulary of the statements about the ghost particles. *)
From Verif Require Import Base Par Patch Patch_spec PatchTree Sched Sched_spec Domain Domain_spec Domain_cell SerialTree SerialTree_spec SphGhost.
From Coq Require Import Reals.
From Flocq Require Import Core.
Local Open Scope Z_scope.

(** A simulation box with a positive length on every axis. *)
Definition rbox_ok (box : range R) : Prop :=
  (wx (fst box) < wx (snd box) /\ wy (fst box) < wy (snd box) /\ wz (fst box) < wz (snd box))%R.
Definition bsize (box : range R) : vec3 R := vsub (snd box) (fst box).
(** [v] is in the half open box [lo, hi). *)
Definition in_range (b : range R) (v : vec3 R) : Prop :=
  (wx (fst b) <= wx v < wx (snd b) /\ wy (fst b) <= wy v < wy (snd b) /\ wz (fst b) <= wz v < wz (snd b))%R.
Definition in_rangeb (b : range R) (v : vec3 R) : bool := is_in_patch_converted Rle_bool Rlt_bool v (fst b) (snd b).
(** The box [b] with a margin [r] on every side. *)
Definition margin (b : range R) (r : R) : range R :=
  (W3 (wx (fst b) - r)%R (wy (fst b) - r)%R (wz (fst b) - r)%R, W3 (wx (snd b) + r)%R (wy (snd b) + r)%R (wz (snd b) + r)%R).

(** The cell of the patch grid where a position is. *)
Definition r_cell (g : pcoord) (box : range R) : vec3 R -> v3 :=
  let src := get_patch_range g in
  cell3 Rle_bool (r_axis (vx (fst src)) (vx (snd src)) (wx (fst box)) (wx (snd box)))
                 (r_axis (vy (fst src)) (vy (snd src)) (wy (fst box)) (wy (snd box)))
                 (r_axis (vz (fst src)) (vz (snd src)) (wz (fst box)) (wz (snd box))) g.

Section S.
Variable obj : Type.
Variables (xyz : obj -> vec3 R) (hpart : obj -> R).
Variable W : nat.
Notation objs s p := (patch_objs obj (s_data _ s) p).

(** The ghosts that the patch [P] needs: for each offset and each patch, the particles (other than the particles of
    [P] itself, not shifted) whose image is in the box [PB] of [P] with the margin [r]. *)
Definition expected (s : sched obj) (offs : list offset) (P : patch) (PB : range R) (r : R) : list (offset * obj) :=
  flat_map (fun o =>
    flat_map (fun S => if (p_id S =? p_id P) && idx_zero (o_idx o) then []
                       else map (pair o) (filter (fun x => in_rangeb (margin PB r) (vadd (xyz x) (o_shift o))) (objs s S)))
             (filter (validb W) (s_global _ s))) offs.

(** The position and smoothing length sent for a particle, those of a particle of the patch, and the same for the
    velocity field [vxyz]. *)
Definition ghost_xyzh (o : offset) (x : obj) : vec3 R * R := (vadd (xyz x) (o_shift o), hpart x).
Definition own_xyzh (x : obj) : vec3 R * R := (xyz x, hpart x).
Definition ghost_v (vxyz : obj -> vec3 R) (o : offset) (x : obj) : vec3 R := vadd (vxyz x) (o_speed o).
End S.

(** The displacements between a particle and its images: none, the lattice of the box, or the lattice of the box
    sheared along [shear_dir] by [shear_value] per step along [shear_base]. *)
Definition image_shift (L : vec3 R) (cfg : ghost_config) (d : vec3 R) : Prop :=
  match cfg with
  | Free => d = W3 0%R 0%R 0%R
  | Periodic => exists n : v3, d = W3 (IZR (vx n) * wx L)%R (IZR (vy n) * wy L)%R (IZR (vz n) * wz L)%R
  | ShearingPeriodic base dir value _ => exists n : v3,
      let c := (IZR (vx n * vx base + vy n * vy base + vz n * vz base) * value)%R in
      d = W3 (IZR (vx n) * wx L + IZR (vx dir) * c)%R (IZR (vy n) * wy L + IZR (vy dir) * c)%R (IZR (vz n) * wz L + IZR (vz dir) * c)%R
  end.
(** The velocity of the frame of the image at the displacement [n] of the lattice: the shear moves. *)
Definition image_speed (cfg : ghost_config) (n : v3) : vec3 R :=
  match cfg with
  | ShearingPeriodic base dir _ speed =>
      let c := (IZR (vx n * vx base + vy n * vy base + vz n * vz base) * speed)%R in
      W3 (IZR (vx dir) * c)%R (IZR (vy dir) * c)%R (IZR (vz dir) * c)%R
  | _ => W3 0%R 0%R 0%R
  end.
(** The displacement of the image [n] of the lattice. *)
Definition image_at (L : vec3 R) (cfg : ghost_config) (n : v3) : vec3 R :=
  match cfg with
  | ShearingPeriodic base dir value _ =>
      let c := (IZR (vx n * vx base + vy n * vy base + vz n * vz base) * value)%R in
      W3 (IZR (vx n) * wx L + IZR (vx dir) * c)%R (IZR (vy n) * wy L + IZR (vy dir) * c)%R (IZR (vz n) * wz L + IZR (vz dir) * c)%R
  | _ => W3 (IZR (vx n) * wx L)%R (IZR (vy n) * wy L)%R (IZR (vz n) * wz L)%R
  end.
(** The shear is along one axis, in the positive direction, and does not depend on that axis. *)
Inductive shear_axis : v3 -> v3 -> Prop :=
| Shear_x by_ bz : shear_axis (V3 0 by_ bz) (V3 1 0 0)
| Shear_y bx bz : shear_axis (V3 bx 0 bz) (V3 0 1 0)
| Shear_z bx by_ : shear_axis (V3 bx by_ 0) (V3 0 0 1).
Definition config_ok (cfg : ghost_config) : Prop := match cfg with ShearingPeriodic base dir _ _ => shear_axis base dir | _ => True end.
(** Squared distance. *)
Definition dist2 (a b : vec3 R) : R := ((wx a - wx b)² + (wy a - wy b)² + (wz a - wz b)²)%R.
