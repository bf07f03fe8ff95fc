(** Vocabulary of the statements about the boundary conditions (with that of SphGhost_spec.v). *)
From Verif Require Import Base Patch Domain SphGhost SphGhost_spec SphWrap.
From Coq Require Import Reals.
From Flocq Require Import Core.
Local Open Scope Z_scope.

Definition exact (x : R) : R := x.
(** The image [n] of a particle (position, velocity) in the lattice of the box at the time of [cfg]. *)
Definition moved_to (L : vec3 R) (cfg : ghost_config) (n : v3) (xv : vec3 R * vec3 R) : vec3 R * vec3 R :=
  (vadd (fst xv) (image_at L cfg n), vadd (snd xv) (image_speed cfg n)).
Definition is_image (L : vec3 R) (cfg : ghost_config) (p q : vec3 R * vec3 R) : Prop := exists n, q = moved_to L cfg n p.
(** The number of boxes that count for the shear does not depend on the axis of the shear. *)
Definition ortho (base dir : v3) : Prop := vx base * vx dir = 0 /\ vy base * vy dir = 0 /\ vz base * vz dir = 0.
(** [x] is exactly a whole number of boxes below the lower bound. *)
Definition on_lower_face (lo hi x : R) : Prop := exists k, k < 0 /\ x = (lo + IZR k * (hi - lo))%R.
Definition bc_ok (cfg : bc_config) : Prop := match cfg with BC_Shear base dir _ => ortho base dir | _ => True end.
(** No particle is on such a face of an axis that counts for the shear. *)
Definition off_faces (cfg : bc_config) (box : range R) (x : vec3 R) : Prop :=
  match cfg with
  | BC_Shear base _ _ =>
      (vx base = 0 \/ ~ on_lower_face (wx (fst box)) (wx (snd box)) (wx x)) /\
      (vy base = 0 \/ ~ on_lower_face (wy (fst box)) (wy (snd box)) (wy x)) /\
      (vz base = 0 \/ ~ on_lower_face (wz (fst box)) (wz (snd box)) (wz x))
  | _ => True
  end.
(** [x] is less than [n] boxes away from the lower corner. *)
Definition within (n : Z) (box : range R) (x : vec3 R) : Prop :=
  (Rabs (wx x - wx (fst box)) < IZR n * (wx (snd box) - wx (fst box)) /\
   Rabs (wy x - wy (fst box)) < IZR n * (wy (snd box) - wy (fst box)) /\
   Rabs (wz x - wz (fst box)) < IZR n * (wz (snd box) - wz (fst box)))%R.
(** The counts of boxes up to [n] fit in the integers of the code. *)
Definition counts_fit (cfg : bc_config) (n : Z) : Prop :=
  match cfg with
  | BC_Shear base dir _ =>
      n + 1 < 2 ^ 31 /\
      (n + 1) * (Z.abs (vx base) + Z.abs (vy base) + Z.abs (vz base)) * (1 + Z.abs (vx dir) + Z.abs (vy dir) + Z.abs (vz dir)) < 2 ^ 31
  | _ => True
  end.
