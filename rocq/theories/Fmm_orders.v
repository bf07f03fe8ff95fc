(** The five expansion orders that are compiled, behind one interface.

    src/shammodels/sph/src/modules/self_gravity/SGSFMMPlummer.cpp:76-81 and :580-584:
    [mm_order] is 1 .. 5, [MassMoments = SymTensorCollection<Tscal, 0, mm_order - 1>],
    [GravMoments = SymTensorCollection<Tscal, 1, mm_order>]. *)
Require Import Reals List.
From Verif Require Import Fmm_tensors Fmm_ops Fmm_spec.
Import ListNotations.

Inductive mmorder : Type := M1 | M2 | M3 | M4 | M5.
(** mm_order *)
Definition ordn (o : mmorder) : nat := match o with M1 => 1 | M2 => 2 | M3 => 3 | M4 => 4 | M5 => 5 end.

Definition MassMoments (o : mmorder) : Type :=
  match o with M1 => col00 | M2 => col01 | M3 => col02 | M4 => col03 | M5 => col04 end.
Definition GravMoments (o : mmorder) : Type :=
  match o with M1 => col11 | M2 => col12 | M3 => col13 | M4 => col14 | M5 => col15 end.

Definition mass_at (o : mmorder) : MassMoments o -> word -> R :=
  match o with M1 => at00 | M2 => at01 | M3 => at02 | M4 => at03 | M5 => at04 end.
Definition grav_at (o : mmorder) : GravMoments o -> word -> R :=
  match o with M1 => at11 | M2 => at12 | M3 => at13 | M4 => at14 | M5 => at15 end.

(** MassMoments::zeros, from_vec, +=, *= *)
Definition mass_zeros (o : mmorder) : MassMoments o :=
  match o with M1 => zeros00 | M2 => zeros01 | M3 => zeros02 | M4 => zeros03 | M5 => zeros04 end.
Definition mass_from_vec (o : mmorder) : vec3 -> MassMoments o :=
  match o with M1 => from_vec00 | M2 => from_vec01 | M3 => from_vec02 | M4 => from_vec03 | M5 => from_vec04 end.
Definition mass_acc (o : mmorder) : MassMoments o -> MassMoments o -> MassMoments o :=
  match o with M1 => acc00 | M2 => acc01 | M3 => acc02 | M4 => acc03 | M5 => acc04 end.
Definition mass_scale (o : mmorder) : MassMoments o -> R -> MassMoments o :=
  match o with M1 => scale00 | M2 => scale01 | M3 => scale02 | M4 => scale03 | M5 => scale04 end.
(** shamphys::offset_multipole *)
Definition offset_multipole (o : mmorder) : MassMoments o -> vec3 -> vec3 -> MassMoments o :=
  match o with M1 => offset_multipole00 | M2 => offset_multipole01 | M3 => offset_multipole02
             | M4 => offset_multipole03 | M5 => offset_multipole04 end.
(** GravMoments::zeros, += *)
Definition grav_zeros (o : mmorder) : GravMoments o :=
  match o with M1 => zeros11 | M2 => zeros12 | M3 => zeros13 | M4 => zeros14 | M5 => zeros15 end.
Definition grav_acc (o : mmorder) : GravMoments o -> GravMoments o -> GravMoments o :=
  match o with M1 => acc11 | M2 => acc12 | M3 => acc13 | M4 => acc14 | M5 => acc15 end.
(** GreenFuncGravCartesian<Tscal, 1, mm_order>::get_der_tensors *)
Definition green_der (o : mmorder) : vec3 -> GravMoments o :=
  match o with M1 => green11 | M2 => green12 | M3 => green13 | M4 => green14 | M5 => green15 end.
(** shamphys::get_dM_mat *)
Definition get_dM_mat (o : mmorder) : GravMoments o -> MassMoments o -> GravMoments o :=
  match o with M1 => get_dM_mat0 | M2 => get_dM_mat1 | M3 => get_dM_mat2 | M4 => get_dM_mat3
             | M5 => get_dM_mat4 end.
(** shamphys::offset_dM_mat *)
Definition offset_dM_mat (o : mmorder) : GravMoments o -> vec3 -> vec3 -> GravMoments o :=
  match o with M1 => offset_dM_mat11 | M2 => offset_dM_mat12 | M3 => offset_dM_mat13
             | M4 => offset_dM_mat14 | M5 => offset_dM_mat15 end.
(** shamphys::contract_grav_moment_to_force<Tscal, mm_order> *)
Definition contract_to_force (o : mmorder) : MassMoments o -> GravMoments o -> vec3 :=
  match o with M1 => contract_grav_moment_to_force1 | M2 => contract_grav_moment_to_force2
             | M3 => contract_grav_moment_to_force3 | M4 => contract_grav_moment_to_force4
             | M5 => contract_grav_moment_to_force5 end.

(** Specification: [Q] is the multipole moments, of every rank up to mm_order - 1, of the point
    masses [P] about [c]. *)
Definition mass_of (o : mmorder) (Q : MassMoments o) (P : list pmass) (c : vec3) : Prop :=
  forall w, (length w <= ordn o - 1)%nat -> mass_at o Q w = moment P c w.
