(** The translations of the local expansions are exact, order by order *)
Require Import Reals List Lia Lra Factorial.
From Verif Require Import Fmm_tensors Fmm_ops Fmm_spec Fmm_proofs1.
Import ListNotations.
Local Open Scope R_scope.

Lemma translate1 : forall dM a h i,
  comp (contract_grav_moment_to_force1 (from_vec00 a) (offset_dM_mat_delta11 dM h)) i =
  comp (contract_grav_moment_to_force1 (from_vec00 (vadd a h)) dM) i.
Proof. intros dM a h i. destruct dM as [dM1]. destruct dM1. destruct a, h. destruct i; cfield. Qed.
Lemma single1 : forall D a d i,
  comp (contract_grav_moment_to_force1 (from_vec00 a) (get_dM_mat0 D (from_vec00 d))) i =
  nsum 0 (fun k => ifact k * csum k (fun w => at11 D (i :: w) * vprod (vsub d a) w)).
Proof. intros D a d i. destruct D as [D1]. destruct D1. destruct a, d. destruct i; cfield. Qed.
Lemma translate2 : forall dM a h i,
  comp (contract_grav_moment_to_force2 (from_vec01 a) (offset_dM_mat_delta12 dM h)) i =
  comp (contract_grav_moment_to_force2 (from_vec01 (vadd a h)) dM) i.
Proof. intros dM a h i. destruct dM as [dM1 dM2]. destruct dM1. destruct dM2. destruct a, h. destruct i; cfield. Qed.
Lemma single2 : forall D a d i,
  comp (contract_grav_moment_to_force2 (from_vec01 a) (get_dM_mat1 D (from_vec01 d))) i =
  nsum 1 (fun k => ifact k * csum k (fun w => at12 D (i :: w) * vprod (vsub d a) w)).
Proof. intros D a d i. destruct D as [D1 D2]. destruct D1. destruct D2. destruct a, d. destruct i; cfield. Qed.
Lemma translate3 : forall dM a h i,
  comp (contract_grav_moment_to_force3 (from_vec02 a) (offset_dM_mat_delta13 dM h)) i =
  comp (contract_grav_moment_to_force3 (from_vec02 (vadd a h)) dM) i.
Proof. intros dM a h i. destruct dM as [dM1 dM2 dM3]. destruct dM1. destruct dM2. destruct dM3. destruct a, h. destruct i; cfield. Qed.
Lemma single3 : forall D a d i,
  comp (contract_grav_moment_to_force3 (from_vec02 a) (get_dM_mat2 D (from_vec02 d))) i =
  nsum 2 (fun k => ifact k * csum k (fun w => at13 D (i :: w) * vprod (vsub d a) w)).
Proof. intros D a d i. destruct D as [D1 D2 D3]. destruct D1. destruct D2. destruct D3. destruct a, d. destruct i; cfield. Qed.
Lemma translate4 : forall dM a h i,
  comp (contract_grav_moment_to_force4 (from_vec03 a) (offset_dM_mat_delta14 dM h)) i =
  comp (contract_grav_moment_to_force4 (from_vec03 (vadd a h)) dM) i.
Proof. intros dM a h i. destruct dM as [dM1 dM2 dM3 dM4]. destruct dM1. destruct dM2. destruct dM3. destruct dM4. destruct a, h. destruct i; cfield. Qed.
Lemma single4 : forall D a d i,
  comp (contract_grav_moment_to_force4 (from_vec03 a) (get_dM_mat3 D (from_vec03 d))) i =
  nsum 3 (fun k => ifact k * csum k (fun w => at14 D (i :: w) * vprod (vsub d a) w)).
Proof. intros D a d i. destruct D as [D1 D2 D3 D4]. destruct D1. destruct D2. destruct D3. destruct D4. destruct a, d. destruct i; cfield. Qed.
Lemma translate5 : forall dM a h i,
  comp (contract_grav_moment_to_force5 (from_vec04 a) (offset_dM_mat_delta15 dM h)) i =
  comp (contract_grav_moment_to_force5 (from_vec04 (vadd a h)) dM) i.
Proof. intros dM a h i. destruct dM as [dM1 dM2 dM3 dM4 dM5]. destruct dM1. destruct dM2. destruct dM3. destruct dM4. destruct dM5. destruct a, h. destruct i; cfield. Qed.
Lemma single5 : forall D a d i,
  comp (contract_grav_moment_to_force5 (from_vec04 a) (get_dM_mat4 D (from_vec04 d))) i =
  nsum 4 (fun k => ifact k * csum k (fun w => at15 D (i :: w) * vprod (vsub d a) w)).
Proof. intros D a d i. destruct D as [D1 D2 D3 D4 D5]. destruct D1. destruct D2. destruct D3. destruct D4. destruct D5. destruct a, d. destruct i; cfield. Qed.
