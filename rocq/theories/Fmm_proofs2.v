(** Verification of the generated FMM operators against their index formulas *)
Require Import Reals List Lia Lra Factorial.
From Verif Require Import Fmm_tensors Fmm_ops Fmm_spec Fmm_proofs1.
Import ListNotations.
Local Open Scope R_scope.

Lemma offset_multipole_delta00_at : forall Q d w, (length w <= 0)%nat ->
  at00 (offset_multipole_delta00 Q d) w = shuffle (at00 Q) (vprod d) w.
Proof. intros Q d w L. destruct Q as [Q0].  destruct d. upto w 0%nat 0%nat; cring. Qed.
Lemma get_M_mat00_at : forall D Q u, (length u <= 0)%nat ->
  at00 (get_M_mat00 D Q) u =
  sgn (length u) * nsum (0 - length u) (fun n => ifact n * csum n (fun w => at00 D (u ++ w) * at00 Q w)).
Proof. intros D Q u L. destruct D as [D0].  destruct Q as [Q0].  upto u 0%nat 0%nat; cfield. Qed.
Lemma offset_multipole_delta01_at : forall Q d w, (length w <= 1)%nat ->
  at01 (offset_multipole_delta01 Q d) w = shuffle (at01 Q) (vprod d) w.
Proof. intros Q d w L. destruct Q as [Q0 Q1]. destruct Q1. destruct d. upto w 0%nat 1%nat; cring. Qed.
Lemma get_M_mat01_at : forall D Q u, (length u <= 1)%nat ->
  at01 (get_M_mat01 D Q) u =
  sgn (length u) * nsum (1 - length u) (fun n => ifact n * csum n (fun w => at01 D (u ++ w) * at01 Q w)).
Proof. intros D Q u L. destruct D as [D0 D1]. destruct D1. destruct Q as [Q0 Q1]. destruct Q1. upto u 0%nat 1%nat; cfield. Qed.
Lemma offset_multipole_delta02_at : forall Q d w, (length w <= 2)%nat ->
  at02 (offset_multipole_delta02 Q d) w = shuffle (at02 Q) (vprod d) w.
Proof. intros Q d w L. destruct Q as [Q0 Q1 Q2]. destruct Q1. destruct Q2. destruct d. upto w 0%nat 2%nat; cring. Qed.
Lemma get_M_mat02_at : forall D Q u, (length u <= 2)%nat ->
  at02 (get_M_mat02 D Q) u =
  sgn (length u) * nsum (2 - length u) (fun n => ifact n * csum n (fun w => at02 D (u ++ w) * at02 Q w)).
Proof. intros D Q u L. destruct D as [D0 D1 D2]. destruct D1. destruct D2. destruct Q as [Q0 Q1 Q2]. destruct Q1. destruct Q2. upto u 0%nat 2%nat; cfield. Qed.
Lemma offset_multipole_delta03_at : forall Q d w, (length w <= 3)%nat ->
  at03 (offset_multipole_delta03 Q d) w = shuffle (at03 Q) (vprod d) w.
Proof. intros Q d w L. destruct Q as [Q0 Q1 Q2 Q3]. destruct Q1. destruct Q2. destruct Q3. destruct d. upto w 0%nat 3%nat; cring. Qed.
Lemma get_M_mat03_at : forall D Q u, (length u <= 3)%nat ->
  at03 (get_M_mat03 D Q) u =
  sgn (length u) * nsum (3 - length u) (fun n => ifact n * csum n (fun w => at03 D (u ++ w) * at03 Q w)).
Proof. intros D Q u L. destruct D as [D0 D1 D2 D3]. destruct D1. destruct D2. destruct D3. destruct Q as [Q0 Q1 Q2 Q3]. destruct Q1. destruct Q2. destruct Q3. upto u 0%nat 3%nat; cfield. Qed.
Lemma offset_multipole_delta04_at : forall Q d w, (length w <= 4)%nat ->
  at04 (offset_multipole_delta04 Q d) w = shuffle (at04 Q) (vprod d) w.
Proof. intros Q d w L. destruct Q as [Q0 Q1 Q2 Q3 Q4]. destruct Q1. destruct Q2. destruct Q3. destruct Q4. destruct d. upto w 0%nat 4%nat; cring. Qed.
Lemma get_M_mat04_at : forall D Q u, (length u <= 4)%nat ->
  at04 (get_M_mat04 D Q) u =
  sgn (length u) * nsum (4 - length u) (fun n => ifact n * csum n (fun w => at04 D (u ++ w) * at04 Q w)).
Proof. intros D Q u L. destruct D as [D0 D1 D2 D3 D4]. destruct D1. destruct D2. destruct D3. destruct D4. destruct Q as [Q0 Q1 Q2 Q3 Q4]. destruct Q1. destruct Q2. destruct Q3. destruct Q4. upto u 0%nat 4%nat; cfield. Qed.
Lemma offset_multipole_delta05_at : forall Q d w, (length w <= 5)%nat ->
  at05 (offset_multipole_delta05 Q d) w = shuffle (at05 Q) (vprod d) w.
Proof. intros Q d w L. destruct Q as [Q0 Q1 Q2 Q3 Q4 Q5]. destruct Q1. destruct Q2. destruct Q3. destruct Q4. destruct Q5. destruct d. upto w 0%nat 5%nat; cring. Qed.
Lemma get_M_mat05_at : forall D Q u, (length u <= 5)%nat ->
  at05 (get_M_mat05 D Q) u =
  sgn (length u) * nsum (5 - length u) (fun n => ifact n * csum n (fun w => at05 D (u ++ w) * at05 Q w)).
Proof. intros D Q u L. destruct D as [D0 D1 D2 D3 D4 D5]. destruct D1. destruct D2. destruct D3. destruct D4. destruct D5. destruct Q as [Q0 Q1 Q2 Q3 Q4 Q5]. destruct Q1. destruct Q2. destruct Q3. destruct Q4. destruct Q5. upto u 0%nat 5%nat; cfield. Qed.
Lemma get_dM_mat0_at : forall D Q u, (1 <= length u <= 1)%nat ->
  at11 (get_dM_mat0 D Q) u =
  sgn (length u - 1) * nsum (1 - length u) (fun n => ifact n * csum n (fun w => at11 D (u ++ w) * at00 Q w)).
Proof. intros D Q u L. destruct D as [D1]. destruct D1. destruct Q as [Q0].  upto u 1%nat 1%nat; cfield. Qed.
Lemma get_dM_mat1_at : forall D Q u, (1 <= length u <= 2)%nat ->
  at12 (get_dM_mat1 D Q) u =
  sgn (length u - 1) * nsum (2 - length u) (fun n => ifact n * csum n (fun w => at12 D (u ++ w) * at01 Q w)).
Proof. intros D Q u L. destruct D as [D1 D2]. destruct D1. destruct D2. destruct Q as [Q0 Q1]. destruct Q1. upto u 1%nat 2%nat; cfield. Qed.
Lemma get_dM_mat2_at : forall D Q u, (1 <= length u <= 3)%nat ->
  at13 (get_dM_mat2 D Q) u =
  sgn (length u - 1) * nsum (3 - length u) (fun n => ifact n * csum n (fun w => at13 D (u ++ w) * at02 Q w)).
Proof. intros D Q u L. destruct D as [D1 D2 D3]. destruct D1. destruct D2. destruct D3. destruct Q as [Q0 Q1 Q2]. destruct Q1. destruct Q2. upto u 1%nat 3%nat; cfield. Qed.
Lemma get_dM_mat3_at : forall D Q u, (1 <= length u <= 4)%nat ->
  at14 (get_dM_mat3 D Q) u =
  sgn (length u - 1) * nsum (4 - length u) (fun n => ifact n * csum n (fun w => at14 D (u ++ w) * at03 Q w)).
Proof. intros D Q u L. destruct D as [D1 D2 D3 D4]. destruct D1. destruct D2. destruct D3. destruct D4. destruct Q as [Q0 Q1 Q2 Q3]. destruct Q1. destruct Q2. destruct Q3. upto u 1%nat 4%nat; cfield. Qed.
Lemma get_dM_mat4_at : forall D Q u, (1 <= length u <= 5)%nat ->
  at15 (get_dM_mat4 D Q) u =
  sgn (length u - 1) * nsum (5 - length u) (fun n => ifact n * csum n (fun w => at15 D (u ++ w) * at04 Q w)).
Proof. intros D Q u L. destruct D as [D1 D2 D3 D4 D5]. destruct D1. destruct D2. destruct D3. destruct D4. destruct D5. destruct Q as [Q0 Q1 Q2 Q3 Q4]. destruct Q1. destruct Q2. destruct Q3. destruct Q4. upto u 1%nat 5%nat; cfield. Qed.
Lemma offset_dM_mat_delta05_at : forall dM h u, (0 <= length u <= 5)%nat ->
  at05 (offset_dM_mat_delta05 dM h) u =
  nsum (5 - length u) (fun n => ifact n * csum n (fun w => at05 dM (u ++ w) * vprod h w)).
Proof. intros dM h u L. destruct dM as [dM0 dM1 dM2 dM3 dM4 dM5]. destruct dM1. destruct dM2. destruct dM3. destruct dM4. destruct dM5. destruct h. upto u 0%nat 5%nat; cfield. Qed.
Lemma offset_dM_mat_delta11_at : forall dM h u, (1 <= length u <= 1)%nat ->
  at11 (offset_dM_mat_delta11 dM h) u =
  nsum (1 - length u) (fun n => ifact n * csum n (fun w => at11 dM (u ++ w) * vprod h w)).
Proof. intros dM h u L. destruct dM as [dM1]. destruct dM1. destruct h. upto u 1%nat 1%nat; cfield. Qed.
Lemma offset_dM_mat_delta12_at : forall dM h u, (1 <= length u <= 2)%nat ->
  at12 (offset_dM_mat_delta12 dM h) u =
  nsum (2 - length u) (fun n => ifact n * csum n (fun w => at12 dM (u ++ w) * vprod h w)).
Proof. intros dM h u L. destruct dM as [dM1 dM2]. destruct dM1. destruct dM2. destruct h. upto u 1%nat 2%nat; cfield. Qed.
Lemma offset_dM_mat_delta13_at : forall dM h u, (1 <= length u <= 3)%nat ->
  at13 (offset_dM_mat_delta13 dM h) u =
  nsum (3 - length u) (fun n => ifact n * csum n (fun w => at13 dM (u ++ w) * vprod h w)).
Proof. intros dM h u L. destruct dM as [dM1 dM2 dM3]. destruct dM1. destruct dM2. destruct dM3. destruct h. upto u 1%nat 3%nat; cfield. Qed.
Lemma offset_dM_mat_delta14_at : forall dM h u, (1 <= length u <= 4)%nat ->
  at14 (offset_dM_mat_delta14 dM h) u =
  nsum (4 - length u) (fun n => ifact n * csum n (fun w => at14 dM (u ++ w) * vprod h w)).
Proof. intros dM h u L. destruct dM as [dM1 dM2 dM3 dM4]. destruct dM1. destruct dM2. destruct dM3. destruct dM4. destruct h. upto u 1%nat 4%nat; cfield. Qed.
Lemma offset_dM_mat_delta15_at : forall dM h u, (1 <= length u <= 5)%nat ->
  at15 (offset_dM_mat_delta15 dM h) u =
  nsum (5 - length u) (fun n => ifact n * csum n (fun w => at15 dM (u ++ w) * vprod h w)).
Proof. intros dM h u L. destruct dM as [dM1 dM2 dM3 dM4 dM5]. destruct dM1. destruct dM2. destruct dM3. destruct dM4. destruct dM5. destruct h. upto u 1%nat 5%nat; cfield. Qed.
Lemma contract1_at : forall a dM i,
  comp (contract_grav_moment_to_force1 a dM) i =
  nsum 0 (fun n => ifact n * csum n (fun w => at11 dM (i :: w) * at00 a w)).
Proof. intros a dM i. destruct dM as [dM1]. destruct dM1. destruct a as [a0].  destruct i; cfield. Qed.
Lemma contract2_at : forall a dM i,
  comp (contract_grav_moment_to_force2 a dM) i =
  nsum 1 (fun n => ifact n * csum n (fun w => at12 dM (i :: w) * at01 a w)).
Proof. intros a dM i. destruct dM as [dM1 dM2]. destruct dM1. destruct dM2. destruct a as [a0 a1]. destruct a1. destruct i; cfield. Qed.
Lemma contract3_at : forall a dM i,
  comp (contract_grav_moment_to_force3 a dM) i =
  nsum 2 (fun n => ifact n * csum n (fun w => at13 dM (i :: w) * at02 a w)).
Proof. intros a dM i. destruct dM as [dM1 dM2 dM3]. destruct dM1. destruct dM2. destruct dM3. destruct a as [a0 a1 a2]. destruct a1. destruct a2. destruct i; cfield. Qed.
Lemma contract4_at : forall a dM i,
  comp (contract_grav_moment_to_force4 a dM) i =
  nsum 3 (fun n => ifact n * csum n (fun w => at14 dM (i :: w) * at03 a w)).
Proof. intros a dM i. destruct dM as [dM1 dM2 dM3 dM4]. destruct dM1. destruct dM2. destruct dM3. destruct dM4. destruct a as [a0 a1 a2 a3]. destruct a1. destruct a2. destruct a3. destruct i; cfield. Qed.
Lemma contract5_at : forall a dM i,
  comp (contract_grav_moment_to_force5 a dM) i =
  nsum 4 (fun n => ifact n * csum n (fun w => at15 dM (i :: w) * at04 a w)).
Proof. intros a dM i. destruct dM as [dM1 dM2 dM3 dM4 dM5]. destruct dM1. destruct dM2. destruct dM3. destruct dM4. destruct dM5. destruct a as [a0 a1 a2 a3 a4]. destruct a1. destruct a2. destruct a3. destruct a4. destruct i; cfield. Qed.
