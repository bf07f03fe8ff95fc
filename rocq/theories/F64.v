(** IEEE-754 binary64 arithmetic: the operations of Flocq (BinarySingleNaN), round to nearest even, and the
    conversions of C++ between integers and double. *)
From Coq Require Import ZArith Lia Reals Psatz.
From Flocq Require Import Core BinarySingleNaN Relative.
From Verif Require Import Base.
Local Open Scope Z_scope.

Definition f64 := binary_float 53 1024.
Lemma Hprec : FLX.Prec_gt_0 53. Proof. reflexivity. Qed.
Lemma Hmax : Prec_lt_emax 53 1024. Proof. reflexivity. Qed.
Definition f_zero : f64 := B754_zero false.
Definition f_ninf : f64 := B754_infinity true.
(** conversion of an integer to double *)
Definition f_of_Z (z : Z) : f64 := binary_normalize 53 1024 Hprec Hmax mode_NE z 0 false.
Definition f_div (x y : f64) : f64 := @Bdiv 53 1024 Hprec Hmax mode_NE x y.
Definition f_mul (x y : f64) : f64 := @Bmult 53 1024 Hprec Hmax mode_NE x y.
Definition f_ltb (x y : f64) : bool := Bltb x y.
Definition f_eqb (x y : f64) : bool := Beqb x y.
(** conversion of a double to i32: truncation, undefined when the result does not fit *)
Definition f_to_i32 (x : f64) : res Z :=
  if is_finite x then
    let z := Btrunc x in if (- 2 ^ 31 <=? z) && (z <? 2 ^ 31) then Ok z else UB
  else UB.

Local Open Scope R_scope.
Notation fexp64 := (SpecFloat.fexp 53 1024).
Definition RN (x : R) : R := round radix2 fexp64 ZnearestE x.
Global Instance vexp64 : Valid_exp fexp64 := fexp_correct 53 1024 Hprec.
Global Instance mexp64 : Monotone_exp fexp64 := fexp_monotone 53 1024.

Lemma RN_le x y : x <= y -> RN x <= RN y.
Proof. intros. apply round_le; auto with typeclass_instances. Qed.
Lemma RN_id x : generic_format radix2 fexp64 x -> RN x = x.
Proof. intros. apply round_generic; auto with typeclass_instances. Qed.
Lemma RN_0 : RN 0 = 0.
Proof. apply round_0; auto with typeclass_instances. Qed.
Lemma format_scaled m e : (Z.abs m < 2 ^ 53)%Z -> (-1074 <= e)%Z -> generic_format radix2 fexp64 (IZR m * bpow radix2 e).
Proof.
  intros Hm He. apply (generic_format_FLT radix2 (-1074) 53). exists (Float radix2 m e).
  - reflexivity.
  - simpl. change (radix2 ^ 53)%Z with (2 ^ 53)%Z. exact Hm.
  - simpl. lia.
Qed.
Lemma format_Z m : (Z.abs m <= 2 ^ 53)%Z -> generic_format radix2 fexp64 (IZR m).
Proof.
  intros Hm. destruct (Z.eq_dec (Z.abs m) (2 ^ 53)) as [E|NE].
  - destruct (Z.abs_eq_or_opp m) as [H|H].
    + replace (IZR m) with (IZR 1 * bpow radix2 53); [apply format_scaled; simpl; lia|]. replace m with (2 ^ 53)%Z by lia. simpl. lra.
    + replace (IZR m) with (IZR (-1) * bpow radix2 53); [apply format_scaled; simpl; lia|]. replace m with (- 2 ^ 53)%Z by lia. simpl. lra.
  - replace (IZR m) with (IZR m * bpow radix2 0) by (simpl; lra). apply format_scaled; lia.
Qed.
Lemma format_bpow e : (-1074 <= e)%Z -> generic_format radix2 fexp64 (bpow radix2 e).
Proof. intros. replace (bpow radix2 e) with (IZR 1 * bpow radix2 e) by lra. apply format_scaled; auto. simpl. lia. Qed.
Lemma RN_bound x e : (-1074 <= e)%Z -> Rabs x <= bpow radix2 e -> Rabs (RN x) <= bpow radix2 e.
Proof.
  intros He H. apply Rabs_le_inv in H. apply Rabs_le. rewrite <- (RN_id _ (format_bpow e He)).
  replace (- RN (bpow radix2 e)) with (RN (- bpow radix2 e)) by (unfold RN; apply round_NE_opp).
  split; apply RN_le; lra.
Qed.
Lemma RN_pos x : 0 <= x -> 0 <= RN x.
Proof. intros. rewrite <- RN_0. now apply RN_le. Qed.
(** relative error *)
Lemma RN_rel x : bpow radix2 (-1000) <= Rabs x -> Rabs (RN x - x) <= bpow radix2 (-53) * Rabs x.
Proof.
  intros H. eapply Rle_trans.
  - apply (relative_error_N_FLT radix2 (-1074) 53 Hprec). eapply Rle_trans; [|exact H]. apply bpow_le. lia.
  - apply Rmult_le_compat_r; [apply Rabs_pos|]. simpl. lra.
Qed.

Definition fval (x : f64) : R := B2R x.

Lemma of_Z_ok z : (Z.abs z <= 2 ^ 1000)%Z -> fval (f_of_Z z) = RN (IZR z) /\ is_finite (f_of_Z z) = true.
Proof.
  intros Hz. unfold f_of_Z, fval. pose proof (binary_normalize_correct 53 1024 Hprec Hmax mode_NE z 0 false) as H. cbv zeta in H.
  assert (E : F2R (Float radix2 z 0) = IZR z) by (unfold F2R; simpl; lra). rewrite E in H.
  rewrite Rlt_bool_true in H; [tauto|]. change (round radix2 fexp64 (round_mode mode_NE) (IZR z)) with (RN (IZR z)).
  eapply Rle_lt_trans; [apply (RN_bound _ 1000)|apply bpow_lt; lia]; [lia|].
  rewrite <- abs_IZR. change (bpow radix2 1000) with (IZR (2 ^ 1000)). now apply IZR_le.
Qed.
Lemma div_ok x y e : fval y <> 0 -> (-1074 <= e < 1024)%Z -> Rabs (fval x / fval y) <= bpow radix2 e -> is_finite x = true ->
  fval (f_div x y) = RN (fval x / fval y) /\ is_finite (f_div x y) = true.
Proof.
  intros Hy He Hb Hx. unfold fval, f_div in *. pose proof (Bdiv_correct 53 1024 Hprec Hmax mode_NE x y Hy) as H.
  rewrite Rlt_bool_true in H.
  - destruct H as (H1 & H2 & _). split; [exact H1|congruence].
  - change (Rabs (RN (B2R x / B2R y)) < bpow radix2 1024). eapply Rle_lt_trans; [apply (RN_bound _ e)|apply bpow_lt]; auto; lia.
Qed.
Lemma mul_ok x y e : (-1074 <= e < 1024)%Z -> Rabs (fval x * fval y) <= bpow radix2 e -> is_finite x = true -> is_finite y = true ->
  fval (f_mul x y) = RN (fval x * fval y) /\ is_finite (f_mul x y) = true.
Proof.
  intros He Hb Hx Hy. unfold fval, f_mul in *. pose proof (Bmult_correct 53 1024 Hprec Hmax mode_NE x y) as H.
  rewrite Rlt_bool_true in H.
  - destruct H as (H1 & H2 & _). split; [exact H1|]. now rewrite H2, Hx, Hy.
  - change (Rabs (RN (B2R x * B2R y)) < bpow radix2 1024). eapply Rle_lt_trans; [apply (RN_bound _ e)|apply bpow_lt]; auto; lia.
Qed.
Lemma trunc_ok x : 0 <= fval x -> Btrunc x = Zfloor (fval x).
Proof.
  intros H. pose proof (Btrunc_correct 53 1024 Hmax x) as E. unfold fval in *.
  apply eq_IZR. rewrite E. unfold round, scaled_mantissa, cexp, FIX_exp. simpl. unfold F2R. simpl. rewrite Rmult_1_r, Rmult_1_r.
  f_equal. now apply Ztrunc_floor.
Qed.
Lemma eqb_zero x : is_finite x = true -> f_eqb x f_zero = Req_bool (fval x) 0.
Proof. intros H. unfold f_eqb. rewrite Beqb_correct; auto. Qed.
Lemma ltb_ok x y : is_finite x = true -> is_finite y = true -> f_ltb x y = Rlt_bool (fval x) (fval y).
Proof. intros. unfold f_ltb. now apply Bltb_correct. Qed.

(** addition, subtraction, fused multiply-add, comparison *)
Definition f_add (x y : f64) : f64 := @Bplus 53 1024 Hprec Hmax mode_NE x y.
Definition f_sub (x y : f64) : f64 := @Bminus 53 1024 Hprec Hmax mode_NE x y.
Definition f_fma (x y z : f64) : f64 := @Bfma 53 1024 Hprec Hmax mode_NE x y z.
Definition f_leb (x y : f64) : bool := Bleb x y.

Lemma add_ok x y e : (-1074 <= e < 1024)%Z -> Rabs (fval x + fval y) <= bpow radix2 e -> is_finite x = true -> is_finite y = true ->
  fval (f_add x y) = RN (fval x + fval y) /\ is_finite (f_add x y) = true.
Proof.
  intros He Hb Hx Hy. unfold fval, f_add in *. pose proof (Bplus_correct 53 1024 Hprec Hmax mode_NE x y Hx Hy) as H.
  rewrite Rlt_bool_true in H; [tauto|].
  change (Rabs (RN (B2R x + B2R y)) < bpow radix2 1024). eapply Rle_lt_trans; [apply (RN_bound _ e)|apply bpow_lt]; auto; lia.
Qed.
Lemma sub_ok x y e : (-1074 <= e < 1024)%Z -> Rabs (fval x - fval y) <= bpow radix2 e -> is_finite x = true -> is_finite y = true ->
  fval (f_sub x y) = RN (fval x - fval y) /\ is_finite (f_sub x y) = true.
Proof.
  intros He Hb Hx Hy. unfold fval, f_sub in *. pose proof (Bminus_correct 53 1024 Hprec Hmax mode_NE x y Hx Hy) as H.
  rewrite Rlt_bool_true in H; [tauto|].
  change (Rabs (RN (B2R x - B2R y)) < bpow radix2 1024). eapply Rle_lt_trans; [apply (RN_bound _ e)|apply bpow_lt]; auto; lia.
Qed.
Lemma fma_ok x y z e : (-1074 <= e < 1024)%Z -> Rabs (fval x * fval y + fval z) <= bpow radix2 e ->
  is_finite x = true -> is_finite y = true -> is_finite z = true ->
  fval (f_fma x y z) = RN (fval x * fval y + fval z) /\ is_finite (f_fma x y z) = true.
Proof.
  intros He Hb Hx Hy Hz. unfold fval, f_fma in *. pose proof (Bfma_correct 53 1024 Hprec Hmax mode_NE x y z Hx Hy Hz) as H. cbv zeta in H.
  rewrite Rlt_bool_true in H; [tauto|].
  change (Rabs (RN (B2R x * B2R y + B2R z)) < bpow radix2 1024). eapply Rle_lt_trans; [apply (RN_bound _ e)|apply bpow_lt]; auto; lia.
Qed.
Lemma leb_ok x y : is_finite x = true -> is_finite y = true -> f_leb x y = Rle_bool (fval x) (fval y).
Proof. intros. unfold f_leb. now apply Bleb_correct. Qed.
