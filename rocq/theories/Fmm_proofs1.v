(** Component-wise verification of the generated tensor algebra (the proof scripts are uniform: every component of every operation is checked by [ring]) *)
Require Import Reals List Lia Lra Factorial.
From Verif Require Import Fmm_tensors Fmm_ops Fmm_spec.
Import ListNotations.
Local Open Scope R_scope.

Ltac fin w n :=
  lazymatch n with
  | O => destruct w as [|? ?]; [| exfalso; cbn [length] in *; lia]
  | S ?k => let i := fresh "i" in let w' := fresh "w" in
     destruct w as [|i w']; [exfalso; cbn [length] in *; lia | destruct i; fin w' k]
  end.
(** all the words of length lo .. hi *)
Ltac upto w lo hi :=
  lazymatch hi with
  | lo => fin w hi
  | S ?k => let H := fresh "H" in
      assert (H : length w = hi \/ (length w <= k)%nat) by lia;
      destruct H as [H|H]; [clear - H; fin w hi | upto w lo k]
  end.
Ltac crunch := cbv beta iota zeta delta -[Rplus Rmult Rminus Ropp IZR Rdiv Rinv ifact].

Lemma ifact0 : ifact 0 = 1.  Proof. unfold ifact. simpl. field. Qed.
Lemma ifact1 : ifact 1 = 1.  Proof. unfold ifact. simpl. field. Qed.
Lemma ifact2 : ifact 2 = 1/2.  Proof. unfold ifact. simpl. field. Qed.
Lemma ifact3 : ifact 3 = 1/6.  Proof. unfold ifact. simpl. field. Qed.
Lemma ifact4 : ifact 4 = 1/24.
Proof. unfold ifact. replace (INR (fact 4)) with 24 by (rewrite INR_IZR_INZ; reflexivity). field. Qed.
Lemma ifact5 : ifact 5 = 1/120.
Proof. unfold ifact. replace (INR (fact 5)) with 120 by (rewrite INR_IZR_INZ; reflexivity). field. Qed.
Ltac ifacts := rewrite ?ifact0, ?ifact1, ?ifact2, ?ifact3, ?ifact4, ?ifact5.
Ltac cring := crunch; ring.
Ltac cfield := crunch; ifacts; field.

Lemma ext1 : forall a b : st1, (forall w, length w = 1%nat -> at1 a w = at1 b w) -> a = b.
Proof.
  intros a b H. destruct a as [a0 a1 a2], b as [b0 b1 b2].
  assert (E0 : a0 = b0) by exact (H [X0] eq_refl).
  assert (E1 : a1 = b1) by exact (H [X1] eq_refl).
  assert (E2 : a2 = b2) by exact (H [X2] eq_refl).
  rewrite E0, E1, E2. reflexivity.
Qed.
Lemma muls1_at : forall a k w, length w = 1%nat -> at1 (muls1 a k) w = at1 a w * k.
Proof. intros a k w L. destruct a. fin w 1%nat; cring. Qed.
Lemma scale1_at : forall a k w, length w = 1%nat -> at1 (scale1 a k) w = at1 a w * k.
Proof. intros a k w L. destruct a. fin w 1%nat; cring. Qed.
Lemma innerS1_at : forall a k w, length w = 1%nat -> at1 (innerS1 a k) w = at1 a w * k.
Proof. intros a k w L. destruct a. fin w 1%nat; cring. Qed.
Lemma op_R1_at : forall a k w, length w = 1%nat -> at1 (op_R1 k a) w = at1 a w * k.
Proof. intros a k w L. destruct a. fin w 1%nat; cring. Qed.
Lemma add1_at : forall a b w, length w = 1%nat -> at1 (add1 a b) w = at1 a w + at1 b w.
Proof. intros a b w L. destruct a, b. fin w 1%nat; cring. Qed.
Lemma acc1_at : forall a b w, length w = 1%nat -> at1 (acc1 a b) w = at1 a w + at1 b w.
Proof. intros a b w L. destruct a, b. fin w 1%nat; cring. Qed.
Lemma sub1_at : forall a b w, length w = 1%nat -> at1 (sub1 a b) w = at1 a w - at1 b w.
Proof. intros a b w L. destruct a, b. fin w 1%nat; cring. Qed.
Lemma ext2 : forall a b : st2, (forall w, length w = 2%nat -> at2 a w = at2 b w) -> a = b.
Proof.
  intros a b H. destruct a as [a0 a1 a2 a3 a4 a5], b as [b0 b1 b2 b3 b4 b5].
  assert (E0 : a0 = b0) by exact (H [X0; X0] eq_refl).
  assert (E1 : a1 = b1) by exact (H [X0; X1] eq_refl).
  assert (E2 : a2 = b2) by exact (H [X0; X2] eq_refl).
  assert (E3 : a3 = b3) by exact (H [X1; X1] eq_refl).
  assert (E4 : a4 = b4) by exact (H [X1; X2] eq_refl).
  assert (E5 : a5 = b5) by exact (H [X2; X2] eq_refl).
  rewrite E0, E1, E2, E3, E4, E5. reflexivity.
Qed.
Lemma muls2_at : forall a k w, length w = 2%nat -> at2 (muls2 a k) w = at2 a w * k.
Proof. intros a k w L. destruct a. fin w 2%nat; cring. Qed.
Lemma scale2_at : forall a k w, length w = 2%nat -> at2 (scale2 a k) w = at2 a w * k.
Proof. intros a k w L. destruct a. fin w 2%nat; cring. Qed.
Lemma innerS2_at : forall a k w, length w = 2%nat -> at2 (innerS2 a k) w = at2 a w * k.
Proof. intros a k w L. destruct a. fin w 2%nat; cring. Qed.
Lemma op_R2_at : forall a k w, length w = 2%nat -> at2 (op_R2 k a) w = at2 a w * k.
Proof. intros a k w L. destruct a. fin w 2%nat; cring. Qed.
Lemma add2_at : forall a b w, length w = 2%nat -> at2 (add2 a b) w = at2 a w + at2 b w.
Proof. intros a b w L. destruct a, b. fin w 2%nat; cring. Qed.
Lemma acc2_at : forall a b w, length w = 2%nat -> at2 (acc2 a b) w = at2 a w + at2 b w.
Proof. intros a b w L. destruct a, b. fin w 2%nat; cring. Qed.
Lemma sub2_at : forall a b w, length w = 2%nat -> at2 (sub2 a b) w = at2 a w - at2 b w.
Proof. intros a b w L. destruct a, b. fin w 2%nat; cring. Qed.
Lemma ext3 : forall a b : st3, (forall w, length w = 3%nat -> at3 a w = at3 b w) -> a = b.
Proof.
  intros a b H. destruct a as [a0 a1 a2 a3 a4 a5 a6 a7 a8 a9], b as [b0 b1 b2 b3 b4 b5 b6 b7 b8 b9].
  assert (E0 : a0 = b0) by exact (H [X0; X0; X0] eq_refl).
  assert (E1 : a1 = b1) by exact (H [X0; X0; X1] eq_refl).
  assert (E2 : a2 = b2) by exact (H [X0; X0; X2] eq_refl).
  assert (E3 : a3 = b3) by exact (H [X0; X1; X1] eq_refl).
  assert (E4 : a4 = b4) by exact (H [X0; X1; X2] eq_refl).
  assert (E5 : a5 = b5) by exact (H [X0; X2; X2] eq_refl).
  assert (E6 : a6 = b6) by exact (H [X1; X1; X1] eq_refl).
  assert (E7 : a7 = b7) by exact (H [X1; X1; X2] eq_refl).
  assert (E8 : a8 = b8) by exact (H [X1; X2; X2] eq_refl).
  assert (E9 : a9 = b9) by exact (H [X2; X2; X2] eq_refl).
  rewrite E0, E1, E2, E3, E4, E5, E6, E7, E8, E9. reflexivity.
Qed.
Lemma muls3_at : forall a k w, length w = 3%nat -> at3 (muls3 a k) w = at3 a w * k.
Proof. intros a k w L. destruct a. fin w 3%nat; cring. Qed.
Lemma scale3_at : forall a k w, length w = 3%nat -> at3 (scale3 a k) w = at3 a w * k.
Proof. intros a k w L. destruct a. fin w 3%nat; cring. Qed.
Lemma innerS3_at : forall a k w, length w = 3%nat -> at3 (innerS3 a k) w = at3 a w * k.
Proof. intros a k w L. destruct a. fin w 3%nat; cring. Qed.
Lemma op_R3_at : forall a k w, length w = 3%nat -> at3 (op_R3 k a) w = at3 a w * k.
Proof. intros a k w L. destruct a. fin w 3%nat; cring. Qed.
Lemma add3_at : forall a b w, length w = 3%nat -> at3 (add3 a b) w = at3 a w + at3 b w.
Proof. intros a b w L. destruct a, b. fin w 3%nat; cring. Qed.
Lemma acc3_at : forall a b w, length w = 3%nat -> at3 (acc3 a b) w = at3 a w + at3 b w.
Proof. intros a b w L. destruct a, b. fin w 3%nat; cring. Qed.
Lemma sub3_at : forall a b w, length w = 3%nat -> at3 (sub3 a b) w = at3 a w - at3 b w.
Proof. intros a b w L. destruct a, b. fin w 3%nat; cring. Qed.
Lemma ext4 : forall a b : st4, (forall w, length w = 4%nat -> at4 a w = at4 b w) -> a = b.
Proof.
  intros a b H. destruct a as [a0 a1 a2 a3 a4 a5 a6 a7 a8 a9 a10 a11 a12 a13 a14], b as [b0 b1 b2 b3 b4 b5 b6 b7 b8 b9 b10 b11 b12 b13 b14].
  assert (E0 : a0 = b0) by exact (H [X0; X0; X0; X0] eq_refl).
  assert (E1 : a1 = b1) by exact (H [X0; X0; X0; X1] eq_refl).
  assert (E2 : a2 = b2) by exact (H [X0; X0; X0; X2] eq_refl).
  assert (E3 : a3 = b3) by exact (H [X0; X0; X1; X1] eq_refl).
  assert (E4 : a4 = b4) by exact (H [X0; X0; X1; X2] eq_refl).
  assert (E5 : a5 = b5) by exact (H [X0; X0; X2; X2] eq_refl).
  assert (E6 : a6 = b6) by exact (H [X0; X1; X1; X1] eq_refl).
  assert (E7 : a7 = b7) by exact (H [X0; X1; X1; X2] eq_refl).
  assert (E8 : a8 = b8) by exact (H [X0; X1; X2; X2] eq_refl).
  assert (E9 : a9 = b9) by exact (H [X0; X2; X2; X2] eq_refl).
  assert (E10 : a10 = b10) by exact (H [X1; X1; X1; X1] eq_refl).
  assert (E11 : a11 = b11) by exact (H [X1; X1; X1; X2] eq_refl).
  assert (E12 : a12 = b12) by exact (H [X1; X1; X2; X2] eq_refl).
  assert (E13 : a13 = b13) by exact (H [X1; X2; X2; X2] eq_refl).
  assert (E14 : a14 = b14) by exact (H [X2; X2; X2; X2] eq_refl).
  rewrite E0, E1, E2, E3, E4, E5, E6, E7, E8, E9, E10, E11, E12, E13, E14. reflexivity.
Qed.
Lemma muls4_at : forall a k w, length w = 4%nat -> at4 (muls4 a k) w = at4 a w * k.
Proof. intros a k w L. destruct a. fin w 4%nat; cring. Qed.
Lemma scale4_at : forall a k w, length w = 4%nat -> at4 (scale4 a k) w = at4 a w * k.
Proof. intros a k w L. destruct a. fin w 4%nat; cring. Qed.
Lemma innerS4_at : forall a k w, length w = 4%nat -> at4 (innerS4 a k) w = at4 a w * k.
Proof. intros a k w L. destruct a. fin w 4%nat; cring. Qed.
Lemma op_R4_at : forall a k w, length w = 4%nat -> at4 (op_R4 k a) w = at4 a w * k.
Proof. intros a k w L. destruct a. fin w 4%nat; cring. Qed.
Lemma add4_at : forall a b w, length w = 4%nat -> at4 (add4 a b) w = at4 a w + at4 b w.
Proof. intros a b w L. destruct a, b. fin w 4%nat; cring. Qed.
Lemma acc4_at : forall a b w, length w = 4%nat -> at4 (acc4 a b) w = at4 a w + at4 b w.
Proof. intros a b w L. destruct a, b. fin w 4%nat; cring. Qed.
Lemma sub4_at : forall a b w, length w = 4%nat -> at4 (sub4 a b) w = at4 a w - at4 b w.
Proof. intros a b w L. destruct a, b. fin w 4%nat; cring. Qed.
Lemma ext5 : forall a b : st5, (forall w, length w = 5%nat -> at5 a w = at5 b w) -> a = b.
Proof.
  intros a b H. destruct a as [a0 a1 a2 a3 a4 a5 a6 a7 a8 a9 a10 a11 a12 a13 a14 a15 a16 a17 a18 a19 a20], b as [b0 b1 b2 b3 b4 b5 b6 b7 b8 b9 b10 b11 b12 b13 b14 b15 b16 b17 b18 b19 b20].
  assert (E0 : a0 = b0) by exact (H [X0; X0; X0; X0; X0] eq_refl).
  assert (E1 : a1 = b1) by exact (H [X0; X0; X0; X0; X1] eq_refl).
  assert (E2 : a2 = b2) by exact (H [X0; X0; X0; X0; X2] eq_refl).
  assert (E3 : a3 = b3) by exact (H [X0; X0; X0; X1; X1] eq_refl).
  assert (E4 : a4 = b4) by exact (H [X0; X0; X0; X1; X2] eq_refl).
  assert (E5 : a5 = b5) by exact (H [X0; X0; X0; X2; X2] eq_refl).
  assert (E6 : a6 = b6) by exact (H [X0; X0; X1; X1; X1] eq_refl).
  assert (E7 : a7 = b7) by exact (H [X0; X0; X1; X1; X2] eq_refl).
  assert (E8 : a8 = b8) by exact (H [X0; X0; X1; X2; X2] eq_refl).
  assert (E9 : a9 = b9) by exact (H [X0; X0; X2; X2; X2] eq_refl).
  assert (E10 : a10 = b10) by exact (H [X0; X1; X1; X1; X1] eq_refl).
  assert (E11 : a11 = b11) by exact (H [X0; X1; X1; X1; X2] eq_refl).
  assert (E12 : a12 = b12) by exact (H [X0; X1; X1; X2; X2] eq_refl).
  assert (E13 : a13 = b13) by exact (H [X0; X1; X2; X2; X2] eq_refl).
  assert (E14 : a14 = b14) by exact (H [X0; X2; X2; X2; X2] eq_refl).
  assert (E15 : a15 = b15) by exact (H [X1; X1; X1; X1; X1] eq_refl).
  assert (E16 : a16 = b16) by exact (H [X1; X1; X1; X1; X2] eq_refl).
  assert (E17 : a17 = b17) by exact (H [X1; X1; X1; X2; X2] eq_refl).
  assert (E18 : a18 = b18) by exact (H [X1; X1; X2; X2; X2] eq_refl).
  assert (E19 : a19 = b19) by exact (H [X1; X2; X2; X2; X2] eq_refl).
  assert (E20 : a20 = b20) by exact (H [X2; X2; X2; X2; X2] eq_refl).
  rewrite E0, E1, E2, E3, E4, E5, E6, E7, E8, E9, E10, E11, E12, E13, E14, E15, E16, E17, E18, E19, E20. reflexivity.
Qed.
Lemma muls5_at : forall a k w, length w = 5%nat -> at5 (muls5 a k) w = at5 a w * k.
Proof. intros a k w L. destruct a. fin w 5%nat; cring. Qed.
Lemma scale5_at : forall a k w, length w = 5%nat -> at5 (scale5 a k) w = at5 a w * k.
Proof. intros a k w L. destruct a. fin w 5%nat; cring. Qed.
Lemma innerS5_at : forall a k w, length w = 5%nat -> at5 (innerS5 a k) w = at5 a w * k.
Proof. intros a k w L. destruct a. fin w 5%nat; cring. Qed.
Lemma op_R5_at : forall a k w, length w = 5%nat -> at5 (op_R5 k a) w = at5 a w * k.
Proof. intros a k w L. destruct a. fin w 5%nat; cring. Qed.
Lemma add5_at : forall a b w, length w = 5%nat -> at5 (add5 a b) w = at5 a w + at5 b w.
Proof. intros a b w L. destruct a, b. fin w 5%nat; cring. Qed.
Lemma acc5_at : forall a b w, length w = 5%nat -> at5 (acc5 a b) w = at5 a w + at5 b w.
Proof. intros a b w L. destruct a, b. fin w 5%nat; cring. Qed.
Lemma sub5_at : forall a b w, length w = 5%nat -> at5 (sub5 a b) w = at5 a w - at5 b w.
Proof. intros a b w L. destruct a, b. fin w 5%nat; cring. Qed.
Lemma op_11_at : forall a b, op_11 a b = csum 1 (fun w => at1 a w * at1 b w).
Proof. intros a b. destruct a, b. cring. Qed.
Lemma op_21_at : forall a b u, length u = 1%nat -> at1 (op_21 a b) u = csum 1 (fun w => at2 a (u ++ w) * at1 b w).
Proof. intros a b u L. destruct a, b. fin u 1%nat; cring. Qed.
Lemma op_12_at : forall a b u, length u = 1%nat -> at1 (op_12 b a) u = csum 1 (fun w => at2 a (u ++ w) * at1 b w).
Proof. intros a b u L. destruct a, b. fin u 1%nat; cring. Qed.
Lemma op_22_at : forall a b, op_22 a b = csum 2 (fun w => at2 a w * at2 b w).
Proof. intros a b. destruct a, b. cring. Qed.
Lemma op_31_at : forall a b u, length u = 2%nat -> at2 (op_31 a b) u = csum 1 (fun w => at3 a (u ++ w) * at1 b w).
Proof. intros a b u L. destruct a, b. fin u 2%nat; cring. Qed.
Lemma op_13_at : forall a b u, length u = 2%nat -> at2 (op_13 b a) u = csum 1 (fun w => at3 a (u ++ w) * at1 b w).
Proof. intros a b u L. destruct a, b. fin u 2%nat; cring. Qed.
Lemma op_32_at : forall a b u, length u = 1%nat -> at1 (op_32 a b) u = csum 2 (fun w => at3 a (u ++ w) * at2 b w).
Proof. intros a b u L. destruct a, b. fin u 1%nat; cring. Qed.
Lemma op_23_at : forall a b u, length u = 1%nat -> at1 (op_23 b a) u = csum 2 (fun w => at3 a (u ++ w) * at2 b w).
Proof. intros a b u L. destruct a, b. fin u 1%nat; cring. Qed.
Lemma op_33_at : forall a b, op_33 a b = csum 3 (fun w => at3 a w * at3 b w).
Proof. intros a b. destruct a, b. cring. Qed.
Lemma op_41_at : forall a b u, length u = 3%nat -> at3 (op_41 a b) u = csum 1 (fun w => at4 a (u ++ w) * at1 b w).
Proof. intros a b u L. destruct a, b. fin u 3%nat; cring. Qed.
Lemma op_14_at : forall a b u, length u = 3%nat -> at3 (op_14 b a) u = csum 1 (fun w => at4 a (u ++ w) * at1 b w).
Proof. intros a b u L. destruct a, b. fin u 3%nat; cring. Qed.
Lemma op_42_at : forall a b u, length u = 2%nat -> at2 (op_42 a b) u = csum 2 (fun w => at4 a (u ++ w) * at2 b w).
Proof. intros a b u L. destruct a, b. fin u 2%nat; cring. Qed.
Lemma op_24_at : forall a b u, length u = 2%nat -> at2 (op_24 b a) u = csum 2 (fun w => at4 a (u ++ w) * at2 b w).
Proof. intros a b u L. destruct a, b. fin u 2%nat; cring. Qed.
Lemma op_43_at : forall a b u, length u = 1%nat -> at1 (op_43 a b) u = csum 3 (fun w => at4 a (u ++ w) * at3 b w).
Proof. intros a b u L. destruct a, b. fin u 1%nat; cring. Qed.
Lemma op_34_at : forall a b u, length u = 1%nat -> at1 (op_34 b a) u = csum 3 (fun w => at4 a (u ++ w) * at3 b w).
Proof. intros a b u L. destruct a, b. fin u 1%nat; cring. Qed.
Lemma op_44_at : forall a b, op_44 a b = csum 4 (fun w => at4 a w * at4 b w).
Proof. intros a b. destruct a, b. cring. Qed.
Lemma op_51_at : forall a b u, length u = 4%nat -> at4 (op_51 a b) u = csum 1 (fun w => at5 a (u ++ w) * at1 b w).
Proof. intros a b u L. destruct a, b. fin u 4%nat; cring. Qed.
Lemma op_15_at : forall a b u, length u = 4%nat -> at4 (op_15 b a) u = csum 1 (fun w => at5 a (u ++ w) * at1 b w).
Proof. intros a b u L. destruct a, b. fin u 4%nat; cring. Qed.
Lemma op_52_at : forall a b u, length u = 3%nat -> at3 (op_52 a b) u = csum 2 (fun w => at5 a (u ++ w) * at2 b w).
Proof. intros a b u L. destruct a, b. fin u 3%nat; cring. Qed.
Lemma op_25_at : forall a b u, length u = 3%nat -> at3 (op_25 b a) u = csum 2 (fun w => at5 a (u ++ w) * at2 b w).
Proof. intros a b u L. destruct a, b. fin u 3%nat; cring. Qed.
Lemma op_53_at : forall a b u, length u = 2%nat -> at2 (op_53 a b) u = csum 3 (fun w => at5 a (u ++ w) * at3 b w).
Proof. intros a b u L. destruct a, b. fin u 2%nat; cring. Qed.
Lemma op_35_at : forall a b u, length u = 2%nat -> at2 (op_35 b a) u = csum 3 (fun w => at5 a (u ++ w) * at3 b w).
Proof. intros a b u L. destruct a, b. fin u 2%nat; cring. Qed.
Lemma op_54_at : forall a b u, length u = 1%nat -> at1 (op_54 a b) u = csum 4 (fun w => at5 a (u ++ w) * at4 b w).
Proof. intros a b u L. destruct a, b. fin u 1%nat; cring. Qed.
Lemma op_45_at : forall a b u, length u = 1%nat -> at1 (op_45 b a) u = csum 4 (fun w => at5 a (u ++ w) * at4 b w).
Proof. intros a b u L. destruct a, b. fin u 1%nat; cring. Qed.
Lemma op_55_at : forall a b, op_55 a b = csum 5 (fun w => at5 a w * at5 b w).
Proof. intros a b. destruct a, b. cring. Qed.
Lemma ext00 : forall a b : col00, (forall w, (0 <= length w <= 0)%nat -> at00 a w = at00 b w) -> a = b.
Proof.
  intros a b H. destruct a as [a0]. destruct b as [b0]. f_equal.
  - exact (H [] (conj (le_n _) (Nat.le_0_l _))).
Qed.
Lemma from_vec00_at : forall v w, (0 <= length w <= 0)%nat -> at00 (from_vec00 v) w = vprod v w.
Proof. intros v w L. upto w 0%nat 0%nat; cring. Qed.
Lemma zeros00_at : forall w, (0 <= length w <= 0)%nat -> at00 zeros00 w = 0.
Proof. intros w L. upto w 0%nat 0%nat; reflexivity. Qed.
Lemma acc00_at : forall a b w, (0 <= length w <= 0)%nat -> at00 (acc00 a b) w = at00 a w + at00 b w.
Proof. intros a b w L. destruct a as [a0].  destruct b as [b0].  upto w 0%nat 0%nat; cring. Qed.
Lemma sub00_at : forall a b w, (0 <= length w <= 0)%nat -> at00 (sub00 a b) w = at00 a w - at00 b w.
Proof. intros a b w L. destruct a as [a0].  destruct b as [b0].  upto w 0%nat 0%nat; cring. Qed.
Lemma scale00_at : forall a k w, (0 <= length w <= 0)%nat -> at00 (scale00 a k) w = at00 a w * k.
Proof. intros a k w L. destruct a as [a0].  upto w 0%nat 0%nat; cring. Qed.
Lemma ext01 : forall a b : col01, (forall w, (0 <= length w <= 1)%nat -> at01 a w = at01 b w) -> a = b.
Proof.
  intros a b H. destruct a as [a0 a1]. destruct b as [b0 b1]. f_equal.
  - exact (H [] (conj (le_n _) (Nat.le_0_l _))).
  - apply ext1. intros w L. specialize (H w). unfold at01 in H. rewrite L in H. apply H. lia.
Qed.
Lemma from_vec01_at : forall v w, (0 <= length w <= 1)%nat -> at01 (from_vec01 v) w = vprod v w.
Proof. intros v w L. upto w 0%nat 1%nat; cring. Qed.
Lemma zeros01_at : forall w, (0 <= length w <= 1)%nat -> at01 zeros01 w = 0.
Proof. intros w L. upto w 0%nat 1%nat; reflexivity. Qed.
Lemma acc01_at : forall a b w, (0 <= length w <= 1)%nat -> at01 (acc01 a b) w = at01 a w + at01 b w.
Proof. intros a b w L. destruct a as [a0 a1]. destruct a1. destruct b as [b0 b1]. destruct b1. upto w 0%nat 1%nat; cring. Qed.
Lemma sub01_at : forall a b w, (0 <= length w <= 1)%nat -> at01 (sub01 a b) w = at01 a w - at01 b w.
Proof. intros a b w L. destruct a as [a0 a1]. destruct a1. destruct b as [b0 b1]. destruct b1. upto w 0%nat 1%nat; cring. Qed.
Lemma scale01_at : forall a k w, (0 <= length w <= 1)%nat -> at01 (scale01 a k) w = at01 a w * k.
Proof. intros a k w L. destruct a as [a0 a1]. destruct a1. upto w 0%nat 1%nat; cring. Qed.
Lemma ext02 : forall a b : col02, (forall w, (0 <= length w <= 2)%nat -> at02 a w = at02 b w) -> a = b.
Proof.
  intros a b H. destruct a as [a0 a1 a2]. destruct b as [b0 b1 b2]. f_equal.
  - exact (H [] (conj (le_n _) (Nat.le_0_l _))).
  - apply ext1. intros w L. specialize (H w). unfold at02 in H. rewrite L in H. apply H. lia.
  - apply ext2. intros w L. specialize (H w). unfold at02 in H. rewrite L in H. apply H. lia.
Qed.
Lemma from_vec02_at : forall v w, (0 <= length w <= 2)%nat -> at02 (from_vec02 v) w = vprod v w.
Proof. intros v w L. upto w 0%nat 2%nat; cring. Qed.
Lemma zeros02_at : forall w, (0 <= length w <= 2)%nat -> at02 zeros02 w = 0.
Proof. intros w L. upto w 0%nat 2%nat; reflexivity. Qed.
Lemma acc02_at : forall a b w, (0 <= length w <= 2)%nat -> at02 (acc02 a b) w = at02 a w + at02 b w.
Proof. intros a b w L. destruct a as [a0 a1 a2]. destruct a1. destruct a2. destruct b as [b0 b1 b2]. destruct b1. destruct b2. upto w 0%nat 2%nat; cring. Qed.
Lemma sub02_at : forall a b w, (0 <= length w <= 2)%nat -> at02 (sub02 a b) w = at02 a w - at02 b w.
Proof. intros a b w L. destruct a as [a0 a1 a2]. destruct a1. destruct a2. destruct b as [b0 b1 b2]. destruct b1. destruct b2. upto w 0%nat 2%nat; cring. Qed.
Lemma scale02_at : forall a k w, (0 <= length w <= 2)%nat -> at02 (scale02 a k) w = at02 a w * k.
Proof. intros a k w L. destruct a as [a0 a1 a2]. destruct a1. destruct a2. upto w 0%nat 2%nat; cring. Qed.
Lemma ext03 : forall a b : col03, (forall w, (0 <= length w <= 3)%nat -> at03 a w = at03 b w) -> a = b.
Proof.
  intros a b H. destruct a as [a0 a1 a2 a3]. destruct b as [b0 b1 b2 b3]. f_equal.
  - exact (H [] (conj (le_n _) (Nat.le_0_l _))).
  - apply ext1. intros w L. specialize (H w). unfold at03 in H. rewrite L in H. apply H. lia.
  - apply ext2. intros w L. specialize (H w). unfold at03 in H. rewrite L in H. apply H. lia.
  - apply ext3. intros w L. specialize (H w). unfold at03 in H. rewrite L in H. apply H. lia.
Qed.
Lemma from_vec03_at : forall v w, (0 <= length w <= 3)%nat -> at03 (from_vec03 v) w = vprod v w.
Proof. intros v w L. upto w 0%nat 3%nat; cring. Qed.
Lemma zeros03_at : forall w, (0 <= length w <= 3)%nat -> at03 zeros03 w = 0.
Proof. intros w L. upto w 0%nat 3%nat; reflexivity. Qed.
Lemma acc03_at : forall a b w, (0 <= length w <= 3)%nat -> at03 (acc03 a b) w = at03 a w + at03 b w.
Proof. intros a b w L. destruct a as [a0 a1 a2 a3]. destruct a1. destruct a2. destruct a3. destruct b as [b0 b1 b2 b3]. destruct b1. destruct b2. destruct b3. upto w 0%nat 3%nat; cring. Qed.
Lemma sub03_at : forall a b w, (0 <= length w <= 3)%nat -> at03 (sub03 a b) w = at03 a w - at03 b w.
Proof. intros a b w L. destruct a as [a0 a1 a2 a3]. destruct a1. destruct a2. destruct a3. destruct b as [b0 b1 b2 b3]. destruct b1. destruct b2. destruct b3. upto w 0%nat 3%nat; cring. Qed.
Lemma scale03_at : forall a k w, (0 <= length w <= 3)%nat -> at03 (scale03 a k) w = at03 a w * k.
Proof. intros a k w L. destruct a as [a0 a1 a2 a3]. destruct a1. destruct a2. destruct a3. upto w 0%nat 3%nat; cring. Qed.
Lemma ext04 : forall a b : col04, (forall w, (0 <= length w <= 4)%nat -> at04 a w = at04 b w) -> a = b.
Proof.
  intros a b H. destruct a as [a0 a1 a2 a3 a4]. destruct b as [b0 b1 b2 b3 b4]. f_equal.
  - exact (H [] (conj (le_n _) (Nat.le_0_l _))).
  - apply ext1. intros w L. specialize (H w). unfold at04 in H. rewrite L in H. apply H. lia.
  - apply ext2. intros w L. specialize (H w). unfold at04 in H. rewrite L in H. apply H. lia.
  - apply ext3. intros w L. specialize (H w). unfold at04 in H. rewrite L in H. apply H. lia.
  - apply ext4. intros w L. specialize (H w). unfold at04 in H. rewrite L in H. apply H. lia.
Qed.
Lemma from_vec04_at : forall v w, (0 <= length w <= 4)%nat -> at04 (from_vec04 v) w = vprod v w.
Proof. intros v w L. upto w 0%nat 4%nat; cring. Qed.
Lemma zeros04_at : forall w, (0 <= length w <= 4)%nat -> at04 zeros04 w = 0.
Proof. intros w L. upto w 0%nat 4%nat; reflexivity. Qed.
Lemma acc04_at : forall a b w, (0 <= length w <= 4)%nat -> at04 (acc04 a b) w = at04 a w + at04 b w.
Proof. intros a b w L. destruct a as [a0 a1 a2 a3 a4]. destruct a1. destruct a2. destruct a3. destruct a4. destruct b as [b0 b1 b2 b3 b4]. destruct b1. destruct b2. destruct b3. destruct b4. upto w 0%nat 4%nat; cring. Qed.
Lemma sub04_at : forall a b w, (0 <= length w <= 4)%nat -> at04 (sub04 a b) w = at04 a w - at04 b w.
Proof. intros a b w L. destruct a as [a0 a1 a2 a3 a4]. destruct a1. destruct a2. destruct a3. destruct a4. destruct b as [b0 b1 b2 b3 b4]. destruct b1. destruct b2. destruct b3. destruct b4. upto w 0%nat 4%nat; cring. Qed.
Lemma scale04_at : forall a k w, (0 <= length w <= 4)%nat -> at04 (scale04 a k) w = at04 a w * k.
Proof. intros a k w L. destruct a as [a0 a1 a2 a3 a4]. destruct a1. destruct a2. destruct a3. destruct a4. upto w 0%nat 4%nat; cring. Qed.
Lemma ext05 : forall a b : col05, (forall w, (0 <= length w <= 5)%nat -> at05 a w = at05 b w) -> a = b.
Proof.
  intros a b H. destruct a as [a0 a1 a2 a3 a4 a5]. destruct b as [b0 b1 b2 b3 b4 b5]. f_equal.
  - exact (H [] (conj (le_n _) (Nat.le_0_l _))).
  - apply ext1. intros w L. specialize (H w). unfold at05 in H. rewrite L in H. apply H. lia.
  - apply ext2. intros w L. specialize (H w). unfold at05 in H. rewrite L in H. apply H. lia.
  - apply ext3. intros w L. specialize (H w). unfold at05 in H. rewrite L in H. apply H. lia.
  - apply ext4. intros w L. specialize (H w). unfold at05 in H. rewrite L in H. apply H. lia.
  - apply ext5. intros w L. specialize (H w). unfold at05 in H. rewrite L in H. apply H. lia.
Qed.
Lemma from_vec05_at : forall v w, (0 <= length w <= 5)%nat -> at05 (from_vec05 v) w = vprod v w.
Proof. intros v w L. upto w 0%nat 5%nat; cring. Qed.
Lemma zeros05_at : forall w, (0 <= length w <= 5)%nat -> at05 zeros05 w = 0.
Proof. intros w L. upto w 0%nat 5%nat; reflexivity. Qed.
Lemma acc05_at : forall a b w, (0 <= length w <= 5)%nat -> at05 (acc05 a b) w = at05 a w + at05 b w.
Proof. intros a b w L. destruct a as [a0 a1 a2 a3 a4 a5]. destruct a1. destruct a2. destruct a3. destruct a4. destruct a5. destruct b as [b0 b1 b2 b3 b4 b5]. destruct b1. destruct b2. destruct b3. destruct b4. destruct b5. upto w 0%nat 5%nat; cring. Qed.
Lemma sub05_at : forall a b w, (0 <= length w <= 5)%nat -> at05 (sub05 a b) w = at05 a w - at05 b w.
Proof. intros a b w L. destruct a as [a0 a1 a2 a3 a4 a5]. destruct a1. destruct a2. destruct a3. destruct a4. destruct a5. destruct b as [b0 b1 b2 b3 b4 b5]. destruct b1. destruct b2. destruct b3. destruct b4. destruct b5. upto w 0%nat 5%nat; cring. Qed.
Lemma scale05_at : forall a k w, (0 <= length w <= 5)%nat -> at05 (scale05 a k) w = at05 a w * k.
Proof. intros a k w L. destruct a as [a0 a1 a2 a3 a4 a5]. destruct a1. destruct a2. destruct a3. destruct a4. destruct a5. upto w 0%nat 5%nat; cring. Qed.
Lemma ext11 : forall a b : col11, (forall w, (1 <= length w <= 1)%nat -> at11 a w = at11 b w) -> a = b.
Proof.
  intros a b H. destruct a as [a1]. destruct b as [b1]. f_equal.
  - apply ext1. intros w L. specialize (H w). unfold at11 in H. rewrite L in H. apply H. lia.
Qed.
Lemma from_vec11_at : forall v w, (1 <= length w <= 1)%nat -> at11 (from_vec11 v) w = vprod v w.
Proof. intros v w L. upto w 1%nat 1%nat; cring. Qed.
Lemma zeros11_at : forall w, (1 <= length w <= 1)%nat -> at11 zeros11 w = 0.
Proof. intros w L. upto w 1%nat 1%nat; reflexivity. Qed.
Lemma acc11_at : forall a b w, (1 <= length w <= 1)%nat -> at11 (acc11 a b) w = at11 a w + at11 b w.
Proof. intros a b w L. destruct a as [a1]. destruct a1. destruct b as [b1]. destruct b1. upto w 1%nat 1%nat; cring. Qed.
Lemma sub11_at : forall a b w, (1 <= length w <= 1)%nat -> at11 (sub11 a b) w = at11 a w - at11 b w.
Proof. intros a b w L. destruct a as [a1]. destruct a1. destruct b as [b1]. destruct b1. upto w 1%nat 1%nat; cring. Qed.
Lemma scale11_at : forall a k w, (1 <= length w <= 1)%nat -> at11 (scale11 a k) w = at11 a w * k.
Proof. intros a k w L. destruct a as [a1]. destruct a1. upto w 1%nat 1%nat; cring. Qed.
Lemma ext12 : forall a b : col12, (forall w, (1 <= length w <= 2)%nat -> at12 a w = at12 b w) -> a = b.
Proof.
  intros a b H. destruct a as [a1 a2]. destruct b as [b1 b2]. f_equal.
  - apply ext1. intros w L. specialize (H w). unfold at12 in H. rewrite L in H. apply H. lia.
  - apply ext2. intros w L. specialize (H w). unfold at12 in H. rewrite L in H. apply H. lia.
Qed.
Lemma from_vec12_at : forall v w, (1 <= length w <= 2)%nat -> at12 (from_vec12 v) w = vprod v w.
Proof. intros v w L. upto w 1%nat 2%nat; cring. Qed.
Lemma zeros12_at : forall w, (1 <= length w <= 2)%nat -> at12 zeros12 w = 0.
Proof. intros w L. upto w 1%nat 2%nat; reflexivity. Qed.
Lemma acc12_at : forall a b w, (1 <= length w <= 2)%nat -> at12 (acc12 a b) w = at12 a w + at12 b w.
Proof. intros a b w L. destruct a as [a1 a2]. destruct a1. destruct a2. destruct b as [b1 b2]. destruct b1. destruct b2. upto w 1%nat 2%nat; cring. Qed.
Lemma sub12_at : forall a b w, (1 <= length w <= 2)%nat -> at12 (sub12 a b) w = at12 a w - at12 b w.
Proof. intros a b w L. destruct a as [a1 a2]. destruct a1. destruct a2. destruct b as [b1 b2]. destruct b1. destruct b2. upto w 1%nat 2%nat; cring. Qed.
Lemma scale12_at : forall a k w, (1 <= length w <= 2)%nat -> at12 (scale12 a k) w = at12 a w * k.
Proof. intros a k w L. destruct a as [a1 a2]. destruct a1. destruct a2. upto w 1%nat 2%nat; cring. Qed.
Lemma ext13 : forall a b : col13, (forall w, (1 <= length w <= 3)%nat -> at13 a w = at13 b w) -> a = b.
Proof.
  intros a b H. destruct a as [a1 a2 a3]. destruct b as [b1 b2 b3]. f_equal.
  - apply ext1. intros w L. specialize (H w). unfold at13 in H. rewrite L in H. apply H. lia.
  - apply ext2. intros w L. specialize (H w). unfold at13 in H. rewrite L in H. apply H. lia.
  - apply ext3. intros w L. specialize (H w). unfold at13 in H. rewrite L in H. apply H. lia.
Qed.
Lemma from_vec13_at : forall v w, (1 <= length w <= 3)%nat -> at13 (from_vec13 v) w = vprod v w.
Proof. intros v w L. upto w 1%nat 3%nat; cring. Qed.
Lemma zeros13_at : forall w, (1 <= length w <= 3)%nat -> at13 zeros13 w = 0.
Proof. intros w L. upto w 1%nat 3%nat; reflexivity. Qed.
Lemma acc13_at : forall a b w, (1 <= length w <= 3)%nat -> at13 (acc13 a b) w = at13 a w + at13 b w.
Proof. intros a b w L. destruct a as [a1 a2 a3]. destruct a1. destruct a2. destruct a3. destruct b as [b1 b2 b3]. destruct b1. destruct b2. destruct b3. upto w 1%nat 3%nat; cring. Qed.
Lemma sub13_at : forall a b w, (1 <= length w <= 3)%nat -> at13 (sub13 a b) w = at13 a w - at13 b w.
Proof. intros a b w L. destruct a as [a1 a2 a3]. destruct a1. destruct a2. destruct a3. destruct b as [b1 b2 b3]. destruct b1. destruct b2. destruct b3. upto w 1%nat 3%nat; cring. Qed.
Lemma scale13_at : forall a k w, (1 <= length w <= 3)%nat -> at13 (scale13 a k) w = at13 a w * k.
Proof. intros a k w L. destruct a as [a1 a2 a3]. destruct a1. destruct a2. destruct a3. upto w 1%nat 3%nat; cring. Qed.
Lemma ext14 : forall a b : col14, (forall w, (1 <= length w <= 4)%nat -> at14 a w = at14 b w) -> a = b.
Proof.
  intros a b H. destruct a as [a1 a2 a3 a4]. destruct b as [b1 b2 b3 b4]. f_equal.
  - apply ext1. intros w L. specialize (H w). unfold at14 in H. rewrite L in H. apply H. lia.
  - apply ext2. intros w L. specialize (H w). unfold at14 in H. rewrite L in H. apply H. lia.
  - apply ext3. intros w L. specialize (H w). unfold at14 in H. rewrite L in H. apply H. lia.
  - apply ext4. intros w L. specialize (H w). unfold at14 in H. rewrite L in H. apply H. lia.
Qed.
Lemma from_vec14_at : forall v w, (1 <= length w <= 4)%nat -> at14 (from_vec14 v) w = vprod v w.
Proof. intros v w L. upto w 1%nat 4%nat; cring. Qed.
Lemma zeros14_at : forall w, (1 <= length w <= 4)%nat -> at14 zeros14 w = 0.
Proof. intros w L. upto w 1%nat 4%nat; reflexivity. Qed.
Lemma acc14_at : forall a b w, (1 <= length w <= 4)%nat -> at14 (acc14 a b) w = at14 a w + at14 b w.
Proof. intros a b w L. destruct a as [a1 a2 a3 a4]. destruct a1. destruct a2. destruct a3. destruct a4. destruct b as [b1 b2 b3 b4]. destruct b1. destruct b2. destruct b3. destruct b4. upto w 1%nat 4%nat; cring. Qed.
Lemma sub14_at : forall a b w, (1 <= length w <= 4)%nat -> at14 (sub14 a b) w = at14 a w - at14 b w.
Proof. intros a b w L. destruct a as [a1 a2 a3 a4]. destruct a1. destruct a2. destruct a3. destruct a4. destruct b as [b1 b2 b3 b4]. destruct b1. destruct b2. destruct b3. destruct b4. upto w 1%nat 4%nat; cring. Qed.
Lemma scale14_at : forall a k w, (1 <= length w <= 4)%nat -> at14 (scale14 a k) w = at14 a w * k.
Proof. intros a k w L. destruct a as [a1 a2 a3 a4]. destruct a1. destruct a2. destruct a3. destruct a4. upto w 1%nat 4%nat; cring. Qed.
Lemma ext15 : forall a b : col15, (forall w, (1 <= length w <= 5)%nat -> at15 a w = at15 b w) -> a = b.
Proof.
  intros a b H. destruct a as [a1 a2 a3 a4 a5]. destruct b as [b1 b2 b3 b4 b5]. f_equal.
  - apply ext1. intros w L. specialize (H w). unfold at15 in H. rewrite L in H. apply H. lia.
  - apply ext2. intros w L. specialize (H w). unfold at15 in H. rewrite L in H. apply H. lia.
  - apply ext3. intros w L. specialize (H w). unfold at15 in H. rewrite L in H. apply H. lia.
  - apply ext4. intros w L. specialize (H w). unfold at15 in H. rewrite L in H. apply H. lia.
  - apply ext5. intros w L. specialize (H w). unfold at15 in H. rewrite L in H. apply H. lia.
Qed.
Lemma from_vec15_at : forall v w, (1 <= length w <= 5)%nat -> at15 (from_vec15 v) w = vprod v w.
Proof. intros v w L. upto w 1%nat 5%nat; cring. Qed.
Lemma zeros15_at : forall w, (1 <= length w <= 5)%nat -> at15 zeros15 w = 0.
Proof. intros w L. upto w 1%nat 5%nat; reflexivity. Qed.
Lemma acc15_at : forall a b w, (1 <= length w <= 5)%nat -> at15 (acc15 a b) w = at15 a w + at15 b w.
Proof. intros a b w L. destruct a as [a1 a2 a3 a4 a5]. destruct a1. destruct a2. destruct a3. destruct a4. destruct a5. destruct b as [b1 b2 b3 b4 b5]. destruct b1. destruct b2. destruct b3. destruct b4. destruct b5. upto w 1%nat 5%nat; cring. Qed.
Lemma sub15_at : forall a b w, (1 <= length w <= 5)%nat -> at15 (sub15 a b) w = at15 a w - at15 b w.
Proof. intros a b w L. destruct a as [a1 a2 a3 a4 a5]. destruct a1. destruct a2. destruct a3. destruct a4. destruct a5. destruct b as [b1 b2 b3 b4 b5]. destruct b1. destruct b2. destruct b3. destruct b4. destruct b5. upto w 1%nat 5%nat; cring. Qed.
Lemma scale15_at : forall a k w, (1 <= length w <= 5)%nat -> at15 (scale15 a k) w = at15 a w * k.
Proof. intros a k w L. destruct a as [a1 a2 a3 a4 a5]. destruct a1. destruct a2. destruct a3. destruct a4. destruct a5. upto w 1%nat 5%nat; cring. Qed.
