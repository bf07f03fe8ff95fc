(** What the check implies for a kernel, then for its rescaled versions. *)
Require Import Reals Lra QArith Qreals List Bool.
From Coquelicot Require Import Coquelicot.
From Verif Require Import Pwpoly Sphker Sphker_check.
Import ListNotations.
Local Open Scope R_scope.

Lemma Dun (g : R -> R) x l : is_derive g x l -> Derive (fun y => g y) x = l.
Proof. apply is_derive_unique. Qed.

Ltac eqR := match goal with |- @eq _ ?a ?b => change (@eq R a b) end.

Section Kernel.
  Context (K : kernel) (D : kdata).
  Hypothesis FT : kernel_fits K D.
  Hypothesis CK : kernel_check D = true.
  Ltac split_ck := unfold kernel_check in CK; rewrite !andb_true_iff in CK; decompose [and] CK; clear CK.

  Lemma k_df q : derivable_pt_lim (f K) q (df K q).
  Proof. split_ck. destruct FT as [ER E1 E2 E3 EF EDF EDDF EA EB]. rewrite EDF. apply (lim_eq (pweval (d_f D))); [intros; now rewrite EF|]. now apply check_deriv_ok. Qed.
  Lemma k_ddf q : d_smooth D = true -> derivable_pt_lim (df K) q (ddf K q).
  Proof. intros S. split_ck. rewrite S in *. destruct FT as [ER E1 E2 E3 EF EDF EDDF EA EB]. rewrite EDDF. apply (lim_eq (pweval (d_df D))); [intros; now rewrite EDF|]. now apply check_deriv_ok. Qed.
  Lemma k_ddf_j q : d_smooth D = false -> ~ In q (map Q2R (map fst (fst (d_df D)))) -> derivable_pt_lim (df K) q (ddf K q).
  Proof.
    intros S NI. split_ck. rewrite S in *. destruct FT as [ER E1 E2 E3 EF EDF EDDF EA EB]. rewrite EDDF. apply (lim_eq (pweval (d_df D))); [intros; now rewrite EDF|]. apply check_deriv_j_ok; auto.
    intros b Hb ->. apply NI. now apply in_map.
  Qed.
  Lemma k_pos q : 0 <= q -> 0 <= f K q.
  Proof. split_ck. destruct FT as [ER E1 E2 E3 EF EDF EDDF EA EB]. rewrite EF. now apply check_pos_ok with (cs := d_cf D). Qed.
  Lemma k_dec q : d_cdf D <> None -> 0 <= q -> df K q <= 0.
  Proof.
    intros N Hq. split_ck. destruct FT as [ER E1 E2 E3 EF EDF EDDF EA EB]. rewrite EDF. destruct (d_cdf D) as [c|]; [|now elim N].
    match goal with H : check_pos (pwmap _ _) c = true |- _ => pose proof (check_pos_ok _ _ q H Hq) as P end. rewrite (pwmap_ok _ _ _ (fun _ y => -1 * y)) in P; [lra|]. intros p. rewrite pscale_ok, Q2R_m1. reflexivity.
  Qed.
  Lemma k_zero q : Rkern K <= q -> f K q = 0 /\ df K q = 0 /\ ddf K q = 0.
  Proof. intros Hq. split_ck. destruct FT as [ER E1 E2 E3 EF EDF EDDF EA EB]. rewrite EF, EDF, EDDF. rewrite ER in Hq. repeat split; apply check_tail_ok with (r := d_r D); auto. Qed.
  Lemma k_sgn : 0 < norm_1d K /\ 0 < norm_2d K /\ 0 < norm_3d K /\ 0 < Rkern K.
  Proof.
    split_ck. destruct FT as [ER E1 E2 E3 EF EDF EDDF EA EB]. rewrite E1, E2, E3, ER. repeat match goal with H : qltb _ _ = true |- _ => apply qltb_ok in H; rewrite Q2R_0 in H end. pose proof PI_RGT_0. repeat split; auto; now apply Rdiv_lt_0_compat.
  Qed.
  (** *** the potential *)
  Lemma lim_loc g g' x l : 0 < x -> (forall y, 0 < y -> g y = g' y) -> derivable_pt_lim g x l -> derivable_pt_lim g' x l.
  Proof.
    intros Hx E H eps He. destruct (H eps He) as (d & Hd). assert (P : 0 < Rmin d x) by (apply Rmin_glb_lt; [apply d|auto]). exists (mkposreal _ P). cbn [pos]. intros h Hh Hl.
    assert (B1 : Rabs h < d) by (eapply Rlt_le_trans; [exact Hl|apply Rmin_l]). assert (B2 : Rabs h < x) by (eapply Rlt_le_trans; [exact Hl|apply Rmin_r]).
    rewrite <- !E; auto. pose proof (Rle_abs (- h)). rewrite Rabs_Ropp in *. lra.
  Qed.
  Lemma k_phi q : 0 < q -> derivable_pt_lim (phi_tilde_3d K) q (phi_tilde_3d_prime K q).
  Proof.
    intros Hq. split_ck. destruct FT as [ER E1 E2 E3 EF EDF EDDF EA EB]. rewrite EB by auto. apply (lim_loc (fun q => PI * pweval (d_A D) q / q)); [auto|intros; symmetry; auto|].
    set (A := pweval (d_A D)). set (A' := pweval (pwmap pderiv (d_A D))).
    assert (HA : forall x, derivable_pt_lim A x (A' x)) by (intros; now apply check_deriv_ok).
    assert (HB : pweval (d_B D) q = q * A' q - A q).
    { rewrite (pweq_ok _ _ q ltac:(eassumption)). unfold A, A'. generalize (d_A D). intros [F tF]. unfold pweval, pwmap. cbn [fst snd].
      assert (E : forall p, peval (qA p) q = q * peval (pderiv p) q - peval p q) by (intros p; unfold qA; rewrite padd_ok, pmul_ok, pscale_ok; cbn [peval]; rewrite Q2R_0, Q2R_1, Q2R_m1; ring).
      induction F as [|[b p] F IH]; cbn [pweval' map fst snd]; auto. destruct (Rlt_dec _ _); auto. }
    rewrite HB. apply is_derive_Reals. clear HB. clearbody A A'.
    assert (DA : is_derive A q (A' q)) by (apply is_derive_Reals; auto).
    auto_derive.
    - split; [exists (A' q); exact DA|]. split; auto. lra.
    - rewrite (Dun _ _ _ DA). field. lra.
  Qed.
  Lemma poly4 q : pweval (pwmap (fun p => pscale 4 (pmul [0%Q; 0%Q; 1%Q] p)) (d_f D)) q = 4 * (q * q * f K q).
  Proof.
    destruct FT as [ER E1 E2 E3 EF EDF EDDF EA EB]. rewrite EF. rewrite (pwmap_ok _ _ _ (fun x y => 4 * (x * x * y))); auto. intros p. rewrite pscale_ok, pmul_ok. cbn [peval]. rewrite Q2R_0, Q2R_1. replace (Q2R 4) with 4 by (unfold Q2R; cbn; lra). ring.
  Qed.
  Lemma k_gauss q : 0 < q -> is_RInt (fun s => 4 * PI * s ^ 2 * f K s) 0 q (q ^ 2 * phi_tilde_3d_prime K q).
  Proof.
    intros Hq. pose proof k_df as DF. split_ck. destruct FT as [ER E1 E2 E3 EF EDF EDDF EA EB]. rewrite EB by auto. pose (B := fun x => PI * pweval (d_B D) x).
    assert (B0 : B 0 = 0). { unfold B. match goal with H : Qeq_bool (pw0 (d_B D) 0) 0 = true |- _ => apply Qeq_bool_iff, Qeq_eqR in H; rewrite pw0_ok, Q2R_0 in H; rewrite H end. ring. }
    replace (q ^ 2 * (PI * pweval (d_B D) q / (q * q))) with (B q - B 0) by (rewrite B0; unfold B; field; lra).
    apply (int_of_deriv B _ (fun s => 4 * PI * (2 * s * f K s + s ^ 2 * df K s))).
    - intros x. replace (4 * PI * x ^ 2 * f K x) with (PI * (4 * (x * x * f K x))) by ring. rewrite <- poly4. apply derivable_pt_lim_scal. now apply check_deriv_ok.
    - intros x. apply is_derive_Reals. assert (E : is_derive (f K) x (df K x)) by (apply is_derive_Reals; auto). auto_derive; [repeat split; eexists; exact E|]. rewrite (Dun _ _ _ E). ring.
  Qed.
  Lemma k_gauss_all : is_RInt (fun s => 4 * PI * s ^ 2 * f K s) 0 (Rkern K) (/ norm_3d K).
  Proof.
    destruct k_sgn as (_ & _ & N3 & R0). pose proof (k_gauss _ R0) as G. replace (/ norm_3d K) with (Rkern K ^ 2 * phi_tilde_3d_prime K (Rkern K)); auto.
    pose proof (kf_B _ _ FT _ R0) as E. rewrite E. pose proof (kf_r _ _ FT) as ER. pose proof (kf_3 _ _ FT) as E3. rewrite E3 in N3 |- *. rewrite ER in *.
    split_ck. match goal with H : Qeq_bool (d_n3 D * _) 1 = true |- _ => apply Qeq_bool_iff, Qeq_eqR in H; rewrite Q2R_mult, pw0_ok, Q2R_1 in H; rename H into HH end.
    pose proof PI_RGT_0. assert (Q2R (d_n3 D) <> 0) by (intros X; rewrite X in HH; lra).
    transitivity (PI * pweval (d_B D) (Q2R (d_r D))); [field; lra|]. apply Rmult_eq_reg_l with (Q2R (d_n3 D)); auto. transitivity PI; [rewrite <- (Rmult_1_l PI) at 2; rewrite <- HH; ring|field; lra].
  Qed.
  Lemma k_outside q : Rkern K <= q -> phi_tilde_3d K q = - / (norm_3d K * q).
  Proof.
    intros Hq. destruct k_sgn as (_ & _ & N3 & R0). split_ck. destruct FT as [ER E1 E2 E3 EF EDF EDDF EA EB]. rewrite EA by lra. rewrite E3 in *. rewrite ER in *.
    assert (E : pweval (d_A D) q = - / Q2R (d_n3 D)).
    { assert (Hn : Q2R (d_n3 D) <> 0) by (intros X; rewrite X in N3; unfold Rdiv in N3; lra).
      assert (TA : peval (snd (d_A D)) q = - / Q2R (d_n3 D)).
      { rewrite (peq_ok _ _ q ltac:(eassumption)). cbn [peval]. rewrite Q2R_opp, Q2R_inv; [ring|]. intros X. apply Hn. rewrite (Qeq_eqR _ _ X). apply Q2R_0. }
      rewrite <- TA. match goal with H : allle (d_A D) _ = true |- _ => revert H end. revert Hq. clear. unfold allle, pweval. destruct (d_A D) as [F tF]. intros Hq. cbn [fst snd].
      induction F as [|[b p] F IH]; cbn [pweval' forallb fst]; auto. rewrite andb_true_iff. intros [U1 U2]. apply Qle_bool_iff, Qle_Rle in U1. destruct (Rlt_dec _ _); [lra|]. auto. }
    rewrite E. pose proof PI_RGT_0. assert (Q2R (d_n3 D) <> 0) by (intros X; rewrite X in N3; unfold Rdiv in N3; lra). field. repeat split; lra.
  Qed.
  Lemma k_int1 : is_RInt (fun s => 2 * (norm_1d K * f K s)) 0 (Rkern K) 1.
  Proof.
    pose proof k_df as DF. split_ck. destruct FT as [ER E1 E2 E3 EF EDF EDDF EA EB]. rewrite E1, ER.
    assert (E : 1 = 2 * (Q2R (d_n1 D) * pweval (d_K1 D) (Q2R (d_r D))) - 2 * (Q2R (d_n1 D) * pweval (d_K1 D) 0)).
    { match goal with H : Qeq_bool (2 * d_n1 D * _) 1 = true |- _ => apply Qeq_bool_iff, Qeq_eqR in H; rewrite !Q2R_mult, pw0_ok, Q2R_1 in H; replace (Q2R 2) with 2 in H by (unfold Q2R; cbn; lra) end.
      match goal with H : Qeq_bool (pw0 (d_K1 D) 0) 0 = true |- _ => apply Qeq_bool_iff, Qeq_eqR in H; rewrite pw0_ok, Q2R_0 in H; rewrite H end. lra. }
    rewrite E. apply (int_of_deriv (fun x => 2 * (Q2R (d_n1 D) * pweval (d_K1 D) x)) _ (fun s => 2 * (Q2R (d_n1 D) * df K s))); intros x.
    - rewrite EF. do 2 apply derivable_pt_lim_scal. now apply check_deriv_ok.
    - do 2 apply derivable_pt_lim_scal. auto.
  Qed.
  Lemma k_int2 : is_RInt (fun s => 2 * PI * s * (norm_2d K * f K s)) 0 (Rkern K) 1.
  Proof.
    pose proof k_df as DF. split_ck. destruct FT as [ER E1 E2 E3 EF EDF EDDF EA EB]. rewrite E2, ER. pose proof PI_RGT_0 as HP.
    assert (E : 1 = 2 * Q2R (d_n2 D) * pweval (d_K2 D) (Q2R (d_r D)) - 2 * Q2R (d_n2 D) * pweval (d_K2 D) 0).
    { match goal with H : Qeq_bool (2 * d_n2 D * _) 1 = true |- _ => apply Qeq_bool_iff, Qeq_eqR in H; rewrite !Q2R_mult, pw0_ok, Q2R_1 in H; replace (Q2R 2) with 2 in H by (unfold Q2R; cbn; lra) end.
      match goal with H : Qeq_bool (pw0 (d_K2 D) 0) 0 = true |- _ => apply Qeq_bool_iff, Qeq_eqR in H; rewrite pw0_ok, Q2R_0 in H; rewrite H end. lra. }
    rewrite E. apply (int_of_deriv (fun x => 2 * Q2R (d_n2 D) * pweval (d_K2 D) x) _ (fun s => 2 * Q2R (d_n2 D) * (f K s + s * df K s))); intros x.
    - replace (2 * PI * x * (Q2R (d_n2 D) / PI * f K x)) with (2 * Q2R (d_n2 D) * (x * f K x)) by (field; lra). apply derivable_pt_lim_scal.
      replace (x * f K x) with (pweval (pwmap (pmul [0%Q; 1%Q]) (d_f D)) x); [now apply check_deriv_ok|]. rewrite EF. rewrite (pwmap_ok _ _ _ (fun x y => x * y)); auto. intros p. rewrite pmul_ok. cbn [peval]. rewrite Q2R_0, Q2R_1. ring.
    - apply is_derive_Reals. assert (DX : is_derive (f K) x (df K x)) by (apply is_derive_Reals; auto). auto_derive; [repeat split; eexists; exact DX|]. rewrite (Dun _ _ _ DX). field. lra.
  Qed.

  (** *** rescaled *)
  Context (h : R).
  Hypothesis H0 : 0 < h.
  Lemma int_scale (g : R -> R) a l : is_RInt g 0 a l -> is_RInt (fun r => / h * g (r / h)) 0 (a * h) l.
  Proof.
    intros H. apply (is_RInt_ext (fun y => scal (/ h) (g (/ h * y + 0)))).
    - intros x _. change (/ h * g (/ h * x + 0) = / h * g (x / h)). replace (/ h * x + 0) with (x / h); [reflexivity|]. unfold Rdiv. ring.
    - apply (is_RInt_comp_lin g (/ h) 0 0 (a * h)). replace (/ h * 0 + 0) with 0 by ring. replace (/ h * (a * h) + 0) with a by (field; lra). exact H.
  Qed.
  Lemma w_norm1 : is_RInt (fun r => 2 * W_1d K r h) 0 (Rkern K * h) 1.
  Proof. apply (is_RInt_ext (fun r => / h * (2 * (norm_1d K * f K (r / h))))); [intros; eqR; unfold W_1d, Rdiv; ring|]. apply (int_scale (fun s => 2 * (norm_1d K * f K s))). apply k_int1. Qed.
  Lemma w_norm2 : is_RInt (fun r => 2 * PI * r * W_2d K r h) 0 (Rkern K * h) 1.
  Proof. apply (is_RInt_ext (fun r => / h * (2 * PI * (r / h) * (norm_2d K * f K (r / h))))); [intros; eqR; unfold W_2d; field; lra|]. apply (int_scale (fun s => 2 * PI * s * (norm_2d K * f K s))). apply k_int2. Qed.
  Lemma k_gauss3 a l : is_RInt (fun s => 4 * PI * s ^ 2 * f K s) 0 a l -> is_RInt (fun r => 4 * PI * r ^ 2 * W_3d K r h) 0 (a * h) (norm_3d K * l).
  Proof.
    intros H. apply (is_RInt_ext (fun r => / h * (norm_3d K * (4 * PI * (r / h) ^ 2 * f K (r / h))))); [intros; eqR; unfold W_3d; field; lra|].
    apply (int_scale (fun s => norm_3d K * (4 * PI * s ^ 2 * f K s))). apply (is_RInt_scal (V := R_NormedModule) _ _ _ (norm_3d K) _ H).
  Qed.
  Lemma w_norm3 : is_RInt (fun r => 4 * PI * r ^ 2 * W_3d K r h) 0 (Rkern K * h) 1.
  Proof. destruct k_sgn as (_ & _ & N3 & _). replace 1 with (norm_3d K * / norm_3d K) by (field; lra). apply k_gauss3. apply k_gauss_all. Qed.
  Lemma w_gauss r : 0 < r -> is_RInt (fun s => 4 * PI * s ^ 2 * W_3d K s h) 0 r (r ^ 2 * phi_3D_prime K r h).
  Proof.
    intros Hr. assert (Hq : 0 < r / h) by now apply Rdiv_lt_0_compat. replace (r ^ 2 * phi_3D_prime K r h) with (norm_3d K * ((r / h) ^ 2 * phi_tilde_3d_prime K (r / h))) by (unfold phi_3D_prime; field; lra).
    replace r with (r / h * h) at 1 by (field; lra). apply k_gauss3. now apply k_gauss.
  Qed.
  Lemma w_phi r : 0 < r -> derivable_pt_lim (fun r => phi_3D K r h) r (phi_3D_prime K r h).
  Proof.
    intros Hr. assert (Hq : 0 < r / h) by now apply Rdiv_lt_0_compat. unfold phi_3D, phi_3D_prime. apply is_derive_Reals.
    assert (E : is_derive (phi_tilde_3d K) (r / h) (phi_tilde_3d_prime K (r / h))) by (apply is_derive_Reals; now apply k_phi).
    auto_derive; [repeat split; try lra; eexists; exact E|]. change (Rmult r (/ h)) with (r / h). rewrite (Dun _ _ _ E). field. lra.
  Qed.
  Lemma w_outside r : Rkern K * h <= r -> phi_3D K r h = - 1 / r.
  Proof.
    intros Hr. destruct k_sgn as (_ & _ & N3 & R0). assert (P : 0 < Rkern K * h) by now apply Rmult_lt_0_compat. unfold phi_3D. rewrite k_outside; [field; repeat split; lra|].
    apply Rmult_le_reg_r with h; auto. unfold Rdiv. rewrite Rmult_assoc, Rinv_l by lra. lra.
  Qed.
  Lemma w_d r : derivable_pt_lim (fun r => W_3d K r h) r (dW_3d K r h).
  Proof.
    unfold W_3d, dW_3d. apply is_derive_Reals. assert (E : is_derive (f K) (r / h) (df K (r / h))) by (apply is_derive_Reals; apply k_df).
    auto_derive; [repeat split; try lra; eexists; exact E|]. change (Rmult r (/ h)) with (r / h). rewrite (Dun _ _ _ E). field. lra.
  Qed.
  Lemma w_dd r : derivable_pt_lim (df K) (r / h) (ddf K (r / h)) -> derivable_pt_lim (fun r => dW_3d K r h) r (ddW_3d K r h).
  Proof.
    intros HD. unfold dW_3d, ddW_3d. apply is_derive_Reals. assert (E : is_derive (df K) (r / h) (ddf K (r / h))) by (apply is_derive_Reals; auto).
    auto_derive; [repeat split; try lra; eexists; exact E|]. change (Rmult r (/ h)) with (r / h). rewrite (Dun _ _ _ E). field. lra.
  Qed.
  Lemma w_dh r : derivable_pt_lim (fun h => W_3d K r h) h (dhW_3d K r h).
  Proof.
    unfold W_3d, dhW_3d. apply is_derive_Reals. assert (E : is_derive (f K) (r / h) (df K (r / h))) by (apply is_derive_Reals; apply k_df).
    auto_derive; [repeat split; try lra; try (eexists; exact E)|].
    - repeat (apply Rmult_integral_contrapositive; split); lra.
    - change (Rmult r (/ h)) with (r / h). rewrite (Dun _ _ _ E). field. lra.
  Qed.
  Lemma w_zero r : Rkern K * h <= r -> W_1d K r h = 0 /\ W_2d K r h = 0 /\ W_3d K r h = 0 /\ dW_3d K r h = 0 /\ ddW_3d K r h = 0 /\ dhW_3d K r h = 0.
  Proof.
    intros Hr. destruct (k_zero (r / h)) as (A & B & C). { apply Rmult_le_reg_r with h; auto. unfold Rdiv. rewrite Rmult_assoc, Rinv_l by lra. lra. }
    unfold W_1d, W_2d, W_3d, dW_3d, ddW_3d, dhW_3d. rewrite A, B, C. unfold Rdiv. repeat split; ring.
  Qed.
  Lemma w_pos r : 0 <= r -> 0 <= W_1d K r h /\ 0 <= W_2d K r h /\ 0 <= W_3d K r h.
  Proof.
    intros Hr. destruct k_sgn as (N1 & N2 & N3 & _). assert (F0 : 0 <= f K (r / h)) by (apply k_pos; apply Rmult_le_pos; auto; apply Rlt_le, Rinv_0_lt_compat; auto).
    unfold W_1d, W_2d, W_3d, Rdiv. assert (I : forall x, 0 < x -> 0 <= / x) by (intros; apply Rlt_le, Rinv_0_lt_compat; auto).
    repeat split; repeat apply Rmult_le_pos; try lra; try apply I; repeat apply Rmult_lt_0_compat; auto.
  Qed.
  Lemma w_dec r : d_cdf D <> None -> 0 <= r -> dW_3d K r h <= 0.
  Proof.
    intros N Hr. destruct k_sgn as (N1 & N2 & N3 & _). assert (F0 : df K (r / h) <= 0) by (apply k_dec; auto; apply Rmult_le_pos; auto; apply Rlt_le, Rinv_0_lt_compat; auto).
    unfold dW_3d, Rdiv. assert (I : 0 < / (h * h * h * h)) by (apply Rinv_0_lt_compat; repeat apply Rmult_lt_0_compat; auto).
    assert (0 <= norm_3d K * - df K (r * / h) * / (h * h * h * h)); [|lra]. repeat apply Rmult_le_pos; lra.
  Qed.
End Kernel.
