(** Property theorems C51 (see properties.jsonl): the SPH kernels are what SPH needs them to be. *)
Require Import Reals Lra QArith Qreals List Bool.
From Coquelicot Require Import Coquelicot.
From Verif Require Import Sphd_spec Pwpoly Sphker Sphker_check Sphker_d1 Sphker_d2 Sphker_d3 Sphker_d4 Sphker_proofs.
Import ListNotations.
Local Open Scope R_scope.

Lemma bell_data K : In K bell -> exists D, kernel_fits K D /\ kernel_check D = true /\ d_cdf D <> None /\ d_smooth D = true.
Proof.
  intros H. cbv [bell In] in H. repeat (destruct H as [<-|H]); [..|contradiction].
  - exists dM4. split; [apply M4_fits|split; [apply M4_check|split; [discriminate|reflexivity]]].
  - exists dM5. split; [apply M5_fits|split; [apply M5_check|split; [discriminate|reflexivity]]].
  - exists dM6. split; [apply M6_fits|split; [apply M6_check|split; [discriminate|reflexivity]]].
  - exists dM7. split; [apply M7_fits|split; [apply M7_check|split; [discriminate|reflexivity]]].
  - exists dM8. split; [apply M8_fits|split; [apply M8_check|split; [discriminate|reflexivity]]].
  - exists dM9. split; [apply M9_fits|split; [apply M9_check|split; [discriminate|reflexivity]]].
  - exists dM10. split; [apply M10_fits|split; [apply M10_check|split; [discriminate|reflexivity]]].
  - exists dC2. split; [apply C2_fits|split; [apply C2_check|split; [discriminate|reflexivity]]].
  - exists dC4. split; [apply C4_fits|split; [apply C4_check|split; [discriminate|reflexivity]]].
  - exists dC6. split; [apply C6_fits|split; [apply C6_check|split; [discriminate|reflexivity]]].
Qed.
Lemma shifted_data K : In K shifted -> exists D, kernel_fits K D /\ kernel_check D = true /\ d_cdf D <> None.
Proof.
  intros H. cbv [shifted In] in H. repeat (destruct H as [<-|H]); [..|contradiction].
  - exists dM4Shift2. split; [apply M4Shift2_fits|split; [apply M4Shift2_check|discriminate]].
  - exists dM4Shift4. split; [apply M4Shift4_fits|split; [apply M4Shift4_check|discriminate]].
  - exists dM4Shift8. split; [apply M4Shift8_fits|split; [apply M4Shift8_check|discriminate]].
  - exists dM4Shift16. split; [apply M4Shift16_fits|split; [apply M4Shift16_check|discriminate]].
Qed.
Lemma hump_data K : In K double_hump -> exists D, kernel_fits K D /\ kernel_check D = true /\ d_smooth D = true.
Proof.
  intros H. cbv [double_hump In] in H. repeat (destruct H as [<-|H]); [..|contradiction].
  - exists dM4DoubleHump. split; [apply M4DoubleHump_fits|split; [apply M4DoubleHump_check|reflexivity]].
  - exists dM4DoubleHump3. split; [apply M4DoubleHump3_fits|split; [apply M4DoubleHump3_check|reflexivity]].
  - exists dM4DoubleHump5. split; [apply M4DoubleHump5_fits|split; [apply M4DoubleHump5_check|reflexivity]].
  - exists dM4DoubleHump7. split; [apply M4DoubleHump7_fits|split; [apply M4DoubleHump7_check|reflexivity]].
Qed.
Lemma kernels_data K : In K kernels -> exists D, kernel_fits K D /\ kernel_check D = true.
Proof.
  unfold kernels. rewrite !in_app_iff. intros [H|[H|H]].
  - destruct (bell_data K H) as (D & A & B & _). eauto.
  - destruct (shifted_data K H) as (D & A & B & _). eauto.
  - destruct (hump_data K H) as (D & A & B & _). eauto.
Qed.

(** C51.  dW_3d and dhW_3d are the partial derivatives of W_3d with respect to the distance and to the smoothing length;
    everything vanishes from Rkern h on; the kernel is non negative. *)
Theorem C51_derivatives : forall K r h, In K kernels -> 0 < h ->
  derivable_pt_lim (fun r => W_3d K r h) r (dW_3d K r h) /\ derivable_pt_lim (fun h => W_3d K r h) h (dhW_3d K r h).
Proof. intros K r h HK Hh. destruct (kernels_data K HK) as (D & A & B). split; [apply (w_d K D)|apply (w_dh K D)]; auto. Qed.
Print Assumptions C51_derivatives.
Theorem C51_second_derivative : forall K r h, In K (bell ++ double_hump) -> 0 < h -> derivable_pt_lim (fun r => dW_3d K r h) r (ddW_3d K r h).
Proof.
  intros K r h HK Hh. apply in_app_iff in HK. assert (X : exists D, kernel_fits K D /\ kernel_check D = true /\ d_smooth D = true).
  { destruct HK as [H|H]; [destruct (bell_data K H) as (D & A & B & _ & C)|destruct (hump_data K H) as (D & A & B & C)]; eauto. }
  destruct X as (D & A & B & C). apply w_dd; auto. now apply (k_ddf K D).
Qed.
Print Assumptions C51_second_derivative.
(** The shifted kernels are flat up to the edge [a] of their plateau, where the second derivative jumps. *)
Definition plateaus : list (kernel * R) := [(M4Shift2, 1); (M4Shift4, 3 / 2); (M4Shift8, 7 / 4); (M4Shift16, 15 / 8)].
Lemma M4_ddf_lim q : derivable_pt_lim M4_df q (M4_ddf q).
Proof. apply (k_ddf M4 dM4 M4_fits M4_check q eq_refl). Qed.
Lemma shift_lim c a cc q : cc = c * c -> q <> a ->
  derivable_pt_lim (fun q => if Rlt_dec q a then 0 else c * M4_df ((q - a) * c)) q (if Rlt_dec q a then 0 else cc * M4_ddf ((q - a) * c)).
Proof.
  intros -> NE. apply (glue_j a (fun _ => 0) (fun q => c * M4_df ((q - a) * c)) (fun _ => 0) (fun q => c * c * M4_ddf ((q - a) * c))); auto.
  - intros _. apply derivable_pt_lim_const.
  - intros _. apply is_derive_Reals. assert (E : is_derive M4_df ((q - a) * c) (M4_ddf ((q - a) * c))) by (apply is_derive_Reals; apply M4_ddf_lim).
    set (g := M4_df) in *. clearbody g. auto_derive; [eexists; exact E|]. change (q + - a) with (q - a). rewrite (Dun _ _ _ E). ring.
Qed.
Theorem C51_second_derivative_shifted : forall K a r h, In (K, a) plateaus -> 0 < h -> r / h <> a ->
  derivable_pt_lim (fun r => dW_3d K r h) r (ddW_3d K r h).
Proof.
  intros K a r h HK Hh Ha. apply w_dd; auto.
  cbv [plateaus In] in HK. repeat (destruct HK as [HK|HK]; [injection HK as <- <-; cbv [df ddf M4Shift2 M4Shift4 M4Shift8 M4Shift16 M4Shift2_df M4Shift2_ddf M4Shift4_df M4Shift4_ddf M4Shift8_df M4Shift8_ddf M4Shift16_df M4Shift16_ddf]; apply shift_lim; [ring|exact Ha]|]). contradiction.
Qed.
Print Assumptions C51_second_derivative_shifted.
Theorem C51_compact : forall K r h, In K kernels -> 0 < h -> Rkern K * h <= r ->
  W_1d K r h = 0 /\ W_2d K r h = 0 /\ W_3d K r h = 0 /\ dW_3d K r h = 0 /\ ddW_3d K r h = 0 /\ dhW_3d K r h = 0.
Proof. intros K r h HK Hh Hr. destruct (kernels_data K HK) as (D & A & B). now apply (w_zero K D). Qed.
Print Assumptions C51_compact.
Theorem C51_positive : forall K r h, In K kernels -> 0 < h -> 0 <= r -> 0 <= W_1d K r h /\ 0 <= W_2d K r h /\ 0 <= W_3d K r h.
Proof. intros K r h HK Hh Hr. destruct (kernels_data K HK) as (D & A & B). now apply (w_pos K D). Qed.
Print Assumptions C51_positive.
(** The integral over the line, the plane and the space is one. *)
Theorem C51_normalised : forall K h, In K kernels -> 0 < h ->
  is_RInt (fun r => 2 * W_1d K r h) 0 (Rkern K * h) 1 /\
  is_RInt (fun r => 2 * PI * r * W_2d K r h) 0 (Rkern K * h) 1 /\
  is_RInt (fun r => 4 * PI * r ^ 2 * W_3d K r h) 0 (Rkern K * h) 1.
Proof. intros K h HK Hh. destruct (kernels_data K HK) as (D & A & B). repeat split; [apply (w_norm1 K D)|apply (w_norm2 K D)|apply (w_norm3 K D)]; auto. Qed.
Print Assumptions C51_normalised.
Lemma rint_eq (g : R -> R) (a b l l' : R) : is_RInt g a b l -> l = l' -> is_RInt g a b l'.
Proof. now intros H <-. Qed.
(** phi_3D is the gravitational potential of a unit mass spread as W_3d: its slope is the mass within r over r^2
    (so it solves Poisson's equation), and outside the kernel it is that of a point mass. *)
Theorem C51_potential : forall K r h, In K kernels -> 0 < h -> 0 < r ->
  derivable_pt_lim (fun r => phi_3D K r h) r (phi_3D_prime K r h) /\
  is_RInt (fun s => 4 * PI * s ^ 2 * W_3d K s h) 0 r (r ^ 2 * phi_3D_prime K r h) /\
  (Rkern K * h <= r -> phi_3D K r h = - 1 / r /\ phi_3D_prime K r h = 1 / r ^ 2).
Proof.
  intros K r h HK Hh Hr. destruct (kernels_data K HK) as (D & A & B). pose proof (w_phi K D A B h Hh) as P. split; [now apply P|]. split; [now apply (w_gauss K D)|].
  intros HR. split; [now apply (w_outside K D)|].
  pose proof (w_gauss K D A B h Hh r Hr) as G. pose proof (w_norm3 K D A B h Hh) as N.
  assert (Z : is_RInt (fun s => 4 * PI * s ^ 2 * W_3d K s h) (Rkern K * h) r 0).
  { apply (is_RInt_ext (fun _ => 0)). { intros x Hx. rewrite Rmin_left in Hx by lra. destruct (w_zero K D A B h Hh x ltac:(lra)) as (_ & _ & E & _). eqR. rewrite E. ring. }
    pose proof (is_RInt_const (Rkern K * h) r 0) as C. apply (rint_eq _ _ _ _ _ C). apply Rmult_0_r. }
  pose proof (rint_eq _ _ _ _ 1 (is_RInt_Chasles _ _ _ _ _ _ N Z) (Rplus_0_r 1)) as T. apply (is_RInt_unique (V := R_CompleteNormedModule)) in T. apply (is_RInt_unique (V := R_CompleteNormedModule)) in G. rewrite T in G.
  apply Rmult_eq_reg_l with (r ^ 2); [|apply pow_nonzero; lra]. eqR. rewrite <- G. field. lra.
Qed.
Print Assumptions C51_potential.
(** The hypotheses of C50 about the kernel hold for these. *)
Theorem C51_forces : forall K, (In K kernels -> compact (dW_3d K) (Rkern K) /\ 0 < Rkern K /\ 0 < hfactd K) /\
  (In K (bell ++ shifted) -> decreasing (dW_3d K)).
Proof.
  intros K. split.
  - intros HK. destruct (kernels_data K HK) as (D & A & B). split; [|split].
    + intros r h Hh Hr. apply (w_zero K D A B h Hh r). lra.
    + apply (k_sgn K D A B).
    + unfold kernels, bell, shifted, double_hump in HK. cbn [app In] in HK. repeat (destruct HK as [<-|HK]; [cbv [hfactd M4 M5 M6 M7 M8 M9 M10 C2 C4 C6 M4Shift2 M4Shift4 M4Shift8 M4Shift16 M4DoubleHump M4DoubleHump3 M4DoubleHump5 M4DoubleHump7 M4_hfactd M5_hfactd M6_hfactd M7_hfactd M8_hfactd M9_hfactd M10_hfactd C2_hfactd C4_hfactd C6_hfactd M4Shift2_hfactd M4Shift4_hfactd M4Shift8_hfactd M4Shift16_hfactd M4DoubleHump_hfactd M4DoubleHump3_hfactd M4DoubleHump5_hfactd M4DoubleHump7_hfactd]; lra|]). contradiction.
  - intros HK r h Hr Hh. apply in_app_iff in HK. assert (X : exists D, kernel_fits K D /\ kernel_check D = true /\ d_cdf D <> None).
    { destruct HK as [H|H]; [destruct (bell_data K H) as (D & A & B & C & _)|destruct (shifted_data K H) as (D & A & B & C)]; eauto. }
    destruct X as (D & A & B & C). now apply (w_dec K D A B h Hh).
Qed.
Print Assumptions C51_forces.
(** The truncated Gaussians: the given derivatives, except at the truncation radius where f itself jumps.
    Their norms (decimal approximations) and potentials (erf) are outside the property. *)
Theorem C51_tgauss : forall R0 q, q <> R0 ->
  derivable_pt_lim (TGauss_f R0) q (TGauss_df R0 q) /\ derivable_pt_lim (TGauss_df R0) q (TGauss_ddf R0 q) /\
  0 <= TGauss_f R0 q /\ (0 <= q -> TGauss_df R0 q <= 0) /\ (R0 <= q -> TGauss_f R0 q = 0 /\ TGauss_df R0 q = 0 /\ TGauss_ddf R0 q = 0).
Proof.
  intros R0 q NE. unfold TGauss_f, TGauss_df, TGauss_ddf. cbv [pow_constexpr]. split; [|split; [|split; [|split]]].
  - apply (glue_j R0 (fun q => exp (- (q * q))) (fun _ => 0) (fun q => (- 2) * q * exp (- (q * q))) (fun _ => 0)); auto; intros _.
    + apply is_derive_Reals. auto_derive; auto. ring.
    + apply derivable_pt_lim_const.
  - apply (glue_j R0 (fun q => (- 2) * q * exp (- (q * q))) (fun _ => 0) (fun q => (4 * (q * q) - 2) * exp (- (q * q))) (fun _ => 0)); auto; intros _.
    + apply is_derive_Reals. auto_derive; auto. ring.
    + apply derivable_pt_lim_const.
  - destruct (Rlt_dec q R0); [|lra]. apply Rlt_le, exp_pos.
  - intros Hq. destruct (Rlt_dec q R0); [|lra]. pose proof (exp_pos (- (q * q))). assert (0 <= q * exp (- (q * q))) by (apply Rmult_le_pos; lra). lra.
  - intros Hq. destruct (Rlt_dec q R0); lra.
Qed.
Print Assumptions C51_tgauss.

(** Values: M4 at r = 0 and r = h = 1, its slope there, and a kernel of each family. *)
Example C51_nonvacuous : W_3d M4 0 1 = 1 / PI /\ W_3d M4 1 1 = 1 / (4 * PI) /\ dW_3d M4 1 1 = - 3 / (4 * PI) /\ W_3d M4 2 1 = 0 /\
  In M4 bell /\ In M4Shift2 shifted /\ In M4DoubleHump double_hump /\ (length kernels = 18)%nat /\
  W_3d C2 0 1 = 21 / (16 * PI) /\ dW_3d M4DoubleHump (1 / 2) 1 > 0 /\ W_3d M4Shift2 (1 / 2) 1 = W_3d M4Shift2 0 1.
Proof.
  pose proof PI_RGT_0 as HP.
  assert (E : forall q, f M4 q = pweval (d_f dM4) q) by apply (kf_f _ _ M4_fits).
  assert (E' : forall q, df M4 q = pweval (d_df dM4) q) by apply (kf_df _ _ M4_fits).
  repeat split; try (cbn; tauto).
  - unfold W_3d. rewrite E. replace (0 / 1) with 0 by lra. cbv [pweval pweval' peval dM4 d_f fst snd Q2R Qnum Qden norm_3d M4 M4_norm_3d]. destruct (Rlt_dec _ _); [|exfalso; lra]. field. lra.
  - unfold W_3d. rewrite E. replace (1 / 1) with 1 by lra. cbv [pweval pweval' peval dM4 d_f fst snd Q2R Qnum Qden norm_3d M4 M4_norm_3d]. destruct (Rlt_dec _ _); [exfalso; lra|]. destruct (Rlt_dec _ _); [|exfalso; lra]. field. lra.
  - unfold dW_3d. rewrite E'. replace (1 / 1) with 1 by lra. cbv [pweval pweval' peval dM4 d_df fst snd Q2R Qnum Qden norm_3d M4 M4_norm_3d]. destruct (Rlt_dec _ _); [exfalso; lra|]. destruct (Rlt_dec _ _); [|exfalso; lra]. field. lra.
  - apply (C51_compact M4 2 1); [cbn; tauto|lra|]. cbv [Rkern M4 M4_Rkern]. lra.
  - unfold W_3d. rewrite (kf_f _ _ C2_fits). replace (0 / 1) with 0 by lra. cbv [pweval pweval' peval dC2 d_f fst snd Q2R Qnum Qden norm_3d C2 C2_norm_3d]. destruct (Rlt_dec _ _); [|exfalso; lra]. field. lra.
  - unfold dW_3d. rewrite (kf_df _ _ M4DoubleHump_fits). pose proof (kf_3 _ _ M4DoubleHump_fits) as E3. rewrite E3. replace (1 / 2 / 1) with (1 / 2) by lra.
    cbv [pweval pweval' peval dM4DoubleHump d_df d_n3 fst snd Q2R Qnum Qden]. destruct (Rlt_dec _ _); [|exfalso; lra]. assert (0 < / PI) by now apply Rinv_0_lt_compat. unfold Rdiv. lra.
  - unfold W_3d. f_equal. f_equal. cbv [f M4Shift2 M4Shift2_f]. destruct (Rlt_dec _ _); [|exfalso; lra]. destruct (Rlt_dec _ _); [|exfalso; lra]. reflexivity.
Qed.
Print Assumptions C51_nonvacuous.
