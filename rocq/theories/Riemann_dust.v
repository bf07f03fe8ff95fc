(* Dust solvers and slope limiters. *)
From Coq Require Import Reals Lra Psatz.
From Verif Require Import Riemann Riemann_spec Riemann_proofs.
Local Open Scope R_scope.

Definition drotp d p := mkdprim (dp_rho p) (rotv d (dp_vel p)).
Definition drotc d c := mkdcons (d_rho c) (rotv d (d_rhov c)).
Definition dunrotc d c := mkdcons (d_rho c) (unrotv d (d_rhov c)).
Definition dinvp p := mkdprim (dp_rho p) (rvneg (dp_vel p)).
Definition dinvc c := mkdcons (d_rho c) (rvneg (d_rhov c)).

Lemma drot_cons d p : drotc d (d_prim_to_cons p) = d_prim_to_cons (drotp d p).
Proof. destruct d; apply dcons_ext; cbn; ring. Qed.

Lemma dflux_rot m d pL pR :
  dustflux m d pL pR =
  dunrotc d (d_solver_x m (d_prim_to_cons (drotp d pL)) (d_prim_to_cons (drotp d pR))).
Proof.
  unfold dustflux. rewrite <- !drot_cons.
  destruct d; unfold d_solver_y, d_solver_z, d_solver_mx, d_solver_my, d_solver_mz, d_solver_y, d_solver_z,
    drotc, dunrotc, rotv, unrotv, d_x_to_y, d_y_to_x, d_x_to_z, d_z_to_x, d_invert_axis, rvneg;
    cbn [d_rho d_rhov rx ry rz]; rewrite ?Ropp_involutive; try reflexivity.
  destruct (d_prim_to_cons pL) as [? []], (d_prim_to_cons pR) as [? []]; cbn.
  destruct (d_solver_x m _ _) as [? []]. reflexivity.
Qed.

Lemma dc2p p : 0 < dp_rho p -> d_cons_to_prim (d_prim_to_cons p) = p.
Proof. intros H. apply dprim_ext; cbn; try reflexivity; field; lra. Qed.

Lemma dhfx p : 0 < dp_rho p -> d_hydro_flux_x (d_prim_to_cons p) = dust_flux_exact ex p.
Proof.
  intros H. unfold d_hydro_flux_x. rewrite dc2p by assumption.
  apply dcons_ext; cbn; unfold dotp; cbn; ring.
Qed.

Lemma dunrot_exact d p : dunrotc d (dust_flux_exact ex (drotp d p)) = dust_flux_exact (normal d) p.
Proof.
  unfold dust_flux_exact.
  replace (dotp (dp_vel (drotp d p)) ex) with (dotp (dp_vel p) (normal d)).
  2:{ cbn [drotp dp_vel]. rewrite <- rot_dot. unfold dotp, ex; cbn; ring. }
  destruct p as [r [a b c]]. destruct d; apply dcons_ext; cbn; ring.
Qed.

Definition dvx p := rx (dp_vel p).

Lemma exact_vx0 p : dvx p = 0 -> dust_flux_exact ex p = dzero.
Proof.
  unfold dvx; intros H. apply dcons_ext; cbn; unfold dotp, ex; cbn; rewrite H; ring.
Qed.

Lemma hb_prim pL pR : 0 < dp_rho pL -> 0 < dp_rho pR ->
  huang_bai_flux_x (d_prim_to_cons pL) (d_prim_to_cons pR) =
  let vL := dvx pL in let vR := dvx pR in
  let fL := dust_flux_exact ex pL in let fR := dust_flux_exact ex pR in
  if Rlt_dec 0 vL then
    if Rlt_dec 0 vR then fL else if Rlt_dec vR 0 then dadd fL fR else dzero
  else if Rlt_dec vL 0 then
    if Rlt_dec vR 0 then fR else if Rlt_dec 0 vR then dscal 0 dzero else dzero
  else dzero.
Proof.
  intros HL HR. unfold huang_bai_flux_x. rewrite !dc2p, !dhfx by assumption. reflexivity.
Qed.

Lemma dhll_prim pL pR : 0 < dp_rho pL -> 0 < dp_rho pR ->
  d_hll_flux_x (d_prim_to_cons pL) (d_prim_to_cons pR) =
  dscal (/ 2) (dsub (dadd (dust_flux_exact ex pL) (dust_flux_exact ex pR))
    (dscal (Rmax (Rabs (dvx pL)) (Rabs (dvx pR))) (dsub (d_prim_to_cons pR) (d_prim_to_cons pL)))).
Proof.
  intros HL HR. unfold d_hll_flux_x. rewrite !dc2p, !dhfx by assumption. reflexivity.
Qed.

Lemma dconsistency m d p : 0 < dp_rho p -> dustflux m d p p = dust_flux_exact (normal d) p.
Proof.
  intros H. rewrite dflux_rot, <- dunrot_exact. f_equal.
  assert (Hr : 0 < dp_rho (drotp d p)) by exact H. revert Hr. generalize (drotp d p). clear.
  intros p H. destruct m; cbn [d_solver_x].
  - rewrite hb_prim by assumption. cbv zeta.
    destruct (Rlt_dec 0 (dvx p)); [reflexivity|].
    destruct (Rlt_dec (dvx p) 0); [reflexivity|].
    symmetry. apply exact_vx0. lra.
  - rewrite dhll_prim by assumption. set (F := dust_flux_exact ex p).
    apply dcons_ext; cbn; lra.
Qed.

Lemma dexact_inv p : dust_flux_exact ex (dinvp p) = dneg (dinvc (dust_flux_exact ex p)).
Proof. apply dcons_ext; cbn; unfold dotp, ex; cbn; ring. Qed.
Lemma dcons_inv p : d_prim_to_cons (dinvp p) = dinvc (d_prim_to_cons p).
Proof. apply dcons_ext; cbn; ring. Qed.

Lemma danti_x m pL pR : 0 < dp_rho pL -> 0 < dp_rho pR ->
  d_solver_x m (d_prim_to_cons (dinvp pR)) (d_prim_to_cons (dinvp pL)) =
  dneg (dinvc (d_solver_x m (d_prim_to_cons pL) (d_prim_to_cons pR))).
Proof.
  intros HL HR. destruct m; cbn [d_solver_x].
  - rewrite !hb_prim by assumption. cbv zeta. rewrite !dexact_inv.
    change (dvx (dinvp pL)) with (- dvx pL). change (dvx (dinvp pR)) with (- dvx pR).
    set (vL := dvx pL). set (vR := dvx pR).
    set (fL := dust_flux_exact ex pL). set (fR := dust_flux_exact ex pR).
    destruct (Rlt_dec 0 (- vR)), (Rlt_dec 0 vL), (Rlt_dec (- vR) 0), (Rlt_dec vL 0),
      (Rlt_dec 0 vR), (Rlt_dec vR 0), (Rlt_dec 0 (- vL)), (Rlt_dec (- vL) 0);
      try (exfalso; lra); try reflexivity; apply dcons_ext; cbn; ring.
  - rewrite !dhll_prim by assumption.
    change (dvx (dinvp pL)) with (- dvx pL). change (dvx (dinvp pR)) with (- dvx pR).
    rewrite !Rabs_Ropp, !dexact_inv, !dcons_inv.
    rewrite (Rmax_comm (Rabs (dvx pR))).
    set (S := Rmax _ _). set (fL := dust_flux_exact ex pL). set (fR := dust_flux_exact ex pR).
    set (UL := d_prim_to_cons pL). set (UR := d_prim_to_cons pR).
    apply dcons_ext; cbn; ring.
Qed.

Lemma drot_opp d p : drotp (opposite d) p = dinvp (drotp d p).
Proof. destruct d; apply dprim_ext; cbn; ring. Qed.
Lemma dunrot_opp d c : dunrotc (opposite d) (dneg (dinvc c)) = dneg (dunrotc d c).
Proof. destruct d; apply dcons_ext; cbn; ring. Qed.

Lemma dflux_anti m d pL pR : 0 < dp_rho pL -> 0 < dp_rho pR ->
  dustflux m (opposite d) pR pL = dneg (dustflux m d pL pR).
Proof.
  intros HL HR. rewrite !dflux_rot, !drot_opp, <- dunrot_opp. f_equal.
  apply danti_x; assumption.
Qed.

Lemma dpositivity m d pL pR lam : 0 < dp_rho pL -> 0 < dp_rho pR ->
  Rabs (dotp (dp_vel pL) (normal d)) <= lam -> Rabs (dotp (dp_vel pR) (normal d)) <= lam ->
  0 <= lam * dp_rho pL - (d_rho (dustflux m d pL pR) - d_rho (dust_flux_exact (normal d) pL)).
Proof.
  intros HL HR H1 H2. rewrite dflux_rot. cbn [dunrotc d_rho dust_flux_exact].
  rewrite <- !rot_dot in *.
  change (rx (rotv d (dp_vel pL))) with (dvx (drotp d pL)) in *.
  change (rx (rotv d (dp_vel pR))) with (dvx (drotp d pR)) in *.
  change (dp_rho pL) with (dp_rho (drotp d pL)) in *.
  change (dp_rho pR) with (dp_rho (drotp d pR)) in *.
  revert H1 H2 HL HR. generalize (drotp d pL) (drotp d pR). clear. intros pL pR H1 H2 HL HR.
  pose proof (Rle_abs (dvx pL)) as A1. pose proof (Rle_abs (dvx pR)) as A2.
  pose proof (Rle_abs (- dvx pL)) as A3. pose proof (Rle_abs (- dvx pR)) as A4.
  rewrite Rabs_Ropp in A3, A4.
  assert (E : forall p, d_rho (dust_flux_exact ex p) = dp_rho p * dvx p)
    by (intros; cbn; unfold dotp, ex, dvx; cbn; ring).
  destruct m; cbn [d_solver_x].
  - rewrite hb_prim by assumption. cbv zeta.
    destruct (Rlt_dec 0 (dvx pL)), (Rlt_dec 0 (dvx pR)), (Rlt_dec (dvx pL) 0), (Rlt_dec (dvx pR) 0);
      cbn [dadd dscal d_rho dzero]; rewrite ?E; try (exfalso; lra);
      assert (0 <= (lam - dvx pL) * dp_rho pL) by (apply Rmult_le_pos; lra);
      assert (0 <= (lam + dvx pL) * dp_rho pL) by (apply Rmult_le_pos; lra);
      try assert (0 <= - dvx pR * dp_rho pR) by (apply Rmult_le_pos; lra); lra.
  - rewrite dhll_prim by assumption. cbn [dscal dsub dadd d_rho d_prim_to_cons]. rewrite !E.
    set (S := Rmax _ _).
    assert (S1 : Rabs (dvx pL) <= S) by apply Rmax_l.
    assert (S2 : Rabs (dvx pR) <= S) by apply Rmax_r.
    assert (S3 : S <= lam) by (apply Rmax_lub; assumption).
    assert (0 <= (lam - S) * dp_rho pL) by (apply Rmult_le_pos; lra).
    assert (0 <= (S + dvx pL) * dp_rho pL) by (apply Rmult_le_pos; lra).
    assert (0 <= (S - dvx pR) * dp_rho pR) by (apply Rmult_le_pos; lra).
    lra.
Qed.

(* ---- limiters ---- *)

Lemma prod_sign f g : 0 < f * g <-> same_sign f g.
Proof.
  unfold same_sign. split.
  - intros H. destruct (total_order_T f 0) as [[Hf|Hf]|Hf].
    + right. split; [assumption|]. destruct (Rlt_dec g 0); [assumption|exfalso; nra].
    + subst f. exfalso; lra.
    + left. split; [assumption|]. destruct (Rlt_dec 0 g); [assumption|exfalso; nra].
  - intros [[]|[]]; nra.
Qed.

Lemma vl_same f g : same_sign f g -> van_leer_slope f g = 2 / (/ f + / g).
Proof.
  intros H. unfold van_leer_slope. destruct (Rlt_dec 0 (f * g)) as [_|n].
  - destruct H as [[]|[]]; field; repeat split; lra.
  - exfalso. apply n, prod_sign, H.
Qed.
Lemma vl_diff f g : ~ same_sign f g -> van_leer_slope f g = 0.
Proof.
  intros H. unfold van_leer_slope. destruct (Rlt_dec 0 (f * g)); [|reflexivity].
  exfalso. apply H, prod_sign. assumption.
Qed.
Lemma sign_pos x : 0 < x -> rsign x = 1.
Proof. intros; unfold rsign; destruct (Rlt_dec 0 x); lra. Qed.
Lemma sign_neg x : x < 0 -> rsign x = -1.
Proof. intros; unfold rsign; destruct (Rlt_dec 0 x); [lra|destruct (Rlt_dec x 0); lra]. Qed.

Lemma vl_symetric f g : van_leer_slope_symetric f g = van_leer_slope f g.
Proof.
  unfold van_leer_slope_symetric, van_leer_slope.
  destruct (total_order_T f 0) as [[Hf|Hf]|Hf]; destruct (total_order_T g 0) as [[Hg|Hg]|Hg];
    try subst f; try subst g; rewrite ?Rabs_R0, ?(Rabs_left f), ?(Rabs_left g), ?(Rabs_right f), ?(Rabs_right g) by lra;
    rewrite ?(sign_neg f), ?(sign_neg g), ?(sign_pos f), ?(sign_pos g) by lra;
    repeat (match goal with |- context [Rlt_dec ?a ?b] => destruct (Rlt_dec a b) end);
    try (exfalso; nra); try reflexivity; try (field; lra); try nra.
Qed.

Lemma vl_bound f g : same_sign f g ->
  Rabs (van_leer_slope f g) <= 2 * Rmin (Rabs f) (Rabs g) /\
  Rmin (Rabs f) (Rabs g) <= Rabs (van_leer_slope f g) <= Rmax (Rabs f) (Rabs g).
Proof.
  assert (K : forall f g, 0 < f -> 0 < g ->
    Rabs (2 / (/ f + / g)) <= 2 * Rmin f g /\
    Rmin f g <= Rabs (2 / (/ f + / g)) <= Rmax f g).
  { clear. intros f g Hf Hg.
    replace (2 / (/ f + / g)) with (2 * f * g / (f + g)) by (field; lra).
    assert (P : 0 < 2 * f * g / (f + g)) by (apply Rdiv_lt_0_compat; nra).
    rewrite Rabs_right by lra.
    assert (C : forall x y, 0 < y -> 2 * f * g <= x * y -> 2 * f * g / y <= x).
    { intros x y Hy H. apply (Rmult_le_reg_r y); [assumption|].
      unfold Rdiv. rewrite Rmult_assoc, Rinv_l by lra. lra. }
    assert (C2 : forall x y, 0 < y -> x * y <= 2 * f * g -> x <= 2 * f * g / y).
    { intros x y Hy H. apply (Rmult_le_reg_r y); [assumption|].
      unfold Rdiv. rewrite Rmult_assoc, Rinv_l by lra. lra. }
    unfold Rmin, Rmax. destruct (Rle_dec f g).
    - split; [apply C; nra|]. split; [apply C2; nra|apply C; nra].
    - split; [apply C; nra|]. split; [apply C2; nra|apply C; nra]. }
  intros H. rewrite vl_same by assumption. destruct H as [[Hf Hg]|[Hf Hg]].
  - rewrite (Rabs_right f), (Rabs_right g) by lra. apply K; assumption.
  - rewrite (Rabs_left f), (Rabs_left g) by lra.
    rewrite <- Rabs_Ropp. replace (- (2 / (/ f + / g))) with (2 / (/ - f + / - g)) by (field; lra).
    apply K; lra.
Qed.

Lemma minmod_same f g : same_sign f g -> minmod f g = if Rle_dec (Rabs f) (Rabs g) then f else g.
Proof.
  intros H. unfold minmod.
  assert (Hf : f <> 0) by (destruct H as [[]|[]]; lra).
  assert (Hr : g / f * f = g) by (field; assumption).
  assert (Pr : 0 < g / f).
  { destruct H as [[]|[]]; [apply Rdiv_lt_0_compat; assumption|].
    replace (g / f) with (- g / - f) by (field; lra). apply Rdiv_lt_0_compat; lra. }
  set (r := g / f) in *.
  destruct (Rlt_dec 0 r); [|lra].
  destruct H as [[]|[]].
  - rewrite (Rabs_right f), (Rabs_right g) by lra.
    destruct (Rlt_dec r 1), (Rle_dec f g); try nra.
  - rewrite (Rabs_left f), (Rabs_left g) by lra.
    destruct (Rlt_dec r 1), (Rle_dec (- f) (- g)); try nra.
Qed.
Lemma minmod_diff f g : ~ same_sign f g -> minmod f g = 0.
Proof.
  intros H. unfold minmod. destruct (Req_dec f 0) as [->|Hf]; [ring|].
  destruct (Rlt_dec 0 (g / f)); [|ring].
  exfalso. apply H, prod_sign. replace (f * g) with (g / f * (f * f)) by (field; assumption).
  apply Rmult_lt_0_compat; [assumption|]. nra.
Qed.
