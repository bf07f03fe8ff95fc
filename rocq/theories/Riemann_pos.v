(* Upwinding, positivity, the HLLC counterexample, dust, limiters. *)
From Coq Require Import Reals Lra Psatz.
From Verif Require Import Riemann Riemann_spec Riemann_proofs.
Local Open Scope R_scope.

(* ---- upwind ---- *)
Lemma hll_upwind d g pL pR : 1 < g -> physical pL -> physical pR ->
  cs g pL <= dotp (p_vel pL) (normal d) -> cs g pR <= dotp (p_vel pR) (normal d) ->
  flux HLL d pL pR g = euler_flux g (normal d) pL.
Proof.
  intros Hg HL HR H1 H2. rewrite flux_rot. cbn [solver_x]. rewrite hll_prim by assumption.
  destruct (Rle_dec 0 (hSL g (rotp d pL) (rotp d pR))) as [_|n]; [apply unrot_euler|].
  exfalso. apply n. unfold hSL, vx. cbn [rotp p_vel]. rewrite !rot_dot, !cs_rot.
  apply Rmin_glb; lra.
Qed.

Lemma hllc_upwind d g pL pR : 1 < g -> physical pL -> physical pR ->
  cs g pL <= dotp (p_vel pL) (normal d) ->
  p_press pR <= p_press pL -> dotp (p_vel pL) (normal d) <= dotp (p_vel pR) (normal d) ->
  flux HLLC d pL pR g = euler_flux g (normal d) pL.
Proof.
  intros Hg HL HR H1 Hp Hv. rewrite flux_rot. cbn [solver_x]. rewrite hllc_prim by assumption.
  cbv zeta. unfold hllc_speeds.
  change (sound_speed (rotp d pL) g) with (cs g pL).
  change (sound_speed (rotp d pR) g) with (cs g pR).
  cbn [rotp p_rho p_press p_vel]. rewrite !rot_dot.
  set (ps := Rmax 0 _).
  assert (Hps : ps <= p_press pL).
  { unfold ps. apply Rmax_lub; [destruct HL; lra|].
    pose proof (cs_pos g pL Hg HL). pose proof (cs_pos g pR Hg HR).
    destruct HL, HR.
    assert (0 <= (dotp (p_vel pR) (normal d) - dotp (p_vel pL) (normal d)) * (p_rho pL + p_rho pR) * (cs g pL + cs g pR)).
    { apply Rmult_le_pos; [apply Rmult_le_pos|]; lra. }
    nra. }
  rewrite (hllc_q_one ps (p_press pL)) by assumption.
  match goal with |- context [Rle_dec 0 ?a] => destruct (Rle_dec 0 a) as [_|n]; [|exfalso; apply n; lra] end.
  apply unrot_euler.
Qed.

(* ---- the set of physical conserved states is a convex cone ---- *)
Lemma gas_add a b : gas_state a -> gas_state b -> gas_state (cadd a b).
Proof.
  destruct a as [ra ea [ax ay az]], b as [rb eb [bx by_ bz]].
  unfold gas_state, dotp; cbn. intros [Ha Hea] [Hb Heb]. split; [lra|].
  apply Rlt_le_trans with
    ((ea - (ax * ax + ay * ay + az * az) / (2 * ra)) + (eb - (bx * bx + by_ * by_ + bz * bz) / (2 * rb))); [lra|].
  assert (E : ea + eb - ((ax + bx) * (ax + bx) + (ay + by_) * (ay + by_) + (az + bz) * (az + bz)) / (2 * (ra + rb))
     - ((ea - (ax * ax + ay * ay + az * az) / (2 * ra)) + (eb - (bx * bx + by_ * by_ + bz * bz) / (2 * rb)))
     = ((ax * rb - bx * ra) * (ax * rb - bx * ra) + (ay * rb - by_ * ra) * (ay * rb - by_ * ra)
        + (az * rb - bz * ra) * (az * rb - bz * ra)) / (2 * ra * rb * (ra + rb))).
  { field. lra. }
  assert (0 <= ((ax * rb - bx * ra) * (ax * rb - bx * ra) + (ay * rb - by_ * ra) * (ay * rb - by_ * ra)
        + (az * rb - bz * ra) * (az * rb - bz * ra)) / (2 * ra * rb * (ra + rb))).
  { apply Rmult_le_pos.
    { pose proof (Rle_0_sqr (ax * rb - bx * ra)). pose proof (Rle_0_sqr (ay * rb - by_ * ra)).
      pose proof (Rle_0_sqr (az * rb - bz * ra)). unfold Rsqr in *. lra. }
    apply Rlt_le, Rinv_0_lt_compat.
    assert (0 < ra * rb) by (apply Rmult_lt_0_compat; assumption).
    apply Rmult_lt_0_compat; lra. }
  lra.
Qed.

Lemma gas_scal k a : 0 < k -> gas_state a -> gas_state (cscal k a).
Proof.
  destruct a as [ra ea [ax ay az]]. unfold gas_state, dotp; cbn. intros Hk [Ha Hea].
  split; [nra|].
  replace (k * ea - (k * ax * (k * ax) + k * ay * (k * ay) + k * az * (k * az)) / (2 * (k * ra)))
    with (k * (ea - (ax * ax + ay * ay + az * az) / (2 * ra))) by (field; lra).
  apply Rmult_lt_0_compat; assumption.
Qed.

Lemma cscal0 a b : cadd a (cscal 0 b) = a.
Proof. apply cons_ext; cbn; ring. Qed.

Lemma gas_add_scal k a b : 0 <= k -> gas_state a -> gas_state b -> gas_state (cadd a (cscal k b)).
Proof.
  intros [Hk|<-] Ha Hb.
  - apply gas_add; [assumption|apply gas_scal; assumption].
  - rewrite cscal0. assumption.
Qed.

Lemma gas_unrot d a : gas_state a -> gas_state (unrotc d a).
Proof. unfold gas_state; cbn. rewrite unrot_norm. exact (fun H => H). Qed.

Lemma gas_conserved g p : 1 < g -> physical p -> gas_state (conserved g p).
Proof.
  intros Hg [Hr Hp]. unfold gas_state; cbn. split; [assumption|].
  replace (energy g p - dotp (rvscal (p_rho p) (p_vel p)) (rvscal (p_rho p) (p_vel p)) / (2 * p_rho p))
    with (p_press p / (g - 1)).
  - apply Rdiv_lt_0_compat; lra.
  - unfold energy, dotp; cbn. field. lra.
Qed.

Lemma gas_right g p S : 1 < g -> physical p -> vx p + cs g p <= S ->
  gas_state (csub (cscal S (conserved g p)) (euler_flux g ex p)).
Proof.
  intros Hg Hp HS. destruct (cs_spec g p Hg Hp) as [Hc Hc2]. destruct Hp as [Hr Hp].
  set (s := S - vx p). assert (Hs : cs g p <= s) by (unfold s; lra).
  assert (Es : S = vx p + s) by (unfold s; lra). clearbody s. subst S.
  unfold gas_state; cbn. unfold dotp, ex; cbn. fold (vx p).
  replace ((vx p + s) * p_rho p - p_rho p * (vx p * 1 + ry (p_vel p) * 0 + rz (p_vel p) * 0))
    with (p_rho p * s) by ring.
  assert (Hs2 : g * p_press p <= p_rho p * (s * s)).
  { assert (cs g p * cs g p <= s * s) by nra. rewrite Hc2 in H.
    apply (Rmult_le_compat_l (p_rho p)) in H; [|lra].
    replace (p_rho p * (g * p_press p / p_rho p)) with (g * p_press p) in H by (field; lra).
    exact H. }
  split; [nra|].
  match goal with |- 0 < ?e => replace e with
    (p_press p / (2 * (g - 1) * (p_rho p * s)) * (2 * (p_rho p * (s * s)) - (g - 1) * p_press p)) end.
  - apply Rmult_lt_0_compat; [|nra].
    apply Rdiv_lt_0_compat; [assumption|]. apply Rmult_lt_0_compat; nra.
  - unfold energy, dotp. fold (vx p). field. repeat split; nra.
Qed.

Lemma gas_left g p S : 1 < g -> physical p -> S <= vx p - cs g p ->
  gas_state (csub (euler_flux g ex p) (cscal S (conserved g p))).
Proof.
  intros Hg Hp HS. destruct (cs_spec g p Hg Hp) as [Hc Hc2]. destruct Hp as [Hr Hp].
  set (s := vx p - S). assert (Hs : cs g p <= s) by (unfold s; lra).
  assert (Es : S = vx p - s) by (unfold s; lra). clearbody s. subst S.
  unfold gas_state; cbn. unfold dotp, ex; cbn. fold (vx p).
  replace (p_rho p * (vx p * 1 + ry (p_vel p) * 0 + rz (p_vel p) * 0) - (vx p - s) * p_rho p)
    with (p_rho p * s) by ring.
  assert (Hs2 : g * p_press p <= p_rho p * (s * s)).
  { assert (cs g p * cs g p <= s * s) by nra. rewrite Hc2 in H.
    apply (Rmult_le_compat_l (p_rho p)) in H; [|lra].
    replace (p_rho p * (g * p_press p / p_rho p)) with (g * p_press p) in H by (field; lra).
    exact H. }
  split; [nra|].
  match goal with |- 0 < ?e => replace e with
    (p_press p / (2 * (g - 1) * (p_rho p * s)) * (2 * (p_rho p * (s * s)) - (g - 1) * p_press p)) end.
  - apply Rmult_lt_0_compat; [|nra].
    apply Rdiv_lt_0_compat; [assumption|]. apply Rmult_lt_0_compat; nra.
  - unfold energy, dotp. fold (vx p). field. repeat split; nra.
Qed.

Lemma positivity_x m g pL pR lam : m <> HLLC -> 1 < g -> physical pL -> physical pR ->
  Rabs (vx pL) + cs g pL <= lam -> Rabs (vx pR) + cs g pR <= lam ->
  gas_state (csub (cscal lam (conserved g pL))
     (csub (solver_x m (conserved g pL) (conserved g pR) g) (euler_flux g ex pL))).
Proof.
  intros Hm Hg HL HR H1 H2.
  pose proof (cs_pos g pL Hg HL) as cL. pose proof (cs_pos g pR Hg HR) as cR.
  pose proof (Rle_abs (vx pL)) as A1. pose proof (Rle_abs (vx pR)) as A2.
  pose proof (Rle_abs (- vx pL)) as A3. pose proof (Rle_abs (- vx pR)) as A4.
  rewrite Rabs_Ropp in A3, A4.
  pose proof (gas_conserved g pL Hg HL) as GL. pose proof (gas_conserved g pR Hg HR) as GR.
  destruct m; [| |contradiction]; cbn [solver_x].
  - rewrite rus_prim by assumption. cbv zeta.
    set (S := Rmax _ _).
    assert (S1 : Rabs (vx pL) + cs g pL <= S) by apply Rmax_l.
    assert (S2 : Rabs (vx pR) + cs g pR <= S) by apply Rmax_r.
    assert (S3 : S <= lam) by (apply Rmax_lub; assumption).
    pose proof (gas_left g pL (- S) Hg HL ltac:(lra)) as K1.
    pose proof (gas_right g pR S Hg HR ltac:(lra)) as K2.
    clearbody S.
    set (UL := conserved g pL) in *. set (UR := conserved g pR) in *.
    set (FL := euler_flux g ex pL) in *. set (FR := euler_flux g ex pR) in *.
    pose proof (gas_add_scal (lam - S) _ UL ltac:(lra)
       (gas_scal (/ 2) _ ltac:(lra) (gas_add _ _ K1 K2)) GL) as K.
    match type of K with gas_state ?x => match goal with |- gas_state ?y => replace y with x; [exact K|] end end.
    apply cons_ext; cbn; lra.
  - rewrite hll_prim by assumption.
    pose proof (hS_lt g pL pR Hg HL HR) as Hlt.
    assert (S1 : hSL g pL pR <= vx pL - cs g pL) by apply Rmin_l.
    assert (S4 : vx pR + cs g pR <= hSR g pL pR) by apply Rmax_r.
    assert (S5 : - lam <= hSL g pL pR) by (apply Rmin_glb; lra).
    pose proof (gas_left g pL (hSL g pL pR) Hg HL S1) as K1.
    pose proof (gas_right g pR (hSR g pL pR) Hg HR S4) as K2.
    set (SL := hSL g pL pR) in *. set (SR := hSR g pL pR) in *. clearbody SL SR.
    set (UL := conserved g pL) in *. set (UR := conserved g pR) in *.
    set (FL := euler_flux g ex pL) in *. set (FR := euler_flux g ex pR) in *.
    pose proof (Rabs_pos (vx pL)).
    destruct (Rle_dec 0 SL); [|destruct (Rle_dec SR 0)].
    + pose proof (gas_scal lam _ ltac:(lra) GL) as K.
      match type of K with gas_state ?x => match goal with |- gas_state ?y => replace y with x; [exact K|] end end.
      apply cons_ext; cbn; ring.
    + pose proof (gas_add_scal (- SR) _ UR ltac:(lra)
         (gas_add_scal (lam + SL) _ UL ltac:(lra) (gas_add _ _ K1 K2) GL) GR) as K.
      match type of K with gas_state ?x => match goal with |- gas_state ?y => replace y with x; [exact K|] end end.
      apply cons_ext; cbn; ring.
    + assert (P : 0 < - SL / (SR - SL)) by (apply Rdiv_lt_0_compat; lra).
      pose proof (gas_add_scal (lam + SL) _ UL ltac:(lra)
         (gas_scal _ _ P (gas_add _ _ K1 K2)) GL) as K.
      match type of K with gas_state ?x => match goal with |- gas_state ?y => replace y with x; [exact K|] end end.
      apply cons_ext; cbn; field; lra.
Qed.

Lemma flux_positivity m d g pL pR lam : m <> HLLC -> 1 < g -> physical pL -> physical pR ->
  Rabs (dotp (p_vel pL) (normal d)) + cs g pL <= lam ->
  Rabs (dotp (p_vel pR) (normal d)) + cs g pR <= lam ->
  gas_state (csub (cscal lam (conserved g pL))
     (csub (flux m d pL pR g) (euler_flux g (normal d) pL))).
Proof.
  intros Hm Hg HL HR H1 H2. rewrite <- !rot_dot in *.
  pose proof (gas_unrot d _ (positivity_x m g (rotp d pL) (rotp d pR) lam Hm Hg HL HR H1 H2)) as K.
  rewrite flux_rot, <- (unrot_euler d g pL), <- (unrot_conserved d g pL).
  match type of K with gas_state ?x => match goal with |- gas_state ?y => replace y with x; [exact K|] end end.
  destruct d; apply cons_ext; cbn; ring.
Qed.

(* ---- HLLC: head-on collision ---- *)
Lemma hllc_collision d g rho P a v : 1 < g -> 0 < rho -> 0 < P -> 0 < v ->
  is_sound_speed g (mkprim rho P (mkrv 0 0 0)) a ->
  a * a + (g + 1) / 2 * (v * a) < v * v ->
  flux HLLC d (mkprim rho P (rvscal v (normal d))) (mkprim rho P (rvscal (- v) (normal d))) g =
  euler_flux g (normal d) (mkprim rho P (rvscal v (normal d))).
Proof.
  intros Hg Hr HP Hv [Ha Ha2] HM. cbn in Ha2.
  rewrite flux_rot. cbn [solver_x].
  set (pL := mkprim rho P (rvscal v (normal d))). set (pR := mkprim rho P (rvscal (- v) (normal d))).
  assert (HL : physical pL) by (split; assumption). assert (HR : physical pR) by (split; assumption).
  rewrite hllc_prim by assumption. cbv zeta. unfold hllc_speeds.
  assert (CL : sound_speed (rotp d pL) g = a).
  { apply (cs_uniq g pL). split; assumption. }
  assert (CR : sound_speed (rotp d pR) g = a).
  { apply (cs_uniq g pR). split; assumption. }
  rewrite CL, CR.
  assert (VL : rx (p_vel (rotp d pL)) = v).
  { cbn [rotp p_vel]. rewrite rot_dot. unfold pL; cbn [p_vel]. destruct d; unfold dotp; cbn; ring. }
  assert (VR : rx (p_vel (rotp d pR)) = - v).
  { cbn [rotp p_vel]. rewrite rot_dot. unfold pR; cbn [p_vel]. destruct d; unfold dotp; cbn; ring. }
  rewrite VL, VR.
  change (p_rho (rotp d pL)) with rho. change (p_rho (rotp d pR)) with rho.
  change (p_press (rotp d pL)) with P. change (p_press (rotp d pR)) with P.
  set (ps := Rmax 0 _).
  assert (Eps : ps = P + v * rho * a).
  { unfold ps. replace (/ 2 * (P + P) - / 2 * (- v - v) * (/ 2 * (rho + rho)) * (/ 2 * (a + a))) with (P + v * rho * a) by field.
    apply Rmax_right. assert (0 < v * rho) by nra. nra. }
  clearbody ps. subst ps.
  assert (Hvra : 0 < v * rho * a) by (apply Rmult_lt_0_compat; nra).
  assert (Hq : a * hllc_q (P + v * rho * a) P g < v).
  { unfold hllc_q. destruct (Rle_dec (P + v * rho * a) P); [lra|].
    assert (EP : P = rho * (a * a) / g) by (rewrite Ha2; field; lra).
    replace (/ 2 * (1 + g) / g * ((P + v * rho * a) / P - 1)) with ((g + 1) / 2 * (v / a)).
    2:{ rewrite EP. field. repeat split; lra. }
    rewrite <- (sqrt_square a) at 1 by lra. rewrite <- sqrt_mult_alt by nra.
    rewrite <- (sqrt_square v) by lra.
    apply sqrt_lt_1_alt. rewrite (sqrt_square v) by lra. split.
    - apply Rmult_le_pos; [nra|]. assert (0 < v / a) by (apply Rdiv_lt_0_compat; lra).
      assert (0 < (g + 1) / 2 * (v / a)) by (apply Rmult_lt_0_compat; lra). lra.
    - replace (a * a * (1 + (g + 1) / 2 * (v / a))) with (a * a + (g + 1) / 2 * (v * a)) by (field; lra).
      exact HM. }
  match goal with |- context [Rle_dec 0 ?z] => destruct (Rle_dec 0 z) as [_|n]; [|exfalso; apply n; lra] end.
  apply unrot_euler.
Qed.
