(* C53: the Riemann solvers and slope limiters of the Godunov model. *)
From Coq Require Import Reals Lra Psatz.
From Verif Require Import Riemann Riemann_spec Riemann_proofs Riemann_pos Riemann_dust Riemann_hllc.
Local Open Scope R_scope.

(* Consistency: between two equal states every solver returns, in each of the
   six directions, the exact Euler flux along that direction. *)
Theorem C53_consistency : forall m d gamma p, 1 < gamma -> physical p ->
  flux m d p p gamma = euler_flux gamma (normal d) p.
Proof. intros; apply flux_consistency; assumption. Qed.

(* Conservation: the flux computed from the other side of the face is exactly
   opposite (mass, energy, momentum), for every pair of physical states. *)
Theorem C53_conservation : forall m d gamma pL pR, m <> HLLC ->
  1 < gamma -> physical pL -> physical pR ->
  flux m (opposite d) pR pL gamma = cneg (flux m d pL pR gamma).
Proof. intros m d g pL pR Hm Hg HL HR. apply flux_anti; try assumption. contradiction. Qed.

(* HLLC has it when the jump across the face is mild: the pressures differ by
   less than gamma times the smaller one and the gas is not compressed faster
   than the smaller sound speed. *)
Theorem C53_conservation_hllc : forall d gamma pL pR aL aR,
  1 < gamma -> physical pL -> physical pR ->
  is_sound_speed gamma pL aL -> is_sound_speed gamma pR aR ->
  Rabs (p_press pR - p_press pL) < gamma * Rmin (p_press pL) (p_press pR) ->
  dotp (p_vel pL) (normal d) - dotp (p_vel pR) (normal d) <= Rmin aL aR ->
  flux HLLC (opposite d) pR pL gamma = cneg (flux HLLC d pL pR gamma).
Proof.
  intros d g pL pR aL aR Hg HL HR HaL HaR Hp Hv. apply flux_anti; try assumption. intros _.
  apply ordered_mild; try assumption.
  rewrite !cs_rot, (cs_uniq _ _ _ HaL), (cs_uniq _ _ _ HaR).
  unfold vx. cbn [rotp p_vel]. rewrite !rot_dot. exact Hv.
Qed.

(* Without the second condition it is false.  Two streams of the same gas
   meeting head-on at speed v each, v^2 > a^2 + (gamma+1)/2 v a (Mach 1.87 for
   gamma = 5/3): each side computes that mass rho v leaves it through the
   common face, instead of opposite amounts. *)
Theorem C53_conservation_hllc_refuted : forall d gamma rho P a v,
  1 < gamma -> 0 < rho -> 0 < P -> 0 < v ->
  is_sound_speed gamma (mkprim rho P (mkrv 0 0 0)) a ->
  a * a + (gamma + 1) / 2 * (v * a) < v * v ->
  let pL := mkprim rho P (rvscal v (normal d)) in
  let pR := mkprim rho P (rvscal (- v) (normal d)) in
  c_rho (flux HLLC d pL pR gamma) = rho * v /\
  c_rho (flux HLLC (opposite d) pR pL gamma) = rho * v /\
  flux HLLC (opposite d) pR pL gamma <> cneg (flux HLLC d pL pR gamma).
Proof.
  intros d g rho P a v Hg Hr HP Hv Ha HM pL pR.
  assert (E1 : c_rho (flux HLLC d pL pR g) = rho * v).
  { unfold pL, pR. rewrite (hllc_collision d g rho P a v) by assumption.
    destruct d; cbn; unfold dotp; cbn; ring. }
  assert (E2 : c_rho (flux HLLC (opposite d) pR pL g) = rho * v).
  { assert (A : pR = mkprim rho P (rvscal v (normal (opposite d)))).
    { unfold pR. f_equal. destruct d; apply rv_ext; cbn; ring. }
    assert (B : pL = mkprim rho P (rvscal (- v) (normal (opposite d)))).
    { unfold pL. f_equal. destruct d; apply rv_ext; cbn; ring. }
    rewrite A, B. rewrite (hllc_collision (opposite d) g rho P a v) by assumption.
    destruct d; cbn; unfold dotp; cbn; ring. }
  split; [exact E1|]. split; [exact E2|].
  intros H. apply (f_equal c_rho) in H. cbn [cneg c_rho] in H. rewrite E1, E2 in H. nra.
Qed.

(* Supersonic flow: the flux is that of the upstream state. *)
Theorem C53_upwind_hll : forall d gamma pL pR aL aR,
  1 < gamma -> physical pL -> physical pR ->
  is_sound_speed gamma pL aL -> is_sound_speed gamma pR aR ->
  aL <= dotp (p_vel pL) (normal d) -> aR <= dotp (p_vel pR) (normal d) ->
  flux HLL d pL pR gamma = euler_flux gamma (normal d) pL.
Proof.
  intros d g pL pR aL aR Hg HL HR HaL HaR H1 H2. apply hll_upwind; try assumption.
  - rewrite (cs_uniq _ _ _ HaL). assumption.
  - rewrite (cs_uniq _ _ _ HaR). assumption.
Qed.

Theorem C53_upwind_hllc : forall d gamma pL pR aL,
  1 < gamma -> physical pL -> physical pR -> is_sound_speed gamma pL aL ->
  aL <= dotp (p_vel pL) (normal d) ->
  p_press pR <= p_press pL -> dotp (p_vel pL) (normal d) <= dotp (p_vel pR) (normal d) ->
  flux HLLC d pL pR gamma = euler_flux gamma (normal d) pL.
Proof.
  intros d g pL pR aL Hg HL HR HaL H1 H2 H3. apply hllc_upwind; try assumption.
  rewrite (cs_uniq _ _ _ HaL). assumption.
Qed.

(* HLLC resolves an isolated contact or shear wave exactly: whatever the
   densities and tangential velocities, the flux is the upwind Euler flux; for
   a contact at rest that is the bare pressure. *)
Theorem C53_contact : forall d gamma pL pR,
  1 < gamma -> physical pL -> physical pR ->
  p_press pL = p_press pR -> dotp (p_vel pL) (normal d) = dotp (p_vel pR) (normal d) ->
  (0 <= dotp (p_vel pL) (normal d) -> flux HLLC d pL pR gamma = euler_flux gamma (normal d) pL) /\
  (dotp (p_vel pL) (normal d) <= 0 -> flux HLLC d pL pR gamma = euler_flux gamma (normal d) pR) /\
  (dotp (p_vel pL) (normal d) = 0 ->
     flux HLLC d pL pR gamma = mkcons 0 0 (rvscal (p_press pL) (normal d))).
Proof.
  intros d g pL pR Hg HL HR Hp Hv. rewrite flux_contact by assumption.
  assert (Z : dotp (p_vel pL) (normal d) = 0 -> forall p, p_press p = p_press pL ->
     dotp (p_vel p) (normal d) = 0 -> euler_flux g (normal d) p = mkcons 0 0 (rvscal (p_press pL) (normal d))).
  { intros _ p H1 H2. unfold euler_flux. rewrite H1, H2. apply cons_ext; cbn; ring. }
  destruct (Rle_dec 0 (dotp (p_vel pL) (normal d))) as [H|H].
  - split; [reflexivity|]. split.
    + intros H0. assert (E : dotp (p_vel pL) (normal d) = 0) by lra.
      rewrite (Z E pL), (Z E pR); auto; lra.
    + intros E. apply Z; auto.
  - split; [intros; lra|]. split; [reflexivity|intros; lra].
Qed.

(* Positivity: with Rusanov or HLL, the part of a cell's content attached to
   one face stays a state of positive density and positive pressure, for every
   speed lam bounding the signal speeds of both sides.  (Summed over the faces
   this is positivity of the first-order update under the CFL condition.) *)
Theorem C53_positivity : forall m d gamma pL pR aL aR lam, m <> HLLC ->
  1 < gamma -> physical pL -> physical pR ->
  is_sound_speed gamma pL aL -> is_sound_speed gamma pR aR ->
  Rabs (dotp (p_vel pL) (normal d)) + aL <= lam ->
  Rabs (dotp (p_vel pR) (normal d)) + aR <= lam ->
  gas_state (csub (cscal lam (conserved gamma pL))
                  (csub (flux m d pL pR gamma) (euler_flux gamma (normal d) pL))).
Proof.
  intros m d g pL pR aL aR lam Hm Hg HL HR HaL HaR H1 H2. apply flux_positivity; try assumption.
  - rewrite (cs_uniq _ _ _ HaL). assumption.
  - rewrite (cs_uniq _ _ _ HaR). assumption.
Qed.

(* HLLC in full: the signal speeds are Toro's, and whenever the contact lies
   between them (which mild jumps guarantee) the returned flux is that of the
   three-wave solution at the interface, whose intermediate states have
   positive density and pressure; the flux is then conservative and keeps the
   upstream cell's share positive. *)
Theorem C53_hllc_waves : forall d gamma pL pR aL aR,
  1 < gamma -> physical pL -> physical pR ->
  is_sound_speed gamma pL aL -> is_sound_speed gamma pR aR ->
  let n := normal d in
  let ps := Rmax 0 (acoustic_pressure n pL pR aL aR) in
  exists SL Ss SR P qL qR UL UR,
    wave_factor gamma ps (p_press pL) qL /\ SL = dotp (p_vel pL) n - aL * qL /\
    wave_factor gamma ps (p_press pR) qR /\ SR = dotp (p_vel pR) n + aR * qR /\
    (SL < Ss < SR ->
       three_waves gamma n pL pR SL Ss SR P UL UR /\ gas_state UL /\ gas_state UR /\
       (0 <= SL -> flux HLLC d pL pR gamma = euler_flux gamma n pL) /\
       (SL < 0 <= Ss -> flux HLLC d pL pR gamma = cadd (cscal Ss UL) (cscal P (mkcons 0 Ss n))) /\
       (Ss < 0 <= SR -> flux HLLC d pL pR gamma = cadd (cscal Ss UR) (cscal P (mkcons 0 Ss n))) /\
       (SR < 0 -> flux HLLC d pL pR gamma = euler_flux gamma n pR) /\
       flux HLLC (opposite d) pR pL gamma = cneg (flux HLLC d pL pR gamma) /\
       forall lam, - SL <= lam -> 0 < lam ->
         gas_state (csub (cscal lam (conserved gamma pL))
                  (csub (flux HLLC d pL pR gamma) (euler_flux gamma n pL)))) /\
    (Rabs (p_press pR - p_press pL) < gamma * Rmin (p_press pL) (p_press pR) ->
     dotp (p_vel pL) n - dotp (p_vel pR) n <= Rmin aL aR -> SL < Ss < SR).
Proof.
  intros d g pL pR aL aR Hg HL HR HaL HaR n ps.
  destruct (hllc_structure d g pL pR Hg HL HR) as
    (SL & Ss & SR & P & qL & qR & UL & UR & E1 & E2 & W1 & W2 & H & M).
  rewrite (cs_uniq _ _ _ HaL), (cs_uniq _ _ _ HaR) in *.
  exists SL, Ss, SR, P, qL, qR, UL, UR.
  split; [exact W1|]. split; [exact E1|]. split; [exact W2|]. split; [exact E2|].
  split; [|exact M]. intros HO. destruct (H HO) as (T & GL & GR & F & A & Pos).
  split; [exact T|]. split; [exact GL|]. split; [exact GR|].
  unfold selected, starF in F.
  split; [|split; [|split; [|split; [|split; [exact A|exact Pos]]]]]; intros K; rewrite F;
    repeat (match goal with |- context [Rle_dec ?a ?b] => destruct (Rle_dec a b) end);
    try reflexivity; exfalso; lra.
Qed.

(* prim_to_cons and cons_to_prim are inverse of one another and give the
   conserved variables of an ideal gas *)
Theorem C53_prim_cons : forall gamma p, 1 < gamma -> physical p ->
  prim_to_cons p gamma = conserved gamma p /\
  cons_to_prim (prim_to_cons p gamma) gamma = p.
Proof.
  intros g p Hg Hp. rewrite ptc_conserved. split; [reflexivity|].
  apply c2p_conserved; assumption.
Qed.
Theorem C53_cons_prim : forall gamma c, 1 < gamma -> gas_state c ->
  physical (cons_to_prim c gamma) /\ prim_to_cons (cons_to_prim c gamma) gamma = c.
Proof.
  intros g c Hg [Hr He]. destruct c as [r e [mx my mz]]. unfold dotp in He; cbn in *.
  split.
  - split; cbn; [assumption|]. apply Rmult_lt_0_compat; [lra|].
    unfold rhoekin; cbn.
    replace (/ 2 * r * (mx / r * (mx / r) + my / r * (my / r) + mz / r * (mz / r)))
      with ((mx * mx + my * my + mz * mz) / (2 * r)) by (field; lra). lra.
  - apply cons_ext; cbn; unfold rhoekin; cbn; field; lra.
Qed.

(* Dust: both solvers are consistent and conservative, and mass-positive. *)
Theorem C53_dust : forall m d pL pR, 0 < dp_rho pL -> 0 < dp_rho pR ->
  dustflux m d pL pL = dust_flux_exact (normal d) pL /\
  dustflux m (opposite d) pR pL = dneg (dustflux m d pL pR) /\
  (forall lam, Rabs (dotp (dp_vel pL) (normal d)) <= lam ->
     Rabs (dotp (dp_vel pR) (normal d)) <= lam ->
     0 <= lam * dp_rho pL - (d_rho (dustflux m d pL pR) - d_rho (dust_flux_exact (normal d) pL))).
Proof.
  intros m d pL pR HL HR. split; [apply dconsistency; assumption|].
  split; [apply dflux_anti; assumption|]. intros; apply dpositivity; assumption.
Qed.

(* Huang-Bai is the upwind flux when both sides move the same way, but gives no
   flux at all as soon as one side is exactly at rest. *)
Theorem C53_dust_hb : forall d pL pR, 0 < dp_rho pL -> 0 < dp_rho pR ->
  (0 < dotp (dp_vel pL) (normal d) -> 0 < dotp (dp_vel pR) (normal d) ->
     dustflux HB d pL pR = dust_flux_exact (normal d) pL) /\
  (dotp (dp_vel pL) (normal d) <= 0 -> 0 <= dotp (dp_vel pR) (normal d) ->
     d_rho (dustflux HB d pL pR) = 0) /\
  (dotp (dp_vel pR) (normal d) = 0 -> d_rho (dustflux HB d pL pR) = 0).
Proof.
  intros d pL pR HL HR. rewrite dflux_rot. cbn [d_solver_x].
  rewrite hb_prim by assumption. cbv zeta. unfold dvx. cbn [drotp dp_vel]. rewrite !rot_dot.
  set (a := dotp (dp_vel pL) (normal d)). set (b := dotp (dp_vel pR) (normal d)).
  split; [|split].
  - intros H1 H2. destruct (Rlt_dec 0 a); [|lra]. destruct (Rlt_dec 0 b); [|lra]. apply dunrot_exact.
  - intros H1 H2. destruct (Rlt_dec 0 a); [lra|]. destruct (Rlt_dec a 0); [|reflexivity].
    destruct (Rlt_dec b 0); [lra|]. destruct (Rlt_dec 0 b); cbn; lra.
  - intros H1. destruct (Rlt_dec 0 a).
    + destruct (Rlt_dec 0 b); [lra|]. destruct (Rlt_dec b 0); [lra|reflexivity].
    + destruct (Rlt_dec a 0); [|reflexivity].
      destruct (Rlt_dec b 0); [lra|]. destruct (Rlt_dec 0 b); [lra|reflexivity].
Qed.

(* Slope limiters: zero unless the two slopes agree in sign; otherwise van Leer
   is their harmonic mean (both spellings agree) - between them and at most
   twice the smaller - and minmod the smaller one. *)
Theorem C53_limiters : forall f g,
  (~ same_sign f g -> van_leer_slope f g = 0 /\ minmod f g = 0) /\
  (same_sign f g ->
     van_leer_slope f g = 2 / (/ f + / g) /\
     Rmin (Rabs f) (Rabs g) <= Rabs (van_leer_slope f g) <= Rmax (Rabs f) (Rabs g) /\
     Rabs (van_leer_slope f g) <= 2 * Rmin (Rabs f) (Rabs g) /\
     minmod f g = (if Rle_dec (Rabs f) (Rabs g) then f else g)) /\
  van_leer_slope_symetric f g = van_leer_slope f g /\
  van_leer_slope f g = van_leer_slope g f.
Proof.
  intros f g. split; [|split; [|split]].
  - intros H. split; [apply vl_diff|apply minmod_diff]; assumption.
  - intros H. destruct (vl_bound f g H) as [H1 H2].
    split; [apply vl_same; assumption|]. split; [assumption|]. split; [assumption|].
    apply minmod_same; assumption.
  - apply vl_symetric.
  - unfold van_leer_slope. rewrite (Rmult_comm g f), (Rplus_comm g f). reflexivity.
Qed.

(* Concrete cases. *)
Definition sod_L := mkprim 1 1 (mkrv 0 0 0).
Definition sod_R := mkprim (/ 8) (/ 10) (mkrv 0 0 0).

Example C53_nonvacuous_sod :
  physical sod_L /\ physical sod_R /\ sod_L <> sod_R /\
  flux HLL zm sod_R sod_L (7 / 5) = cneg (flux HLL zp sod_L sod_R (7 / 5)).
Proof.
  assert (HL : physical sod_L) by (split; cbn; lra).
  assert (HR : physical sod_R) by (split; cbn; lra).
  split; [exact HL|]. split; [exact HR|]. split.
  - intros H. apply (f_equal p_rho) in H. cbn in H. lra.
  - apply (C53_conservation HLL zp); try assumption; [discriminate|lra].
Qed.

(* Mach 2 collision in a monatomic gas: rho = 1, P = 3/5 (sound speed 1) *)
Example C53_nonvacuous_collision :
  is_sound_speed (5 / 3) (mkprim 1 (3 / 5) (mkrv 0 0 0)) 1 /\
  1 * 1 + (5 / 3 + 1) / 2 * (2 * 1) < 2 * 2 /\
  c_rho (flux HLLC xp (mkprim 1 (3 / 5) (mkrv 2 0 0)) (mkprim 1 (3 / 5) (mkrv (-2) 0 0)) (5 / 3)) = 2 /\
  c_rho (flux HLLC xm (mkprim 1 (3 / 5) (mkrv (-2) 0 0)) (mkprim 1 (3 / 5) (mkrv 2 0 0)) (5 / 3)) = 2.
Proof.
  assert (Ha : is_sound_speed (5 / 3) (mkprim 1 (3 / 5) (mkrv 0 0 0)) 1) by (split; cbn; lra).
  assert (HM : 1 * 1 + (5 / 3 + 1) / 2 * (2 * 1) < 2 * 2) by lra.
  split; [exact Ha|]. split; [exact HM|].
  destruct (C53_conservation_hllc_refuted xp (5 / 3) 1 (3 / 5) 1 2
     ltac:(lra) ltac:(lra) ltac:(lra) ltac:(lra) Ha HM) as (E1 & E2 & _).
  assert (A : rvscal 2 (normal xp) = mkrv 2 0 0) by (apply rv_ext; cbn; ring).
  assert (B : rvscal (- (2)) (normal xp) = mkrv (-2) 0 0) by (apply rv_ext; cbn; ring).
  cbv zeta in E1, E2. rewrite A, B in E1, E2. cbn [opposite] in E2. split; lra.
Qed.

(* a mild face for HLLC *)
Example C53_nonvacuous_mild :
  let pL := mkprim 1 (3 / 5) (mkrv (1 / 4) 1 0) in
  let pR := mkprim 1 (3 / 5) (mkrv (- (1 / 4)) 0 3) in
  flux HLLC xm pR pL (5 / 3) = cneg (flux HLLC xp pL pR (5 / 3)).
Proof.
  intros pL pR.
  apply (C53_conservation_hllc xp (5 / 3) pL pR 1 1); try (split; cbn; lra); try lra.
  - cbn [pL pR p_press]. rewrite Rminus_diag_eq, Rabs_R0, Rmin_left by lra. lra.
  - unfold dotp; cbn. rewrite Rmin_left by lra. lra.
Qed.

(* a positivity face *)
Example C53_nonvacuous_positivity :
  let pL := mkprim 1 (3 / 5) (mkrv 1 0 0) in
  let pR := mkprim 1 (3 / 5) (mkrv (-1) 0 0) in
  gas_state (csub (cscal 2 (conserved (5 / 3) pL))
                  (csub (flux HLL xp pL pR (5 / 3)) (euler_flux (5 / 3) (normal xp) pL))).
Proof.
  intros pL pR. apply (C53_positivity HLL xp (5 / 3) pL pR 1 1 2); try (split; cbn; lra); try lra.
  - discriminate.
  - unfold dotp; cbn. rewrite Rabs_right; lra.
  - unfold dotp; cbn. rewrite Rabs_left; lra.
Qed.

Print Assumptions C53_consistency.
Print Assumptions C53_conservation.
Print Assumptions C53_conservation_hllc.
Print Assumptions C53_conservation_hllc_refuted.
Print Assumptions C53_upwind_hll.
Print Assumptions C53_upwind_hllc.
Print Assumptions C53_contact.
Print Assumptions C53_positivity.
Print Assumptions C53_hllc_waves.
Print Assumptions C53_prim_cons.
Print Assumptions C53_cons_prim.
Print Assumptions C53_dust.
Print Assumptions C53_dust_hb.
Print Assumptions C53_limiters.
