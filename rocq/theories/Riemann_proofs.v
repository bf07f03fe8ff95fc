(* Proofs about the Riemann solvers. *)
From Coq Require Import Reals Lra Psatz.
From Verif Require Import Riemann Riemann_spec.
Local Open Scope R_scope.

Lemma rv_ext a b : rx a = rx b -> ry a = ry b -> rz a = rz b -> a = b.
Proof. destruct a, b; cbn; intros; subst; reflexivity. Qed.
Lemma cons_ext a b : c_rho a = c_rho b -> c_rhoe a = c_rhoe b ->
  rx (c_rhov a) = rx (c_rhov b) -> ry (c_rhov a) = ry (c_rhov b) ->
  rz (c_rhov a) = rz (c_rhov b) -> a = b.
Proof.
  destruct a as [? ? []], b as [? ? []]; cbn; intros; subst; reflexivity.
Qed.
Lemma prim_ext a b : p_rho a = p_rho b -> p_press a = p_press b ->
  rx (p_vel a) = rx (p_vel b) -> ry (p_vel a) = ry (p_vel b) ->
  rz (p_vel a) = rz (p_vel b) -> a = b.
Proof.
  destruct a as [? ? []], b as [? ? []]; cbn; intros; subst; reflexivity.
Qed.
Lemma dcons_ext a b : d_rho a = d_rho b ->
  rx (d_rhov a) = rx (d_rhov b) -> ry (d_rhov a) = ry (d_rhov b) ->
  rz (d_rhov a) = rz (d_rhov b) -> a = b.
Proof.
  destruct a as [? []], b as [? []]; cbn; intros; subst; reflexivity.
Qed.
Lemma dprim_ext a b : dp_rho a = dp_rho b ->
  rx (dp_vel a) = rx (dp_vel b) -> ry (dp_vel a) = ry (dp_vel b) ->
  rz (dp_vel a) = rz (dp_vel b) -> a = b.
Proof.
  destruct a as [? []], b as [? []]; cbn; intros; subst; reflexivity.
Qed.

(* rotation bringing the normal of d onto +x, and back *)
Definition rotv (d : dirn) (v : rv3) : rv3 :=
  match d with
  | xp => v
  | yp => mkrv (ry v) (- rx v) (rz v)
  | zp => mkrv (rz v) (ry v) (- rx v)
  | xm => rvneg v
  | ym => mkrv (- ry v) (rx v) (- rz v)
  | zm => mkrv (- rz v) (- ry v) (rx v)
  end.
Definition unrotv (d : dirn) (v : rv3) : rv3 :=
  match d with
  | xp => v
  | yp => mkrv (- ry v) (rx v) (rz v)
  | zp => mkrv (- rz v) (ry v) (rx v)
  | xm => rvneg v
  | ym => mkrv (ry v) (- rx v) (- rz v)
  | zm => mkrv (rz v) (- ry v) (- rx v)
  end.
Definition rotp d p := mkprim (p_rho p) (p_press p) (rotv d (p_vel p)).
Definition rotc d c := mkcons (c_rho c) (c_rhoe c) (rotv d (c_rhov c)).
Definition unrotc d c := mkcons (c_rho c) (c_rhoe c) (unrotv d (c_rhov c)).
Definition invp p := mkprim (p_rho p) (p_press p) (rvneg (p_vel p)).
Definition ex : rv3 := mkrv 1 0 0.

Lemma ptc_conserved p g : prim_to_cons p g = conserved g p.
Proof.
  apply cons_ext; cbn; try reflexivity.
  unfold energy, rhoekin, dotp; cbn. lra.
Qed.

Lemma rot_conserved d g p : rotc d (conserved g p) = conserved g (rotp d p).
Proof.
  destruct d; apply cons_ext; cbn; unfold energy, dotp; cbn; unfold Rdiv; ring.
Qed.

Lemma flux_rot m d pL pR g :
  flux m d pL pR g =
  unrotc d (solver_x m (conserved g (rotp d pL)) (conserved g (rotp d pR)) g).
Proof.
  unfold flux. rewrite !ptc_conserved. rewrite <- !rot_conserved.
  destruct d; unfold solver_y, solver_z, solver_mx, solver_my, solver_mz, solver_y, solver_z,
    rotc, unrotc, rotv, unrotv, x_to_y, y_to_x, x_to_z, z_to_x, invert_axis, rvneg; cbn [c_rho c_rhoe c_rhov rx ry rz];
  rewrite ?Ropp_involutive; try reflexivity.
  - destruct (conserved g pL) as [? ? []], (conserved g pR) as [? ? []]; cbn.
    destruct (solver_x m _ _ g) as [? ? []]. reflexivity.
Qed.

Lemma rot_dot d v : rx (rotv d v) = dotp v (normal d).
Proof. destruct d, v; unfold dotp; cbn; ring. Qed.
Lemma rot_norm d v : dotp (rotv d v) (rotv d v) = dotp v v.
Proof. destruct d, v; unfold dotp; cbn; ring. Qed.
Lemma unrot_rot d v : unrotv d (rotv d v) = v.
Proof. destruct d, v; apply rv_ext; cbn; ring. Qed.
Lemma unrot_norm d v : dotp (unrotv d v) (unrotv d v) = dotp v v.
Proof. destruct d, v; unfold dotp; cbn; ring. Qed.
Lemma rot_phys d p : physical p -> physical (rotp d p).
Proof. intros H; exact H. Qed.
Lemma rot_energy d g p : energy g (rotp d p) = energy g p.
Proof. unfold energy; cbn. rewrite rot_norm. reflexivity. Qed.
Lemma unrot_conserved d g p : unrotc d (conserved g (rotp d p)) = conserved g p.
Proof.
  rewrite <- rot_conserved. unfold unrotc, rotc. cbn. rewrite unrot_rot.
  reflexivity.
Qed.

Lemma unrot_euler d g p :
  unrotc d (euler_flux g ex (rotp d p)) = euler_flux g (normal d) p.
Proof.
  unfold euler_flux. rewrite rot_energy.
  replace (dotp (p_vel (rotp d p)) ex) with (dotp (p_vel p) (normal d)).
  2:{ cbn [rotp p_vel]. rewrite <- rot_dot. unfold dotp, ex; cbn; ring. }
  unfold unrotc; cbn [c_rho c_rhoe c_rhov p_rho p_press rotp].
  f_equal. destruct p as [r pr [vx vy vz]].
  destruct d; apply rv_ext; cbn; ring.
Qed.

Lemma c2p_conserved g p : 1 < g -> physical p -> cons_to_prim (conserved g p) g = p.
Proof.
  intros Hg [Hr Hp]. apply prim_ext; cbn; unfold energy, rhoekin, dotp; cbn; try (field; lra).
Qed.

Lemma hfx_euler g p : 1 < g -> physical p -> hydro_flux_x (conserved g p) g = euler_flux g ex p.
Proof.
  intros Hg Hp. unfold hydro_flux_x. rewrite c2p_conserved by assumption.
  apply cons_ext; cbn; unfold energy, dotp, ex; cbn; ring.
Qed.

(* sound speed *)
Definition cs g p := sound_speed p g.
Lemma cs_spec g p : 1 < g -> physical p -> is_sound_speed g p (cs g p).
Proof.
  intros Hg [Hr Hp]. unfold cs, sound_speed, is_sound_speed.
  assert (0 < g * p_press p / p_rho p).
  { apply Rdiv_lt_0_compat; [apply Rmult_lt_0_compat; lra|assumption]. }
  split. apply sqrt_lt_R0; assumption.
  apply sqrt_sqrt; lra.
Qed.
Lemma cs_pos g p : 1 < g -> physical p -> 0 < cs g p.
Proof. intros; apply cs_spec; assumption. Qed.
Lemma cs_uniq g p a : is_sound_speed g p a -> cs g p = a.
Proof.
  intros [Ha H]. unfold cs, sound_speed. rewrite <- H. apply sqrt_square; lra.
Qed.
Lemma cs_rot g d p : cs g (rotp d p) = cs g p.
Proof. reflexivity. Qed.
Lemma cs_inv g p : cs g (invp p) = cs g p.
Proof. reflexivity. Qed.

(* the solvers in terms of primitive states *)
Definition vx p := rx (p_vel p).

Lemma rus_prim g pL pR : 1 < g -> physical pL -> physical pR ->
  rusanov_flux_x (conserved g pL) (conserved g pR) g =
  let S := Rmax (Rabs (vx pL) + cs g pL) (Rabs (vx pR) + cs g pR) in
  cscal (/2) (csub (cadd (euler_flux g ex pL) (euler_flux g ex pR))
                   (cscal S (csub (conserved g pR) (conserved g pL)))).
Proof.
  intros Hg HL HR. unfold rusanov_flux_x.
  rewrite !c2p_conserved, !hfx_euler by assumption. reflexivity.
Qed.

Definition hSL g pL pR := Rmin (vx pL - cs g pL) (vx pR - cs g pR).
Definition hSR g pL pR := Rmax (vx pL + cs g pL) (vx pR + cs g pR).

Lemma hll_prim g pL pR : 1 < g -> physical pL -> physical pR ->
  hll_flux_x (conserved g pL) (conserved g pR) g =
  if Rle_dec 0 (hSL g pL pR) then euler_flux g ex pL
  else if Rle_dec (hSR g pL pR) 0 then euler_flux g ex pR
  else cscal (1 / (hSR g pL pR - hSL g pL pR))
     (cadd (csub (cscal (hSR g pL pR) (euler_flux g ex pL)) (cscal (hSL g pL pR) (euler_flux g ex pR)))
      (cscal (hSL g pL pR) (cscal (hSR g pL pR) (csub (conserved g pR) (conserved g pL))))).
Proof.
  intros Hg HL HR. unfold hll_flux_x.
  rewrite !c2p_conserved, !hfx_euler by assumption. reflexivity.
Qed.

Lemma hllc_prim g pL pR : 1 < g -> physical pL -> physical pR ->
  hllc_flux_x (conserved g pL) (conserved g pR) g =
  let FL := euler_flux g ex pL in
  let FR := euler_flux g ex pR in
  let '(SL, S_star, SR, press_LR) := hllc_speeds pL pR g in
  let cL_star := hllc_star SL S_star press_LR (conserved g pL) FL in
  let cR_star := hllc_star SR S_star press_LR (conserved g pR) FR in
  if Rle_dec 0 SL then FL
  else if Rle_dec 0 S_star then cadd FL (cscal SL (csub cL_star (conserved g pL)))
  else if Rle_dec 0 SR then cadd FR (cscal SR (csub cR_star (conserved g pR)))
  else FR.
Proof.
  intros Hg HL HR. unfold hllc_flux_x.
  rewrite !c2p_conserved, !hfx_euler by assumption. reflexivity.
Qed.

(* ---- contact / consistency ---- *)

Lemma hllc_q_one ps p g : ps <= p -> hllc_q ps p g = 1.
Proof. intros H. unfold hllc_q. destruct (Rle_dec ps p); [reflexivity|contradiction]. Qed.

Lemma hllc_speeds_contact g pL pR : 1 < g -> physical pL -> physical pR ->
  p_press pL = p_press pR -> vx pL = vx pR ->
  hllc_speeds pL pR g = (vx pL - cs g pL, vx pL, vx pL + cs g pR, p_press pL).
Proof.
  intros Hg HL HR Hp Hv. unfold hllc_speeds.
  fold (cs g pL) (cs g pR) (vx pL) (vx pR).
  pose proof (cs_pos g pL Hg HL) as cL. pose proof (cs_pos g pR Hg HR) as cR.
  rewrite <- Hv, <- Hp.
  set (ps := Rmax 0 _).
  assert (Hps : ps = p_press pL).
  { unfold ps. replace (/ 2 * (p_press pL + p_press pL) - / 2 * (vx pL - vx pL) * (/ 2 * (p_rho pL + p_rho pR)) * (/ 2 * (cs g pL + cs g pR))) with (p_press pL) by lra.
    apply Rmax_right. destruct HL; lra. }
  rewrite Hps, !hllc_q_one by lra. clear ps Hps.
  set (a := p_rho pL) in *. set (b := p_rho pR) in *.
  assert (Ha : 0 < a) by apply HL. assert (Hb : 0 < b) by apply HR.
  assert (0 < a * cs g pL) by (apply Rmult_lt_0_compat; assumption).
  assert (0 < b * cs g pR) by (apply Rmult_lt_0_compat; assumption).
  assert (E : (p_press pL - p_press pL + vx pL * (a * (vx pL - cs g pL * 1 - vx pL)) -
       vx pL * (b * (vx pL + cs g pR * 1 - vx pL))) /
      (a * (vx pL - cs g pL * 1 - vx pL) - b * (vx pL + cs g pR * 1 - vx pL)) = vx pL).
  { field. nra. }
  rewrite E. f_equal; [f_equal; [f_equal|]|]; lra.
Qed.

Lemma hllc_contact_x g pL pR : 1 < g -> physical pL -> physical pR ->
  p_press pL = p_press pR -> vx pL = vx pR ->
  hllc_flux_x (conserved g pL) (conserved g pR) g =
  if Rle_dec 0 (vx pL) then euler_flux g ex pL else euler_flux g ex pR.
Proof.
  intros Hg HL HR Hp Hv. rewrite hllc_prim by assumption. cbv zeta.
  rewrite hllc_speeds_contact by assumption.
  pose proof (cs_pos g pL Hg HL) as cL. pose proof (cs_pos g pR Hg HR) as cR.
  destruct (Rle_dec 0 (vx pL - cs g pL)).
  { destruct (Rle_dec 0 (vx pL)); [reflexivity|lra]. }
  destruct (Rle_dec 0 (vx pL)).
  { apply cons_ext; cbn; unfold energy, dotp, ex; cbn; fold (vx pL); field; lra. }
  destruct (Rle_dec 0 (vx pL + cs g pR)); [|reflexivity].
  apply cons_ext; cbn; unfold energy, dotp, ex; cbn; fold (vx pR); rewrite Hv, Hp; field; lra.
Qed.

Lemma consistency_x m g p : 1 < g -> physical p ->
  solver_x m (conserved g p) (conserved g p) g = euler_flux g ex p.
Proof.
  intros Hg Hp. destruct m; cbn [solver_x].
  - rewrite rus_prim by assumption. cbv zeta. apply cons_ext; cbn; lra.
  - rewrite hll_prim by assumption.
    assert (hSL g p p = vx p - cs g p) by (unfold hSL; apply Rmin_left; lra).
    assert (hSR g p p = vx p + cs g p) by (unfold hSR; apply Rmax_left; lra).
    pose proof (cs_pos g p Hg Hp).
    destruct (Rle_dec 0 (hSL g p p)); [reflexivity|].
    destruct (Rle_dec (hSR g p p) 0); [reflexivity|].
    assert (hSR g p p - hSL g p p <> 0) by lra.
    apply cons_ext; cbn; field; assumption.
  - rewrite hllc_contact_x by (assumption || reflexivity).
    destruct (Rle_dec _ _); reflexivity.
Qed.

Lemma flux_consistency m d g p : 1 < g -> physical p ->
  flux m d p p g = euler_flux g (normal d) p.
Proof.
  intros Hg Hp. rewrite flux_rot, consistency_x by (assumption || apply Hp).
  apply unrot_euler.
Qed.

Lemma flux_contact d g pL pR : 1 < g -> physical pL -> physical pR ->
  p_press pL = p_press pR -> dotp (p_vel pL) (normal d) = dotp (p_vel pR) (normal d) ->
  flux HLLC d pL pR g =
  if Rle_dec 0 (dotp (p_vel pL) (normal d))
  then euler_flux g (normal d) pL else euler_flux g (normal d) pR.
Proof.
  intros Hg HL HR Hp Hv. rewrite flux_rot. cbn [solver_x].
  assert (Ev : forall p, vx (rotp d p) = dotp (p_vel p) (normal d)) by (intros; apply rot_dot).
  rewrite hllc_contact_x; try assumption; [|rewrite !Ev; exact Hv].
  rewrite Ev. destruct (Rle_dec 0 _); apply unrot_euler.
Qed.

(* ---- antisymmetry ---- *)
Definition invc c := mkcons (c_rho c) (c_rhoe c) (rvneg (c_rhov c)).

Lemma euler_inv g p : euler_flux g ex (invp p) = cneg (invc (euler_flux g ex p)).
Proof.
  apply cons_ext; cbn; unfold energy, dotp, ex; cbn; unfold Rdiv; ring.
Qed.
Lemma conserved_inv g p : conserved g (invp p) = invc (conserved g p).
Proof.
  apply cons_ext; cbn; unfold energy, dotp; cbn; unfold Rdiv; ring.
Qed.
Lemma vx_inv p : vx (invp p) = - vx p.
Proof. reflexivity. Qed.
Lemma phys_inv p : physical p -> physical (invp p).
Proof. intros H; exact H. Qed.

Lemma rus_anti g pL pR : 1 < g -> physical pL -> physical pR ->
  rusanov_flux_x (conserved g (invp pR)) (conserved g (invp pL)) g =
  cneg (invc (rusanov_flux_x (conserved g pL) (conserved g pR) g)).
Proof.
  intros Hg HL HR.
  rewrite !rus_prim by (assumption || apply phys_inv; assumption). cbv zeta.
  rewrite !euler_inv, !conserved_inv, !cs_inv, !vx_inv, !Rabs_Ropp.
  rewrite (Rmax_comm (Rabs (vx pR) + _)).
  set (S := Rmax _ _).
  set (FL := euler_flux g ex pL). set (FR := euler_flux g ex pR).
  set (UL := conserved g pL). set (UR := conserved g pR).
  apply cons_ext; cbn; ring.
Qed.

Lemma Rmin_opp a b : Rmin (- a) (- b) = - Rmax a b.
Proof. unfold Rmin, Rmax. destruct (Rle_dec (-a) (-b)), (Rle_dec a b); lra. Qed.
Lemma Rmax_opp a b : Rmax (- a) (- b) = - Rmin a b.
Proof. unfold Rmin, Rmax. destruct (Rle_dec (-a) (-b)), (Rle_dec a b); lra. Qed.

Lemma hSL_inv g pL pR : hSL g (invp pR) (invp pL) = - hSR g pL pR.
Proof.
  unfold hSL, hSR. rewrite !vx_inv, !cs_inv.
  replace (- vx pR - cs g pR) with (- (vx pR + cs g pR)) by lra.
  replace (- vx pL - cs g pL) with (- (vx pL + cs g pL)) by lra.
  rewrite Rmin_opp, Rmax_comm. reflexivity.
Qed.
Lemma hSR_inv g pL pR : hSR g (invp pR) (invp pL) = - hSL g pL pR.
Proof.
  unfold hSL, hSR. rewrite !vx_inv, !cs_inv.
  replace (- vx pR + cs g pR) with (- (vx pR - cs g pR)) by lra.
  replace (- vx pL + cs g pL) with (- (vx pL - cs g pL)) by lra.
  rewrite Rmax_opp, Rmin_comm. reflexivity.
Qed.

Lemma hS_lt g pL pR : 1 < g -> physical pL -> physical pR -> hSL g pL pR < hSR g pL pR.
Proof.
  intros Hg HL HR. pose proof (cs_pos g pL Hg HL).
  unfold hSL, hSR.
  pose proof (Rmin_l (vx pL - cs g pL) (vx pR - cs g pR)).
  pose proof (Rmax_l (vx pL + cs g pL) (vx pR + cs g pR)). lra.
Qed.

Lemma hll_anti g pL pR : 1 < g -> physical pL -> physical pR ->
  hll_flux_x (conserved g (invp pR)) (conserved g (invp pL)) g =
  cneg (invc (hll_flux_x (conserved g pL) (conserved g pR) g)).
Proof.
  intros Hg HL HR.
  rewrite !hll_prim by (assumption || apply phys_inv; assumption).
  rewrite !euler_inv, !conserved_inv, !hSL_inv, !hSR_inv.
  pose proof (hS_lt g pL pR Hg HL HR) as Hlt.
  set (SL := hSL g pL pR) in *. set (SR := hSR g pL pR) in *.
  set (FL := euler_flux g ex pL). set (FR := euler_flux g ex pR).
  set (UL := conserved g pL). set (UR := conserved g pR).
  destruct (Rle_dec 0 (- SR)), (Rle_dec 0 SL); try lra.
  - destruct (Rle_dec SR 0); [reflexivity|lra].
  - destruct (Rle_dec (- SL) 0); [reflexivity|lra].
  - destruct (Rle_dec SR 0); [lra|]. destruct (Rle_dec (- SL) 0); [lra|].
    apply cons_ext; cbn; field; lra.
Qed.

Definition mirror_speeds (s : R * R * R * R) : R * R * R * R :=
  let '(SL, Ss, SR, P) := s in (- SR, - Ss, - SL, P).

Lemma hllc_q_ge1 ps p g : 1 < g -> 0 < p -> 1 <= hllc_q ps p g.
Proof.
  intros Hg Hp. unfold hllc_q. destruct (Rle_dec ps p); [lra|].
  rewrite <- sqrt_1 at 1. apply sqrt_le_1_alt.
  assert (1 < ps / p).
  { apply (Rmult_lt_reg_r p); [assumption|]. unfold Rdiv. rewrite Rmult_assoc, Rinv_l by lra. lra. }
  assert (0 < / 2 * (1 + g) / g) by (apply Rdiv_lt_0_compat; lra).
  assert (0 < / 2 * (1 + g) / g * (ps / p - 1)) by (apply Rmult_lt_0_compat; lra).
  lra.
Qed.

Lemma hllc_speeds_inv g pL pR : 1 < g -> physical pL -> physical pR ->
  hllc_speeds (invp pR) (invp pL) g = mirror_speeds (hllc_speeds pL pR g).
Proof.
  intros Hg HL HR. unfold mirror_speeds, hllc_speeds.
  change (sound_speed (invp pL) g) with (cs g pL).
  change (sound_speed (invp pR) g) with (cs g pR).
  fold (cs g pL) (cs g pR).
  cbn [invp p_rho p_press p_vel rvneg rx]. fold (vx pL) (vx pR).
  pose proof (cs_pos g pL Hg HL) as cL. pose proof (cs_pos g pR Hg HR) as cR.
  set (ps := Rmax 0 (/ 2 * (p_press pL + p_press pR) -
             / 2 * (vx pR - vx pL) * (/ 2 * (p_rho pL + p_rho pR)) *
             (/ 2 * (cs g pL + cs g pR)))).
  replace (Rmax 0
          (/ 2 * (p_press pR + p_press pL) -
           / 2 * (- vx pL - - vx pR) * (/ 2 * (p_rho pR + p_rho pL)) *
           (/ 2 * (cs g pR + cs g pL)))) with ps by (unfold ps; f_equal; ring).
  pose proof (hllc_q_ge1 ps (p_press pL) g Hg ltac:(apply HL)) as qL.
  pose proof (hllc_q_ge1 ps (p_press pR) g Hg ltac:(apply HR)) as qR.
  set (q1 := hllc_q ps (p_press pL) g) in *. set (q2 := hllc_q ps (p_press pR) g) in *.
  assert (Hr1 : 0 < p_rho pL) by apply HL. assert (Hr2 : 0 < p_rho pR) by apply HR.
  assert (A : 0 < p_rho pL * (cs g pL * q1)) by (apply Rmult_lt_0_compat; [|apply Rmult_lt_0_compat]; lra).
  assert (B : 0 < p_rho pR * (cs g pR * q2)) by (apply Rmult_lt_0_compat; [|apply Rmult_lt_0_compat]; lra).
  assert (E : (p_press pL - p_press pR + - vx pR * (p_rho pR * (- vx pR - cs g pR * q2 - - vx pR)) -
    - vx pL * (p_rho pL * (- vx pL + cs g pL * q1 - - vx pL))) /
   (p_rho pR * (- vx pR - cs g pR * q2 - - vx pR) - p_rho pL * (- vx pL + cs g pL * q1 - - vx pL))
   = - ((p_press pR - p_press pL + vx pL * (p_rho pL * (vx pL - cs g pL * q1 - vx pL)) -
     vx pR * (p_rho pR * (vx pR + cs g pR * q2 - vx pR))) /
    (p_rho pL * (vx pL - cs g pL * q1 - vx pL) - p_rho pR * (vx pR + cs g pR * q2 - vx pR)))).
  { field. repeat split; nra. }
  rewrite E.
  set (Ss := (p_press pR - p_press pL + _ - _) / _).
  f_equal; [f_equal; [f_equal|]|]; ring.
Qed.

Definition ordered_speeds (s : R * R * R * R) : Prop :=
  let '(SL, Ss, SR, P) := s in SL < Ss < SR.

Lemma hllc_anti g pL pR : 1 < g -> physical pL -> physical pR ->
  ordered_speeds (hllc_speeds pL pR g) ->
  hllc_flux_x (conserved g (invp pR)) (conserved g (invp pL)) g =
  cneg (invc (hllc_flux_x (conserved g pL) (conserved g pR) g)).
Proof.
  intros Hg HL HR Ho.
  rewrite !hllc_prim by (assumption || apply phys_inv; assumption). cbv zeta.
  rewrite hllc_speeds_inv by assumption.
  destruct (hllc_speeds pL pR g) as [[[SL Ss] SR] P]. cbn [mirror_speeds ordered_speeds] in *.
  rewrite !euler_inv, !conserved_inv.
  assert (KL : forall S, S <> Ss -> hllc_star (- S) (- Ss) P (invc (conserved g pL)) (cneg (invc (euler_flux g ex pL))) = invc (hllc_star S Ss P (conserved g pL) (euler_flux g ex pL))).
  { intros S HS. set (c := conserved g pL). set (F := euler_flux g ex pL).
    apply cons_ext; cbn; field; split; lra. }
  assert (KR : forall S, S <> Ss -> hllc_star (- S) (- Ss) P (invc (conserved g pR)) (cneg (invc (euler_flux g ex pR))) = invc (hllc_star S Ss P (conserved g pR) (euler_flux g ex pR))).
  { intros S HS. set (c := conserved g pR). set (F := euler_flux g ex pR).
    apply cons_ext; cbn; field; split; lra. }
  rewrite KL, KR by lra. clear KL KR.
  destruct (Req_dec Ss 0) as [HS0|HS0].
  - (* both sides are in the star region and give the pure pressure flux *)
    subst Ss.
    destruct (Rle_dec 0 (- SR)); [lra|]. destruct (Rle_dec 0 (- 0)) as [_|n1]; [|lra].
    destruct (Rle_dec 0 SL); [lra|]. destruct (Rle_dec 0 0) as [_|n1]; [|lra].
    set (UL := conserved g pL). set (UR := conserved g pR).
    set (FL := euler_flux g ex pL). set (FR := euler_flux g ex pR).
    apply cons_ext; cbn; field; lra.
  - set (cLs := hllc_star SL Ss P _ _). set (cRs := hllc_star SR Ss P _ _).
    set (UL := conserved g pL). set (UR := conserved g pR).
    set (FL := euler_flux g ex pL). set (FR := euler_flux g ex pR).
    destruct (Req_dec SR 0) as [HSR0|HSR0].
    { subst SR. destruct (Rle_dec 0 (- 0)) as [_|n1]; [|lra].
      destruct (Rle_dec 0 SL); [lra|]. destruct (Rle_dec 0 Ss); [lra|].
      destruct (Rle_dec 0 0) as [_|n1]; [|lra].
      apply cons_ext; cbn; ring. }
    destruct (Req_dec SL 0) as [HSL0|HSL0].
    { subst SL. destruct (Rle_dec 0 (- SR)); [lra|]. destruct (Rle_dec 0 (- Ss)); [lra|].
      destruct (Rle_dec 0 (- 0)) as [_|n1]; [|lra].
      destruct (Rle_dec 0 0) as [_|n1]; [|lra].
      apply cons_ext; cbn; ring. }
    destruct (Rle_dec 0 SL).
    { destruct (Rle_dec 0 (- SR)); [lra|]. destruct (Rle_dec 0 (- Ss)); [lra|].
      destruct (Rle_dec 0 (- SL)); [lra|]. reflexivity. }
    destruct (Rle_dec 0 Ss).
    { destruct (Rle_dec 0 (- SR)); [lra|]. destruct (Rle_dec 0 (- Ss)); [lra|].
      destruct (Rle_dec 0 (- SL)); [|lra].
      apply cons_ext; cbn; ring. }
    destruct (Rle_dec 0 SR).
    { destruct (Rle_dec 0 (- SR)); [lra|]. destruct (Rle_dec 0 (- Ss)); [|lra].
      apply cons_ext; cbn; ring. }
    destruct (Rle_dec 0 (- SR)); [|lra]. reflexivity.
Qed.

Lemma rot_opp d p : rotp (opposite d) p = invp (rotp d p).
Proof. destruct d; apply prim_ext; cbn; ring. Qed.
Lemma unrot_opp d c : unrotc (opposite d) (cneg (invc c)) = cneg (unrotc d c).
Proof. destruct d; apply cons_ext; cbn; ring. Qed.

Lemma flux_anti m d g pL pR :
  1 < g -> physical pL -> physical pR ->
  (m = HLLC -> ordered_speeds (hllc_speeds (rotp d pL) (rotp d pR) g)) ->
  flux m (opposite d) pR pL g = cneg (flux m d pL pR g).
Proof.
  intros Hg HL HR Ho. rewrite !flux_rot, !rot_opp.
  rewrite <- unrot_opp. f_equal.
  destruct m; cbn [solver_x].
  - apply rus_anti; assumption.
  - apply hll_anti; assumption.
  - apply hllc_anti; [assumption..|]. apply Ho; reflexivity.
Qed.

(* a sufficient condition for ordered wave speeds *)
Lemma ordered_mild g pL pR : 1 < g -> physical pL -> physical pR ->
  Rabs (p_press pR - p_press pL) < g * Rmin (p_press pL) (p_press pR) ->
  vx pL - vx pR <= Rmin (cs g pL) (cs g pR) ->
  ordered_speeds (hllc_speeds pL pR g).
Proof.
  intros Hg HL HR Hdp Hdu. unfold hllc_speeds.
  fold (cs g pL) (cs g pR) (vx pL) (vx pR).
  set (ps := Rmax 0 _).
  destruct (cs_spec g pL Hg HL) as [cL cL2]. destruct (cs_spec g pR Hg HR) as [cR cR2].
  pose proof (hllc_q_ge1 ps (p_press pL) g Hg ltac:(apply HL)) as qL.
  pose proof (hllc_q_ge1 ps (p_press pR) g Hg ltac:(apply HR)) as qR.
  set (q1 := hllc_q ps (p_press pL) g) in *. set (q2 := hllc_q ps (p_press pR) g) in *.
  destruct HL as [rL PL]. destruct HR as [rR PR].
  set (a1 := cs g pL) in *. set (a2 := cs g pR) in *.
  set (rl := p_rho pL) in *. set (rr := p_rho pR) in *.
  set (P1 := p_press pL) in *. set (P2 := p_press pR) in *.
  set (u1 := vx pL) in *. set (u2 := vx pR) in *. clearbody a1 a2 rl rr P1 P2 u1 u2 q1 q2.
  clear ps.
  assert (M1 : Rmin P1 P2 <= P1) by apply Rmin_l. assert (M2 : Rmin P1 P2 <= P2) by apply Rmin_r.
  assert (N1 : Rmin a1 a2 <= a1) by apply Rmin_l. assert (N2 : Rmin a1 a2 <= a2) by apply Rmin_r.
  assert (G1 : g * Rmin P1 P2 <= g * P1) by (apply Rmult_le_compat_l; lra).
  assert (G2 : g * Rmin P1 P2 <= g * P2) by (apply Rmult_le_compat_l; lra).
  apply Rabs_def2 in Hdp.
  assert (E1 : rl * (a1 * a1) = g * P1) by (rewrite cL2; field; lra).
  assert (E2 : rr * (a2 * a2) = g * P2) by (rewrite cR2; field; lra).
  set (b1 := a1 * q1). set (b2 := a2 * q2).
  assert (B1 : a1 <= b1) by (unfold b1; nra). assert (B2 : a2 <= b2) by (unfold b2; nra).
  assert (F1 : g * P1 <= rl * (b1 * b1)).
  { rewrite <- E1. apply Rmult_le_compat_l; [lra|]. nra. }
  assert (F2 : g * P2 <= rr * (b2 * b2)).
  { rewrite <- E2. apply Rmult_le_compat_l; [lra|]. nra. }
  clearbody b1 b2.
  assert (H1 : 0 < rl * b1) by nra. assert (H2 : 0 < rr * b2) by nra.
  set (D := rl * b1 + rr * b2). assert (HD : 0 < D) by (unfold D; lra).
  set (Ss := (P2 - P1 + u1 * (rl * (u1 - b1 - u1)) - u2 * (rr * (u2 + b2 - u2))) /
             (rl * (u1 - b1 - u1) - rr * (u2 + b2 - u2))).
  assert (ES : Ss = (P1 - P2 + u1 * (rl * b1) + u2 * (rr * b2)) / D).
  { unfold Ss, D. field. repeat split; nra. }
  cbn. rewrite ES. split.
  - apply (Rmult_lt_reg_r D); [assumption|].
    unfold Rdiv. rewrite Rmult_assoc, Rinv_l, Rmult_1_r by lra.
    unfold D. nra.
  - apply (Rmult_lt_reg_r D); [assumption|].
    unfold Rdiv. rewrite Rmult_assoc, Rinv_l, Rmult_1_r by lra.
    unfold D. nra.
Qed.
