(* The wave structure of the HLLC flux. *)
From Coq Require Import Reals Lra Psatz.
From Verif Require Import Riemann Riemann_spec Riemann_proofs Riemann_pos.
Local Open Scope R_scope.

Lemma hllc_q_wf g ps p : 1 < g -> 0 < p -> wave_factor g ps p (hllc_q ps p g).
Proof.
  intros Hg Hp. pose proof (hllc_q_ge1 ps p g Hg Hp).
  split; [lra|]. split; [apply hllc_q_one|].
  intros H1. revert H. unfold hllc_q. destruct (Rle_dec ps p); [lra|]. intros H.
  rewrite sqrt_sqrt; [field; lra|].
  assert (1 < ps / p).
  { apply (Rmult_lt_reg_r p); [assumption|]. unfold Rdiv. rewrite Rmult_assoc, Rinv_l by lra. lra. }
  assert (0 < / 2 * (1 + g) / g) by (apply Rdiv_lt_0_compat; lra).
  assert (0 < / 2 * (1 + g) / g * (ps / p - 1)) by (apply Rmult_lt_0_compat; lra).
  lra.
Qed.

(* speeds in the x frame *)
Lemma hllc_speeds_spec g pL pR : 1 < g -> physical pL -> physical pR ->
  exists SL Ss SR P qL qR,
    hllc_speeds pL pR g = (SL, Ss, SR, P) /\
    SL = vx pL - cs g pL * qL /\ SR = vx pR + cs g pR * qR /\
    wave_factor g (Rmax 0 (acoustic_pressure ex pL pR (cs g pL) (cs g pR))) (p_press pL) qL /\
    wave_factor g (Rmax 0 (acoustic_pressure ex pL pR (cs g pL) (cs g pR))) (p_press pR) qR /\
    1 <= qL /\ 1 <= qR /\
    P = p_press pL + p_rho pL * (SL - vx pL) * (Ss - vx pL) /\
    P = p_press pR + p_rho pR * (SR - vx pR) * (Ss - vx pR).
Proof.
  intros Hg HL HR. unfold hllc_speeds.
  fold (cs g pL) (cs g pR) (vx pL) (vx pR).
  match goal with |- context [hllc_q ?x _ _] =>
    replace x with (Rmax 0 (acoustic_pressure ex pL pR (cs g pL) (cs g pR))) end.
  2:{ f_equal. unfold acoustic_pressure, dotp, ex, vx; cbn. field. }
  set (ps := Rmax 0 _).
  destruct (cs_spec g pL Hg HL) as [cL cL2]. destruct (cs_spec g pR Hg HR) as [cR cR2].
  pose proof (hllc_q_ge1 ps (p_press pL) g Hg ltac:(apply HL)) as qL.
  pose proof (hllc_q_ge1 ps (p_press pR) g Hg ltac:(apply HR)) as qR.
  pose proof (hllc_q_wf g ps (p_press pL) Hg ltac:(apply HL)) as wL.
  pose proof (hllc_q_wf g ps (p_press pR) Hg ltac:(apply HR)) as wR.
  set (q1 := hllc_q ps (p_press pL) g) in *. set (q2 := hllc_q ps (p_press pR) g) in *.
  clearbody q1 q2 ps.
  assert (Hr1 : 0 < p_rho pL) by apply HL. assert (Hr2 : 0 < p_rho pR) by apply HR.
  assert (A : 0 < p_rho pL * (cs g pL * q1)) by (apply Rmult_lt_0_compat; [|apply Rmult_lt_0_compat]; lra).
  assert (B : 0 < p_rho pR * (cs g pR * q2)) by (apply Rmult_lt_0_compat; [|apply Rmult_lt_0_compat]; lra).
  do 4 eexists. exists q1, q2. split; [reflexivity|]. split; [reflexivity|]. split; [reflexivity|].
  split; [assumption|]. split; [assumption|]. split; [assumption|]. split; [assumption|].
  split; field; repeat split; nra.
Qed.

Definition selected {A} (SL Ss SR : R) (FL FsL FsR FR : A) : A :=
  if Rle_dec 0 SL then FL else if Rle_dec 0 Ss then FsL else if Rle_dec 0 SR then FsR else FR.

Definition starU (S Ss P : R) (g : R) (p : prim) := hllc_star S Ss P (conserved g p) (euler_flux g ex p).
Definition starF (Ss P : R) (n : rv3) (U : cons) := cadd (cscal Ss U) (cscal P (mkcons 0 Ss n)).

Lemma star_jump S Ss P g p : S <> Ss ->
  csub (starF Ss P ex (starU S Ss P g p)) (euler_flux g ex p)
  = cscal S (csub (starU S Ss P g p) (conserved g p)).
Proof.
  intros H. unfold starU, hllc_star, starF.
  set (U := conserved g p). set (F := euler_flux g ex p).
  apply cons_ext; cbn; field; lra.
Qed.

Lemma star_rho S Ss P g p : S <> Ss -> 
  c_rho (starU S Ss P g p) = p_rho p * (S - vx p) / (S - Ss).
Proof. intros H. cbn. unfold dotp, ex; cbn. fold (vx p). field. lra. Qed.

Lemma star_vel S Ss P g p : S <> Ss ->
  P = p_press p + p_rho p * (S - vx p) * (Ss - vx p) ->
  rx (c_rhov (starU S Ss P g p)) = c_rho (starU S Ss P g p) * Ss.
Proof.
  intros H HP. rewrite star_rho by assumption. rewrite HP.
  cbn. unfold dotp, ex; cbn. fold (vx p). field. lra.
Qed.

(* the star states are physical *)
Lemma star_gas S Ss P g p : 1 < g -> physical p ->
  P = p_press p + p_rho p * (S - vx p) * (Ss - vx p) ->
  cs g p * cs g p <= (S - vx p) * (S - vx p) ->
  0 < (S - vx p) / (S - Ss) ->
  gas_state (starU S Ss P g p).
Proof.
  intros Hg Hp HP Hb Hpos. destruct (cs_spec g p Hg Hp) as [Hc Hc2]. destruct Hp as [Hr Hp].
  assert (HS : S <> Ss).
  { intros ->. unfold Rminus in Hpos. rewrite Rplus_opp_r in Hpos. unfold Rdiv in Hpos.
    rewrite Rinv_0, Rmult_0_r in Hpos. lra. }
  assert (Hb0 : S - vx p <> 0).
  { intros E. rewrite E in Hpos. unfold Rdiv in Hpos. lra. }
  assert (Hrho : 0 < c_rho (starU S Ss P g p)).
  { rewrite star_rho by assumption. replace (p_rho p * (S - vx p) / (S - Ss)) with
      (p_rho p * ((S - vx p) / (S - Ss))) by (field; lra). apply Rmult_lt_0_compat; assumption. }
  split; [exact Hrho|].
  assert (Hb2 : g * p_press p <= p_rho p * ((S - vx p) * (S - vx p))).
  { rewrite Hc2 in Hb. apply (Rmult_le_compat_l (p_rho p)) in Hb; [|lra].
    replace (p_rho p * (g * p_press p / p_rho p)) with (g * p_press p) in Hb by (field; lra). exact Hb. }
  set (b := S - vx p) in *. set (dl := Ss - vx p) in *.
  assert (ES : S = vx p + b) by (unfold b; ring). assert (ESs : Ss = vx p + dl) by (unfold dl; ring).
  match goal with |- 0 < ?e => replace e with
    (c_rho (starU S Ss P g p) *
      (p_press p / ((g - 1) * p_rho p) + dl * dl / 2 + p_press p / (p_rho p * b) * dl)) end.
  - apply Rmult_lt_0_compat; [exact Hrho|].
    assert (E : p_press p / ((g - 1) * p_rho p) + dl * dl / 2 + p_press p / (p_rho p * b) * dl =
      (dl + p_press p / (p_rho p * b)) * (dl + p_press p / (p_rho p * b)) / 2
      + p_press p / (2 * (g - 1) * (p_rho p * p_rho p) * (b * b)) *
        (2 * (p_rho p * (b * b)) - (g - 1) * p_press p)) by (field; repeat split; lra).
    rewrite E.
    assert (0 < b * b) by nra.
    assert (0 < p_press p / (2 * (g - 1) * (p_rho p * p_rho p) * (b * b)) *
        (2 * (p_rho p * (b * b)) - (g - 1) * p_press p)).
    { apply Rmult_lt_0_compat; [|nra]. apply Rdiv_lt_0_compat; [assumption|].
      apply Rmult_lt_0_compat; [|assumption]. apply Rmult_lt_0_compat; nra. }
    pose proof (Rle_0_sqr (dl + p_press p / (p_rho p * b))) as Q. unfold Rsqr in Q. lra.
  - rewrite HP, ES, ESs. unfold starU, hllc_star; cbn. unfold energy, dotp, ex; cbn. fold (vx p).
    assert (b - dl <> 0) by (unfold b, dl; lra).
    clearbody b dl. clear HP Hrho Hpos HS. field.
    repeat split; try lra; try assumption.
    all: replace (vx p + b - (vx p + dl)) with (b - dl) by ring; try assumption.
    replace ((vx p + b) * p_rho p - p_rho p * vx p) with (p_rho p * b) by ring.
    apply Rmult_integral_contrapositive_currified; lra.
Qed.

Definition hllc_select (SL Ss SR : R) (FL FsL FsR FR : cons) : cons :=
  selected SL Ss SR FL FsL FsR FR.

Lemma unrotc_add d a b : unrotc d (cadd a b) = cadd (unrotc d a) (unrotc d b).
Proof. destruct d; apply cons_ext; cbn; ring. Qed.
Lemma unrotc_sub d a b : unrotc d (csub a b) = csub (unrotc d a) (unrotc d b).
Proof. destruct d; apply cons_ext; cbn; ring. Qed.
Lemma unrotc_scal d k a : unrotc d (cscal k a) = cscal k (unrotc d a).
Proof. destruct d; apply cons_ext; cbn; ring. Qed.
Lemma unrotc_D d s : unrotc d (mkcons 0 s ex) = mkcons 0 s (normal d).
Proof. destruct d; apply cons_ext; cbn; ring. Qed.
Lemma unrot_dot d v : dotp (unrotv d v) (normal d) = rx v.
Proof. destruct d, v; unfold dotp; cbn; ring. Qed.

Lemma ac_rot d pL pR a b : acoustic_pressure ex (rotp d pL) (rotp d pR) a b = acoustic_pressure (normal d) pL pR a b.
Proof.
  unfold acoustic_pressure. cbn [rotp p_press p_rho p_vel].
  replace (dotp (rotv d (p_vel pL)) ex) with (dotp (p_vel pL) (normal d)) by (rewrite <- rot_dot; unfold dotp, ex; cbn; ring).
  replace (dotp (rotv d (p_vel pR)) ex) with (dotp (p_vel pR) (normal d)) by (rewrite <- rot_dot; unfold dotp, ex; cbn; ring).
  reflexivity.
Qed.

Lemma hllc_structure d g pL pR : 1 < g -> physical pL -> physical pR ->
  exists SL Ss SR P qL qR UL UR,
    SL = dotp (p_vel pL) (normal d) - cs g pL * qL /\
    SR = dotp (p_vel pR) (normal d) + cs g pR * qR /\
    wave_factor g (Rmax 0 (acoustic_pressure (normal d) pL pR (cs g pL) (cs g pR))) (p_press pL) qL /\
    wave_factor g (Rmax 0 (acoustic_pressure (normal d) pL pR (cs g pL) (cs g pR))) (p_press pR) qR /\
    (SL < Ss < SR ->
       three_waves g (normal d) pL pR SL Ss SR P UL UR /\ gas_state UL /\ gas_state UR /\
       flux HLLC d pL pR g =
         selected SL Ss SR (euler_flux g (normal d) pL) (starF Ss P (normal d) UL)
           (starF Ss P (normal d) UR) (euler_flux g (normal d) pR) /\
       flux HLLC (opposite d) pR pL g = cneg (flux HLLC d pL pR g) /\
       forall lam, - SL <= lam -> 0 < lam ->
         gas_state (csub (cscal lam (conserved g pL))
                  (csub (flux HLLC d pL pR g) (euler_flux g (normal d) pL)))) /\
    (Rabs (p_press pR - p_press pL) < g * Rmin (p_press pL) (p_press pR) ->
     dotp (p_vel pL) (normal d) - dotp (p_vel pR) (normal d) <= Rmin (cs g pL) (cs g pR) ->
     SL < Ss < SR).
Proof.
  intros Hg HL HR.
  destruct (hllc_speeds_spec g (rotp d pL) (rotp d pR) Hg HL HR) as
    (SL & Ss & SR & P & qL & qR & ES & E1 & E2 & W1 & W2 & Q1 & Q2 & P1 & P2).
  rewrite ac_rot, !cs_rot in *.
  assert (VL : vx (rotp d pL) = dotp (p_vel pL) (normal d)) by apply rot_dot.
  assert (VR : vx (rotp d pR) = dotp (p_vel pR) (normal d)) by apply rot_dot.
  exists SL, Ss, SR, P, qL, qR, (unrotc d (starU SL Ss P g (rotp d pL))), (unrotc d (starU SR Ss P g (rotp d pR))).
  split; [rewrite <- VL; exact E1|]. split; [rewrite <- VR; exact E2|].
  split; [exact W1|]. split; [exact W2|]. split.
  2:{ intros H1 H2. pose proof (ordered_mild g (rotp d pL) (rotp d pR) Hg HL HR H1) as K.
      rewrite VL, VR, !cs_rot in K. specialize (K H2). rewrite ES in K. exact K. }
  intros HO.
  pose proof (cs_pos g pL Hg HL) as cL. pose proof (cs_pos g pR Hg HR) as cR.
  pose proof (gas_conserved g (rotp d pL) Hg HL) as GUL.
  pose proof (gas_conserved g (rotp d pR) Hg HR) as GUR.
  assert (BL : SL - vx (rotp d pL) = - (cs g pL * qL)) by lra.
  assert (BR : SR - vx (rotp d pR) = cs g pR * qR) by lra.
  assert (AL : cs g pL <= cs g pL * qL) by nra. assert (AR : cs g pR <= cs g pR * qR) by nra.
  assert (GL : gas_state (starU SL Ss P g (rotp d pL))).
  { apply star_gas; try assumption.
    - rewrite BL, cs_rot. nra.
    - rewrite BL. replace (- (cs g pL * qL) / (SL - Ss)) with (cs g pL * qL / (Ss - SL)) by (field; lra).
      apply Rdiv_lt_0_compat; lra. }
  assert (GR : gas_state (starU SR Ss P g (rotp d pR))).
  { apply star_gas; try assumption.
    - rewrite BR, cs_rot. nra.
    - rewrite BR. apply Rdiv_lt_0_compat; lra. }
  assert (JL := star_jump SL Ss P g (rotp d pL) ltac:(lra)).
  assert (JR := star_jump SR Ss P g (rotp d pR) ltac:(lra)).
  assert (FX : hllc_flux_x (conserved g (rotp d pL)) (conserved g (rotp d pR)) g =
     selected SL Ss SR (euler_flux g ex (rotp d pL)) (starF Ss P ex (starU SL Ss P g (rotp d pL)))
       (starF Ss P ex (starU SR Ss P g (rotp d pR))) (euler_flux g ex (rotp d pR))).
  { rewrite hllc_prim by assumption. cbv zeta. rewrite ES. unfold selected.
    fold (starU SL Ss P g (rotp d pL)) (starU SR Ss P g (rotp d pR)).
    rewrite <- JL, <- JR.
    replace (cadd (euler_flux g ex (rotp d pL)) (csub (starF Ss P ex (starU SL Ss P g (rotp d pL))) (euler_flux g ex (rotp d pL))))
      with (starF Ss P ex (starU SL Ss P g (rotp d pL))) by (apply cons_ext; cbn [cadd csub c_rho c_rhoe c_rhov rvadd rvsub rx ry rz]; ring).
    replace (cadd (euler_flux g ex (rotp d pR)) (csub (starF Ss P ex (starU SR Ss P g (rotp d pR))) (euler_flux g ex (rotp d pR))))
      with (starF Ss P ex (starU SR Ss P g (rotp d pR))) by (apply cons_ext; cbn [cadd csub c_rho c_rhoe c_rhov rvadd rvsub rx ry rz]; ring).
    reflexivity. }
  split; [|split; [|split; [|split; [|split]]]].
  - split.
    + apply (f_equal (unrotc d)) in JL. unfold starF in JL.
      rewrite unrotc_sub, unrotc_add, !unrotc_scal, unrotc_D, unrot_euler, unrotc_sub, unrot_conserved in JL. exact JL.
    + apply (f_equal (unrotc d)) in JR. unfold starF in JR.
      rewrite unrotc_sub, unrotc_add, !unrotc_scal, unrotc_D, unrot_euler, unrotc_sub, unrot_conserved in JR. exact JR.
    + cbn [unrotc c_rhov c_rho]. rewrite unrot_dot. apply star_vel; [lra|assumption].
    + cbn [unrotc c_rhov c_rho]. rewrite unrot_dot. apply star_vel; [lra|assumption].
  - apply gas_unrot, GL.
  - apply gas_unrot, GR.
  - rewrite flux_rot. cbn [solver_x]. rewrite FX. unfold selected, starF.
    destruct (Rle_dec 0 SL); [apply unrot_euler|].
    destruct (Rle_dec 0 Ss); [rewrite unrotc_add, !unrotc_scal, unrotc_D; reflexivity|].
    destruct (Rle_dec 0 SR); [rewrite unrotc_add, !unrotc_scal, unrotc_D; reflexivity|].
    apply unrot_euler.
  - apply flux_anti; try assumption. intros _. rewrite ES. exact HO.
  - intros lam H1 H2.
    assert (K : gas_state (csub (cscal lam (conserved g (rotp d pL)))
        (csub (hllc_flux_x (conserved g (rotp d pL)) (conserved g (rotp d pR)) g) (euler_flux g ex (rotp d pL))))).
    { rewrite FX. clear FX ES. 
      set (VLs := starU SL Ss P g (rotp d pL)) in *. set (VRs := starU SR Ss P g (rotp d pR)) in *.
      set (UL := conserved g (rotp d pL)) in *. set (UR := conserved g (rotp d pR)) in *.
      set (FL := euler_flux g ex (rotp d pL)) in *. set (FR := euler_flux g ex (rotp d pR)) in *.
      clearbody VLs VRs UL UR FL FR.
      assert (EL : FL = csub (starF Ss P ex VLs) (cscal SL (csub VLs UL))).
      { rewrite <- JL. apply cons_ext; cbn [cadd csub c_rho c_rhoe c_rhov rvadd rvsub rx ry rz]; ring. }
      assert (ER : FR = csub (starF Ss P ex VRs) (cscal SR (csub VRs UR))).
      { rewrite <- JR. apply cons_ext; cbn [cadd csub c_rho c_rhoe c_rhov rvadd rvsub rx ry rz]; ring. }
      unfold selected.
      destruct (Rle_dec 0 SL).
      { pose proof (gas_scal lam UL H2 GUL) as K.
        match type of K with gas_state ?x => match goal with |- gas_state ?y => replace y with x; [exact K|] end end.
        apply cons_ext; cbn; ring. }
      destruct (Rle_dec 0 Ss).
      { pose proof (gas_add_scal (lam + SL) _ UL ltac:(lra) (gas_scal (- SL) VLs ltac:(lra) GL) GUL) as K.
        match type of K with gas_state ?x => match goal with |- gas_state ?y => replace y with x; [exact K|] end end.
        rewrite EL. apply cons_ext; cbn; ring. }
      destruct (Rle_dec 0 SR).
      { pose proof (gas_add_scal (lam + SL) _ UL ltac:(lra)
          (gas_add_scal (- Ss) _ VRs ltac:(lra) (gas_scal (Ss - SL) VLs ltac:(lra) GL) GR) GUL) as K.
        match type of K with gas_state ?x => match goal with |- gas_state ?y => replace y with x; [exact K|] end end.
        rewrite EL. apply cons_ext; cbn; ring. }
      pose proof (gas_add_scal (lam + SL) _ UL ltac:(lra) (gas_add_scal (- SR) _ UR ltac:(lra)
          (gas_add_scal (SR - Ss) _ VRs ltac:(lra) (gas_scal (Ss - SL) VLs ltac:(lra) GL) GR) GUR) GUL) as K.
      match type of K with gas_state ?x => match goal with |- gas_state ?y => replace y with x; [exact K|] end end.
      rewrite EL, ER. apply cons_ext; cbn; ring. }
    apply (gas_unrot d) in K. rewrite unrotc_sub, unrotc_scal, unrotc_sub, unrot_conserved, unrot_euler in K.
    rewrite flux_rot. exact K.
Qed.
