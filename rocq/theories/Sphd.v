(** Model of the SPH force kernels: src/shammodels/sph/src/modules/UpdateDerivs.cpp (update_derivs_constantAV,
    update_derivs_disc_visco), src/shammodels/sph/src/modules/NodeUpdateDerivsVaryingAlphaAV.cpp (update_derivs_mm97,
    update_derivs_cd10), src/shammodels/sph/include/shammodels/sph/math/{forces,q_ab,density}.hpp.

    Simplifications.  Scalars are real numbers (no rounding; x / 0 is the unspecified real number of Coq, no infinity).
    One patch.  The derivative of the smoothing kernel [dW], its radius [Rkern] and [hfact] are parameters.  The three
    kernels are the same text up to q_av and the source of alpha: they are one definition with a [mode]. *)
Require Import Reals.
From Verif Require Import Base BVH Par Ncache.
Local Open Scope nat_scope.

Definition vadd := vmap2 Rplus.
Definition vsub := vmap2 Rminus.
Definition vscal (k : R) (v : vec R) : vec R := let '(x, y, z) := v in ((k * x)%R, (k * y)%R, (k * z)%R).
Definition vzero : vec R := (0, 0, 0)%R.

Local Open Scope R_scope.
(** shambackends/math.hpp:841-843, 870-873 *)
Definition inv_sat_positive (v : R) : R := if Rle_dec (1 / 10 ^ 9) v then 1 / v else 0.
Definition inv_sat_zero (v : R) : R := if Req_EM_T v 0 then 0 else 1 / v.
(** density.hpp:20-23 *)
Definition rho_h (m h hfact : R) : R := m * (hfact / h) * (hfact / h) * (hfact / h).
(** q_ab.hpp:37-39 *)
Definition q_av (rho vsig v_scal_rhat : R) : R := Rmax (- (1 / 2) * rho * vsig * v_scal_rhat) 0.
(** q_ab.hpp:41-61 *)
Definition q_av_disc (rho h rab alpha_av cs vsig v_scal_rhat : R) : R :=
  let rabinv := inv_sat_positive rab in
  let prefact := - (1 / 2) * rho * Rabs rabinv * h in
  let vsig_disc := if Rlt_dec v_scal_rhat 0 then vsig else alpha_av * cs in
  prefact * vsig_disc * v_scal_rhat.
(** forces.hpp:34-42 *)
Definition vsig_u (P_a P_b rho_a rho_b : R) : R :=
  let rho_avg := (rho_a + rho_b) * (1 / 2) in
  let abs_dp := Rabs (P_a - P_b) in
  sqrt (abs_dp / rho_avg).
(** forces.hpp:59-80 *)
Definition sph_pressure_symetric (m_b rho_a_sq rho_b_sq P_a P_b omega_a omega_b : R) (nabla_Wab_ha nabla_Wab_hb : vec R) : vec R :=
  let sub_fact_a := rho_a_sq * omega_a in
  let sub_fact_b := rho_b_sq * omega_b in
  let acc_a := vscal (P_a * inv_sat_zero sub_fact_a) nabla_Wab_ha in
  let acc_b := vscal (P_b * inv_sat_zero sub_fact_b) nabla_Wab_hb in
  vscal (- m_b) (vadd acc_a acc_b).
(** forces.hpp:99-122 (no caller) *)
Definition sph_pressure_symetric_av (m_b rho_a_sq rho_b_sq P_a P_b omega_a omega_b qa_ab qb_ab : R) (nabla_Wab_ha nabla_Wab_hb : vec R) : vec R :=
  sph_pressure_symetric m_b rho_a_sq rho_b_sq (P_b + qa_ab) (P_a + qb_ab) omega_a omega_b nabla_Wab_ha nabla_Wab_hb.
(** forces.hpp:137-145 *)
Definition duint_dt_pressure (pmass P_a inv_omega_a_2_rho_a : R) (v_ab grad_W_ab : vec R) : R :=
  P_a * inv_omega_a_2_rho_a * pmass * vdot v_ab grad_W_ab.
(** forces.hpp:160-170 *)
Definition lambda_shock_conductivity (pmass alpha_u vsigu u_ab Fab_inv_omega_a_rho_a Fab_inv_omega_b_rho_b : R) : R :=
  pmass * alpha_u * vsigu * u_ab * (1 / 2) * (Fab_inv_omega_a_rho_a + Fab_inv_omega_b_rho_b).
(** forces.hpp:172-226; the state is (dv_dt, du_dt) *)
Definition add_to_derivs_sph_artif_visco_cond (pmass rho_a_sq omega_a_rho_a_inv rho_a_inv rho_b omega_a omega_b Fab_a Fab_b u_a u_b P_a P_b alpha_u : R)
    (v_ab r_ab_unit : vec R) (vsigu qa_ab qb_ab : R) (s : vec R * R) : vec R * R :=
  let '(dv_dt, du_dt) := s in
  let AV_P_a := P_a + qa_ab in
  let AV_P_b := P_b + qb_ab in
  let dv_dt := vadd dv_dt (sph_pressure_symetric pmass rho_a_sq (rho_b * rho_b) AV_P_a AV_P_b omega_a omega_b (vscal Fab_a r_ab_unit) (vscal Fab_b r_ab_unit)) in
  let du_dt := du_dt + duint_dt_pressure pmass AV_P_a (omega_a_rho_a_inv * rho_a_inv) v_ab (vscal Fab_a r_ab_unit) in
  let du_dt := du_dt + lambda_shock_conductivity pmass alpha_u vsigu (u_a - u_b) (Fab_a * omega_a_rho_a_inv) (Fab_b / (rho_b * omega_b)) in
  (dv_dt, du_dt).

(** Constant, VaryingMM97/VaryingCD10, ConstantDisc *)
Inductive av_mode := Constant | Varying | Disc.
(** what is read of a particle *)
Record part := mkpart { p_xyz : vec R; p_vxyz : vec R; p_h : R; p_omega : R; p_u : R; p_P : R; p_cs : R; p_alpha : R }.
(** the fields of the patch (merged with ghosts) *)
Record fields := mkfields { f_xyz : list (vec R); f_vxyz : list (vec R); f_h : list R; f_omega : list R; f_u : list R; f_P : list R; f_cs : list R; f_alpha : list R }.

Section Derivs.
  Context (mode : av_mode) (dW : R -> R -> R) (Rkern hfactd pmass alpha_u alpha_AV beta_AV : R).
  (** UpdateDerivs.cpp:220-262, NodeUpdateDerivsVaryingAlphaAV.cpp:70-132, UpdateDerivs.cpp:690-755: the functor for the pair
      (a, b), after the test of the distance *)
  Definition add_pair (a b : part) (s : vec R * R) : vec R * R :=
    let rho_a := rho_h pmass (p_h a) hfactd in
    let rho_a_sq := rho_a * rho_a in
    let rho_a_inv := 1 / rho_a in
    let omega_a_rho_a_inv := 1 / (p_omega a * rho_a) in
    let dr := vsub (p_xyz a) (p_xyz b) in
    let rab2 := vdot dr dr in
    let rab := sqrt rab2 in
    let rho_b := rho_h pmass (p_h b) hfactd in
    let alpha_a := match mode with Varying => p_alpha a | _ => alpha_AV end in
    let alpha_b := match mode with Varying => p_alpha b | _ => alpha_AV end in
    let Fab_a := dW rab (p_h a) in
    let Fab_b := dW rab (p_h b) in
    let v_ab := vsub (p_vxyz a) (p_vxyz b) in
    let r_ab_unit := vscal (inv_sat_positive rab) dr in
    let v_ab_r_ab := vdot v_ab r_ab_unit in
    let abs_v_ab_r_ab := Rabs v_ab_r_ab in
    let vsig_a := alpha_a * p_cs a + beta_AV * abs_v_ab_r_ab in
    let vsig_b := alpha_b * p_cs b + beta_AV * abs_v_ab_r_ab in
    let vsigu := vsig_u (p_P a) (p_P b) rho_a rho_b in
    let qa_ab := match mode with Disc => q_av_disc rho_a (p_h a) rab alpha_a (p_cs a) vsig_a v_ab_r_ab | _ => q_av rho_a vsig_a v_ab_r_ab end in
    let qb_ab := match mode with Disc => q_av_disc rho_b (p_h b) rab alpha_b (p_cs b) vsig_b v_ab_r_ab | _ => q_av rho_b vsig_b v_ab_r_ab end in
    add_to_derivs_sph_artif_visco_cond pmass rho_a_sq omega_a_rho_a_inv rho_a_inv rho_b (p_omega a) (p_omega b) Fab_a Fab_b
      (p_u a) (p_u b) (p_P a) (p_P b) alpha_u v_ab r_ab_unit vsigu qa_ab qb_ab s.
  (** the reads of a particle (UpdateDerivs.cpp:179-198, ...) *)
  Definition read_part (f : fields) (i : nat) : res part :=
    h <- aget (f_h f) i ;; x <- aget (f_xyz f) i ;; v <- aget (f_vxyz f) i ;; P <- aget (f_P f) i ;; om <- aget (f_omega f) i ;; u <- aget (f_u f) i ;; cs <- aget (f_cs f) i ;;
    al <- match mode with Varying => aget (f_alpha f) i | _ => Ok 0 end ;;
    Ok (mkpart x v h om u P cs al).
  (** the test (UpdateDerivs.cpp:206-214) *)
  Definition too_far (Rk : R) (xyz_a xyz_b : vec R) (h_a h_b : R) : bool :=
    let dr := vsub xyz_a xyz_b in
    let rab2 := vdot dr dr in
    let Rker2 := Rk * Rk in
    rgtb rab2 (h_a * h_a * Rker2) && rgtb rab2 (h_b * h_b * Rker2).
  Definition pair_step (f : fields) (a : part) (id_b : nat) (s : vec R * R) : res (vec R * R) :=
    xyz_b <- aget (f_xyz f) id_b ;; h_b <- aget (f_h f) id_b ;;
    if too_far Rkern (p_xyz a) xyz_b (p_h a) h_b then Ok s else
    b <- read_part f id_b ;; Ok (add_pair a b s).
  (** one work item: (force_pressure, tmpdU_pressure) *)
  Definition deriv_item (f : fields) (c : ocache) (id_a : nat) : res (vec R * R) :=
    a <- read_part f id_a ;;
    ids <- for_each_object c id_a ;;
    rfold (pair_step f a) ids (vzero, 0).
  (** the kernel; the state is (axyz, duint) *)
  Definition update_derivs (order : list nat) (f : fields) (c : ocache) (out : list (vec R) * list R) : res (list (vec R) * list R) :=
    par_for order (fun i s => v <- deriv_item f c i ;; ax <- aset (fst s) i (fst v) ;; du <- aset (snd s) i (snd v) ;; Ok (ax, du)) out.
End Derivs.
