(* Model of the Riemann solvers and slope limiters of the Godunov (ramses)
   model.  All arithmetic is over the real numbers (no rounding, no overflow,
   no NaN): this is the standing simplification of the file.  A division by
   zero in C++ would give inf/NaN; the theorems only speak about inputs for
   which every denominator of the returned value is non-zero. *)
From Coq Require Import Reals Lra.
Local Open Scope R_scope.

(* sycl::vec<f64,3>, used with components [0], [1], [2]. *)
Record rv3 := mkrv { rx : R; ry : R; rz : R }.
Definition rvadd (a b : rv3) := mkrv (rx a + rx b) (ry a + ry b) (rz a + rz b).
Definition rvsub (a b : rv3) := mkrv (rx a - rx b) (ry a - ry b) (rz a - rz b).
Definition rvscal (k : R) (a : rv3) := mkrv (k * rx a) (k * ry a) (k * rz a).
Definition rvneg (a : rv3) := mkrv (- rx a) (- ry a) (- rz a).

(* ConsState, /repo/src/shammath/include/shammath/riemann.hpp lines 30-41 *)
Record cons := mkcons { c_rho : R; c_rhoe : R; c_rhov : rv3 }.
(* PrimState, riemann.hpp lines 43-50 *)
Record prim := mkprim { p_rho : R; p_press : R; p_vel : rv3 }.

(* operator+, riemann.hpp lines 52-63 *)
Definition cadd (a b : cons) : cons :=
  mkcons (c_rho a + c_rho b) (c_rhoe a + c_rhoe b) (rvadd (c_rhov a) (c_rhov b)).
(* operator-, riemann.hpp lines 65-76 *)
Definition csub (a b : cons) : cons :=
  mkcons (c_rho a - c_rho b) (c_rhoe a - c_rhoe b) (rvsub (c_rhov a) (c_rhov b)).
(* operator*, riemann.hpp lines 78-98 (both argument orders) *)
Definition cscal (k : R) (a : cons) : cons :=
  mkcons (k * c_rho a) (k * c_rhoe a) (rvscal k (c_rhov a)).

(* rhoekin, riemann.hpp lines 108-114 *)
Definition rhoekin (rho : R) (v : rv3) : R :=
  let v2 := rx v * rx v + ry v * ry v + rz v * rz v in
  / 2 * rho * v2.

(* prim_to_cons, riemann.hpp lines 116-132 *)
Definition prim_to_cons (p : prim) (gamma : R) : cons :=
  let rhoeint := p_press p / (gamma - 1) in
  mkcons (p_rho p) (rhoeint + rhoekin (p_rho p) (p_vel p))
         (mkrv (p_rho p * rx (p_vel p)) (p_rho p * ry (p_vel p)) (p_rho p * rz (p_vel p))).

(* cons_to_prim, riemann.hpp lines 134-150 *)
Definition cons_to_prim (c : cons) (gamma : R) : prim :=
  let vel := mkrv (rx (c_rhov c) / c_rho c) (ry (c_rhov c) / c_rho c) (rz (c_rhov c) / c_rho c) in
  let rhoeint := c_rhoe c - rhoekin (c_rho c) vel in
  mkprim (c_rho c) ((gamma - 1) * rhoeint) vel.

(* hydro_flux_x, riemann.hpp lines 152-170 *)
Definition hydro_flux_x (c : cons) (gamma : R) : cons :=
  let p := cons_to_prim c gamma in
  mkcons (rx (c_rhov c))
         ((c_rhoe c + p_press p) * rx (p_vel p))
         (mkrv (c_rho c * rx (p_vel p) * rx (p_vel p) + p_press p)
               (c_rho c * rx (p_vel p) * ry (p_vel p))
               (c_rho c * rx (p_vel p) * rz (p_vel p))).

(* sound_speed, riemann.hpp lines 172-176 *)
Definition sound_speed (p : prim) (gamma : R) : R :=
  sqrt (gamma * p_press p / p_rho p).

(* rusanov_flux_x, riemann.hpp lines 200-220 *)
Definition rusanov_flux_x (cL cR : cons) (gamma : R) : cons :=
  let primL := cons_to_prim cL gamma in
  let primR := cons_to_prim cR gamma in
  let csL := sound_speed primL gamma in
  let csR := sound_speed primR gamma in
  let S := Rmax (Rabs (rx (p_vel primL)) + csL) (Rabs (rx (p_vel primR)) + csR) in
  let fL := hydro_flux_x cL gamma in
  let fR := hydro_flux_x cR gamma in
  cscal (/ 2) (csub (cadd fL fR) (cscal S (csub cR cL))).

(* y_to_x, riemann.hpp lines 222-231 *)
Definition y_to_x (c : cons) : cons :=
  mkcons (c_rho c) (c_rhoe c) (mkrv (ry (c_rhov c)) (- rx (c_rhov c)) (rz (c_rhov c))).
(* x_to_y, riemann.hpp lines 233-242 *)
Definition x_to_y (c : cons) : cons :=
  mkcons (c_rho c) (c_rhoe c) (mkrv (- ry (c_rhov c)) (rx (c_rhov c)) (rz (c_rhov c))).
(* z_to_x, riemann.hpp lines 244-253 *)
Definition z_to_x (c : cons) : cons :=
  mkcons (c_rho c) (c_rhoe c) (mkrv (rz (c_rhov c)) (ry (c_rhov c)) (- rx (c_rhov c))).
(* x_to_z, riemann.hpp lines 255-264 *)
Definition x_to_z (c : cons) : cons :=
  mkcons (c_rho c) (c_rhoe c) (mkrv (- rz (c_rhov c)) (ry (c_rhov c)) (rx (c_rhov c))).
(* invert_axis, riemann.hpp lines 266-275 *)
Definition invert_axis (c : cons) : cons :=
  mkcons (c_rho c) (c_rhoe c) (mkrv (- rx (c_rhov c)) (- ry (c_rhov c)) (- rz (c_rhov c))).

(* hll_flux_x, riemann.hpp lines 302-342 *)
Definition hll_flux_x (consL consR : cons) (gamma : R) : cons :=
  let primL := cons_to_prim consL gamma in
  let primR := cons_to_prim consR gamma in
  let csL := sound_speed primL gamma in
  let csR := sound_speed primR gamma in
  let S_L := Rmin (rx (p_vel primL) - csL) (rx (p_vel primR) - csR) in
  let S_R := Rmax (rx (p_vel primL) + csL) (rx (p_vel primR) + csR) in
  let fluxL := hydro_flux_x consL gamma in
  let fluxR := hydro_flux_x consR gamma in
  if Rle_dec 0 S_L then fluxL
  else if Rle_dec S_R 0 then fluxR
  else
    let S_norm := 1 / (S_R - S_L) in
    cscal S_norm
      (cadd (csub (cscal S_R fluxL) (cscal S_L fluxR))
            (cscal S_L (cscal S_R (csub consR consL)))).

(* hllc_flux_x: the wave speeds, riemann.hpp lines 383-447.
   Returned as (SL, S_star, SR, press_LR). *)
Definition hllc_q (press_star press gamma : R) : R :=
  if Rle_dec press_star press then 1
  else sqrt (1 + (/ 2 * (1 + gamma) / gamma) * (press_star / press - 1)).

Definition hllc_speeds (primL primR : prim) (gamma : R) : R * R * R * R :=
  let csL := sound_speed primL gamma in
  let csR := sound_speed primR gamma in
  let rhoL := p_rho primL in let pressL := p_press primL in let velxL := rx (p_vel primL) in
  let rhoR := p_rho primR in let pressR := p_press primR in let velxR := rx (p_vel primR) in
  let rho_bar := / 2 * (rhoL + rhoR) in
  let cs_bar := / 2 * (csL + csR) in
  let p_pvrs := / 2 * (pressL + pressR) - / 2 * (velxR - velxL) * rho_bar * cs_bar in
  let press_star := Rmax 0 p_pvrs in
  let qL := hllc_q press_star pressL gamma in
  let qR := hllc_q press_star pressR gamma in
  let SL := velxL - csL * qL in
  let SR := velxR + csR * qR in
  let var_L := rhoL * (SL - velxL) in
  let var_R := rhoR * (SR - velxR) in
  let S_star := (pressR - pressL + velxL * var_L - velxR * var_R) / (var_L - var_R) in
  let press_LR := / 2 * (pressL + pressR + var_L * (S_star - velxL) + var_R * (S_star - velxR)) in
  (SL, S_star, SR, press_LR).

(* hllc_flux_x: the star states and the selection, riemann.hpp lines 449-485.
   C++ evaluates both star states before the selection; only the selected one
   is returned. *)
Definition hllc_star (S S_star press_LR : R) (c F : cons) : cons :=
  let D_star := mkcons 0 S_star (mkrv 1 0 0) in
  cscal (1 / (S - S_star)) (cadd (csub (cscal S c) F) (cscal press_LR D_star)).

Definition hllc_flux_x (cL cR : cons) (gamma : R) : cons :=
  let primL := cons_to_prim cL gamma in
  let primR := cons_to_prim cR gamma in
  let FL := hydro_flux_x cL gamma in
  let FR := hydro_flux_x cR gamma in
  let '(SL, S_star, SR, press_LR) := hllc_speeds primL primR gamma in
  let cL_star := hllc_star SL S_star press_LR cL FL in
  let cR_star := hllc_star SR S_star press_LR cR FR in
  let FL_star := cadd FL (cscal SL (csub cL_star cL)) in
  let FR_star := cadd FR (cscal SR (csub cR_star cR)) in
  if Rle_dec 0 SL then FL
  else if Rle_dec 0 S_star then FL_star
  else if Rle_dec 0 SR then FR_star
  else FR.

(* RiemannSolverMode: /repo/src/shammodels/ramses/include/shammodels/ramses/SolverConfig.hpp,
   Direction: /repo/src/shammodels/common/include/shammodels/common/amr/NeighGraph.hpp lines 123-130 *)
Inductive rmode := Rusanov | HLL | HLLC.
Inductive dirn := xp | xm | yp | ym | zp | zm.

Definition solver_x (m : rmode) : cons -> cons -> R -> cons :=
  match m with Rusanov => rusanov_flux_x | HLL => hll_flux_x | HLLC => hllc_flux_x end.

(* {rusanov,hll,hllc}_flux_{y,z,mx,my,mz}, riemann.hpp lines 277-300, 344-367, 488-526;
   the three families are textually the same *)
Definition solver_y (m : rmode) (cL cR : cons) (gamma : R) :=
  x_to_y (solver_x m (y_to_x cL) (y_to_x cR) gamma).
Definition solver_z (m : rmode) (cL cR : cons) (gamma : R) :=
  x_to_z (solver_x m (z_to_x cL) (z_to_x cR) gamma).
Definition solver_mx (m : rmode) (cL cR : cons) (gamma : R) :=
  invert_axis (solver_x m (invert_axis cL) (invert_axis cR) gamma).
Definition solver_my (m : rmode) (cL cR : cons) (gamma : R) :=
  invert_axis (solver_y m (invert_axis cL) (invert_axis cR) gamma).
Definition solver_mz (m : rmode) (cL cR : cons) (gamma : R) :=
  invert_axis (solver_z m (invert_axis cL) (invert_axis cR) gamma).

(* FluxCompute<Tvec, mode, dir>::flux,
   /repo/src/shammodels/ramses/include/shammodels/ramses/modules/ComputeFluxUtilities.hpp lines 33-103 *)
Definition flux (m : rmode) (d : dirn) (pL pR : prim) (gamma : R) : cons :=
  let cL := prim_to_cons pL gamma in
  let cR := prim_to_cons pR gamma in
  match d with
  | xp => solver_x m cL cR gamma
  | yp => solver_y m cL cR gamma
  | zp => solver_z m cL cR gamma
  | xm => solver_mx m cL cR gamma
  | ym => solver_my m cL cR gamma
  | zm => solver_mz m cL cR gamma
  end.

(* ---------- dust, /repo/src/shammath/include/shammath/riemann_dust.hpp ---------- *)

(* DustConsState, DustPrimState, lines 28-48 *)
Record dcons := mkdcons { d_rho : R; d_rhov : rv3 }.
Record dprim := mkdprim { dp_rho : R; dp_vel : rv3 }.

(* operators, lines 50-95 *)
Definition dadd (a b : dcons) := mkdcons (d_rho a + d_rho b) (rvadd (d_rhov a) (d_rhov b)).
Definition dsub (a b : dcons) := mkdcons (d_rho a - d_rho b) (rvsub (d_rhov a) (d_rhov b)).
Definition dscal (k : R) (a : dcons) := mkdcons (k * d_rho a) (rvscal k (d_rhov a)).

(* d_prim_to_cons, lines 104-110 *)
Definition d_prim_to_cons (p : dprim) : dcons := mkdcons (dp_rho p) (rvscal (dp_rho p) (dp_vel p)).
(* d_cons_to_prim, lines 112-118 *)
Definition d_cons_to_prim (c : dcons) : dprim := mkdprim (d_rho c) (rvscal (1 / d_rho c) (d_rhov c)).
(* d_hydro_flux_x, lines 120-128 *)
Definition d_hydro_flux_x (c : dcons) : dcons :=
  let p := d_cons_to_prim c in
  mkdcons (rx (d_rhov c)) (rvscal (d_rho c * rx (dp_vel p)) (dp_vel p)).

(* d_x_to_y, d_y_to_x, d_x_to_z, d_z_to_x, d_invert_axis, lines 130-179 *)
Definition d_x_to_y (c : dcons) := mkdcons (d_rho c) (mkrv (- ry (d_rhov c)) (rx (d_rhov c)) (rz (d_rhov c))).
Definition d_y_to_x (c : dcons) := mkdcons (d_rho c) (mkrv (ry (d_rhov c)) (- rx (d_rhov c)) (rz (d_rhov c))).
Definition d_x_to_z (c : dcons) := mkdcons (d_rho c) (mkrv (- rz (d_rhov c)) (ry (d_rhov c)) (rx (d_rhov c))).
Definition d_z_to_x (c : dcons) := mkdcons (d_rho c) (mkrv (rz (d_rhov c)) (ry (d_rhov c)) (- rx (d_rhov c))).
Definition d_invert_axis (c : dcons) := mkdcons (d_rho c) (rvneg (d_rhov c)).

(* d_hll_flux_x, lines 181-196 *)
Definition d_hll_flux_x (cL cR : dcons) : dcons :=
  let pL := d_cons_to_prim cL in
  let pR := d_cons_to_prim cR in
  let S := Rmax (Rabs (rx (dp_vel pL))) (Rabs (rx (dp_vel pR))) in
  let fL := d_hydro_flux_x cL in
  let fR := d_hydro_flux_x cR in
  dscal (/ 2) (dsub (dadd fL fR) (dscal S (dsub cR cL))).

(* huang_bai_flux_x, lines 198-220; the result is value-initialised (all zero)
   and stays so when no branch is taken *)
Definition dzero : dcons := mkdcons 0 (mkrv 0 0 0).
Definition huang_bai_flux_x (cL cR : dcons) : dcons :=
  let pL := d_cons_to_prim cL in
  let pR := d_cons_to_prim cR in
  let vL := rx (dp_vel pL) in
  let vR := rx (dp_vel pR) in
  let fL := d_hydro_flux_x cL in
  let fR := d_hydro_flux_x cR in
  if Rlt_dec 0 vL then
    if Rlt_dec 0 vR then fL
    else if Rlt_dec vR 0 then dadd fL fR
    else dzero
  else if Rlt_dec vL 0 then
    if Rlt_dec vR 0 then fR
    else if Rlt_dec 0 vR then dscal 0 dzero
    else dzero
  else dzero.

Inductive dmode := HB | DHLL.
Definition d_solver_x (m : dmode) : dcons -> dcons -> dcons :=
  match m with HB => huang_bai_flux_x | DHLL => d_hll_flux_x end.
(* {d_hll,huang_bai}_flux_{y,z,mx,my,mz}, lines 222-270 *)
Definition d_solver_y m cL cR := d_x_to_y (d_solver_x m (d_y_to_x cL) (d_y_to_x cR)).
Definition d_solver_z m cL cR := d_x_to_z (d_solver_x m (d_z_to_x cL) (d_z_to_x cR)).
Definition d_solver_mx m cL cR := d_invert_axis (d_solver_x m (d_invert_axis cL) (d_invert_axis cR)).
Definition d_solver_my m cL cR := d_invert_axis (d_solver_y m (d_invert_axis cL) (d_invert_axis cR)).
Definition d_solver_mz m cL cR := d_invert_axis (d_solver_z m (d_invert_axis cL) (d_invert_axis cR)).

(* DustFluxCompute::dustflux, ComputeFluxUtilities.hpp lines 105-160 *)
Definition dustflux (m : dmode) (d : dirn) (pL pR : dprim) : dcons :=
  let cL := d_prim_to_cons pL in
  let cR := d_prim_to_cons pR in
  match d with
  | xp => d_solver_x m cL cR
  | yp => d_solver_y m cL cR
  | zp => d_solver_z m cL cR
  | xm => d_solver_mx m cL cR
  | ym => d_solver_my m cL cR
  | zm => d_solver_mz m cL cR
  end.

(* ---------- slope limiters, /repo/src/shammath/include/shammath/slopeLimiter.hpp ---------- *)

(* van_leer_slope, lines 36-44 *)
Definition van_leer_slope (f g : R) : R :=
  let tmp := f * g in
  if Rlt_dec 0 tmp then 2 * tmp / (f + g) else 0.

(* sycl::sign *)
Definition rsign (x : R) : R :=
  if Rlt_dec 0 x then 1 else if Rlt_dec x 0 then -1 else 0.

(* van_leer_slope_symetric, lines 46-60 *)
Definition van_leer_slope_symetric (sR sL : R) : R :=
  let abs_sR := Rabs sR in
  let abs_sL := Rabs sL in
  let sgn_sR := rsign sR in
  let sgn_sL := rsign sL in
  let tmp := abs_sR * abs_sL in
  if Rlt_dec 0 tmp then tmp * (sgn_sL + sgn_sR) / (abs_sL + abs_sR) else 0.

(* minmod, lines 62-66.  For sR = 0 C++ gets r = +-inf or NaN and returns a
   zero in every case; here the product with sR = 0 is zero as well. *)
Definition minmod (sR sL : R) : R :=
  let r := sL / sR in
  (if Rlt_dec 0 r then (if Rlt_dec r 1 then r else 1) else 0) * sR.
