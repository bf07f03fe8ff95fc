(* What a user expects of a numerical flux, written without the solvers:
   the exact Euler flux across a plane of unit normal n, the set of physical
   states, and equality up to sign. *)
From Coq Require Import Reals Lra.
From Verif Require Import Riemann.
Local Open Scope R_scope.

(* unit vector of the six directions *)
Definition normal (d : dirn) : rv3 :=
  match d with
  | xp => mkrv 1 0 0 | xm => mkrv (-1) 0 0
  | yp => mkrv 0 1 0 | ym => mkrv 0 (-1) 0
  | zp => mkrv 0 0 1 | zm => mkrv 0 0 (-1)
  end.

(* the same face seen from the other side *)
Definition opposite (d : dirn) : dirn :=
  match d with xp => xm | xm => xp | yp => ym | ym => yp | zp => zm | zm => zp end.

Definition dotp (a b : rv3) : R := rx a * rx b + ry a * ry b + rz a * rz b.

Definition physical (p : prim) : Prop := 0 < p_rho p /\ 0 < p_press p.

(* total energy per volume of an ideal gas *)
Definition energy (gamma : R) (p : prim) : R :=
  p_press p / (gamma - 1) + p_rho p * dotp (p_vel p) (p_vel p) / 2.

(* conserved quantities of a gas state *)
Definition conserved (gamma : R) (p : prim) : cons :=
  mkcons (p_rho p) (energy gamma p) (rvscal (p_rho p) (p_vel p)).

(* exact flux of mass, energy, momentum through a unit surface of normal n *)
Definition euler_flux (gamma : R) (n : rv3) (p : prim) : cons :=
  let vn := dotp (p_vel p) n in
  mkcons (p_rho p * vn)
         ((energy gamma p + p_press p) * vn)
         (rvadd (rvscal (p_rho p * vn) (p_vel p)) (rvscal (p_press p) n)).

Definition cneg (c : cons) : cons := mkcons (- c_rho c) (- c_rhoe c) (rvneg (c_rhov c)).

(* conserved states with positive density and positive pressure
   (the internal energy  E - |m|^2 / (2 rho)  is positive) *)
Definition gas_state (c : cons) : Prop :=
  0 < c_rho c /\ 0 < c_rhoe c - dotp (c_rhov c) (c_rhov c) / (2 * c_rho c).

(* adiabatic sound speed *)
Definition is_sound_speed (gamma : R) (p : prim) (a : R) : Prop :=
  0 < a /\ a * a = gamma * p_press p / p_rho p.

(* dust: pressureless flux *)
Definition dust_flux_exact (n : rv3) (p : dprim) : dcons :=
  let vn := dotp (dp_vel p) n in
  mkdcons (dp_rho p * vn) (rvscal (dp_rho p * vn) (dp_vel p)).
Definition dneg (c : dcons) : dcons := mkdcons (- d_rho c) (rvneg (d_rhov c)).

(* two slopes pointing strictly the same way *)
Definition same_sign (f g : R) : Prop := (0 < f /\ 0 < g) \/ (f < 0 /\ g < 0).

(* The three-wave (HLLC) approximate solution of a Riemann problem, as in Toro,
   "Riemann solvers", sections 10.4-10.6: left and right signal speeds from an
   acoustic estimate of the pressure at the interface ... *)
Definition acoustic_pressure (n : rv3) (pL pR : prim) (aL aR : R) : R :=
  (p_press pL + p_press pR) / 2
  + (dotp (p_vel pL) n - dotp (p_vel pR) n) * (p_rho pL + p_rho pR) * (aL + aR) / 8.

(* strength factor of the wave running into gas of pressure p: 1 for a
   rarefaction, the shock Mach number for a jump p -> ps *)
Definition wave_factor (gamma ps p q : R) : Prop :=
  0 < q /\
  (ps <= p -> q = 1) /\
  (p < ps -> q * q = 1 + (gamma + 1) / (2 * gamma) * (ps / p - 1)).

(* ... and two constant states separated by a contact moving at speed Ss where
   pressure P and normal velocity Ss are common to both sides. *)
Record three_waves (gamma : R) (n : rv3) (pL pR : prim) (SL Ss SR P : R) (UL UR : cons) : Prop := {
  tw_left  : csub (cadd (cscal Ss UL) (cscal P (mkcons 0 Ss n))) (euler_flux gamma n pL)
             = cscal SL (csub UL (conserved gamma pL));
  tw_right : csub (cadd (cscal Ss UR) (cscal P (mkcons 0 Ss n))) (euler_flux gamma n pR)
             = cscal SR (csub UR (conserved gamma pR));
  tw_velL  : dotp (c_rhov UL) n = c_rho UL * Ss;
  tw_velR  : dotp (c_rhov UR) n = c_rho UR * Ss
}.
