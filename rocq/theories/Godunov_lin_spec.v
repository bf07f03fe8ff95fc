(** Specification vocabulary for the accuracy of the face states: affine flows, and how the neighbours lie. *)
Require Import Reals.
From Verif Require Import Base Riemann Riemann_spec Godunov Godunov_spec.
Local Open Scope R_scope.

(** centre of a cell, and of the common face of two cells, in physical units *)
Definition centre (dxfact : R) (q : cube) : rv3 :=
  let c ax := dxfact * ((IZR (lo ax q) + IZR (hi ax q)) / 2) in mkrv (c AX) (c AY) (c AZ).
Definition face_centre (dxfact : R) (q q' : cube) : rv3 :=
  let c ax := dxfact * ((IZR (Z.max (lo ax q) (lo ax q')) + IZR (Z.min (hi ax q) (hi ax q'))) / 2) in mkrv (c AX) (c AY) (c AZ).

(** an affine flow: values at the origin and constant gradients ([g_dxv] is the derivative of the velocity along x, ...) *)
Definition state_at (W0 : prim) (J : grad5) (x : rv3) : prim :=
  mkprim (p_rho W0 + dotp (g_rho J) x) (p_press W0 + dotp (g_P J) x)
    (rvadd (p_vel W0) (rvadd (rvadd (rvscal (rx x) (g_dxv J)) (rvscal (ry x) (g_dyv J))) (rvscal (rz x) (g_dzv J)))).
Definition divergence (J : grad5) : R := rx (g_dxv J) + ry (g_dyv J) + rz (g_dzv J).
(** the Euler equations in primitive form: time derivatives at a point where the state is [p] *)
Definition euler_rate (gamma : R) (p : prim) (J : grad5) : prim :=
  let v := p_vel p in
  mkprim (- (dotp v (g_rho J)) - p_rho p * divergence J)
         (- (dotp v (g_P J)) - gamma * p_press p * divergence J)
         (rvsub (rvneg (rvadd (rvadd (rvscal (rx v) (g_dxv J)) (rvscal (ry v) (g_dyv J))) (rvscal (rz v) (g_dzv J)))) (rvscal (/ p_rho p) (g_P J))).
Definition later (t : R) (p rate : prim) : prim :=
  mkprim (p_rho p + t * p_rho rate) (p_press p + t * p_press rate) (rvadd (p_vel p) (rvscal t (p_vel rate))).

(** the cube of the same size on the side [d] of [q] *)
Definition beside (d : dirn) (q : cube) : cube :=
  let s := q_side q in
  translate (match d with xp => (s, 0, 0) | xm => (- s, 0, 0) | yp => (0, s, 0) | ym => (0, - s, 0) | zp => (0, 0, s) | zm => (0, 0, - s) end)%Z q.
Definition octant (q q' : cube) : Prop :=
  (q_side q = 2 * q_side q' /\ forall c, lo c q' = lo c q \/ lo c q' = lo c q + q_side q')%Z.
(** on side [d] there is a cell of the same size, or the octants that touch *)
Definition well_placed (bmin bmax : list gvec) (d : dirn) (a : nat) : Prop :=
  let q := cell bmin bmax a in
  (exists b, (b < length bmin * 8)%nat /\ cell bmin bmax b = beside d q) \/
  (exists h, q_side q = 2 * h)%Z /\
  (forall q', octant (beside d q) q' -> touches d q q' -> exists b, (b < length bmin * 8)%nat /\ cell bmin bmax b = q').
(** on side [d] there are cells, of sizes that differ by two at most *)
Definition graded (bmin bmax : list gvec) (d : dirn) (a : nat) : Prop :=
  let q := cell bmin bmax a in
  (exists b, (b < length bmin * 8)%nat /\ touches d q (cell bmin bmax b)) /\
  forall b, (b < length bmin * 8)%nat -> touches d q (cell bmin bmax b) ->
    (q_side (cell bmin bmax b) = q_side q \/ q_side (cell bmin bmax b) = 2 * q_side q \/ 2 * q_side (cell bmin bmax b) = q_side q)%Z.
Definition rc (c : axis) (v : rv3) : R := match c with AX => rx v | AY => ry v | AZ => rz v end.
Definition varies_only_along (c : axis) (J : grad5) : Prop :=
  forall c', c' <> c -> rc c' (g_rho J) = 0 /\ rc c' (g_P J) = 0 /\
    match c' with AX => g_dxv J | AY => g_dyv J | AZ => g_dzv J end = mkrv 0 0 0.
(** around cell [a] the data are those of the flow *)
Definition affine_around (bmin bmax : list gvec) (gamma dxfact : R) (W0 : prim) (J : grad5) (U : list cons) (a : nat) : Prop :=
  forall b, (b < length bmin * 8)%nat -> (b = a \/ exists d, touches d (cell bmin bmax a) (cell bmin bmax b)) ->
    physical (state_at W0 J (centre dxfact (cell bmin bmax b))) /\
    nth b U czero = conserved gamma (state_at W0 J (centre dxfact (cell bmin bmax b))).
