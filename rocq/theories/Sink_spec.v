(** Specification of the sinks: who is captured, totals of the system, Newton's forces. *)
Require Import Reals.
From Verif Require Import Base Scan Scan_spec Riemann Fmm_spec Sink.
Local Open Scope R_scope.

(** all the particles of the simulation *)
Definition gas (w : world) : list gpart := concat (concat w).
(** one sink *)
Record sink := mks { s_x : rv3; s_v : rv3; s_asph : rv3; s_aext : rv3; s_m : R; s_l : rv3; s_r : R }.
Definition sink_at (sk : sinks) (i : nat) : sink :=
  mks (nth i (sk_pos sk) rvzero) (nth i (sk_vel sk) rvzero) (nth i (sk_asph sk) rvzero) (nth i (sk_aext sk) rvzero) (nth i (sk_mass sk) 0) (nth i (sk_ang sk) rvzero) (nth i (sk_racc sk) 0).
Definition nsinks (sk : sinks) : nat := length (sk_pos sk).
Definition all_sinks (sk : sinks) : list sink := map (sink_at sk) (seq 0 (nsinks sk)).
(** the seven vectors have the same size, less than 2^32; masses and radii are positive *)
Record sinks_ok (sk : sinks) : Prop := {
  so_vel : length (sk_vel sk) = nsinks sk; so_asph : length (sk_asph sk) = nsinks sk; so_aext : length (sk_aext sk) = nsinks sk;
  so_mass : length (sk_mass sk) = nsinks sk; so_ang : length (sk_ang sk) = nsinks sk; so_racc : length (sk_racc sk) = nsinks sk;
  so_small : (Z.of_nat (nsinks sk) < 2 ^ 32)%Z;
  so_mpos : forall s, In s (all_sinks sk) -> 0 < s_m s; so_rpos : forall s, In s (all_sinks sk) -> 0 < s_r s }.
(** patches of less than 2^32 particles *)
Definition world_ok (w : world) : Prop := forall rd l, In rd w -> In l rd -> (Z.of_nat (length l) < 2 ^ 32)%Z.
(** the work items of a kernel run in any order; scan_exclusive is an exclusive scan (C19, C20); buffers have the size asked for *)
Definition senv_ok (e : senv) : Prop :=
  (forall r p t n, Permutation (sv_order e r p t n) (seq 0 n)) /\
  (forall flags n, (n <= length flags)%nat -> sv_scan e flags n = Ok (excl_spec flags n)) /\
  (forall n, length (sv_garb e n) = n).

(** x is in the accretion sphere of s *)
Definition within (x : rv3) (s : sink) : Prop :=
  (rx x - rx (s_x s)) ^ 2 + (ry x - ry (s_x s)) ^ 2 + (rz x - rz (s_x s)) ^ 2 <= s_r s ^ 2.
Definition within_dec (x : rv3) (s : sink) : {within x s} + {~ within x s} := Rle_dec _ _.
(** the first sink whose sphere contains the particle *)
Definition captor (sk : sinks) (q : gpart) : option nat :=
  find (fun i => if within_dec (gp_x q) (sink_at sk i) then true else false) (seq 0 (nsinks sk)).
Definition is_free (sk : sinks) (q : gpart) : bool := match captor sk q with None => true | Some _ => false end.
Definition taken_by (sk : sinks) (i : nat) (q : gpart) : bool := match captor sk q with Some j => (i =? j)%nat | None => false end.
Definition taken (sk : sinks) (i : nat) (w : world) : list gpart := filter (taken_by sk i) (gas w).

(** components of a vector, of a cross product (k = rx, ry or rz below) *)
Definition comps : list (rv3 -> R) := [rx; ry; rz].
Definition crossc (a b : rv3) (k : rv3 -> R) : R := k (rvcross a b).
(** ** Totals: m is the mass of a particle *)
Definition mass_total (m : R) (w : world) (sk : sinks) : R := m * INR (length (gas w)) + Rsum s_m (all_sinks sk).
Definition centre (m : R) (k : rv3 -> R) (w : world) (sk : sinks) : R :=
  Rsum (fun q => m * k (gp_x q)) (gas w) + Rsum (fun s => s_m s * k (s_x s)) (all_sinks sk).
Definition momentum (m : R) (k : rv3 -> R) (w : world) (sk : sinks) : R :=
  Rsum (fun q => m * k (gp_v q)) (gas w) + Rsum (fun s => s_m s * k (s_v s)) (all_sinks sk).
(** around the origin, with the spin of the sinks *)
Definition angular (m : R) (k : rv3 -> R) (w : world) (sk : sinks) : R :=
  Rsum (fun q => m * crossc (gp_x q) (gp_v q) k) (gas w) + Rsum (fun s => s_m s * crossc (s_x s) (s_v s) k + k (s_l s)) (all_sinks sk).
(** total force, and torque around the origin, of the accelerations stored with the gas and the sinks *)
Definition force_total (m : R) (k : rv3 -> R) (w : world) (sk : sinks) : R :=
  Rsum (fun q => m * k (gp_a q)) (gas w) + Rsum (fun s => s_m s * k (s_asph s)) (all_sinks sk).
Definition torque_total (m : R) (k : rv3 -> R) (w : world) (sk : sinks) : R :=
  Rsum (fun q => m * crossc (gp_x q) (gp_a q) k) (gas w) + Rsum (fun s => s_m s * crossc (s_x s) (s_asph s) k) (all_sinks sk).

(** ** Forces *)
Definition dist (x y : rv3) : R := sqrt ((rx x - rx y) ^ 2 + (ry x - ry y) ^ 2 + (rz x - rz y) ^ 2).
(** attraction per unit mass towards s, of something at x: G / d^2 along the unit vector; nothing inside the accretion radius *)
Definition pull (G : R) (x : rv3) (s : sink) (k : rv3 -> R) : R :=
  if Rlt_dec (dist x (s_x s)) (s_r s) then 0 else G / dist x (s_x s) ^ 2 * ((k (s_x s) - k x) / dist x (s_x s)).
(** the same between sinks, softened *)
Definition soft_pull (G : R) (x y : rv3) (k : rv3 -> R) : R := G * (k y - k x) / (dist x y ^ 3 + 1 / 10 ^ 9).

(** hydro accelerations without resultant (C50_momentum), without torque (C50_angular_momentum) *)
Definition no_force (w : world) (h : forces) : Prop :=
  forall k, In k comps -> Rsum k (concat (concat (gas_imap (fun r p i _ => h r p i) w))) = 0.
Definition no_torque (w : world) (h : forces) : Prop :=
  forall k, In k comps -> Rsum (fun xa => crossc (fst xa) (snd xa) k) (concat (concat (gas_imap (fun r p i q => (gp_x q, h r p i)) w))) = 0.

(** the sinks alone: predictor, forces between them, corrector *)
Definition sinks_leapfrog (G dt : R) (sk : sinks) : res sinks :=
  sk <- sink_predictor G dt sk ;; sk <- compute_ext_forces G sk ;; sink_corrector dt sk.
Definition reverse (sk : sinks) : sinks := mksk (sk_pos sk) (map rvneg (sk_vel sk)) (sk_asph sk) (sk_aext sk) (sk_mass sk) (sk_ang sk) (sk_racc sk).

(** One step with its conditions: schedules of the kernels e1 e2, patches that hold the same particles after the
    redistribution, [turns] >= 1 turns of the corrector; the hydro accelerations of the last turn [h] have no resultant. *)
Inductive one_step (G m dt : R) : world -> sinks -> world -> sinks -> Prop :=
| one_step_intro e1 e2 red turns h w sk w1 sk1 w' sk' :
    senv_ok e1 -> senv_ok e2 -> world_ok w -> (forall v, Permutation (gas (red v)) (gas v)) ->
    sph_step_begin e1 e2 G m dt red w sk = Ok (w1, sk1) -> no_force w1 h -> sph_step_end dt (turns ++ [h]) w1 sk1 = Ok (w', sk') ->
    one_step G m dt w sk w' sk'.
(** a run: time steps of any lengths; t is the total time *)
Inductive run (G m : R) : R -> world -> sinks -> world -> sinks -> Prop :=
| run_nil w sk : run G m 0 w sk w sk
| run_cons dt t w sk w1 sk1 w' sk' : one_step G m dt w sk w1 sk1 -> run G m t w1 sk1 w' sk' -> run G m (dt + t) w sk w' sk'.

(** the particle is out of the accretion spheres of the central objects, centred on the origin *)
Definition radius (f : ext_force) : option R := match f with PointMass Ra | PN_PW _ Ra | LenseThirring Ra => Some Ra | OtherForce => None end.
Definition outside (f : ext_force) (q : gpart) : bool :=
  match radius f with Some Ra => if Rlt_dec (Ra ^ 2) (rx (gp_x q) ^ 2 + ry (gp_x q) ^ 2 + rz (gp_x q) ^ 2) then true else false | None => true end.
