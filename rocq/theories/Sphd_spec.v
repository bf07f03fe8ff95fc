(** The SPH equations (Phantom 2018, equations 34, 35, 40, 42 and the disc viscosity), written without loops. *)
Require Import Reals.
From Verif Require Import Base BVH BVH_spec Fmm_spec Ncache Ncache_spec Sphd.
Local Open Scope R_scope.

(** particle i of the fields (alpha is a field with Varying only) *)
Definition part_at (mode : av_mode) (f : fields) (i : nat) : part :=
  mkpart (nth i (f_xyz f) (0, 0, 0)) (nth i (f_vxyz f) (0, 0, 0)) (nth i (f_h f) 0) (nth i (f_omega f) 0) (nth i (f_u f) 0) (nth i (f_P f) 0) (nth i (f_cs f) 0)
    (match mode with Varying => nth i (f_alpha f) 0 | _ => 0 end).
(** n particles, with positive smoothing lengths and nonzero omega *)
Record fields_ok (mode : av_mode) (f : fields) (n : nat) : Prop := {
  fo_xyz : length (f_xyz f) = n; fo_vxyz : length (f_vxyz f) = n; fo_h : length (f_h f) = n; fo_omega : length (f_omega f) = n;
  fo_u : length (f_u f) = n; fo_P : length (f_P f) = n; fo_cs : length (f_cs f) = n;
  fo_alpha : mode = Varying -> length (f_alpha f) = n;
  fo_hpos : forall h, In h (f_h f) -> 0 < h; fo_onz : forall o, In o (f_omega f) -> o <> 0 }.

Definition distance (p q : vec R) : R := sqrt (dist2 p q).
(** unit vector from b to a, 0 if they are closer than 1e-9 *)
Definition direction (p q : vec R) (c : vec R -> R) : R :=
  if Rlt_dec (distance p q) (1 / 10 ^ 9) then 0 else (c p - c q) / distance p q.
Definition over (s : (vec R -> R) -> R) : R := s cx + s cy + s cz.

Section Spec.
  Context (mode : av_mode) (dW : R -> R -> R) (hfact m alpha_u alpha_AV beta : R).
  Definition density (p : part) : R := m * (hfact / p_h p) ^ 3.
  (** approach velocity *)
  Definition approach (a b : part) : R := over (fun c => (c (p_vxyz a) - c (p_vxyz b)) * direction (p_xyz a) (p_xyz b) c).
  Definition alpha_of (p : part) : R := match mode with Varying => p_alpha p | _ => alpha_AV end.
  (** viscous pressure of a towards b *)
  Definition viscous (a b : part) : R :=
    let w := approach a b in
    match mode with
    | Disc =>
        if Rlt_dec (distance (p_xyz a) (p_xyz b)) (1 / 10 ^ 9) then 0 else
        - (1 / 2) * density a * (p_h a / distance (p_xyz a) (p_xyz b)) * (alpha_of a * p_cs a + (if Rlt_dec w 0 then beta * Rabs w else 0)) * w
    | _ => if Rlt_dec w 0 then - (1 / 2) * density a * (alpha_of a * p_cs a + beta * Rabs w) * w else 0
    end.
  (** acceleration of a due to b, eq. 34 *)
  Definition acceleration (a b : part) (c : vec R -> R) : R :=
    let r := distance (p_xyz a) (p_xyz b) in
    - m * ((p_P a + viscous a b) / (p_omega a * density a ^ 2) * dW r (p_h a) +
           (p_P b + viscous b a) / (p_omega b * density b ^ 2) * dW r (p_h b)) * direction (p_xyz a) (p_xyz b) c.
  (** heating of a due to b, eq. 35 and 42 *)
  Definition heating (a b : part) : R :=
    let r := distance (p_xyz a) (p_xyz b) in
    m * ((p_P a + viscous a b) / (p_omega a * density a ^ 2)) * approach a b * dW r (p_h a) +
    m * alpha_u * sqrt (Rabs (p_P a - p_P b) / ((density a + density b) / 2)) * (p_u a - p_u b) *
      ((dW r (p_h a) / (p_omega a * density a) + dW r (p_h b) / (p_omega b * density b)) / 2).
End Spec.

(** totals over all the particles *)
Definition total (f : nat -> R) (n : nat) : R := Rsum f (seq 0 n).
Definition vget (l : list (vec R)) (i : nat) : vec R := nth i l (0, 0, 0).
(** the cache was built for smoothing lengths [hold] and no smoothing length has grown by more than htol since *)
Definition cache_covers (f : fields) (hold : list R) (htol Rkern : R) (obj_cnt : nat) (c : ocache) : Prop :=
  lists_neighbours (f_xyz f) hold htol Rkern obj_cnt c /\ forall i, (i < length (f_xyz f))%nat -> nth i (f_h f) 0 <= htol * h_of hold i.
(** signal velocities are not negative (not needed with Disc) *)
Definition signals_ok (mode : av_mode) (f : fields) (alpha_AV beta : R) (n : nat) : Prop :=
  mode <> Disc -> 0 <= beta /\ forall i, (i < n)%nat -> 0 <= alpha_of mode alpha_AV (part_at mode f i) * p_cs (part_at mode f i).
(** the kernel ends at Rkern smoothing lengths *)
Definition compact (dW : R -> R -> R) (Rkern : R) : Prop := forall r h, 0 < h -> Rkern * h < r -> dW r h = 0.
(** dW / dr is never positive *)
Definition decreasing (dW : R -> R -> R) : Prop := forall r h, 0 <= r -> 0 < h -> dW r h <= 0.
(** component of x cross y *)
Definition cross (x y : vec R) (k : nat) : R :=
  match k with
  | O => cy x * cz y - cz x * cy y
  | S O => cz x * cx y - cx x * cz y
  | _ => cx x * cy y - cy x * cx y
  end.
(** the same particles seen from a frame at origin -x moving at -v *)
Definition moved (x v : vec R) (f : fields) : fields :=
  mkfields (map (vadd x) (f_xyz f)) (map (vadd v) (f_vxyz f)) (f_h f) (f_omega f) (f_u f) (f_P f) (f_cs f) (f_alpha f).
(** what the kernel is called with: obj_cnt particles to update among n (the others are ghosts) *)
Record sph_setup (mode : av_mode) (dW : R -> R -> R) (Rkern hfact m alpha_AV beta : R) (f : fields) (n : nat) (hold : list R) (htol : R) (obj_cnt : nat) (c : ocache) : Prop := {
  ss_m : 0 < m; ss_hf : 0 < hfact; ss_R : 0 <= Rkern; ss_f : fields_ok mode f n; ss_s : signals_ok mode f alpha_AV beta n;
  ss_W : compact dW Rkern; ss_c : cache_covers f hold htol Rkern obj_cnt c; ss_n : (obj_cnt <= n)%nat }.
