(** What a smoothing length is: a solution of  sum_j m W(r_ij, h) = m (hfact / h)^3. *)
Require Import Reals.
From Verif Require Import Base BVH Fmm_spec Ncache Ncache_spec Sphd Sphd_spec Sphker Hiter.
Local Open Scope R_scope.

Definition separation (r : list (vec R)) (i j : nat) : R := distance (pos_of r i) (pos_of r j).
(** the density at particle i, summed over all the particles *)
Definition sph_density (K : kernel) (m : R) (r : list (vec R)) (i : nat) (h : R) : R := total (fun j => m * W_3d K (separation r i j) h) (length r).
(** the density that a smoothing length stands for *)
Definition h_density (K : kernel) (m h : R) : R := m * (hfactd K / h) ^ 3.
Definition mismatch (K : kernel) (m : R) (r : list (vec R)) (i : nat) (h : R) : R := sph_density K m r i h - h_density K m h.

(** the list of each particle of the patch contains at least all the particles within the support enlarged by htol *)
Definition covers (htol Rk : R) (p : hpatch) : Prop :=
  forall a, (a < length (hp_hold p))%nat -> exists l, for_each_object (hp_c p) a = Ok l /\ NoDup l /\
    (forall b, In b l -> (b < length (hp_r p))%nat) /\
    (forall b, (b < length (hp_r p))%nat -> separation (hp_r p) a b <= Rk * (htol * h_of (hp_hold p) a) -> In b l).
Record patch_ok (htol Rk : R) (p : hpatch) : Prop := {
  po_cov : covers htol Rk p; po_len : (length (hp_hold p) <= length (hp_r p))%nat; po_pos : forall h, In h (hp_hold p) -> 0 < h }.
(** the configuration *)
Record config_ok (K : kernel) (m htol p : R) : Prop := { co_K : In K kernels; co_m : 0 < m; co_t : 0 < htol; co_p : 1 < p }.
(** the smoothing lengths are positive and within the reach of the lists *)
Definition in_reach (htol : R) (hold h : list R) : Prop :=
  length h = length hold /\ forall i, (i < length hold)%nat -> 0 < h_of h i <= htol * h_of hold i.

(** the value that a damped Newton step wants: within a factor p of h *)
Definition wanted (F d h p : R) : option R :=
  if Req_EM_T d 0 then (if Rlt_dec 0 F then Some (h / p) else if Rlt_dec F 0 then Some (h * p) else None)
  else Some (Rmax (h / p) (Rmin (h * p) (h - F / d))).
(** one step for one particle: unchanged if eps <= 1e-6; the wanted value if the lists allow for it, or else the largest one they
    allow for and a request (-1) for new lists *)
Definition step_ok (F d p htol hold h e h' e' : R) : Prop :=
  (e <= 1 / 10 ^ 6 -> h' = h /\ e' = e) /\
  (1 / 10 ^ 6 < e ->
     (forall x, wanted F d h p = Some x -> x < htol * hold -> h' = x /\ e' = Rabs (x - h) / hold) /\
     ((forall x, wanted F d h p = Some x -> htol * hold <= x) -> h' = htol * hold /\ e' = -1)).

(** h is the result of a full (not damped) Newton step that moved it by less than eps hold *)
Definition newton_converged (K : kernel) (m : R) (r : list (vec R)) (i : nat) (eps hold h : R) : Prop :=
  exists g d, 0 < g /\ d <> 0 /\ derivable_pt_lim (mismatch K m r i) g d /\ h = g - mismatch K m r i g / d /\ Rabs (h - g) < eps * hold.
(** orders of the work items *)
Definition ord_ok (ord : nat -> nat -> list nat) (ps : list hpatch) : Prop :=
  forall it k p, nth_error ps k = Some p -> Permutation (ord it k) (seq 0 (length (hp_hold p))).

(** ** The smoothing lengths of the patches of all the ranks *)
Definition hs_ok (hs : list (list (list R))) : Prop := forall l h, In l hs -> In h l -> h <> [] /\ forall x, In x h -> 0 < x.
Definition same_shape (hs hs' : list (list (list R))) : Prop := Forall2 (Forall2 (fun h h' => length h = length h')) hs hs'.
(** each subcycle builds lists that cover the supports, enlarged by htol, of its smoothing lengths *)
Definition rebuild_ok (htol Rk : R) (hs0 : list (list (list R))) (rebuild : nat -> list (list (list R)) -> res (list (list (ocache * list (vec R))))) : Prop :=
  forall k hs, same_shape hs0 hs -> hs_ok hs -> exists cs, rebuild k hs = Ok cs /\
    Forall2 (Forall2 (fun cr h => patch_ok htol Rk (mkhp (fst cr) (snd cr) h))) cs hs.
(** orders of the work items of each call of the kernel (subcycle, rank, iteration, patch) *)
Definition orders_ok (ord : nat -> nat -> nat -> nat -> list nat) (hs : list (list (list R))) : Prop :=
  forall s rk it k l h, nth_error hs rk = Some l -> nth_error l k = Some h -> Permutation (ord s rk it k) (seq 0 (length h)).
(** the smoothing lengths h of a patch are converged *)
Definition patch_converged (K : kernel) (m htol eps : R) (P : hpatch) (h : list R) : Prop :=
  in_reach htol (hp_hold P) h /\
  forall i, (i < length (hp_hold P))%nat -> newton_converged K m (hp_r P) i eps (h_of (hp_hold P) i) (h_of h i) /\ h_of h i < htol * h_of (hp_hold P) i.

(** ** The neighbour limiter *)
(** number of the particles within a distance of particle i *)
Definition count_within (r : list (vec R)) (i : nat) (d : R) : nat := length (filter (fun j => if Rle_dec (separation r i j) d then true else false) (seq 0 (length r))).
Definition grows (F d h p : R) : Prop := exists x, wanted F d h p = Some x /\ h < x.
(** one step for one particle: h / p and the flag if more than n particles are within the support; h kept and the flag if the
    step wants a larger h and more than n are within p supports; or else the plain step and no flag *)
Definition lim_ok (r : list (vec R)) (i : nat) (Rk F d p htol : R) (n : Z) (hold h e : R) (w : Z) (h' e' : R) (w' : Z) : Prop :=
  (e <= 1 / 10 ^ 6 -> h' = h /\ e' = e /\ w' = w) /\
  (1 / 10 ^ 6 < e ->
     ((n < Z.of_nat (count_within r i (Rk * h)))%Z -> h' = h / p /\ e' = 0 /\ w' = 1%Z) /\
     ((Z.of_nat (count_within r i (Rk * h)) <= n)%Z ->
        (grows F d h p /\ (n < Z.of_nat (count_within r i (Rk * (h * p))))%Z /\ h' = h /\ e' = 0 /\ w' = 1%Z) \/
        (~ (grows F d h p /\ h * p <= htol * hold /\ (n < Z.of_nat (count_within r i (Rk * (h * p))))%Z) /\
         step_ok F d p htol hold h e h' e' /\ w' = 0%Z))).
