(** Model of the iteration of the smoothing lengths: src/shammodels/sph/src/modules/IterateSmoothingLengthDensity.cpp,
    IterateSmoothingLengthDensityNeighLim.cpp, LoopSmoothingLengthIter.cpp, ComputeOmega.cpp, the functions of
    src/shammodels/sph/include/shammodels/sph/math/density.hpp, and the loop of Solver.cpp:1082-1276 (sph_prestep).

    Simplifications.  Scalars are real numbers (no rounding), except that the one division whose divisor can be zero (the
    Newton step) has the infinities and the NaN of IEEE 754 as results (an exact zero is +0).  The construction of ghosts,
    trees and neighbour lists at the start of a subcycle is a parameter (it is C49 for one patch).  The counters of the
    neighbour limiter do not wrap (they count elements of a list whose length fits in an u32). *)
Require Import Reals.
From Verif Require Import Base BVH Par Ncache Sphd Sphker.
Local Open Scope R_scope.

(** what a division may produce *)
Inductive ext := Fin (x : R) | PInf | MInf | NaN.
Definition ediv (x y : R) : ext :=
  if Req_EM_T y 0 then (if Rlt_dec 0 x then PInf else if Rlt_dec x 0 then MInf else NaN) else Fin (x / y).
Definition esub (x : R) (e : ext) : ext := match e with Fin y => Fin (x - y) | PInf => MInf | MInf => PInf | NaN => NaN end.
Definition eltb (e : ext) (y : R) : bool := match e with Fin x => if Rlt_dec x y then true else false | MInf => true | _ => false end.
Definition egtb (e : ext) (y : R) : bool := match e with Fin x => if Rlt_dec y x then true else false | PInf => true | _ => false end.

(** density.hpp:31-40, dim = 3 *)
Definition newton_iterate_new_h (rho_ha rho_sum sumdWdh h_a : R) : ext :=
  let f_iter := rho_sum - rho_ha in
  let df_iter := sumdWdh + 3 * rho_ha / h_a in
  esub h_a (ediv f_iter df_iter).

(** a patch: the neighbour lists, the positions (with ghosts), the smoothing lengths at the start of the subcycle *)
Record hpatch := mkhp { hp_c : ocache; hp_r : list (vec R); hp_hold : list R }.

Section Iter.
  Context (K : kernel) (part_mass h_evol_max h_evol_iter_max : R).
  (** the functor over the neighbours (IterateSmoothingLengthDensity.cpp:85-97, ComputeOmega.cpp:57-69); the state is
      (rho_sum, sumdWdh) *)
  Definition dens_step (r : list (vec R)) (xyz_a : vec R) (h_a : R) (id_b : nat) (s : R * R) : res (R * R) :=
    xyz_b <- aget r id_b ;;
    let dint := h_a * h_a * Rkern K * Rkern K in
    let dr := vsub xyz_a xyz_b in
    let rab2 := vdot dr dr in
    if rgtb rab2 dint then Ok s else
    let rab := sqrt rab2 in
    Ok (fst s + part_mass * W_3d K rab h_a, snd s + part_mass * dhW_3d K rab h_a).
  Definition dens_sums (p : hpatch) (id_a : nat) (h_a : R) : res (R * R) :=
    xyz_a <- aget (hp_r p) id_a ;;
    ids <- for_each_object (hp_c p) id_a ;;
    rfold (dens_step (hp_r p) xyz_a h_a) ids (0, 0).
  (** IterateSmoothingLengthDensity.cpp:104-107 *)
  Definition clamp (new_h : ext) (h_a : R) : ext :=
    let h_max_evol_p := h_evol_iter_max in
    let h_max_evol_m := 1 / h_evol_iter_max in
    let new_h := if eltb new_h (h_a * h_max_evol_m) then Fin (h_max_evol_m * h_a) else new_h in
    if egtb new_h (h_a * h_max_evol_p) then Fin (h_max_evol_p * h_a) else new_h.
  (** IterateSmoothingLengthDensity.cpp:109-117: the stored smoothing length and eps.  The fields hold real numbers: storing
      an infinity is UB (it does not happen) *)
  Definition accept (new_h : ext) (h_a ha_0 : R) : res (R * R) :=
    if eltb new_h (ha_0 * h_evol_max) then match new_h with Fin x => Ok (x, Rabs (x - h_a) / ha_0) | _ => UB end
    else Ok (ha_0 * h_evol_max, -1).
  (** the threshold of IterateSmoothingLengthDensity.cpp:75 *)
  Definition active (eps : R) : bool := rgtb eps (1 / 10 ^ 6).
  (** IterateSmoothingLengthDensity.cpp:59-119; the state is (h_new, eps) *)
  Definition h_item (p : hpatch) (id_a : nat) (s : list R * list R) : res (list R * list R) :=
    e <- aget (snd s) id_a ;;
    if negb (active e) then Ok s else
    h_a <- aget (fst s) id_a ;;
    sums <- dens_sums p id_a h_a ;;
    let rho_ha := rho_h part_mass h_a (hfactd K) in
    let new_h := clamp (newton_iterate_new_h rho_ha (fst sums) (snd sums) h_a) h_a in
    ha_0 <- aget (hp_hold p) id_a ;;
    v <- accept new_h h_a ha_0 ;;
    hn <- aset (fst s) id_a (fst v) ;; ep <- aset (snd s) id_a (snd v) ;; Ok (hn, ep).
  (** IterateSmoothingLengthDensityNeighLim.cpp:93-114; the state is (rho_sum, sumdWdh, count_within, count_within_next) *)
  Definition lim_step (r : list (vec R)) (xyz_a : vec R) (h_a : R) (id_b : nat) (s : R * R * (Z * Z)) : res (R * R * (Z * Z)) :=
    xyz_b <- aget r id_b ;;
    let '(sm, (cw, cn)) := s in
    let dint := h_a * h_a * Rkern K * Rkern K in
    let dr := vsub xyz_a xyz_b in
    let rab2 := vdot dr dr in
    let cn := if Rle_dec rab2 (dint * h_evol_iter_max * h_evol_iter_max) then (cn + 1)%Z else cn in
    if rgtb rab2 dint then Ok (sm, (cw, cn)) else
    let rab := sqrt rab2 in
    Ok ((fst sm + part_mass * W_3d K rab h_a, snd sm + part_mass * dhW_3d K rab h_a), ((cw + 1)%Z, cn)).
  Definition lim_sums (p : hpatch) (id_a : nat) (h_a : R) : res (R * R * (Z * Z)) :=
    xyz_a <- aget (hp_r p) id_a ;;
    ids <- for_each_object (hp_c p) id_a ;;
    rfold (lim_step (hp_r p) xyz_a h_a) ids ((0, 0), (0%Z, 0%Z)).
  (** IterateSmoothingLengthDensityNeighLim.cpp:60-150; the state is ((h_new, eps), was_limited) *)
  Definition lim_item (trigger_threshold : Z) (p : hpatch) (id_a : nat) (s : list R * list R * list Z) : res (list R * list R * list Z) :=
    e <- aget (snd (fst s)) id_a ;;
    if negb (active e) then Ok s else
    h_a <- aget (fst (fst s)) id_a ;;
    sums <- lim_sums p id_a h_a ;;
    let rho_ha := rho_h part_mass h_a (hfactd K) in
    let new_h := newton_iterate_new_h rho_ha (fst (fst sums)) (snd (fst sums)) h_a in
    let exceed_inner_threshold := (trigger_threshold <? fst (snd sums))%Z in
    let exceed_outer_threshold := (trigger_threshold <? snd (snd sums))%Z in
    if exceed_inner_threshold then
      hn <- aset (fst (fst s)) id_a (1 / h_evol_iter_max * h_a) ;; ep <- aset (snd (fst s)) id_a 0 ;; wl <- aset (snd s) id_a 1%Z ;; Ok ((hn, ep), wl)
    else if exceed_outer_threshold && egtb new_h h_a then
      ep <- aset (snd (fst s)) id_a 0 ;; wl <- aset (snd s) id_a 1%Z ;; Ok ((fst (fst s), ep), wl)
    else
      ha_0 <- aget (hp_hold p) id_a ;;
      v <- accept (clamp new_h h_a) h_a ha_0 ;;
      hn <- aset (fst (fst s)) id_a (fst v) ;; ep <- aset (snd (fst s)) id_a (snd v) ;; wl <- aset (snd s) id_a 0%Z ;; Ok ((hn, ep), wl).

  (** ComputeOmega.cpp:48-75 *)
  Definition omega_item (p : hpatch) (hpart : list R) (id_a : nat) : res R :=
    h_a <- aget hpart id_a ;;
    sums <- dens_sums p id_a h_a ;;
    let rho_ha := rho_h part_mass h_a (hfactd K) in
    Ok (1 + (h_a / (3 * rho_ha)) * snd sums).
  Definition compute_omega (order : list nat) (p : hpatch) (hpart omega : list R) : res (list R) := par_write (omega_item p hpart) order omega.
End Iter.
(** ComputeOmega.cpp:97-107 (SetWhenMask) *)
Definition set_when_mask (val : R) (order : list nat) (mask : list Z) (field : list R) : res (list R) :=
  par_for order (fun i fl => m <- aget mask i ;; if (m =? 1)%Z then aset fl i val else Ok fl) field.

(** ** LoopSmoothingLengthIter *)
(** std::numeric_limits<double>::max() *)
Definition f64_max : R := (2 ^ 53 - 1) * 2 ^ 971.
(** PatchDataField.cpp:451-470 *)
Definition compute_max (l : list R) : res R := match l with [] => Throw | x :: l => Ok (fold_left Rmax l x) end.
Definition compute_min (l : list R) : res R := match l with [] => Throw | x :: l => Ok (fold_left Rmin l x) end.
(** IFieldRefs.hpp:57-73 *)
Definition get_rank_max (fields : list (list R)) : res R := rfold (fun l m => x <- compute_max l ;; Ok (Rmax m x)) fields (- f64_max).
Definition get_rank_min (fields : list (list R)) : res R := rfold (fun l m => x <- compute_min l ;; Ok (Rmin m x)) fields f64_max.

Section Loop.
  (** the state of a patch, its eps field, the kernel on one patch *)
  Context {St : Type} (eps_of : St -> list R) (item : hpatch -> nat -> St -> res St) (epsilon_h : R) (h_iter_per_subcycles : nat).
  (** distributed_data_kernel_call: the kernel on every patch of the rank; [ord k] is the order of the work items of patch k *)
  Fixpoint once (ord : nat -> list nat) (k : nat) (ps : list hpatch) (ss : list St) : res (list St) :=
    match ps, ss with
    | p :: ps', s :: ss' => s1 <- par_for (ord k) (item p) s ;; r <- once ord (S k) ps' ss' ;; Ok (s1 :: r)
    | [], [] => Ok []
    | _, _ => UB
    end.
  (** LoopSmoothingLengthIter.cpp:41-53; the result is the state and local_max_eps_h *)
  Fixpoint h_loop (ord : nat -> nat -> list nat) (ps : list hpatch) (fuel iter_h : nat) (ss : list St) (local_max : R) : res (list St * R) :=
    match fuel with
    | O => Ok (ss, local_max)
    | S n =>
        ss <- once (ord iter_h) 0 ps ss ;;
        local_max <- get_rank_max (map eps_of ss) ;;
        if Rlt_dec local_max epsilon_h then Ok (ss, local_max) else h_loop ord ps n (S iter_h) ss local_max
    end.
  (** LoopSmoothingLengthIter.cpp:30-61: one rank; the result is the state and local_is_converged *)
  Definition loop_rank (ord : nat -> nat -> list nat) (ps : list hpatch) (ss : list St) : res (list St * bool) :=
    r <- h_loop ord ps h_iter_per_subcycles 0 ss f64_max ;;
    local_min <- get_rank_min (map eps_of (fst r)) ;;
    let local_should_rerun_gz := if Rlt_dec local_min 0 then true else false in
    let local_is_h_below_tol := if Rlt_dec (snd r) epsilon_h then true else false in
    Ok (fst r, local_is_h_below_tol && negb local_should_rerun_gz).
  (** all the ranks, and are_all_rank_true (LoopSmoothingLengthIter.cpp:63-64) *)
  Fixpoint loop_ranks (ord : nat -> nat -> nat -> list nat) (rk : nat) (ranks : list (list hpatch)) (ss : list (list St)) : res (list (list St) * bool) :=
    match ranks, ss with
    | ps :: ranks', s :: ss' => r1 <- loop_rank (ord rk) ps s ;; r2 <- loop_ranks ord (S rk) ranks' ss' ;; Ok (fst r1 :: fst r2, snd r1 && snd r2)
    | [], [] => Ok ([], true)
    | _, _ => UB
    end.
End Loop.

(** ** The subcycles (Solver.cpp:1082-1276).  [rebuild k hs]: lists and positions (with ghosts) of every patch of every rank,
    built at subcycle k from the smoothing lengths [hs].  [None]: not converged (an error is logged). *)
Section Subcycles.
  Context (K : kernel) (part_mass h_evol_max h_evol_iter_max epsilon_h : R) (h_iter_per_subcycles : nat)
    (rebuild : nat -> list (list (list R)) -> res (list (list (ocache * list (vec R))))).
  Definition start (h : list R) : list R * list R := (h, repeat 100 (length h)).
  Fixpoint zip_patches (cs : list (ocache * list (vec R))) (hs : list (list R)) : list hpatch :=
    match cs, hs with (c, r) :: cs', h :: hs' => mkhp c r h :: zip_patches cs' hs' | _, _ => [] end.
  Fixpoint zip_ranks (cs : list (list (ocache * list (vec R)))) (hs : list (list (list R))) : list (list hpatch) :=
    match cs, hs with c :: cs', h :: hs' => zip_patches c h :: zip_ranks cs' hs' | _, _ => [] end.
  Fixpoint subcycles (ord : nat -> nat -> nat -> nat -> list nat) (fuel hstep : nat) (hs : list (list (list R))) : res (option (list (list hpatch) * list (list (list R)))) :=
    match fuel with
    | O => Ok None
    | S n =>
        cs <- rebuild hstep hs ;;
        let ranks := zip_ranks cs hs in
        r <- loop_ranks snd (h_item K part_mass h_evol_max h_evol_iter_max) epsilon_h h_iter_per_subcycles (ord hstep) 0 ranks (map (map start) hs) ;;
        let hs' := map (map fst) (fst r) in
        if snd r then Ok (Some (ranks, hs')) else subcycles ord n (S hstep) hs'
    end.
End Subcycles.
