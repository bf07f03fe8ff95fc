(** Model of the tree self gravity of SPH particles:
    src/shammodels/sph/include/shammodels/sph/modules/self_gravity/compute_tree_mass_moments.hpp and
    src/shammodels/sph/src/modules/self_gravity/SGSFMMPlummer.cpp.

    Simplifications.  Scalars are real numbers (no rounding).  The tree is the one of C33 ([rebuild]), the
    interaction lists those of C45 ([clbvh_dual_tree_traversal]), the tensor operators those of C46.  Work items
    that only write their own cells or particles run in any order ([kernel_call]); in the two tree passes, where
    work items read what others write, every memory access is a step and the steps interleave in any way
    ([irun]).  Buffers are lists; contents of new memory come from the environment. *)
Require Import Reals.
From Verif Require Import Fmm_tensors Fmm_ops Fmm_spec Fmm_orders.
From Verif Require Import Base Karras Traverse Reduction Scan SortSearch BVH Dtt Interleave.
Local Open Scope nat_scope.

(** Tvec of the positions -> vec3 *)
Definition tov (p : vec R) : vec3 := let '(x, y, z) := p in mkv x y z.
Definition vscal (k : R) (v : vec3) : vec3 := mkv (k * vx v) (k * vy v) (k * vz v).

(** MassMoments::num_component, store and load (C46), as functions of the order *)
Definition mass_terms (o : mmorder) : nat :=
  match o with M1 => num_component00 | M2 => num_component01 | M3 => num_component02 | M4 => num_component03 | M5 => num_component04 end.
Definition mass_store (o : mmorder) : MassMoments o -> (nat -> R) -> nat -> nat -> R :=
  match o with M1 => store00 | M2 => store01 | M3 => store02 | M4 => store03 | M5 => store04 end.
Definition mass_load (o : mmorder) : (nat -> R) -> nat -> MassMoments o :=
  match o with M1 => load00 | M2 => load01 | M3 => load02 | M4 => load03 | M5 => load04 end.
Definition grav_terms (o : mmorder) : nat :=
  match o with M1 => num_component11 | M2 => num_component12 | M3 => num_component13 | M4 => num_component14 | M5 => num_component15 end.
Definition grav_store (o : mmorder) : GravMoments o -> (nat -> R) -> nat -> nat -> R :=
  match o with M1 => store11 | M2 => store12 | M3 => store13 | M4 => store14 | M5 => store15 end.
Definition grav_load (o : mmorder) : (nat -> R) -> nat -> GravMoments o :=
  match o with M1 => load11 | M2 => load12 | M3 => load13 | M4 => load14 | M5 => load15 end.
(** the scalars a store writes, in address order; what a load makes of the scalars it reads *)
Definition mass_out (o : mmorder) (Q : MassMoments o) : list R := map (mass_store o Q (fun _ => 0%R) 0) (seq 0 (mass_terms o)).
Definition mass_in (o : mmorder) (l : list R) : MassMoments o := mass_load o (fun k => nth k l 0%R) 0.
Definition grav_out (o : mmorder) (Q : GravMoments o) : list R := map (grav_store o Q (fun _ => 0%R) 0) (seq 0 (grav_terms o)).
Definition grav_in (o : mmorder) (l : list R) : GravMoments o := grav_load o (fun k => nth k l 0%R) 0.

(** sham::max_component, math.hpp:531-538 *)
Definition max_component (v : vec3) : R := Rmax (vx v) (Rmax (vy v) (vz v)).
Definition dot3 (a b : vec3) : R := (vx a * vx b + vy a * vy b + vz a * vz b)%R.
(** src/shamtree/include/shamtree/details/multipole_acceptance_crit.hpp:22-44, called by mac (:94-96) *)
Definition mac_std_opti (theta_crit : R) (a b : vec R * vec R) : bool :=
  let s_a := v3div (v3sub (tov (snd a)) (tov (fst a))) 2 in
  let s_b := v3div (v3sub (tov (snd b)) (tov (fst b))) 2 in
  let r_a := v3div (v3add (tov (snd a)) (tov (fst a))) 2 in
  let r_b := v3div (v3add (tov (snd b)) (tov (fst b))) 2 in
  let delta_ab := v3sub r_a r_b in
  let delta_ab_sq := dot3 delta_ab delta_ab in
  if Req_EM_T delta_ab_sq 0 then false else
  let sum_s := (max_component s_a + max_component s_b)%R in
  let theta_sq := (sum_s * sum_s / delta_ab_sq)%R in
  if Rlt_dec theta_sq (theta_crit * theta_crit) then true else false.

(** store / load of n scalars by a single work item *)
Definition put (base : nat) (vs : list R) (buf : list R) : res (list R) :=
  rfold (fun iv b => aset b (base + fst iv) (snd iv)) (combine (seq 0 (length vs)) vs) buf.
Definition fetch (base n : nat) (buf : list R) : res (list R) :=
  rfold (fun i acc => v <- aget buf (base + i) ;; Ok (acc ++ [v])) (seq 0 n) [].

Record sg_env := {
  se_leaf : list nat; se_mass : nat -> list R; se_up : nat -> list nat;              (* compute_tree_mass_moments *)
  se_dtt : dtt_env; se_impl : dtt_impl;
  se_m2l : list nat; se_grav : nat -> list R; se_down : nat -> list nat;             (* M2L, L2L *)
  se_l2p : list nat;
  se_count : list nat; se_scat : list nat; se_cont : nat -> list nat; se_sort : list nat; (* inverted list *)
  se_range_sort : list nat -> nat -> nat -> res (list nat);
  se_p2p : list nat }.

Section Sgfmm.
  Context (o : mmorder) (B : @bvh R) (xyz : list (vec R)).
  Let cells := b_cells B.
  Let off := length cells.                                       (* get_internal_cell_count *)

  (** AABB{aabb_min[id], aabb_max[id]}.get_center() (AABB.hpp:174) *)
  Definition center (id : nat) : res vec3 :=
    bx <- box_read B id ;; Ok (v3div (v3add (tov (fst bx)) (tov (snd bx))) 2).

  (** ** compute_tree_mass_moments.hpp:44-83: moments of the leaves *)
  Definition leaf_moment (gm : R) (i : nat) : res (MassMoments o) :=
    sB <- center (i + off) ;;
    ids <- for_each_in_leaf_cell (b_map B) (b_red B) i ;;
    Q <- rfold (fun j Q => p <- aget xyz j ;; Ok (mass_acc o Q (mass_from_vec o (v3sub (tov p) sB)))) ids (mass_zeros o) ;;
    Ok (mass_scale o Q gm).
  Definition fill_moments (order : list nat) (gm : R) (buf : list R) : res (list R) :=
    kernel_call (b_leafs B) order (fun i buf => Q <- leaf_moment gm i ;; put ((i + off) * mass_terms o) (mass_out o Q) buf) buf.
  (** compute_tree_mass_moments.hpp:95-134: one work item of the upward step *)
  Definition up_prog (g : nat) : prog R :=
    match (l <- get_left_child cells off g ;; r <- get_right_child cells off g ;;
           lc <- center l ;; rc <- center r ;; c <- center g ;; Ok (l, r, lc, rc, c)) with
    | Ok (l, r, lc, rc, c) =>
        rdn (mass_terms o) (l * mass_terms o) [] (fun ql =>
        rdn (mass_terms o) (r * mass_terms o) [] (fun qr =>
        wrn (mass_out o (mass_acc o (mass_acc o (mass_zeros o) (offset_multipole o (mass_in o ql) lc c))
                           (offset_multipole o (mass_in o qr) rc c))) (g * mass_terms o) Done))
    | _ => Fault
    end.
  Fixpoint up_loop (sched : nat -> list nat) (i todo : nat) (buf : list R) : res (list R) :=
    match todo with
    | O => Ok buf
    | S k => if off =? 0 then Throw else m <- irun (map up_prog (seq 0 off)) (sched i) ([], buf) ;; up_loop sched (S i) k (snd m)
    end.
  (** compute_tree_mass_moments.hpp:27-143; [depth] is bvh.structure.tree_depth *)
  Definition compute_tree_mass_moments (depth : nat) (env : sg_env) (gm : R) : res (list R) :=
    buf <- fill_moments (se_leaf env) gm (se_mass env (total_cell_count B * mass_terms o)) ;;
    if off =? 0 then Ok buf else up_loop (se_up env) 0 depth buf.

  (** ** SGSFMMPlummer.cpp:94-147: M2L *)
  Definition m2l_cell (m2l : list ipair) (offs : list Z) (mass : list R) (id : nat) : res (GravMoments o) :=
    sA <- center id ;;
    s <- aget offs id ;; e <- aget offs (id + 1) ;;
    rfold (fun i dM =>
      p <- aget m2l i ;;
      if fst p =? id then
        q <- fetch (snd p * mass_terms o) (mass_terms o) mass ;;
        sB <- center (snd p) ;;
        Ok (grav_acc o dM (get_dM_mat o (green_der o (v3sub sB sA)) (mass_in o q)))
      else UB (* SHAM_ASSERT *)) (seq (Z.to_nat s) (Z.to_nat e - Z.to_nat s)) (grav_zeros o).
  Definition m2l_kernel (order : list nat) (m2l : list ipair) (offs : list Z) (mass buf : list R) : res (list R) :=
    kernel_call (total_cell_count B) order (fun id buf =>
      dM <- m2l_cell m2l offs mass id ;; put (id * grav_terms o) (grav_out o dM) buf) buf.

  (** ** SGSFMMPlummer.cpp:149-221: L2L.  One work item of one pass: the reads of the flags short-circuit *)
  Definition down_prog (g : nat) : prog R :=
    match (l <- get_left_child cells off g ;; r <- get_right_child cells off g ;;
           c <- center g ;; lc <- center l ;; rc <- center r ;; Ok (l, r, c, lc, rc)) with
    | Ok (l, r, c, lc, rc) =>
        RdF g (fun f => if f =? 1 then
        RdF l (fun fl => if fl =? 0 then
        RdF r (fun fr => if fr =? 0 then
          rdn (grav_terms o) (g * grav_terms o) [] (fun my =>
          rdn (grav_terms o) (l * grav_terms o) [] (fun ml =>
          rdn (grav_terms o) (r * grav_terms o) [] (fun mr =>
          wrn (grav_out o (grav_acc o (grav_in o ml) (offset_dM_mat o (grav_in o my) c lc))) (l * grav_terms o) (
          wrn (grav_out o (grav_acc o (grav_in o mr) (offset_dM_mat o (grav_in o my) c rc))) (r * grav_terms o) (
          WrF l 1 (WrF r 1 Done))))))
        else Done) else Done) else Done)
    | _ => Fault
    end.
  (** kernel_call throws when there is no internal cell (kernel_call.hpp:44-46) *)
  Fixpoint down_loop (sched : nat -> list nat) (i todo : nat) (m : mem R) : res (mem R) :=
    match todo with
    | O => Ok m
    | S k => if off =? 0 then Throw else m <- irun (map down_prog (seq 0 off)) (sched i) m ;; down_loop sched (S i) k m
    end.
  Definition l2l (depth : nat) (sched : nat -> list nat) (grav : list R) : res (list R) :=
    flags <- aset (repeat 0 (total_cell_count B)) 0 1 ;;
    m <- down_loop sched 0 depth (flags, grav) ;; Ok (snd m).

  (** ** SGSFMMPlummer.cpp:223-263: L2P *)
  Definition l2p (order : list nat) (G : R) (grav : list R) (axyz : list vec3) : res (list vec3) :=
    kernel_call (b_leafs B) order (fun i ax =>
      q <- fetch ((i + off) * grav_terms o) (grav_terms o) grav ;;
      sA <- center (i + off) ;;
      ids <- for_each_in_leaf_cell (b_map B) (b_red B) i ;;
      rfold (fun j ax =>
        p <- aget xyz j ;; a <- aget ax j ;;
        aset ax j (v3add a (vscal (- G) (contract_to_force o (mass_from_vec o (v3sub (tov p) sA)) (grav_in o q))))) ids ax) axyz.

  (** ** SGSFMMPlummer.cpp:427-570: P2P through the inverted list *)
  (** the pairs (cell, particle below it), as enumerated by for_each_in_cell over all the cells *)
  Definition incidences : res (list (nat * nat)) :=
    rfold (fun c acc => ids <- for_each_in_cell (b_map B) (b_red B) cells c ;; Ok (acc ++ map (pair c) ids)) (seq 0 (total_cell_count B)) [].
  (** lines 437-453: atomic counting; the atomic operations of all the work items occur in any order *)
  Definition count_cells (order : list nat) (inc : list (nat * nat)) (cpp : list Z) : res (list Z) :=
    rfold (fun e cpp => ci <- aget inc e ;; v <- aget cpp (snd ci) ;; aset cpp (snd ci) (w32 (v + 1))) order cpp.
  (** lines 471-499: atomic scatter *)
  Definition scatter_cells (order : list nat) (inc : list (nat * nat)) (offs : list Z) (st : list Z * list nat) : res (list Z * list nat) :=
    rfold (fun e st => ci <- aget inc e ;; r <- aget (fst st) (snd ci) ;; t <- aset (fst st) (snd ci) (w32 (r + 1)) ;;
      b <- aget offs (snd ci) ;; c <- aset (snd st) (Z.to_nat (w32 (r + b))) (fst ci) ;; Ok (t, c)) order st.
  (** lines 556-563 *)
  Definition p2p_term (G gm eps2 : R) (xi xj : vec3) : vec3 :=
    let r := v3sub xj xi in
    let r_inv := (/ sqrt (vx r * vx r + vy r * vy r + vz r * vz r + eps2))%R in
    vscal (G * gm * r_inv * r_inv * r_inv) r.
  (** lines 526-569 *)
  Definition p2p_item (G gm eps2 : R) (offs : list Z) (cont : list nat) (p2p : list ipair) (offp : list Z) (a : nat) : res vec3 :=
    s <- aget offs a ;; e <- aget offs (a + 1) ;;
    rfold (fun k f =>
      icell <- aget cont k ;;
      s2 <- aget offp icell ;; e2 <- aget offp (icell + 1) ;;
      rfold (fun j f =>
        p <- aget p2p j ;;
        if fst p =? icell then
          ids <- for_each_in_cell (b_map B) (b_red B) cells (snd p) ;;
          rfold (fun j f => xj <- aget xyz j ;; xi <- aget xyz a ;; Ok (v3add f (p2p_term G gm eps2 (tov xi) (tov xj)))) ids f
        else UB (* SHAM_ASSERT *)) (seq (Z.to_nat s2) (Z.to_nat e2 - Z.to_nat s2)) f)
      (seq (Z.to_nat s) (Z.to_nat e - Z.to_nat s)) (mkv 0 0 0).
  Definition p2p (env : sg_env) (G gm eps2 : R) (pairs : list ipair) (offp : list Z) (axyz : list vec3) : res (list vec3) :=
    let npart := length xyz in
    cpp <- fill_prefix 0 (npart + 1) (repeat 0%Z (npart + 1)) ;;
    inc <- incidences ;;
    cpp <- (if total_cell_count B =? 0 then Throw else count_cells (se_count env) inc cpp) ;;
    offs <- scan_exclusive_sum_in_place (de_scan_ip (se_dtt env)) cpp (npart + 1) ;;
    tot <- aget offs npart ;;
    tmp <- fill_prefix 0 (npart + 1) (repeat 0%Z (npart + 1)) ;;
    tc <- scatter_cells (se_scat env) inc offs (tmp, se_cont env (Z.to_nat tot)) ;;
    cont <- segmented_sort_in_place (se_range_sort env) (se_sort env) (snd tc) (map Z.to_nat offs) ;;
    kernel_call npart (se_p2p env) (fun a ax =>
      f <- p2p_item G gm eps2 offs cont pairs offp a ;; v <- aget ax a ;; aset ax a (v3add v f)) axyz.

  (** ** SGSFMMPlummer.cpp:63-574, after the construction of the tree.  [depth] = tree_depth, [bcap] = number of
      significant bits of the codes *)
  Definition sgsfmm (leb : R -> R -> bool) (mac : vec R * vec R -> vec R * vec R -> bool) (low : bool)
      (depth bcap : nat) (env : sg_env) (G gm eps : R) (axyz : list vec3) : res (list vec3) :=
    mass <- compute_tree_mass_moments depth env gm ;;
    r <- clbvh_dual_tree_traversal leb mac B bcap (se_dtt env) (se_impl env) true low ;;
    match snd r with
    | None => UB (* std::optional not set *)
    | Some (om, oq) =>
        grav <- m2l_kernel (se_m2l env) (fst (fst r)) om mass (se_grav env (total_cell_count B * grav_terms o)) ;;
        grav <- l2l depth (se_down env) grav ;;
        axyz <- l2p (se_l2p env) G grav axyz ;;
        p2p env G gm (eps * eps) (snd (fst r)) oq axyz
    end.
End Sgfmm.
