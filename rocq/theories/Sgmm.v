(** Model of the other self gravity modes of the SPH solver:
    src/shammodels/sph/src/modules/self_gravity/SGDirectPlummer.cpp, SGMMPlummer.cpp and SGFMMPlummer.cpp.

    Same simplifications as Sgfmm.v: real scalars, the tree of C33, lists for the buffers.  Work items of the
    kernels only write their own particles and run in any order; in the tiled direct sum the items of a work group
    run in any order between two barriers. *)
Require Import Reals.
From Verif Require Import Fmm_tensors Fmm_ops Fmm_spec Fmm_orders.
From Verif Require Import Base Karras Traverse Reduction Scan SortSearch BVH Dtt Interleave Sgfmm.
Local Open Scope nat_scope.

(** [gpart_mass * r_inv * r_inv * r_inv * R] (SGDirectPlummer.cpp:53-57, SGMMPlummer.cpp:118-122) *)
Definition plummer_term (m eps2 : R) (xi xj : vec3) : vec3 :=
  let r := v3sub xj xi in
  let r_inv := (/ sqrt (vx r * vx r + vy r * vy r + vz r * vz r + eps2))%R in
  vscal (m * r_inv * r_inv * r_inv) r.

Section Direct.
  Context (xyz : list (vec R)).
  Let n := length xyz.
  (** ** SGDirectPlummer.cpp:42-64, reference mode *)
  Definition direct_ref_item (gm eps2 : R) (i : nat) : res vec3 :=
    rfold (fun j f => if i =? j then Ok f else xj <- aget xyz j ;; xi <- aget xyz i ;; Ok (v3add f (plummer_term gm eps2 (tov xi) (tov xj))))
      (seq 0 n) (mkv 0 0 0).
  Definition direct_ref (G gm eps2 : R) (axyz : list vec3) : res (list vec3) :=
    rfold (fun i ax => f <- direct_ref_item gm eps2 i ;; a <- aget ax i ;; aset ax i (v3add a (vscal G f))) (seq 0 n) axyz.

  (** ** SGDirectPlummer.cpp:66-128, tiled mode.  One work group [g] of 32 items.  State: the scratch (position, mass)
      and the private force of each item.  [o1], [o2]: order of the items before and after the barrier, for each tile *)
  Definition group_size : nat := 32.
  Definition scratch := list (vec3 * R).
  Definition load_item (gm : R) (offset : nat) (l : nat) (s : scratch) : res scratch :=
    if offset + l <? n then p <- aget xyz (offset + l) ;; aset s l (tov p, gm)
    else aset s l (mkv 0 0 0, 0%R).
  Definition accum_item (eps2 : R) (g offset : nat) (my : list vec3) (s : scratch) (l : nat) (force : list vec3) : res (list vec3) :=
    p <- aget my l ;; f0 <- aget force l ;;
    f <- rfold (fun i f => e <- aget s i ;;
           Ok (if g * group_size + l =? offset + i then f else v3add f (plummer_term (snd e) eps2 p (fst e)))) (seq 0 group_size) f0 ;;
    aset force l f.
  (** the loop over the tiles (lines 99-121), u32 offset; out of fuel = the loop does not end *)
  Fixpoint tile_loop (fuel : nat) (gm eps2 : R) (g : nat) (my : list vec3) (o1 o2 : nat -> list nat) (offset : Z) (s : scratch) (force : list vec3)
      : res (list vec3) :=
    if (offset <? Z.of_nat n)%Z then
      match fuel with
      | O => UB
      | S k =>
          let offs := Z.to_nat offset in
          s <- rfold (load_item gm offs) (o1 offs) s ;;
          force <- rfold (accum_item eps2 g offs my s) (o2 offs) force ;;
          tile_loop k gm eps2 g my o1 o2 (w32 (offset + Z.of_nat group_size)) s force
      end
    else Ok force.
  (** [scr]: initial content of the local memory of the group *)
  Definition group_run (G gm eps2 : R) (o1 o2 : nat -> list nat) (o3 : list nat) (scr : scratch) (g : nat) (ax : list vec3) : res (list vec3) :=
    my <- rfold (fun l acc => p <- (if g * group_size + l <? n then p <- aget xyz (g * group_size + l) ;; Ok (tov p) else Ok (mkv 0 0 0)) ;; Ok (acc ++ [p]))
            (seq 0 group_size) [] ;;
    force <- tile_loop (n / group_size + 2) gm eps2 g my o1 o2 0 scr (repeat (mkv 0 0 0) group_size) ;;
    rfold (fun l ax => if g * group_size + l <? n then
             f <- aget force l ;; a <- aget ax (g * group_size + l) ;; aset ax (g * group_size + l) (v3add a (vscal G f)) else Ok ax) o3 ax.
  (** integer.hpp:125-127, u32 *)
  Definition group_count : nat := Z.to_nat (w32 (Z.of_nat n + Z.of_nat group_size - 1) / Z.of_nat group_size).
  Record direct_env := { de_groups : nat -> list nat; de_load : nat -> nat -> list nat; de_accum : nat -> nat -> list nat; de_write : nat -> list nat; de_scr : nat -> scratch }.
  Definition direct_tiled (env : direct_env) (G gm eps2 : R) (axyz : list vec3) : res (list vec3) :=
    rfold (fun g ax => group_run G gm eps2 (de_load env g) (de_accum env g) (de_write env g) (de_scr env g) g ax) (de_groups env group_count) axyz.
End Direct.

Section Mm.
  Context (o : mmorder) (B : @bvh R) (xyz : list (vec R)).
  Let cells := b_cells B.
  Let off := length cells.

  (** ** The opening test, SGMMPlummer.cpp:89-110 (h = 0, s the position of the particle) and
      SGFMMPlummer.cpp:101-122 (s, h: centre and half size of the leaf) *)
  Definition open_node (theta_crit : R) (s : vec3) (h : R) (bx : vec R * vec R) : bool :=
    let s_B := v3div (v3add (tov (fst bx)) (tov (snd bx))) 2 in
    let sz_B := (max_component (v3sub (tov (snd bx)) (tov (fst bx))) / 2)%R in
    let r := v3sub s_B s in
    let r_sq := (vx r * vx r + vy r * vy r + vz r * vz r)%R in
    let theta := if Req_EM_T r_sq 0 then (theta_crit * 2)%R else ((sz_B + h) * / sqrt r_sq)%R in
    if Rlt_dec theta_crit theta then true else false.

  (** ** SGMMPlummer.cpp:72-155, one particle *)
  Definition mm_item (theta gm eps2 : R) (mass : list R) (sd : nat) (garbage : list N) (i : nat) : res vec3 :=
    xi <- aget xyz i ;;
    log <- stack_based_traversal sd cells (node_cond B (fun _ => open_node theta (tov xi) 0)) 0 garbage ;;
    rfold (fun e f => match e with
      | Found id =>
          ids <- for_each_in_leaf_cell (b_map B) (b_red B) (id - off) ;;
          rfold (fun j f => xj <- aget xyz j ;; Ok (v3add f (plummer_term gm eps2 (tov xi) (tov xj)))) ids f
      | Excluded id =>
          s_B <- center B id ;;
          q <- fetch (id * mass_terms o) (mass_terms o) mass ;;
          Ok (v3sub f (contract_to_force o (mass_in o q) (green_der o (v3sub s_B (tov xi)))))
      end) log (mkv 0 0 0).
  (** lines 40-156, after the construction of the tree; [sd] = significant_bits + 1 *)
  Definition sgmm (depth sd : nat) (env : sg_env) (order : list nat) (garbage : nat -> list N) (theta G gm eps : R) (axyz : list vec3) : res (list vec3) :=
    mass <- compute_tree_mass_moments o B xyz depth env gm ;;
    kernel_call (length xyz) order (fun i ax =>
      f <- mm_item theta gm (eps * eps) mass sd (garbage i) i ;; a <- aget ax i ;; aset ax i (v3add a (vscal G f))) axyz.

  (** ** SGFMMPlummer.cpp:83-176, one leaf: the accelerations and the expansion of the leaf *)
  Definition fmm_event (G gm eps2 : R) (mass : list R) (ileaf : nat) (s_A : vec3) (e : event) (st : list vec3 * GravMoments o)
      : res (list vec3 * GravMoments o) :=
    match e with
    | Found id =>
        js <- for_each_in_leaf_cell (b_map B) (b_red B) (id - off) ;;
        ax <- rfold (fun j ax =>
                is <- for_each_in_leaf_cell (b_map B) (b_red B) ileaf ;;
                rfold (fun i ax => xj <- aget xyz j ;; xi <- aget xyz i ;; a <- aget ax i ;;
                  aset ax i (v3add a (p2p_term G gm eps2 (tov xi) (tov xj)))) is ax) js (fst st) ;;
        Ok (ax, snd st)
    | Excluded id =>
        s_B <- center B id ;;
        q <- fetch (id * mass_terms o) (mass_terms o) mass ;;
        Ok (fst st, grav_acc o (snd st) (get_dM_mat o (green_der o (v3sub s_B s_A)) (mass_in o q)))
    end.
  Definition fmm_item (theta G gm eps2 : R) (mass : list R) (sd : nat) (garbage : list N) (ileaf : nat) (ax : list vec3) : res (list vec3) :=
    bx <- box_read B (ileaf + off) ;;
    s_A <- center B (ileaf + off) ;;
    let sz_A := (max_component (v3sub (tov (snd bx)) (tov (fst bx))) / 2)%R in
    log <- stack_based_traversal sd cells (node_cond B (fun _ => open_node theta s_A sz_A)) 0 garbage ;;
    st <- rfold (fmm_event G gm eps2 mass ileaf s_A) log (ax, grav_zeros o) ;;
    is <- for_each_in_leaf_cell (b_map B) (b_red B) ileaf ;;
    rfold (fun i ax => xi <- aget xyz i ;; a <- aget ax i ;;
      aset ax i (v3add a (vscal (- G) (contract_to_force o (mass_from_vec o (v3sub (tov xi) s_A)) (snd st))))) is (fst st).
  Definition sgfmm (depth sd : nat) (env : sg_env) (order : list nat) (garbage : nat -> list N) (theta G gm eps : R) (axyz : list vec3) : res (list vec3) :=
    mass <- compute_tree_mass_moments o B xyz depth env gm ;;
    kernel_call (b_leafs B) order (fun k ax => fmm_item theta G gm (eps * eps) mass sd (garbage k) k ax) axyz.
End Mm.
