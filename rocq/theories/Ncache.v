(** Model of the construction of the SPH neighbour lists:
    src/shammodels/sph/src/modules/NeighbourCache.cpp, src/shammodels/sph/src/Solver.cpp:1322-1357
    (compute_presteps_rint), src/shamtree/include/shamtree/KarrasRadixTreeField.hpp:132-226 and
    src/shamtree/include/shamtree/TreeTraversal.hpp:456-510 (ObjectCache).

    Simplifications.  Scalars are real numbers (no rounding).  The tree is the one of C33 ([rebuild]).  Work items
    that only write their own entries run in any order ([par_for], [kernel_call]); in the upward passes of the tree
    field, where work items read what others write, every memory access is a step and the steps interleave in any
    way ([irun]).  A walk is run before the functor is applied to what it finds: the conditions do not look at what
    the functors write.  Buffers are lists; the contents of new memory come from the environment.  The debug
    assertions are not modelled, but an access outside of a buffer is [UB]. *)
Require Import Reals.
From Verif Require Import Base Karras Traverse Reduction Bitonic Scan SortSearch BVH Dtt Interleave.
Local Open Scope nat_scope.

Definition rleb (a b : R) : bool := if Rle_dec a b then true else false.
Definition rgtb (a b : R) : bool := if Rgt_dec a b then true else false.

(** Tvec operators *)
Definition vmap2 (f : R -> R -> R) (a b : vec R) : vec R :=
  let '(x, y, z) := a in let '(x', y', z') := b in (f x x', f y y', f z z').
Definition vshift (v : vec R) (s : R) : vec R := let '(x, y, z) := v in ((x + s)%R, (y + s)%R, (z + s)%R).
Definition vdot (a b : vec R) : R := let '(x, y, z) := a in let '(x', y', z') := b in (x * x' + y * y' + z * z')%R.

(** geometry_utils.hpp:127-138 *)
Definition cella_neigh_b (amin amax bmin bmax : vec R) : bool :=
  let '(ax, ay, az) := amin in let '(cx, cy, cz) := amax in
  let '(bx, by', bz) := bmin in let '(dx, dy, dz) := bmax in
  rleb (Rmax ax bx) (Rmin cx dx) && rleb (Rmax ay by') (Rmin cy dy) && rleb (Rmax az bz) (Rmin cz dz).
(** geometry_utils.hpp:70-77 *)
Definition is_coord_in_range_incl_max (p lo hi : vec R) : bool :=
  let '(x, y, z) := p in let '(lx, ly, lz) := lo in let '(hx, hy, hz) := hi in
  (rleb lx x && rleb x hx) && (rleb ly y && rleb y hy) && (rleb lz z && rleb z hz).
(** RadixTree.hpp:801-815 *)
Definition sph_radix_cell_crit (xyz_a amin amax cmin cmax : vec R) (box_int_sz : R) : bool :=
  let bmin := vshift cmin (- box_int_sz) in
  let bmax := vshift cmax box_int_sz in
  cella_neigh_b amin amax cmin cmax || cella_neigh_b xyz_a xyz_a bmin bmax.

(** ** ObjectCache (TreeTraversal.hpp:380-440) *)
Record ocache := mkoc { oc_cnt : list Z; oc_scan : list Z; oc_sum : Z; oc_map : list nat }.
(** prepare_object_cache (TreeTraversal.hpp:456-487); [junk n]: a new buffer of n elements *)
Definition prepare_object_cache (scan : list Z -> nat -> res (list Z)) (junk : nat -> list nat) (counts : list Z) (obj_cnt : nat) : res ocache :=
  if obj_cnt =? 0 then UB else                                        (* element obj_cnt - 1 *)
  last <- aget counts (obj_cnt - 1) ;;
  scanned <- scan counts obj_cnt ;;
  l2 <- aget scanned (obj_cnt - 1) ;;
  let sum := w32 (last + l2) in
  Ok (mkoc counts scanned sum (junk (Z.to_nat sum))).
(** ObjectCacheIterator::for_each_object (TreeTraversal.hpp:504-513): what the functor receives, in order *)
Definition for_each_object (c : ocache) (idx : nat) : res (list nat) :=
  cnt <- aget (oc_cnt c) idx ;;
  offset_start <- aget (oc_scan c) idx ;;
  let last_idx := w32 (offset_start + cnt) in
  gather (oc_map c) (seq (Z.to_nat offset_start) (Z.to_nat last_idx - Z.to_nat offset_start)).

Record nc_env := {
  ne_leaf : list nat; ne_field : nat -> list R; ne_up : nat -> list nat; ne_scale : list nat;   (* tree field *)
  ne_scan : list Z -> nat -> res (list Z);
  ne_stack : nat -> nat -> list N;                                     (* kernel, work item: private stack *)
  ne_l1 : list nat; ne_l2 : list nat; ne_own : list nat; ne_p1 : list nat; ne_p2 : list nat;     (* orders *)
  ne_jz : nat -> list Z; ne_jn : nat -> list nat }.                    (* new buffers *)

Section Ncache.
  Context (B : @bvh R).
  Let cells := b_cells B.
  Let off := length cells.                                             (* get_internal_cell_count *)

  (** ** compute_tree_field_max_field (KarrasRadixTreeField.hpp:189-226); [hmin] is VectorProperties::get_min() *)
  Definition field_leaf (hmin : R) (field : list R) (i : nat) : res R :=
    ids <- for_each_in_leaf_cell (b_map B) (b_red B) i ;;
    rfold (fun j m => v <- aget field j ;; Ok (Rmax m v)) ids hmin.
  Definition fill_field (hmin : R) (order : list nat) (field buf : list R) : res (list R) :=
    kernel_call (b_leafs B) order (fun i buf => v <- field_leaf hmin field i ;; aset buf (off + i) v) buf.
  (** propagate_field_up (lines 132-168), one work item *)
  Definition field_prog (g : nat) : prog R :=
    match (l <- get_left_child cells off g ;; r <- get_right_child cells off g ;; Ok (l, r)) with
    | Ok (l, r) => RdX l (fun fieldl => RdX r (fun fieldr => WrX g (Rmax fieldl fieldr) Done))
    | _ => Fault
    end.
  Fixpoint field_loop (sched : nat -> list nat) (i todo : nat) (buf : list R) : res (list R) :=
    match todo with
    | O => Ok buf
    | S k => m <- irun (map field_prog (seq 0 off)) (sched i) ([], buf) ;; field_loop sched (S i) k (snd m)
    end.
  (** [depth] is tree.tree_depth *)
  Definition compute_tree_field_max_field (depth : nat) (env : nc_env) (hmin : R) (field : list R) : res (list R) :=
    buf <- fill_field hmin (ne_leaf env) field (ne_field env (total_cell_count B)) ;;
    if off =? 0 then Ok buf else field_loop (ne_up env) 0 depth buf.
  (** compute_presteps_rint (Solver.cpp:1322-1357) *)
  Definition compute_presteps_rint (depth : nat) (env : nc_env) (hmin htol : R) (hpart : list R) : res (list R) :=
    f <- compute_tree_field_max_field depth env hmin hpart ;;
    kernel_call (length f) (ne_scale env) (fun i buf => v <- aget buf i ;; aset buf i (v * htol)%R) f.

  Context (xyz : list (vec R)) (hpart : list R) (htol Rkern : R).

  (** the test of NeighbourCache.cpp:119-126, 181-188, 455-462, 521-528 *)
  Definition no_interact (xyz_a : vec R) (rint_a : R) (id_b : nat) : res bool :=
    xyz_b <- aget xyz id_b ;;
    h_b <- aget hpart id_b ;;
    let dr := vmap2 Rminus xyz_a xyz_b in
    let rab2 := vdot dr dr in
    let rint_b := (h_b * htol)%R in
    let Rker2 := (Rkern * Rkern)%R in
    Ok (rgtb rab2 (rint_a * rint_a * Rker2) && rgtb rab2 (rint_b * rint_b * Rker2)).
  (** one call of the functor of the counting kernels and of the filling kernels *)
  Definition count_one (xyz_a : vec R) (rint_a : R) (id_b : nat) (cnt : Z) : res Z :=
    ni <- no_interact xyz_a rint_a id_b ;; Ok (if ni : bool then cnt else w32 (cnt + 1)).
  Definition fill_one (xyz_a : vec R) (rint_a : R) (id_b : nat) (s : list nat * Z) : res (list nat * Z) :=
    ni <- no_interact xyz_a rint_a id_b ;;
    if ni : bool then Ok s else
    neigh <- aset (fst s) (Z.to_nat (snd s)) id_b ;; Ok (neigh, w32 (snd s + 1)).

  (** ** start_neighbors_cache *)
  (** the condition of the walk (lines 100-112, 162-174); reading rint_tree outside of the buffer is UB: the items
      below test its size first *)
  Definition crit_1 (rint_tree : list R) (xyz_a : vec R) (rint_a : R) (node_id : nat) (bx : vec R * vec R) : bool :=
    let int_r_max_cell := (nth node_id rint_tree 0 * Rkern)%R in
    sph_radix_cell_crit xyz_a (vshift xyz_a (- (rint_a * Rkern))) (vshift xyz_a (rint_a * Rkern)) (fst bx) (snd bx) int_r_max_cell.
  Definition enough (rint_tree : list R) : res unit := if length rint_tree <? total_cell_count B then UB else Ok tt.
  (** "compute neigh cache 1" (lines 86-130) *)
  Definition count_item_1 (sd : nat) (stack : list N) (rint_tree : list R) (id_a : nat) : res Z :=
    h_a <- aget hpart id_a ;; xyz_a <- aget xyz id_a ;;
    let rint_a := (h_a * htol)%R in
    _ <- enough rint_tree ;;
    ids <- rtree_for sd B (crit_1 rint_tree xyz_a rint_a) stack ;;
    rfold (count_one xyz_a rint_a) ids 0%Z.
  (** "compute neigh cache 2" (lines 148-195) *)
  Definition fill_item_1 (sd : nat) (stack : list N) (rint_tree : list R) (scanned : list Z) (id_a : nat) (neigh : list nat) : res (list nat) :=
    h_a <- aget hpart id_a ;; xyz_a <- aget xyz id_a ;;
    let rint_a := (h_a * htol)%R in
    cnt <- aget scanned id_a ;;
    _ <- enough rint_tree ;;
    ids <- rtree_for sd B (crit_1 rint_tree xyz_a rint_a) stack ;;
    st <- rfold (fill_one xyz_a rint_a) ids (neigh, cnt) ;; Ok (fst st).
  (** lines 43-208; [sd] is the size of the stack of the walks, significant_bits + 1 *)
  Definition start_neighbors_cache (sd : nat) (env : nc_env) (rint_tree : list R) (obj_cnt : nat) : res ocache :=
    counts <- par_for (ne_p1 env) (fun i out => v <- count_item_1 sd (ne_stack env 0 i) rint_tree i ;; aset out i v) (ne_jz env obj_cnt) ;;
    c <- prepare_object_cache (ne_scan env) (ne_jn env) counts obj_cnt ;;
    neigh <- par_for (ne_p2 env) (fun i out => fill_item_1 sd (ne_stack env 1 i) rint_tree (oc_scan c) i out) (oc_map c) ;;
    Ok (mkoc (oc_cnt c) (oc_scan c) (oc_sum c) neigh).

  (** ** start_neighbors_cache_2stages *)
  (** CLBVHTraverserAccessed::rtree_for (CLBVHObjectIterator.hpp:126-140): the leaves passed to the functor *)
  Fixpoint found_leafs (log : list event) : res (list nat) :=
    match log with
    | [] => Ok []
    | e :: t =>
        match box_at B (event_id e) with
        | None => UB
        | Some _ => r <- found_leafs t ;; Ok (match e with Found id => id :: r | Excluded _ => r end)
        end
    end.
  Definition leaf_rtree_for (sd : nat) (cond : nat -> vec R * vec R -> bool) (stack : list N) : res (list nat) :=
    log <- stack_based_traversal sd cells (node_cond B cond) 0 stack ;; found_leafs log.
  (** the condition of lines 297-310, 383-396 *)
  Definition crit_2 (rint_tree : list R) (leaf_a_rint : R) (a_bmin a_bmax : vec R) (node_id : nat) (bx : vec R * vec R) : bool :=
    let int_r_max_cell := (nth node_id rint_tree 0 * Rkern)%R in
    let ext_bmin := vshift (fst bx) (- int_r_max_cell) in
    let ext_bmax := vshift (snd bx) int_r_max_cell in
    cella_neigh_b a_bmin a_bmax ext_bmin ext_bmax ||
    cella_neigh_b (vshift a_bmin (- leaf_a_rint)) (vshift a_bmax leaf_a_rint) (fst bx) (snd bx).
  (** lines 284-317 *)
  Definition count_leaf (sd : nat) (stack : list N) (rint_tree : list R) (id_a : nat) : res Z :=
    r <- aget rint_tree (off + id_a) ;;
    let leaf_a_rint := (r * Rkern)%R in
    bx <- box_read B (off + id_a) ;;
    _ <- enough rint_tree ;;
    ids <- leaf_rtree_for sd (crit_2 rint_tree leaf_a_rint (fst bx) (snd bx)) stack ;;
    rfold (fun (_ : nat) cnt => Ok (w32 (cnt + 1))) ids 0%Z.
  (** lines 370-403 *)
  Definition fill_leaf (sd : nat) (stack : list N) (rint_tree : list R) (scanned : list Z) (id_a : nat) (neigh : list nat) : res (list nat) :=
    r <- aget rint_tree (off + id_a) ;;
    let leaf_a_rint := (r * Rkern)%R in
    bx <- box_read B (off + id_a) ;;
    cnt <- aget scanned id_a ;;
    _ <- enough rint_tree ;;
    ids <- leaf_rtree_for sd (crit_2 rint_tree leaf_a_rint (fst bx) (snd bx)) stack ;;
    st <- rfold (fun leaf_b (s : list nat * Z) => ng <- aset (fst s) (Z.to_nat (snd s)) leaf_b ;; Ok (ng, w32 (snd s + 1))) ids (neigh, cnt) ;;
    Ok (fst st).
  Definition leaf_cache (sd : nat) (env : nc_env) (rint_tree : list R) : res ocache :=
    let leaf_cnt := b_leafs B in
    counts <- par_for (ne_l1 env) (fun i out => v <- count_leaf sd (ne_stack env 2 i) rint_tree i ;; aset out i v) (ne_jz env leaf_cnt) ;;
    c <- prepare_object_cache (ne_scan env) (ne_jn env) counts leaf_cnt ;;
    neigh <- par_for (ne_l2 env) (fun i out => fill_leaf sd (ne_stack env 3 i) rint_tree (oc_scan c) i out) (oc_map c) ;;
    Ok (mkoc (oc_cnt c) (oc_scan c) (oc_sum c) neigh).
  (** "search particles parent leaf" (lines 425-457): i32_max if no leaf is found *)
  Definition owner_item (sd : nat) (stack : list N) (id_a : nat) : res Z :=
    r_a <- aget xyz id_a ;;
    ids <- leaf_rtree_for sd (fun _ bx => is_coord_in_range_incl_max r_a (fst bx) (snd bx)) stack ;;
    rfold (fun leaf_b (_ : Z) => Ok (w32 (Z.of_nat leaf_b - Z.of_nat off))) ids 2147483647%Z.
  (** the particles of the leaves near the leaf of id_a: lines 512-516, 577-581 *)
  Definition near_particles (lc : ocache) (leaf_own_a : Z) : res (list nat) :=
    leafs <- for_each_object lc (Z.to_nat leaf_own_a) ;;
    rfold (fun leaf_b acc => ids <- for_each_in_leaf_cell (b_map B) (b_red B) (Z.to_nat (w32 (Z.of_nat leaf_b - Z.of_nat off))) ;; Ok (acc ++ ids)) leafs [].
  (** lines 500-531 *)
  Definition count_item_2 (lc : ocache) (owner : list Z) (id_a : nat) : res Z :=
    h_a <- aget hpart id_a ;; xyz_a <- aget xyz id_a ;;
    own <- aget owner id_a ;;
    ids <- near_particles lc own ;;
    rfold (count_one xyz_a (h_a * htol)%R) ids 0%Z.
  (** lines 563-600 *)
  Definition fill_item_2 (lc : ocache) (owner : list Z) (scanned : list Z) (id_a : nat) (neigh : list nat) : res (list nat) :=
    h_a <- aget hpart id_a ;; xyz_a <- aget xyz id_a ;;
    cnt <- aget scanned id_a ;;
    own <- aget owner id_a ;;
    ids <- near_particles lc own ;;
    st <- rfold (fill_one xyz_a (h_a * htol)%R) ids (neigh, cnt) ;; Ok (fst st).
  (** lines 236-612 *)
  Definition start_neighbors_cache_2stages (sd : nat) (env : nc_env) (rint_tree : list R) (obj_cnt : nat) : res ocache :=
    lc <- leaf_cache sd env rint_tree ;;
    owner <- par_for (ne_own env) (fun i out => v <- owner_item sd (ne_stack env 4 i) i ;; aset out i v) (ne_jz env obj_cnt) ;;
    counts <- par_for (ne_p1 env) (fun i out => v <- count_item_2 lc owner i ;; aset out i v) (ne_jz env obj_cnt) ;;
    c <- prepare_object_cache (ne_scan env) (ne_jn env) counts obj_cnt ;;
    neigh <- par_for (ne_p2 env) (fun i out => fill_item_2 lc owner (oc_scan c) i out) (oc_map c) ;;
    Ok (mkoc (oc_cnt c) (oc_scan c) (oc_sum c) neigh).
End Ncache.

(** compute_presteps_rint, then Solver::start_neighbors_cache (Solver.cpp:1359-1367) *)
Definition neighbours (B : @bvh R) (xyz : list (vec R)) (hpart : list R) (hmin htol Rkern : R) (two_stage : bool)
    (depth sd : nat) (env : nc_env) (obj_cnt : nat) : res ocache :=
  rint <- compute_presteps_rint B depth env hmin htol hpart ;;
  if two_stage then start_neighbors_cache_2stages B xyz hpart htol Rkern sd env rint obj_cnt
  else start_neighbors_cache B xyz hpart htol Rkern sd env rint obj_cnt.
