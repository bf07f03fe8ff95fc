(** Model of the compressed leaf BVH: construction pipeline, cell boxes and object traversal.
    src/shamtree/src/CompressedLeafBVH.cpp:31-135, MortonCodeSet.cpp:63-117, MortonCodeSortedSet.cpp:23-50,
    KarrasRadixTree.cpp:148-178, KarrasRadixTreeAABB.cpp:20-183, and the headers LeafCellIterator.hpp:26-51,
    CellIterator.hpp:27-75, CLBVHObjectIterator.hpp:73-170.

    Simplifications.  [C] is the type of the coordinates with the comparison <=, f64_3 is a triple of them:
    the code only compares and copies coordinates.  The map from a position to its Morton code
    (clamp, CoordRangeTransform, icoord_to_morton) is the parameter [code].  Buffers are lists; recycled
    buffers are resized by the code to the size of the result and their old contents are arbitrary lists of
    that size, given by the environment. *)
From Verif Require Import Base Integer Morton Karras Par Reduction Bitonic Traverse.
Local Open Scope nat_scope.

Section BVH.
  Context {C : Type} (leb : C -> C -> bool).
  Definition vec : Type := C * C * C.
  (** sham::min / sham::max (shambackends/math.hpp:392-419, 521-528): component by component *)
  Definition cmin (a b : C) : C := if leb b a then b else a.
  Definition cmax (a b : C) : C := if leb a b then b else a.
  Definition vlift (f : C -> C -> C) (a b : vec) : vec :=
    let '(x, y, z) := a in let '(x', y', z') := b in (f x x', f y y', f z z').
  Definition vmin : vec -> vec -> vec := vlift cmin.
  Definition vmax : vec -> vec -> vec := vlift cmax.

  (** what the caller does not control: orders of the work items, contents of recycled memory *)
  Record bvh_env := {
    e_o1 : list nat; e_o2 : list nat; e_codes : nat -> list N;                      (* code kernels *)
    e_oi : nat -> list nat; e_map : nat -> list nat;                                 (* fill_buffer_index *)
    e_sort : nat -> nat -> nat -> list nat; e_stencil : nat;                         (* sort_by_key *)
    e_red : red_env;                                                                 (* leaf compression *)
    e_karras : nat -> list nat; e_cells : nat -> list cell;                          (* radix tree *)
    e_leaf : nat -> list nat; e_min : nat -> list vec; e_max : nat -> list vec;      (* leaf boxes *)
    e_prop : nat -> nat -> list nat                                                  (* i-th propagation *) }.

  Record bvh := mkbvh { b_map : list nat; b_red : list nat; b_leafs : nat; b_codes : list N;
                        b_cells : list cell; b_min : list vec; b_max : list vec }.

  (** morton_code_set_from_positions (MortonCodeSet.cpp:63-117): codes, then padding with [err] *)
  Definition morton_code_set (code : vec -> N) (err : N) (o1 o2 : list nat) (old : list N) (pos : list vec) (cnt mcnt : nat)
    : res (list N) :=
    if mcnt <? cnt then Throw else
    m <- kernel_call cnt o1 (fun i out => v <- (p <- aget pos i ;; Ok (code p)) ;; aset out i v) old ;;
    if cnt <? mcnt then kernel_call (mcnt - cnt) o2 (fun i out => aset out (cnt + i) err) m else Ok m.

  (** fill_buffer_index (shamalgs/src/primitives/gen_buffer_index.cpp:23-38) *)
  Definition fill_buffer_index (order : list nat) (buf : list nat) (len : nat) : res (list nat) :=
    if length buf <? len then Throw else
    if len =? 0 then Ok buf else
    kernel_call len order (fun i out => aset out i i) buf.
  (** sort_morton_set (MortonCodeSortedSet.cpp:23-50): sorted codes and sorted-index -> object map *)
  Definition sort_morton_set (oi : list nat) (sort : nat -> nat -> nat -> list nat) (stencil : nat) (oldmap : list nat)
    (codes : list N) (mcnt : nat) : res (list N * list nat) :=
    idx <- fill_buffer_index oi oldmap mcnt ;;
    sort_by_key N.ltb stencil mcnt sort codes idx.

  (** LeafCellIteratorAccessed::for_each_in_leaf_cell (LeafCellIterator.hpp:38-51): the ids passed to the
      functor, in order *)
  Definition for_each_in_leaf_cell (map red : list nat) (k : nat) : res (list nat) :=
    a <- aget red k ;; b <- aget red (k + 1) ;; gather map (seq a (b - a)).
  (** CellIteratorAccessed::for_each_in_cell (CellIterator.hpp:42-74) *)
  Definition for_each_in_cell (map red : list nat) (cells : list cell) (id : nat) : res (list nat) :=
    let off := length cells in
    let is_leaf := off <=? id in
    let cbeg := if is_leaf then id - off else id in
    cend <- (if is_leaf then Ok cbeg else c <- aget cells cbeg ;; Ok (Z.to_nat (endrange c))) ;;
    a <- aget red (Nat.min cbeg cend) ;; b <- aget red (Nat.max cbeg cend + 1) ;; gather map (seq a (b - a)).

  (** the kernel of compute_tree_aabb_from_position_ranges (KarrasRadixTreeAABB.cpp:151-178); the version from
      positions (lines 101-133) is the case lo = hi.  [vtop] is get_max(), [vbot] is -get_max(). *)
  Definition leaf_box (vtop vbot : vec) (map red : list nat) (lo hi : list vec) (k : nat) : res (vec * vec) :=
    ids <- for_each_in_leaf_cell map red k ;;
    rfold (fun o (s : vec * vec) => p <- aget lo o ;; q <- aget hi o ;; Ok (vmin (fst s) p, vmax (snd s) q)) ids (vtop, vbot).
  Definition fill_leafs (vtop vbot : vec) (order : list nat) (map red : list nat) (lo hi : list vec) (off leafs : nat)
    (mn mx : list vec) : res (list vec * list vec) :=
    kernel_call leafs order (fun i (s : list vec * list vec) =>
      bx <- leaf_box vtop vbot map red lo hi i ;;
      mn <- aset (fst s) (off + i) (fst bx) ;; mx <- aset (snd s) (off + i) (snd bx) ;; Ok (mn, mx)) (mn, mx).

  (** one memory access of work item g of the propagation kernel (KarrasRadixTreeAABB.cpp:48-66): four reads of
      the boxes of the children, then two writes.  The kernel works in place, so the accesses of different work
      items interleave: [th] holds, for each work item, how far it is and what it has read. *)
  Definition prop_state : Type := (list vec * list vec) * list (nat * list vec).
  Definition prop_access (cells : list cell) (g : nat) (st : prop_state) : res prop_state :=
    let '((mn, mx), th) := st in
    let off := length cells in
    pv <- aget th g ;;
    l <- get_left_child cells off g ;; r <- get_right_child cells off g ;;
    match pv with
    | (0, vs) => v <- aget mn l ;; th <- aset th g (1, vs ++ [v]) ;; Ok ((mn, mx), th)
    | (1, vs) => v <- aget mn r ;; th <- aset th g (2, vs ++ [v]) ;; Ok ((mn, mx), th)
    | (2, vs) => v <- aget mx l ;; th <- aset th g (3, vs ++ [v]) ;; Ok ((mn, mx), th)
    | (3, vs) => v <- aget mx r ;; th <- aset th g (4, vs ++ [v]) ;; Ok ((mn, mx), th)
    | (4, [a; b; c; d]) => mn <- aset mn g (vmin a b) ;; th <- aset th g (5, [a; b; c; d]) ;; Ok ((mn, mx), th)
    | (5, [a; b; c; d]) => mx <- aset mx g (vmax c d) ;; th <- aset th g (6, [a; b; c; d]) ;; Ok ((mn, mx), th)
    | _ => UB
    end.
  (** [sched]: the work item doing each successive access *)
  Definition prop_step (cells : list cell) (sched : list nat) (m : list vec * list vec) : res (list vec * list vec) :=
    if length cells =? 0 then Throw else
    st <- rfold (prop_access cells) sched (m, repeat (0, []) (length cells)) ;; Ok (fst st).
  (** propagate_aabb_up (KarrasRadixTreeAABB.cpp:33-72) *)
  Fixpoint prop_loop (cells : list cell) (sched : nat -> list nat) (i todo : nat) (m : list vec * list vec)
    : res (list vec * list vec) :=
    match todo with O => Ok m | S k => m <- prop_step cells (sched i) m ;; prop_loop cells sched (S i) k m end.
  Definition propagate_aabb_up (cells : list cell) (tree_depth : nat) (sched : nat -> list nat) (m : list vec * list vec)
    : res (list vec * list vec) :=
    if length cells =? 0 then Ok m else prop_loop cells sched 0 tree_depth m.

  (** internal_rebuild_from_positions_no_aabb (CompressedLeafBVH.cpp:32-75) followed by
      compute_tree_aabb_from_position_ranges (KarrasRadixTreeAABB.cpp:20-31, 74-90, 140-183).
      [w] is the number of bits of the code type, tree_depth = bitsizeof<Tmorton> (KarrasRadixTree.cpp:143-146).
      The codes are computed from [lo]. *)
  Definition rebuild (w : N) (code : vec -> N) (err : N) (vtop vbot : vec) (env : bvh_env)
    (lo hi : list vec) (cnt level : nat) : res bvh :=
    if cnt =? 0 then Throw else
    let mcnt := N.to_nat (roundup_pow2_32 (N.of_nat cnt)) in
    codes <- morton_code_set code err (e_o1 env) (e_o2 env) (e_codes env mcnt) lo cnt mcnt ;;
    '(keys, map) <- sort_morton_set (e_oi env mcnt) (e_sort env) (e_stencil env) (e_map env mcnt) codes mcnt ;;
    '(red, leafs, rcodes) <- reduce_morton_set w (e_red env) cnt keys level ;;
    let internal := length rcodes - 1 in
    cells <- karras_alg w rcodes (e_karras env internal) (e_cells env internal) ;;
    let total := length cells + (length cells + 1) in
    mm <- fill_leafs vtop vbot (e_leaf env (length cells + 1)) map red lo hi (length cells) (length cells + 1)
            (e_min env total) (e_max env total) ;;
    mm <- propagate_aabb_up cells (N.to_nat w) (e_prop env (length cells)) mm ;;
    Ok (mkbvh map red leafs rcodes cells (fst mm) (snd mm)).
  (** rebuild_from_positions (lines 77-95, 117-123) *)
  Definition rebuild_from_positions w code err vtop vbot env (pos : list vec) (cnt level : nat) : res bvh :=
    rebuild w code err vtop vbot env pos pos cnt level.
  (** rebuild_from_position_range on whole buffers (lines 125-135) *)
  Definition rebuild_from_position_range w code err vtop vbot env (lo hi : list vec) (level : nat) : res bvh :=
    if negb (length lo =? length hi) then Throw else rebuild w code err vtop vbot env lo hi (length lo) level.

  (** CLBVHObjectIteratorAccessed::rtree_for (CLBVHObjectIterator.hpp:126-140, 158-169): the objects passed to
      the functor.  The condition receives the node id and its box; it is a pure function here (in the code it
      may also look at what the functor did before).  Reading a box outside of the buffers is UB: such a node
      is made to be excluded, then detected in the log. *)
  Definition box_at (b : bvh) (id : nat) : option (vec * vec) :=
    match nth_error (b_min b) id, nth_error (b_max b) id with Some p, Some q => Some (p, q) | _, _ => None end.
  Definition node_cond (b : bvh) (cond : nat -> vec * vec -> bool) (id : nat) : bool :=
    match box_at b id with Some bx => cond id bx | None => false end.
  Definition event_id (e : event) : nat := match e with Found i => i | Excluded i => i end.
  Fixpoint found_objects (b : bvh) (log : list event) : res (list nat) :=
    match log with
    | [] => Ok []
    | e :: t =>
        match box_at b (event_id e) with
        | None => UB
        | Some _ =>
            ids <- match e with
                   | Found id => for_each_in_leaf_cell (b_map b) (b_red b) (id - length (b_cells b))
                   | Excluded _ => Ok []
                   end ;;
            r <- found_objects b t ;; Ok (ids ++ r)
        end
    end.
  Definition rtree_for (depth : nat) (b : bvh) (cond : nat -> vec * vec -> bool) (garbage : list N) : res (list nat) :=
    log <- stack_based_traversal depth (b_cells b) (node_cond b cond) 0 garbage ;;
    found_objects b log.
End BVH.
Arguments vec C : clear implicits.
