(** Model of the leaf compression of the sorted Morton codes:
    src/shamtree/src/kernels/reduction_alg.cpp (USM versions; the sycl::buffer versions at 33-60, 143-194,
    246-272 and 297-355 have the same bodies) and src/shamtree/src/MortonReducedSet.cpp:24-73. *)
From Verif Require Import Base Morton Karras Scan Par.
Local Open Scope nat_scope.

(** kernel_call (shambackends/kernel_call.hpp:44-46) throws on an empty range *)
Definition kernel_call {S} (n : nat) (order : list nat) (body : nat -> S -> res S) (s : S) : res S :=
  if n =? 0 then Throw else par_for order body s.

(** sycl_generate_split_table (lines 62-85) *)
Definition split_item (m : list N) (i : nat) : res Z :=
  if 0 <? i then
    a <- aget m (i - 1) ;; b <- aget m i ;;
    if (a =? b)%N then Ok 0%Z else Ok 1%Z
  else Ok 1%Z.
Definition generate_split_table (order : list nat) (cnt : nat) (m : list N) (old : list Z) : res (list Z) :=
  kernel_call cnt order (fun i out => v <- split_item m i ;; aset out i v) old.

(** the scans "while (b <= cnt - 1 && !split_in[b]) b--" (lines 219-227) and "... next1++" (230-232) on u32;
    [step] is -1 or +1.  [fuel] bounds the number of iterations. *)
Fixpoint seek (fuel : nat) (cnt : Z) (split : list Z) (step b : Z) : res Z :=
  if (b <=? u32w (cnt - 1))%Z then
    v <- aget split (Z.to_nat b) ;;
    if (v =? 0)%Z then match fuel with O => UB | S f => seek f cnt split step (u32w (b + step)) end
    else Ok b
  else Ok b.

(** the body of sycl_reduction_iteration (lines 209-243) *)
Definition reduction_item (w : N) (cnt : nat) (m : list N) (split_in : list Z) (i : nat) : res Z :=
  let zc := Z.of_nat cnt in let zi := Z.of_nat i in
  let DELTA := karras_delta w zc (fun k => nth (Z.to_nat k) m 0%N) in
  before1 <- seek cnt zc split_in (-1) (u32w (zi - 1)) ;;
  before2 <- seek cnt zc split_in (-1) (u32w (before1 - 1)) ;;
  next1 <- seek cnt zc split_in 1 (u32w (zi + 1)) ;;
  delt_0 <- DELTA (i32w zi) (i32w next1) ;;
  delt_m <- DELTA (i32w zi) (i32w before1) ;;
  delt_mm <- DELTA (i32w before1) (i32w before2) ;;
  s <- aget split_in i ;;
  Ok (if negb ((delt_0 <? delt_m)%Z && (delt_mm <? delt_m)%Z) && negb (s =? 0)%Z then 1%Z else 0%Z).
Definition reduction_iteration (w : N) (order : list nat) (cnt : nat) (m : list N) (split_in split_out : list Z)
  : res (list Z) :=
  kernel_call cnt order (fun i out => v <- reduction_item w cnt m split_in i ;; aset out i v) split_out.

(** reduction_alg_impl (lines 413-456): the two tables are used alternately; [orders k] is the order of the
    work items of the k-th kernel *)
Fixpoint iterate (w : N) (orders : nat -> list nat) (cnt : nat) (m : list N) (iter : nat) (todo : nat) (t1 t2 : list Z)
  : res (list Z * list Z) :=
  match todo with
  | O => Ok (t1, t2)
  | S k =>
      if iter mod 2 =? 0 then t1' <- reduction_iteration w (orders iter) cnt m t2 t1 ;; iterate w orders cnt m (S iter) k t1' t2
      else t2' <- reduction_iteration w (orders iter) cnt m t1 t2 ;; iterate w orders cnt m (S iter) k t1 t2'
  end.
Definition split_table (w : N) (orders : nat -> list nat) (cnt : nat) (m : list N) (level : nat) (g1 g2 : list Z) : res (list Z) :=
  t1 <- generate_split_table (orders 0) cnt m g1 ;;
  tt <- iterate w orders cnt m 1 level t1 g2 ;;
  Ok (if level mod 2 =? 0 then fst tt else snd tt).

(** update_morton_buf (lines 274-295) *)
Definition morton_buf_item (len val : nat) (src : list nat) (i : nat) : res (option nat) :=
  if i <? len then v <- aget src i ;; Ok (Some v)
  else if i =? len then Ok (Some val)
  else if i =? len + 1 then Ok (Some 0) else Ok None.
Definition update_morton_buf (order : list nat) (len val : nat) (src dest : list nat) : res (list nat) :=
  kernel_call (len + 2) order (fun i out => o <- morton_buf_item len val src i ;;
                               match o with Some v => aset out i v | None => Ok out end) dest.
(** make_indexmap (lines 357-373); stream_compact is stream_compact_excl_scan (numeric.cpp:89-92) *)
Record compact_env := { ce_scan : list Z -> nat -> res (list Z); ce_order : nat -> list nat; ce_garbage : nat -> list nat }.
Definition make_indexmap (ce : compact_env) (order : nat -> list nat) (garbage : nat -> list nat) (cnt : nat) (split : list Z)
  : res (list nat * nat) :=
  buf <- stream_compact_excl_scan (ce_scan ce) (ce_order ce cnt) (ce_garbage ce) split cnt ;;
  let leafs := length buf in
  map <- update_morton_buf (order (leafs + 2)) leafs cnt buf (garbage (leafs + 2)) ;;
  Ok (map, leafs).
(** sycl_morton_remap_reduction (lines 564-585) *)
Definition morton_remap (order : list nat) (leafs : nat) (idmap : list nat) (m : list N) (old : list N) : res (list N) :=
  kernel_call leafs order (fun i out => v <- (k <- aget idmap i ;; aget m k) ;; aset out i v) old.
(** reduce_morton_set (MortonReducedSet.cpp:24-73): index map, number of leaves, reduced codes.
    [codes] may be longer than [cnt] (padding).  [env] gathers everything the caller does not control:
    orders of the work items and contents of fresh memory. *)
Record red_env := { re_orders : nat -> list nat; re_g1 : list Z; re_g2 : list Z; re_ce : compact_env;
                    re_order : nat -> list nat; re_garbage : nat -> list nat; re_old : nat -> list N }.
Definition reduction_alg (w : N) (env : red_env) (cnt : nat) (codes : list N) (level : nat) : res (list nat * nat) :=
  split <- split_table w (re_orders env) cnt codes level (re_g1 env) (re_g2 env) ;;
  make_indexmap (re_ce env) (re_order env) (re_garbage env) cnt split.
Definition reduce_morton_set (w : N) (env : red_env) (cnt : nat) (codes : list N) (level : nat)
  : res (list nat * nat * list N) :=
  '(idmap, leafs) <- reduction_alg w env cnt codes level ;;
  if leafs =? 0 then Throw else
  red <- morton_remap (re_order env leafs) leafs idmap codes (re_old env leafs) ;;
  Ok (idmap, leafs, red).
