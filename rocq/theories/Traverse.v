(** Model of src/shamtree/include/shamtree/KarrasTreeTraverser.hpp (lines 39-136), and of
    CLBVHTraverserAccessed::traverse_tree_base (CLBVHObjectIterator.hpp:74-139) which calls it with
    tree_depth = MortonCodes::significant_bits + 1.

    The two functors that only report (on_found_leaf, on_excluded_node) are modelled by a log of
    events; traverse_condition is a function of the node id. *)
From Coq Require Import NArith.
From Verif Require Import Base Karras.
Local Open Scope nat_scope.

Inductive event := Found (id : nat) | Excluded (id : nat).

(** get_left_child / get_right_child / is_id_leaf (lines 52-67); u32 arithmetic wraps *)
Definition child_id (offset_leaf : nat) (c : Z) (flag : bool) : nat :=
  Z.to_nat ((c + Z.of_nat offset_leaf * (if flag then 1 else 0)) mod 2 ^ 32).
Definition get_left_child (cells : list cell) (offset_leaf id : nat) : res nat :=
  c <- aget cells id ;; Ok (child_id offset_leaf (lchild c) (lflag c)).
Definition get_right_child (cells : list cell) (offset_leaf id : nat) : res nat :=
  c <- aget cells id ;; Ok (child_id offset_leaf (rchild c) (rflag c)).
Definition is_id_leaf (offset_leaf id : nat) : bool := offset_leaf <=? id.

(** id_stack[stack_cursor - 1] = v; stack_cursor--  (the index wraps below 0: out of bounds) *)
Definition push (stack : list N) (cursor v : nat) : res (list N * nat) :=
  match cursor with
  | O => UB
  | S c => stack <- aset stack c (N.of_nat v) ;; Ok (stack, c)
  end.
Definition nindex : N := 4294967295%N.

(** the while loop (lines 86-117); [fuel] bounds the number of iterations, running out of it is
    modelled as UB (non termination) *)
Fixpoint trav_loop (fuel : nat) (depth : nat) (cells : list cell) (offset_leaf : nat) (cond : nat -> bool)
  (stack : list N) (cursor : nat) (log : list event) : res (list event) :=
  if cursor <? depth then
    match fuel with
    | O => UB
    | S f =>
        v <- aget stack cursor ;;
        let id := N.to_nat v in
        stack <- aset stack cursor nindex ;;
        let cursor := S cursor in
        if cond id then
          if is_id_leaf offset_leaf id then trav_loop f depth cells offset_leaf cond stack cursor (log ++ [Found id])
          else
            lid <- get_left_child cells offset_leaf id ;;
            rid <- get_right_child cells offset_leaf id ;;
            sc <- push stack cursor rid ;;
            sc <- push (fst sc) (snd sc) lid ;;
            trav_loop f depth cells offset_leaf cond (fst sc) (snd sc) log
        else trav_loop f depth cells offset_leaf cond stack cursor (log ++ [Excluded id])
    end
  else Ok log.
(** stack_based_traversal<depth>(root, ...) (lines 70-118).  [garbage] is the initial content of the
    uninitialised stack array.  offset_leaf = get_internal_cell_count() (KarrasRadixTree.hpp:68-75). *)
Definition stack_based_traversal (depth : nat) (cells : list cell) (cond : nat -> bool) (root : nat) (garbage : list N)
  : res (list event) :=
  match depth with
  | O => UB
  | S d =>
      stack <- aset garbage d (N.of_nat root) ;;
      trav_loop (2 * length cells + 2) depth cells (length cells) cond stack d []
  end.
