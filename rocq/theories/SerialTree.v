(** Model of SerialPatchTree: the patch tree copied into arrays (SerialPatchTree.cpp) and the search of the
    patch that contains a position (SerialPatchTree.hpp:265-366).

    Simplifications: the sycl buffers attached to the two vectors (attach_buf, SerialPatchTree.hpp:46-57)
    have the contents of the vectors; logging is not modelled; the host recursion of get_serial_tree has a
    depth bound [fuel], and running out of it is [UB]. *)
From Verif Require Import Base Par Patch PatchTree Domain.
Local Open Scope Z_scope.

Section Ser.
Context {C : Type}.
Variables (leb ltb : C -> C -> bool).
(** PatchCoordTransform::to_obj_coord(get_patch_range(b)) (PatchCoordTransform.hpp:40-57). *)
Variable to_box : pcoord -> res (range C).

(** SerialPatchNode (PatchTreeNode.hpp:24-29). *)
Record snode := SNode { sn_min : vec3 C; sn_max : vec3 C; sn_childs : list Z }.

(** The variables that get_serial_tree passes by reference (SerialPatchTree.cpp:22-29). *)
Record sstate := SState {
  ss_tree : list snode;          (* result_tree *)
  ss_linked : list (option Z);   (* result_tree_linked_patch_id *)
  ss_counter : Z;                (* u64 counter *)
  ss_level : Z                   (* u32 max_level *)
}.

(** PatchTreeNode::convert (PatchTreeNode.hpp:92-113). *)
Definition convert (n : node) : res snode :=
  r <- to_box (n_box n) ;; Ok (SNode (fst r) (snd r) (n_childs n)).

(** [result_tree.at(id).childs_id[k] = counter] (SerialPatchTree.cpp:60 for k = 0, ... 125 for k = 7). *)
Definition set_child (id : Z) (k : nat) (s : sstate) : res sstate :=
  match nth_error (ss_tree s) (Z.to_nat id) with
  | None => Throw
  | Some m => Ok (SState (upd (ss_tree s) (Z.to_nat id) (SNode (sn_min m) (sn_max m) (upd (sn_childs m) k (ss_counter s))))
                         (ss_linked s) (ss_counter s) (ss_level s))
  end.

(** get_serial_tree (SerialPatchTree.cpp:21-131); the eight recursive calls are a loop over the children. *)
Fixpoint get_serial_tree (fuel : nat) (t : ptree) (key : Z) (s : sstate) : res sstate :=
  match fuel with
  | O => UB
  | S fuel' =>
      ptn <- tget t key ;;
      n <- convert ptn ;;
      let id_nvec := ss_counter s in
      let s := SState (ss_tree s ++ [n]) (ss_linked s ++ [n_linked ptn]) (w64 (ss_counter s + 1))
                      (Z.max (n_level ptn) (ss_level s)) in
      if n_leaf ptn then Ok s
      else rfold (fun kc s => s <- set_child id_nvec (fst kc) s ;; get_serial_tree fuel' t (snd kc) s)
                 (combine (seq 0 8) (n_childs ptn)) s
  end.

(** build_from_patch_tree (SerialPatchTree.cpp:182-196 for f64_3): the arrays and roots_ids. *)
Definition build_from_patch_tree (fuel : nat) (t : ptree) : res (sstate * list Z) :=
  rfold (fun root (sr : sstate * list Z) =>
           let '(s, roots) := sr in
           s' <- get_serial_tree fuel t root s ;;
           Ok (s', roots ++ [ss_counter s]))
        (t_roots t) (SState [] [] 0 0, []).

(** The search for one position (SerialPatchTree.hpp:289-361).  [s] holds the arrays and level_count,
    [roots] is roots_ids.  The index of a root is read as a u32. *)
Definition node_at (s : sstate) (i : Z) : res snode := aget (ss_tree s) (Z.to_nat i).
Definition in_node (v : vec3 C) (n : snode) : bool := is_in_patch_converted leb ltb v (sn_min n) (sn_max n).
(** hpp:297-306 *)
Fixpoint find_root (s : sstate) (roots : list Z) (v : vec3 C) : res Z :=
  match roots with
  | [] => Ok 0
  | r :: rs => n <- node_at s (w32 r) ;; if in_node v n then Ok (w32 r) else find_root s rs v
  end.
(** hpp:315-350: the chain of tests on the eight children *)
Fixpoint find_child (s : sstate) (cur : Z) (childs : list Z) (v : vec3 C) : res Z :=
  match childs with
  | [] => Ok cur
  | c :: cs => n <- node_at s c ;; if in_node v n then Ok c else find_child s cur cs v
  end.
(** hpp:310-358 *)
Fixpoint owner_loop (steps : nat) (s : sstate) (cur : Z) (v : vec3 C) : res Z :=
  match steps with
  | O => Ok u64_max
  | S k =>
      n <- node_at s cur ;;
      c0 <- aget (sn_childs n) 0 ;;
      if negb (c0 =? u64_max) then
        next <- find_child s cur (firstn 8 (sn_childs n)) v ;; owner_loop k s next v
      else
        l <- aget (ss_linked s) (Z.to_nat cur) ;;
        match l with Some id => Ok id | None => UB end
  end.
Definition patch_owner (s : sstate) (roots : list Z) (v : vec3 C) : res Z :=
  cur <- find_root s roots v ;;
  owner_loop (Z.to_nat (w32 (ss_level s + 1))) s cur v.

(** compute_patch_owner (SerialPatchTree.hpp:265-366): one work item per position, in any order
    ([order]), the result in a new buffer whose initial contents [mem] are arbitrary. *)
Definition compute_patch_owner (order : list nat) (mem : list Z) (s : sstate) (roots : list Z) (pos : list (vec3 C))
  : res (list Z) :=
  par_write (fun i => v <- aget pos i ;; patch_owner s roots v) order mem.

(** host_for_each_leafs_internal (SerialPatchTree.hpp:109-147): the calls of found_case, in order.  The head
    of [stack] is the top; the while loop has a bound [fuel], and running out of it is [UB]. *)
Fixpoint leafs_loop (fuel : nat) (s : sstate) (interact : Z -> snode -> bool) (stack : list Z) : res (list (Z * snode)) :=
  match fuel with
  | O => UB
  | S fuel' =>
      match stack with
      | [] => Ok []
      | cur :: stack =>
          cur_p <- node_at s cur ;;
          if interact cur cur_p then
            l <- aget (ss_linked s) (Z.to_nat cur) ;;
            match l with
            | None => UB
            | Some linked =>
                if negb (linked =? u64_max) then
                  calls <- leafs_loop fuel' s interact stack ;; Ok ((linked, cur_p) :: calls)
                else leafs_loop fuel' s interact (rev (firstn 8 (sn_childs cur_p)) ++ stack)
            end
          else leafs_loop fuel' s interact stack
      end
  end.
Definition host_for_each_leafs (fuel : nat) (s : sstate) (roots : list Z) (interact : Z -> snode -> bool) : res (list (Z * snode)) :=
  leafs_loop fuel s interact (rev roots).
End Ser.
Arguments snode C : clear implicits.
Arguments sstate C : clear implicits.

(** ** make_patch_tree_field (SerialPatchTree.hpp:184-230) *)
Section Field.
Context {C T : Type}.
Variable t0 : T.                    (* T() *)
Variable get : Z -> res T.          (* pfield.get *)
Variable reducer : list T -> T.     (* applied to the eight values of the children *)

(** Initial contents (hpp:194-205). *)
Definition init_field (s : sstate C) : res (list T) :=
  rfold (fun l acc =>
           match l with
           | None => UB
           | Some id => v <- (if negb (id =? u64_max) then get id else Ok t0) ;; Ok (acc ++ [v])
           end) (ss_linked s) [].

(** The kernel of one level (hpp:216-226).  Item i reads the eight values of the children of node i from
    the buffer which the other items are writing, then writes its own value: an execution is a sequence of
    single reads and writes.  [regs i k] is the value that item i has read for child k.  Each access to an
    element of the buffer is assumed to be atomic. *)
Inductive act := Rd (i k : nat) | Wr (i : nat).
Definition regs := nat -> nat -> option T.
Fixpoint get_regs (r : nat -> option T) (ks : list nat) : res (list T) :=
  match ks with
  | [] => Ok []
  | k :: ks => match r k with None => UB | Some v => vs <- get_regs r ks ;; Ok (v :: vs) end
  end.
Definition act_step (s : sstate C) (a : act) (fr : list T * regs) : res (list T * regs) :=
  let '(f, r) := fr in
  let i := match a with Rd i _ => i | Wr i => i end in
  n <- aget (ss_tree s) i ;;
  c0 <- aget (sn_childs n) 0 ;;
  if c0 =? u64_max then Ok fr
  else match a with
       | Rd _ k => c <- aget (sn_childs n) k ;; v <- aget f (Z.to_nat c) ;;
                   Ok (f, fun i' k' => if (i' =? i)%nat && (k' =? k)%nat then Some v else r i' k')
       | Wr _ => vs <- get_regs (r i) (seq 0 8) ;; f' <- aset f i (reducer vs) ;; Ok (f', r)
       end.
Definition level_kernel (s : sstate C) (order : list act) (f : list T) : res (list T) :=
  fr <- rfold (act_step s) order (f, fun _ _ => None) ;; Ok (fst fr).

(** hpp:207-228: one kernel per level, one after the other; [orders l] is the execution of the l-th one. *)
Definition make_patch_tree_field (s : sstate C) (orders : nat -> list act) : res (list T) :=
  f <- init_field s ;;
  rfold (fun l f => level_kernel s (orders l) f) (seq 0 (Z.to_nat (ss_level s))) f.
End Field.
