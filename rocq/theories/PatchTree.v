(** Model of the patch tree: src/shamrock/include/shamrock/scheduler/PatchTreeNode.hpp,
    src/shamrock/include/shamrock/scheduler/PatchTree.hpp and
    src/shamrock/src/scheduler/PatchTree.cpp.

    Simplifications: a std::unordered_map is a partial function; [operator[]] on an absent key
    (which would silently insert a default node) is [UB]; a std::unordered_set is a list without
    duplicates (its iteration order is that list); the member linked_patchid, which the split
    leaves uninitialised in the children, is [None] when indeterminate. *)
From Verif Require Import Base Patch.
Local Open Scope Z_scope.

(** LinkedTreeNode + PatchTreeNode (PatchTreeNode.hpp:34-57, 70-81). *)
Record node := Node {
  n_box : pcoord;
  n_level : Z;         (* u32 *)
  n_parent : Z;        (* u64 parent_nid *)
  n_childs : list Z;   (* childs_nid, 8 entries *)
  n_leaf : bool;
  n_allleaf : bool;    (* child_are_all_leafs *)
  n_linked : option Z; (* linked_patchid *)
  n_load : Z
}.
Definition n_set_childs c n := Node (n_box n) (n_level n) (n_parent n) c (n_leaf n) (n_allleaf n) (n_linked n) (n_load n).
Definition n_set_leaf b n := Node (n_box n) (n_level n) (n_parent n) (n_childs n) b (n_allleaf n) (n_linked n) (n_load n).
Definition n_set_allleaf b n := Node (n_box n) (n_level n) (n_parent n) (n_childs n) (n_leaf n) b (n_linked n) (n_load n).
Definition n_set_linked l n := Node (n_box n) (n_level n) (n_parent n) (n_childs n) (n_leaf n) (n_allleaf n) l (n_load n).
Definition n_set_load l n := Node (n_box n) (n_level n) (n_parent n) (n_childs n) (n_leaf n) (n_allleaf n) (n_linked n) l.

(** [std::array<u64, 8> childs_nid{u64_max}] (PatchTreeNode.hpp:47): aggregate initialisation
    sets the first entry to u64_max and the others to 0. *)
Definition childs_init : list Z := [u64_max; 0; 0; 0; 0; 0; 0; 0].

(** class PatchTree (PatchTree.hpp:29-55, 120). *)
Record ptree := PTree {
  t_roots : list Z;
  t_map : Z -> option node;
  t_leaf : list Z;     (* leaf_key *)
  t_ponly : list Z;    (* parent_of_only_leaf_key *)
  t_next : Z           (* next_id *)
}.
Definition empty_ptree : ptree := PTree [] (fun _ => None) [] [] 0.

(** std::unordered_set insert / erase. *)
Definition set_mem (x : Z) (l : list Z) : bool := existsb (Z.eqb x) l.
Definition set_insert (x : Z) (l : list Z) : list Z := if set_mem x l then l else x :: l.
Definition set_erase (x : Z) (l : list Z) : list Z := filter (fun y => negb (y =? x)) l.

Definition map_set (m : Z -> option node) (k : Z) (n : node) : Z -> option node :=
  fun x => if x =? k then Some n else m x.
Definition map_erase (m : Z -> option node) (k : Z) : Z -> option node :=
  fun x => if x =? k then None else m x.

Definition t_with_map m t := PTree (t_roots t) m (t_leaf t) (t_ponly t) (t_next t).
Definition t_with_leaf l t := PTree (t_roots t) (t_map t) l (t_ponly t) (t_next t).
Definition t_with_ponly l t := PTree (t_roots t) (t_map t) (t_leaf t) l (t_next t).
Definition t_with_roots l t := PTree l (t_map t) (t_leaf t) (t_ponly t) (t_next t).

(** [tree[id]] *)
Definition tget (t : ptree) (id : Z) : res node :=
  match t_map t id with Some n => Ok n | None => UB end.
Definition tput (id : Z) (n : node) (t : ptree) : ptree := t_with_map (map_set (t_map t) id n) t.
(** update of one node through a reference *)
Definition tmod (id : Z) (f : node -> node) (t : ptree) : res ptree :=
  n <- tget t id ;; Ok (tput id (f n) t).

(** insert_node (PatchTree.cpp:28-32), remove_node (PatchTree.cpp:34). *)
Definition insert_node (n : node) (t : ptree) : Z * ptree :=
  let next' := w64 (t_next t + 1) in
  (w64 (next' - 1), PTree (t_roots t) (map_set (t_map t) (t_next t) n) (t_leaf t) (t_ponly t) next').
Definition remove_node (id : Z) (t : ptree) : ptree := t_with_map (map_erase (t_map t) id) t.

(** get_split_nodes(u32 cur_id) (PatchTreeNode.hpp:124-138): the parameter is a u32, so the id given
    by the caller is truncated. *)
Definition get_split_nodes (n : node) (cur_id : Z) : list node :=
  map (fun b => Node b (w32 (n_level n + 1)) (w32 cur_id) childs_init true false None u64_max)
      (get_split (n_box n)).

(** The insertion loop of split_node (PatchTree.cpp:54-56). *)
Fixpoint insert_children (id : Z) (i : nat) (kids : list node) (t : ptree) : res ptree :=
  match kids with
  | [] => Ok t
  | k :: kids' =>
      let '(cid, t1) := insert_node k t in
      t2 <- tmod id (fun n => n_set_childs (upd (n_childs n) i cid) n) t1 ;;
      insert_children id (S i) kids' t2
  end.

(** split_node (PatchTree.cpp:36-64). *)
Definition split_node (id : Z) (t : ptree) : res ptree :=
  let t := t_with_leaf (set_erase id (t_leaf t)) t in
  curr <- tget t id ;;
  t <- (if n_parent curr =? u64_max then Ok t
        else tmod (n_parent curr) (n_set_allleaf false)
               (t_with_ponly (set_erase (n_parent curr) (t_ponly t)) t)) ;;
  t <- tmod id (n_set_leaf false) t ;;
  t <- tmod id (n_set_allleaf true) t ;;
  curr <- tget t id ;;
  t <- insert_children id 0 (get_split_nodes curr id) t ;;
  curr <- tget t id ;;
  let t := t_with_ponly (set_insert id (t_ponly t)) t in
  Ok (t_with_leaf (fold_left (fun l c => set_insert c l) (firstn 8 (n_childs curr)) (t_leaf t)) t).

(** merge_node_dm1 (PatchTree.cpp:66-124). *)
Definition merge_node_dm1 (idparent : Z) (t : ptree) : res ptree :=
  parent <- tget t idparent ;;
  if negb (n_allleaf parent) then Throw else
  let cs := firstn 8 (n_childs parent) in
  let t := t_with_leaf (fold_left (fun l c => set_erase c l) cs (t_leaf t)) t in
  let t := fold_left (fun t c => remove_node c t) cs t in
  t <- tmod idparent (n_set_childs (repeat u64_max 8)) t ;;
  let t := t_with_leaf (set_insert idparent (t_leaf t)) t in
  t <- tmod idparent (n_set_leaf true) t ;;
  let t := t_with_ponly (set_erase idparent (t_ponly t)) t in
  t <- tmod idparent (n_set_allleaf false) t ;;
  parent <- tget t idparent ;;
  if n_parent parent =? u64_max then Ok t else
  gp <- tget t (n_parent parent) ;;
  only_leafs <- rfold (fun c acc => if (acc : bool) then n <- tget t c ;; Ok (n_leaf n) else Ok false)
                      (firstn 8 (n_childs gp)) true ;;
  if only_leafs then
    t <- tmod (n_parent parent) (n_set_allleaf true) t ;;
    Ok (t_with_ponly (set_insert (n_parent parent) (t_ponly t)) t)
  else Ok t.

(** insert_root_node (PatchTree.cpp:126-138); patch_id is a u32. *)
Definition insert_root_node (patch_id : Z) (coords : pcoord) (t : ptree) : ptree :=
  let root := Node coords 0 u64_max childs_init true false (Some (w32 patch_id)) u64_max in
  let '(root_id, t) := insert_node root t in
  let t := t_with_leaf (set_insert root_id (t_leaf t)) t in
  t_with_roots (set_insert root_id (t_roots t)) t.

(** update_ptnode (PatchTree.cpp:238-265).  [load_of pid] is
    plist[id_patch_to_global_idx.at(pid)].load_value ([at] throws when the id is unknown).
    Reading an indeterminate linked_patchid is UB. *)
Definition update_ptnode (load_of : Z -> res Z) (t : ptree) (n : node) : res node :=
  match n_linked n with
  | None => UB
  | Some l =>
      if negb (l =? u64_max) then v <- load_of l ;; Ok (n_set_load v n)
      else match nth_error (n_childs n) 0 with
           | Some c0 =>
               if c0 =? u64_max then Ok n
               else
                 '(err, sum) <- rfold (fun c '(err, s) => m <- tget t c ;;
                                       Ok (orb err (n_load m =? u64_max), w64 (s + n_load m)))
                                      (firstn 8 (n_childs n)) (false, 0) ;;
                 Ok (n_set_load (if err then u64_max else sum) n)
           | None => UB
           end
  end.

(** partial_values_reduction (PatchTree.cpp:281-293): leaves first, then the parents of leaves. *)
Definition update_node_at (load_of : Z -> res Z) (id : Z) (t : ptree) : res ptree :=
  n <- tget t id ;; n' <- update_ptnode load_of t n ;; Ok (tput id n' t).
Definition partial_values_reduction (load_of : Z -> res Z) (t : ptree) : res ptree :=
  t <- rfold (update_node_at load_of) (t_leaf t) t ;;
  rfold (update_node_at load_of) (t_ponly t) t.

(** get_split_request / get_merge_request (PatchTree.cpp:295-319).  The result is an unordered_set:
    here a list in the order of the iteration over the key set. *)
Fixpoint request (p : Z -> bool) (t : ptree) (ids : list Z) : res (list Z) :=
  match ids with
  | [] => Ok []
  | a :: ids' => n <- tget t a ;; r <- request p t ids' ;;
                 Ok (if p (n_load n) then a :: r else r)
  end.
Definition get_split_request (crit : Z) (t : ptree) : res (list Z) :=
  request (fun l => crit <? l) t (t_leaf t).
Definition get_merge_request (crit : Z) (t : ptree) : res (list Z) :=
  request (fun l => l <? crit) t (t_ponly t).
