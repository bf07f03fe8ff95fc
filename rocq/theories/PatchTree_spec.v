(** What a well formed patch tree is, and what a history of operations on it is. *)
From Verif Require Import Base Patch Patch_spec PatchTree.
Local Open Scope Z_scope.

Definition is_leaf_of (t : ptree) (x : Z) : Prop := exists n, t_map t x = Some n /\ n_leaf n = true.
(** All eight children of the internal node [x] are leaves. *)
Definition only_leaf_children (t : ptree) (x : Z) : Prop :=
  exists n, t_map t x = Some n /\ n_leaf n = false /\ forall c, In c (n_childs n) -> is_leaf_of t c.

Record tree_ok (t : ptree) : Prop := {
  (* ids are fresh: every id in use is below the counter, and u64_max is never an id *)
  ok_next : 0 <= t_next t <= u64_max;
  ok_ids : forall x n, t_map t x = Some n -> 0 <= x < t_next t;
  ok_childs_len : forall x n, t_map t x = Some n -> length (n_childs n) = 8%nat;
  (* an internal node has eight distinct children, the k-th being the k-th piece of its box *)
  ok_children : forall x n, t_map t x = Some n -> n_leaf n = false ->
    NoDup (n_childs n) /\
    forall k c, nth_error (n_childs n) k = Some c ->
      exists m, t_map t c = Some m /\ n_parent m = x /\
                nth_error (get_split (n_box n)) k = Some (n_box m) /\
                n_level m = w32 (n_level n + 1);
  (* a node which is not a root is a child of its parent *)
  ok_parent : forall x n, t_map t x = Some n -> n_parent n <> u64_max ->
    n_parent n < x /\
    exists m, t_map t (n_parent n) = Some m /\ n_leaf m = false /\ In x (n_childs m);
  (* the three key sets *)
  ok_roots : forall x, In x (t_roots t) <-> exists n, t_map t x = Some n /\ n_parent n = u64_max;
  ok_leaf : forall x, In x (t_leaf t) <-> is_leaf_of t x;
  ok_ponly : forall x, In x (t_ponly t) <-> only_leaf_children t x;
  ok_flag : forall x n, t_map t x = Some n -> (n_allleaf n = true <-> In x (t_ponly t));
  ok_nodup : NoDup (t_roots t) /\ NoDup (t_leaf t) /\ NoDup (t_ponly t);
  ok_splittable : forall x n, t_map t x = Some n -> n_leaf n = false -> splittable (n_box n);
  (* no empty box *)
  ok_wf : forall x n, t_map t x = Some n -> wf_box (n_box n);
  (* the first child of a leaf is u64_max, the roots have level 0 *)
  ok_leaf_childs : forall x n, t_map t x = Some n -> n_leaf n = true -> nth_error (n_childs n) 0 = Some u64_max;
  ok_root_level : forall x n, t_map t x = Some n -> n_parent n = u64_max -> n_level n = 0
}.

(** The boxes of the leaves cut the union of the boxes of the roots. *)
Definition leaves_partition_roots (t : ptree) : Prop :=
  (forall p, (exists r n, In r (t_roots t) /\ t_map t r = Some n /\ in_box p (n_box n)) <->
             (exists l n, In l (t_leaf t) /\ t_map t l = Some n /\ in_box p (n_box n))) /\
  (forall a b na nb, In a (t_leaf t) -> In b (t_leaf t) -> a <> b ->
     t_map t a = Some na -> t_map t b = Some nb -> disjoint (n_box na) (n_box nb)).

Inductive tree_op :=
| TRoot (patch_id : Z) (box : pcoord)
| TSplit (id : Z)
| TMerge (id : Z).

Definition tree_step (o : tree_op) (t : ptree) : res ptree :=
  match o with
  | TRoot pid b => Ok (insert_root_node pid b t)
  | TSplit id => split_node id t
  | TMerge id => merge_node_dm1 id t
  end.

(** Contract of the operations: a new root is not empty and is disjoint from the others; only leaves with more than
    one cell per axis are split, and node ids still fit in 32 bits; only parents of leaves are
    merged. *)
Definition tree_allowed (o : tree_op) (t : ptree) : Prop :=
  match o with
  | TRoot _ b => t_next t + 1 <= u64_max /\ wf_box b /\
                 forall r n, In r (t_roots t) -> t_map t r = Some n -> disjoint (n_box n) b
  | TSplit id => In id (t_leaf t) /\ id < 2 ^ 32 /\ t_next t + 8 <= u64_max /\
                 forall n, t_map t id = Some n -> splittable (n_box n)
  | TMerge id => In id (t_ponly t)
  end.

(** A history: the list of operations and the states after each of them. *)
Inductive tree_history : list tree_op -> ptree -> Prop :=
| TH_init : tree_history [] empty_ptree
| TH_step : forall ops o t t', tree_history ops t -> tree_allowed o t ->
    tree_step o t = Ok t' -> tree_history (ops ++ [o]) t'.
