(** Specification vocabulary for the traversal. *)
From Verif Require Import Base Karras Karras_spec Traverse.
Local Open Scope nat_scope.

(** node id of a subtree: internal cells first, then leaves *)
Definition node_id (offset_leaf : nat) (t : tree) : nat :=
  match t with Leaf k => k + offset_leaf | Node i _ _ => i end.
(** the nodes at which a depth first, left to right walk stops: leaves and rejected nodes *)
Fixpoint frontier (offset_leaf : nat) (cond : nat -> bool) (t : tree) : list tree :=
  match t with
  | Leaf _ => [t]
  | Node i l r => if cond i then frontier offset_leaf cond l ++ frontier offset_leaf cond r else [t]
  end.
Definition event_of (offset_leaf : nat) (cond : nat -> bool) (t : tree) : event :=
  if cond (node_id offset_leaf t) then Found (node_id offset_leaf t) else Excluded (node_id offset_leaf t).
(** leaf k is accepted: the condition holds for it and all its ancestors *)
Fixpoint accepted (offset_leaf : nat) (cond : nat -> bool) (t : tree) (k : nat) : Prop :=
  match t with
  | Leaf j => j = k /\ cond (j + offset_leaf) = true
  | Node i l r => cond i = true /\ (accepted offset_leaf cond l k \/ accepted offset_leaf cond r k)
  end.
Definition found_leaves (offset_leaf : nat) (log : list event) : list nat :=
  flat_map (fun e => match e with Found id => [id - offset_leaf] | Excluded _ => [] end) log.
