(** Vocabulary of the statements about the serialised patch tree. *)
From Verif Require Import Base Patch Patch_spec PatchTree Domain SerialTree.
Local Open Scope Z_scope.

(** The accesses of the kernel of one level over [n] nodes, and its executions: each access once, the write of an
    item after its eight reads. *)
Definition all_acts (n : nat) : list act := flat_map (fun i => map (Rd i) (seq 0 8) ++ [Wr i]) (seq 0 n).
Definition level_execution (n : nat) (order : list act) : Prop :=
  Permutation order (all_acts n) /\
  forall p q i, order = p ++ Wr i :: q -> forall k, (k < 8)%nat -> In (Rd i k) p.

(** The arrays [st] and the list [roots] are built from the patch tree [t], the set of its roots being enumerated
    in some order [rs]. *)
Definition built_from {C} (to_box : pcoord -> res (range C)) (fuel : nat) (t : ptree) (rs : list Z) (st : sstate C) (roots : list Z) : Prop :=
  Permutation rs (t_roots t) /\ build_from_patch_tree to_box fuel (t_with_roots rs t) = Ok (st, roots).
(** All the cells of [a] are cells of [b]. *)
Definition box_within (a b : pcoord) : Prop := forall c, in_box c a -> in_box c b.
