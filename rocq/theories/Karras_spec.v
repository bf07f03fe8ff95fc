(** Specification vocabulary for the radix tree. *)
From Verif Require Import Base Karras.
From Coq Require Import NArith.

Inductive tree := Leaf (k : nat) | Node (i : nat) (l r : tree).
Fixpoint leaves (t : tree) : list nat :=
  match t with Leaf k => [k] | Node _ l r => leaves l ++ leaves r end.
Fixpoint internals (t : tree) : list nat :=
  match t with Leaf _ => [] | Node i l r => i :: internals l ++ internals r end.
Fixpoint subtrees (t : tree) : list tree :=
  t :: match t with Leaf _ => [] | Node _ l r => subtrees l ++ subtrees r end.
Fixpoint height (t : tree) : nat :=
  match t with Leaf _ => 0 | Node _ l r => S (Nat.max (height l) (height r)) end.

(** [reads cells leaf id t]: following the child indices and leaf flags of the buffers from the
    leaf / internal cell [id] unfolds to the finite tree [t]. *)
Inductive reads (cells : list cell) : bool -> nat -> tree -> Prop :=
| reads_leaf k : reads cells true k (Leaf k)
| reads_node i c l r :
    nth_error cells i = Some c -> (0 <= lchild c)%Z -> (0 <= rchild c)%Z ->
    reads cells (lflag c) (Z.to_nat (lchild c)) l ->
    reads cells (rflag c) (Z.to_nat (rchild c)) r ->
    reads cells false i (Node i l r).

Definition strictly_sorted (m : list N) : Prop := StronglySorted N.lt m.

(** all codes of the leaves [l] have bit p clear, those of [r] have it set, and all agree above p *)
Definition radix_split (codes : nat -> N) (l r : list nat) : Prop :=
  exists p, (forall a, In a l -> N.testbit (codes a) p = false) /\ (forall b, In b r -> N.testbit (codes b) p = true) /\
    (forall a b j, In a (l ++ r) -> In b (l ++ r) -> (p < j)%N -> N.testbit (codes a) j = N.testbit (codes b) j).
(** the end of range stored for an internal cell delimits, with its own index, the leaves it covers,
    and its two children are separated by the highest bit in which its codes differ *)
Definition node_ok (m : list N) (cells : list cell) (t : tree) : Prop :=
  match t with
  | Leaf _ => True
  | Node i l r => exists c, nth_error cells i = Some c /\
      Z.of_nat (hd O (leaves t)) = Z.min (Z.of_nat i) (endrange c) /\
      Z.of_nat (last (leaves t) O) = Z.max (Z.of_nat i) (endrange c) /\
      radix_split (fun k => nth k m 0%N) (leaves l) (leaves r)
  end.
