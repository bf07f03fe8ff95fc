(** Specification vocabulary for the leaf compression. *)
From Verif Require Import Base Morton.
From Coq Require Import NArith.
Local Open Scope nat_scope.

Definition sorted_codes (m : list N) : Prop := StronglySorted N.le m.
Definition code (m : list N) (i : nat) : N := nth i m 0%N.

(** [leaf_ranges starts n]: the consecutive ranges [s_k, s_(k+1)) of the leaves *)
Fixpoint leaf_ranges (starts : list nat) (n : nat) : list (nat * nat) :=
  match starts with
  | [] => []
  | a :: t => (a, match t with b :: _ => b | [] => n end) :: leaf_ranges t n
  end.
(** the objects of a leaf are exactly the objects whose code has some given prefix: the range is the set of
    codes of one node of the radix tree *)
Definition is_cell (m : list N) (n : nat) (r : nat * nat) : Prop :=
  fst r < snd r <= n /\
  exists p v, forall x, x < n -> (fst r <= x < snd r <-> N.shiftr (code m x) p = v).

(** distance of two codes: number of identical leading bits; -1 when one side does not exist *)
Definition common (w : N) (m : list N) (x y : nat) : Z := Z.of_N (clz_xor w (code m x) (code m y)).
(** in the list of leaf starts, the leaf starting at i merges with the one before it, a, when they are closer
    to each other than to their other neighbours *)
Definition merges (w : N) (m : list N) (starts : list nat) (i : nat) : Prop :=
  exists l a r, starts = l ++ a :: i :: r /\
    (match r with c :: _ => common w m i c < common w m i a | [] => True end)%Z /\
    (match rev l with z :: _ => common w m a z < common w m i a | [] => True end)%Z.
