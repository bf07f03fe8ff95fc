(** Vocabulary of the Morton properties, independent of the implementation. *)
From Coq Require Import NArith List Bool.
Open Scope N_scope.

Definition triple := (N * N * N)%type.
(** All three coordinates have at most [B] bits. *)
Definition in_grid (B : N) (p : triple) : Prop := let '(x, y, z) := p in x < 2 ^ B /\ y < 2 ^ B /\ z < 2 ^ B.
(** [m] is the interleaving of the bits of x, y, z, x being the most significant. *)
Definition interleaving (B m : N) (p : triple) : Prop :=
  let '(x, y, z) := p in
  m < 2 ^ (3 * B) /\
  forall k, k < B -> N.testbit m (3 * k + 2) = N.testbit x k /\ N.testbit m (3 * k + 1) = N.testbit y k /\
                     N.testbit m (3 * k) = N.testbit z k.
(** Component-wise order, and boxes [lo, hi). *)
Definition below (p q : triple) : Prop :=
  let '(x, y, z) := p in let '(x', y', z') := q in x <= x' /\ y <= y' /\ z <= z'.
Definition in_box (p lo hi : triple) : Prop :=
  let '(x, y, z) := p in let '(a, b, c) := lo in let '(d, e, f) := hi in
  (a <= x < d) /\ (b <= y < e) /\ (c <= z < f).
(** Two w-bit words agree on their [n] most significant bits. *)
Definition same_prefix (w n a b : N) : Prop := forall i, i < w -> w - n <= i -> N.testbit a i = N.testbit b i.
Definition prefix_length (w a b n : N) : Prop :=
  same_prefix w n a b /\ N.testbit a (w - n - 1) <> N.testbit b (w - n - 1) /\ n < w.
Definition vplus (a b : triple) : triple :=
  let '(a0, a1, a2) := a in let '(b0, b1, b2) := b in (a0 + b0, a1 + b1, a2 + b2).
