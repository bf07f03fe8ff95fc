(** Specification vocabulary for scans: prefix sums modulo 2^32, selected indices. *)
From Verif Require Import Base.
Local Open Scope Z_scope.

Fixpoint zsum (l : list Z) : Z := match l with [] => 0 | v :: t => v + zsum t end.
(** Sum of the first [i] elements modulo 2^32. *)
Definition prefix (l : list Z) (i : nat) : Z := w32 (zsum (firstn i l)).
Definition excl_spec (l : list Z) (len : nat) : list Z := map (prefix l) (seq 0 len).
Definition incl_spec (l : list Z) (len : nat) : list Z := map (fun i => prefix l (S i)) (seq 0 len).
(** The indices below [len] whose flag is set, in increasing order. *)
Definition selected (flags : list Z) (len : nat) : list nat :=
  filter (fun i => negb (nth i flags 0 =? 0)) (seq 0 len).
