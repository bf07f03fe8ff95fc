(** Specification vocabulary for searches and sorts. *)
From Verif Require Import Base SortSearch.

(** A valid C++ comparator (strict weak ordering). [~ comp b a] reads "a <= b". *)
Record strict_weak {A} (comp : A -> A -> bool) : Prop := {
  sw_asym : forall a b, comp a b = true -> comp b a = false;
  sw_trans : forall a b c, comp b a = false -> comp c b = false -> comp c a = false }.
Definition sorted_by {A} (comp : A -> A -> bool) (l : list A) : Prop :=
  StronglySorted (fun a b => comp b a = false) l.
(** The sub-array [s, e). *)
Definition slice {A} (s e : nat) (l : list A) : list A := firstn (e - s) (skipn s l).
(** Offsets are non decreasing and within the buffer. *)
Definition offsets_ok (offsets : list nat) (n : nat) : Prop :=
  (forall i, i + 1 < length offsets -> nth i offsets 0 <= nth (i + 1) offsets 0) /\
  (forall i, i < length offsets -> nth i offsets 0 <= n).
