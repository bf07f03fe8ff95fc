(** Specification side of the serialization of a layer. *)
From Verif Require Import Base Serialize Serialize_spec Layer Layer_spec.
Local Open Scope nat_scope.

(** The values have the size of the type of their field. *)
Definition typed (tsz : nat -> nat) (L : layer (list Z)) : Prop :=
  Forall (fun f => Forall (fun v => length v = tsz (f_ty f)) (f_buf f)) L.
(** Size of the serialized form of [n] objects: a header, then per field a count and the padded values. *)
Definition layer_bytes (tsz : nat -> nat) (lay : layout) (n : nat) : nat :=
  8 + list_sum (map (fun d => 8 + al8 (n * snd d * tsz (fst d))) lay).
