(** Specification side of C43. *)
From Verif Require Import Base Serialize Serialize_spec Containers Containers_spec.

(** The sender ids belong to the rank that holds the object, the receiver ids to some rank; the ids are u64. *)
Definition ids_ok {T} (rg : Z -> Z) (sends : list (dds T)) : Prop :=
  (Z.of_nat (length sends) < 2 ^ 31)%Z /\
  (Z.of_nat (length (concat sends)) < 2 ^ 31)%Z /\
  forall r send, nth_error sends r = Some send ->
    dds_sorted send /\
    Forall (fun p => (0 <= fst (fst p) < 2 ^ 64)%Z /\ (0 <= snd (fst p) < 2 ^ 64)%Z /\
                     rg (fst (fst p)) = Z.of_nat r /\ (0 <= rg (snd (fst p)) < Z.of_nat (length sends))%Z) send.

(** [ser] succeeds on the objects that leave their rank, with a result of less than 2^62 bytes that [deser]
    reads back. *)
Definition ser_ok {T} (ser : nat -> nat -> T -> res (list Z)) (deser : nat -> list Z -> res T) (rg : Z -> Z) (sends : list (dds T)) : Prop :=
  forall send p, In send sends -> In p send -> rg (fst (fst p)) <> rg (snd (fst p)) ->
    forall r i, exists b, ser r i (snd p) = Ok b /\ small (length b) /\ forall j, deser j b = Ok (snd p).

(** What rank [r] must have under the key [k]. *)
Definition received {T} (rg : Z -> Z) (sends : list (dds T)) (r : nat) (k : key2) : list T :=
  if (rg (snd k) =? Z.of_nat r)%Z then concat (map (dds_vals k) sends) else [].

(** The bytes of the buffer that leaves for rank [r]: a header of three words and the object, padded to 8
    bytes, for every object that goes there from another rank. *)
Definition sent_bytes {T} (size : T -> nat) (rg : Z -> Z) (r : Z) (send : dds T) : nat :=
  list_sum (map (fun p => 24 + al8 (size (snd p))) (filter (fun p => (rg (snd (fst p)) =? r)%Z && negb (rg (fst (fst p)) =? r)%Z) send)).
