(** Specification side of the theorems on the communication of a distributed multimap. *)
From Verif Require Import Base Serialize Serialize_spec Containers Containers_spec SparseXchg SparseXchg_spec DDComm.

(** Bytes of one object in a message: three u64 and the padded payload. *)
Definition obj_bytes (data : list Z) : nat := 24 + al8 (length data).
(** Bytes of all the objects of one rank for receivers on rank [r]. *)
Definition to_rank (rg : Z -> Z) (r : Z) (send : dds (list Z)) : dds (list Z) :=
  filter (fun p => (rg (snd (fst p)) =? r)%Z) send.
Definition objs_bytes (l : dds (list Z)) : nat := list_sum (map (fun p => obj_bytes (snd p)) l).

(** What the callers guarantee: the sending id of every object belongs to the rank that holds it, the
    receiving id to some rank; ids are u64; the number of objects is below 2^31 and their sizes below 2^62;
    the communication limit is below 2^31 (the default is 2^31 - 2). *)
Definition comm_ok (rg : Z -> Z) (sends : list (dds (list Z))) : Prop :=
  (Z.of_nat (length sends) < 2 ^ 31)%Z /\
  (Z.of_nat (length (concat sends)) < 2 ^ 31)%Z /\
  forall r send, nth_error sends r = Some send ->
    dds_sorted send /\
    Forall (fun p => (0 <= fst (fst p) < 2 ^ 64)%Z /\ (0 <= snd (fst p) < 2 ^ 64)%Z /\
                     rg (fst (fst p)) = Z.of_nat r /\ (0 <= rg (snd (fst p)) < Z.of_nat (length sends))%Z /\
                     small (length (snd p))) send.

(** What rank [r] must have received under the key [k]: everything any rank had under [k], in order, if
    the receiving id belongs to [r]. *)
Definition expected (rg : Z -> Z) (sends : list (dds (list Z))) (r : nat) (k : key2) : list (list Z) :=
  if (rg (snd k) =? Z.of_nat r)%Z then concat (map (dds_vals k) sends) else [].

Definition fair3 (sched : nat -> nat -> nat -> list nat) : Prop := forall i, fair_sched (sched i).
