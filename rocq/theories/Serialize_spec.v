(** Specification side of the serializer theorems. *)
From Verif Require Import Base Streams Serialize.

(** [n] rounded up to a multiple of 8. *)
Definition al8 (n : nat) : nat := 8 * ((n + 7) / 8).
(** Bytes an item reserves, computed without any wrap-around. *)
Definition item_bytes (i : sitem) : nat :=
  match i with
  | IScalar v => al8 (length v)
  | IBuf sz _ len => al8 (len * sz)
  | IStr str => 8 + al8 (4 * length str)
  end.
Definition items_bytes (l : list sitem) : nat := list_sum (map item_bytes l).
(** Caller obligations on an item: the source buffer has at least [len] elements of [sz] bytes
    each, and the string length fits a u32. *)
Definition item_ok (i : sitem) : Prop :=
  match i with
  | IScalar v => True
  | IBuf sz buf len => len <= length buf /\ Forall (fun v => length v = sz) buf
  | IStr str => (Z.of_nat (length str) < 2 ^ 32)%Z
  end.
(** The load call matching an item: same type, same length, a destination with enough room. *)
Definition load_matches (i : sitem) (l : sload) : Prop :=
  match i, l with
  | IScalar v, LScalar sz => length v = sz
  | IBuf sz _ len, LBuf sz' dst len' => sz' = sz /\ len' = len /\ len <= length dst
  | IStr _, LStr => True
  | _, _ => False
  end.
(** The values the load call must return: for a buffer, the first [len] elements are the written
    ones and the rest of the destination is untouched. *)
Definition load_expected (i : sitem) (l : sload) : list (list Z) :=
  match i, l with
  | IScalar v, _ => [v]
  | IBuf _ buf len, LBuf _ dst _ => firstn len buf ++ skipn len dst
  | IBuf _ buf len, _ => []
  | IStr str, _ => [str]
  end.
(** Every kernel runs its work-items once each, in any order. *)
Definition fair_sched (sched : nat -> nat -> list nat) : Prop :=
  forall k n, Permutation (sched k n) (seq 0 n).
(** The heads are inside the regions. *)
Definition sh_inv (s : sh) : Prop :=
  s_head_host s <= length (s_header s) /\ s_head_device s <= length (s_storage s).
(** Any public operation on a helper, mixing writes and loads freely. *)
Inductive sop := SW (i : sitem) | SL (l : sload).
Definition sop_run (order : nat -> list nat) (o : sop) (s : sh) : res sh :=
  match o with
  | SW i => sh_write_item order i s
  | SL l => '(_, s') <- sh_load_item order l s ;; Ok s'
  end.
Fixpoint sops_run (sched : nat -> nat -> list nat) (k : nat) (ops : list sop) (s : sh) : res sh :=
  match ops with
  | [] => Ok s
  | o :: t => s' <- sop_run (sched k) o s ;; sops_run sched (S k) t s'
  end.
Definition bytes_ok (l : list Z) : Prop := Forall (fun b => (0 <= b < 256)%Z) l.
(** Sizes for which [len * szrepr] plus padding cannot wrap around 2^64. *)
Definition small (n : nat) : Prop := (Z.of_nat n < 2 ^ 62)%Z.
Definition sop_ok (o : sop) : Prop :=
  match o with
  | SW (IScalar v) => small (length v) /\ bytes_ok v
  | SW (IBuf sz buf len) => small (len * sz) /\ item_ok (IBuf sz buf len)
  | SW (IStr str) => item_ok (IStr str)
  | SL (LScalar sz) => small sz
  | SL (LBuf sz dst len) => small (len * sz)
  | SL LStr => True
  end.
