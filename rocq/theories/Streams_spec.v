(** Specification side of the stream round-trip theorems. *)
From Verif Require Import Base Streams.
Local Open Scope Z_scope.

(** What a reader of a record must ask for, and the values it must obtain. *)
Definition rec_shape (r : fio_rec) : fio_shape :=
  match r with
  | RVals args => SVals (map (@length Z) args)
  | RFixed _ len => SFixed len
  | RStrs _ l c => SStrs l c
  | RArr sz _ c => SArr sz c
  end.
Definition rec_values (r : fio_rec) : list (list Z) :=
  match r with
  | RVals args => args
  | RFixed str len => [firstn (Z.to_nat len) str]
  | RStrs svec l c => map (firstn (Z.to_nat l)) (firstn (Z.to_nat c) svec)
  | RArr _ vec c => firstn (Z.to_nat c) vec
  end.
(** Number of payload bytes the caller means to write. *)
Definition rec_bytes (r : fio_rec) : Z :=
  match r with
  | RVals args => Z.of_nat (length (concat args))
  | RFixed _ len => len
  | RStrs _ l c => l * c
  | RArr sz _ c => Z.of_nat sz * c
  end.
(** Caller obligations: u32 arguments, enough characters / elements, elements of size [sz],
    fewer than 2^31 bytes. *)
Definition rec_valid (r : fio_rec) : Prop :=
  rec_bytes r < 2 ^ 31 /\
  match r with
  | RVals args => True
  | RFixed str len => 0 <= len <= Z.of_nat (length str)
  | RStrs svec l c => 0 <= l /\ 0 <= c <= Z.of_nat (length svec) /\
      Forall (fun s => l <= Z.of_nat (length s)) (firstn (Z.to_nat c) svec)
  | RArr sz vec c => 0 <= c <= Z.of_nat (length vec) /\ Forall (fun v => length v = sz) vec
  end.
(** Byte count a read call expects. *)
Definition shape_bytes (sh : fio_shape) : Z :=
  match sh with
  | SVals sizes => Z.of_nat (list_sum sizes)
  | SFixed len => len
  | SStrs l c => l * c
  | SArr sz c => Z.of_nat sz * c
  end.
Definition shape_valid (sh : fio_shape) : Prop :=
  0 <= shape_bytes sh < 2 ^ 31.
(** The stream whose consumed part is [pre] and remaining part [rest]. *)
Definition at_stream (pre rest : list Z) : stream := mkStream (pre ++ rest) (length pre).
