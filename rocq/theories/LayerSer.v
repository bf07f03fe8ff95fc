(** Serialization of a PatchDataLayer: PatchDataField::serialize_buf / deserialize_buf /
    serialize_buf_byte_size (src/shamrock/src/patch/PatchDataField.cpp:390-422) and the functions of
    PatchDataLayer that call them for each field (src/shamrock/src/patch/PatchDataLayer.cpp:295-327), with the
    SerializeHelper around them as in every caller (e.g.
    src/shamrock/include/shamrock/scheduler/ReattributeDataUtility.hpp:244-258).  Definitions only.
    Simplifications: the values of the fields are given by their bytes ([tsz ty] of them for the type ty, as
    SerializeHelper stores them), the sequence of calls to the serializer is a list of items (Serialize.v). *)
From Verif Require Import Base Streams Serialize Layer Layer_spec.
From Verif Require PatchData.
Local Open Scope nat_scope.

Section LS.
Variable tsz : nat -> nat.
Notation fld := (field (list Z)).

(** PatchDataField.cpp:418-422 *)
Definition f_ser_size (f : fld) : res ssize :=
  n <- get_val_cnt f ;; Ok (ss_add (byte_size_scalar 4) (byte_size_buf (tsz (f_ty f)) n)).
(** PatchDataField.cpp:390-398 *)
Definition f_ser_items (f : fld) : res (list sitem) :=
  c <- get_obj_cnt f ;;
  if 0 <? c then n <- get_val_cnt f ;; Ok [IScalar (le_bytes 4 (Z.of_nat c)); IBuf (tsz (f_ty f)) (f_buf f) n]
  else Ok [IScalar (le_bytes 4 (Z.of_nat c))].
(** PatchDataField.cpp:401-415; [k] counts the kernels, [dj] is the content of the new buffer; the
    constructors call check_nvar (PatchDataField.hpp:120-134). *)
Definition f_load (sched : nat -> nat -> list nat) (dj : nat -> list Z) (k : nat) (d : nat * nat) (s : sh)
  : res (fld * nat * sh) :=
  '(b, s) <- sh_load 4 s ;;
  let cnt := Z.to_nat (le_val b) in
  if 0 <? cnt then
    let n := w32n (cnt * snd d) in
    '(v, s) <- sh_load_buf (sched (S k) n) (tsz (fst d)) (map dj (seq 0 n)) n s ;;
    if snd d =? 0 then Throw else Ok (Field (fst d) (snd d) v, S (S k), s)
  else if snd d =? 0 then Throw else Ok (Field (fst d) (snd d) [], S k, s).

(** PatchDataLayer.cpp:302-308 *)
Definition l_ser_size (L : layer (list Z)) : res ssize :=
  rfold (fun f a => s <- f_ser_size f ;; Ok (ss_add a s)) L (mkSS 0 0).
(** PatchDataLayer.cpp:295-300 *)
Definition l_ser_items (L : layer (list Z)) : res (list sitem) :=
  ls <- PatchData.rmapm f_ser_items L ;; Ok (concat ls).
(** PatchDataLayer.cpp:310-327 *)
Fixpoint l_load (sched : nat -> nat -> list nat) (dj : nat -> list Z) (k : nat) (lay : layout) (s : sh)
  : res (layer (list Z) * sh) :=
  match lay with
  | [] => Ok ([], s)
  | d :: t =>
      '(f, k, s) <- f_load sched dj k d s ;;
      '(L, s) <- l_load sched dj k t s ;; Ok (f :: L, s)
  end.

(** ReattributeDataUtility.hpp:244-249 and 250-256 *)
Definition l_serialize (sched : nat -> nat -> list nat) (junk : nat -> Z) (L : layer (list Z)) : res (list Z) :=
  sz <- l_ser_size L ;;
  s0 <- sh_allocate junk sz false ;;
  items <- l_ser_items L ;;
  s1 <- sh_write_items sched 0 items s0 ;;
  sh_finalize s1.
Definition l_deserialize (sched : nat -> nat -> list nat) (dj : nat -> list Z) (lay : layout) (b : list Z)
  : res (layer (list Z)) :=
  s <- sh_from_buffer b false ;;
  '(L, _) <- l_load sched dj 0 lay s ;; Ok L.
End LS.
