(** Scans and stream compaction.  Definitions only.  T = u32 (the only instantiation,
    numeric.cpp:76-82): values are [Z] reduced modulo 2^32 by [w32].  u32 indices are [nat]. *)
From Verif Require Import Base.
Local Open Scope Z_scope.

(** src/shamalgs/src/details/numeric/numericFallback.cpp:26-44 [exclusive_sum_fallback].
    [garbage] is the uninitialised result buffer of [len] elements. *)
Definition excl_step (src : list Z) (idx : nat) (st : Z * list Z) : res (Z * list Z) :=
  let '(accum, dst) := st in
  dst <- aset dst idx accum ;;
  v <- aget src idx ;;
  Ok (w32 (accum + v), dst).
Definition exclusive_sum_fallback (garbage buf1 : list Z) (len : nat) : res (list Z) :=
  rmap snd (rfold (excl_step buf1) (seq 0 len) (0, firstn len garbage)).

(** numericFallback.cpp:62-80 [inclusive_sum_fallback]. *)
Definition incl_step (src : list Z) (idx : nat) (st : Z * list Z) : res (Z * list Z) :=
  let '(accum, dst) := st in
  v <- aget src idx ;;
  let accum := w32 (accum + v) in
  dst <- aset dst idx accum ;;
  Ok (accum, dst).
Definition inclusive_sum_fallback (garbage buf1 : list Z) (len : nat) : res (list Z) :=
  rmap snd (rfold (incl_step buf1) (seq 0 len) (0, firstn len garbage)).

(** numericFallback.cpp:83-99 [exclusive_sum_in_place_fallback]. *)
Definition excl_ip_step (idx : nat) (st : Z * list Z) : res (Z * list Z) :=
  let '(accum, buf) := st in
  v <- aget buf idx ;;
  let val := accum in
  let accum := w32 (accum + v) in
  buf <- aset buf idx val ;;
  Ok (accum, buf).
Definition exclusive_sum_in_place_fallback (buf1 : list Z) (len : nat) : res (list Z) :=
  rmap snd (rfold excl_ip_step (seq 0 len) (0, buf1)).

(** numericFallback.cpp:102-115 [inclusive_sum_in_place_fallback]. *)
Definition incl_ip_step (idx : nat) (st : Z * list Z) : res (Z * list Z) :=
  let '(accum, buf) := st in
  v <- aget buf idx ;;
  let accum := w32 (accum + v) in
  buf <- aset buf idx accum ;;
  Ok (accum, buf).
Definition inclusive_sum_in_place_fallback (buf1 : list Z) (len : nat) : res (list Z) :=
  rmap snd (rfold incl_ip_step (seq 0 len) (0, buf1)).

(** std::exclusive_scan over a whole vector, in place. *)
Fixpoint std_exclusive_scan (accum : Z) (l : list Z) : list Z :=
  match l with [] => [] | v :: t => accum :: std_exclusive_scan (w32 (accum + v)) t end.
(** src/shambackends/include/shambackends/DeviceBuffer.hpp:696-716 [copy_from_stdvec(vec, sz)]. *)
Definition copy_from_stdvec {A} (vec : list A) (sz : nat) (dst : list A) : res (list A) :=
  if (length vec <? sz)%nat || (length dst <? sz)%nat then Throw
  else Ok (firstn sz vec ++ skipn sz dst).
(** numericFallback.cpp:47-59 [exclusive_sum_fallback_usm]. *)
Definition exclusive_sum_fallback_usm (garbage buf1 : list Z) (len : nat) : res (list Z) :=
  copy_from_stdvec (std_exclusive_scan 0 buf1) len (firstn len garbage).
(** src/shamalgs/src/primitives/scan_exclusive_sum_in_place.cpp:64-68 (STD_SCAN) and 212-247
    (checks); [impl] is the selected implementation for a non empty in-range scan. *)
Definition scan_in_place_std (buf1 : list Z) (len : nat) : res (list Z) :=
  copy_from_stdvec (std_exclusive_scan 0 (firstn len buf1)) len buf1.
Definition scan_exclusive_sum_in_place (impl : list Z -> nat -> res (list Z)) (buf1 : list Z) (len : nat)
  : res (list Z) :=
  if (len =? 0)%nat then Ok buf1
  else if (length buf1 <? len)%nat then Throw
  else impl buf1 len.

(** numericFallback.cpp:153-172 [stream_compact_fallback] (130-151 is the same loop on
    sycl::buffer). *)
Definition compact_step (flags : list Z) (idx : nat) (idxs : list nat) : res (list nat) :=
  f <- aget flags idx ;;
  Ok (if f =? 0 then idxs else idxs ++ [idx]).
Definition stream_compact_fallback (flags : list Z) (len : nat) : res (list nat) :=
  rfold (compact_step flags) (seq 0 len) [].

(** src/shamalgs/src/details/numeric/streamCompactExclScan.cpp:122-145, the kernel body. *)
Definition compact_item (sums : list Z) (last_idx : nat) (last_flag : Z) (idx : nat) (new_idx : list nat)
  : res (list nat) :=
  cur <- aget sums idx ;;
  should <- (if (idx <? last_idx)%nat then nxt <- aget sums (idx + 1) ;; Ok (cur <? nxt)
             else Ok (negb (last_flag =? 0))) ;;
  if should then aset new_idx (Z.to_nat cur) idx else Ok new_idx.
(** streamCompactExclScan.cpp:96-149 [stream_compact_excl_scan] (30-94 is the same on
    sycl::buffer).  [scan] is [scan_exclusive] (proved separately); [order] is the execution
    order of the work items, [garbage] the uninitialised index map. *)
Definition stream_compact_excl_scan (scan : list Z -> nat -> res (list Z)) (order : list nat)
    (garbage : nat -> list nat) (flags : list Z) (len : nat) : res (list nat) :=
  if (len <? 2)%nat then stream_compact_fallback flags len else
  excl <- scan flags len ;;
  new_len <- aget excl (len - 1) ;;
  end_flag <- aget flags (len - 1) ;;
  let new_len := if end_flag =? 0 then new_len else w32 (new_len + 1) in
  let index_map := garbage (Z.to_nat new_len) in
  if 0 <? new_len then par_for order (compact_item excl (len - 1) end_flag) index_map
  else Ok index_map.
