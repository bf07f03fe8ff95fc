(** sham::DeviceBuffer: storage management and host/device copies
    (src/shambackends/include/shambackends/DeviceBuffer.hpp).  Definitions only.
    Simplifications: events are not modelled here (see Events.v): every operation takes effect in
    program order; the comparison [req < bytesize * 0.5], done in double precision by the code, is
    done exactly (the same for byte sizes below 2^53).  size_t values are [Z] with explicit
    wrap-around [w64]; u32 values wrap with [w32]. *)
From Verif Require Import Base Integer.
Local Open Scope Z_scope.

(** Properties of the element type and of the device. *)
Record dev_env := {
  e_sizeof : Z;        (* sizeof(T) *)
  e_alignof : Z;       (* alignof(T) *)
  e_base : Z;          (* mem_base_addr_align of the device *)
  e_max : Z }.         (* get_max_alloc_size(), DeviceBuffer.hpp:1080-1094 *)

(** What one allocation/copy may do differently from one call to the next: the driver accepts the
    allocation or not, the content of the new memory, the execution order of the copy commands. *)
Record oracle (A : Type) := {
  o_accept : bool;
  o_mem : nat -> A;
  o_order : nat -> list nat }.
Arguments o_accept {A}. Arguments o_mem {A}. Arguments o_order {A}.

(** A buffer: the storage held by its USMPtrHolder ([st_bytes] bytes, whose elements are [mem]) and
    its member [size]. *)
Record dbuf (A : Type) := { st_bytes : Z; mem : list A; size : Z }.
Arguments st_bytes {A}. Arguments mem {A}. Arguments size {A}.
Arguments Build_dbuf {A}.

(** DeviceBuffer.hpp:118-122. *)
Definition upgrade_multiple (sz mult : Z) : Z :=
  if sz mod mult =? 0 then sz else w64 (sz + (mult - sz mod mult)).
(** DeviceBuffer.hpp:130-139. *)
Definition get_alignment (E : dev_env) : Z := upgrade_multiple (e_alignof E) (Z.max (e_base E) 8).
(** DeviceBuffer.hpp:147-159 (the SHAM_ASSERTs are disabled in release builds). *)
Definition alloc_request (E : dev_env) (sz : Z) : Z :=
  upgrade_multiple (w64 (sz * e_sizeof E)) (get_alignment E).

(** src/shambackends/src/details/memoryHandle.cpp:29-44 [create_usm_ptr] and
    src/shambackends/src/details/internal_alloc.cpp:176-330 [internal_alloc]: the storage and the
    number of bytes registered as allocated. *)
Definition create_usm_ptr {A} (E : dev_env) (o : oracle A) (bytes : Z) : res (Z * list A) :=
  if 0 <? bytes then
    if e_max E <? bytes then Throw
    else if negb (get_alignment E mod e_base E =? 0) then Throw
    else if negb (bytes mod get_alignment E =? 0) then Throw
    else if o_accept o then Ok (bytes, map (o_mem o) (seq 0 (Z.to_nat (bytes / e_sizeof E))))
    else Throw
  else Ok (0, []).

(** cgh.copy(src + s, dest + d, len): element by element. *)
Definition memcpy {A} (src : list A) (s : Z) (d : Z) (len : Z) (dst : list A) : res (list A) :=
  rfold (fun j dst => v <- aget src (Z.to_nat s + j)%nat ;; aset dst (Z.to_nat d + j)%nat v)
        (seq 0 (Z.to_nat len)) dst.

(** DeviceBuffer.hpp:32-50 [safe_copy]: chunks of at most 2^30 bytes, submitted without mutual
    dependencies, hence executed in any order. *)
Definition max_copy_len (E : dev_env) : Z := 2 ^ 30 / e_sizeof E.
Definition nchunks (mcl count : Z) : nat := Z.to_nat ((count + mcl - 1) / mcl).
Definition safe_copy {A} (E : dev_env) (o : oracle A) (src : list A) (s d count : Z) (dst : list A)
  : res (list A) :=
  let mcl := max_copy_len E in
  if mcl =? 0 then (if 0 <? count then UB else Ok dst) else
  rfold (fun k dst =>
           let i := Z.of_nat k * mcl in
           let copy_len := Z.min mcl (count - i) in
           memcpy src (s + i) (d + i) copy_len dst)
        (o_order o (nchunks mcl count)) dst.

(** DeviceBuffer.hpp:52-72 [safe_fill]. *)
Definition safe_fill {A} (o : oracle A) (d count : Z) (v : A) (dst : list A) : res (list A) :=
  let mcl := 2 ^ 30 in
  rfold (fun k dst =>
           let i := Z.of_nat k * mcl in
           rfold (fun j dst => aset dst (Z.to_nat (d + i) + j)%nat v)
                 (seq 0 (Z.to_nat (Z.min mcl (count - i)))) dst)
        (o_order o (nchunks mcl count)) dst.

(** DeviceBuffer.hpp:189-195, constructor from a size. *)
Definition create {A} (E : dev_env) (o : oracle A) (sz : Z) : res (dbuf A) :=
  ' (b, m) <- create_usm_ptr E o (alloc_request E sz) ;;
  Ok (Build_dbuf b m sz).

(** DeviceBuffer.hpp:858-886 [copy_from(other, copy_size)] *)
Definition copy_from {A} (E : dev_env) (o : oracle A) (b other : dbuf A) (copy_size : Z) : res (dbuf A) :=
  if negb ((copy_size <=? size b) && (copy_size <=? size other)) then Throw
  else if 0 <? copy_size then
    m <- safe_copy E o (mem other) 0 0 copy_size (mem b) ;;
    Ok (Build_dbuf (st_bytes b) m (size b))
  else Ok b.

(** DeviceBuffer.hpp:1103-1176 [resize(new_size, keep_data)]. *)
Definition resize {A} (E : dev_env) (o : oracle A) (b : dbuf A) (new_size : Z) (keep_data : bool)
  : res (dbuf A) :=
  let req := alloc_request E new_size in
  if st_bytes b <? req then
    let max_alloc_size := e_max E in
    let min_size_new_alloc := req in
    let wanted := alloc_request E (w64 (new_size + new_size / 2)) in
    let max_possible := max_alloc_size - max_alloc_size mod get_alignment E in
    let new_storage := if max_alloc_size <? wanted then Z.max max_possible min_size_new_alloc else wanted in
    if max_alloc_size <? new_storage then Throw else
    ' (nb, nm) <- create_usm_ptr E o new_storage ;;
    let new_buf := Build_dbuf nb nm new_size in
    if keep_data then copy_from E o new_buf b (size b) else Ok new_buf
  else if 2 * req <? st_bytes b then
    ' (nb, nm) <- create_usm_ptr E o req ;;
    let new_buf := Build_dbuf nb nm new_size in
    if keep_data then copy_from E o new_buf b new_size else Ok new_buf
  else Ok (Build_dbuf (st_bytes b) (mem b) new_size).

(** DeviceBuffer.hpp:1194 [expand], 1204-1212 [shrink]. *)
Definition expand {A} (E : dev_env) (o : oracle A) (b : dbuf A) (add_sz : Z) : res (dbuf A) :=
  resize E o b (w64 (size b + w32 add_sz)) true.
Definition shrink {A} (E : dev_env) (o : oracle A) (b : dbuf A) (sub_sz : Z) : res (dbuf A) :=
  let sub_sz := w32 sub_sz in
  if size b <? sub_sz then Throw else resize E o b (w64 (size b - sub_sz)) true.

(** DeviceBuffer.hpp:1223-1247 [append(other)], [other] a different buffer. *)
Definition append {A} (E : dev_env) (o : oracle A) (b other : dbuf A) : res (dbuf A) :=
  let other_size := w32 (size other) in
  if other_size =? 0 then Ok b else
  let old_size := w32 (size b) in
  b' <- expand E o b other_size ;;
  m <- safe_copy E o (mem other) 0 old_size other_size (mem b') ;;
  Ok (Build_dbuf (st_bytes b') m (size b')).

Definition i32_t : itype := {| it_signed := true; it_width := 32 |}.
Definition size_t : itype := {| it_signed := false; it_width := 64 |}.
(** DeviceBuffer.hpp:951-974 [fill(value, {start, end})]; narrow_or_throw<i32> on a size_t. *)
Definition fill {A} (o : oracle A) (b : dbuf A) (v : A) (start stop : Z) : res (dbuf A) :=
  let idx_count := w64 (stop - start) in
  if negb (w64 (start + idx_count) <=? size b) then Throw
  else _ <- narrow_or_throw i32_t size_t idx_count ;;
       m <- safe_fill o start idx_count v (mem b) ;; Ok (Build_dbuf (st_bytes b) m (size b)).

(** DeviceBuffer.hpp:1032-1051, 1053-1070. *)
Definition get_val_at_idx {A} (b : dbuf A) (idx : Z) : res A :=
  if size b <=? idx then Throw else aget (mem b) (Z.to_nat idx).
Definition set_val_at_idx {A} (b : dbuf A) (idx : Z) (v : A) : res (dbuf A) :=
  if size b <=? idx then Throw
  else m <- aset (mem b) (Z.to_nat idx) v ;; Ok (Build_dbuf (st_bytes b) m (size b)).

(** DeviceBuffer.hpp:510-528 [copy_to_stdvec]; the returned vector is value-initialised ([d]). *)
Definition copy_to_stdvec {A} (E : dev_env) (o : oracle A) (d : A) (b : dbuf A) : res (list A) :=
  let ret := repeat d (Z.to_nat (size b)) in
  if 0 <? size b then safe_copy E o (mem b) 0 0 (size b) ret else Ok ret.

(** DeviceBuffer.hpp:696-716 [copy_from_stdvec(vec, sz)]; 666-684 is the case sz = size. *)
Definition copy_from_stdvec {A} (E : dev_env) (o : oracle A) (b : dbuf A) (vec : list A) (sz : Z)
  : res (dbuf A) :=
  if (Z.of_nat (length vec) <? sz) || (size b <? sz) then Throw
  else if 0 <? sz then
    m <- safe_copy E o vec 0 0 sz (mem b) ;; Ok (Build_dbuf (st_bytes b) m (size b))
  else Ok b.

(** DeviceBuffer.hpp:583-640 [copy_range_offset(begin, end, dest, dest_offset)], the two buffers
    being different; returns the destination. *)
Definition copy_range_offset {A} (E : dev_env) (o : oracle A) (b : dbuf A) (b0 e0 : Z) (dest : dbuf A) (off : Z)
  : res (dbuf A) :=
  if e0 <? b0 then Throw
  else if size b <? e0 then Throw
  else if size dest <? off then Throw
  else if size dest - off <? e0 - b0 then Throw
  else if b0 =? e0 then Ok dest
  else m <- safe_copy E o (mem b) b0 off (e0 - b0) (mem dest) ;;
       Ok (Build_dbuf (st_bytes dest) m (size dest)).

(** ** A program using several buffers.  [None]: destroyed (or never created). *)
Definition store A := list (option (dbuf A)).

Inductive op (A : Type) : Type :=
| Create (o : oracle A) (n : Z)
| Destroy (h : nat)
| Resize (o : oracle A) (h : nat) (n : Z) (keep : bool)
| Append (o : oracle A) (h other : nat)
| Fill (o : oracle A) (h : nat) (v : A) (start stop : Z)
| SetVal (h : nat) (idx : Z) (v : A)
| CopyFromVec (o : oracle A) (h : nat) (vec : list A) (sz : Z)
| CopyFrom (o : oracle A) (h other : nat) (n : Z)
| CopyRange (o : oracle A) (h : nat) (b0 e0 : Z) (dest : nat) (off : Z).
Arguments Create {A}. Arguments Destroy {A}. Arguments Resize {A}. Arguments Append {A}.
Arguments Fill {A}. Arguments SetVal {A}. Arguments CopyFromVec {A}. Arguments CopyFrom {A}.
Arguments CopyRange {A}.

Definition lookup {A} (s : store A) (h : nat) : res (dbuf A) :=
  match nth_error s h with Some (Some b) => Ok b | _ => UB end.

(** State of the program: the buffers and the global counter of allocated bytes
    (internal_alloc.cpp:26-95, [allocated_byte_*]). *)
Record prog (A : Type) := { p_store : store A; p_alloc : Z }.
Arguments p_store {A}. Arguments p_alloc {A}. Arguments Build_prog {A}.

(** Replacing buffer [h] by [b']: the old storage, if it was replaced, is freed
    (DeviceBuffer.hpp:299-323, std::swap with a temporary that is then destroyed). *)
Definition replace {A} (p : prog A) (h : nat) (b b' : dbuf A) : prog A :=
  Build_prog (upd (p_store p) h (Some b')) (p_alloc p + st_bytes b' - st_bytes b).

(** One call.  [Throw] means that the exception reached the caller. *)
Definition run_op {A} (E : dev_env) (c : op A) (p : prog A) : res (prog A) :=
  match c with
  | Create o n =>
      b <- create E o n ;;
      Ok (Build_prog (p_store p ++ [Some b]) (p_alloc p + st_bytes b))
  | Destroy h =>
      b <- lookup (p_store p) h ;;
      Ok (Build_prog (upd (p_store p) h None) (p_alloc p - st_bytes b))
  | Resize o h n keep =>
      b <- lookup (p_store p) h ;; b' <- resize E o b n keep ;; Ok (replace p h b b')
  | Append o h other =>
      b <- lookup (p_store p) h ;; b2 <- lookup (p_store p) other ;;
      if (h =? other)%nat then Throw
      else b' <- append E o b b2 ;; Ok (replace p h b b')
  | Fill o h v start stop =>
      b <- lookup (p_store p) h ;; b' <- fill o b v start stop ;; Ok (replace p h b b')
  | SetVal h idx v =>
      b <- lookup (p_store p) h ;; b' <- set_val_at_idx b idx v ;; Ok (replace p h b b')
  | CopyFromVec o h vec sz =>
      b <- lookup (p_store p) h ;; b' <- copy_from_stdvec E o b vec sz ;; Ok (replace p h b b')
  | CopyFrom o h other n =>
      b <- lookup (p_store p) h ;; b2 <- lookup (p_store p) other ;;
      b' <- copy_from E o b b2 n ;; Ok (replace p h b b')
  | CopyRange o h b0 e0 dest off =>
      b <- lookup (p_store p) h ;; b2 <- lookup (p_store p) dest ;;
      (* the same-buffer check, hpp:617-620, comes after the four range checks, which also throw *)
      if (h =? dest)%nat then Throw
      else b' <- copy_range_offset E o b b0 e0 b2 off ;; Ok (replace p dest b2 b')
  end.

(** A history: the caller catches the exceptions and goes on with the same buffers. *)
Fixpoint run {A} (E : dev_env) (cs : list (op A)) (p : prog A) : res (prog A * list bool) :=
  match cs with
  | [] => Ok (p, [])
  | c :: t =>
      match run_op E c p with
      | Ok p' => ' (q, l) <- run E t p' ;; Ok (q, true :: l)
      | Throw => ' (q, l) <- run E t p ;; Ok (q, false :: l)
      | UB => UB
      end
  end.
