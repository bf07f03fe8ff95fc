(** Byte streams and Fortran record files of shambase.  Definitions only.
    A byte is a [Z] in [0,256); an object of type T is its list of [sizeof(T)] bytes
    (little-endian for the integers the code itself writes). *)
From Verif Require Import Base.
Local Open Scope Z_scope.

(** Object representation of an unsigned integer on n bytes (little endian hosts). *)
Fixpoint le_bytes (n : nat) (v : Z) : list Z :=
  match n with O => [] | S n' => v mod 256 :: le_bytes n' (v / 256) end.
Fixpoint le_val (l : list Z) : Z :=
  match l with [] => 0 | b :: t => b + 256 * le_val t end.
(** Conversion of a 32-bit pattern to i32. *)
Definition to_i32 (v : Z) : Z := if w32 v <? 2 ^ 31 then w32 v else w32 v - 2 ^ 32.

(** std::basic_stringstream<byte>: all the bytes written, and the get position.  Writes
    append.  Reading past the end leaves the destination indeterminate, which the code
    does not check: [UB]. *)
Record stream := mkStream { st_data : list Z; st_pos : nat }.
Definition st_write (bytes : list Z) (s : stream) : stream :=
  mkStream (st_data s ++ bytes) (st_pos s).
Definition st_read (n : nat) (s : stream) : res (list Z * stream) :=
  if (st_pos s + n <=? length (st_data s))%nat
  then Ok (firstn n (skipn (st_pos s) (st_data s)), mkStream (st_data s) (st_pos s + n))
  else UB.

(** src/shambase/include/shambase/bytestream.hpp:26-34 *)
Definition stream_write (obj : list Z) (s : stream) : stream := st_write obj s.
Definition stream_read (sizeof : nat) (s : stream) : res (list Z * stream) := st_read sizeof s.
Definition stream_write_u32 (v : Z) (s : stream) : stream := stream_write (le_bytes 4 v) s.
Definition stream_write_u64 (v : Z) (s : stream) : stream := stream_write (le_bytes 8 v) s.
Definition stream_read_u32 (s : stream) : res (Z * stream) :=
  '(b, s') <- stream_read 4 s ;; Ok (le_val b, s').
Definition stream_read_u64 (s : stream) : res (Z * stream) :=
  '(b, s') <- stream_read 8 s ;; Ok (le_val b, s').

(** bytestream.hpp:36-40 *)
Definition stream_write_string (str : list Z) (s : stream) : stream :=
  st_write str (stream_write_u64 (Z.of_nat (length str)) s).
(** bytestream.hpp:42-47 *)
Definition stream_read_string (s : stream) : res (list Z * stream) :=
  '(len, s1) <- stream_read_u64 s ;; st_read (Z.to_nat len) s1.

(** bytestream.hpp:77-79 *)
Definition VECTOR_flag : Z := 292 (* 0x124 *).

(** bytestream.hpp:103-117; [ser] is the element's [serialize] member. *)
Definition stream_write_vector {T} (ser : T -> stream -> stream) (vec : list T) (s : stream) : stream :=
  let s := stream_write_u32 VECTOR_flag s in
  let s := stream_write_u64 (Z.of_nat (length vec)) s in
  fold_left (fun s v => ser v s) vec s.
(** The loop of bytestream.hpp:140-142. *)
Fixpoint read_items {T} (deser : stream -> res (T * stream)) (n : nat) (vec : list T) (s : stream)
  : res (list T * stream) :=
  match n with
  | O => Ok (vec, s)
  | S n' => '(v, s') <- deser s ;; read_items deser n' (vec ++ [v]) s'
  end.
(** bytestream.hpp:127-143: the items are pushed at the back of [vec]. *)
Definition stream_read_vector {T} (deser : stream -> res (T * stream)) (vec : list T) (s : stream)
  : res (list T * stream) :=
  '(flag, s1) <- stream_read_u32 s ;;
  if negb (flag =? VECTOR_flag) then Throw else
  '(len, s2) <- stream_read_u64 s1 ;;
  read_items deser (Z.to_nat len) vec s2.
(** bytestream.hpp:145-156; an element is its [sizeof(T)] bytes. *)
Definition stream_write_vector_trivial (vec : list (list Z)) (s : stream) : stream :=
  let s := stream_write_u32 VECTOR_flag s in
  let s := stream_write_u64 (Z.of_nat (length vec)) s in
  st_write (concat vec) s.
(** Reinterpretation of a byte block as consecutive objects of [sz] bytes. *)
Fixpoint chunks (sz : nat) (n : nat) (l : list Z) : list (list Z) :=
  match n with O => [] | S n' => firstn sz l :: chunks sz n' (skipn sz l) end.
(** bytestream.hpp:166-181; [len * sizeof(T)] is a u64 product. *)
Definition stream_read_vector_trivial (sz : nat) (s : stream) : res (list (list Z) * stream) :=
  '(flag, s1) <- stream_read_u32 s ;;
  if negb (flag =? VECTOR_flag) then Throw else
  '(len, s2) <- stream_read_u64 s1 ;;
  '(b, s3) <- st_read (Z.to_nat (w64 (len * Z.of_nat sz))) s2 ;;
  Ok (chunks sz (Z.to_nat len) b, s3).

(* ------------------------------------------------------------------ *)
(** ** FortranIOFile, src/shambase/include/shambase/fortran_io.hpp:36-393 *)

(** fortran_io.hpp:69-73 *)
Definition read_fortran_4byte (s : stream) : res (Z * stream) :=
  '(v, s') <- stream_read_u32 s ;; Ok (to_i32 v, s').
(** fortran_io.hpp:46-56 *)
Definition check_fortran_4byte (c : Z) (s : stream) : res stream :=
  '(n, s') <- read_fortran_4byte s ;; if negb (n =? c) then Throw else Ok s'.
(** Bytes readable from [s.data()]: the characters and the terminating NUL. *)
Definition cstr_prefix (str : list Z) (len : nat) : res (list Z) :=
  if (len <=? length str + 1)%nat then Ok (firstn len (str ++ [0])) else UB.

(** fortran_io.hpp:175-181: each argument is its byte representation; the byte count is a
    size_t sum converted to i32. *)
Definition fio_write (args : list (list Z)) (s : stream) : stream :=
  let linebytecount := Z.of_nat (length (concat args)) in
  let s := stream_write_u32 linebytecount s in
  let s := fold_left (fun s a => stream_write a s) args s in
  stream_write_u32 linebytecount s.
Fixpoint read_args (sizes : list nat) (s : stream) : res (list (list Z) * stream) :=
  match sizes with
  | [] => Ok ([], s)
  | n :: t => '(b, s1) <- stream_read n s ;; '(bs, s2) <- read_args t s1 ;; Ok (b :: bs, s2)
  end.
(** fortran_io.hpp:194-203: [check != linebytecount] compares the i32, converted to u64. *)
Definition fio_read (sizes : list nat) (s : stream) : res (list (list Z) * stream) :=
  let linebytecount := w64 (Z.of_nat (list_sum sizes)) in
  '(check, s1) <- read_fortran_4byte s ;;
  if negb (w64 check =? linebytecount) then Throw else
  '(args, s2) <- read_args sizes s1 ;;
  s3 <- check_fortran_4byte check s2 ;; Ok (args, s3).

(** fortran_io.hpp:237-241; [len] is a u32 *)
Definition fio_write_fixed_string (str : list Z) (len : Z) (s : stream) : res stream :=
  let s := stream_write_u32 len s in
  b <- cstr_prefix str (Z.to_nat len) ;;
  Ok (stream_write_u32 len (st_write b s)).
(** fortran_io.hpp:216-224: the i32 is converted to u32 for the comparison *)
Definition fio_read_fixed_string (len : Z) (s : stream) : res (list Z * stream) :=
  '(check, s1) <- read_fortran_4byte s ;;
  if negb (w32 check =? len) then Throw else
  '(b, s2) <- st_read (Z.to_nat len) s1 ;;
  s3 <- check_fortran_4byte check s2 ;; Ok (b, s3).

(** fortran_io.hpp:285-297; [totlen] is the u32 product *)
Definition fio_write_string_array (svec : list (list Z)) (strlen str_count : Z) (s : stream) : res stream :=
  let totlen := w32 (strlen * str_count) in
  let s := stream_write_u32 totlen s in
  s <- rfold (fun i s => str <- aget svec i ;; b <- cstr_prefix str (Z.to_nat strlen) ;;
                         Ok (st_write b s)) (seq 0 (Z.to_nat str_count)) s ;;
  Ok (stream_write_u32 totlen s).
(** fortran_io.hpp:255-271 *)
Definition fio_read_string_array (strlen str_count : Z) (s : stream) : res (list (list Z) * stream) :=
  let totlen := w32 (strlen * str_count) in
  '(check, s1) <- read_fortran_4byte s ;;
  if negb (w64 check =? totlen) then Throw else
  '(svec, s2) <- read_args (repeat (Z.to_nat strlen) (Z.to_nat str_count)) s1 ;;
  s3 <- check_fortran_4byte check s2 ;; Ok (svec, s3).

(** fortran_io.hpp:345-359 ([sz] = sizeof(T); the elements have [sz] bytes) *)
Definition fio_write_val_array (sz : nat) (vec : list (list Z)) (val_count : Z) (s : stream) : res stream :=
  if Z.of_nat (length vec) <? val_count then Throw else
  let totlen := w64 (Z.of_nat sz * val_count) in
  let s := stream_write_u32 totlen s in
  s <- rfold (fun i s => v <- aget vec i ;; Ok (stream_write v s)) (seq 0 (Z.to_nat val_count)) s ;;
  Ok (stream_write_u32 totlen s).
(** fortran_io.hpp:311-329 *)
Definition fio_read_val_array (sz : nat) (val_count : Z) (s : stream) : res (list (list Z) * stream) :=
  let totlen := w64 (Z.of_nat sz * val_count) in
  '(check, s1) <- read_fortran_4byte s ;;
  if negb (w64 check =? totlen) then Throw else
  '(vec, s2) <- read_args (repeat sz (Z.to_nat val_count)) s1 ;;
  s3 <- check_fortran_4byte check s2 ;; Ok (vec, s3).

(** fortran_io.hpp:144-149 and 404-416: the file content is reopened at position 0 with
    length = number of bytes written. *)
Definition fio_open (bytes : list Z) : stream * nat := (mkStream bytes 0, length bytes).
(** fortran_io.hpp:369 *)
Definition fio_finished_read (f : stream * nat) : bool := (snd f =? st_pos (fst f))%nat.

(** The calls a writer can make, and the call a reader makes for the same record. *)
Inductive fio_rec :=
| RVals (args : list (list Z))
| RFixed (str : list Z) (len : Z)
| RStrs (svec : list (list Z)) (strlen str_count : Z)
| RArr (sz : nat) (vec : list (list Z)) (val_count : Z).
Definition fio_write_rec (r : fio_rec) (s : stream) : res stream :=
  match r with
  | RVals args => Ok (fio_write args s)
  | RFixed str len => fio_write_fixed_string str len s
  | RStrs svec l c => fio_write_string_array svec l c s
  | RArr sz vec c => fio_write_val_array sz vec c s
  end.
(** The shape of a read call: what the reader must know beforehand. *)
Inductive fio_shape :=
| SVals (sizes : list nat) | SFixed (len : Z) | SStrs (strlen str_count : Z) | SArr (sz : nat) (val_count : Z).
Definition fio_read_rec (sh : fio_shape) (s : stream) : res (list (list Z) * stream) :=
  match sh with
  | SVals sizes => fio_read sizes s
  | SFixed len => '(b, s') <- fio_read_fixed_string len s ;; Ok ([b], s')
  | SStrs l c => fio_read_string_array l c s
  | SArr sz c => fio_read_val_array sz c s
  end.
Fixpoint fio_write_all (rs : list fio_rec) (s : stream) : res stream :=
  match rs with [] => Ok s | r :: t => s' <- fio_write_rec r s ;; fio_write_all t s' end.
Fixpoint fio_read_all (shs : list fio_shape) (s : stream) : res (list (list (list Z)) * stream) :=
  match shs with
  | [] => Ok ([], s)
  | sh :: t => '(v, s1) <- fio_read_rec sh s ;; '(vs, s2) <- fio_read_all t s1 ;; Ok (v :: vs, s2)
  end.
