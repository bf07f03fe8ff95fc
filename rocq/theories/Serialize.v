(** SerializeHelper of shamalgs.  Definitions only.
    src/shamalgs/include/shamalgs/serialize.hpp, src/shamalgs/src/serialize.cpp.
    A value of a serializable type T is its [szrepr] bytes
    (src/shamalgs/include/shamalgs/details/SerializeHelperMember.hpp:28-140: store/load copy
    the bytes of the scalar, or of the components of a sycl::vec / array). *)
From Verif Require Import Base Streams.

(** A u64 result of an addition/product of nat-modelled quantities. *)
Definition nw64 (n : nat) : nat := Z.to_nat (w64 (Z.of_nat n)).

(** Byte range write / read at a position of a buffer; out of bounds is [UB]. *)
Definition write_at (pos : nat) (b l : list Z) : res (list Z) :=
  if pos + length b <=? length l
  then Ok (firstn pos l ++ b ++ skipn (pos + length b) l) else UB.
Definition read_at (pos n : nat) (l : list Z) : res (list Z) :=
  if pos + n <=? length l then Ok (firstn n (skipn pos l)) else UB.

(** serialize.hpp:139 *)
Definition alignment : nat := 8.
(** serialize.hpp:101-108 *)
Definition align_repr (offset : nat) : nat :=
  let modval := offset mod alignment in
  if modval =? 0 then offset else nw64 (offset + (alignment - modval)).
(** serialize.cpp:142-145 *)
Definition pre_head_length : nat := align_repr 8.

(** serialize.hpp:37-98 *)
Record ssize := mkSS { head_size : nat; content_size : nat }.
Definition ss_add (a b : ssize) : ssize :=
  mkSS (nw64 (head_size a + head_size b)) (nw64 (content_size a + content_size b)).
(** serialize.hpp:110-114 / 209-212 *)
Definition byte_size_scalar (sz : nat) : ssize := mkSS (align_repr sz) 0.
(** serialize.hpp:116-120 / 214-217 *)
Definition byte_size_buf (sz len : nat) : ssize := mkSS 0 (align_repr (nw64 (len * sz))).
(** serialize.hpp:122-126 / 219-221: the characters are counted as u32 *)
Definition byte_size_string (s : list Z) : ssize :=
  ss_add (byte_size_scalar 4) (byte_size_buf 4 (length s)).

(** serialize.hpp:130-137 *)
Record sh := mkSH {
  s_storage : list Z;        (* storage (device) *)
  s_header : list Z;         (* storage_header (host) *)
  s_head_device : nat;
  s_head_host : nat }.

(** serialize.cpp:62-76 *)
Definition write_prehead (v : nat) (st : list Z) : res (list Z) :=
  write_at 0 (le_bytes 8 (Z.of_nat v)) st.
(** serialize.cpp:33-60 *)
Definition extract_prehead (st : list Z) : res nat :=
  if length st =? 0 then Throw else
  b <- read_at 0 8 st ;; Ok (Z.to_nat (le_val b)).
(** serialize.cpp:87-113 (one copy kernel, item i copies byte i; modelled as one range read) *)
Definition extract_header (st : list Z) (hsz : nat) : res (list Z) :=
  if hsz =? 0 then Ok [] else read_at pre_head_length hsz st.
(** serialize.cpp:115-140 (copy kernel as one range write) *)
Definition write_header (st hdr : list Z) : res (list Z) :=
  if length hdr =? 0 then Ok st else write_at pre_head_length hdr st.

(** narrow_or_throw<u32>, see Integer.v / C07; here on a nat. *)
Definition narrow_u32 (n : nat) : res nat := if (Z.of_nat n <? 2 ^ 32)%Z then Ok n else Throw.

(** serialize.cpp:147-166.  [junk] is the content of the new device memory, which resize does
    not initialise; the host header vector is value-initialised. *)
Definition sh_allocate (junk : nat -> Z) (sz : ssize) (allow_large : bool) : res sh :=
  let bytelen := nw64 (nw64 (head_size sz + content_size sz) + pre_head_length) in
  n <- (if allow_large then Ok bytelen else narrow_u32 bytelen) ;;
  st <- write_prehead (head_size sz) (map junk (seq 0 n)) ;;
  Ok (mkSH st (repeat 0%Z (head_size sz)) (nw64 (pre_head_length + head_size sz)) 0).
(** serialize.cpp:168-176 *)
Definition sh_finalize (s : sh) : res (list Z) := write_header (s_storage s) (s_header s).
(** serialize.cpp:181-204 *)
Definition sh_from_buffer (input : list Z) (allow_large : bool) : res sh :=
  _ <- (if allow_large then Ok 0 else narrow_u32 (length input)) ;;
  hsz <- extract_prehead input ;;
  hdr <- extract_header input hsz ;;
  Ok (mkSH input hdr (nw64 (pre_head_length + hsz)) 0).

(** serialize.hpp:141-163 and 165-187 (the SHAM_ASSERTs there hold by construction) *)
Definition check_device (off : nat) (s : sh) : res unit :=
  if length (s_storage s) <? nw64 (s_head_device s + off) then Throw else Ok tt.
Definition check_host (off : nat) (s : sh) : res unit :=
  if length (s_header s) <? nw64 (s_head_host s + off) then Throw else Ok tt.

(** serialize.hpp:223-237; [v] is the [szrepr] bytes of the value *)
Definition sh_write (v : list Z) (s : sh) : res sh :=
  let offset := align_repr (length v) in
  _ <- check_host offset s ;;
  h <- write_at (s_head_host s) v (s_header s) ;;
  Ok (mkSH (s_storage s) h (s_head_device s) (nw64 (s_head_host s + offset))).
(** serialize.hpp:239-256 *)
Definition sh_load (sz : nat) (s : sh) : res (list Z * sh) :=
  let offset := align_repr sz in
  _ <- check_host offset s ;;
  v <- read_at (s_head_host s) sz (s_header s) ;;
  Ok (v, mkSH (s_storage s) (s_header s) (s_head_device s) (nw64 (s_head_host s + offset))).

(** serialize.hpp:288-315 and 346-372; [buf] is the source buffer (elements of [sz] bytes),
    [order] the execution order of the work-items 0..len-1. *)
Definition sh_write_buf (order : list nat) (sz : nat) (buf : list (list Z)) (len : nat) (s : sh) : res sh :=
  let current_head := s_head_device s in
  let offset := align_repr (nw64 (len * sz)) in
  _ <- check_device offset s ;;
  st <- par_for order (fun id st =>
          v <- aget buf id ;; write_at (current_head + id * sz) v st) (s_storage s) ;;
  Ok (mkSH st (s_header s) (nw64 (s_head_device s + offset)) (s_head_host s)).
(** serialize.hpp:374-408 (317-344 is the same without the size check); [dst] is the
    destination buffer, which is returned. *)
Definition sh_load_buf (order : list nat) (sz : nat) (dst : list (list Z)) (len : nat) (s : sh)
  : res (list (list Z) * sh) :=
  let current_head := s_head_device s in
  let offset := align_repr (nw64 (len * sz)) in
  _ <- check_device offset s ;;
  if length dst <? len then Throw else
  d <- par_for order (fun id d =>
         v <- read_at (current_head + id * sz) sz (s_storage s) ;; aset d id v) dst ;;
  Ok (d, mkSH (s_storage s) (s_header s) (nw64 (s_head_device s + offset)) (s_head_host s)).

(** serialize.hpp:258-270: the u32 length in the header, the characters in the content *)
Definition sh_write_string (order : list nat) (str : list Z) (s : sh) : res sh :=
  s1 <- sh_write (le_bytes 4 (Z.of_nat (length str))) s ;;
  sh_write_buf order 1 (map (fun c => [c]) str) (length str) s1.
(** serialize.hpp:272-286: the destination sycl::buffer<char> has [len] elements *)
Definition sh_load_string (order : nat -> list nat) (s : sh) : res (list Z * sh) :=
  '(b, s1) <- sh_load 4 s ;;
  let len := Z.to_nat (le_val b) in
  '(d, s2) <- sh_load_buf (order len) 1 (repeat [0%Z] len) len s1 ;;
  Ok (concat d, s2).

(** A serialization session: a list of items. *)
Inductive sitem :=
| IScalar (v : list Z)                      (* write(T) *)
| IBuf (sz : nat) (buf : list (list Z)) (len : nat)  (* write_buf(buf, len) *)
| IStr (str : list Z).                      (* write(std::string) *)
Definition item_size (i : sitem) : ssize :=
  match i with
  | IScalar v => byte_size_scalar (length v)
  | IBuf sz _ len => byte_size_buf sz len
  | IStr str => byte_size_string str
  end.
Definition items_size (l : list sitem) : ssize :=
  fold_left (fun a i => ss_add a (item_size i)) l (mkSS 0 0).
(** [sched k n]: order of the n work-items of the k-th kernel. *)
Definition sh_write_item (order : nat -> list nat) (i : sitem) (s : sh) : res sh :=
  match i with
  | IScalar v => sh_write v s
  | IBuf sz buf len => sh_write_buf (order len) sz buf len s
  | IStr str => sh_write_string (order (length str)) str s
  end.
Fixpoint sh_write_items (sched : nat -> nat -> list nat) (k : nat) (l : list sitem) (s : sh) : res sh :=
  match l with
  | [] => Ok s
  | i :: t => s' <- sh_write_item (sched k) i s ;; sh_write_items sched (S k) t s'
  end.
(** The reader only knows the types, the buffer lengths and its destination buffers. *)
Inductive sload := LScalar (sz : nat) | LBuf (sz : nat) (dst : list (list Z)) (len : nat) | LStr.
Definition sh_load_item (order : nat -> list nat) (l : sload) (s : sh) : res (list (list Z) * sh) :=
  match l with
  | LScalar sz => '(v, s') <- sh_load sz s ;; Ok ([v], s')
  | LBuf sz dst len => sh_load_buf (order len) sz dst len s
  | LStr => '(str, s') <- sh_load_string order s ;; Ok ([str], s')
  end.
Fixpoint sh_load_items (sched : nat -> nat -> list nat) (k : nat) (l : list sload) (s : sh)
  : res (list (list (list Z)) * sh) :=
  match l with
  | [] => Ok ([], s)
  | i :: t => '(v, s1) <- sh_load_item (sched k) i s ;;
              '(vs, s2) <- sh_load_items sched (S k) t s1 ;; Ok (v :: vs, s2)
  end.
