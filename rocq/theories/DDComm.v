(** Model of the communication of a distributed multimap:
    src/shamalgs/src/collective/distributedDataComm.cpp (mode "new", the default) and
    src/shamalgs/include/shamalgs/collective/distributedDataComm.hpp.

    Simplifications: a device buffer of bytes is the list of its bytes; the three loops that allocate,
    write and finalize the serializers (distributedDataComm.cpp:184-197) act on different objects and
    are one pass; in the write/load kernels the order of the work items is a parameter ([sched]), as in
    Serialize.v; the cache buffers (cache1, cache2 of DDSCommCacheTarget) have the sizes given to
    set_sizes and any content. *)
From Verif Require Import Base Streams Serialize Containers SparseXchg.
From Verif Require PatchData.

(** DataTmp (distributedDataComm.cpp:57-67); [length] is the size of [data]. *)
Record dtmp := DTmp { d_snd : Z; d_rcv : Z; d_data : list Z }.
(** SerializeSize * int (serialize.hpp:75-91) *)
Definition ss_mul (a : ssize) (n : nat) : ssize := mkSS (nw64 (head_size a * n)) (nw64 (content_size a * n)).
(** SerializeSize::get_total_size (serialize.hpp:97) *)
Definition total_size (a : ssize) : nat := nw64 (head_size a + content_size a).
(** DataTmp::get_ser_sz (distributedDataComm.cpp:63-66) *)
Definition get_ser_sz (d : dtmp) : ssize :=
  ss_add (ss_mul (byte_size_scalar 8) 3) (byte_size_buf 1 (length (d_data d))).

(** send_data[key].push_back(...) on a std::map with pair keys (distributedDataComm.cpp:348-356). *)
Definition groups := list (key2 * list dtmp).
Fixpoint g_push (k : key2) (d : dtmp) (m : groups) : groups :=
  match m with
  | [] => [(k, [d])]
  | (k', v) :: t => if k2_eqb k k' then (k', v ++ [d]) :: t
                    else if k2_ltb k k' then (k, [d]) :: m else (k', v) :: g_push k d t
  end.
Definition group (rank_getter : Z -> Z) (send : dds (list Z)) : groups :=
  fold_left (fun m p => g_push (rank_getter (fst (fst p)), rank_getter (snd (fst p)))
                               (DTmp (fst (fst p)) (snd (fst p)) (snd p)) m) (dds_for_each send) [].

(** PrepareCommUtil (distributedDataComm.cpp:99-105), before serialization. *)
Record prep := Prep { p_snd : Z; p_rcv : Z; p_sz : ssize; p_src : list dtmp }.
(** The lambda add_to_ret (distributedDataComm.cpp:138-160); the caller resets byte_sz and sources. *)
Definition add_to_ret (max_comm_size : nat) (key : key2) (byte_sz : ssize) (sources : list dtmp) (ret : list prep)
  : res (list prep) :=
  if max_comm_size <? total_size byte_sz then Throw else
  Ok (if 0 <? length sources then ret ++ [Prep (fst key) (snd key) byte_sz sources] else ret).
(** The inner loop (distributedDataComm.cpp:162-182) for one key. *)
Definition vec_length_sz : ssize := byte_size_scalar 8.
Fixpoint split_loop (max_comm_size : nat) (key : key2) (vect : list dtmp) (byte_sz : ssize) (sources : list dtmp)
    (ret : list prep) : res (list prep) :=
  match vect with
  | [] => add_to_ret max_comm_size key byte_sz sources ret
  | d :: t =>
      '(byte_sz, sources, ret) <-
        (if max_comm_size <? total_size (ss_add (get_ser_sz d) byte_sz)
         then ret <- add_to_ret max_comm_size key byte_sz sources ret ;; Ok (vec_length_sz, [], ret)
         else Ok (byte_sz, sources, ret)) ;;
      split_loop max_comm_size key t (ss_add byte_sz (get_ser_sz d)) (sources ++ [d]) ret
  end.
Definition split_all (max_comm_size : nat) (m : groups) : res (list prep) :=
  rfold (fun kv ret => split_loop max_comm_size (fst kv) (snd kv) vec_length_sz [] ret) m [].

(** allocate_serializer, write_sources, finalize_serializer (distributedDataComm.cpp:107-127): the bytes
    of one message.  write_buf writes bytes (elements of size 1). *)
Definition src_items (d : dtmp) : list sitem :=
  [IScalar (le_bytes 8 (d_snd d)); IScalar (le_bytes 8 (d_rcv d));
   IScalar (le_bytes 8 (Z.of_nat (length (d_data d))));
   IBuf 1 (map (fun b => [b]) (d_data d)) (length (d_data d))].
Definition write_sources (sched : nat -> nat -> list nat) (l : list dtmp) (s : sh) : res sh :=
  sh_write_items sched 0 (IScalar (le_bytes 8 (Z.of_nat (length l))) :: concat (map src_items l)) s.
Definition serialize_prep (sched : nat -> nat -> list nat) (junk : nat -> Z) (p : prep) : res (list Z) :=
  s0 <- sh_allocate junk (p_sz p) false ;;
  s1 <- write_sources sched (p_src p) s0 ;;
  sh_finalize s1.

(** serialize_group_data_max_size and the loop that fills messages_send and data_send
    (distributedDataComm.cpp:129-200, 358-381): the messages of one rank with their bytes. *)
Definition imapm {X Y} (f : nat -> X -> res Y) (l : list X) : res (list Y) :=
  PatchData.rmapm (fun ix => f (fst ix) (snd ix)) (combine (seq 0 (length l)) l).
Definition prepare (sched : nat -> nat -> nat -> list nat) (junk : nat -> nat -> Z) (max_comm_size : nat)
    (rank_getter : Z -> Z) (send : dds (list Z)) : res (list (cmi * list Z)) :=
  ps <- split_all max_comm_size (group rank_getter send) ;;
  imapm (fun i p => b <- serialize_prep (sched i) (junk i) p ;;
                    Ok (CMI (length b) (p_snd p) (p_rcv p) None None None, b)) ps.

(** max_alloc_size (distributedDataComm.cpp:337-346) *)
Definition max_alloc (max_mem_alloc_size max_comm_size : nat) : nat :=
  if max_comm_size <? max_mem_alloc_size - 1 then max_comm_size else max_mem_alloc_size - 1.

(** The call on every rank up to the table (distributedDataComm.cpp:337-384): [max_mem r] is the limit of
    the device of rank r; the ranks meet in build_sparse_exchange_table. *)
Definition comm_begin (sched : nat -> nat -> nat -> nat -> list nat) (junk : nat -> nat -> nat -> Z)
    (max_mem : nat -> nat) (max_comm_size : nat) (rank_getter : Z -> Z) (sends : list (dds (list Z)))
  : res (list (list (cmi * list Z)) * list table) :=
  ps <- imapm (fun r send => prepare (sched r) (junk r) max_comm_size rank_getter send) sends ;;
  tabs <- build_sparse_exchange_table (fun r => max_alloc (max_mem r) max_comm_size) (map (map fst) ps) ;;
  Ok (ps, tabs).

(** DeviceBuffer::copy_range_offset (DeviceBuffer.hpp:583-639), source and destination different. *)
Definition copy_range_offset (b e : nat) (src dest : list Z) (dest_offset : nat) : res (list Z) :=
  if e <? b then Throw else
  if length src <? e then Throw else
  if length dest <? dest_offset then Throw else
  if length dest - dest_offset <? e - b then Throw else
  d <- read_at b (e - b) src ;; write_at dest_offset d dest.

(** The copy of the messages into the send cache (distributedDataComm.cpp:394-432); a false
    SHAM_ASSERT is [UB]. *)
Fixpoint fill_loop (msgs : list cmi) (data : list (list Z)) (cache1 : list (list Z)) : res (list (list Z)) :=
  match msgs with
  | [] => Ok cache1
  | m :: ms =>
      off <- ref (m_soff m) ;;
      match data with
      | [] => Throw
      | b :: bs =>
          if negb (length b =? m_size m) then UB else
          c <- aget cache1 (fst off) ;;
          c' <- copy_range_offset 0 (length b) b c (snd off) ;;
          cache1 <- aset cache1 (fst off) c' ;;
          fill_loop ms bs cache1
      end
  end.
Definition fill (t : table) (data : list (list Z)) (cache1 : list (list Z)) : res (list (list Z)) :=
  if negb (length (t_send t) =? length data) then Throw else fill_loop (t_send t) data cache1.

(** The same on every rank, [ps] as returned by [comm_begin] and [caches] the send caches. *)
Definition comm_fill (tabs : list table) (ps : list (list (cmi * list Z))) (caches : list (list (list Z)))
  : res (list (list (list Z))) :=
  PatchData.rmapm (fun x => fill (fst x) (map snd (fst (snd x))) (snd (snd x))) (combine tabs (combine ps caches)).

(** Reading one object (distributedDataComm.cpp:468-491); [djunk] is the content of the new buffer. *)
Definition load_u64 (s : sh) : res (Z * sh) := '(b, s) <- sh_load 8 s ;; Ok (le_val b, s).
Definition load_obj (order : nat -> list nat) (djunk : Z) (rank_getter : Z -> Z) (sender_rank : Z) (s : sh)
    (recv : dds (list Z)) : res (sh * dds (list Z)) :=
  '(sender, s) <- load_u64 s ;;
  '(receiver, s) <- load_u64 s ;;
  '(len, s) <- load_u64 s ;;
  if negb (rank_getter sender =? sender_rank)%Z then Throw else
  let n := Z.to_nat len in
  '(d, s) <- sh_load_buf (order n) 1 (repeat [djunk] n) n s ;;
  Ok (s, dds_add_obj sender receiver (concat d) recv).
Fixpoint load_objs (sched : nat -> nat -> list nat) (djunk : Z) (rank_getter : Z -> Z) (sender_rank : Z) (k cnt : nat)
    (s : sh) (recv : dds (list Z)) : res (dds (list Z)) :=
  match cnt with
  | O => Ok recv
  | S cnt' => '(s, recv) <- load_obj (sched k) djunk rank_getter sender_rank s recv ;;
              load_objs sched djunk rank_getter sender_rank (S k) cnt' s recv
  end.
(** One received message: copied out of the receive cache, then read (distributedDataComm.cpp:447-494).
    The u32 loop counter ends because the count, read back, is at most the length of the message. *)
Definition read_msg (m : cmi) (cache2 : list (list Z)) : res (Z * sh) :=
  off <- ref (m_roff m) ;;
  c <- aget cache2 (fst off) ;;
  b <- copy_range_offset (snd off) (snd off + m_size m) c (repeat 0%Z (m_size m)) 0 ;;
  s <- sh_from_buffer b false ;;
  Ok (m_snd m, s).
Definition split_recv (sched : nat -> nat -> list nat) (djunk : Z) (rank_getter : Z -> Z) (ms : Z * sh)
    (recv : dds (list Z)) : res (dds (list Z)) :=
  '(cnt, s) <- load_u64 (snd ms) ;;
  if (2 ^ 32 <=? cnt)%Z then UB else
  load_objs sched djunk rank_getter (fst ms) 0 (Z.to_nat cnt) s recv.
Definition finish (sched : nat -> nat -> nat -> list nat) (djunk : Z) (rank_getter : Z -> Z) (t : table)
    (cache2 : list (list Z)) (recv : dds (list Z)) : res (dds (list Z)) :=
  l <- PatchData.rmapm (fun m => read_msg m cache2) (t_recv t) ;;
  rfold (fun ims recv => split_recv (sched (fst ims)) djunk rank_getter (snd ims) recv)
        (combine (seq 0 (length l)) l) recv.
