(** Model of the sparse exchange of messages between MPI ranks:
    src/shamalgs/src/collective/sparse_exchange.cpp,
    src/shamalgs/include/shamalgs/collective/sparse_exchange.hpp and
    src/shamalgs/include/shamalgs/collective/RequestList.hpp.

    Simplifications: sizes and offsets (size_t) are natural numbers without wrap around (an offset
    and a message size are each at most max_alloc_size, so the only sum, line 157/181, wraps only for
    an allocation limit above 2^63);  the 120 s time-out of the spin lock is left out, a rank that
    cannot go on simply does not move;  the final Waitall narrows its request count to i32, which is
    left out (a rank has at most two requests per message).

    MPI is modelled as a transition system over all ranks (below): point to point messages match by
    (source, destination, tag), first posted first; everything else about timing is left open. *)
From Verif Require Import Base Streams Serialize.
From Verif Require Lookback PatchData.

(** sparse_exchange.hpp:30-47; an offset is (buf_id, data_offset). *)
Record cmi := CMI {
  m_size : nat; m_snd : Z; m_rcv : Z; m_tag : option Z;
  m_soff : option (nat * nat); m_roff : option (nat * nat) }.

(** shambase::get_check_ref on an optional: throws when empty. *)
Definition ref {A} (o : option A) : res A := match o with Some a => Ok a | None => Throw end.
(** std::vector::at *)
Definition vat {A} (l : list A) (i : nat) : res A := ref (nth_error l i).
(** narrow_or_throw<i32> of a size (C07). *)
Definition narrow_i32 (n : nat) : res Z := if (Z.of_nat n <? 2 ^ 31)%Z then Ok (Z.of_nat n) else Throw.

(** unpack (sparse_exchange.cpp:31-54) *)
Definition unpack (d : Z * Z) : res cmi :=
  let '(s, r) := Lookback.unpack32 (fst d) in
  if (snd d =? 0)%Z then Throw
  else Ok (CMI (Z.to_nat (snd d)) (to_i32 s) (to_i32 r) None None None).

(** fetch_global_message_data, the local part (sparse_exchange.cpp:60-78), on one rank. *)
Definition fetch_one (rank : nat) (m : cmi) : res (Z * Z) :=
  if (w32 (m_snd m) =? Z.of_nat rank)%Z
  then Ok (Lookback.pack32 (w32 (m_snd m)) (w32 (m_rcv m)), Z.of_nat (m_size m))
  else Throw.
Definition fetch_local (rank : nat) (msgs : list cmi) : res (list (Z * Z)) :=
  PatchData.rmapm (fetch_one rank) msgs.
(** vector_allgatherv (src/shamalgs/include/shamalgs/collective/exchanges.hpp:97-162): the vectors of
    all ranks in rank order; throws when the total length does not fit an int. *)
Definition allgatherv {A} (l : list (list A)) : res (list A) :=
  _ <- narrow_i32 (length (concat l)) ;; Ok (concat l).
(** fetch_global_message_data on all ranks (sparse_exchange.cpp:57-84); [msgs] has one list per rank.
    A collective: the result is the same on every rank, and a rank that throws makes the call fail. *)
Definition fetch_global_message_data (msgs : list (list cmi)) : res (list (Z * Z)) :=
  loc <- PatchData.rmapm (fun p => fetch_local (fst p) (snd p)) (combine (seq 0 (length msgs)) msgs) ;;
  allgatherv loc.

(** decode_all_message (sparse_exchange.cpp:87-94) *)
Definition decode_all_message (g : list (Z * Z)) : res (list cmi) := PatchData.rmapm unpack g.

(** compute_tags (sparse_exchange.cpp:97-113) *)
Definition set_tag (t : Z) (m : cmi) : cmi :=
  CMI (m_size m) (m_snd m) (m_rcv m) (Some t) (m_soff m) (m_roff m).
Fixpoint tags_loop (tag_map : list Z) (l : list cmi) : res (list cmi) :=
  match l with
  | [] => Ok []
  | m :: l' =>
      if (m_snd m <? 0)%Z then UB else
      tag <- aget tag_map (Z.to_nat (m_snd m)) ;;
      tm <- aset tag_map (Z.to_nat (m_snd m)) (tag + 1)%Z ;;
      r <- tags_loop tm l' ;;
      Ok (set_tag tag m :: r)
  end.
Definition compute_tags (world_size : nat) (l : list cmi) : res (list cmi) :=
  tags_loop (repeat 0%Z world_size) l.

(** The offset logic of one direction: send_buf_sizes / tmp_send_offset / send_buf_id
    (sparse_exchange.cpp:145-171), and the same text with recv (173-200). *)
Record alloc := Alloc { a_sizes : list nat; a_off : nat; a_id : nat }.
Definition alloc0 : alloc := Alloc [] 0 0.
Definition place (max_alloc_size sz : nat) (a : alloc) : res ((nat * nat) * alloc) :=
  if max_alloc_size <? sz then Throw else
  let sizes := if length (a_sizes a) =? 0 then [0] else a_sizes a in
  let '(sizes, off, id) :=
    if max_alloc_size <=? a_off a + sz then (sizes ++ [0], 0, a_id a + 1)
    else (sizes, a_off a, a_id a) in
  cur <- vat sizes id ;;
  Ok ((id, off), Alloc (upd sizes id (cur + sz)) (off + sz) id).

Definition set_soff (o : nat * nat) (m : cmi) : cmi :=
  CMI (m_size m) (m_snd m) (m_rcv m) (m_tag m) (Some o) (m_roff m).
Definition set_roff (o : nat * nat) (m : cmi) : cmi :=
  CMI (m_size m) (m_snd m) (m_rcv m) (m_tag m) (m_soff m) (Some o).

(** The loop of build_sparse_exchange_table (sparse_exchange.cpp:128-204) on rank [rank]. *)
Fixpoint offsets_loop (rank max_alloc_size : nat) (l : list cmi) (sa ra : alloc)
  : res (list cmi * alloc * alloc) :=
  match l with
  | [] => Ok ([], sa, ra)
  | m :: l' =>
      '(m1, sa1) <- (if (m_snd m =? Z.of_nat rank)%Z
                     then '(o, sa') <- place max_alloc_size (m_size m) sa ;; Ok (set_soff o m, sa')
                     else Ok (m, sa)) ;;
      '(m2, ra1) <- (if (m_rcv m =? Z.of_nat rank)%Z
                     then '(o, ra') <- place max_alloc_size (m_size m) ra ;; Ok (set_roff o m1, ra')
                     else Ok (m1, ra)) ;;
      '(r, sa2, ra2) <- offsets_loop rank max_alloc_size l' sa1 ra1 ;;
      Ok (m2 :: r, sa2, ra2)
  end.

(** CommTable (sparse_exchange.hpp:49-59) *)
Record table := Table {
  t_send : list cmi; t_all : list cmi; t_recv : list cmi;
  t_send_ids : list nat; t_recv_ids : list nat;
  t_send_sizes : list nat; t_recv_sizes : list nat }.
(** build_sparse_exchange_table (sparse_exchange.cpp:115-247) on rank [rank], after the collective;
    the second loop (219-236) keeps the messages of this rank, in global order. *)
Definition build_table (rank world_size max_alloc_size : nat) (global : list (Z * Z)) : res table :=
  all0 <- decode_all_message global ;;
  all1 <- compute_tags world_size all0 ;;
  '(all, sa, ra) <- offsets_loop rank max_alloc_size all1 alloc0 alloc0 ;;
  let is_snd := fun m => (m_snd m =? Z.of_nat rank)%Z in
  let is_rcv := fun m => (m_rcv m =? Z.of_nat rank)%Z in
  let ids := fun p => map fst (filter (fun im => p (snd im)) (combine (seq 0 (length all)) all)) in
  Ok (Table (filter is_snd all) all (filter is_rcv all) (ids is_snd) (ids is_rcv) (a_sizes sa) (a_sizes ra)).
(** The call on every rank; [max r] is the allocation limit passed by rank r. *)
Definition build_sparse_exchange_table (max : nat -> nat) (msgs : list (list cmi)) : res (list table) :=
  g <- fetch_global_message_data msgs ;;
  PatchData.rmapm (fun r => build_table r (length msgs) (max r) g) (seq 0 (length msgs)).

(** * The exchange *)

(** The checks of the template sparse_exchange (sparse_exchange.cpp:318-350). *)
Fixpoint sizes_fit (sizes : list nat) (bufs : list (list Z)) : bool :=
  match sizes, bufs with
  | n :: s', b :: b' => (n <=? length b) && sizes_fit s' b'
  | _, _ => true
  end.
Definition exchange_checks (t : table) (bsend brecv : list (list Z)) : res unit :=
  if negb (length (t_send_sizes t) =? length bsend) then Throw else
  if negb (length (t_recv_sizes t) =? length brecv) then Throw else
  if negb (sizes_fit (t_send_sizes t) bsend) then Throw else
  if negb (sizes_fit (t_recv_sizes t) brecv) then Throw else Ok tt.

(** A pending MPI request.  A send carries its bytes (the send buffers are not written during the
    exchange, so reading them when the request is posted or later is the same); a receive the target
    range.  [q_matched]: the library has paired it with its counterpart and moved the bytes.
    [q_done]: Test/Waitall reports it complete. *)
Inductive rkind := KSend (data : list Z) | KRecv (buf off size : nat).
Record req := Req { q_kind : rkind; q_peer : Z; q_tag : Z; q_matched : bool; q_done : bool }.
(** A rank: its position in the loop over message_all, its requests in posting order (RequestList),
    its receive buffers. *)
Record rst := Rst { x_pc : nat; x_reqs : list req; x_bufs : list (list Z) }.
Definition xsys := nat -> rst.
Definition xset (s : xsys) (r : nat) (v : rst) : xsys := fun x => if x =? r then v else s x.

(** One iteration of the loop, before the spin lock (sparse_exchange.cpp:262-293). *)
Definition post_msg (rank : nat) (bsend : list (list Z)) (m : cmi) (st : rst) : res rst :=
  rs <- (if (m_snd m =? Z.of_nat rank)%Z then
           off <- ref (m_soff m) ;;
           b <- vat bsend (fst off) ;;
           _ <- narrow_i32 (m_size m) ;;
           data <- read_at (snd off) (m_size m) b ;;
           tag <- ref (m_tag m) ;;
           Ok [Req (KSend data) (m_rcv m) tag false false]
         else Ok []) ;;
  rr <- (if (m_rcv m =? Z.of_nat rank)%Z then
           off <- ref (m_roff m) ;;
           b <- vat (x_bufs st) (fst off) ;;
           _ <- narrow_i32 (m_size m) ;;
           tag <- ref (m_tag m) ;;
           Ok [Req (KRecv (fst off) (snd off) (m_size m)) (m_snd m) tag false false]
         else Ok []) ;;
  Ok (Rst (x_pc st + 1) (x_reqs st ++ rs ++ rr) (x_bufs st)).

(** RequestList::remain_count (RequestList.hpp:70-73) *)
Definition remain_count (l : list req) : nat := length (filter (fun q => negb (q_done q)) l).
(** SHAM_SPARSE_COMM_INFLIGHT_LIM (sparse_exchange.cpp:257).  spin_lock_partial_wait
    (RequestList.hpp:86-113) lets the rank go on once fewer requests are in flight (its early return
    when fewer requests exist is the same condition); before the first iteration there are none. *)
Definition inflight_lim : nat := 128.

Fixpoint find_idx {A} (p : A -> bool) (l : list A) : option nat :=
  match l with
  | [] => None
  | a :: l' => if p a then Some 0 else option_map S (find_idx p l')
  end.
Definition is_send (q : req) : bool := match q_kind q with KSend _ => true | KRecv _ _ _ => false end.
Definition send_to (dst tag : Z) (q : req) : bool :=
  is_send q && negb (q_matched q) && (q_peer q =? dst)%Z && (q_tag q =? tag)%Z.
Definition recv_from (src tag : Z) (q : req) : bool :=
  negb (is_send q) && negb (q_matched q) && (q_peer q =? src)%Z && (q_tag q =? tag)%Z.
Definition set_matched (q : req) : req := Req (q_kind q) (q_peer q) (q_tag q) true (q_done q).
Definition set_done (q : req) : req := Req (q_kind q) (q_peer q) (q_tag q) (q_matched q) true.

(** What can happen next: rank r runs one iteration;  the library pairs the oldest unpaired send of
    [src] to [dst] with tag [tag] with the oldest unpaired receive of [dst] from [src] with that tag;
    request j of rank r is reported complete, which requires it to be paired unless it is a send (the
    library may buffer the bytes of a send and complete it early, or not). *)
Inductive label := LPost (r : nat) | LMatch (src dst : nat) (tag : Z) | LDone (r j : nat).

Definition enabled (tabs : list table) (l : label) (s : xsys) : bool :=
  match l with
  | LPost r =>
      match nth_error tabs r with
      | Some t => (x_pc (s r) <? length (t_all t)) && (remain_count (x_reqs (s r)) <? inflight_lim)
      | None => false
      end
  | LMatch src dst tag =>
      (src <? length tabs) && (dst <? length tabs) &&
      match find_idx (send_to (Z.of_nat dst) tag) (x_reqs (s src)),
            find_idx (recv_from (Z.of_nat src) tag) (x_reqs (s dst)) with
      | Some _, Some _ => true
      | _, _ => false
      end
  | LDone r j =>
      (r <? length tabs) &&
      match nth_error (x_reqs (s r)) j with
      | Some q => negb (q_done q) && (q_matched q || is_send q)
      | None => false
      end
  end.

(** Pairing: the bytes are stored in the receive buffer; a message longer than the posted receive is
    an MPI error, a range outside the buffer is [UB]. *)
Definition deliver (qs qr : req) (bufs : list (list Z)) : res (list (list Z)) :=
  match q_kind qs, q_kind qr with
  | KSend data, KRecv b off size =>
      if size <? length data then Throw else
      bb <- aget bufs b ;; bb' <- write_at off data bb ;; aset bufs b bb'
  | _, _ => UB
  end.
Definition xdo (tabs : list table) (bsend : list (list (list Z))) (l : label) (s : xsys) : res xsys :=
  match l with
  | LPost r =>
      t <- aget tabs r ;; bs <- aget bsend r ;;
      m <- aget (t_all t) (x_pc (s r)) ;;
      v <- post_msg r bs m (s r) ;; Ok (xset s r v)
  | LMatch src dst tag =>
      match find_idx (send_to (Z.of_nat dst) tag) (x_reqs (s src)),
            find_idx (recv_from (Z.of_nat src) tag) (x_reqs (s dst)) with
      | Some js, Some jr =>
          qs <- aget (x_reqs (s src)) js ;; qr <- aget (x_reqs (s dst)) jr ;;
          bufs <- deliver qs qr (x_bufs (s dst)) ;;
          let s1 := xset s src (Rst (x_pc (s src)) (upd (x_reqs (s src)) js (set_matched qs)) (x_bufs (s src))) in
          Ok (xset s1 dst (Rst (x_pc (s1 dst)) (upd (x_reqs (s1 dst)) jr (set_matched qr)) bufs))
      | _, _ => UB
      end
  | LDone r j =>
      q <- aget (x_reqs (s r)) j ;;
      Ok (xset s r (Rst (x_pc (s r)) (upd (x_reqs (s r)) j (set_done q)) (x_bufs (s r))))
  end.

(** Every rank has left the loop and its Waitall (sparse_exchange.cpp:295). *)
Definition finished (tabs : list table) (s : xsys) : bool :=
  forallb (fun rt => (x_pc (s (fst rt)) =? length (t_all (snd rt))) && (remain_count (x_reqs (s (fst rt))) =? 0))
          (combine (seq 0 (length tabs)) tabs).

(** Entry of the exchange: [brecv] are the receive buffers of every rank, with any content. *)
Definition xinit (brecv : list (list (list Z))) : xsys := fun r => Rst 0 [] (nth r brecv []).

(** A given schedule of steps. *)
Definition xrun (tabs : list table) (bsend : list (list (list Z))) (ls : list label) (s : xsys) : res xsys :=
  rfold (fun l s => if enabled tabs l s then xdo tabs bsend l s else UB) ls s.
