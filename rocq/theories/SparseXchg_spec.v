(** Specification side of the sparse exchange theorems. *)
From Verif Require Import Base Serialize SparseXchg.

(** The request of one rank: a list of (destination rank, size in bytes); as the caller writes it. *)
Definition to_cmi (rank : nat) (dn : nat * nat) : cmi :=
  CMI (snd dn) (Z.of_nat rank) (Z.of_nat (fst dn)) None None None.
Definition to_msgs (rq : list (list (nat * nat))) : list (list cmi) :=
  map (fun p => map (to_cmi (fst p)) (snd p)) (combine (seq 0 (length rq)) rq).
(** All messages (source, destination, size): rank by rank. *)
Definition all_msgs (rq : list (list (nat * nat))) : list (nat * nat * nat) :=
  concat (map (fun p => map (fun dn => (fst p, fst dn, snd dn)) (snd p)) (combine (seq 0 (length rq)) rq)).
Definition g_src (g : nat * nat * nat) : nat := fst (fst g).
Definition g_dst (g : nat * nat * nat) : nat := snd (fst g).
Definition g_size (g : nat * nat * nat) : nat := snd g.

(** Requests MPI and the code can represent: destinations are ranks, no empty message, counts fit an
    int. *)
Definition rq_ok (rq : list (list (nat * nat))) : Prop :=
  (Z.of_nat (length rq) < 2 ^ 31)%Z /\ (Z.of_nat (length (all_msgs rq)) < 2 ^ 31)%Z /\
  Forall (fun g => g_dst g < length rq /\ 0 < g_size g) (all_msgs rq).
(** The same without the condition on empty messages. *)
Definition rq_ranks (rq : list (list (nat * nat))) : Prop :=
  (Z.of_nat (length rq) < 2 ^ 31)%Z /\ (Z.of_nat (length (all_msgs rq)) < 2 ^ 31)%Z /\
  Forall (fun g => g_dst g < length rq) (all_msgs rq).
(** No message exceeds the allocation limit of its sender or receiver. *)
Definition rq_fits (max : nat -> nat) (rq : list (list (nat * nat))) : Prop :=
  Forall (fun g => g_size g <= max (g_src g) /\ g_size g <= max (g_dst g)) (all_msgs rq).

(** The place of each message of one direction: [who] selects the messages of the rank, [off] their
    place; inside the buffers, and no two ranges of the same buffer overlap. *)
Definition placed (rank : nat) (who : cmi -> Z) (off : cmi -> option (nat * nat)) (sizes : list nat)
    (l : list cmi) : Prop :=
  (forall i m, nth_error l i = Some m -> who m = Z.of_nat rank ->
     exists b o n, off m = Some (b, o) /\ nth_error sizes b = Some n /\ o + m_size m <= n) /\
  (forall i j m m' b o o', i <> j -> nth_error l i = Some m -> nth_error l j = Some m' ->
     who m = Z.of_nat rank -> who m' = Z.of_nat rank -> off m = Some (b, o) -> off m' = Some (b, o') ->
     o + m_size m <= o' \/ o' + m_size m' <= o).

(** A correct table for rank [rank]; [tg i] is the tag of message i, the same on every rank. *)
Definition table_ok (all : list (nat * nat * nat)) (tg : nat -> Z) (max : nat) (rank : nat) (t : table) : Prop :=
  map (fun m => (m_snd m, m_rcv m, m_size m)) (t_all t)
    = map (fun g => (Z.of_nat (g_src g), Z.of_nat (g_dst g), g_size g)) all /\
  (forall i m, nth_error (t_all t) i = Some m -> m_tag m = Some (tg i)) /\
  t_send t = filter (fun m => (m_snd m =? Z.of_nat rank)%Z) (t_all t) /\
  t_recv t = filter (fun m => (m_rcv m =? Z.of_nat rank)%Z) (t_all t) /\
  (forall k i, nth_error (t_send_ids t) k = Some i -> nth_error (t_send t) k = nth_error (t_all t) i) /\
  (forall k i, nth_error (t_recv_ids t) k = Some i -> nth_error (t_recv t) k = nth_error (t_all t) i) /\
  length (t_send_ids t) = length (t_send t) /\ length (t_recv_ids t) = length (t_recv t) /\
  placed rank m_snd m_soff (t_send_sizes t) (t_all t) /\
  placed rank m_rcv m_roff (t_recv_sizes t) (t_all t) /\
  Forall (fun n => n <= max) (t_send_sizes t) /\ Forall (fun n => n <= max) (t_recv_sizes t).
Definition tables_ok (all : list (nat * nat * nat)) (max : nat -> nat) (W : nat) (tabs : list table) : Prop :=
  length tabs = W /\
  exists tg : nat -> Z,
    (forall i, i < length all -> (0 <= tg i < 2 ^ 31)%Z) /\
    (forall i j g g', i <> j -> nth_error all i = Some g -> nth_error all j = Some g' ->
       g_src g = g_src g' -> tg i <> tg j) /\
    forall r t, nth_error tabs r = Some t -> table_ok all tg (max r) r t.

(** Buffers of the announced sizes, with any content. *)
Definition bufs_ok (sizes : list nat) (bufs : list (list Z)) : Prop := map (@length Z) bufs = sizes.

(** The bytes of a range. *)
Definition bytes_at (bufs : list (list Z)) (o : nat * nat) (n : nat) : list Z :=
  firstn n (skipn (snd o) (nth (fst o) bufs [])).

(** States reached from the entry, in [n] steps of any schedule. *)
Inductive xreach (tabs : list table) (bsend : list (list (list Z))) (s0 : xsys) : nat -> xsys -> Prop :=
| xr_start : xreach tabs bsend s0 0 s0
| xr_step n s l s' : xreach tabs bsend s0 n s -> enabled tabs l s = true -> xdo tabs bsend l s = Ok s' ->
    xreach tabs bsend s0 (S n) s'.

(** A step that does not rely on the library buffering a send. *)
Definition unbuffered (l : label) (s : xsys) : Prop :=
  match l with
  | LDone r j => exists q, nth_error (x_reqs (s r)) j = Some q /\ q_matched q = true
  | _ => True
  end.

(** Every message arrived: what the receiver has at its place is what the sender has at its place. *)
Definition delivered (tabs : list table) (bsend : list (list (list Z))) (s : xsys) : Prop :=
  forall r t i m, nth_error tabs r = Some t -> nth_error (t_all t) i = Some m -> m_rcv m = Z.of_nat r ->
  exists r' t' m' o o', m_snd m = Z.of_nat r' /\ nth_error tabs r' = Some t' /\
    nth_error (t_all t') i = Some m' /\ m_snd m' = m_snd m /\ m_rcv m' = m_rcv m /\ m_size m' = m_size m /\
    m_roff m = Some o /\ m_soff m' = Some o' /\
    bytes_at (x_bufs (s r)) o (m_size m) = bytes_at (nth r' bsend []) o' (m_size m) /\
    length (bytes_at (x_bufs (s r)) o (m_size m)) = m_size m.
