(** C41: the sparse exchange of messages between ranks. *)
From Verif Require Import Base Streams Serialize SparseXchg SparseXchg_spec SparseXchg_table SparseXchg_proofs SparseXchg_main.

(** For every world size, every request list and every allocation limits, the tables are correct:
    the same message list with the same, per sender distinct, tags on every rank; on every rank
    non-overlapping places inside buffers within the limit. *)
Theorem C41_table : forall max rq, rq_ok rq -> rq_fits max rq ->
  exists tabs, build_sparse_exchange_table max (to_msgs rq) = Ok tabs /\ tables_ok (all_msgs rq) max (length rq) tabs.
Proof. exact build_ok. Qed.

(** A message above the limit of its sender or receiver is refused. *)
Theorem C41_too_large_throws : forall max rq, rq_ok rq -> ~ rq_fits max rq ->
  build_sparse_exchange_table max (to_msgs rq) = Throw.
Proof. exact build_throw. Qed.

(** An empty message, or a message announced by a rank that is not its sender, is refused. *)
Theorem C41_empty_throws : forall max rq, rq_ranks rq -> Exists (fun g => g_size g = 0) (all_msgs rq) ->
  build_sparse_exchange_table max (to_msgs rq) = Throw.
Proof. exact build_empty. Qed.
Theorem C41_foreign_throws : forall max (msgs : list (list cmi)) r l m, nth_error msgs r = Some l -> In m l ->
  w32 (m_snd m) <> Z.of_nat r -> build_sparse_exchange_table max msgs = Throw.
Proof. exact build_foreign. Qed.

(** The exchange over those tables, with buffers of the announced sizes and any content, and limits that fit an int: on every
    schedule the checks pass, no step fails or is undefined, the number of steps is bounded, some step
    that needs no buffering of sends by MPI is possible until every rank has left (no deadlock), and
    then every message has arrived, byte for byte, in its place. *)
Theorem C41_exchange : forall max rq tabs bsend brecv, rq_ok rq ->
  (forall r, r < length rq -> (Z.of_nat (max r) < 2 ^ 31)%Z) ->
  build_sparse_exchange_table max (to_msgs rq) = Ok tabs ->
  Forall2 (fun t b => bufs_ok (t_send_sizes t) b) tabs bsend ->
  Forall2 (fun t b => bufs_ok (t_recv_sizes t) b) tabs brecv ->
  (forall r t bs br, nth_error tabs r = Some t -> nth_error bsend r = Some bs -> nth_error brecv r = Some br ->
     exchange_checks t bs br = Ok tt) /\
  forall n s, xreach tabs bsend (xinit brecv) n s ->
    n <= 5 * length (all_msgs rq) * length rq /\
    (forall l, enabled tabs l s = true -> exists s', xdo tabs bsend l s = Ok s') /\
    (finished tabs s = false -> exists l, enabled tabs l s = true /\ unbuffered l s) /\
    (finished tabs s = true -> delivered tabs bsend s /\
       forall r, r < length rq -> map (@length Z) (x_bufs (s r)) = map (@length Z) (nth r brecv [])).
Proof.
  intros max rq tabs bsend brecv HR HM HB HS HV. destruct (build_inv max rq tabs HR HB) as [HT TK].
  split; [exact (forall2_checks tabs bsend brecv HS HV)|].
  exact (exchange_main rq max tabs bsend brecv HR HT HM TK HS HV).
Qed.

(** Three ranks, a message of a rank to itself, two messages between the same ranks, limits that
    force a second buffer; and a schedule that finishes. *)
Definition ex_rq : list (list (nat * nat)) := [ [(1, 2); (0, 3); (1, 1)]; []; [(1, 2)] ].
Definition ex_max (r : nat) : nat := 5.
Definition ex_bsend : list (list (list Z)) := [ [[1; 2]; [3; 4; 5; 6]]; []; [[7; 8]] ]%Z.
Definition ex_brecv : list (list (list Z)) := [ [[0; 0; 0]]; [[0; 0; 0]; [0; 0]]; [] ]%Z.
Definition ex_sched : list label :=
  [LPost 2; LPost 2; LPost 2; LPost 2; LDone 2 0; LPost 1; LPost 1; LPost 1; LPost 1;
   LMatch 2 1 0; LPost 0; LPost 0; LPost 0; LPost 0; LMatch 0 1 2; LMatch 0 1 0; LMatch 0 0 1;
   LDone 0 0; LDone 0 1; LDone 0 2; LDone 0 3; LDone 1 0; LDone 1 1; LDone 1 2].

Example C41_nonvacuous : rq_ok ex_rq /\ rq_fits ex_max ex_rq /\
  (exists tabs, build_sparse_exchange_table ex_max (to_msgs ex_rq) = Ok tabs /\
     Forall2 (fun t b => bufs_ok (t_send_sizes t) b) tabs ex_bsend /\
     Forall2 (fun t b => bufs_ok (t_recv_sizes t) b) tabs ex_brecv /\
     exists s, xrun tabs ex_bsend ex_sched (xinit ex_brecv) = Ok s /\ finished tabs s = true /\
       x_bufs (s 0) = [[3; 4; 5]]%Z /\ x_bufs (s 1) = [[1; 2; 6]; [7; 8]]%Z) /\
  ~ rq_fits (fun _ => 2) ex_rq /\ build_sparse_exchange_table (fun _ => 2) (to_msgs ex_rq) = Throw.
Proof.
  split. { split; [reflexivity|]. split; [reflexivity|]. unfold ex_rq. cbn. repeat constructor. }
  split. { unfold ex_rq, rq_fits, ex_max. cbn. repeat constructor. }
  split.
  { eexists. split; [vm_compute; reflexivity|]. split; [|split].
    - repeat constructor.
    - repeat constructor.
    - eexists. split; [vm_compute; reflexivity|]. split; [vm_compute; reflexivity|]. split; vm_compute; reflexivity. }
  split; [|vm_compute; reflexivity].
  unfold ex_rq, rq_fits. cbn. intros F. inversion F as [|? ? _ F1]. inversion F1 as [|? ? F2 _]. cbn in F2. lia.
Qed.

Print Assumptions C41_table.
Print Assumptions C41_too_large_throws.
Print Assumptions C41_empty_throws.
Print Assumptions C41_foreign_throws.
Print Assumptions C41_exchange.
