(** C42: the communication of a distributed multimap (distributed_data_sparse_comm). *)
From Verif Require Import Base Streams Serialize Serialize_spec Containers Containers_spec SparseXchg SparseXchg_spec DDComm DDComm_spec DDComm_prep DDComm_main DDComm_final.

(** For every world size, every content of the multimaps, every device limits, every order of the work
    items and every schedule of the ranks and of the messages: once the tables are built, the copies into
    the send buffers succeed, the exchange passes its checks, cannot fail or block, ends, and then every
    rank reads without error, under each key, exactly what all the ranks had under that key if the
    receiving id is its own, in order, after what its container already held; and nothing else. *)
Theorem C42_delivery : forall sched junk max_mem max_comm rg sends ps tabs caches brecv,
  comm_ok rg sends -> (Z.of_nat max_comm < 2 ^ 31)%Z -> (forall r, fair3 (sched r)) ->
  comm_begin sched junk max_mem max_comm rg sends = Ok (ps, tabs) ->
  Forall2 (fun t b => bufs_ok (t_send_sizes t) b) tabs caches ->
  Forall2 (fun t b => bufs_ok (t_recv_sizes t) b) tabs brecv ->
  length tabs = length sends /\
  exists bsend, comm_fill tabs ps caches = Ok bsend /\
  (forall r t bs br, nth_error tabs r = Some t -> nth_error bsend r = Some bs -> nth_error brecv r = Some br ->
     exchange_checks t bs br = Ok tt) /\
  forall n s, xreach tabs bsend (xinit brecv) n s ->
    n <= 5 * length (concat sends) * length sends /\
    (forall l, enabled tabs l s = true -> exists s', xdo tabs bsend l s = Ok s') /\
    (finished tabs s = false -> exists l, enabled tabs l s = true /\ unbuffered l s) /\
    (finished tabs s = true -> forall r t sch djunk recv0, nth_error tabs r = Some t -> fair3 sch -> dds_sorted recv0 ->
       exists out, finish sch djunk rg t (x_bufs (s r)) recv0 = Ok out /\ dds_sorted out /\
         forall k, dds_vals k out = dds_vals k recv0 ++ expected rg sends r k).
Proof. exact comm_delivery. Qed.

(** The beginning either succeeds or is refused with an exception; it succeeds when, for each pair of
    ranks, the objects from one to the other (and 16 bytes) fit the limit of both. *)
Theorem C42_total : forall sched junk max_mem max_comm rg sends,
  comm_ok rg sends -> (Z.of_nat max_comm < 2 ^ 31)%Z -> (forall r, fair3 (sched r)) ->
  (forall r send r', nth_error sends r = Some send -> r' < length sends -> to_rank rg (Z.of_nat r') send <> [] ->
     16 + objs_bytes (to_rank rg (Z.of_nat r') send) <= max_alloc (max_mem r) max_comm /\
     16 + objs_bytes (to_rank rg (Z.of_nat r') send) <= max_alloc (max_mem r') max_comm) ->
  exists ps tabs, comm_begin sched junk max_mem max_comm rg sends = Ok (ps, tabs).
Proof. exact begin_total. Qed.
Theorem C42_ok_or_throw : forall sched junk max_mem max_comm rg sends,
  comm_ok rg sends -> (Z.of_nat max_comm < 2 ^ 31)%Z -> (forall r, fair3 (sched r)) ->
  (exists r, comm_begin sched junk max_mem max_comm rg sends = Ok r) \/ comm_begin sched junk max_mem max_comm rg sends = Throw.
Proof.
  intros. destruct (begin_cases sched junk max_mem max_comm rg sends) as [(L & _ & _ & [[_ (ps & tabs & E)]|[_ E]])|[_ E]]; eauto.
Qed.

(** The messages of one rank are prepared iff each object alone, with the count of objects, fits the
    communication limit; otherwise the call throws. *)
Theorem C42_prepare : forall sched junk max_comm rg sends r send,
  comm_ok rg sends -> (Z.of_nat max_comm < 2 ^ 31)%Z -> fair3 sched -> nth_error sends r = Some send ->
  (Forall (fun p => 8 + obj_bytes (snd p) <= max_comm) send -> exists l, prepare sched junk max_comm rg send = Ok l) /\
  (Exists (fun p => max_comm < 8 + obj_bytes (snd p)) send -> prepare sched junk max_comm rg send = Throw).
Proof.
  intros sched junk max_comm rg sends r send HC HM HF Hr. pose proof (comm_ok_rank _ _ _ _ HC Hr) as RK. split; intros H.
  - destruct (prepare_ok rg (length sends) max_comm r send sched junk RK ltac:(lia) HF H) as (pl & E & _). eauto.
  - apply (prepare_throw rg (length sends) max_comm r send); auto. lia.
Qed.

(** The splitting of the messages is documented to keep them below the limit (assertion "comm size ...
    is larger than max comm size"), but it does not count the 8 bytes of the message header: for every
    limit there are two ranks and two objects, each of which alone, header included, fits, whose message
    is nevertheless above the limit and refused. *)
Theorem C42_split_limit_refuted : forall sched junk max_mem m, (forall r, fair3 (sched r)) -> 72 <= m -> (Z.of_nat m < 2 ^ 31)%Z ->
  exists rg sends, comm_ok rg sends /\ Forall (Forall (fun p => 16 + obj_bytes (snd p) <= m)) sends /\
    comm_begin sched junk max_mem m rg sends = Throw.
Proof.
  intros sched junk max_mem m HF H1 H2. destruct (lim_throw sched junk max_mem m HF H1 H2) as (A & B & C).
  exists (fun id => id), [lim_send m; []]. split; [exact A|]. split; [|exact C]. constructor; [exact B|]. constructor; [constructor|constructor].
Qed.

(** Two ranks; ids 0, 2 belong to rank 0 and 1, 3 to rank 1; two objects under one key, one object to the
    sender itself, a limit that forces two messages between the same ranks. *)
Definition ex_rg (id : Z) : Z := (id mod 2)%Z.
Definition ex_sends : list (dds (list Z)) :=
  [ [((0, 1), [1; 2]); ((0, 1), [3]); ((0, 2), [4]); ((2, 1), [])]; [((3, 0), [5; 6; 7; 8; 9; 10; 11; 12; 13])] ]%Z.
Definition ex_sc (r i k n : nat) : list nat := rev (seq 0 n).
Definition ex_fin (i k n : nat) : list nat := seq 0 n.
Definition ex_junk (r i p : nat) : Z := 99%Z.
Definition ex_labels : list label :=
  [LPost 1; LPost 1; LPost 1; LPost 0; LPost 0; LPost 1; LPost 0; LPost 0;
   LMatch 0 1 2; LDone 1 1; LMatch 1 0 0; LMatch 0 0 0; LDone 0 0; LDone 0 1; LMatch 0 1 1; LDone 0 3; LDone 0 2; LDone 0 4;
   LDone 1 0; LDone 1 2].
Definition ex_caches (sizes : table -> list nat) (tabs : list table) : list (list (list Z)) :=
  map (fun t => map (fun n => repeat 7%Z n) (sizes t)) tabs.
Definition ex_run : res (list nat * bool * dds (list Z) * dds (list Z)) :=
  '(ps, tabs) <- comm_begin ex_sc ex_junk (fun _ => 1000) 80 ex_rg ex_sends ;;
  bsend <- comm_fill tabs ps (ex_caches t_send_sizes tabs) ;;
  s <- xrun tabs bsend ex_labels (xinit (ex_caches t_recv_sizes tabs)) ;;
  t0 <- aget tabs 0 ;; t1 <- aget tabs 1 ;;
  o0 <- finish ex_fin 8%Z ex_rg t0 (x_bufs (s 0)) [((3, 0), [1])]%Z ;;
  o1 <- finish ex_fin 8%Z ex_rg t1 (x_bufs (s 1)) [] ;;
  Ok (map (@length _) ps, finished tabs s, o0, o1).
Example C42_nonvacuous : comm_ok ex_rg ex_sends /\ (forall r, fair3 (ex_sc r)) /\ fair3 ex_fin /\
  (exists ps tabs, comm_begin ex_sc ex_junk (fun _ => 1000) 80 ex_rg ex_sends = Ok (ps, tabs) /\
     Forall2 (fun t b => bufs_ok (t_send_sizes t) b) tabs (ex_caches t_send_sizes tabs) /\
     Forall2 (fun t b => bufs_ok (t_recv_sizes t) b) tabs (ex_caches t_recv_sizes tabs)) /\
  ex_run = Ok ([3%nat; 1%nat], true, [((0, 2), [4]); ((3, 0), [1]); ((3, 0), [5; 6; 7; 8; 9; 10; 11; 12; 13])],
               [((0, 1), [1; 2]); ((0, 1), [3]); ((2, 1), [])])%Z /\
  (forall r send r', nth_error ex_sends r = Some send -> r' < 2 -> to_rank ex_rg (Z.of_nat r') send <> [] ->
     16 + objs_bytes (to_rank ex_rg (Z.of_nat r') send) <= max_alloc 1000 200) /\
  comm_begin ex_sc ex_junk (fun _ => 1000) 47 ex_rg ex_sends = Throw.
Proof.
  split; [|split; [|split; [|split; [|split; [|split]]]]].
  - split; [reflexivity|]. split; [reflexivity|]. intros [|[|r]] send E; cbn in E; [| |destruct r; discriminate]; injection E as <-.
    + split; [repeat constructor; unfold k2_le; cbn; lia|]. repeat constructor; cbn; lia.
    + split; [repeat constructor|]. repeat constructor; cbn; lia.
  - intros r i k n. apply Permutation.Permutation_sym, Permutation.Permutation_rev.
  - intros i k n. apply Permutation.Permutation_refl.
  - eexists. eexists. split; [vm_compute; reflexivity|]. split; repeat constructor.
  - vm_compute. reflexivity.
  - intros [|[|r]] send [|[|r']] E H _; cbn in E; try lia; try (destruct r; discriminate); injection E as <-; vm_compute; lia.
  - vm_compute. reflexivity.
Qed.

Print Assumptions C42_delivery.
Print Assumptions C42_total.
Print Assumptions C42_ok_or_throw.
Print Assumptions C42_prepare.
Print Assumptions C42_split_limit_refuted.
