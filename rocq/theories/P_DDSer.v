(** C43: the communication of a distributed multimap of objects (serialize_sparse_comm), and the
    serialization of a PatchDataLayer used with it. *)
From Verif Require Import Base Streams Serialize Serialize_spec Containers Containers_spec SparseXchg SparseXchg_spec DDComm DDComm_spec.
From Verif Require Import Layer Layer_spec DDSer DDSer_spec DDSer_proofs LayerSer LayerSer_spec LayerSer_proofs.
Local Open Scope nat_scope.

(** On every schedule the exchange ends, and then every rank has, under each key, exactly the objects that
    all the ranks had under that key if the receiving id is its own, in order. *)
Theorem C43_exchange : forall {T} (ser : nat -> nat -> T -> res (list Z)) deser rg (sends : list (dds T)) sched junk max_mem max_comm ps tabs caches brecv,
  ids_ok rg sends -> ser_ok ser deser rg sends -> (Z.of_nat max_comm < 2 ^ 31)%Z -> (forall r, fair3 (sched r)) ->
  ssc_begin ser rg sched junk max_mem max_comm sends = Ok (ps, tabs) ->
  Forall2 (fun t b => bufs_ok (t_send_sizes t) b) tabs caches ->
  Forall2 (fun t b => bufs_ok (t_recv_sizes t) b) tabs brecv ->
  length tabs = length sends /\
  exists bsend, comm_fill tabs ps caches = Ok bsend /\
  (forall r t bs br, nth_error tabs r = Some t -> nth_error bsend r = Some bs -> nth_error brecv r = Some br ->
     exchange_checks t bs br = Ok tt) /\
  forall n s, xreach tabs bsend (xinit brecv) n s ->
    n <= 5 * length (concat sends) * length sends /\
    (forall l, enabled tabs l s = true -> exists s', xdo tabs bsend l s = Ok s') /\
    (finished tabs s = false -> exists l, enabled tabs l s = true /\ unbuffered l s) /\
    (finished tabs s = true -> forall r t send sch djunk, nth_error tabs r = Some t -> nth_error sends r = Some send -> fair3 sch ->
       exists out, ssc_end deser rg sch djunk t (x_bufs (s r)) send = Ok out /\ dds_sorted out /\
         forall k, dds_vals k out = received rg sends r k).
Proof. intros T ser deser rg sends sched junk mm mx ps tabs ca br HI HS. exact (ssc_main ser deser rg sends HI HS sched junk mm mx ps tabs ca br). Qed.

(** It starts when what leaves each rank for each other rank (and 16 bytes) fits the limits of both. *)
Theorem C43_total : forall {T} (ser : nat -> nat -> T -> res (list Z)) deser rg (sends : list (dds T)) (size : T -> nat) sched junk max_mem max_comm,
  ids_ok rg sends -> ser_ok ser deser rg sends ->
  (forall send p r i b, In send sends -> In p send -> ser r i (snd p) = Ok b -> length b <= size (snd p)) ->
  (Z.of_nat max_comm < 2 ^ 31)%Z -> (forall r, fair3 (sched r)) ->
  (forall r send r', nth_error sends r = Some send -> r' < length sends -> r' <> r ->
     16 + sent_bytes size rg (Z.of_nat r') send <= max_alloc (max_mem r) max_comm /\
     16 + sent_bytes size rg (Z.of_nat r') send <= max_alloc (max_mem r') max_comm) ->
  exists ps tabs, ssc_begin ser rg sched junk max_mem max_comm sends = Ok (ps, tabs).
Proof. intros T. exact ssc_total. Qed.

(** Otherwise there is an exception; nothing else can happen. *)
Theorem C43_ok_or_throw : forall {T} (ser : nat -> nat -> T -> res (list Z)) deser rg (sends : list (dds T)) sched junk max_mem max_comm,
  ids_ok rg sends -> ser_ok ser deser rg sends -> (Z.of_nat max_comm < 2 ^ 31)%Z -> (forall r, fair3 (sched r)) ->
  (exists ps tabs, ssc_begin ser rg sched junk max_mem max_comm sends = Ok (ps, tabs)) \/ ssc_begin ser rg sched junk max_mem max_comm sends = Throw.
Proof. intros T. exact ssc_cases. Qed.

(** A PatchDataLayer that stores any list of objects is serialized, in the announced number of bytes, and
    reading the buffer gives the same layer, in any order of the work items and with any content of the
    new memory. *)
Theorem C43_layer_roundtrip : forall tsz lay os L sched1 junk,
  stores lay os L -> good_layout lay -> fits lay (length os) -> typed tsz L ->
  (Z.of_nat (layer_bytes tsz lay (length os)) < 2 ^ 32)%Z -> fair_sched sched1 ->
  exists b, l_serialize tsz sched1 junk L = Ok b /\ length b = layer_bytes tsz lay (length os) /\
    forall sched2 dj, fair_sched sched2 -> l_deserialize tsz sched2 dj lay b = Ok L.
Proof. exact stores_roundtrip. Qed.

(** So these functions can be used with serialize_sparse_comm on multimaps of layers. *)
Theorem C43_layers : forall tsz lay rg sends sch junk sch' dj,
  good_layout lay -> (forall r i, fair_sched (sch r i)) -> (forall j, fair_sched (sch' j)) ->
  (forall send p, In send sends -> In p send -> exists os, stores lay os (snd p) /\ fits lay (length os) /\ typed tsz (snd p) /\
     (Z.of_nat (layer_bytes tsz lay (length os)) < 2 ^ 32)%Z) ->
  ser_ok (fun r i => l_serialize tsz (sch r i) (junk r i)) (fun j => l_deserialize tsz (sch' j) (dj j) lay) rg sends.
Proof.
  intros tsz lay rg sends sch junk sch' dj HG HS HS' HL send p Hs Hp _ r i. destruct (HL send p Hs Hp) as (os & A & B & C & D).
  destruct (stores_roundtrip tsz lay os (snd p) (sch r i) (junk r i) A HG B C D (HS r i)) as (b & E1 & E2 & E3).
  exists b. split; [exact E1|]. split; [unfold small; rewrite E2; lia|]. intros j. apply E3. apply HS'.
Qed.

(** Two ranks; ids 0, 2 on rank 0 and 1, 3 on rank 1; a field of one-byte values, one per object, and a
    field of two-byte values, two per object.  Rank 0 sends a layer of two objects and a layer of none to
    rank 1 and keeps one for its own id 2; rank 1 sends a layer of one object. *)
Definition ex_lay : layout := [(0, 1); (1, 2)].
Definition ex_tsz (ty : nat) : nat := S ty.
Definition ex_o1 : object (list Z) := [[[1]]; [[2; 3]; [4; 5]]]%Z.
Definition ex_o2 : object (list Z) := [[[6]]; [[7; 8]; [9; 10]]]%Z.
Definition ex_L (os : list (object (list Z))) : layer (list Z) :=
  map (fun '(k, (ty, nv)) => Field ty nv (column k os)) (combine (seq 0 2) ex_lay).
Definition ex_rg (id : Z) : Z := (id mod 2)%Z.
Definition ex_sends : list (dds (layer (list Z))) :=
  [ [((0, 1), ex_L [ex_o1; ex_o2]); ((0, 2), ex_L [ex_o2]); ((2, 3), ex_L [])]; [((3, 0), ex_L [ex_o2])] ]%Z.
Definition ex_s2 (k n : nat) : list nat := rev (seq 0 n).
Definition ex_sc (r i k n : nat) : list nat := rev (seq 0 n).
Definition ex_fin (i k n : nat) : list nat := seq 0 n.
Definition ex_ser (r i : nat) := l_serialize ex_tsz ex_s2 (fun _ => 55%Z).
Definition ex_deser (j : nat) := l_deserialize ex_tsz ex_s2 (fun _ => [44%Z]) ex_lay.
Definition ex_junk (r i p : nat) : Z := 99%Z.
Definition ex_labels : list label :=
  [LPost 1; LPost 1; LPost 0; LPost 0; LMatch 0 1 0; LDone 1 0; LMatch 1 0 0; LDone 0 1; LDone 0 0; LDone 1 1].
Definition ex_caches (sizes : table -> list nat) (tabs : list table) : list (list (list Z)) :=
  map (fun t => map (fun n => repeat 7%Z n) (sizes t)) tabs.
Definition ex_run : res (list nat * bool * dds (layer (list Z)) * dds (layer (list Z))) :=
  '(ps, tabs) <- ssc_begin ex_ser ex_rg ex_sc ex_junk (fun _ => 1000) 500 ex_sends ;;
  bsend <- comm_fill tabs ps (ex_caches t_send_sizes tabs) ;;
  s <- xrun tabs bsend ex_labels (xinit (ex_caches t_recv_sizes tabs)) ;;
  t0 <- aget tabs 0 ;; t1 <- aget tabs 1 ;;
  s0 <- aget ex_sends 0 ;; s1 <- aget ex_sends 1 ;;
  o0 <- ssc_end ex_deser ex_rg ex_fin 8%Z t0 (x_bufs (s 0)) s0 ;;
  o1 <- ssc_end ex_deser ex_rg ex_fin 8%Z t1 (x_bufs (s 1)) s1 ;;
  Ok (map (@length _) ps, finished tabs s, o0, o1).
Definition ex_size (L : layer (list Z)) : nat := 200.
Example C43_nonvacuous : ids_ok ex_rg ex_sends /\ good_layout ex_lay /\ fair_sched ex_s2 /\ (forall r, fair3 (ex_sc r)) /\ fair3 ex_fin /\
  (forall send p, In send ex_sends -> In p send -> exists os, stores ex_lay os (snd p) /\ fits ex_lay (length os) /\ typed ex_tsz (snd p) /\
     (Z.of_nat (layer_bytes ex_tsz ex_lay (length os)) < 2 ^ 32)%Z) /\
  (exists ps tabs, ssc_begin ex_ser ex_rg ex_sc ex_junk (fun _ => 1000) 500 ex_sends = Ok (ps, tabs) /\
     Forall2 (fun t b => bufs_ok (t_send_sizes t) b) tabs (ex_caches t_send_sizes tabs) /\
     Forall2 (fun t b => bufs_ok (t_recv_sizes t) b) tabs (ex_caches t_recv_sizes tabs)) /\
  ex_run = Ok ([1%nat; 1%nat], true, [((0, 2), ex_L [ex_o2]); ((3, 0), ex_L [ex_o2])], [((0, 1), ex_L [ex_o1; ex_o2]); ((2, 3), ex_L [])])%Z /\
  (forall send p r i b, In send ex_sends -> In p send -> ex_ser r i (snd p) = Ok b -> length b <= ex_size (snd p)) /\
  (forall r send r', nth_error ex_sends r = Some send -> r' < 2 -> r' <> r -> 16 + sent_bytes ex_size ex_rg (Z.of_nat r') send <= max_alloc 1000 500).
Proof.
  assert (P : forall send p, In send ex_sends -> In p send -> p = ((0, 1)%Z, ex_L [ex_o1; ex_o2]) \/ p = ((0, 2)%Z, ex_L [ex_o2]) \/ p = ((2, 3)%Z, ex_L []) \/ p = ((3, 0)%Z, ex_L [ex_o2])).
  { intros send p [<-|[<-|[]]] [<-|[<-|[<-|[]]]] || intros send p [<-|[<-|[]]] Hp; cbn [In] in Hp; repeat destruct Hp as [<-|Hp]; auto; destruct Hp. }
  assert (LS : forall os, Forall (shaped ex_lay) os -> length os < 3 -> stores ex_lay os (ex_L os) /\ fits ex_lay (length os) /\ (Z.of_nat (layer_bytes ex_tsz ex_lay (length os)) < 2 ^ 32)%Z).
  { intros os H1 H2. split; [split; [exact H1|reflexivity]|]. destruct (length os) as [|[|[|n]]]; [| | |lia]; (split; [split; [vm_compute; reflexivity|repeat constructor]|vm_compute; reflexivity]). }
  split; [|split; [|split; [|split; [|split; [|split; [|split; [|split; [|split]]]]]]]].
  - split; [reflexivity|]. split; [reflexivity|]. intros [|[|r]] send E; cbn in E; [| |destruct r; discriminate]; injection E as <-.
    + split; [repeat constructor; unfold k2_le; cbn; lia|]. repeat constructor; cbn; lia.
    + split; [repeat constructor|]. repeat constructor; cbn; lia.
  - split; [discriminate|]. repeat constructor.
  - intros k n. apply Permutation.Permutation_sym, Permutation.Permutation_rev.
  - intros r i k n. apply Permutation.Permutation_sym, Permutation.Permutation_rev.
  - intros i k n. apply Permutation.Permutation_refl.
  - intros send p Hs Hp. assert (S1 : shaped ex_lay ex_o1) by repeat constructor. assert (S2 : shaped ex_lay ex_o2) by repeat constructor.
    destruct (P send p Hs Hp) as [->|[->|[->| ->]]]; cbn [snd].
    + exists [ex_o1; ex_o2]. destruct (LS [ex_o1; ex_o2] ltac:(auto) ltac:(cbn; lia)) as (A & B & C). repeat (split; [assumption|]). split; [repeat constructor|exact C].
    + exists [ex_o2]. destruct (LS [ex_o2] ltac:(auto) ltac:(cbn; lia)) as (A & B & C). repeat (split; [assumption|]). split; [repeat constructor|exact C].
    + exists []. destruct (LS [] ltac:(auto) ltac:(cbn; lia)) as (A & B & C). repeat (split; [assumption|]). split; [repeat constructor|exact C].
    + exists [ex_o2]. destruct (LS [ex_o2] ltac:(auto) ltac:(cbn; lia)) as (A & B & C). repeat (split; [assumption|]). split; [repeat constructor|exact C].
  - eexists. eexists. split; [vm_compute; reflexivity|]. split; repeat constructor.
  - vm_compute. reflexivity.
  - intros send p r i b Hs Hp E. destruct (P send p Hs Hp) as [->|[->|[->| ->]]]; vm_compute in E; injection E as <-; vm_compute; lia.
  - intros [|[|r]] send [|[|r']] E H N; cbn in E; try lia; try (destruct r; discriminate); injection E as <-; vm_compute; lia.
Qed.

Print Assumptions C43_exchange.
Print Assumptions C43_total.
Print Assumptions C43_ok_or_throw.
Print Assumptions C43_layer_roundtrip.
Print Assumptions C43_layers.
