(** Property theorems C01, C02 (see properties.jsonl). *)
From Verif Require Import Base Streams Streams_proofs Serialize Serialize_spec Serialize_proofs.

(** C01: for every list of items, every content of the fresh device memory, every order of the
    work-items of every kernel on both sides: allocating the sum of the sizes, writing, finalizing,
    reopening and loading with the matching calls succeeds and returns the written values. *)
Theorem C01_serializer_roundtrip :
  forall (sched1 sched2 : nat -> nat -> list nat) (junk : nat -> Z) (l : list sitem) (lds : list sload)
    (allow_large : bool),
  fair_sched sched1 -> fair_sched sched2 -> Forall item_ok l -> Forall2 load_matches l lds ->
  (Z.of_nat (items_bytes l + 8) < if allow_large then 2 ^ 64 else 2 ^ 32)%Z ->
  exists s0 s1 buf s2 s3,
    sh_allocate junk (items_size l) allow_large = Ok s0 /\
    sh_write_items sched1 0 l s0 = Ok s1 /\
    sh_finalize s1 = Ok buf /\
    sh_from_buffer buf allow_large = Ok s2 /\
    sh_load_items sched2 0 lds s2 = Ok (map (fun p => load_expected (fst p) (snd p)) (combine l lds), s3).
Proof. exact roundtrip. Qed.
Print Assumptions C01_serializer_roundtrip.

(** Beyond the 32-bit limit the allocation throws unless large sizes are allowed. *)
Theorem C01_too_large_throws : forall junk (l : list sitem),
  (2 ^ 32 <= Z.of_nat (items_bytes l + 8) < 2 ^ 64)%Z ->
  sh_allocate junk (items_size l) false = Throw.
Proof.
  intros junk l H. destruct (items_size_raw l) as (F1 & F2 & F3); [lia|].
  unfold sh_allocate. rewrite F1. cbn [head_size content_size]. rewrite pre_head_8.
  rewrite (nw64_small (_ + list_sum (map raw_cont l))) by lia. rewrite nw64_small by lia.
  unfold narrow_u32. replace (_ <? _)%Z with false by (symmetry; apply Z.ltb_ge; lia). reflexivity.
Qed.
Print Assumptions C01_too_large_throws.

Example C01_nonvacuous :
  let l := [IScalar [1;2;3;4]%Z; IBuf 2 [[5;6];[7;8];[9;10]]%Z 3; IStr [65;66;67]%Z; IScalar [11]%Z] in
  let lds := [LScalar 4; LBuf 2 (repeat [] 4) 3; LStr; LScalar 1] in
  Forall item_ok l /\ Forall2 load_matches l lds /\
  (s0 <- sh_allocate (fun n => 99%Z) (items_size l) false ;;
   s1 <- sh_write_items (fun _ n => rev (seq 0 n)) 0 l s0 ;;
   buf <- sh_finalize s1 ;; s2 <- sh_from_buffer buf false ;;
   '(v, _) <- sh_load_items (fun _ n => seq 0 n) 0 lds s2 ;; Ok v)
  = Ok [ [[1;2;3;4]]; [[5;6];[7;8];[9;10];[]]; [[65;66;67]]; [[11]] ]%Z.
Proof.
  split; [repeat constructor|]. split; [repeat constructor|vm_compute; reflexivity].
Qed.

(** C02: whatever is called afterwards, with whatever sizes below 2^62 bytes, a helper obtained by
    [allocate] never touches memory outside its regions (no [UB]): it completes or throws. *)
Theorem C02_no_out_of_bounds_after_allocate :
  forall sched junk sz allow_large (ops : list sop),
  fair_sched sched -> small (head_size sz + content_size sz + 8) -> Forall sop_ok ops ->
  (s <- sh_allocate junk sz allow_large ;; sops_run sched 0 ops s) <> UB.
Proof.
  intros sched junk sz al ops HS Hsz HO. pose proof (allocate_good junk sz al Hsz) as G.
  destruct (sh_allocate junk sz al) as [s| |]; cbn [rbind]; try congruence; try tauto.
  destruct G as (G & _). pose proof (sops_safe sched ops HS 0 s G HO) as R.
  destruct (sops_run sched 0 ops s); congruence || tauto.
Qed.
Print Assumptions C02_no_out_of_bounds_after_allocate.

(** The same for a helper opened on a buffer whose recorded header size fits in the buffer. *)
Theorem C02_no_out_of_bounds_from_buffer :
  forall sched buf allow_large (ops : list sop),
  fair_sched sched -> bytes_ok buf -> small (length buf) -> 8 <= length buf ->
  (le_val (firstn 8 buf) + 8 <= Z.of_nat (length buf))%Z -> Forall sop_ok ops ->
  (s <- sh_from_buffer buf allow_large ;; sops_run sched 0 ops s) <> UB.
Proof.
  intros sched buf al ops HS Hb Hs H8 Hh HO. pose proof (from_buffer_good buf al Hb Hs H8 Hh) as G.
  destruct (sh_from_buffer buf al) as [s| |]; cbn [rbind]; try congruence; try tauto.
  destruct G as (G & _). pose proof (sops_safe sched ops HS 0 s G HO) as R.
  destruct (sops_run sched 0 ops s); congruence || tauto.
Qed.
Print Assumptions C02_no_out_of_bounds_from_buffer.

(** A single operation throws exactly when it would move a head past the end of its region (or, for
    a buffer load, when the destination is too small). *)
Theorem C02_overflow_throws_exactly : forall s, sh_inv s -> ssmall s ->
  (forall v, small (length v) ->
     (sh_write v s = Throw <-> length (s_header s) < s_head_host s + al8 (length v))) /\
  (forall sz, small sz ->
     (sh_load sz s = Throw <-> length (s_header s) < s_head_host s + al8 sz)) /\
  (forall order sz buf len, Permutation order (seq 0 len) -> small (len * sz) -> item_ok (IBuf sz buf len) ->
     (sh_write_buf order sz buf len s = Throw <-> length (s_storage s) < s_head_device s + al8 (len * sz))) /\
  (forall order sz dst len, Permutation order (seq 0 len) -> small (len * sz) ->
     (sh_load_buf order sz dst len s = Throw <->
        (length (s_storage s) < s_head_device s + al8 (len * sz) \/ length dst < len))).
Proof.
  intros s HI HS. split; [|split; [|split]].
  - intros v Hv. pose proof (write_scalar_cases v s HS HI Hv) as C.
    destruct (_ <=? _) eqn:E; [destruct C as (s' & C)|]; rewrite C;
      [apply Nat.leb_le in E|apply Nat.leb_gt in E]; split; try congruence; lia.
  - intros sz Hv. pose proof (load_scalar_cases sz s HS HI Hv) as C.
    destruct (_ <=? _) eqn:E; rewrite C;
      [apply Nat.leb_le in E|apply Nat.leb_gt in E]; split; try congruence; lia.
  - intros order sz buf len HP Hv Ho. pose proof (write_buf_cases order sz buf len s HS HI HP Hv Ho) as C.
    destruct (_ <=? _) eqn:E; [destruct C as (s' & C)|]; rewrite C;
      [apply Nat.leb_le in E|apply Nat.leb_gt in E]; split; try congruence; lia.
  - intros order sz dst len HP Hv. pose proof (load_buf_cases order sz dst len s HS HI HP Hv) as C.
    destruct (_ <=? length (s_storage s)) eqn:E; destruct (len <=? length dst) eqn:D; cbn [andb] in C;
      [destruct C as (d & C)| | |]; rewrite C;
      [apply Nat.leb_le in E|apply Nat.leb_le in E|apply Nat.leb_gt in E|apply Nat.leb_gt in E];
      [apply Nat.leb_le in D|apply Nat.leb_gt in D|apply Nat.leb_le in D|apply Nat.leb_gt in D];
      split; try congruence; try lia.
Qed.
Print Assumptions C02_overflow_throws_exactly.

Example C02_nonvacuous :
  let s := sh_allocate (fun _ => 0%Z) (mkSS 8 8) false in
  match s with Ok s => sh_inv s /\ ssmall s /\ sh_write [1;2;3]%Z s <> Throw /\
     sh_write_buf [1;0] 8 [repeat 0%Z 8; repeat 1%Z 8] 2 s = Throw | _ => False end.
Proof.
  cbv zeta. vm_compute sh_allocate. repeat split; try (unfold small; simpl; lia); simpl; try lia; discriminate || reflexivity.
Qed.

(** Finding: opening a received buffer trusts the recorded header size.  A buffer shorter than
    8 bytes, or recording a header larger than itself, is read out of bounds instead of being
    rejected. *)
Theorem C02_malformed_buffer_refuted :
  (exists buf, bytes_ok buf /\ sh_from_buffer buf false = UB) /\
  (exists buf, bytes_ok buf /\ 8 <= length buf /\ sh_from_buffer buf false = UB).
Proof.
  split.
  - exists [1%Z]. split; [repeat constructor; lia|reflexivity].
  - exists [9;0;0;0;0;0;0;0]%Z. split; [repeat constructor; lia|]. split; [simpl; lia|vm_compute; reflexivity].
Qed.
Print Assumptions C02_malformed_buffer_refuted.
