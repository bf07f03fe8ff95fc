(** Property theorems C19, C20, C21 (see properties.jsonl). *)
From Verif Require Import Base Integer Integer_proofs Scan Scan_spec Scan_proofs Lookback Lookback_proofs.
From Coq Require Import ZifyBool ZifyNat ZifyN.

(** C19: the host implementations of the exclusive scan, for every buffer and every length within
    it, return [out[i] = in[0] + ... + in[i-1]] modulo 2^32 (whatever was in the output buffer). *)
Theorem C19_exclusive_host : forall garbage buf len,
  len <= length buf -> len <= length garbage ->
  exclusive_sum_fallback garbage buf len = Ok (excl_spec buf len) /\
  exclusive_sum_fallback_usm garbage buf len = Ok (excl_spec buf len) /\
  exclusive_sum_in_place_fallback buf len = Ok (excl_spec buf len ++ skipn len buf).
Proof.
  intros g buf len H1 H2.
  assert (S0 : skipn len (firstn len g) = []).
  { apply length_zero_iff_nil. rewrite skipn_length, firstn_length. lia. }
  split; [|split].
  - unfold exclusive_sum_fallback. rewrite excl_loop by (rewrite ?firstn_length; lia).
    simpl. rewrite S0. now rewrite app_nil_r.
  - unfold exclusive_sum_fallback_usm, copy_from_stdvec. rewrite std_scan_excl, length_excl_spec, firstn_length.
    replace ((length buf <? len) || (Nat.min len (length g) <? len)) with false by lia.
    now rewrite firstn_excl_spec, S0, app_nil_r by lia.
  - unfold exclusive_sum_in_place_fallback. now rewrite excl_ip_loop by lia.
Qed.
Print Assumptions C19_exclusive_host.
(** C19: inclusive scans (numeric.cpp:62-64, 72-74). *)
Theorem C19_inclusive_host : forall garbage buf len,
  len <= length buf -> len <= length garbage ->
  inclusive_sum_fallback garbage buf len = Ok (incl_spec buf len) /\
  inclusive_sum_in_place_fallback buf len = Ok (incl_spec buf len ++ skipn len buf).
Proof.
  intros g buf len H1 H2.
  assert (S0 : skipn len (firstn len g) = []).
  { apply length_zero_iff_nil. rewrite skipn_length, firstn_length. lia. }
  split.
  - unfold inclusive_sum_fallback. rewrite incl_loop by (rewrite ?firstn_length; lia).
    simpl. rewrite S0. now rewrite app_nil_r.
  - unfold inclusive_sum_in_place_fallback. now rewrite incl_ip_loop by lia.
Qed.
Print Assumptions C19_inclusive_host.
(** C19: the public in-place scan with the std implementation: only the first [len] elements
    change; a too long request throws; an empty request changes nothing. *)
Theorem C19_in_place_std : forall buf len,
  scan_exclusive_sum_in_place scan_in_place_std buf len =
    (if length buf <? len then Throw else Ok (excl_spec buf len ++ skipn len buf)).
Proof.
  intros buf len. unfold scan_exclusive_sum_in_place. destruct (Nat.eqb_spec len 0) as [->|].
  - reflexivity.
  - destruct (length buf <? len) eqn:E; auto. unfold scan_in_place_std, copy_from_stdvec.
    rewrite std_scan_excl, length_excl_spec, firstn_length, Nat.min_l by lia.
    replace ((len <? len) || (length buf <? len)) with false by lia.
    now rewrite firstn_excl_spec, excl_spec_firstn by lia.
Qed.
Print Assumptions C19_in_place_std.
Example C19_nonvacuous :
  exclusive_sum_fallback [7;7;7;7]%Z [3;4294967295;5;1]%Z 4 = Ok [0;3;2;7]%Z /\
  inclusive_sum_fallback [7;7;7;7]%Z [3;4294967295;5;1]%Z 4 = Ok [3;2;7;8]%Z /\
  scan_exclusive_sum_in_place scan_in_place_std [3;1;5;1]%Z 3 = Ok [0;3;4;1]%Z.
Proof. repeat split; reflexivity. Qed.

(** The number of groups launched covers the data and the nd_range size does not wrap. *)
Theorem C20_groups_cover : forall len G : N, (0 < G)%N -> (len + 4 * G < 2 ^ 32)%N ->
  exists n, lookback_groups len G = Ok n /\ (len <= n * G)%N /\ (n * G < 2 ^ 32)%N.
Proof.
  intros len G HG HL. destruct (group_count_spec len G HG) as (c & E & H1 & H2); [lia|].
  unfold lookback_groups. rewrite E. cbn [rbind].
  assert (c * G < len + G)%N.
  { destruct (N.eq_dec c 0) as [->|]; [lia|]. destruct (N.lt_ge_cases (c * G) (len + G)); auto.
    assert (c <= c - 1)%N by (apply H2; nia). lia. }
  assert (c mod 4 <= 3)%N by (pose proof (N.mod_lt c 4); lia).
  rewrite N.mod_small by nia. eexists. split; [reflexivity|]. nia.
Qed.
Print Assumptions C20_groups_cover.

(** C20, C19 (device path): out-of-place kernel (sycl::buffer and USM, default [scan_exclusive]).
    Under every schedule and every staleness of the relaxed loads, no access is out of bounds and,
    once all work-groups are finished, the result is the sequential exclusive scan. *)
Theorem C20_scan_any_schedule : forall (G N len : nat) inp out0 sched,
  0 < G -> len <= N * G -> len <= length inp -> len <= length out0 ->
  exists s, run (mkCfg Shifted Dyn G N len) sched (init (mkCfg Shifted Dyn G N len) inp out0) = Ok s /\
    (done s -> firstn len (s_out s) = excl_spec inp len).
Proof.
  intros G N len inp out0 sched HG Hc Hi Ho.
  destruct (run_ok (mkCfg Shifted Dyn G N len) inp out0) with (sched := sched) as (s & E & IV); simpl; auto.
  { discriminate. }
  exists s. split; auto. intros D.
  apply (done_out (mkCfg Shifted Dyn G N len) inp out0) in IV; simpl; auto; try tauto.
Qed.
Print Assumptions C20_scan_any_schedule.
(** In-place kernel (default [scan_exclusive_sum_in_place]): also leaves the rest of the buffer. *)
Theorem C20_in_place_any_schedule : forall (G N len : nat) buf sched,
  0 < G -> len <= N * G -> len <= length buf ->
  exists s, run (mkCfg InPlace Dyn G N len) sched (init (mkCfg InPlace Dyn G N len) buf buf) = Ok s /\
    (done s -> s_out s = excl_spec buf len ++ skipn len buf).
Proof.
  intros G N len buf sched HG Hc Hi.
  destruct (run_ok (mkCfg InPlace Dyn G N len) buf buf) with (sched := sched) as (s & E & IV); simpl; auto.
  exists s. split; auto. intros D.
  apply (done_out (mkCfg InPlace Dyn G N len) buf buf) in IV; simpl; auto.
  simpl in IV. destruct IV as [A B]. rewrite <- A, <- B. symmetry. apply firstn_skipn.
Qed.
Print Assumptions C20_in_place_any_schedule.
(** Termination: under every fair schedule (each group is scheduled again and again with an
    up-to-date load), all groups finish, with the right result. *)
Theorem C20_terminates : forall v (G N len : nat) inp out0 (sched : nat -> nat * nat),
  v = Shifted \/ v = InPlace /\ out0 = inp ->
  0 < G -> len <= N * G -> len <= length inp -> len <= length out0 ->
  (forall p n, p < N -> exists m, n <= m /\ sched m = (p, 0)) ->
  exists n s, run (mkCfg v Dyn G N len) (map sched (seq 0 n)) (init (mkCfg v Dyn G N len) inp out0) = Ok s /\
    done s /\ firstn len (s_out s) = excl_spec inp len.
Proof.
  intros v G N len inp out0 sched Hv HG Hc Hi Ho HF.
  assert (Hv1 : v = Shifted \/ v = InPlace) by tauto.
  assert (Hv2 : v = InPlace -> out0 = inp) by (destruct Hv as [->|[_ ->]]; [discriminate|auto]).
  destruct (fair_terminates (mkCfg v Dyn G N len) inp out0) with (sched := sched) as (n & s & E & D); simpl; auto.
  exists n, s. split; auto. split; auto.
  destruct (run_ok (mkCfg v Dyn G N len) inp out0) with (sched := map sched (seq 0 n)) as (s' & E' & IV); simpl; auto.
  rewrite E in E'. injection E' as <-.
  apply (done_out (mkCfg v Dyn G N len) inp out0) in IV; simpl; auto. tauto.
Qed.
Print Assumptions C20_terminates.
(** No deadlock with any number of resident groups: whenever a started group is unfinished, some
    started group can make a step that changes the state — no group that has not started is
    ever waited for. *)
Theorem C20_no_deadlock : forall v (G N len : nat) inp out0 sched s p ph,
  v = Shifted \/ v = InPlace /\ out0 = inp ->
  0 < G -> len <= N * G -> len <= length inp -> len <= length out0 ->
  let c := mkCfg v Dyn G N len in
  run c sched (init c inp out0) = Ok s ->
  nth_error (s_phase s) p = Some ph -> ph <> PIdle -> (forall g, ph <> PDone g) ->
  exists q phq s', nth_error (s_phase s) q = Some phq /\ phq <> PIdle /\ step c (q, 0) s = Ok s' /\ s' <> s.
Proof.
  intros v G N len inp out0 sched s p ph Hv HG Hc Hi Ho c E Hp Hn Hd.
  assert (Hv1 : v = Shifted \/ v = InPlace) by tauto.
  assert (Hv2 : v = InPlace -> out0 = inp) by (destruct Hv as [->|[_ ->]]; [discriminate|auto]).
  destruct (run_ok c inp out0) with (sched := sched) as (s0 & E' & IV); simpl; auto.
  rewrite E in E'. injection E' as <-.
  edestruct (progress_running c inp out0) with (s := s) (p := p) (ph := ph) as (q & phq & Hq & Hqn & Hb); simpl; auto.
  destruct (step_ok c inp out0) with (s := s) (p := q) (stale := 0) as (s' & Es & _ & [[_ B]|L]); simpl; auto; [tauto|].
  exists q, phq, s'. repeat split; auto. intros ->. lia.
Qed.
Print Assumptions C20_no_deadlock.

Definition rr (n k : nat) : list (nat * nat) := map (fun i => (Nat.modulo i n, 0)) (seq 0 k).
Example C20_nonvacuous :
  let c := mkCfg InPlace Dyn 2 3 5 in
  (* groups started in the order 2,0,1, with stale loads in between *)
  exists s, run c ([(2,0);(0,0);(2,1);(0,5)] ++ rr 3 60) (init c [1;2;3;4;5;6]%Z [1;2;3;4;5;6]%Z) = Ok s /\
    forallb (fun ph => match ph with PDone _ => true | _ => false end) (s_phase s) = true /\
    s_out s = [0;1;3;6;10;6]%Z.
Proof. eexists. vm_compute. repeat split. Qed.

(** The kernels that use the launch group id instead of the dynamic id (lines 250 and 691) do not
    have this property: group 1 started alone waits for ever for group 0, which has not started. *)
Theorem C20_static_ids_refuted : exists G N len inp out0 sched s vals acc ptr,
  let c := mkCfg Shifted Static G N len in
  run c sched (init c inp out0) = Ok s /\
  nth_error (s_phase s) 1 = Some (PLook 1 vals acc ptr) /\ nth_error (s_phase s) 0 = Some PIdle /\
  forall k, step c (1, k) s = Ok s.
Proof.
  exists 1, 2, 2, [1;2]%Z, [0;0]%Z, [(1,0);(1,0);(1,0);(1,0)].
  eexists (mkSt 1 [[0%Z]; [4294967297%Z; 0%Z]] [1;2]%Z [0;0]%Z [PIdle; PLook 1 [1%Z] 0%Z 1]).
  exists [1%Z], 0%Z, 1. split; [vm_compute; reflexivity|]. split; [reflexivity|]. split; [reflexivity|].
  intros k. unfold step. simpl. unfold tile_load. simpl. rewrite Nat.min_0_r. reflexivity.
Qed.
Print Assumptions C20_static_ids_refuted.
(** The in-place kernel on sycl::buffer (lines 232-264) reads the last element of the previous
    group's slice, which that group overwrites: with group 0 finished before group 1 reads, the
    result is wrong (input 1,1,1: expected 0,1,2). *)
Theorem C20_sycl_in_place_race_refuted : exists sched s,
  let c := mkCfg InPlaceShifted Static 1 3 3 in
  run c sched (init c [1;1;1]%Z [1;1;1]%Z) = Ok s /\ done s /\ firstn 3 (s_out s) <> excl_spec [1;1;1]%Z 3.
Proof.
  exists (repeat (0,0) 10 ++ repeat (1,0) 12 ++ repeat (2,0) 12).
  eexists. split; [vm_compute; reflexivity|]. split.
  - intros ph [<-|[<-|[<-|[]]]]; eauto.
  - vm_compute. discriminate.
Qed.
Print Assumptions C20_sycl_in_place_race_refuted.

(** C21: both compactions return exactly the increasing list of selected indices. *)
Theorem C21_fallback : forall flags len, len <= length flags ->
  stream_compact_fallback flags len = Ok (selected flags len).
Proof. exact compact_fallback_ok. Qed.
Print Assumptions C21_fallback.
(** [selected] is what the property says: strictly increasing, and exactly the set flags. *)
Theorem C21_selected : forall flags len,
  StronglySorted lt (selected flags len) /\
  (forall i, In i (selected flags len) <-> i < len /\ nth i flags 0%Z <> 0%Z).
Proof.
  intros flags len. split.
  - unfold selected. assert (S : forall a n, StronglySorted lt (seq a n)).
    { intros a n. revert a. induction n as [|n IH]; intros a; simpl; constructor; auto.
      apply Forall_forall. intros x Hx. apply in_seq in Hx. lia. }
    generalize (S 0 len). generalize (seq 0 len). clear. intros l HS.
    induction HS as [|a l HS IH HF]; simpl; [constructor|].
    destruct (negb _); auto. constructor; auto. rewrite Forall_forall in *. intros x Hx.
    apply filter_In in Hx. apply HF; tauto.
  - intros i. unfold selected. rewrite filter_In, in_seq. lia.
Qed.
Print Assumptions C21_selected.
(** The scan based version, for 0/1 flags, any order of the work items and any correct exclusive
    scan (C19, C20), gives the same list as the fallback. *)
Theorem C21_excl_scan : forall scan order garbage flags len,
  (forall m, length (garbage m) = m) -> (forall f, In f flags -> f = 0%Z \/ f = 1%Z) ->
  len <= length flags -> (Z.of_nat len < 2 ^ 32)%Z ->
  scan flags len = Ok (excl_spec flags len) ->
  Permutation order (seq 0 len) ->
  stream_compact_excl_scan scan order garbage flags len = Ok (selected flags len).
Proof. intros. now apply compact_scan_ok. Qed.
Print Assumptions C21_excl_scan.
Example C21_nonvacuous :
  stream_compact_excl_scan (fun l n => exclusive_sum_fallback (repeat 9%Z n) l n) [3;1;0;4;2]
    (fun m => repeat 77 m) [0;1;1;0;1]%Z 5 = Ok [1;2;4].
Proof. reflexivity. Qed.
(** Flags other than 0/1 break the scan based version (documented precondition): with the flag 2,
    the kernel leaves an entry of the index map uninitialised. *)
Theorem C21_other_flags_refuted : exists flags garbage,
  (forall m, length (garbage m) = m) /\
  stream_compact_excl_scan (fun l n => exclusive_sum_fallback (repeat 0%Z n) l n) [0;1] garbage flags 2
    <> stream_compact_fallback flags 2.
Proof. exists [2;1]%Z, (fun m => repeat 9 m). split; [intros; apply repeat_length|]. vm_compute. discriminate. Qed.
Print Assumptions C21_other_flags_refuted.
