(** Property C30: dependency tracking of device buffers. *)
From Coq Require Import ListDec.
From Verif Require Import Base Events Events_spec Events_proofs.

Lemma NoDup_app_inv (l l' : list nat) : NoDup (l ++ l') -> NoDup l /\ NoDup l'.
Proof.
  induction l as [|a l IH]; cbn; intros N; [split; [constructor|auto]|]. inversion N; subst. destruct (IH H2) as (X & Y). split; auto.
  constructor; auto. intros Hin. apply H1, in_or_app. auto.
Qed.

(** In every history, for any two accesses to the same buffer of which one is a write, every command
    of the earlier one was complete when a command of the later one started. *)
Theorem C30_conflicting_accesses_ordered : forall s i j b k k' acts acts' x y c,
  reach s -> i < j ->
  nth_error (y_log s) i = Some (b, k, acts) -> nth_error (y_log s) j = Some (b, k', acts') ->
  k = WRITE \/ k' = WRITE ->
  In x acts -> In y acts' -> y_rt s y = Some c -> c_phase c <> Pending ->
  c_start c x = true.
Proof.
  intros s i j b k k' acts acts' x y c Rs Hij Hi Hj Hk Hx Hy Hc Hp. pose proof (reach_ok s Rs) as I.
  eapply ordered_start; eauto; [apply (k_rt _ I)|]. eapply (k_ord _ I); eauto.
Qed.

(** Misuse is detected: an access on a buffer whose last access was not completed, and a completion
    without a matching access, throw. *)
Theorem C30_misuse_throws : forall s b k evs, reach s ->
  (y_open s b <> None -> access k (is_done s) (y_hs s b) = Throw) /\
  (y_open s b = None -> complete_state (is_done s) evs (y_hs s b) = Throw).
Proof.
  intros s b k evs Rs. pose proof (reach_ok s Rs) as I. split.
  - intros Ho. destruct (y_open s b) as [[[[k1 d] n0] done0]|] eqn:E; [|congruence].
    destruct (k_open _ I b _ E) as (Hu & _). destruct (access_cases k (is_done s) (y_hs s b)) as [(X & _)|(_ & X)]; [congruence|auto].
  - intros Ho. unfold complete_state. now rewrite (k_closed _ I b Ho).
Qed.

(** Conversely a well formed access or completion never throws. *)
Theorem C30_use_succeeds : forall s b k evs, reach s ->
  (y_open s b = None -> exists d h, access k (is_done s) (y_hs s b) = Ok (d, h)) /\
  (y_open s b <> None -> exists h, complete_state (is_done s) evs (y_hs s b) = Ok h).
Proof.
  intros s b k evs Rs. pose proof (reach_ok s Rs) as I. split.
  - intros Ho. pose proof (k_closed _ I b Ho). destruct (access_cases k (is_done s) (y_hs s b)) as [(_ & d & h & X & _)|(X & _)]; [eauto|congruence].
  - intros Ho. destruct (y_open s b) as [[[[k1 d] n0] done0]|] eqn:E; [|congruence].
    destruct (k_open _ I b _ E) as (Hu & _). unfold complete_state. rewrite Hu. cbn [filter_events last_access].
    destruct (last_access (y_hs s b)); eauto.
Qed.

(** kernel_call on distinct buffers with no open access: it succeeds, its command is submitted with
    dependencies such that the contract above holds (the state it leaves is reachable), and it counts
    as one read of each input and one write of each output. *)
Theorem C30_kernel_call : forall s ins outs n, reach s -> n <> 0 -> NoDup (ins ++ outs) ->
  (forall b, In b (ins ++ outs) -> y_open s b = None) ->
  exists deps s', kernel_call (is_done s) ins outs n (y_next s) (y_hs s) = Ok (deps, y_hs s') /\ reach s' /\
    y_next s' = S (y_next s) /\
    (exists c, y_rt s' (y_next s) = Some c /\ c_deps c = deps) /\
    y_log s' = y_log s ++ map (fun b => (b, READ, [y_next s])) ins ++ map (fun b => (b, WRITE, [y_next s])) outs /\
    (forall b, In b (ins ++ outs) -> y_open s' b = None).
Proof.
  intros s ins outs n Rs Hn ND Ho. unfold kernel_call. destruct (Nat.eqb_spec n 0); [contradiction|].
  destruct (NoDup_app_inv _ _ ND) as (N1 & N2).
  assert (Dis : forall b, In b ins -> In b outs -> False).
  { clear -ND. induction ins as [|a ins IH]; cbn in *; [tauto|]. inversion ND; subst. intros b [->|Hb] Hb2; [apply H1, in_or_app; auto|eauto]. }
  destruct (accesses_reach READ ins s Rs N1) as (d1 & s1 & E1 & R1 & A1 & A2 & A3 & A4 & A5 & A6).
  { intros b Hb. apply Ho, in_or_app; auto. }
  rewrite E1. cbn [rbind].
  destruct (accesses_reach WRITE outs s1 R1 N2) as (d2 & s2 & E2 & R2 & B1 & B2 & B3 & B4 & B5 & B6).
  { intros b Hb. rewrite A6 by (intros X; eauto). apply Ho, in_or_app; auto. }
  assert (D1 : is_done s1 = is_done s) by (apply is_done_rt; auto). assert (D2 : is_done s2 = is_done s) by (rewrite <- D1; apply is_done_rt; auto).
  rewrite D1 in *. rewrite E2. cbn [rbind]. rewrite A2 in *. rewrite A1 in *. rewrite A3 in *.
  set (c := Command (d1 ++ d2) (is_done s2) Pending (fun _ => false)).
  set (s3 := Sys (y_hs s2) (rt_set (y_rt s2) (y_next s2) c) (S (y_next s2)) (y_open s2) (y_log s2)).
  assert (R3 : reach s3).
  { eapply R_step; [exact R2|]. apply S_submit. intros d Hd. rewrite B2. apply in_app_iff in Hd. destruct Hd; auto. }
  assert (Ec : y_rt s3 (y_next s) = Some c) by (cbn [s3 y_rt]; unfold rt_set; rewrite B2, Nat.eqb_refl; auto).
  assert (D3 : forall x, is_done s x = is_done s3 x).
  { intros x. rewrite <- D2. unfold is_done. cbn [s3 y_rt]. unfold rt_set. destruct (Nat.eqb_spec x (y_next s2)) as [->|]; auto.
    destruct (y_rt s2 (y_next s2)) as [c0|] eqn:E; auto. apply (r_next _ (k_rt _ (reach_ok s2 R2))) in E. lia. }
  destruct (completes_reach READ (y_next s) c (d1 ++ d2) (is_done s) ins s3 R3 N1 Ec eq_refl D3) as (s4 & E4 & R4 & C1 & C2 & C3 & C4 & C5).
  { intros b Hb. destruct (A5 b Hb) as (d & F1 & F2). exists d, (y_next s), (is_done s). cbn [s3 y_open]. rewrite B6 by (intros X; eauto).
    split; auto. split; auto. intros; apply in_or_app; auto. }
  change (y_hs s3) with (y_hs s2) in E4. rewrite E4. cbn [rbind].
  destruct (completes_reach WRITE (y_next s) c (d1 ++ d2) (is_done s) outs s4 R4 N2) as (s5 & E5 & R5 & F1 & F2 & F3 & F4 & F5); auto.
  { rewrite C1; auto. }
  { intros x. rewrite D3. now rewrite (is_done_rt s3 s4 C1). }
  { intros b Hb. destruct (B5 b Hb) as (d & G1 & G2). exists d, (y_next s), (is_done s). rewrite C5 by (intros X; eauto).
    split; auto. split; auto. intros; apply in_or_app; auto. }
  rewrite E5. cbn [rbind]. exists (d1 ++ d2), s5. split; auto. split; auto. split; [rewrite F2, C2; cbn; now rewrite B2|].
  split; [exists c; rewrite F1, C1; auto|]. split.
  - rewrite F3, C3. cbn [s3 y_log]. rewrite B3. now rewrite <- app_assoc.
  - intros b Hb. apply in_app_iff in Hb. destruct (in_dec Nat.eq_dec b outs) as [X|X]; auto. rewrite F5 by auto. apply C4. tauto.
Qed.

(** A kernel that uses the same buffer twice (two inputs, two outputs, or an input and an output), or a
    buffer with an open access, or an empty index range, is refused. *)
Theorem C30_kernel_call_refused : forall done ins outs n e hs,
  n = 0 \/ ~ NoDup (ins ++ outs) \/ (exists b, In b (ins ++ outs) /\ up_to_date (hs b) = false) ->
  kernel_call done ins outs n e hs = Throw.
Proof.
  intros done ins outs n e hs H. unfold kernel_call. destruct (Nat.eqb_spec n 0); auto. destruct H as [H|H]; [contradiction|].
  destruct (accesses_out READ done ins hs) as [->|(d1 & hs1 & E1 & A & B)]; auto. rewrite E1. cbn [rbind].
  rewrite accesses_throw; auto.
  assert (N1 : NoDup ins).
  { destruct (ListDec.NoDup_dec Nat.eq_dec ins) as [X|X]; auto. rewrite accesses_throw in E1 by auto. discriminate. }
  destruct H as [H|(b & Hb & Hu)].
  - destruct (ListDec.NoDup_dec Nat.eq_dec outs) as [N2|X]; auto. left.
    assert (exists b, In b ins /\ In b outs) as (b & H1 & H2).
    { clear -H N1 N2. induction ins as [|a ins IH]; [cbn in H; contradiction|]. inversion N1; subst.
      destruct (in_dec Nat.eq_dec a outs) as [Hin|Hin]; [exists a; cbn; auto|].
      destruct IH as (b & B1 & B2); auto; [|exists b; cbn; auto]. intros N. apply H. cbn. constructor; auto. rewrite in_app_iff. tauto. }
    exists b. auto.
  - left. apply in_app_iff in Hb. destruct (in_dec Nat.eq_dec b ins) as [X|X].
    + rewrite accesses_throw in E1 by eauto. discriminate.
    + exists b. split; [tauto|]. now rewrite B.
Qed.

(** Why the contract asks a write completion to register an event after each dependency: completing
    a write with no event (for example a fill of zero elements) forgets the pending ones. *)
Theorem C30_empty_completion_refuted : exists done h1 h2 d h3,
  write_access done h1 = Ok (d, h2) /\ In 0 d /\ done 0 = false /\ In 0 (write_events h1) /\
  complete_state done [] h2 = Ok h3 /\ read_access done h3 = Ok ([], Handler [] [] READ false).
Proof.
  exists (fun _ => false), (Handler [] [0] WRITE true), (Handler [] [0] WRITE false), [0], (Handler [] [] WRITE true).
  repeat split; cbn; auto.
Qed.

(** A history: a kernel writes buffer 0; two kernels read it and write buffers 1 and 2; a kernel
    overwrites buffer 0; the runtime runs the first kernel and starts the second. *)
Ltac acc b k := match goal with R : reach ?s |- _ =>
  let x := eval cbv in (access k (is_done s) (y_hs s b)) in
  match x with Ok (?d, ?h) =>
    let H := fresh in assert (H := R_step _ _ R (S_access s b k d h eq_refl)); clear R; cbn [y_hs y_rt y_next y_open y_log] in H end end.
Ltac sub deps := match goal with R : reach ?s |- _ =>
  let H := fresh in let G := fresh in
  assert (G : forall d, In d deps -> d < y_next s) by (cbn; intros ? ?; repeat match goal with H : _ \/ _ |- _ => destruct H | H : _ = _ |- _ => subst end; try contradiction; lia);
  assert (H := R_step _ _ R (S_submit s deps G)); clear R G; cbn [y_hs y_rt y_next y_open y_log] in H end.
Ltac one := let a := fresh in intros a [<-|[]].
Ltac comp b e := match goal with R : reach ?s |- _ =>
  let o := eval cbv in (y_open s b) in
  let x := eval cbv in (complete_state (is_done s) [e] (y_hs s b)) in
  let cc := eval lazy in (y_rt s e) in
  match o with Some (?k, ?d, ?n0, ?done0) => match x with Ok ?h => match cc with Some ?c =>
    let H := fresh in
    assert (H : reach (Sys (hset (y_hs s) b h) (y_rt s) (y_next s) (open_set (y_open s) b None) (y_log s ++ [(b, k, [e])])));
    [ refine (R_step _ _ R (S_complete s b k d n0 done0 [e] [e] h eq_refl _ _ _ _ eq_refl));
      [ one; split; [cbn; lia|]; exists c; split; [reflexivity|cbn; intros; tauto]
      | one; left; left; reflexivity
      | one; cbn; lia
      | intros _ ? ?; right; exists e, c; split; [left; reflexivity|split; [reflexivity|cbn in *; tauto]] ]
    | clear R; cbn [y_hs y_rt y_next y_open y_log app] in H ] end end end end.
Ltac start e := match goal with R : reach ?s |- _ =>
  let cc := eval lazy in (y_rt s e) in
  match cc with Some ?c =>
    let H := fresh in let G := fresh in
    assert (G : forall d, In d (c_deps c) -> is_done s d = true) by (cbn; intros ? ?; repeat match goal with H : _ \/ _ |- _ => destruct H | H : _ = _ |- _ => subst end; try contradiction; reflexivity);
    assert (H := R_step _ _ R (S_start s e c eq_refl eq_refl G)); clear R G; cbn [y_hs y_rt y_next y_open y_log c_deps c_sub] in H end end.
Ltac finish e := match goal with R : reach ?s |- _ =>
  let cc := eval lazy in (y_rt s e) in
  match cc with Some ?c =>
    let H := fresh in
    assert (H := R_step _ _ R (S_finish s e c eq_refl eq_refl)); clear R; cbn [y_hs y_rt y_next y_open y_log c_deps c_sub c_start] in H end end.
Example C30_nonvacuous : exists s, reach s /\
  y_log s = [(0, WRITE, [0]); (0, READ, [1]); (1, WRITE, [1]); (0, READ, [2]); (2, WRITE, [2]); (0, WRITE, [3])] /\
  (exists c, y_rt s 3 = Some c /\ c_phase c = Pending /\ c_deps c = [0; 1; 2]) /\
  (exists c, y_rt s 1 = Some c /\ c_phase c = Running /\ c_start c 0 = true) /\ y_open s 0 = None.
Proof.
  pose proof R_init as R. acc 0 WRITE. sub (@nil nat). comp 0 0.
  acc 0 READ. acc 1 WRITE. sub [0]. comp 0 1. comp 1 1.
  acc 0 READ. acc 2 WRITE. sub [0]. comp 0 2. comp 2 2.
  acc 0 WRITE. sub [0; 1; 2]. comp 0 3.
  start 0. finish 0. start 1.
  eexists. split; [eassumption|]. split; [reflexivity|]. split; [eexists; split; [reflexivity|split; reflexivity]|].
  split; [eexists; split; [reflexivity|split; reflexivity]|reflexivity].
Qed.

Print Assumptions C30_conflicting_accesses_ordered.
Print Assumptions C30_misuse_throws.
Print Assumptions C30_use_succeeds.
Print Assumptions C30_kernel_call.
Print Assumptions C30_kernel_call_refused.
Print Assumptions C30_empty_completion_refuted.
