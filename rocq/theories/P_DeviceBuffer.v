(** C35: a DeviceBuffer is an array (for every history of calls on any number of buffers). *)
From Verif Require Import Base Integer DeviceBuffer DeviceBuffer_spec DeviceBuffer_proofs DeviceBuffer_main.
From Coq Require Import ZifyBool ZifyNat.
Local Open Scope Z_scope.

Definition no_buffers {A} : prog A := Build_prog [] 0.

Lemma start_rel {A} E : prog_rel A E [] no_buffers.
Proof. split; [constructor|split; [constructor|reflexivity]]. Qed.

(** Every history of calls whose arguments are in range runs without undefined behaviour; each call
    returns or throws as an array would, exceptions change nothing, and what is read back through
    the API is what the arrays contain. *)
Theorem C35_buffers_are_arrays {A} (E : dev_env) (cs : list (op A)) :
  env_ok E -> args_ok E cs [] ->
  exists q l p, run E cs no_buffers = Ok (p, l) /\ spec_run E cs [] q l /\
    forall h a, live q h a ->
      exists b, lookup (p_store p) h = Ok b /\ size b = len a /\
        (forall o d, good_oracle o -> exists v, copy_to_stdvec E o d b = Ok v /\ agrees a v) /\
        (forall i x, nth_error a i = Some (Some x) -> get_val_at_idx b (Z.of_nat i) = Ok x) /\
        (forall i, len a <= i -> get_val_at_idx b i = Throw).
Proof.
  intros HE Ha. destruct (run_ok A E HE cs [] no_buffers (start_rel E) Ha) as (q & l & p & R & S & Hr & Hi & Hc).
  exists q, l, p. split; auto. split; auto. intros h a Hl.
  destruct (store_live A E q (p_store p) h a Hr Hi Hl) as (b & Rb & _ & Hab & Hb).
  exists b. split; auto. pose proof Hab as (H0 & HL & Hag). split; auto. split; [|split].
  - intros o d Ho. exists (cont A b). split; auto. eapply to_vec_ok; eauto.
  - intros i x Hx. apply (buf_rel_nth A E HE a b Hb) in Hab as (_ & N).
    assert (i < length a)%nat by (apply nth_error_Some; congruence).
    unfold get_val_at_idx. unfold len in HL.
    replace (size b <=? Z.of_nat i) with false by (symmetry; lia).
    rewrite Nat2Z.id. apply aget_ok. auto.
  - intros i Hge. unfold get_val_at_idx. replace (size b <=? i) with true by (symmetry; lia). auto.
Qed.

(** The memory statistics are exact: after any history, the counter of allocated bytes is the sum of
    the storage of the live buffers, and no buffer holds less than its contents, nor more than twice
    the (rounded) bytes of its contents. *)
Theorem C35_memory_accounting {A} (E : dev_env) (cs : list (op A)) p l :
  env_ok E -> args_ok E cs [] -> run E cs no_buffers = Ok (p, l) ->
  p_alloc p = held p /\
  forall h b, lookup (p_store p) h = Ok b ->
    size b * e_sizeof E <= st_bytes b <= 2 * round_up (size b * e_sizeof E) (alignment E).
Proof.
  intros HE Ha R. destruct (run_ok A E HE cs [] no_buffers (start_rel E) Ha) as (q & l' & p' & R' & S & Hr & Hi & Hc).
  rewrite R in R'. injection R' as <- <-. split; auto. intros h b Hl.
  unfold lookup in Hl. destruct (nth_error (p_store p) h) as [[b'|]|] eqn:N; try discriminate.
  injection Hl as ->. apply nth_error_In in N.
  pose proof (proj1 (Forall_forall _ _) Hi _ N) as Hb. simpl in Hb. destruct Hb as (H0 & H1 & _).
  pose proof (req_ge E HE (size b)). unfold req in *. lia.
Qed.

(** Corollary: no leak.  Once every buffer has been destroyed no byte is counted as allocated. *)
Corollary C35_no_leak {A} (E : dev_env) (cs : list (op A)) p l :
  env_ok E -> args_ok E cs [] -> run E cs no_buffers = Ok (p, l) ->
  Forall (fun x => x = None) (p_store p) -> p_alloc p = 0.
Proof.
  intros HE Ha R Hn. destruct (C35_memory_accounting E cs p l HE Ha R) as (-> & _).
  unfold held. induction Hn as [|x s Hx Hs IH]; simpl; auto. subst x. auto.
Qed.

(** Outside the documented ranges.  [fill(v, {2^64-1, 0})] passes both checks by wrap-around and
    writes one element before the buffer: the range check is not sufficient. *)
Theorem C35_fill_wraparound_refuted :
  exists (b : dbuf Z) (o : oracle Z), good_oracle o /\ 0 < size b /\ size b = len (mem b) /\
    fill o b 7 (2 ^ 64 - 1) 0 = UB.
Proof.
  exists (Build_dbuf 8 [1] 1), {| o_accept := true; o_mem := fun _ => 0; o_order := seq 0 |}.
  split; [intros n; apply Permutation_refl|]. split; [reflexivity|]. split; [reflexivity|].
  unfold fill. change (w64 (0 - (2 ^ 64 - 1))) with 1.
  change (w64 (2 ^ 64 - 1 + 1)) with 0. cbn [size Z.leb Z.compare negb].
  change (narrow_or_throw i32_t size_t 1) with (@Ok Z 1). cbn [rbind].
  unfold safe_fill. cbn [o_order].
  change (nchunks (2 ^ 30) 1) with 1%nat. cbn [seq rfold].
  change (Z.to_nat (Z.min (2 ^ 30) (1 - Z.of_nat 0 * 2 ^ 30))) with 1%nat. cbn [seq rfold].
  change (Z.to_nat (2 ^ 64 - 1 + Z.of_nat 0 * 2 ^ 30) + 0)%nat with (Z.to_nat (2 ^ 64 - 1) + 0)%nat.
  unfold aset. cbn [mem length].
  replace (Z.to_nat (2 ^ 64 - 1) + 0 <? 1)%nat with false. reflexivity.
  symmetry. apply Nat.ltb_ge. clear. lia.
Qed.

(** Appending a buffer of exactly 2^32 elements silently appends nothing (the size is truncated to
    u32, DeviceBuffer.hpp:1228). *)
Theorem C35_append_4G_refuted {A} (E : dev_env) (o : oracle A) (b other : dbuf A) :
  size other = 2 ^ 32 -> append E o b other = Ok b.
Proof. intros H. unfold append. rewrite H. reflexivity. Qed.

(** Non-vacuity: two buffers, growth, an exception, append, shrink, read back. *)
Definition ex_env : dev_env := {| e_sizeof := 8; e_alignof := 8; e_base := 16; e_max := 1000 |}.
Definition ex_or : oracle Z := {| o_accept := true; o_mem := fun i => 900 + Z.of_nat i; o_order := seq 0 |}.
Definition ex_hist : list (op Z) :=
  [Create ex_or 2; CopyFromVec ex_or 0 [5; 6] 2; Create ex_or 3; Fill ex_or 1 9 0 3;
   Append ex_or 0 1; Resize ex_or 0 4 true; SetVal 0 7 1; Append ex_or 0 0].

Lemma live_inj {A} (s : sstate A) h a b : live s h a -> live s h b -> a = b.
Proof. unfold live. congruence. Qed.
Lemma ex_oracle : good_oracle ex_or.
Proof. intros n. apply Permutation_refl. Qed.
Lemma ex_fits n : 0 <= n <= 1000 -> fits ex_env n.
Proof. intros H. unfold fits. change (alignment ex_env) with 16. simpl e_sizeof. lia. Qed.

Lemma ex_accepts n : 0 <= n <= 100 -> ~ may_refuse ex_env ex_or n.
Proof.
  intros H [H1|H1]. discriminate. change (alignment ex_env) with 16 in H1. simpl e_max in H1. simpl e_sizeof in H1.
  pose proof (round_up_bounds (n * 8) 16 ltac:(lia)). lia.
Qed.

(** The state after a call, when all the arrays involved are known. *)
Ltac known := repeat match goal with
  | H : live _ _ ?a |- _ => is_var a; unfold live in H; cbn in H; injection H; intros; subst; clear H
  | H : live _ _ _ |- _ => clear H
  end.
Ltac next := constructor; [ | intros ? Hs; inversion Hs; subst; clear Hs; known; cbn
                            | intros Hs; exfalso; inversion Hs; subst; clear Hs; known;
                              first [ solve [eapply ex_accepts; [|eassumption]; unfold len; cbn; lia]
                                    | unfold len in *; cbn in *; lia ] ].
(** The same when the call is expected to throw. *)
Ltac next_throw := constructor; [ | intros ? Hs; exfalso; inversion Hs; subst; clear Hs; known;
                                    first [ congruence | unfold len in *; cbn in *; lia ]
                                  | intros _ ].
Example C35_nonvacuous :
  env_ok ex_env /\ args_ok ex_env ex_hist [] /\
  exists p, run ex_env ex_hist no_buffers =
      Ok (p, [true; true; true; true; true; true; false; false]) /\
    map (fun x => option_map (fun b => firstn (Z.to_nat (size b)) (mem b)) x) (p_store p) =
      [Some [5; 6; 9; 9]; Some [9; 9; 9]].
Proof.
  split. { unfold env_ok, ex_env; simpl. lia. }
  split.
  2:{ eexists. split. vm_compute. reflexivity. reflexivity. }
  assert (Ho := ex_oracle).
  unfold ex_hist.
  next. { split; [apply ex_fits; lia|auto]. }
  next. { split; [auto|]. split; [lia|]. eexists; reflexivity. }
  next. { split; [apply ex_fits; lia|auto]. }
  next. { split; [auto|]. split; [eexists; reflexivity|]. lia. }
  next. { split; [auto|]. do 2 eexists. split; [reflexivity|]. split; [reflexivity|]. cbn.
          split; [apply ex_fits|]; unfold len; cbn; lia. }
  next. { split; [apply ex_fits; lia|]. split; [auto|]. eexists; reflexivity. }
  next_throw. { split; [lia|]. eexists; reflexivity. }
  next_throw. { split; [auto|]. do 2 eexists. split; [reflexivity|]. split; [reflexivity|]. cbn.
          split; [apply ex_fits|]; vm_compute; repeat split; discriminate. }
  constructor.
Qed.

Print Assumptions C35_buffers_are_arrays.
Print Assumptions C35_memory_accounting.
Print Assumptions C35_no_leak.
Print Assumptions C35_fill_wraparound_refuted.
Print Assumptions C35_append_4G_refuted.
Print Assumptions C35_nonvacuous.
