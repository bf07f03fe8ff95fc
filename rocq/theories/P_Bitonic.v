(** Property theorem C22 (see properties.jsonl). *)
From Verif Require Import Base Integer Integer_proofs SortSearch_spec SortSearch_proofs Bitonic Bitonic_net Bitonic_sorted Bitonic_proofs.
From Coq Require Import ZifyBool ZifyNat.

Lemma nth_skipn {A} (l : list A) m i d : nth i (skipn m l) d = nth (m + i) l d.
Proof. revert l. induction m as [|m IH]; intros [|h t]; simpl; auto. destruct i; auto. Qed.

(** On a power of two length the first [len] keys come out in increasing order, each value still
    attached to its key, and whatever the buffers hold after [len] is untouched.  [order length inc n]
    is the order in which the n work items of the kernel launched at (length, inc) run. *)
Theorem C22_sort_by_key : forall (K V : Type) (ltb : K -> K -> bool) maxstencil len order (keys : list K) (vals : list V),
  strict_weak ltb -> (exists e, len = 2 ^ e) -> (N.of_nat len < 2 ^ 32)%N ->
  (forall length inc n, Permutation (order length inc n) (seq 0 n)) ->
  len <= length keys -> len <= length vals ->
  exists keys' vals', sort_by_key ltb maxstencil len order keys vals = Ok (keys', vals') /\
    length keys' = length keys /\ length vals' = length vals /\
    sorted_by ltb (firstn len keys') /\
    Permutation (combine (firstn len keys') (firstn len vals')) (combine (firstn len keys) (firstn len vals)) /\
    skipn len keys' = skipn len keys /\ skipn len vals' = skipn len vals.
Proof.
  intros K V ltb ms len order keys vals SW (n & ->) HB SO L1 L2.
  pose proof (p2 n) as Pn.
  destruct keys as [|dk kt] eqn:EK; [simpl in L1; lia|]. rewrite <- EK in *. clear EK kt.
  destruct vals as [|dv vt] eqn:EV; [simpl in L2; lia|]. rewrite <- EV in *. clear EV vt.
  assert (E2 : N.of_nat (2 ^ n) = (2 ^ N.of_nat n)%N).
  { clear. induction n as [|n IHn]; [reflexivity|]. rewrite p2S, Nat2N.inj_mul, IHn, (Nat2N.inj_succ n), N.pow_succ_r by lia. reflexivity. }
  assert (Hn : n < 33).
  { destruct (Nat.lt_ge_cases n 33); auto. exfalso. rewrite E2 in HB. apply N.pow_lt_mono_r_iff in HB; lia. }
  unfold sort_by_key. rewrite (proj2 (is_pow_of_two_spec 32 _ HB)) by (exists (N.of_nat n); exact E2). unfold negb.
  destruct (length_loop_ok ltb dk dv ms n order SO Hn n 33 0 (keys, vals)) as ((k' & v') & E & M1 & M2 & HV); auto; try lia.
  change (2 ^ 0) with 1 in E. cbn [fst snd] in *.
  assert (HF : forall x, x < 2 ^ n -> nth x k' dk = fst (phases ltb 0 n (view dk dv (keys, vals)) x)).
  { intros x Hx. specialize (HV x). replace (x <? 2 ^ n) with true in HV by lia. rewrite <- HV. reflexivity. }
  assert (HS : forall x, x < 2 ^ n -> nth x v' dv = snd (phases ltb 0 n (view dk dv (keys, vals)) x)).
  { intros x Hx. specialize (HV x). replace (x <? 2 ^ n) with true in HV by lia. rewrite <- HV. reflexivity. }
  assert (NF : forall {A} (l : list A) i da, i < 2 ^ n -> nth i (firstn (2 ^ n) l) da = nth i l da).
  { clear. intros A l. generalize (2 ^ n) as m. induction l as [|h t IH]; intros [|m] [|i] da H; simpl; auto; try lia. apply IH; lia. }
  assert (CB : forall (l : list K) (r : list V), 2 ^ n <= length l -> 2 ^ n <= length r ->
    combine (firstn (2 ^ n) l) (firstn (2 ^ n) r) = map (view dk dv (l, r)) (seq 0 (2 ^ n))).
  { intros l r Hl Hr. apply (list_eq_nth (dk, dv)).
    - rewrite combine_length, !firstn_length, map_length, seq_length. lia.
    - intros i Hi. rewrite combine_length, !firstn_length in Hi.
      rewrite combine_nth by (rewrite !firstn_length; lia). rewrite !NF by lia.
      rewrite (nth_indep _ (dk, dv) (view dk dv (l, r) 0)) by (rewrite map_length, seq_length; lia).
      rewrite map_nth, seq_nth by lia. reflexivity. }
  exists k', v'. split; [exact E|]. split; [exact M1|]. split; [exact M2|]. split; [|split; [|split]].
  - unfold sorted_by.
    assert (G : forall i j, i < j -> j < 2 ^ n -> ltb (nth j (firstn (2 ^ n) k') dk) (nth i (firstn (2 ^ n) k') dk) = false).
    { intros i j Hij Hj. rewrite !NF by lia. rewrite !HF by lia. now apply phases_sorted. }
    assert (LL : length (firstn (2 ^ n) k') = 2 ^ n) by (rewrite firstn_length; lia).
    revert G LL. generalize (firstn (2 ^ n) k'). generalize (2 ^ n). clear. intros N l G <-. revert G.
    induction l as [|h t IH]; intros G; constructor.
    + apply IH. intros i j Hij Hj. apply (G (S i) (S j)); simpl; lia.
    + apply Forall_forall. intros y Hy. destruct (In_nth t y dk Hy) as (j & Hj & <-). apply (G 0 (S j)); simpl; lia.
  - rewrite (CB k' v'), (CB keys vals); try (rewrite ?M1, ?M2; assumption). rewrite (map_ext_in _ (phases ltb 0 n (view dk dv (keys, vals)))).
    + apply (phases_perm ltb dk n n 0). exact (le_n n).
    + intros x Hx. apply in_seq in Hx. rewrite HV. replace (x <? 2 ^ n) with true by lia. reflexivity.
  - apply (list_eq_nth dk); [rewrite !skipn_length; lia|]. intros i Hi. rewrite !nth_skipn.
    specialize (HV (2 ^ n + i)). replace (2 ^ n + i <? 2 ^ n) with false in HV by lia. unfold view in HV. injection HV. auto.
  - apply (list_eq_nth dv); [rewrite !skipn_length; lia|]. intros i Hi. rewrite !nth_skipn.
    specialize (HV (2 ^ n + i)). replace (2 ^ n + i <? 2 ^ n) with false in HV by lia. unfold view in HV. injection HV. auto.
Qed.
Print Assumptions C22_sort_by_key.

(** Any other length (including 0) is rejected by an exception before anything is launched. *)
Theorem C22_rejects_other_lengths : forall (K V : Type) (ltb : K -> K -> bool) maxstencil len order (keys : list K) (vals : list V),
  (N.of_nat len < 2 ^ 32)%N -> ~ (exists e, len = 2 ^ e) ->
  sort_by_key ltb maxstencil len order keys vals = Throw.
Proof.
  intros K V ltb ms len order keys vals HB HN. unfold sort_by_key.
  destruct (is_pow_of_two 32 (N.of_nat len)) eqn:E; [|reflexivity].
  exfalso. apply HN. apply is_pow_of_two_spec in E; auto. destruct E as (k & Ek). exists (N.to_nat k).
  rewrite <- (Nat2N.id len), Ek. clear. induction k as [|k IH] using N.peano_ind; [reflexivity|].
  rewrite N.pow_succ_r', N2Nat.inj_mul, IH, N2Nat.inj_succ, p2S. reflexivity.
Qed.
Print Assumptions C22_rejects_other_lengths.

(** Concrete run: 8 keys with ties, stencil 4, work items in reverse order. *)
Example C22_nonvacuous :
  strict_weak Z.ltb /\ (forall n, Permutation (rev (seq 0 n)) (seq 0 n)) /\
  match sort_by_key Z.ltb 4 8 (fun _ _ n => rev (seq 0 n)) [5; 3; 9; 3; 1; 7; 2; 8; 0]%Z [0; 1; 2; 3; 4; 5; 6; 7; 8] with
  | Ok (k, v) => k = [1; 2; 3; 3; 5; 7; 8; 9; 0]%Z /\ nth 8 v 99 = 8 /\ length v = 9
  | _ => False
  end.
Proof.
  split; [apply Zltb_sw|]. split; [intros; symmetry; apply Permutation_rev|]. vm_compute. auto.
Qed.
