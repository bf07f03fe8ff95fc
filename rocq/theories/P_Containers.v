(** Property theorems C08-C12 (see properties.jsonl). *)
From Verif Require Import Base Containers Containers_spec Containers_proofs.
Local Open Scope Z_scope.

(** C08: for a duplicate-free reference, the three outputs classify the ids. *)
Theorem C08_set_diff : forall c1 ref : list Z, NoDup ref ->
  (forall a, In a (d_missing (set_diff c1 ref)) <-> In a ref /\ ~ In a c1) /\
  (forall a, In a (d_matching (set_diff c1 ref)) <-> In a ref /\ In a c1) /\
  (forall a, In a (d_extra (set_diff c1 ref)) <-> In a c1 /\ ~ In a ref) /\
  Permutation (d_missing (set_diff c1 ref) ++ d_matching (set_diff c1 ref)) ref /\
  NoDup (d_missing (set_diff c1 ref)) /\ NoDup (d_matching (set_diff c1 ref)) /\
  StronglySorted Z.lt (d_extra (set_diff c1 ref)).
Proof.
  intros c1 ref Hn. destruct (set_diff_spec c1 ref Hn) as (E1 & E2 & E3 & E4).
  rewrite E1, E2.
  assert (N : forall a, negb (set_mem a c1) = true <-> ~ In a c1).
  { intros a; rewrite <- set_mem_iff; destruct (set_mem a c1); simpl; intuition discriminate. }
  split; [intros a; rewrite filter_In, N; tauto|].
  split; [intros a; rewrite filter_In, set_mem_iff; tauto|].
  split; [auto|]. split.
  - clear. induction ref as [|a t IH]; simpl; auto. destruct (set_mem a c1); simpl; auto.
    rewrite <- Permutation_middle. auto.
  - repeat split; auto using NoDup_filter.
Qed.
Print Assumptions C08_set_diff.

Example C08_nonvacuous : NoDup [5; 2; 9] /\
  set_diff [2; 7; 2; 1] [5; 2; 9] = mkDiff [5; 9] [2] [1; 7].
Proof. split; [|reflexivity]. repeat constructor; simpl; intuition discriminate. Qed.

(** With a duplicate in the reference, the second occurrence is reported missing
    although it is present in c1: the duplicate-free hypothesis is needed. *)
Theorem C08_duplicate_reference_refuted :
  exists c1 ref, ~ (forall a, In a (d_missing (set_diff c1 ref)) <-> In a ref /\ ~ In a c1).
Proof. exists [1], [1; 1]. intros H. destruct (proj1 (H 1)) as [_ N]; simpl in *; auto. Qed.
Print Assumptions C08_duplicate_reference_refuted.

(** C09: after any history the container is the finite map obtained by running the history
    on partial functions (an add of a present id changes nothing). *)
Theorem C09_history : forall (T : Type) (ops : list (dd_op T)),
  let m := dd_run ops in let f := spec_dd_run ops in
  (forall id, dd_get id m = match f id with Some v => Ok v | None => Throw end) /\
  (forall id, dd_has_key id m = true <-> f id <> None) /\
  (forall id v, dd_add_obj id v m = Throw <-> f id <> None) /\
  StronglySorted Z.lt (dd_get_ids m) /\
  (forall id, In id (dd_get_ids m) <-> f id <> None) /\
  (forall id v, In (id, v) (dd_for_each m) <-> f id = Some v) /\
  dd_count m = length (dd_get_ids m) /\
  (dd_is_empty m = true <-> forall id, f id = None).
Proof.
  intros T ops m f. destruct (dd_run_spec ops) as [Hs Hf]. fold m in Hs, Hf. fold f in Hf.
  split; [intros id; unfold dd_get; now rewrite Hf|].
  split; [intros id; unfold dd_has_key; rewrite Hf; destruct (f id); split; congruence|].
  split.
  { intros id v. unfold dd_add_obj. pose proof (emplace_spec id v m Hs) as HE. rewrite Hf in HE.
    destruct (f id).
    - rewrite HE. split; congruence.
    - destruct HE as (m' & E & _). rewrite E. split; congruence. }
  split; [exact Hs|].
  assert (HI : forall id, In id (dd_get_ids m) <-> f id <> None).
  { intros id. rewrite <- Hf. symmetry. apply dd_find_in. }
  split; [exact HI|]. split.
  { intros id v. rewrite <- Hf. unfold dd_for_each. clear -Hs. unfold dd_sorted in Hs.
    induction m as [|[k w] t IH]; simpl; [split; [tauto|discriminate]|].
    inversion Hs as [|? ? H1 H2]; subst. rewrite Forall_forall in H2. rewrite IH by auto.
    destruct (Z.eqb_spec id k); subst.
    - split.
      + intros [E|E]; [congruence|]. assert (In k (map fst t)).
        { apply dd_find_in. congruence. } apply H2 in H; lia.
      + intros E; injection E as ->; auto.
    - split; [intros [E|E]; [congruence|auto]|auto]. }
  split; [unfold dd_count, dd_get_ids, dd_for_each; now rewrite map_length|].
  split.
  - intros E id. destruct (f id) eqn:F; auto.
    assert (In id (dd_get_ids m)) by (apply HI; congruence).
    destruct m; simpl in *; [tauto|discriminate].
  - intros H. destruct m as [|[k v] t] eqn:E; auto. exfalso.
    apply (proj1 (HI k)); simpl; auto.
Qed.
Print Assumptions C09_history.

(** Each single add either inserts exactly the new binding or throws. *)
Theorem C09_add : forall (T : Type) (ops : list (dd_op T)) id v,
  (spec_dd_run ops id <> None /\ dd_add_obj id v (dd_run ops) = Throw) \/
  (spec_dd_run ops id = None /\ exists m', dd_add_obj id v (dd_run ops) = Ok m' /\
     forall x, dd_get x m' = if x =? id then Ok v else dd_get x (dd_run ops)).
Proof.
  intros T ops id v. destruct (dd_run_spec ops) as [Hs Hf].
  pose proof (emplace_spec id v (dd_run ops) Hs) as HE. rewrite Hf in HE.
  unfold dd_add_obj. destruct (spec_dd_run ops id).
  - left. rewrite HE. split; [congruence|auto].
  - right. split; auto. destruct HE as (m' & E & _ & F & _). rewrite E. eexists; split; eauto.
    intros x. unfold dd_get. rewrite F. destruct (x =? id); auto.
Qed.
Print Assumptions C09_add.

(** [map] never throws, keeps the ids and applies the function to each binding. *)
Theorem C09_map : forall (T U : Type) (ops : list (dd_op T)) (g : Z -> T -> U),
  exists m', dd_map g (dd_run ops) = Ok m' /\
    dd_get_ids m' = dd_get_ids (dd_run ops) /\
    forall id, dd_get id m' = (v <- dd_get id (dd_run ops) ;; Ok (g id v)).
Proof.
  intros T U ops g. destruct (dd_run_spec ops) as [Hs _].
  eexists; split; [apply dd_map_spec; auto|]. split.
  - unfold dd_get_ids, dd_for_each. rewrite map_map. reflexivity.
  - intros id. unfold dd_get. clear. induction (dd_run ops) as [|[k v] t IH]; simpl; auto.
    destruct (Z.eqb_spec id k); subst; auto.
Qed.
Print Assumptions C09_map.

Example C09_nonvacuous :
  dd_run [DAdd 7 true; DAdd 3 false; DAdd 7 false; DErase 3; DAdd 1 true] = [(1, true); (7, true)].
Proof. reflexivity. Qed.

(** C10: [data] and [other] are any two shared containers built by additions. *)
Theorem C10_tranfer_all : forall (T : Type) (l1 l2 : list (Z * Z * T)) (cd : Z -> Z -> bool),
  let data := dds_build l1 in let other := dds_build l2 in
  let r := dds_tranfer_all cd data other in
  (forall k, dds_vals k (fst r) = if cd (fst k) (snd k) then [] else dds_vals k data) /\
  (forall k, dds_vals k (snd r) =
     dds_vals k other ++ (if cd (fst k) (snd k) then dds_vals k data else [])) /\
  (dds_count (fst r) + dds_count (snd r) = dds_count data + dds_count other)%nat /\
  dds_sorted (fst r) /\ dds_sorted (snd r).
Proof.
  intros T l1 l2 cd data other r.
  destruct (dds_build_spec l2) as [S2 V2]. destruct (dds_build_spec l1) as [S1 V1].
  destruct (tranfer_all_spec cd data other S2) as (E & S & V). fold r in E, S, V.
  assert (C : forall k, dds_vals k (fst r) = if cd (fst k) (snd k) then [] else dds_vals k data).
  { intros k. rewrite E. pose proof (dds_vals_filter (fun a b => negb (cd a b)) data k) as H.
    etransitivity; [exact H|]. destruct (cd (fst k) (snd k)); auto. }
  split; [exact C|]. split; [exact V|]. split.
  - rewrite E. unfold r, dds_count.
    assert (H : dds_tranfer_all cd data other
      = (filter (fun p => negb (cdp cd p)) data,
         fold_left (fun m p => mm_insert (fst p) (snd p) m) (filter (cdp cd) data) other)).
    { apply (tranfer_all_gen cd data [] other). simpl; tauto. }
    rewrite H. simpl.
    assert (L : forall (l : list (key2 * T)) o,
      length (fold_left (fun m p => mm_insert (fst p) (snd p) m) l o) = (length l + length o)%nat).
    { induction l as [|[k v] t IH]; intros o; simpl; auto. rewrite IH.
      assert (LI : length (mm_insert k v o) = (1 + length o)%nat).
      { clear. induction o as [|[a b] o IHo]; simpl; auto. destruct (k2_ltb k a); simpl; auto. }
      rewrite LI. lia. }
    rewrite L.
    assert (F : forall l : list (key2 * T), (length (filter (fun p => negb (cdp cd p)) l)
       + length (filter (cdp cd) l) = length l)%nat).
    { induction l as [|p t IH]; simpl; auto. destruct (cdp cd p); simpl; lia. }
    specialize (F data). change (filter (fun p : key2 * T => negb (cdp cd p)) data)
      with (filter (fun p : Z * Z * T => negb (cd (fst (fst p)) (snd (fst p)))) data) in F.
    unfold dds, key2 in *. lia.
  - split; auto. rewrite E. unfold dds_sorted in *. apply sorted_map_filter. exact S1.
Qed.
Print Assumptions C10_tranfer_all.

(** Building: under each pair, the objects appear in insertion order; pairs are iterated in
    increasing order; [map] preserves both. *)
Theorem C10_build_and_map : forall (T U : Type) (l : list (Z * Z * T)) (g : Z -> Z -> T -> U) k,
  dds_vals k (dds_build l) = dds_vals k l /\
  dds_sorted (dds_build l) /\
  (dds_has_key (fst k) (snd k) (dds_build l) = true <-> dds_vals k l <> []) /\
  dds_vals k (dds_map g (dds_build l)) = map (g (fst k) (snd k)) (dds_vals k l).
Proof.
  intros T U l g k. destruct (dds_build_spec l) as [S V]. destruct (dds_map_spec g _ S) as [_ M].
  split; auto. split; auto. split; [|now rewrite M, V].
  rewrite <- V. unfold dds_has_key, dds_vals. destruct k as [a b]; simpl.
  clear. induction (dds_build l) as [|p t IH]; simpl; [split; [discriminate|congruence]|].
  destruct (k2_eqb (a, b) (fst p)); simpl; [split; [discriminate|auto]|auto].
Qed.
Print Assumptions C10_build_and_map.

Example C10_nonvacuous :
  dds_tranfer_all (fun l r => l =? 1) (dds_build [((1,2),10); ((0,5),11); ((1,2),12)])
                  (dds_build [((1,2),9); ((4,4),8)])
  = ([((0,5),11)], [((1,2),9); ((1,2),10); ((1,2),12); ((4,4),8)]).
Proof. reflexivity. Qed.

(** C11: for ids below 2^32 (see the finding below), each id present on either side triggers
    exactly one callback. *)
Theorem C11_ids_diff : forall (T : Type) (ops : list (dd_op T)) (ref : list Z),
  let m := dd_run ops in
  (forall id, dd_has_key id m = true -> 0 <= id < 2 ^ 32) -> NoDup ref ->
  let calls := on_distributeddata_ids_diff m ref in
  NoDup calls /\
  (forall id, In (CMissing id) calls <-> In id ref /\ dd_has_key id m = false) /\
  (forall id, In (CMatch id) calls <-> In id ref /\ dd_has_key id m = true) /\
  (forall id, In (CExtra id) calls <-> ~ In id ref /\ dd_has_key id m = true).
Proof.
  intros T ops ref m Hb Hn calls. destruct (dd_run_spec ops) as [Hs _]. fold m in Hs.
  assert (K : forall id, dd_has_key id m = true <-> In id (map fst m)).
  { intros id. rewrite <- dd_find_in. unfold dd_has_key. destruct (dd_find id m); split; congruence. }
  assert (K' : forall id, dd_has_key id m = false <-> ~ In id (map fst m)).
  { intros id. rewrite <- K. destruct (dd_has_key id m); split; congruence. }
  destruct (ids_diff_spec m ref Hs) as (A & B & C & D); auto.
  { apply Forall_forall. intros x Hx. apply Hb. now apply K. }
  split; [exact A|].
  split; [|split]; intros id; [rewrite K'; apply B|rewrite K; apply C|rewrite K; apply D].
Qed.
Print Assumptions C11_ids_diff.

Theorem C11_diff : forall (T U : Type) (ops : list (dd_op T)) (ops2 : list (dd_op U)),
  let m := dd_run ops in let r := dd_run ops2 in
  (forall id, dd_has_key id m = true -> 0 <= id < 2 ^ 32) ->
  (forall id, dd_has_key id r = true -> 0 <= id < 2 ^ 32) ->
  let calls := on_distributeddata_diff m r in
  NoDup calls /\
  (forall id, In (CMissing id) calls <-> dd_has_key id r = true /\ dd_has_key id m = false) /\
  (forall id, In (CMatch id) calls <-> dd_has_key id r = true /\ dd_has_key id m = true) /\
  (forall id, In (CExtra id) calls <-> dd_has_key id r = false /\ dd_has_key id m = true).
Proof.
  intros T U ops ops2 m r Hm Hr calls.
  destruct (dd_run_spec ops2) as [Hs _]. fold r in Hs.
  assert (K : forall id, dd_has_key id r = true <-> In id (map fst r)).
  { intros id. rewrite <- dd_find_in. unfold dd_has_key. destruct (dd_find id r); split; congruence. }
  assert (K' : forall id, dd_has_key id r = false <-> ~ In id (map fst r)).
  { intros id. rewrite <- K. destruct (dd_has_key id r); split; congruence. }
  destruct (C11_ids_diff T ops (map fst r) Hm) as (A & B & C & D); [now apply sorted_nodup|].
  fold m in A, B, C, D.
  assert (E : calls = on_distributeddata_ids_diff m (map fst r)).
  { unfold calls, on_distributeddata_diff, dd_for_each. rewrite map_w32_id; auto.
    apply Forall_forall. intros x Hx. apply Hr. now apply K. }
  rewrite E. split; [exact A|].
  split; [|split]; intros id; [rewrite B, K|rewrite C, K|rewrite D, K']; tauto.
Qed.
Print Assumptions C11_diff.

Example C11_nonvacuous :
  on_distributeddata_diff (dd_run [DAdd 4 tt; DAdd 1 tt]) (dd_run [DAdd 9 tt; DAdd 4 tt])
  = [CMissing 9; CMatch 4; CExtra 1].
Proof. reflexivity. Qed.

(** Finding: ids are u64 but the lambdas receive them as u32.  With the id 2^32+1 in both
    operands of the ids variant, the id is reported missing and the unknown id 1 extra. *)
Theorem C11_large_ids_refuted :
  let m := dd_run [DAdd (2 ^ 32 + 1) tt] in
  on_distributeddata_ids_diff m [2 ^ 32 + 1] = [CMissing (2 ^ 32 + 1); CExtra 1] /\
  on_distributeddata_diff m m = [CMatch 1].
Proof. split; reflexivity. Qed.
Print Assumptions C11_large_ids_refuted.

(** C12: for every capacity, initial memory content and history, the stack behaves as the list
    stack as long as the history stays within capacity, and the first call outside the contract
    is the one caught by the assertion ([UB]: no out-of-bounds access happens before). *)
Theorem C12_fixed_stack : forall (T : Type) (mem : list T) (ops : list (fs_op T)),
  match spec_run (length mem) ops [] with
  | Some (obs, _) => exists s, fs_run ops (fs_new mem) = Ok (obs, s)
  | None => fs_run ops (fs_new mem) = UB
  end.
Proof.
  intros T mem ops. pose proof (fs_new_run mem ops) as H.
  destruct (spec_run (length mem) ops []) as [[obs l]|]; auto.
  destruct H as (s & E & _); eauto.
Qed.
Print Assumptions C12_fixed_stack.

Theorem C12_fixed_stack_from_value : forall (T : Type) (mem : list T) v (ops : list (fs_op T)),
  (0 < length mem)%nat ->
  exists s0, fs_new_val mem v = Ok s0 /\
  match spec_run (length mem) ops [v] with
  | Some (obs, _) => exists s, fs_run ops s0 = Ok (obs, s)
  | None => fs_run ops s0 = UB
  end.
Proof.
  intros T mem v ops H. destruct (fs_new_val_run mem v H) as (s0 & E & W & A).
  exists s0; split; auto. pose proof (fs_run_spec (length mem) ops s0 W) as R. rewrite A in R.
  destruct (spec_run (length mem) ops [v]) as [[obs l]|]; auto.
  destruct R as (s & E' & _); eauto.
Qed.
Print Assumptions C12_fixed_stack_from_value.

Example C12_nonvacuous :
  spec_run 2 [FsPush 5; FsPush 6; FsPopRet; FsTop; FsSize] []
    = Some ([ObUnit; ObUnit; ObVal 6; ObVal 5; ObNat 1], [5]) /\
  spec_run 2 [FsPush 5; FsPush 6; FsPush 7] [] = None.
Proof. split; reflexivity. Qed.
