(** Properties of the patch scheduler: C27, C29, C31, C32. *)
From Verif Require Import Base Patch Patch_spec PatchTree PatchTree_spec Sched Sched_spec
  Sched_change_proofs Sched_merge_proofs Sched_main_proofs Sched_hist_proofs.
Local Open Scope Z_scope.

Section P.
Variable obj : Type.
Variable pos : obj -> v3.
Variable W : nat.

(** C27.  After any history, the ids in the global list are pairwise distinct, the boxes of distinct
    valid patches are disjoint, and together they cover exactly the root boxes. *)
Theorem C27_patches_partition_domain : forall bs s, (1 <= W)%nat -> sched_history obj pos W bs s ->
  NoDup (map p_id (s_global _ s)) /\
  (forall p q, In p (s_global _ s) -> In q (s_global _ s) -> valid_patch W p -> valid_patch W q -> p <> q ->
     disjoint (p_box p) (p_box q)) /\
  (forall x, (exists p, In p (s_global _ s) /\ valid_patch W p /\ in_box x (p_box p)) <->
             (exists b, In b bs /\ in_box x b)).
Proof.
  intros bs s HW H. destruct (history_ok obj pos W bs s HW H) as (I & _ & C).
  split; [apply (so_nodup _ _ _ _ I)|]. split; [|exact C].
  intros p q Hp Hq Vp Vq Hne. apply (patches_disjoint obj pos W s p q I); auto.
  intros E. apply Hne. eapply (Sched_proofs.NoDup_map_inj p_id); eauto. apply (so_nodup _ _ _ _ I).
Qed.

(** C31.  In every reachable state the operations of the scheduler never fail, whatever the load
    values, the owner table, the iteration orders of the hash sets, the OpenMP schedule and the order
    of the messages; a step keeps all the objects (no loss, no duplication), every rank holds exactly
    the patches it owns, and every object is in the box of its patch. *)
Theorem C31_step_keeps_objects : forall bs s sm lb cs cm loads ord_s ord_m omp balance net,
  (1 <= W)%nat -> sched_history obj pos W bs s ->
  step_params obj W cs cm loads ord_s ord_m omp balance net s -> step_flags W sm lb ->
  exists s', scheduler_step obj pos W sm lb cs cm loads ord_s ord_m omp balance net s = Ok s' /\
    Permutation (world_objects obj W s') (world_objects obj W s) /\
    (forall r id, 0 <= r < Z.of_nat W ->
       (s_data _ s' r id <> None <-> exists p, In p (s_global _ s') /\ p_owner p = r /\ p_id p = id)) /\
    (forall p o, In p (s_global _ s') -> valid_patch W p -> In o (patch_objs obj (s_data _ s') p) ->
       in_box (pos o) (p_box p)).
Proof.
  intros bs s sm lb cs cm loads os om omp bal net HW H PP Fl. destruct (history_ok obj pos W bs s HW H) as (I & _ & _).
  destruct (scheduler_step_ok obj pos W sm lb cs cm loads os om omp bal net s I PP Fl) as (s' & E & I' & Wd & _).
  exists s'. split; [exact E|]. split; [exact Wd|]. split; [apply (so_data _ _ _ _ I')|apply (so_in _ _ _ _ I')].
Qed.

Theorem C31_add_roots_keeps_objects : forall bs s bs', (1 <= W)%nat -> sched_history obj pos W bs s ->
  roots_allowed obj W bs' s ->
  exists s', add_root_patches obj bs' s = Ok s' /\ world_objects obj W s' = world_objects obj W s.
Proof.
  intros bs s bs' HW H A. destruct (history_ok obj pos W bs s HW H) as (I & N & _).
  destruct (add_roots_ok obj pos W bs' s HW I N A) as (s' & E & _ & Wd & _). eauto.
Qed.

(** C29.  The change list has exactly one operation for each patch whose owner changes, which names its
    id, its place in the list, its old and its new owner; and two operations with the same old owner
    have distinct tags. *)
Theorem C29_change_list : forall order g owners,
  (forall p, In p g -> valid_patch W p) ->
  length owners = length g -> (forall o, In o owners -> 0 <= o < Z.of_nat W) ->
  packs_ok g -> Permutation order (seq 0 (length g)) ->
  exists ops, make_change_list W order g owners = Ok ops /\
    (forall op, In op ops -> exists p, nth_error g (co_idx op) = Some p /\
       co_id op = p_id p /\ co_old op = p_owner p /\ co_new op = final_owner g owners (co_idx op) /\
       co_new op <> co_old op) /\
    (forall i p, nth_error g i = Some p -> final_owner g owners i <> p_owner p ->
       exists op, In op ops /\ co_idx op = i) /\
    NoDup (map co_idx ops) /\
    (forall a b oa ob, nth_error ops a = Some oa -> nth_error ops b = Some ob -> a <> b ->
       co_old oa = co_old ob -> co_tag oa <> co_tag ob).
Proof.
  intros order g owners V L O P Po. destruct (make_change_list_ok W order g owners V L O P Po) as (ops & E & A & B & C & D).
  exists ops. split; [exact E|]. split; [exact A|]. split; [exact B|]. split; [exact C|].
  intros a b oa ob Ha Hb Hab Ho Ht. apply Hab.
  apply (proj1 (NoDup_nth_error _) D).
  - rewrite map_length. eapply nth_error_lt; eauto.
  - rewrite !nth_error_map, Ha, Hb. cbn. congruence.
Qed.

(** C32.  Applying the change list, with messages arriving in any order, moves every patch to the rank
    given by the owner table (packed patches following the patch they are packed with): afterwards
    that rank holds exactly the objects the old owner held, and no other rank holds the patch. *)
Theorem C32_migration_delivers : forall bs s omp balance net, (1 <= W)%nat -> sched_history obj pos W bs s ->
  (forall p, In p (s_global _ s) -> valid_patch W p) -> packs_ok (s_global _ s) ->
  (forall n, Permutation (omp n) (seq 0 n)) -> (forall l, Permutation (net l) l) ->
  (forall g, length (balance g) = length g) -> (forall g o, In o (balance g) -> 0 <= o < Z.of_nat W) ->
  exists s', step_balance obj W omp balance net s = Ok s' /\
    forall i p, nth_error (s_global _ s) i = Some p ->
      let new_owner := final_owner (s_global _ s) (balance (s_global _ s)) i in
      nth_error (s_global _ s') i = Some (set_owner new_owner p) /\
      s_data _ s' new_owner (p_id p) = s_data _ s (p_owner p) (p_id p) /\
      forall r, 0 <= r < Z.of_nat W -> r <> new_owner -> s_data _ s' r (p_id p) = None.
Proof.
  intros bs s omp bal net HW H V Pk Ho Hn Hl Hb. destruct (history_ok obj pos W bs s HW H) as (I & _ & _).
  destruct (balance_ok obj pos W omp bal net s I V Pk Ho Hn Hl Hb) as (s' & E & _ & _ & _ & _ & _ & _ & G & D).
  exists s'. split; [exact E|]. intros i p Hp. cbv zeta. split; [apply G; auto|]. split.
  - rewrite (D i p _ Hp); [now rewrite Z.eqb_refl|]. apply final_in; auto.
    + intros o Hin. apply (Hb _ _ Hin).
    + eapply nth_error_lt; eauto.
  - intros r Hr Hne. rewrite (D i p r Hp Hr). destruct (Z.eqb_spec r (final_owner (s_global _ s) (bal (s_global _ s)) i)); congruence.
Qed.
End P.

(** Concrete history: two ranks, one root patch, ten objects; a step that splits the patch and spreads
    the pieces on the two ranks; a step that merges them again. *)
Definition ex_box : pcoord := PC (V3 0 0 0) (V3 15 15 15).
Definition ex_objs : list v3 := map (fun i => V3 (i mod 16) (i * 7 mod 16) (i * 5 mod 16)) (map Z.of_nat (seq 0 10)).
Definition ex_get (s0 : sched v3) (r : res (sched v3)) := match r with Ok s => s | _ => s0 end.
Definition ex_s1 := ex_get (empty_sched v3) (add_root_patches v3 [ex_box] (empty_sched v3)).
Definition ex_d (r id : Z) : option (list v3) := if (r =? 0) && (id =? 0) then Some ex_objs else None.
Definition ex_s2 := Sched v3 (s_tree _ ex_s1) (s_global _ ex_s1) (s_next _ ex_s1) (s_idx _ ex_s1) ex_d.
Definition ex_bal (g : list patch) : list Z := map (fun i => Z.of_nat i mod 2) (seq 0 (length g)).
Definition ex_net (l : list (message v3)) := rev l.
Notation ex_step lb cs cm s := (scheduler_step v3 (fun x => x) 2 true lb cs cm (fun _ => 10) (@rev Z) (@rev Z)
   (fun n => rev (seq 0 n)) ex_bal ex_net s).
Definition ex_s3 := ex_get ex_s2 (ex_step true 5 1 ex_s2).
Definition ex_s4 := ex_get ex_s2 (ex_step true 1000 1000 ex_s3).

Lemma ex_params cs cm s : cm <= cs ->
  (forall p, In p (s_global _ s) -> valid_patch 2 p -> cs < 10 -> splittable (p_box p)) ->
  t_next (s_tree _ s) + 8 * Z.of_nat (length (t_leaf (s_tree _ s))) <= 2 ^ 32 ->
  s_next _ s + 7 * Z.of_nat (length (t_leaf (s_tree _ s))) <= u64_max ->
  step_params v3 2 cs cm (fun _ => 10) (@rev Z) (@rev Z) (fun n => rev (seq 0 n)) ex_bal ex_net s.
Proof.
  intros A B C D. constructor; auto.
  - vm_compute. discriminate.
  - intros _. split; [lia|]. reflexivity.
  - intros l. symmetry. apply Permutation_rev.
  - intros l. symmetry. apply Permutation_rev.
  - intros n. symmetry. apply Permutation_rev.
  - intros l. symmetry. apply Permutation_rev.
  - intros g. unfold ex_bal. now rewrite map_length, seq_length.
  - intros g o Ho. apply in_map_iff in Ho. destruct Ho as (i & <- & _). apply Z.mod_pos_bound. lia.
Qed.

Lemma ex_ok r s0 : (match r with Ok _ => true | _ => false end) = true -> r = Ok (ex_get s0 r).
Proof. destruct r; cbn; congruence. Qed.

Lemma ex_h1 : sched_history v3 (fun x => x) 2 [ex_box] ex_s1.
Proof.
  apply (SH_root v3 (fun x => x) 2 [] (empty_sched v3) [ex_box] ex_s1).
  - constructor.
  - split; [|split; [|split; [|split]]].
    + intros [|[|i]] [|[|j]]; cbn; try discriminate; congruence.
    + intros a [<-|[]]. unfold wf_box, ex_box; cbn [cmin cmax vx vy vz]. lia.
    + intros a _ pt _ (p & [] & _).
    + vm_compute. discriminate.
    + vm_compute. discriminate.
  - unfold ex_s1. apply ex_ok. vm_compute. reflexivity.
Qed.
Lemma ex_h2 : sched_history v3 (fun x => x) 2 [ex_box] ex_s2.
Proof.
  apply SH_data; [exact ex_h1|]. split.
  - intros r id Hr. cbn [ex_s1 ex_get add_root_patches rfold add_root_patch rbind]. unfold ex_d.
    unfold ex_s1, add_root_patches, rfold, add_root_patch, d_add. cbn [empty_sched s_data rbind ex_get s_next].
    unfold dd_set, d_set. destruct (r =? 0); cbn [andb]; [|tauto]. destruct (id =? 0); split; congruence.
  - intros p o Hp _ Ho. assert (Hg : s_global _ ex_s1 = [Patch 0 u64_max 0 ex_box 0]) by (vm_compute; reflexivity).
    rewrite Hg in Hp. destruct Hp as [<-|[]]. cbn [p_box]. change (patch_objs v3 ex_d (Patch 0 u64_max 0 ex_box 0)) with ex_objs in Ho.
    unfold ex_objs in Ho. apply in_map_iff in Ho. destruct Ho as (i & <- & Hi).
    pose proof (Z.mod_pos_bound i 16 ltac:(lia)). pose proof (Z.mod_pos_bound (i * 7) 16 ltac:(lia)). pose proof (Z.mod_pos_bound (i * 5) 16 ltac:(lia)).
    unfold in_box, ex_box; cbn [vx vy vz cmin cmax]. lia.
Qed.
Lemma ex_p2 : step_params v3 2 5 1 (fun _ => 10) (@rev Z) (@rev Z) (fun n => rev (seq 0 n)) ex_bal ex_net ex_s2.
Proof.
  apply ex_params; [lia| |apply Zle_bool_imp_le; vm_compute; reflexivity|apply Zle_bool_imp_le; vm_compute; reflexivity].
  intros p Hp _ _. assert (Hg : s_global _ ex_s2 = [Patch 0 u64_max 0 ex_box 0]) by (vm_compute; reflexivity).
  rewrite Hg in Hp. destruct Hp as [<-|[]]. unfold splittable, side_ok; cbn. lia.
Qed.
Lemma ex_e3 : ex_step true 5 1 ex_s2 = Ok ex_s3.
Proof. unfold ex_s3. apply ex_ok. vm_compute. reflexivity. Qed.
Lemma ex_h3 : sched_history v3 (fun x => x) 2 [ex_box] ex_s3.
Proof.
  refine (SH_step v3 (fun x => x) 2 [ex_box] ex_s2 true true 5 1 (fun _ => 10) (@rev Z) (@rev Z)
            (fun n => rev (seq 0 n)) ex_bal ex_net ex_s3 ex_h2 ex_p2 _ ex_e3). intros _. left; reflexivity.
Qed.
Lemma ex_p3 : step_params v3 2 1000 1000 (fun _ => 10) (@rev Z) (@rev Z) (fun n => rev (seq 0 n)) ex_bal ex_net ex_s3.
Proof.
  apply ex_params; [lia| |apply Zle_bool_imp_le; vm_compute; reflexivity|apply Zle_bool_imp_le; vm_compute; reflexivity].
  intros p _ _ H. exfalso. clear -H. lia.
Qed.
Lemma ex_e4 : ex_step true 1000 1000 ex_s3 = Ok ex_s4.
Proof. unfold ex_s4. apply ex_ok. vm_compute. reflexivity. Qed.
Lemma ex_h4 : sched_history v3 (fun x => x) 2 [ex_box] ex_s4.
Proof.
  refine (SH_step v3 (fun x => x) 2 [ex_box] ex_s3 true true 1000 1000 (fun _ => 10) (@rev Z) (@rev Z)
            (fun n => rev (seq 0 n)) ex_bal ex_net ex_s4 ex_h3 ex_p3 _ ex_e4). intros _. left; reflexivity.
Qed.

Example C27_nonvacuous : sched_history v3 (fun x => x) 2 [ex_box] ex_s3 /\
  map p_id (s_global _ ex_s3) = [0; 1; 2; 3; 4; 5; 6; 7] /\ map p_owner (s_global _ ex_s3) = [0; 1; 0; 1; 0; 1; 0; 1].
Proof. split; [exact ex_h3|]. split; vm_compute; reflexivity. Qed.
Example C31_nonvacuous : sched_history v3 (fun x => x) 2 [ex_box] ex_s4 /\
  step_params v3 2 1000 1000 (fun _ => 10) (@rev Z) (@rev Z) (fun n => rev (seq 0 n)) ex_bal ex_net ex_s3 /\
  length (world_objects v3 2 ex_s3) = 10%nat /\ length (world_objects v3 2 ex_s4) = 10%nat /\
  length (filter (validb 2) (s_global _ ex_s4)) = 1%nat /\ length (t_leaf (s_tree _ ex_s4)) = 1%nat.
Proof. split; [exact ex_h4|]. split; [exact ex_p3|]. repeat split; vm_compute; reflexivity. Qed.

(** Merging without load balancing (scheduler_step(true, false)) on more than one rank: the pieces of
    the merged node can be on different ranks, and merge_patchdata throws on a reachable state. *)
Theorem C31_merge_without_balance_refuted : exists s,
  sched_history v3 (fun x => x) 2 [ex_box] s /\
  step_params v3 2 1000 1000 (fun _ => 10) (@rev Z) (@rev Z) (fun n => rev (seq 0 n)) ex_bal ex_net s /\
  scheduler_step v3 (fun x => x) 2 true false 1000 1000 (fun _ => 10) (@rev Z) (@rev Z)
    (fun n => rev (seq 0 n)) ex_bal ex_net s = Throw.
Proof. exists ex_s3. split; [exact ex_h3|]. split; [exact ex_p3|]. vm_compute. reflexivity. Qed.

(** A patch list where patches 1 and 2 are packed with patch 0. *)
Definition C29_g : list patch :=
  [Patch 10 u64_max 5 ex_box 0; Patch 11 0 5 ex_box 1; Patch 12 0 5 ex_box 0; Patch 13 u64_max 5 ex_box 1].
Example C29_nonvacuous : (forall p, In p C29_g -> valid_patch 2 p) /\ packs_ok C29_g /\
  make_change_list 2 [3; 2; 0; 1]%nat C29_g [1; 0; 0; 0] =
    Ok [ChangeOp 10 0 0 1 0; ChangeOp 12 2 0 1 1; ChangeOp 13 3 1 0 0].
Proof.
  split; [|split].
  - intros p Hp. unfold valid_patch. cbn in Hp. decompose [or] Hp; subst; cbn; lia.
  - intros i p Hp Hk. destruct i as [|[|[|[|i]]]]; cbn in Hp; try discriminate; [| | | |destruct i; discriminate];
      injection Hp as <-; cbn in Hk; try congruence; cbn; split; try lia; eexists; split; reflexivity.
  - vm_compute. reflexivity.
Qed.
Example C32_nonvacuous : sched_history v3 (fun x => x) 2 [ex_box] ex_s3 /\
  (forall p, In p (s_global _ ex_s3) -> valid_patch 2 p) /\ packs_ok (s_global _ ex_s3) /\
  (exists s', step_balance v3 2 (fun n => rev (seq 0 n)) (fun g => repeat 1 (length g)) ex_net ex_s3 = Ok s' /\
     map p_owner (s_global _ s') = repeat 1 8%nat /\ map p_owner (s_global _ ex_s3) <> repeat 1 8%nat).
Proof.
  split; [exact ex_h3|]. split; [|split].
  - intros p Hp. apply (Sched_proofs.validb_spec 2). revert p Hp. apply Forall_forall. vm_compute. repeat constructor.
  - intros i p Hp Hk. exfalso. apply Hk. apply nth_error_In in Hp. revert p Hp Hk.
    assert (F : Forall (fun p => p_pack p = u64_max) (s_global _ ex_s3)) by (vm_compute; repeat constructor).
    intros p Hp _. exact (proj1 (Forall_forall _ _) F p Hp).
  - exists (ex_get ex_s3 (step_balance v3 2 (fun n => rev (seq 0 n)) (fun g => repeat 1 (length g)) ex_net ex_s3)).
    split; [apply ex_ok; vm_compute; reflexivity|]. split; vm_compute; [reflexivity|discriminate].
Qed.

Print Assumptions C27_patches_partition_domain.
Print Assumptions C29_change_list.
Print Assumptions C31_step_keeps_objects.
Print Assumptions C31_add_roots_keeps_objects.
Print Assumptions C31_merge_without_balance_refuted.
Print Assumptions C32_migration_delivers.
