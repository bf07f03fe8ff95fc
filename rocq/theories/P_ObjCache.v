(** C55: the store of neighbour caches. *)
From Verif Require Import Base Containers Containers_spec Containers_proofs ObjCache ObjCache_spec ObjCache_proofs.
Local Open Scope Z_scope.

(** Whatever the history of calls (exceptions caught or not), nothing undefined happens, every entry returned has the
    content the generator gives for its id, and a call fails only if the generator fails or if the entry alone is larger
    than the limit. *)
Theorem C55_answers : forall alloc gen limit ops, sizes_ok alloc gen limit ->
  exists obs s, hrun alloc gen limit ops fresh = Some (obs, s) /\ Forall2 (answer_ok alloc gen limit) ops obs.
Proof.
  intros alloc gen limit ops SZ. destruct (run_ok alloc gen limit SZ ops fresh (fresh_inv alloc gen limit SZ)) as (bs & s & E & _ & A). eauto.
Qed.
(** At any time the memory counter is the memory in use, below the limit; an entry is stored once, on the device or on
    the host. *)
Theorem C55_memory : forall alloc gen limit ops obs s, sizes_ok alloc gen limit -> hrun alloc gen limit ops fresh = Some (obs, s) ->
  s_dmem s = in_use s /\ 0 <= in_use s <= limit /\ NoDup (map fst (s_cache s)) /\ NoDup (map fst (s_off s)) /\
  forall id, ~ (on_device s id /\ on_host s id).
Proof.
  intros alloc gen limit ops obs s SZ E. destruct (run_ok alloc gen limit SZ ops fresh (fresh_inv alloc gen limit SZ)) as (bs & s' & E' & I & _). rewrite E in E'. injection E' as <- <-.
  pose proof (i_mem _ _ _ _ I) as M. pose proof (i_lim _ _ _ _ I) as L. change (tot (s_cache s)) with (in_use s) in M. split; [exact M|]. split; [lia|].
  split; [apply sorted_nodup, I|]. split; [apply sorted_nodup, I|]. intros id (A & B). unfold on_device, on_host in *. apply dd_find_in in A. apply dd_find_in in B.
  destruct (dd_find id (s_cache s)) as [d|] eqn:F; [|congruence]. rewrite (i_disj _ _ _ _ I _ _ F) in B. congruence.
Qed.
(** Without failure, the generator has been called exactly once since the last reset for each id asked for since then,
    however small the limit, and exactly these entries are stored: nothing is lost, nothing survives a reset. *)
Theorem C55_generated_once : forall alloc gen limit ops obs s, sizes_ok alloc gen limit -> hrun alloc gen limit ops fresh = Some (obs, s) ->
  ~ In OThrew obs ->
  exists before recent, s_glog s = before ++ recent /\ NoDup recent /\
    (~ In HReset ops -> before = []) /\
    forall id, (In id recent <-> In id (since_reset ops)) /\ (In id (since_reset ops) <-> on_device s id \/ on_host s id).
Proof.
  intros alloc gen limit ops obs s SZ E NT.
  assert (G : (fun s hist => GInv s hist /\ (~ In HReset hist -> NoDup (s_glog s) /\ forall id, In id (s_glog s) <-> In id (since_reset hist))) s ([] ++ ops)).
  { apply (run_inv alloc gen limit SZ (fun s hist => GInv s hist /\ (~ In HReset hist -> NoDup (s_glog s) /\ forall id, In id (s_glog s) <-> In id (since_reset hist)))) with (ops := ops) (s := fresh) (bs := obs); auto.
    2: now apply fresh_inv.
    2: { split; [|cbn; intros _; split; [constructor|tauto]]. exists [], []. cbn. split; [reflexivity|]. split; [constructor|]. split; intros id; (split; [intros []|]); [intros [X|X]; cbn in X; congruence|intros []]. }
    intros o s0 b s1 hist I H B (G0 & N0). split; [eapply ginv_step; eauto|]. intros NR.
    assert (NR0 : ~ In HReset hist) by (intros X; apply NR, in_or_app; auto). destruct (N0 NR0) as (ND & EQ).
    assert (G1 : GInv s0 hist) by exact G0.
    destruct G0 as (old & rec & EL & NDr & GK & GA).
    assert (old = []).
    { destruct old as [|x old]; [reflexivity|exfalso]. rewrite EL in ND, EQ. cbn [app] in ND. inversion ND as [|? ? NI _]; subst. apply NI, in_or_app. right. apply GA, EQ. now left. }
    subst old. cbn [app] in EL. subst rec.
    assert (G2 : GInv s0 hist /\ s_glog s0 = [] ++ s_glog s0) by auto.
    destruct (step_cases alloc gen limit SZ o s0 b s1 I H B) as [(-> & _)|(id & d & AO & GT)]; [exfalso; apply NR, in_or_app; right; now left|].
    destruct (ginv_step alloc gen limit SZ o s0 b s1 hist I H B G1) as (old' & rec' & EL' & ND' & GK' & GA').
    assert (SUB : s_glog s1 = s_glog s0 \/ s_glog s1 = s_glog s0 ++ [id] /\ ~ In id (s_glog s0)).
    { inversion GT as [d' F E1|c s2 s3 s4 N GD LD FR PU E1| |]; subst; [auto|]. destruct (freed_logs _ _ _ _ _ _ FR) as (LG & _). destruct PU as (_ & _ & _ & _ & PG & _). destruct LD as (_ & _ & _ & _ & _ & LL).
      rewrite PG, LG, LL. destruct (dd_has_key id (s_off s0)) eqn:HK; [auto|right]. split; [reflexivity|]. rewrite GK. apply has_key_none in HK. intros [X|X]; congruence. }
    assert (ND1 : NoDup (s_glog s1)).
    { destruct SUB as [->|(-> & NI)]; [exact ND|]. apply (Permutation_NoDup (Permutation_cons_append _ id)). now constructor. }
    split; [exact ND1|]. intros y. assert (AE : In y (since_reset (hist ++ [o])) <-> In y (since_reset hist) \/ y = id).
    { unfold since_reset. rewrite fold_left_app. cbn [fold_left]. destruct o; cbn [asked] in *; try discriminate; injection AO as ->; rewrite in_app_iff; cbn; intuition. }
    split.
    - destruct SUB as [->|(-> & NI)]; rewrite AE; [rewrite EQ; auto|]. rewrite in_app_iff, EQ. cbn. intuition.
    - rewrite <- GA', EL', in_app_iff. auto. }
  destruct G as ((old & rec & EL & ND & GK & GA) & NR). exists old, rec. split; [exact EL|]. split; [exact ND|]. split.
  - intros N. destruct (NR N) as (ND' & EQ'). destruct old as [|x old]; [reflexivity|exfalso]. rewrite EL in ND', EQ'. cbn [app] in ND'. inversion ND' as [|? ? NI _]; subst. apply NI, in_or_app. right. apply GA, EQ'. now left.
  - intros id. split; [apply GA|]. cbn [app] in GA. rewrite <- GA, GK. unfold known, on_device, on_host. now rewrite <- !dd_find_in.
Qed.
(** Without failure, and if the generator's buffers have the size of a new allocation, entries leave the device oldest
    first: those on the device are the last ones built. *)
Theorem C55_oldest_first : forall alloc gen limit ops obs s, sizes_ok alloc gen limit ->
  (forall id g, gen id = Some g -> bytes g = bytes_again alloc g) ->
  hrun alloc gen limit ops fresh = Some (obs, s) -> ~ In OThrew obs ->
  exists gone kept, s_blog s = gone ++ kept /\ Permutation kept (map fst (s_cache s)).
Proof.
  intros alloc gen limit ops obs s SZ SAME E NT.
  assert (G : (fun s (_ : list hop) => FInv alloc gen limit s) s ([] ++ ops)).
  { apply (run_inv alloc gen limit SZ (fun s _ => FInv alloc gen limit s) (fun o s b s' hist I H B => finv_step alloc gen limit SZ SAME o s b s' hist I H B) ops fresh obs s []); auto.
    - now apply fresh_inv.
    - exists [], [], []. cbn. split; [reflexivity|]. split; [split; [constructor|]|auto]. intros id. cbn. split; [intros []|congruence]. }
  destruct G as (ord & pre & older & _ & (ND & CI) & EB & _). exists older, ord. split; [exact EB|].
  destruct (run_ok alloc gen limit SZ ops fresh (fresh_inv alloc gen limit SZ)) as (bs & s' & E' & I & _). rewrite E in E'. injection E' as <- <-.
  apply NoDup_Permutation; [exact ND|apply sorted_nodup, I|]. intros id. rewrite CI. apply dd_find_in.
Qed.

(** ** A concrete store: allocations in units of 64 bytes, room for two entries *)
Definition ex_alloc (n : nat) : Z := (4 * Z.of_nat n + 63) / 64 * 64.
Definition ex_gen (id : Z) : option devc := if id =? 99 then None else Some (mkdev (mkhost [id] [0] 1 [id + 1]) 64 64 64).
Example C55_nonvacuous :
  sizes_ok ex_alloc ex_gen 400 /\ (forall id g, ex_gen id = Some g -> bytes g = bytes_again ex_alloc g) /\
  exists obs s, hrun ex_alloc ex_gen 400 [HGet 1; HGet 2; HPreload 3; HGet 1; HGet 4; HGet 3] fresh = Some (obs, s) /\ ~ In OThrew obs /\
    s_glog s = [1; 2; 3; 4] /\ s_blog s = [1; 2; 3; 1; 4; 3] /\ map fst (s_cache s) = [3; 4] /\ map fst (s_off s) = [1; 2] /\ s_dmem s = 392.
Proof.
  split; [|split].
  - split; [lia|]. intros id d H. unfold ex_gen in H. destruct (id =? 99); [discriminate|]. injection H as <-. vm_compute. repeat split; congruence.
  - intros id g H. unfold ex_gen in H. destruct (id =? 99); [discriminate|]. injection H as <-. reflexivity.
  - do 2 eexists. split; [vm_compute; reflexivity|]. split; [|vm_compute; auto 10]. cbn. intuition discriminate.
Qed.
(** The counter of host memory is wrong: it adds the size of the vectors and subtracts that of the device allocations,
    and wraps below zero. *)
Theorem C55_host_counter_refuted : exists obs s, hrun ex_alloc ex_gen 400 [HGet 1; HGet 2; HGet 3; HGet 1] fresh = Some (obs, s) /\
  ~ In OThrew obs /\ fold_right (fun p t => host_memsize (snd p) + t) 0 (s_off s) = 16 /\ s_hmem s = 2 ^ 64 - 164.
Proof. do 2 eexists. split; [vm_compute; reflexivity|]. split; [cbn; intuition discriminate|]. split; vm_compute; reflexivity. Qed.
(** build_cache, a public function, on an id already on the device: it throws after adding the size to the counter, which
    stays too large. *)
Theorem C55_build_again_refuted : exists s s', preload ex_alloc ex_gen 400 1 fresh = Ret tt s /\ build_cache ex_alloc ex_gen 400 1 s = Exc s' /\
  in_use s' = 196 /\ s_dmem s' = 392.
Proof. do 2 eexists. split; [vm_compute; reflexivity|]. split; [vm_compute; reflexivity|]. split; vm_compute; reflexivity. Qed.
(** After a failure the order can be lost: an entry too large empties the device, and later entry 2, the last one built,
    leaves before 3. *)
Definition ex_gen' (id : Z) : option devc := if id =? 7 then Some (mkdev (mkhost (repeat 0 100) [0] 1 [0]) 448 64 64) else ex_gen id.
Theorem C55_order_after_failure_refuted : exists obs s, hrun ex_alloc ex_gen' 400 [HGet 2; HGet 7; HGet 3; HGet 2; HGet 4] fresh = Some (obs, s) /\
  s_blog s = [2; 3; 2; 4] /\ map fst (s_cache s) = [3; 4].
Proof. do 2 eexists. split; [vm_compute; reflexivity|]. split; vm_compute; reflexivity. Qed.
Print Assumptions C55_answers.
Print Assumptions C55_memory.
Print Assumptions C55_generated_once.
Print Assumptions C55_oldest_first.
