(** One scheduler step preserves the well formed states, the objects and the covered domain. *)
From Verif Require Import Base Patch Patch_spec Patch_proofs PatchTree PatchTree_spec PatchTree_proofs
  Sched Sched_spec Sched_change_proofs Sched_proofs Sched_step_proofs Sched_merge_proofs.
Local Open Scope Z_scope.

Lemma nodup_length (N : Z) (l : list Z) : NoDup l -> (forall x, In x l -> 0 <= x < N) -> 0 <= N -> Z.of_nat (length l) <= N.
Proof.
  intros ND H HN.
  assert (X : (length l <= length (map Z.of_nat (seq 0 (Z.to_nat N))))%nat).
  { apply NoDup_incl_length; auto. intros x Hx. apply in_map_iff. exists (Z.to_nat x). specialize (H x Hx).
    split; [lia|]. apply in_seq. lia. }
  rewrite map_length, seq_length in X. lia.
Qed.

Section Main.
Variable obj : Type.
Variable pos : obj -> v3.
Variable W : nat.
Notation sched := (sched obj).
Notation sched_ok := (sched_ok obj pos W).
Notation world := (world_objects obj W).
Notation covered := (covered obj W).
Notation valid := (valid_patch W).
Notation validb := (validb W).
Notation idx_complete := (idx_complete obj).

Lemma filter_all {A} (f : A -> bool) l : (forall a, In a l -> f a = true) -> filter f l = l.
Proof.
  induction l as [|a l IH]; intros H; cbn [filter]; auto. rewrite (H a (or_introl eq_refl)). f_equal. apply IH. intros; apply H; right; auto.
Qed.

Lemma global_bound s : sched_ok s -> Z.of_nat (length (s_global _ s)) <= u64_max.
Proof.
  intros I. pose proof (so_next _ _ _ _ I) as Hn.
  rewrite <- (map_length p_id). 
  destruct (s_global _ s) as [|p g] eqn:E.
  - cbn. clear. vm_compute. discriminate.
  - assert (0 <= s_next _ s).
    { assert (X : In p (s_global _ s)) by (rewrite E; left; auto). apply (so_ids _ _ _ _ I) in X. clear -X. lia. }
    rewrite <- E. etransitivity; [|exact (proj2 Hn)]. apply nodup_length; auto.
    + apply (so_nodup _ _ _ _ I).
    + intros x Hx. apply in_map_iff in Hx. destruct Hx as (q & <- & Hq). now apply (so_ids _ _ _ _ I).
Qed.

(** Packing makes siblings follow the first of them. *)
Definition pack_follow (s : sched) (rq : list Z) : Prop :=
  forall owners y k i i0, In y rq -> sib obj s y k i -> sib obj s y 0 i0 ->
    final_owner (s_global _ s) owners i = nth i0 owners 0.

Definition fl (loads : Z -> Z) (p : patch) : patch := set_load (loads (p_id p)) (set_pack u64_max p).

Lemma global_ok (s : sched) loads t m : sched_ok s -> lsim (s_tree _ s) t ->
  let g1 := build_global W loads (s_global _ s) in
  let s1 := Sched obj t g1 (s_next _ s) m (s_data _ s) in
  sched_ok s1 /\ Permutation (world s1) (world s) /\ (forall pt, covered s1 pt <-> covered s pt) /\
  (forall p, In p g1 <-> exists q, In q (s_global _ s) /\ valid q /\ p = fl loads q).
Proof.
  intros I Lt g1 s1.
  assert (Pg1 : Permutation g1 (map (fl loads) (filter validb (s_global _ s)))) by apply build_global_perm.
  assert (Hf : forall p, p_id (fl loads p) = p_id p /\ p_box (fl loads p) = p_box p /\ p_owner (fl loads p) = p_owner p) by (intros; auto).
  destruct (relabel_ok obj pos W s (fl loads) g1 t m I Hf Pg1 Lt) as (A & B & C).
  split; [exact A|]. split; [exact B|]. split; [exact C|].
  intros p. rewrite Pg1, in_map_iff. split; intros (q & X & Y).
  - apply filter_In in Y. exists q. rewrite <- validb_spec. destruct Y. auto.
  - destruct Y as (Y & ->). exists q. split; auto. apply filter_In. rewrite validb_spec. auto.
Qed.

Lemma step_split_ok (cs cm : Z) loads ord_s ord_m omp balance net (s : sched) :
  sched_ok s -> step_params obj W cs cm loads ord_s ord_m omp balance net s ->
  let s1 := Sched obj (s_tree _ s) (build_global W loads (s_global _ s)) (s_next _ s) (s_idx _ s) (s_data _ s) in
  exists s' rq, step_split obj pos W cs cm ord_s ord_m s1 = Ok (s', rq) /\
    sched_ok s' /\ Permutation (world s') (world s) /\ (forall pt, covered s' pt <-> covered s pt) /\
    idx_complete s' /\ (forall p, In p (s_global _ s') -> valid p) /\ packs_ok (s_global _ s') /\
    NoDup rq /\ (forall y, In y rq -> In y (t_ponly (s_tree _ s'))) /\ pack_follow s' rq.
Proof.
  intros I PP s0.
  set (g1 := build_global W loads (s_global _ s)) in s0.
  set (m1 := build_global_idx_map g1).
  destruct (global_ok s loads (s_tree _ s) m1 I (lsim_refl _)) as (I1 & _ & _ & In1). fold g1 in I1, In1.
  set (s1 := Sched obj (s_tree _ s) g1 (s_next _ s) m1 (s_data _ s)) in *.
  assert (Idx1 : idx_complete s1) by (intros i p Hp; apply build_idx_complete; [exact (so_nodup _ _ _ _ I1)|exact Hp]).
  destruct (reduction_ok obj pos W s1 loads I1 Idx1) as (t & Et & Lt & Lleaf & Lpar); auto.
  { intros p Hp. apply In1 in Hp. destruct Hp as (q & _ & _ & ->). reflexivity. }
  { apply (sp_loads _ _ _ _ _ _ _ _ _ _ _ PP). }
  destruct (global_ok s loads t m1 I Lt) as (I2 & W2 & C2 & _). fold g1 in I2, W2, C2.
  set (s2 := Sched obj t g1 (s_next _ s) m1 (s_data _ s)) in *.
  assert (TI2 : tree_ok t) by exact (so_tree _ _ _ _ I2).
  (* requests *)
  destruct (request_spec (fun l => cs <? l) t (t_leaf t)) as (rs & Ers & Nrs & Lrs & Hrs).
  { intros x Hx. apply (ok_leaf _ TI2) in Hx. destruct Hx as (n & Hn & _). eauto. }
  destruct (request_spec (fun l => l <? cm) t (t_ponly t)) as (rm & Erm & Nrm & _ & Hrm).
  { intros x Hx. apply (ok_ponly _ TI2) in Hx. destruct Hx as (n & Hn & _). eauto. }
  specialize (Nrs (proj1 (proj2 (ok_nodup _ TI2)))). specialize (Nrm (proj2 (proj2 (ok_nodup _ TI2)))).
  pose proof (sp_ord_s _ _ _ _ _ _ _ _ _ _ _ PP rs) as Ps. pose proof (sp_ord_m _ _ _ _ _ _ _ _ _ _ _ PP rm) as Pm.
  assert (ElT : t_leaf t = t_leaf (s_tree _ s)) by (destruct Lt as (_ & Q & _); exact (eq_sym Q)).
  assert (EnT : t_next t = t_next (s_tree _ s)) by (destruct Lt as (_ & _ & _ & Q & _); exact (eq_sym Q)).
  assert (EpT : t_ponly t = t_ponly (s_tree _ s)) by (destruct Lt as (_ & _ & Q & _); exact (eq_sym Q)).
  destruct (splits_ok obj pos W (ord_s rs) s2 I2) as (s3 & E3 & I3 & W3 & C3 & V3 & K3).
  { intros id i Hi. apply build_idx_sound; [exact (so_nodup _ _ _ _ I2)|exact Hi]. }
  { apply (Permutation_NoDup (Permutation_sym Ps) Nrs). }
  { intros x Hx. apply (Permutation_in _ Ps) in Hx. apply Hrs in Hx. destruct Hx as (Hx & n & Hn & Hld).
    apply (ok_leaf _ TI2) in Hx. destruct Hx as (n' & Hn' & Hl). assert (n' = n) by congruence. subst n'.
    destruct (so_leaf _ _ _ _ I2 x n Hn Hl) as (p & Hp & Vp & Hlk & Hbx).
    exists n. split; auto. split; auto. split.
    - rewrite <- Hbx. change (s_global obj s2) with g1 in Hp. pose proof (Lleaf x n p Hn Hl Hp Hlk) as Hlo.
      apply In1 in Hp. destruct Hp as (q & Q1 & Q2 & ->). cbn [fl p_box set_load set_pack].
      apply (sp_split _ _ _ _ _ _ _ _ _ _ _ PP q Q1 Q2). apply Z.ltb_lt in Hld. rewrite Hlo in Hld. exact Hld.
    - destruct (In_nth_error _ _ Hp) as (i & Hi). exists (p_id p), i. split; auto. apply Idx1. exact Hi. }
  { change (s_tree obj s2) with t. rewrite EnT. etransitivity; [|exact (sp_tree_ids _ _ _ _ _ _ _ _ _ _ _ PP)].
    rewrite (Permutation_length Ps). rewrite ElT in Lrs. clear -Lrs. lia. }
  { change (s_next obj s2) with (s_next obj s). etransitivity; [|exact (sp_patch_ids _ _ _ _ _ _ _ _ _ _ _ PP)].
    rewrite (Permutation_length Ps). rewrite ElT in Lrs. clear -Lrs. lia. }
  { intros p Hp. apply In1 in Hp. destruct Hp as (q & _ & Vq & ->). auto. }
  assert (Mrq : forall y, In y (ord_m rm) -> In y (t_ponly (s_tree _ s3))).
  { intros y Hy. apply (Permutation_in _ Pm) in Hy. apply Hrm in Hy. destruct Hy as (Hy & ny & Hny & Hly). apply K3; auto.
    intros x n Hx Hn Hpar. apply (Permutation_in _ Ps) in Hx. apply Hrs in Hx. destruct Hx as (Hx & n' & Hn' & Hlx).
    change (s_tree obj s2) with t in Hn. assert (n' = n) by congruence. subst n'.
    assert (Hu : n_parent n <> u64_max).
    { rewrite Hpar. apply (ok_ids _ TI2) in Hny. pose proof (ok_next _ TI2) as Q. clear -Hny Q. lia. }
    destruct (ok_parent _ TI2 x n Hn Hu) as (_ & q & Q1 & Q2 & Q3). rewrite Hpar, Hny in Q1. injection Q1 as <-.
    assert (Hle : n_load n <= n_load ny) by (apply (Lpar y ny x n); auto; change (s_tree obj s1) with (s_tree obj s); now rewrite <- EpT).
    pose proof (sp_crit _ _ _ _ _ _ _ _ _ _ _ PP) as Hc. apply Z.ltb_lt in Hly, Hlx. clear -Hle Hc Hly Hlx. lia. }
  (* rebuild of the index map, packing *)
  set (m4 := build_global_idx_map (s_global _ s3)).
  set (s4 := Sched obj (s_tree _ s3) (s_global _ s3) (s_next _ s3) m4 (s_data _ s3)).
  assert (V4 : forall p, In p (s_global _ s4) -> valid p) by (intros p Hp; apply (V3 p Hp)).
  assert (I4 : sched_ok s4) by (destruct I3; constructor; assumption).
  assert (Idx4 : idx_complete s4) by (intros i p Hp; apply build_idx_complete; [exact (so_nodup _ _ _ _ I4)|exact Hp]).
  destruct (pack_ok obj pos W s4 (ord_m rm) I4 Idx4) as (g5 & E5 & Pk5).
  { apply (Permutation_NoDup (Permutation_sym Pm) Nrm). }
  { exact Mrq. }
  { intros p Hp. apply (V3 p Hp). }
  pose proof (packed_ok obj pos W s4 (ord_m rm) g5 I4 Pk5 Mrq) as Pok.
  destruct Pk5 as (Len5 & Nth5).
  set (s5 := Sched obj (s_tree _ s4) g5 (s_next _ s4) m4 (s_data _ s4)).
  set (fp := fun p => match m4 (p_id p) with
                      | Some i => match nth_error g5 i with Some q => set_pack (p_pack q) p | None => p end
                      | None => p end).
  assert (G5 : g5 = map fp (s_global _ s4)).
  { apply list_eq_nth_error. intros i. rewrite nth_error_map. destruct (nth_error (s_global _ s4) i) as [p|] eqn:Ep; cbn [option_map].
    - destruct (Nth5 i p Ep) as (v & Hv & _). rewrite Hv. f_equal. unfold fp.
      assert (Hm : m4 (p_id p) = Some i) by exact (Idx4 i p Ep). rewrite Hm, Hv. reflexivity.
    - apply nth_error_None. apply nth_error_None in Ep. lia. }
  assert (Hfp : forall p, p_id (fp p) = p_id p /\ p_box (fp p) = p_box p /\ p_owner (fp p) = p_owner p).
  { intros p. unfold fp. destruct (m4 (p_id p)) as [i|]; auto. destruct (nth_error g5 i); auto. }
  assert (I5 := relabel_ok obj pos W s4 fp g5 (s_tree _ s4) m4 I4 Hfp). cbv zeta in I5.
  destruct I5 as (I5 & W5 & C5); auto.
  { rewrite filter_all; [rewrite G5; reflexivity|]. intros p Hp. apply validb_spec. auto. }
  { apply lsim_refl. }
  fold s5 in I5, W5, C5.
  assert (V5 : forall p, In p g5 -> valid p).
  { intros p Hp. rewrite G5 in Hp. apply in_map_iff in Hp. destruct Hp as (q & <- & Hq). unfold valid_patch.
    destruct (Hfp q) as (_ & _ & ->). now apply V4. }
  exists s5, (ord_m rm).
  split.
  { unfold step_split. cbn [s0 s_global s_tree s_next s_data]. fold m1.
    change (partial_values_reduction (load_of m1 g1) (s_tree obj s) = Ok t) in Et. rewrite Et. cbn [rbind].
    unfold get_split_request, get_merge_request. rewrite Ers. cbn [rbind]. rewrite Erm. cbn [rbind].
    fold s2. rewrite E3. cbn [rbind]. fold m4. fold s4. rewrite E5. reflexivity. }
  split; [exact I5|]. split.
  { rewrite W5. change (world s4) with (world s3). now rewrite W3, W2. }
  split.
  { intros pt. rewrite C5. change (covered s4 pt) with (covered s3 pt). now rewrite C3, C2. }
  split.
  { intros i p Hp. cbn [s5 s_global s_idx] in *. rewrite G5 in Hp. rewrite nth_error_map in Hp.
    destruct (nth_error (s_global _ s4) i) as [q|] eqn:Eq; [|discriminate]. injection Hp as <-.
    destruct (Hfp q) as (-> & _). apply Idx4. exact Eq. }
  split; [exact V5|]. split; [exact Pok|]. split; [apply (Permutation_NoDup (Permutation_sym Pm) Nrm)|].
  split; [exact Mrq|].
  intros owners y k i i0 Hy Hs5 H05.
  assert (Sib : forall y k i, sib obj s5 y k i -> sib obj s4 y k i).
  { intros y1 k1 j (n & c & mm & p & A1 & A2 & A3 & A4 & A5 & A6 & A7). cbn [s5 s_global s_tree] in *.
    rewrite G5, nth_error_map in A7. destruct (nth_error (s_global _ s4) j) as [q|] eqn:Eq; [|discriminate].
    injection A7 as <-. destruct (Hfp q) as (Hid & _). exists n, c, mm, q. rewrite Hid in A6. auto 10. }
  pose proof (Sib _ _ _ Hs5) as Hs. pose proof (Sib _ _ _ H05) as H0. cbn [s5 s_global].
  assert (exists p, nth_error (s_global _ s4) i = Some p) as (p & Hp).
  { destruct Hs as (? & ? & ? & p & ? & ? & ? & ? & ? & ? & ?). eauto. }
  destruct (Nth5 i p Hp) as (v & Hv & Hcase). unfold final_owner. rewrite Hv. cbn [set_pack p_pack].
  destruct Hcase as [(-> & Hk)|(y' & k' & i0' & Hy' & Hk' & Hs' & H0' & ->)].
  - rewrite Z.eqb_refl. assert (k = 0%nat) by eauto. subst k. now rewrite (sib_idx obj pos W s4 y 0 i i0 I4 Hs H0).
  - destruct (sib_fun obj pos W s4 y k i y' k' I4 Hs Hs') as (<- & <-).
    rewrite <- (sib_idx obj pos W s4 y 0 i0 i0' I4 H0 H0').
    assert (Hb : (i0 < length (s_global _ s4))%nat).
    { destruct H0 as (? & ? & ? & q & ? & ? & ? & ? & ? & ? & Hq). eapply nth_error_lt; eauto. }
    pose proof (global_bound s4 I4) as Gb.
    destruct (Z.eqb_spec (Z.of_nat i0) u64_max) as [E|_]; [exfalso; clear -E Gb Hb; lia|].
    now rewrite Nat2Z.id.
Qed.

(** Migration: every patch goes to the owner the table gives to it, with its objects, and nobody
    else holds it. *)
Lemma balance_ok omp balance net (s : sched) :
  sched_ok s -> (forall p, In p (s_global _ s) -> valid p) -> packs_ok (s_global _ s) ->
  (forall n, Permutation (omp n) (seq 0 n)) -> (forall l, Permutation (net l) l) ->
  (forall g, length (balance g) = length g) -> (forall g o, In o (balance g) -> 0 <= o < Z.of_nat W) ->
  exists s', step_balance obj W omp balance net s = Ok s' /\
    sched_ok s' /\ Permutation (world s') (world s) /\ (forall pt, covered s' pt <-> covered s pt) /\
    s_tree _ s' = s_tree _ s /\ s_idx _ s' = s_idx _ s /\ length (s_global _ s') = length (s_global _ s) /\
    (forall i p, nth_error (s_global _ s) i = Some p ->
       nth_error (s_global _ s') i = Some (set_owner (final_owner (s_global _ s) (balance (s_global _ s)) i) p)) /\
    (forall i p r, nth_error (s_global _ s) i = Some p -> 0 <= r < Z.of_nat W ->
       s_data _ s' r (p_id p) =
         if r =? final_owner (s_global _ s) (balance (s_global _ s)) i then s_data _ s (p_owner p) (p_id p) else None).
Proof.
  intros I V Pok Ho Hn Hbl Hbv. set (owners := balance (s_global _ s)).
  destruct (make_change_list_ok W (omp (length (s_global _ s))) (s_global _ s) owners V (Hbl _) (Hbv _) Pok (Ho _))
    as (ops & Eops & O1 & O2 & O3 & O4).
  destruct (change_ok obj pos W net s ops (final_owner (s_global _ s) owners) I V Hn O1 O2 O3 O4)
    as (g6 & d6 & E6 & Len6 & Nth6 & D6 & K6).
  { intros i Hi. apply final_in; auto. unfold owners. apply Hbl. unfold owners. apply Hbv. }
  specialize (K6 (s_idx _ s)). cbv zeta in K6. destruct K6 as (I6 & W6 & C6).
  eexists. split.
  { unfold step_balance. fold owners. rewrite Eops. cbn [rbind]. rewrite E6. cbn [rbind]. reflexivity. }
  cbn [s_tree s_global s_next s_idx s_data]. split; [exact I6|]. split; [exact W6|]. split; [exact C6|]. split; [reflexivity|]. split; [reflexivity|].
  split; [exact Len6|]. split; [exact Nth6|exact D6].
Qed.

Lemma merge_rq_ok (s : sched) rq : Z.of_nat W <= u32_max -> sched_ok s -> NoDup rq ->
  (rq = [] \/ idx_complete s) ->
  (forall y, In y rq -> In y (t_ponly (s_tree _ s)) /\ same_owner obj s y) ->
  exists s', merge_patches obj rq s = Ok s' /\ sched_ok s' /\ Permutation (world s') (world s) /\
    (forall pt, covered s' pt <-> covered s pt).
Proof.
  intros HW I N [-> | Hi] H.
  - exists s. split; auto. split; auto. split; auto. tauto.
  - apply (merges_ok obj pos W HW rq s I Hi N H).
Qed.

Theorem scheduler_step_ok sm lb (cs cm : Z) loads ord_s ord_m omp balance net (s : sched) :
  sched_ok s -> step_params obj W cs cm loads ord_s ord_m omp balance net s -> step_flags W sm lb ->
  exists s', scheduler_step obj pos W sm lb cs cm loads ord_s ord_m omp balance net s = Ok s' /\
    sched_ok s' /\ Permutation (world s') (world s) /\ (forall pt, covered s' pt <-> covered s pt).
Proof.
  intros I PP Fl.
  set (s1 := Sched obj (s_tree _ s) (build_global W loads (s_global _ s)) (s_next _ s) (s_idx _ s) (s_data _ s)).
  assert (P1 : exists s2 rq, (if sm then step_split obj pos W cs cm ord_s ord_m s1 else Ok (s1, [])) = Ok (s2, rq) /\
    sched_ok s2 /\ Permutation (world s2) (world s) /\ (forall pt, covered s2 pt <-> covered s pt) /\
    (rq = [] \/ idx_complete s2) /\ (forall p, In p (s_global _ s2) -> valid p) /\ packs_ok (s_global _ s2) /\
    NoDup rq /\ (forall y, In y rq -> In y (t_ponly (s_tree _ s2))) /\ pack_follow s2 rq /\ (sm = false -> rq = [])).
  { destruct sm.
    - destruct (step_split_ok cs cm loads ord_s ord_m omp balance net s I PP) as (s2 & rq & E & A1 & A2 & A3 & A4 & A5 & A6 & A7 & A8 & A9).
      exists s2, rq. split; [exact E|]. repeat (split; [assumption||(right; assumption)|]). discriminate.
    - destruct (global_ok s loads (s_tree _ s) (s_idx _ s) I (lsim_refl _)) as (I1 & W1 & C1 & In1). fold s1 in I1, W1, C1.
      exists s1, []. split; [reflexivity|]. split; [exact I1|]. split; [exact W1|]. split; [exact C1|]. split; [left; auto|].
      split. { intros p Hp. apply In1 in Hp. destruct Hp as (q & _ & Vq & ->). exact Vq. }
      split. { intros i p Hp Hpk. apply nth_error_In in Hp. apply In1 in Hp. destruct Hp as (q & _ & _ & ->). exfalso. now apply Hpk. }
      split; [constructor|]. split; [intros y []|]. split; [intros ? ? ? ? ? []|]. auto. }
  destruct P1 as (s2 & rq & E2 & I2 & W2 & C2 & X2 & V2 & K2 & N2 & M2 & F2 & Z2).
  assert (P2 : exists s3, (if lb then step_balance obj W omp balance net s2 else Ok s2) = Ok s3 /\
    sched_ok s3 /\ Permutation (world s3) (world s2) /\ (forall pt, covered s3 pt <-> covered s2 pt) /\
    (rq = [] \/ idx_complete s3) /\ forall y, In y rq -> In y (t_ponly (s_tree _ s3)) /\ same_owner obj s3 y).
  { destruct lb.
    - destruct (balance_ok omp balance net s2 I2 V2 K2 (sp_omp _ _ _ _ _ _ _ _ _ _ _ PP) (sp_net _ _ _ _ _ _ _ _ _ _ _ PP)
        (sp_bal_len _ _ _ _ _ _ _ _ _ _ _ PP) (sp_bal _ _ _ _ _ _ _ _ _ _ _ PP)) as (s3 & E3 & I3 & W3 & C3 & T3 & J3 & L3 & Nth3 & _).
      set (owners := balance (s_global _ s2)) in *.
      exists s3. split; [exact E3|]. split; [exact I3|]. split; [exact W3|]. split; [exact C3|].
      assert (Inv : forall i q, nth_error (s_global _ s3) i = Some q ->
         exists p, nth_error (s_global _ s2) i = Some p /\ p_id q = p_id p /\ p_owner q = final_owner (s_global _ s2) owners i).
      { intros i q Hq. destruct (nth_error (s_global _ s2) i) as [p|] eqn:Ep.
        - exists p. rewrite (Nth3 i p Ep) in Hq. injection Hq as <-. auto.
        - apply nth_error_None in Ep. apply nth_error_lt in Hq. rewrite L3 in Hq. lia. }
      split.
      { destruct X2 as [X2|X2]; [left; auto|right]. intros i q Hq. destruct (Inv i q Hq) as (p & Hp & -> & _). rewrite J3. apply X2. auto. }
      intros y Hy. rewrite T3. split; [auto|]. intros n c c' m m' p p' B1 B2 B3 B4 B5 B6 B7 B8 B9. rewrite T3 in *.
      destruct X2 as [-> |X2]; [contradiction|].
      pose proof (M2 y Hy) as Hyp.
      destruct (proj1 (ok_ponly _ (so_tree _ _ _ _ I2) y) Hyp) as (n' & Hn' & Hl' & Hc'). assert (n' = n) by congruence. subst n'.
      destruct (siblings obj pos W s2 y n I2 X2 Hyp B1) as (ids & is & ps & S1 & S2 & S3 & S4 & S5 & S6 & S7 & S8 & S9 & S10 & S11).
      assert (Hlen := Forall2_length' _ _ _ S3).
      destruct is as [|i0 rest]; [cbn in Hlen; lia|]. assert (H0 : sib obj s2 y 0 i0) by (apply S10; reflexivity).
      assert (Ow : forall c m p, In c (n_childs n) -> t_map (s_tree _ s2) c = Some m -> In p (s_global _ s3) -> n_linked m = Some (p_id p) ->
         p_owner p = nth i0 owners 0).
      { intros c1 mm p1 H1 H2 H3 H4. destruct (In_nth_error _ _ H3) as (i & Hi). destruct (Inv i p1 Hi) as (q & Q1 & Q2 & ->).
        destruct (In_nth_error _ _ H1) as (k & Hk). apply (F2 owners y k i i0); auto.
        destruct (Hc' c1 H1) as (m2 & Hm2 & Hlf). assert (m2 = mm) by congruence. subst m2.
        exists n, c1, mm, q. rewrite <- Q2. auto 10. }
      rewrite (Ow c m p), (Ow c' m' p'); auto.
    - exists s2. split; [reflexivity|]. split; [exact I2|]. split; [reflexivity|]. split; [tauto|]. split; [exact X2|].
      intros y Hy. split; [auto|]. destruct sm; [|rewrite (Z2 eq_refl) in Hy; contradiction].
      destruct (Fl eq_refl) as [Fb|HW]; [discriminate|].
      intros n c c' m m' p p' B1 B2 B3 B4 B5 B6 B7 B8 B9. apply V2 in B6, B7. unfold valid_patch in B6, B7. clear -B6 B7 HW. rewrite HW in *. cbn in *. lia. }
  destruct P2 as (s3 & E3 & I3 & W3 & C3 & X3 & M3).
  assert (P3 : exists s4, (if sm then merge_patches obj rq s3 else Ok s3) = Ok s4 /\
    sched_ok s4 /\ Permutation (world s4) (world s3) /\ (forall pt, covered s4 pt <-> covered s3 pt)).
  { destruct sm.
    - apply merge_rq_ok; auto. apply (sp_world _ _ _ _ _ _ _ _ _ _ _ PP).
    - exists s3. split; [reflexivity|]. split; [exact I3|]. split; [reflexivity|tauto]. }
  destruct P3 as (s4 & E4 & I4 & W4 & C4).
  eexists. split.
  { unfold scheduler_step. fold s1. rewrite E2. cbn [rbind]. rewrite E3. cbn [rbind]. rewrite E4. cbn [rbind]. reflexivity. }
  split; [destruct I4; constructor; assumption|]. split.
  - change (Permutation (world s4) (world s)). now rewrite W4, W3, W2.
  - intros pt. change (covered s4 pt <-> covered s pt). now rewrite C4, C3, C2.
Qed.
End Main.
