(** The layers of a rank refine the lists of objects of Sched.v. *)
From Coq Require Import Reals Lra.
From Flocq Require Import Core BinarySingleNaN.
From Verif Require Import Base Par Scan Scan_spec Reduction Layer Layer_spec
  Patch Patch_spec Patch_proofs PatchTree Sched Sched_spec Sched_proofs F64 Domain Domain_spec Domain_cell Domain_f64 Domain_u64
  PatchData PatchData_spec PatchData_layer PatchData_proofs PatchData_inst.
From Coq Require Import ZifyBool ZifyNat.
Local Open Scope Z_scope.

Section R.
Context {A : Type}.
Variable (lay : layout).

Lemma same_some (da : dmap (object A)) d k os : same_data lay da d -> da k = Some os ->
  exists L, d k = Some L /\ stores lay os L /\ fits lay (length os).
Proof. intros H E. specialize (H k). rewrite E in H. destruct (d k); [eauto|contradiction]. Qed.
Lemma same_none (da : dmap (object A)) d k : same_data lay da d -> da k = None -> d k = None.
Proof. intros H E. specialize (H k). rewrite E in H. destruct (d k); auto. contradiction. Qed.

Lemma split_refines (cellof : object A -> v3) (da : dmap (object A)) (d : owned (A := A)) key b ps os m :
  same_data lay da d -> da key = Some os -> replaces d key b ps ->
  (Forall (fun o => in_box (cellof o) b) os /\
   exists d', m = Ret d' /\
     (forall i p, nth_error ps i = Some p -> exists M, d' (p_id p) = Some M /\ stores lay (filter (fun o => in_boxb (cellof o) (p_box p)) os) M) /\
     (forall k, ~ In k (map p_id ps) -> d' k = if k =? key then None else d k)) \/
  (Exists (fun o => ~ in_box (cellof o) b) os /\ m = Raise d) ->
  (exists da' d', split_patchdata (object A) cellof key ps da = Ok da' /\ m = Ret d' /\ same_data lay da' d') \/
  (split_patchdata (object A) cellof key ps da = Throw /\ m = Raise d).
Proof.
  intros HS Ho (Hb & Eb & ND & HN) H. unfold split_patchdata. rewrite Ho. cbn zeta. rewrite Eb, (merge_split b Hb). cbn [rbind].
  destruct (same_some _ _ _ _ HS Ho) as (L & Ed & SL & FL).
  rewrite <- (map_map p_box (fun c => filter (fun o => in_boxb (cellof o) c) os)), Eb.
  pose proof (get_split_partition b Hb) as (P1 & P2).
  destruct H as [(FA & d' & -> & D1 & D2)|(EX & ->)].
  - left. assert (PE : Permutation (concat (map (fun c => filter (fun o => in_boxb (cellof o) c) os) (get_split b))) os).
    { apply split_objs; auto. intros o Hin. apply P1. eapply Forall_forall in FA; eauto. }
    rewrite (Permutation_length PE), Nat.eqb_refl. cbn [negb andb].
    rewrite <- Eb, map_map.
    destruct (d_adds (object A) (combine ps (map (fun p => filter (fun o => in_boxb (cellof o) (p_box p)) os) ps)) (d_set _ da key None)) as (da' & R & A1 & A2).
    + assert (EQ : map (fun x : patch * list (object A) => p_id (fst x)) (combine ps (map (fun p => filter (fun o => in_boxb (cellof o) (p_box p)) os) ps)) = map p_id ps).
      { clear. induction ps; cbn; [auto|]. now f_equal. }
      now rewrite EQ.
    + intros [p part] Hin. pose proof (in_combine_l _ _ _ _ Hin) as Hp. cbn [fst]. unfold d_set.
      destruct (p_id p =? key) eqn:Ek; auto. destruct (HN p Hp) as [Q|Q]; [lia|].
      specialize (HS (p_id p)). rewrite Q in HS. destruct (da (p_id p)); [contradiction|auto].
    + assert (EQ : map (fun x : patch * list (object A) => p_id (fst x)) (combine ps (map (fun p => filter (fun o => in_boxb (cellof o) (p_box p)) os) ps)) = map p_id ps).
      { clear. induction ps; cbn; [auto|]. now f_equal. }
      exists da', d'. split; [exact R|]. split; auto. intros k. rewrite EQ in A2.
      destruct (in_dec Z.eq_dec k (map p_id ps)) as [I|I].
      * apply in_map_iff in I as (p & <- & Hp). destruct (In_nth_error _ _ Hp) as (i & Ni). destruct (D1 i p Ni) as (M & E1 & E2).
        rewrite E1. rewrite (A1 p (filter (fun o => in_boxb (cellof o) (p_box p)) os)).
        2:{ clear -Hp. induction ps as [|q ps IH]; [contradiction|]. cbn. destruct Hp as [->|Hp]; auto. }
        split; auto. eapply fits_le; [|apply FL]. apply filter_length_le.
      * rewrite A2, D2 by auto. unfold d_set. destruct (k =? key); auto. apply HS.
  - right. split; auto.
    assert (LT : (length (concat (map (fun c => filter (fun o => in_boxb (cellof o) c) os) (get_split b))) < length os)%nat).
    { set (Q := filter (fun o => in_boxb (cellof o) b) os).
      assert (PE : Permutation (concat (map (fun c => filter (fun o => in_boxb (cellof o) c) os) (get_split b))) Q).
      { erewrite map_ext_in; [apply (split_objs (object A) cellof (get_split b) Q P2)|].
        - intros o Hin. apply filter_In in Hin as (_ & Hin). apply in_boxb_spec in Hin. now apply P1.
        - intros c Hc. cbn. symmetry. apply filter_filter. intros o _ Hc'. apply in_boxb_spec. apply in_boxb_spec in Hc'. apply P1. eauto. }
      rewrite (Permutation_length PE). subst Q. clear -EX. induction EX as [o os Hn|o os Hn IH]; cbn [filter length].
      - destruct (in_boxb (cellof o) b) eqn:Eb; [apply in_boxb_spec in Eb; tauto|].
        pose proof (filter_length_le (fun o => in_boxb (cellof o) b) os). lia.
      - destruct (in_boxb (cellof o) b); cbn [length]; lia. }
    replace (length os =? _)%nat with false by (symmetry; apply Nat.eqb_neq; lia). cbn [negb andb].
    replace (forallb _ os) with false; [reflexivity|]. symmetry. apply not_true_is_false. intros FB. rewrite forallb_forall in FB.
    apply Exists_exists in EX as (o & Hin & No). apply No. apply in_boxb_spec. now apply FB.
Qed.

Lemma gets_same (da : dmap (object A)) d keys : same_data lay da d ->
  (exists oss, d_gets _ da keys = Ok (concat oss) /\ Forall2 (fun k os => exists L, d k = Some L /\ stores lay os L) keys oss) \/
  (d_gets _ da keys = Throw /\ exists k, In k keys /\ d k = None).
Proof.
  intros HS. induction keys as [|k keys IH]; cbn [d_gets].
  - left. exists []. split; auto.
  - pose proof (HS k) as Hk. destruct (da k) as [os|], (d k) as [L|] eqn:Ed; try contradiction.
    + destruct IH as [(oss & E & F)|(E & k' & Hk' & En)].
      * left. exists (os :: oss). rewrite E. cbn [rbind concat]. split; auto. constructor; auto. exists L. split; auto. apply Hk.
      * right. rewrite E. split; auto. exists k'. split; auto. now right.
    + right. split; auto. exists k. split; auto. now left.
Qed.
Lemma merge_refines (E : nat -> lenv A) (da : dmap (object A)) (d : owned (A := A)) new keys :
  (forall k, good_envs (E k)) -> good_layout lay -> same_data lay da d -> (In new keys \/ da new = None) ->
  (forall os, d_gets _ da keys = Ok os -> fits lay (length os)) ->
  (exists da' d', merge_patchdata (object A) new keys da = Ok da' /\ pd_merge lay E new keys d = Ret d' /\ same_data lay da' d') \/
  (merge_patchdata (object A) new keys da = Throw /\ pd_merge lay E new keys d = Raise d).
Proof.
  intros HE HG HS HN HF. unfold merge_patchdata. destruct (gets_same da d keys HS) as [(oss & E1 & F)|(E1 & X)].
  - left. rewrite E1. cbn [rbind]. specialize (HF _ E1).
    destruct (pd_merge_ok lay E new keys d oss HE HG HF F) as (d' & M & R & D1 & D2 & D3).
    { destruct HN as [HN|HN]; auto. right. eapply same_none; eauto. }
    assert (FE : forall ks (dd : dmap (object A)) x, fold_left (fun d k => d_set _ d k None) ks dd x = if existsb (Z.eqb x) ks then None else dd x).
    { induction ks as [|k ks IH]; intros dd x; [reflexivity|]. cbn [fold_left existsb]. rewrite IH. unfold d_set.
      destruct (x =? k); cbn [orb]; auto. destruct (existsb _ ks); auto. }
    unfold d_add. rewrite FE. replace (if existsb (Z.eqb new) keys then None else da new) with (@None (list (object A))).
    2:{ destruct (existsb (Z.eqb new) keys) eqn:Ee; auto. destruct HN as [HI|HI]; auto.
        assert (existsb (Z.eqb new) keys = true) by (apply existsb_exists; exists new; split; auto; apply Z.eqb_refl). congruence. }
    eexists _, d'. split; [reflexivity|]. split; auto. intros k. unfold d_set at 1. destruct (k =? new) eqn:Ek.
    + apply Z.eqb_eq in Ek. subst k. rewrite D1. split; auto.
    + rewrite FE, D3 by lia. destruct (existsb (Z.eqb k) keys); auto. apply HS.
  - right. rewrite E1. split; auto. now apply pd_merge_missing.
Qed.

Variables (lay' : layout) (ty0 : nat).
Hypothesis Hlay : lay = (ty0, 1%nat) :: lay'.
Lemma float_refines (posv : A -> vec3 f64) fma g box : grid_ok g -> box_ok box -> good_layout lay ->
  exists cellof : object A -> v3,
    (forall o c, shaped lay o -> inside c g -> (main_is o (fun v => f_contains fma g box c (posv v)) <-> in_box (cellof o) c)) /\
    forall E (da : dmap (object A)) d key b ps os, (forall k, good_envs (E k)) -> same_data lay da d -> da key = Some os ->
      replaces d key b ps -> inside b g ->
      (exists da' d', split_patchdata (object A) cellof key ps da = Ok da' /\
         pd_split f_leb f_ltb posv (patch_coord_to_domain fma g box) lay E key ps d = Ret d' /\ same_data lay da' d') \/
      (split_patchdata (object A) cellof key ps da = Throw /\
       pd_split f_leb f_ltb posv (patch_coord_to_domain fma g box) lay E key ps d = Raise d).
Proof.
  intros HG HB HL. exists (f_objcell posv fma g box). split; [now apply (f_objcell_spec lay lay' ty0 Hlay)|].
  intros E da d key b ps os HE HS Ho HR Hi. destruct (same_some _ _ _ _ HS Ho) as (L & Ed & SL & FL).
  apply (split_refines (f_objcell posv fma g box) da d key b ps os); auto.
  now apply (split_float_cell lay lay' ty0 Hlay posv fma g box E key d ps b os L).
Qed.
Lemma int_refines (posv : A -> vec3 Z) g box : grid_ok g -> ibox_ok box -> commensurable g box -> is_err_range_u64 box = false ->
  good_layout lay ->
  exists cellof : object A -> v3,
    (forall o c, shaped lay o -> inside c g -> (main_is o (fun v => i_contains g box c (posv v)) <-> in_box (cellof o) c)) /\
    forall E (da : dmap (object A)) d key b ps os, (forall k, good_envs (E k)) -> same_data lay da d -> da key = Some os ->
      replaces d key b ps -> inside b g ->
      (exists da' d', split_patchdata (object A) cellof key ps da = Ok da' /\
         pd_split Z.leb Z.ltb posv (patch_coord_to_domain_u64 g box) lay E key ps d = Ret d' /\ same_data lay da' d') \/
      (split_patchdata (object A) cellof key ps da = Throw /\
       pd_split Z.leb Z.ltb posv (patch_coord_to_domain_u64 g box) lay E key ps d = Raise d).
Proof.
  intros HG HB HC HEr HL. destruct (proj1 (make_crt_u64_iff g box HG HB) HC) as (t & Et).
  assert (Ec : crt_u64_of g box = Ok t) by (unfold crt_u64_of; now rewrite HEr).
  exists (i_objcell posv t g box). split; [now apply (i_objcell_spec lay lay' ty0 Hlay)|].
  intros E da d key b ps os HE HS Ho HR Hi. destruct (same_some _ _ _ _ HS Ho) as (L & Ed & SL & FL).
  apply (split_refines (i_objcell posv t g box) da d key b ps os); auto.
  now apply (split_int_cell lay lay' ty0 Hlay posv t g box E key d ps b os L).
Qed.
End R.
