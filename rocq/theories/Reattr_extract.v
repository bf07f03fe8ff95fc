(** Proofs for C44: the extraction on one rank. *)
From Verif Require Import Base Streams Serialize Containers Containers_spec Containers_proofs Layer Layer_spec Layer_proofs Layer_fields Layer_main
  PatchData PatchData_layer Patch Reattr Reattr_spec Reattr_local.
From Verif Require PatchData_proofs DDComm_group DDSer_proofs.
From Coq Require Import Permutation ZifyBool ZifyNat.
Local Open Scope nat_scope.

Section X.
Variables (lay : layout) (own : obj_t -> Z).
Hypothesis HG : good_layout lay.
Notation Lof := (Lof lay).

Definition cell (a b : Z) (os : list obj_t) : list (layer (list Z)) :=
  if (a =? b)%Z then [] else match filter (fun o => (own o =? b)%Z) os with [] => [] | l => [Lof l] end.

Lemma vals_map_key (k0 : key2) (M : layer (list Z)) px : length (dds_vals k0 px) = 1 -> forall k,
  dds_vals k (map (fun p => if k2_eqb k0 (fst p) then (fst p, M) else p) px) = if k2_eqb k0 k then [M] else dds_vals k px.
Proof.
  intros H k. assert (A : dds_vals k (map (fun p => if k2_eqb k0 (fst p) then (fst p, M) else p) px) = map (fun v => if k2_eqb k0 k then M else v) (dds_vals k px)).
  { clear H. unfold dds_vals. induction px as [|[q v] t IH]; [reflexivity|]. cbn [map filter fst snd]. destruct (k2_eqb k0 q) eqn:E0; cbn [fst snd]; destruct (k2_eqb k q) eqn:E1; cbn [map snd]; rewrite IH; auto.
    - apply k2_eqb_eq in E0, E1. subst. replace (k2_eqb q q) with true by (symmetry; now apply k2_eqb_eq). reflexivity.
    - apply k2_eqb_eq in E1. subst. now rewrite E0. }
  rewrite A. destruct (k2_eqb k0 k) eqn:E; [|apply map_id]. apply k2_eqb_eq in E. subst. destruct (dds_vals k px) as [|x [|y l]]; try discriminate. reflexivity.
Qed.
Lemma keys_map_key (k0 : key2) (M : layer (list Z)) px : map fst (map (fun p => if k2_eqb k0 (fst p) then (fst p, M) else p) px) = map fst px.
Proof. rewrite map_map. apply map_ext. intros [q v]. cbn [fst]. destruct (k2_eqb k0 q); reflexivity. Qed.
Lemma has_key_vals a b (px : dds (layer (list Z))) : dds_has_key a b px = match dds_vals (a, b) px with [] => false | _ => true end.
Proof.
  unfold dds_has_key, dds_vals. induction px as [|[q v] t IH]; [reflexivity|]. cbn [existsb filter fst]. destruct (k2_eqb (a, b) q); [reflexivity|exact IH].
Qed.

Lemma append_to_ok E cur new ids os px : good_envs E -> Forall (shaped lay) os -> fits lay (length os) -> valid_ids os ids -> fits lay (length ids) ->
  dds_vals (cur, new) px = [Lof []] ->
  append_to E cur new ids (Lof os) px = Ok (map (fun p => if k2_eqb (cur, new) (fst p) then (fst p, Lof (pick os ids)) else p) px).
Proof.
  intros HE HS HF HV HF2 HV1. unfold append_to. apply PatchData_proofs.rmapm_ok. intros [[a b] v] Hin. cbn [fst snd]. unfold k2_eqb at 1. cbn [fst snd].
  rewrite (Z.eqb_sym a cur), (Z.eqb_sym b new). destruct ((cur =? a)%Z && (new =? b)%Z) eqn:E2; [|reflexivity].
  assert (a = cur /\ b = new) as [-> ->] by lia. apply DDSer_proofs.vals_in in Hin. rewrite HV1 in Hin. destruct Hin as [<-|[]].
  rewrite (append_Lof lay HG E os [] ids); auto.
Qed.

Variables (uorder : Z -> list (Z * list nat) -> list (Z * list nat)).
Variables (Ea : Z -> Z -> lenv (list Z)) (Ek : Z -> lenv (list Z)).
Hypothesis HU : forall c l, Permutation (uorder c l) l.
Hypothesis HEa : forall a b, good_envs (Ea a b).
Hypothesis HEk : forall a, good_envs (Ek a).

Lemma fresh_Lof : PatchData.fresh lay = Lof [].
Proof. apply stores_eq. apply fresh_stores. Qed.

Lemma dd_find_notin {T} k (m : dd T) : ~ In k (map fst m) -> dd_find k m = None.
Proof. intros H. destruct (dd_find k m) eqn:E; auto. exfalso. apply H. apply dd_find_in. congruence. Qed.

Lemma ext_fold cur os : Forall (shaped lay) os -> fits lay (length os) -> forall l px, NoDup (map fst l) ->
  (forall n v, In (n, v) l -> valid_ids os v /\ fits lay (length v) /\ dds_vals (cur, n) px = []) -> dds_sorted px ->
  exists px', rfold (fun nv px => append_to (Ea cur (fst nv)) cur (fst nv) (snd nv) (Lof os)
            (if dds_has_key cur (fst nv) px then px else dds_add_obj cur (fst nv) (PatchData.fresh lay) px)) l px = Ok px' /\
    dds_sorted px' /\ length px' = length px + length l /\
    forall a b, dds_vals (a, b) px' = if (a =? cur)%Z then match dd_find b l with Some v => [Lof (pick os v)] | None => dds_vals (a, b) px end else dds_vals (a, b) px.
Proof.
  intros HS HF. induction l as [|[n v] l IH]; intros px ND HP HSo.
  - exists px. split; [reflexivity|]. split; auto. split; [cbn; lia|]. intros a b. cbn [dd_find]. destruct (a =? cur)%Z; reflexivity.
  - inversion ND as [|? ? N1 N2]; subst. destruct (HP n v (or_introl eq_refl)) as (V1 & V2 & V3). cbn [rfold fst snd]. rewrite has_key_vals, V3, fresh_Lof.
    pose proof (mm_insert_sorted (cur, n) (Lof []) px HSo) as S1. pose proof (fun k => mm_insert_vals (cur, n) (Lof []) px k HSo) as VV.
    unfold dds_add_obj. set (px1 := mm_insert (cur, n) (Lof []) px) in *.
    assert (V4 : dds_vals (cur, n) px1 = [Lof []]). { rewrite VV, V3. replace (k2_eqb (cur, n) (cur, n)) with true by (symmetry; now apply k2_eqb_eq). reflexivity. }
    rewrite append_to_ok by auto. cbn [rbind]. set (px2 := map _ px1).
    assert (W2 : forall k, dds_vals k px2 = if k2_eqb (cur, n) k then [Lof (pick os v)] else dds_vals k px). { intros k. unfold px2. rewrite vals_map_key by (rewrite V4; reflexivity). destruct (k2_eqb (cur, n) k) eqn:E; auto. rewrite VV. replace (k2_eqb k (cur, n)) with false; [apply app_nil_r|]. symmetry. unfold k2_eqb in *. cbn [fst snd] in *. lia. }
    destruct (IH px2 N2) as (px' & E & SS & LL & VF).
    { intros n' v' Hin. destruct (HP n' v' (or_intror Hin)) as (A1 & A2 & A3). split; auto. split; auto. rewrite W2. destruct (k2_eqb (cur, n) (cur, n')) eqn:E; auto. exfalso. apply N1. apply k2_eqb_eq in E. injection E as <-. now apply (in_map fst) in Hin. }
    { unfold dds_sorted, px2. rewrite keys_map_key. exact S1. }
    exists px'. split; [rewrite fresh_Lof in E; unfold dds_add_obj in E; exact E|]. split; auto. split.
    { rewrite LL. unfold px2, px1. rewrite map_length. rewrite (Permutation_length (DDSer_proofs.mm_insert_perm _ _ _)). cbn [length]. lia. }
    intros a b. rewrite VF, W2. cbn [dd_find]. unfold k2_eqb. cbn [fst snd]. rewrite (Z.eqb_sym cur a), (Z.eqb_sym n b). destruct (Z.eqb_spec a cur) as [->|]; cbn [andb]; auto.
    destruct (Z.eqb_spec b n) as [->|]; auto. rewrite dd_find_notin; auto.
Qed.

Lemma dd_find_In {T} k (v : T) m : NoDup (map fst m) -> dd_find k m = Some v <-> In (k, v) m.
Proof.
  induction m as [|[a b] t IH]; intros ND; [split; [discriminate|intros []]|]. inversion ND as [|? ? N1 N2]; subst. cbn [dd_find In]. destruct (Z.eqb_spec k a) as [->|NE].
  - split; [intros [= ->]; auto|]. intros [[= ->]|H]; auto. exfalso. apply N1. now apply (in_map fst) in H.
  - rewrite IH by auto. split; auto. intros [E|H]; auto. injection E as -> ->. congruence.
Qed.

Lemma extract_patch_ok cur os px : Forall (shaped lay) os -> fits lay (length os) -> dds_sorted px -> (forall b, dds_vals (cur, b) px = []) ->
  exists px', extract_patch lay uorder Ea Ek cur (map own os) (Lof os) px = Ok (Lof (filter (fun o => (own o =? cur)%Z) os), px') /\
    dds_sorted px' /\ length px' = length px + targets own (cur, os) /\
    forall a b, dds_vals (a, b) px' = if (a =? cur)%Z then cell cur b os else dds_vals (a, b) px.
Proof.
  intros HS HF HSo HN. unfold extract_patch. rewrite (cnt_Lof lay HG os HS HF). cbn [rbind]. destruct (split_loop_ok own cur os) as (ext & E & I1 & I2). rewrite E. cbn [rbind fst snd].
  assert (FL : forall n, fits lay (length (idx own os n (length os)))). { intros n. eapply PatchData_layer.fits_le; [|exact HF]. rewrite idx_len. apply filter_length_le. }
  pose proof (Permutation_map fst (HU cur ext)) as PM.
  assert (ND : NoDup (map fst (uorder cur ext))) by (eapply Permutation_NoDup; [symmetry; exact PM|auto]).
  destruct (ext_fold cur os HS HF (uorder cur ext) px ND) as (px' & EF & SF & LF & VF); auto.
  { intros n v Hin. apply (Permutation_in _ (HU cur ext)) in Hin. apply I2 in Hin as (_ & -> & _). split; [apply idx_valid|]. split; auto. }
  rewrite EF. cbn [rbind]. rewrite keep_Lof; auto using idx_valid. cbn [of_eres rbind]. rewrite pick_idx. exists px'. split; auto. split; auto. split.
  - rewrite LF, (Permutation_length (HU cur ext)). f_equal. unfold targets. cbn [fst snd]. rewrite <- (map_length fst ext). apply Permutation_length. apply NoDup_Permutation; auto using NoDup_nodup.
    intros n. rewrite nodup_In, filter_In, in_map_iff, in_map_iff. split.
    + intros ([n' v] & En & Hin). cbn [fst] in En. subst n'. apply I2 in Hin as (H1 & -> & H3). destruct (idx own os n (length os)) as [|i t] eqn:EI; [congruence|]. assert (Hi : In i (idx own os n (length os))) by (rewrite EI; now left).
      apply filter_In in Hi as [_ Hi]. destruct (nth_error os i) as [o|] eqn:Eo; [|discriminate]. split; [|apply negb_true_iff; now apply Z.eqb_neq]. exists o. split; [now apply Z.eqb_eq|]. now apply nth_error_In in Eo.
    + intros ((o & Eo & Ho) & Hn). exists (n, idx own os n (length os)). split; auto. apply I2. split; [now apply Z.eqb_neq, negb_true_iff|]. split; auto. intros EI. rewrite (idx_nil own os n (length os) (le_n _)) in EI. apply In_nth_error in Ho as (i & Hi). apply (EI i o); auto. apply nth_error_Some. congruence.
  - intros a b. rewrite VF. destruct (Z.eqb_spec a cur) as [->|]; auto. rewrite HN. unfold cell. destruct (dd_find b (uorder cur ext)) as [v|] eqn:ED.
    + apply (dd_find_In b v _ ND) in ED. apply (Permutation_in _ (HU cur ext)) in ED. apply I2 in ED as (H1 & -> & H3). destruct (Z.eqb_spec cur b); [congruence|]. rewrite pick_idx. destruct (filter _ os) eqn:EF2; auto. exfalso. apply H3. apply length_zero_iff_nil. rewrite idx_len, EF2. reflexivity.
    + destruct (Z.eqb_spec cur b); auto. destruct (filter (fun o => (own o =? b)%Z) os) eqn:EF2; auto. exfalso.
      assert (X : In (b, idx own os b (length os)) (uorder cur ext)). { apply (Permutation_in _ (Permutation_sym (HU cur ext))). apply I2. split; auto. split; auto. intros EN. pose proof (idx_len own os b) as L2. rewrite EN, EF2 in L2. discriminate. }
      apply (dd_find_In b _ _ ND) in X. congruence.
Qed.

(** ** All the patches of the rank *)
Definition lays (P : list (Z * list obj_t)) : dd (layer (list Z)) := map (fun p => (fst p, Lof (snd p))) P.
Definition np (P : list (Z * list obj_t)) : dd (list Z) := map (fun p => (fst p, map own (snd p))) (filter (fun p => match snd p with [] => false | _ => true end) P).
Definition kept (P : list (Z * list obj_t)) : list (Z * list obj_t) := map (fun p => (fst p, filter (fun o => (own o =? fst p)%Z) (snd p))) P.
Definition pok (p : Z * list obj_t) : Prop := Forall (shaped lay) (snd p) /\ fits lay (length (snd p)).

Lemma extract_ok P : Forall pok P -> dd_sorted P -> exists px, extract_elements lay uorder Ea Ek (np P) (lays P) = Ok (lays (kept P), px) /\
  dds_sorted px /\ length px = list_sum (map (targets own) P) /\
  forall a b, dds_vals (a, b) px = match dd_find a P with Some os => cell a b os | None => [] end.
Proof.
  intros HP HSo. unfold extract_elements, dd_for_each.
  assert (ND : NoDup (map fst P)) by (apply sorted_nodup; exact HSo).
  assert (FN : forall p, In p P -> snd p <> [] -> dd_get (fst p) (np P) = Ok (map own (snd p))).
  { intros p Hp Hn. unfold dd_get. assert (X : dd_find (fst p) (np P) = Some (map own (snd p))); [|now rewrite X]. apply dd_find_In.
    - unfold np. rewrite map_map. cbn [fst]. clear - ND. induction P as [|q t IH]; [constructor|]. inversion ND as [|? ? N1 N2]; subst. cbn [filter]. destruct (snd q); auto. cbn [map]. constructor; auto. intros Hin. apply N1. apply in_map_iff in Hin as (x & <- & Hx). apply filter_In in Hx as [Hx _]. now apply in_map.
    - unfold np. apply in_map_iff. exists p. split; auto. apply filter_In. split; auto. destruct (snd p); [congruence|auto]. }
  assert (G : forall Q D px, (exists pre, P = pre ++ Q) -> dds_sorted px -> (forall a b, In a (map fst Q) -> dds_vals (a, b) px = []) ->
    exists px', rfold (fun p st => e <- l_is_empty (snd p) ;; if e : bool then Ok (fst st ++ [p], snd st) else
        nid <- dd_get (fst p) (np P) ;; lp <- extract_patch lay uorder Ea Ek (fst p) nid (snd p) (snd st) ;; Ok (fst st ++ [(fst p, fst lp)], snd lp)) (lays Q) (D, px) = Ok (D ++ lays (kept Q), px') /\
      dds_sorted px' /\ length px' = length px + list_sum (map (targets own) Q) /\
      forall a b, dds_vals (a, b) px' = match dd_find a Q with Some os => cell a b os | None => dds_vals (a, b) px end).
  { induction Q as [|[c os] Q IH]; intros D px (pre & EP) SP VP.
    - exists px. cbn [lays map rfold kept]. rewrite app_nil_r. split; [reflexivity|]. split; [exact SP|]. split; [cbn; lia|]. intros; reflexivity.
    - assert (IN : In (c, os) P) by (rewrite EP; apply in_app_iff; right; now left). pose proof HP as HP'. rewrite Forall_forall in HP'. destruct (HP' _ IN) as [A1 A2]. cbn [snd] in A1, A2.
      assert (NC : ~ In c (map fst Q)). { clear - ND EP. rewrite EP, map_app in ND. apply NoDup_remove_2 in ND. intros H. apply ND. apply in_app_iff. now right. }
      cbn [lays map rfold fst snd kept]. rewrite (empty_Lof lay HG os A1 A2). cbn [rbind]. destruct os as [|o os'] eqn:EO.
      + cbn [fst snd filter]. destruct (IH (D ++ [(c, Lof [])]) px) as (px' & E & S1 & L1 & V1); auto.
        { exists (pre ++ [(c, [])]). rewrite <- app_assoc. exact EP. } { intros a b Ha. apply VP. now right. }
        exists px'. split; [etransitivity; [exact E|]; rewrite <- app_assoc; reflexivity|]. split; auto. split; [rewrite L1; cbn [map]; rewrite DDComm_prep.list_sum_cons; reflexivity|].
        intros a b. rewrite V1. cbn [dd_find]. destruct (Z.eqb_spec a c) as [->|]; auto. rewrite dd_find_notin by auto. rewrite VP by now left. unfold cell. cbn [filter]. destruct (c =? b)%Z; reflexivity.
      + rewrite <- EO in *. pose proof (FN (c, os) IN) as FN1. cbn [fst snd] in FN1. rewrite FN1 by (rewrite EO; discriminate). cbn [rbind fst snd].
        destruct (extract_patch_ok c os px A1 A2 SP) as (px1 & E1 & S1 & L1 & V1). { intros b. apply VP. now left. }
        rewrite E1. cbn [rbind fst snd].
        destruct (IH (D ++ [(c, Lof (filter (fun o => (own o =? c)%Z) os))]) px1) as (px' & E & S2 & L2 & V2); auto.
        { exists (pre ++ [(c, os)]). rewrite <- app_assoc. exact EP. }
        { intros a b Ha. rewrite V1. destruct (Z.eqb_spec a c) as [->|]; [contradiction|]. apply VP. now right. }
        exists px'. split; [etransitivity; [exact E|]; rewrite <- app_assoc; reflexivity|]. split; auto. split; [rewrite L2, L1; cbn [map]; rewrite DDComm_prep.list_sum_cons; lia|].
        intros a b. rewrite V2, V1. cbn [dd_find]. destruct (Z.eqb_spec a c) as [->|]; auto. now rewrite dd_find_notin by auto. }
  destruct (G P [] [] (ex_intro _ [] eq_refl)) as (px & E & A & B & C). { constructor. } { reflexivity. }
  exists px. split; [exact E|]. split; [exact A|]. split; [exact B|]. intros a b. rewrite C. destruct (dd_find a P); reflexivity.
Qed.

(** ** compute_new_pid *)
Variables (ipos pos_ty : nat) (owner : Z -> list (list Z) -> res (list Z)).
Hypothesis HPos : nth_error lay ipos = Some (pos_ty, 1).
Lemma column1_len (os : list obj_t) : Forall (shaped lay) os -> length (column ipos os) = length os.
Proof.
  intros H. unfold column. induction H as [|o os Ho _ IH]; [reflexivity|]. cbn [flat_map]. rewrite app_length, IH. pose proof (shaped_row lay o ipos _ _ Ho HPos). cbn [length]. lia.
Qed.
Lemma err_loop (nid : list Z) : forall n b, n <= length nid -> rfold (fun i err => v <- aget nid i ;; Ok (err || (v =? u64_max)%Z)%bool) (seq 0 n) b = Ok (b || existsb (fun v => (v =? u64_max)%Z) (firstn n nid))%bool.
Proof.
  induction n as [|n IH]; intros b H; [cbn; now rewrite orb_false_r|]. rewrite seq_S, rfold_app, IH by lia. cbn [rbind rfold Nat.add].
  destruct (nth_error nid n) as [v|] eqn:E; [|apply nth_error_None in E; lia]. assert (EA : aget nid n = Ok v) by (now apply aget_ok). rewrite EA. cbn [rbind]. f_equal. rewrite <- orb_assoc. f_equal.
  assert (X : firstn (S n) nid = firstn n nid ++ [v]). { clear - E. revert nid E. induction n as [|n IH]; intros [|x t] E; try discriminate; cbn [nth_error] in E. - injection E as ->. reflexivity. - cbn [firstn app]. f_equal. now apply IH. }
  rewrite X, existsb_app. cbn [existsb]. now rewrite orb_false_r.
Qed.
Lemma np_main P : Forall pok P -> dd_sorted P -> (forall p, In p P -> snd p <> [] -> owner (fst p) (column ipos (snd p)) = Ok (map own (snd p))) ->
  (Forall (fun p => Forall (fun o => own o <> u64_max) (snd p)) P -> compute_new_pid ipos pos_ty owner (lays P) = Ok (np P)) /\
  (Exists (fun p => Exists (fun o => own o = u64_max) (snd p)) P -> compute_new_pid ipos pos_ty owner (lays P) = Throw).
Proof.
  intros HP HSo HO. unfold compute_new_pid, dd_for_each.
  set (body := fun p m => _).
  assert (ST : forall c os m, In (c, os) P -> Forall (fun x => x < c)%Z (map fst m) -> body (c, Lof os) m =
     match os with [] => Ok m | _ => if existsb (fun o => (own o =? u64_max)%Z) os then Throw else Ok (m ++ [(c, map own os)]) end).
  { intros c os m IN FL. pose proof HP as HP'. rewrite Forall_forall in HP'. destruct (HP' _ IN) as [A1 A2]. cbn [snd] in A1, A2. unfold body. cbn [fst snd]. rewrite (empty_Lof lay HG os A1 A2). cbn [rbind]. destruct os as [|o os'] eqn:EO; [reflexivity|].
    rewrite <- EO in *. assert (EA : aget (Lof os) ipos = Ok (Field pos_ty 1 (column ipos os))) by (apply aget_ok; apply (Lof_nth lay os ipos _ HPos)). rewrite EA. cbn [rbind f_ty f_nvar]. rewrite !Nat.eqb_refl. cbn [negb].
    pose proof (field_cnt lay HG os ipos (pos_ty, 1) A1 A2 HPos) as FC. cbn [fst snd] in FC. rewrite FC. cbn [rbind f_buf]. rewrite firstn_all2 by (rewrite (column1_len os A1); auto).
    pose proof (HO _ IN) as HO1. cbn [fst snd] in HO1. rewrite HO1 by (rewrite EO; discriminate). cbn [rbind]. unfold dd_add_obj. rewrite (emplace_last c (map own os) m FL). cbn [rbind]. rewrite (cnt_Lof lay HG os A1 A2). cbn [rbind].
    rewrite err_loop by (rewrite map_length; auto). cbn [rbind]. rewrite firstn_all2 by (rewrite map_length; auto).
    assert (EX : existsb (fun v => (v =? u64_max)%Z) (map own os) = existsb (fun o => (own o =? u64_max)%Z) os). { clear. induction os; cbn [existsb map]; congruence. }
    cbn [orb]. rewrite EX. destruct (existsb _ os); reflexivity. }
  assert (G : forall Q m, (exists pre, P = pre ++ Q) -> (forall x, In x (map fst m) -> forall q, In q Q -> (x < fst q)%Z) ->
     (Forall (fun p => Forall (fun o => own o <> u64_max) (snd p)) Q -> rfold body (lays Q) m = Ok (m ++ np Q)) /\
     (Exists (fun p => Exists (fun o => own o = u64_max) (snd p)) Q -> rfold body (lays Q) m = Throw)).
  { induction Q as [|[c os] Q IH]; intros m (pre & EP) FL.
    - split; [cbn; now rewrite app_nil_r|]. intros H. inversion H.
    - assert (IN : In (c, os) P) by (rewrite EP; apply in_app_iff; right; now left). cbn [lays map rfold fst snd].
      rewrite (ST c os m IN) by (apply Forall_forall; intros x Hx; apply (FL x Hx (c, os)); now left).
      assert (LT : forall q, In q Q -> (c < fst q)%Z). { intros q Hq. unfold dd_sorted in HSo. rewrite EP, map_app in HSo. cbn [map fst] in HSo. clear - HSo Hq. induction (map fst pre) as [|x l IHl]; cbn [app] in HSo; inversion HSo as [|? ? S1 S2]; subst; auto. rewrite Forall_forall in S2. apply S2. now apply in_map. }
      assert (EXT : exists pre', P = pre' ++ Q) by (exists (pre ++ [(c, os)]); rewrite <- app_assoc; exact EP).
      destruct os as [|o os'] eqn:EO.
      + cbn [rbind]. destruct (IH m EXT) as [I1 I2]. { intros x Hx q Hq. apply FL; auto. now right. }
        split. { intros H. inversion H; subst. unfold np. cbn [filter snd]. apply I1. auto. }
        intros H. apply I2. inversion H as [? ? Hx|]; subst; auto. inversion Hx.
      + rewrite <- EO in *. assert (NP : np ((c, os) :: Q) = (c, map own os) :: np Q) by (rewrite EO; reflexivity).
        destruct (existsb (fun o => (own o =? u64_max)%Z) os) eqn:EX.
        * split; [|intros _; cbn [rbind]; reflexivity]. intros H. exfalso. apply Forall_inv in H. cbn [snd] in H. apply existsb_exists in EX as (o1 & H1 & H2). rewrite Forall_forall in H. apply (H o1 H1). now apply Z.eqb_eq.
        * cbn [rbind]. destruct (IH (m ++ [(c, map own os)]) EXT) as [I1 I2].
          { intros x Hx q Hq. rewrite map_app in Hx. apply in_app_iff in Hx as [Hx|[<-|[]]]; [apply FL; auto; now right|]. cbn [fst]. auto. }
          split.
          -- intros H. inversion H; subst. rewrite NP. unfold lays in I1. rewrite I1 by auto. now rewrite <- app_assoc.
          -- intros H. apply I2. apply Exists_cons in H as [Hx|Hx]; [|exact Hx]. exfalso. cbn [snd] in Hx. apply Exists_exists in Hx as (o1 & H1 & H2). assert (EX2 : existsb (fun o => (own o =? u64_max)%Z) os = true); [|congruence]. apply existsb_exists. exists o1. split; auto. now apply Z.eqb_eq. }
  apply (G P [] (ex_intro _ [] eq_refl)). intros x [].
Qed.
End X.
