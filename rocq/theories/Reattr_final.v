(** Proofs for C44: the whole reattribution. *)
From Verif Require Import Base Streams Serialize Serialize_spec Containers Containers_spec Containers_proofs Layer Layer_spec Layer_proofs Layer_fields Layer_main
  PatchData PatchData_layer Patch SparseXchg SparseXchg_spec DDComm DDComm_spec DDSer DDSer_spec LayerSer LayerSer_spec LayerSer_proofs Reattr Reattr_spec Reattr_local Reattr_extract Reattr_main.
From Verif Require PatchData_proofs DDComm_group DDSer_proofs DDComm_main DDComm_final.
From Coq Require Import Permutation ZifyBool ZifyNat.
Local Open Scope nat_scope.

Lemma typed_Lof tsz lay os : Forall (otyped tsz lay) os -> typed tsz (Lof lay os).
Proof.
  intros H. unfold typed, Lof. apply Forall_map. apply Forall_forall. intros [k [ty nv]] Hin. cbn [f_ty f_buf].
  apply DDComm_main.combine_seq_in in Hin as (j & -> & Hj). cbn [Nat.add]. apply Forall_forall. intros v Hv. unfold column in Hv. apply in_flat_map in Hv as (o & Ho & Hv).
  rewrite Forall_forall in H. specialize (H o Ho). unfold otyped in H. destruct (DDComm_final.Forall2_nth_l _ _ _ _ _ H Hj) as (row & Hr & F). cbn [fst] in F.
  rewrite (nth_error_nth _ _ _ Hr) in Hv. rewrite Forall_forall in F. now apply F.
Qed.
Lemma layer_bytes_mono tsz lay m n : m <= n -> layer_bytes tsz lay m <= layer_bytes tsz lay n.
Proof.
  intros H. unfold layer_bytes. apply Nat.add_le_mono_l. induction lay as [|d l IH]; [reflexivity|]. cbn [map]. rewrite !DDComm_prep.list_sum_cons.
  apply Nat.add_le_mono; [|exact IH]. apply Nat.add_le_mono_l. apply DDSer_proofs.al8_mono. apply Nat.mul_le_mono_r, Nat.mul_le_mono_r, H.
Qed.

Section W.
Variables (lay : layout) (ipos pos_ty : nat) (tsz : nat -> nat).
Variable owner : nat -> Z -> list (list Z) -> res (list Z).
Variable uorder : nat -> Z -> list (Z * list nat) -> list (Z * list nat).
Variables (Ea : nat -> Z -> Z -> lenv (list Z)) (Ek : nat -> Z -> lenv (list Z)) (Ei : nat -> Z -> Z -> lenv (list Z)).
Variables (ssch : nat -> nat -> nat -> nat -> list nat) (sjunk : nat -> nat -> nat -> Z).
Variables (dsch : nat -> nat -> nat -> nat -> list nat) (djunk : nat -> nat -> nat -> list Z).
Variable rg : Z -> Z.
Variables (own : obj_t -> Z) (Ps : list (list (Z * list obj_t))) (all : list (Z * list obj_t)).
Hypothesis HW : world tsz lay rg Ps all.
Hypothesis HPos : nth_error lay ipos = Some (pos_ty, 1).
Hypothesis HO : forall r P p, nth_error Ps r = Some P -> In p P -> snd p <> [] -> owner r (fst p) (column ipos (snd p)) = Ok (map own (snd p)).
Hypothesis HU : forall r c l, Permutation (uorder r c l) l.
Hypothesis HEa : forall r a b, good_envs (Ea r a b).
Hypothesis HEk : forall r a, good_envs (Ek r a).
Hypothesis HEi : forall r a b, good_envs (Ei r a b).
Hypothesis HSs : forall r i, fair_sched (ssch r i).
Hypothesis HDs : forall r i, fair_sched (dsch r i).
Notation Lof := (Lof lay).
Notation lays := (lays lay).
Let HG : good_layout lay := w_layout _ _ _ _ _ HW.

Lemma in_rank r P p : nth_error Ps r = Some P -> In p P -> In p all.
Proof. intros H Hp. destruct (w_all _ _ _ _ _ HW) as [HA _]. apply (Permutation_in _ (Permutation_sym HA)). apply in_concat. exists P. split; auto. eapply nth_error_In; eauto. Qed.
Lemma in_all p : In p all -> exists r P, nth_error Ps r = Some P /\ In p P /\ rg (fst p) = Z.of_nat r.
Proof.
  intros H. destruct (w_all _ _ _ _ _ HW) as [HA _]. apply (Permutation_in _ HA) in H. apply in_concat in H as (P & HP & Hp). apply In_nth_error in HP as (r & Hr). exists r, P. split; auto. split; auto.
  destruct (w_rank _ _ _ _ _ HW r P Hr) as [_ F]. rewrite Forall_forall in F. now apply F.
Qed.
Lemma all_nd : NoDup (map fst all).
Proof. apply sorted_nodup. apply (w_all _ _ _ _ _ HW). Qed.
Lemma pok_all p : In p all -> pok lay p.
Proof.
  intros H. pose proof (w_objs _ _ _ _ _ HW) as F. pose proof (w_fits _ _ _ _ _ HW) as F2. rewrite Forall_forall in F, F2. split; [|now apply F2]. specialize (F p H). eapply Forall_impl; [|exact F]. now intros o [A _].
Qed.

Definition ext (r : nat) (d : dd (layer (list Z))) : res (dd (layer (list Z)) * dds (layer (list Z))) :=
  np <- compute_new_pid ipos pos_ty (owner r) d ;; extract_elements lay (uorder r) (Ea r) (Ek r) np d.
Lemma np_rank r P : nth_error Ps r = Some P ->
  (Forall (fun p => Forall (fun o => own o <> u64_max) (snd p)) P -> compute_new_pid ipos pos_ty (owner r) (lays P) = Ok (np own P)) /\
  (Exists (fun p => Exists (fun o => own o = u64_max) (snd p)) P -> compute_new_pid ipos pos_ty (owner r) (lays P) = Throw).
Proof.
  intros HP. apply (np_main lay own HG (uorder r) (Ea r) (Ek r) (HU r) (HEa r) (HEk r) ipos pos_ty (owner r) HPos P).
  - apply Forall_forall. intros p Hp. apply pok_all. eapply in_rank; eauto.
  - apply (w_rank _ _ _ _ _ HW r P HP).
  - intros p Hp Hn. eapply HO; eauto.
Qed.
Definition px_ok (P : list (Z * list obj_t)) (px : dds (layer (list Z))) : Prop :=
  dds_sorted px /\ length px = list_sum (map (targets own) P) /\
  forall a b, dds_vals (a, b) px = match dd_find a P with Some os => cell lay own a b os | None => [] end.
Lemma ext_rank r P : nth_error Ps r = Some P -> Forall (fun p => Forall (fun o => own o <> u64_max) (snd p)) P ->
  exists px, ext r (lays P) = Ok (lays (kept own P), px) /\ px_ok P px.
Proof.
  intros HP HN. destruct (np_rank r P HP) as [E _]. unfold ext. rewrite (E HN). cbn [rbind].
  apply (extract_ok lay own HG (uorder r) (Ea r) (Ek r) (HU r) (HEa r) (HEk r) P).
  - apply Forall_forall. intros p Hp. apply pok_all. eapply in_rank; eauto.
  - apply (w_rank _ _ _ _ _ HW r P HP).
Qed.

(** ** An object without patch *)
Lemma begin_throw sched junk max_mem max_comm : Exists (fun p => Exists (fun o => own o = u64_max) (snd p)) all ->
  reattr_begin lay ipos pos_ty tsz owner uorder Ea Ek ssch sjunk rg sched junk max_mem max_comm (map lays Ps) = Throw.
Proof.
  intros H. unfold reattr_begin. assert (X : imapm ext (map lays Ps) = Throw).
  { apply DDComm_main.imapm_throw.
    - intros r d Hd. rewrite nth_error_map in Hd. destruct (nth_error Ps r) as [P|] eqn:EP; [|discriminate]. injection Hd as <-.
      destruct (Forall_Exists_dec (fun p => Forall (fun o => own o <> u64_max) (snd p)) (fun p => Forall_dec (fun o => own o <> u64_max) (fun o => match Z.eq_dec (own o) u64_max with left e => right (fun n => n e) | right n => left n end) (snd p)) P) as [D|D].
      + destruct (ext_rank r P EP D) as (px & E & _). rewrite E. discriminate.
      + unfold ext. destruct (np_rank r P EP) as [_ E]. rewrite E; [discriminate|]. eapply Exists_impl; [|exact D]. intros p Hp. clear - Hp. cbn beta in Hp. induction (snd p) as [|o l IH]; [exfalso; apply Hp; constructor|].
        destruct (Z.eq_dec (own o) u64_max); [now left|right]. apply IH. intros F. apply Hp. now constructor.
    - apply Exists_exists in H as (p & Hp & HE). destruct (in_all p Hp) as (r & P & HP & Hp2 & _). exists r, (lays P). split; [now rewrite nth_error_map, HP|].
      unfold ext. destruct (np_rank r P HP) as [_ E]. rewrite E; [reflexivity|]. apply Exists_exists. eauto. }
  unfold ext in X. rewrite X. reflexivity.
Qed.

(** ** All objects have a patch *)
Hypothesis HH : homes lay own all.
Lemma no_err r P : nth_error Ps r = Some P -> Forall (fun p => Forall (fun o => own o <> u64_max) (snd p)) P.
Proof.
  intros HP. apply Forall_forall. intros p Hp. apply Forall_forall. intros o Ho E. pose proof (h_home _ _ _ HH) as F. rewrite Forall_forall in F. specialize (F p (in_rank r P p HP Hp)). rewrite Forall_forall in F. specialize (F o Ho).
  rewrite E in F. apply in_map_iff in F as (q & Eq & Hq). pose proof (w_ids _ _ _ _ _ HW) as I. rewrite Forall_forall in I. specialize (I q Hq). lia.
Qed.
Definition ex_ok (ex : list (dd (layer (list Z)) * dds (layer (list Z)))) : Prop :=
  length ex = length Ps /\ forall r P e, nth_error Ps r = Some P -> nth_error ex r = Some e -> fst e = lays (kept own P) /\ px_ok P (snd e).
Lemma ext_all : exists ex, imapm ext (map lays Ps) = Ok ex /\ ex_ok ex.
Proof.
  destruct (DDComm_main.imapm_ok ext (fun e => e) (fun r d e => exists P, d = lays P /\ nth_error Ps r = Some P /\ fst e = lays (kept own P) /\ px_ok P (snd e)) (map lays Ps)) as (ex & E & L & Q).
  - intros r d Hd. rewrite nth_error_map in Hd. destruct (nth_error Ps r) as [P|] eqn:EP; [|discriminate]. injection Hd as <-. destruct (ext_rank r P EP (no_err r P EP)) as (px & E & H). exists (lays (kept own P), px). split; auto. exists P. cbn [fst snd]. auto.
  - rewrite map_id in E. rewrite map_length in L. exists ex. split; auto. split; auto. intros r P e HP He. destruct (Q r (lays P) e) as (P' & _ & HP' & A & B); auto. { now rewrite nth_error_map, HP. } assert (P' = P) by congruence. subst P'. auto.
Qed.

Section E.
Variable ex : list (dd (layer (list Z)) * dds (layer (list Z))).
Hypothesis HX : ex_ok ex.
Let sends := map snd ex.
Lemma sends_nth r send : nth_error sends r = Some send -> exists P, nth_error Ps r = Some P /\ px_ok P send.
Proof.
  unfold sends. rewrite nth_error_map. destruct (nth_error ex r) as [e|] eqn:EE; [|discriminate]. intros [= <-]. destruct HX as [LX QX]. destruct (nth_error Ps r) as [P|] eqn:EP.
  - exists P. split; auto. now destruct (QX r P e EP EE).
  - apply nth_error_None in EP. assert (r < length ex) by (apply nth_error_Some; congruence). lia.
Qed.
Lemma sends_len : length sends = length Ps. Proof. unfold sends. rewrite map_length. apply HX. Qed.
Lemma px_entry P px a b v : px_ok P px -> dd_sorted P -> In ((a, b), v) px -> exists os, In (a, os) P /\ a <> b /\ filter (fun o => (own o =? b)%Z) os <> [] /\ v = Lof (filter (fun o => (own o =? b)%Z) os).
Proof.
  intros (_ & _ & V) HS H. apply DDSer_proofs.vals_in in H. rewrite V in H. destruct (dd_find a P) as [os|] eqn:E; [|destruct H]. exists os. split; [apply dd_find_In; auto; now apply sorted_nodup|].
  unfold cell in H. destruct (Z.eqb_spec a b); [destruct H|]. split; auto. destruct (filter _ os) as [|o l]; [destruct H|]. destruct H as [<-|[]]. split; [discriminate|reflexivity].
Qed.
Lemma home b os a : In (a, os) all -> filter (fun o => (own o =? b)%Z) os <> [] -> In b (map fst all).
Proof.
  intros H NE. destruct (filter _ os) as [|o l] eqn:E; [congruence|]. assert (Ho : In o (filter (fun o => (own o =? b)%Z) os)) by (rewrite E; now left). apply filter_In in Ho as [Ho Hb]. apply Z.eqb_eq in Hb. subst b.
  pose proof (h_home _ _ _ HH) as F. rewrite Forall_forall in F. specialize (F _ H). cbn [snd] in F. rewrite Forall_forall in F. now apply F.
Qed.
Lemma rg_range b : In b (map fst all) -> (0 <= b < u64_max)%Z /\ (0 <= rg b < Z.of_nat (length Ps))%Z.
Proof.
  intros H. apply in_map_iff in H as (q & <- & Hq). destruct (in_all q Hq) as (r & P & HP & _ & E). pose proof (w_ids _ _ _ _ _ HW) as F. rewrite Forall_forall in F. split; [now apply F|]. rewrite E. assert (r < length Ps) by (apply nth_error_Some; congruence). lia.
Qed.
Lemma sends_ids : ids_ok rg sends.
Proof.
  split; [rewrite sends_len; apply (w_ranks _ _ _ _ _ HW)|]. split.
  - assert (X : length (concat sends) = list_sum (map (targets own) all)); [|rewrite X; apply (h_targets _ _ _ HH)].
    destruct (w_all _ _ _ _ _ HW) as [HA _]. rewrite (DDSer_proofs.list_sum_perm _ _ (Permutation_map (targets own) HA)).
    assert (G : forall r, nth_error sends r = None \/ exists P px, nth_error sends r = Some px /\ nth_error Ps r = Some P /\ length px = list_sum (map (targets own) P)).
    { intros r. destruct (nth_error sends r) as [px|] eqn:E; auto. right. destruct (sends_nth r px E) as (P & HP & (_ & L & _)). eauto 6. }
    pose proof sends_len as SL. revert G SL. generalize sends. generalize Ps. clear. intros L. induction L as [|P L IH]; intros [|s l] G SL; try discriminate; [reflexivity|].
    cbn [concat]. rewrite app_length, map_app, DDComm_prep.list_sum_app. f_equal.
    + destruct (G 0) as [E|(P' & px & E1 & E2 & E3)]; [discriminate|]. cbn in E1, E2. injection E1 as <-. injection E2 as <-. auto.
    + apply IH; [|now injection SL]. intros r. destruct (G (S r)) as [E|(P' & px & E1 & E2 & E3)]; [now left|]. right. eauto.
  - intros r send Hs. destruct (sends_nth r send Hs) as (P & HP & PX). split; [apply PX|]. apply Forall_forall. intros [[a b] v] Hin. cbn [fst snd].
    destruct (w_rank _ _ _ _ _ HW r P HP) as [SP FP]. destruct (px_entry P send a b v PX SP Hin) as (os & I & _ & NE & _). pose proof (in_rank r P _ HP I) as IA.
    destruct (rg_range b (home b os a IA NE)) as [B1 B2]. assert (IA2 : In a (map fst all)) by (apply (in_map fst) in IA; exact IA). destruct (rg_range a IA2) as [A1 _]. rewrite Forall_forall in FP. specialize (FP _ I). cbn [fst] in FP.
    unfold u64_max in *. rewrite sends_len. split; [lia|]. split; [lia|]. split; [exact FP|exact B2].
Qed.
Lemma sends_ser r0 : ser_ok (fun r i => l_serialize tsz (ssch r i) (sjunk r i)) (fun j => l_deserialize tsz (dsch r0 j) (djunk r0 j) lay) rg sends.
Proof.
  intros send [[a b] v] Hs Hp _ r i. cbn [snd]. apply In_nth_error in Hs as (rr & Hr). destruct (sends_nth rr send Hr) as (P & HP & PX). destruct (w_rank _ _ _ _ _ HW rr P HP) as [SP _].
  destruct (px_entry P send a b v PX SP Hp) as (os & I & _ & _ & ->). pose proof (in_rank rr P _ HP I) as IA. set (f := filter _ os).
  pose proof (w_objs _ _ _ _ _ HW) as FO. pose proof (w_fits _ _ _ _ _ HW) as FF. rewrite Forall_forall in FO, FF. specialize (FO _ IA). specialize (FF _ IA). cbn [snd] in FO, FF. destruct FF as [F1 F2].
  assert (LE : length f <= length os) by apply filter_length_le. assert (SUB : Forall (fun o => shaped lay o /\ otyped tsz lay o) f). { apply Forall_forall. intros o Ho. apply filter_In in Ho as [Ho _]. rewrite Forall_forall in FO. now apply FO. }
  pose proof (layer_bytes_mono tsz lay _ _ LE) as LB.
  destruct (stores_roundtrip tsz lay f (Lof f) (ssch r i) (sjunk r i)) as (bb & E1 & E2 & E3); auto.
  - apply stores_Lof. eapply Forall_impl; [|exact SUB]. now intros o [A _].
  - eapply PatchData_layer.fits_le; [|exact F1]. exact LE.
  - apply typed_Lof. eapply Forall_impl; [|exact SUB]. now intros o [_ A].
  - lia.
  - exists bb. split; [exact E1|]. split; [unfold small; rewrite E2; lia|]. intros j. apply E3. apply HDs.
Qed.
Lemma recv_cell r a b : received rg sends r (a, b) = if (rg b =? Z.of_nat r)%Z then match dd_find a all with Some os => cell lay own a b os | None => [] end else [].
Proof.
  unfold received. cbn [snd]. destruct (rg b =? Z.of_nat r)%Z; auto. destruct (dd_find a all) as [os|] eqn:E.
  - apply (dd_find_In a os all all_nd) in E. destruct (in_all _ E) as (ra & P & HP & Hp & Er). cbn [fst] in Er. destruct (nth_error sends ra) as [send|] eqn:ES.
    + rewrite (DDSer_proofs.only_holder rg sends sends_ids (a, b) ra send ES Er). destruct (sends_nth ra send ES) as (P' & HP' & (_ & _ & V)). assert (P' = P) by congruence. subst P'. rewrite V.
      destruct (w_rank _ _ _ _ _ HW ra P HP) as [SP _]. apply (dd_find_In a os P (sorted_nodup _ SP)) in Hp. now rewrite Hp.
    + apply nth_error_None in ES. rewrite sends_len in ES. assert (ra < length Ps) by (apply nth_error_Some; congruence). lia.
  - assert (N : forall s, In s sends -> dds_vals (a, b) s = []).
    { intros s Hs. apply In_nth_error in Hs as (i & Hi). destruct (sends_nth i s Hi) as (P & HP & (_ & _ & V)). rewrite V. rewrite dd_find_notin; auto. intros Hin. assert (NI : ~ In a (map fst all)) by (intros H; apply dd_find_in in H; congruence). apply NI. apply in_map_iff in Hin as (q & <- & Hq). apply in_map. eapply in_rank; eauto. }
    clear - N. induction sends as [|s l IH]; [reflexivity|]. cbn [map concat]. rewrite (N s (or_introl eq_refl)). apply IH. intros; apply N; now right.
Qed.

(** What a rank receives, and its insertion. *)
Lemma vals_filter {T} (f : key2 -> bool) k (m : dds T) : dds_vals k (filter (fun e => f (fst e)) m) = if f k then dds_vals k m else [].
Proof.
  unfold dds_vals. induction m as [|[q v] t IH]; [cbn; destruct (f k); reflexivity|]. cbn [filter fst]. destruct (k2_eqb k q) eqn:E.
  - apply k2_eqb_eq in E. subst q. destruct (f k) eqn:F; cbn [filter fst]; [|exact IH]. replace (k2_eqb k k) with true by (symmetry; now apply k2_eqb_eq). cbn [map]. f_equal. exact IH.
  - destruct (f q); cbn [filter fst]; [rewrite E|]; exact IH.
Qed.
Lemma sorted_filter {T} (f : key2 * T -> bool) (m : dds T) : dds_sorted m -> dds_sorted (filter f m).
Proof.
  unfold dds_sorted. induction m as [|e t IH]; intros H; [constructor|]. cbn [map] in H. inversion H as [|? ? H1 H2]; subst. cbn [filter]. destruct (f e); auto. cbn [map]. constructor; auto.
  rewrite Forall_forall in *. intros x Hx. apply H2. apply in_map_iff in Hx as (y & <- & Hy). apply filter_In in Hy as [Hy _]. now apply in_map.
Qed.
Definition sel (b : Z) (p : Z * list obj_t) : bool := negb (fst p =? b)%Z && match filter (fun o => (own o =? b)%Z) (snd p) with [] => false | _ => true end.
Lemma recv_list out r b : dds_sorted out -> (forall k, dds_vals k out = received rg sends r k) -> rg b = Z.of_nat r ->
  filter (fun e => (snd (fst e) =? b)%Z) out = map (fun p => ((fst p, b), Lof (filter (fun o => (own o =? b)%Z) (snd p)))) (filter (sel b) all).
Proof.
  intros SO VO RB. apply dds_unique.
  - now apply sorted_filter.
  - destruct (w_all _ _ _ _ _ HW) as [_ SA]. clear - SA. unfold dds_sorted, dd_sorted in *. rewrite map_map. cbn [fst]. induction all as [|p l IH]; [constructor|]. cbn [map] in SA. inversion SA as [|? ? S1 S2]; subst. cbn [filter]. destruct (sel b p); auto. cbn [map]. constructor; auto.
    rewrite Forall_forall in *. intros x Hx. apply in_map_iff in Hx as (q & <- & Hq). apply filter_In in Hq as [Hq _]. specialize (S2 (fst q) (in_map fst _ _ Hq)). unfold k2_le, k2_ltb. cbn [fst snd]. lia.
  - intros [a b']. rewrite (vals_filter (fun k => (snd k =? b)%Z)). cbn [snd]. destruct (Z.eqb_spec b' b) as [->|NE].
    + rewrite VO, recv_cell, RB, Z.eqb_refl. pose proof all_nd as ND. clear - ND. induction all as [|[c os] l IH]; [reflexivity|]. cbn [map] in ND. inversion ND as [|? ? N1 N2]; subst. cbn [dd_find]. cbn [filter].
      set (M := fun p : Z * list obj_t => ((fst p, b), Lof (filter (fun o => (own o =? b)%Z) (snd p)))) in *.
      assert (NI : a = c -> dds_vals (a, b) (map M (filter (sel b) l)) = []).
      { intros ->. unfold dds_vals. rewrite DDComm_group.filter_none; [reflexivity|]. intros q Hq. apply in_map_iff in Hq as (p & <- & Hp). apply filter_In in Hp as [Hp _]. unfold M. cbn [fst]. unfold k2_eqb. cbn [fst snd]. destruct (Z.eqb_spec c (fst p)) as [->|]; auto. exfalso. apply N1. now apply in_map. }
      assert (MC : dds_vals (a, b) (map M (if sel b (c, os) then (c, os) :: filter (sel b) l else filter (sel b) l)) =
         if sel b (c, os) then (if (a =? c)%Z then Lof (filter (fun o => (own o =? b)%Z) os) :: dds_vals (a, b) (map M (filter (sel b) l)) else dds_vals (a, b) (map M (filter (sel b) l))) else dds_vals (a, b) (map M (filter (sel b) l))).
      { destruct (sel b (c, os)); auto. cbn [map]. unfold M at 1. cbn [fst snd]. rewrite vals_cons. unfold k2_eqb. cbn [fst snd]. rewrite Z.eqb_refl, andb_true_r. reflexivity. }
      etransitivity; [|symmetry; exact MC]. unfold sel at 1. cbn [fst snd].
      destruct (Z.eqb_spec a c) as [->|NE].
      * rewrite (NI eq_refl). unfold cell. destruct (Z.eqb_spec c b) as [->|]; cbn [negb andb]; auto. destruct (filter (fun o => (own o =? b)%Z) os) as [|o os']; reflexivity.
      * rewrite IH by auto. destruct (negb (c =? b)%Z && _); reflexivity.
    + symmetry. destruct (dds_vals (a, b') _) as [|v l] eqn:E; auto. exfalso. assert (H : In v (dds_vals (a, b') (map (fun p => ((fst p, b), Lof (filter (fun o => (own o =? b)%Z) (snd p)))) (filter (sel b) all)))) by (rewrite E; now left).
      apply DDSer_proofs.vals_in in H. apply in_map_iff in H as (p & Ep & _). congruence.
Qed.
Lemma end_rank r P out : nth_error Ps r = Some P -> dds_sorted out -> (forall k, dds_vals k out = received rg sends r k) ->
  insert_recv (Ei r) out (lays (kept own P)) = Ok (lays (map (fun p => (fst p, after own all (fst p) (snd p))) P)).
Proof.
  intros HP SO VO. destruct (w_rank _ _ _ _ _ HW r P HP) as [SP FP]. pose proof FP as FP'. rewrite Forall_forall in FP'.
  set (objs := fun k : key2 => filter (fun o => (own o =? snd k)%Z) (match dd_find (fst k) all with Some os => os | None => [] end)).
  set (R := map (fun e : key2 * layer (list Z) => (fst e, objs (fst e))) out).
  assert (EN : forall k v, In (k, v) out -> rg (snd k) = Z.of_nat r /\ exists os, In (fst k, os) all /\ dd_find (fst k) all = Some os /\ objs k <> [] /\ v = Lof (objs k)).
  { intros [a b] v H. cbn [fst snd]. apply DDSer_proofs.vals_in in H. rewrite VO, recv_cell in H. destruct (Z.eqb_spec (rg b) (Z.of_nat r)); [|destruct H]. split; auto. destruct (dd_find a all) as [os|] eqn:E; [|destruct H]. exists os. split; [now apply (dd_find_In a os all all_nd)|]. split; auto.
    unfold objs. cbn [fst snd]. rewrite E. unfold cell in H. destruct (a =? b)%Z; [destruct H|]. destruct (filter _ os) as [|o l]; [destruct H|]. destruct H as [<-|[]]. split; [discriminate|reflexivity]. }
  assert (EO : out = map (fun e => (fst e, Lof (snd e))) R).
  { unfold R. rewrite map_map. cbn [fst snd]. rewrite <- (map_id out) at 1. apply map_ext_in. intros [k v] Hin. destruct (EN k v Hin) as (_ & os & _ & _ & _ & ->). reflexivity. }
  assert (GOT : forall b, rg b = Z.of_nat r -> got b R = moved own b all).
  { intros b RB. pose proof (recv_list out r b SO VO RB) as RL. unfold got, R. rewrite flat_map_concat_map, map_map, <- flat_map_concat_map. cbn [fst snd].
    assert (X1 : flat_map (fun e => if (snd (fst e) =? b)%Z then objs (fst e) else []) out = flat_map (fun e : key2 * layer (list Z) => objs (fst e)) (filter (fun e => (snd (fst e) =? b)%Z) out)).
    { clear. induction out as [|e l IH]; [reflexivity|]. cbn [flat_map filter]. destruct (_ =? _)%Z; cbn [flat_map]; rewrite IH; reflexivity. }
    etransitivity; [exact X1|]. rewrite RL. unfold moved. rewrite flat_map_concat_map, map_map, <- flat_map_concat_map. cbn [fst].
    assert (SUB : forall p, In p all -> objs (fst p, b) = filter (fun o => (own o =? b)%Z) (snd p)). { intros [c os] Hp. unfold objs. cbn [fst snd]. apply (dd_find_In c os all all_nd) in Hp. now rewrite Hp. }
    clear - SUB. revert SUB. generalize all as l. intros l. induction l as [|p l IH]; intros SUB; [reflexivity|]. cbn [filter flat_map]. rewrite <- IH by (intros; apply SUB; now right). unfold sel. destruct (fst p =? b)%Z; cbn [negb andb app]; auto.
    destruct (filter (fun o => (own o =? b)%Z) (snd p)) as [|o os] eqn:EF; [reflexivity|]. cbn [flat_map]. rewrite (SUB p (or_introl eq_refl)), EF. reflexivity. }
  assert (KP : map fst (kept own P) = map fst P) by (unfold kept; rewrite map_map; reflexivity).
  assert (EQ : map (fun q => (fst q, snd q ++ got (fst q) R)) (kept own P) = map (fun p => (fst p, after own all (fst p) (snd p))) P).
  { unfold kept. rewrite map_map. apply map_ext_in. intros p Hp. cbn [fst snd]. unfold after. rewrite GOT; [reflexivity|now apply FP']. }
  rewrite EO. etransitivity; [apply (insert_recv_ok lay HG (Ei r) (HEi r) R (kept own P))|].
  - unfold dd_sorted. rewrite KP. exact SP.
  - unfold kept. apply Forall_map. apply Forall_forall. intros p Hp. cbn [snd]. destruct (pok_all p (in_rank r P p HP Hp)) as [A _]. apply Forall_forall. intros o Ho. apply filter_In in Ho as [Ho _]. rewrite Forall_forall in A. now apply A.
  - unfold R. apply Forall_map. apply Forall_forall. intros [k v] Hin. cbn [fst snd]. destruct (EN k v Hin) as (RB & os & IA & FD & NE & _). split.
    + unfold objs. rewrite FD. destruct (pok_all _ IA) as [A _]. cbn [snd] in A. apply Forall_forall. intros o Ho. apply filter_In in Ho as [Ho _]. rewrite Forall_forall in A. now apply A.
    + rewrite KP. unfold objs in NE. rewrite FD in NE. pose proof (home (snd k) os (fst k) IA NE) as HB. apply in_map_iff in HB as (q & Eq & Hq). destruct (in_all q Hq) as (r' & P' & HP' & Hq' & Er). rewrite Eq in Er. assert (r' = r) by lia. subst r'. assert (P' = P) by congruence. subst P'. rewrite <- Eq. now apply in_map.
  - assert (X : Forall (fun q : Z * list obj_t => fits lay (length (snd q))) (map (fun q => (fst q, snd q ++ got (fst q) R)) (kept own P))).
    { rewrite EQ. apply Forall_map. apply Forall_forall. intros p Hp. cbn [snd]. pose proof (h_after _ _ _ HH) as F. rewrite Forall_forall in F. apply F. eapply in_rank; eauto. }
    rewrite Forall_map in X. exact X.
  - rewrite EQ. reflexivity.
Qed.
End E.

(** ** The theorem *)
Lemma begin_ex sched junk max_mem max_comm ex ps tabs :
  reattr_begin lay ipos pos_ty tsz owner uorder Ea Ek ssch sjunk rg sched junk max_mem max_comm (map lays Ps) = Ok (ex, ps, tabs) ->
  ex_ok ex /\ ssc_begin (fun r i => l_serialize tsz (ssch r i) (sjunk r i)) rg sched junk max_mem max_comm (map snd ex) = Ok (ps, tabs).
Proof.
  unfold reattr_begin. destruct ext_all as (ex' & E & H). unfold ext in E. rewrite E. cbn [rbind]. intros HB. apply rbind_ok in HB as ([ps' tabs'] & EB & HB). cbn [fst snd] in HB. injection HB as <- <- <-. auto.
Qed.
Lemma sends_count ex : ex_ok ex -> length (concat (map snd ex)) = list_sum (map (targets own) all).
Proof.
  intros HX. destruct (w_all _ _ _ _ _ HW) as [HA _]. rewrite (DDSer_proofs.list_sum_perm _ _ (Permutation_map (targets own) HA)).
  destruct HX as [LX QX]. assert (QX' : forall r P e, nth_error Ps r = Some P -> nth_error ex r = Some e -> length (snd e) = list_sum (map (targets own) P)) by (intros r P e H1 H2; destruct (QX r P e H1 H2) as (_ & _ & L & _); auto).
  revert LX QX'. clear. generalize Ps. revert ex. induction ex as [|e ex IH]; intros [|P L] LX QX; try discriminate; [reflexivity|]. cbn [map concat]. rewrite app_length, map_app, DDComm_prep.list_sum_app. f_equal.
  - now apply (QX 0).
  - apply IH; [now injection LX|]. intros r. apply (QX (S r)).
Qed.
Lemma reattr_main sched junk max_mem max_comm ex ps tabs caches brecv : (Z.of_nat max_comm < 2 ^ 31)%Z -> (forall r, fair3 (sched r)) ->
  reattr_begin lay ipos pos_ty tsz owner uorder Ea Ek ssch sjunk rg sched junk max_mem max_comm (map lays Ps) = Ok (ex, ps, tabs) ->
  Forall2 (fun t b => bufs_ok (t_send_sizes t) b) tabs caches ->
  Forall2 (fun t b => bufs_ok (t_recv_sizes t) b) tabs brecv ->
  length tabs = length Ps /\
  exists bsend, comm_fill tabs ps caches = Ok bsend /\
  (forall r t bs br, nth_error tabs r = Some t -> nth_error bsend r = Some bs -> nth_error brecv r = Some br -> exchange_checks t bs br = Ok tt) /\
  forall n s, xreach tabs bsend (xinit brecv) n s ->
    n <= 5 * list_sum (map (targets own) all) * length Ps /\
    (forall l, enabled tabs l s = true -> exists s', xdo tabs bsend l s = Ok s') /\
    (finished tabs s = false -> exists l, enabled tabs l s = true /\ unbuffered l s) /\
    (finished tabs s = true -> forall r P t e sch cjunk, nth_error Ps r = Some P -> nth_error tabs r = Some t -> nth_error ex r = Some e -> fair3 sch ->
       reattr_end lay tsz Ei dsch djunk rg r sch cjunk t (x_bufs (s r)) (fst e) (snd e) = Ok (lays (map (fun p => (fst p, after own all (fst p) (snd p))) P))).
Proof.
  intros HM HF HB HC HV. destruct (begin_ex _ _ _ _ _ _ _ HB) as [HX HS]. pose proof (sends_ids ex HX) as HI. pose proof (sends_count ex HX) as CNT.
  pose proof (fun r0 => DDSer_proofs.ssc_main _ _ rg (map snd ex) HI (sends_ser ex HX r0) sched junk max_mem max_comm ps tabs caches brecv HM HF HS HC HV) as MAIN.
  destruct (MAIN 0) as (LT & bsend & EF & CK & M). rewrite map_length in LT. pose proof HX as [LX QX]. split; [lia|]. exists bsend. split; auto. split; auto. intros n s HR. destruct (M n s HR) as (M1 & M2 & M3 & _).
  split; [rewrite CNT, map_length, LX in M1; exact M1|]. split; auto. split; auto. intros FIN r P t e sch cjunk HP Ht He Hsch.
  destruct (MAIN r) as (_ & bsend' & EF' & _ & M'). assert (bsend' = bsend) by congruence. subst bsend'. destruct (M' n s HR) as (_ & _ & _ & M4).
  destruct (M4 FIN r t (snd e) sch cjunk Ht) as (out & EO & SO & VO); auto. { now rewrite nth_error_map, He. }
  unfold reattr_end. rewrite EO. cbn [rbind]. destruct (QX r P e HP He) as [-> _]. apply (end_rank ex HX r P out HP SO VO).
Qed.
End W.

(** ** When the exchange starts *)
Section T.
Variables (lay : layout) (ipos pos_ty : nat) (tsz : nat -> nat).
Variable owner : nat -> Z -> list (list Z) -> res (list Z).
Variable uorder : nat -> Z -> list (Z * list nat) -> list (Z * list nat).
Variables (Ea : nat -> Z -> Z -> lenv (list Z)) (Ek : nat -> Z -> lenv (list Z)).
Variables (ssch : nat -> nat -> nat -> nat -> list nat) (sjunk : nat -> nat -> nat -> Z).
Variable rg : Z -> Z.
Variables (own : obj_t -> Z) (Ps : list (list (Z * list obj_t))) (all : list (Z * list obj_t)).
Hypothesis HW : world tsz lay rg Ps all.
Hypothesis HPos : nth_error lay ipos = Some (pos_ty, 1).
Hypothesis HO : forall r P p, nth_error Ps r = Some P -> In p P -> snd p <> [] -> owner r (fst p) (column ipos (snd p)) = Ok (map own (snd p)).
Hypothesis HU : forall r c l, Permutation (uorder r c l) l.
Hypothesis HEa : forall r a b, good_envs (Ea r a b).
Hypothesis HEk : forall r a, good_envs (Ek r a).
Hypothesis HSs : forall r i, fair_sched (ssch r i).
Hypothesis HH : homes lay own all.
Variables (sched : nat -> nat -> nat -> nat -> list nat) (junk : nat -> nat -> nat -> Z) (max_mem : nat -> nat) (max_comm : nat).
Hypothesis HM : (Z.of_nat max_comm < 2 ^ 31)%Z.
Hypothesis HF : forall r, fair3 (sched r).
Let dsch (r j k n : nat) : list nat := seq 0 n.
Let djunk (r j k : nat) : list Z := [].
Let Ei (r : nat) (a b : Z) := Ek r a.
Let HEi : forall r a b, good_envs (Ei r a b) := fun r a b => HEk r a.
Let HDs : forall r i, fair_sched (dsch r i) := fun r i k n => Permutation_refl _.
Notation begin := (reattr_begin lay ipos pos_ty tsz owner uorder Ea Ek ssch sjunk rg sched junk max_mem max_comm (map (lays lay) Ps)).
Lemma begin_cases : (exists ex ps tabs, begin = Ok (ex, ps, tabs)) \/ begin = Throw.
Proof.
  unfold reattr_begin. destruct (ext_all lay ipos pos_ty tsz owner uorder Ea Ek Ei ssch sjunk dsch djunk rg own Ps all HW HPos HO HU HEa HEk HEi HSs HDs HH) as (ex & E & HX). unfold ext in E. rewrite E. cbn [rbind].
  pose proof (sends_ids lay ipos tsz owner uorder Ea Ek Ei ssch sjunk dsch djunk rg own Ps all HW HO HU HEa HEk HEi HSs HDs HH ex HX) as HI. pose proof (sends_ser lay ipos tsz owner uorder Ea Ek Ei ssch sjunk dsch djunk rg own Ps all HW HO HU HEa HEk HEi HSs HDs ex HX 0) as HS.
  destruct (DDSer_proofs.ssc_cases _ _ rg (map snd ex) sched junk max_mem max_comm HI HS HM HF) as [(ps & tabs & ->)| ->]; [left|right]; cbn [rbind fst snd]; eauto.
Qed.

Definition tgt (p : Z * list obj_t) : list (key2 * layer (list Z)) :=
  map (fun b => ((fst p, b), Lof lay (filter (fun o => (own o =? b)%Z) (snd p)))) (nodup Z.eq_dec (filter (fun b => negb (b =? fst p)%Z) (map own (snd p)))).
Lemma nodup_le1 {T} (m : dds T) : (forall k, length (dds_vals k m) <= 1) -> NoDup m.
Proof.
  induction m as [|[k v] t IH]; intros H; [constructor|]. constructor.
  - intros Hin. apply DDSer_proofs.vals_in in Hin. specialize (H k). rewrite vals_cons in H. replace (k2_eqb k k) with true in H by (symmetry; now apply k2_eqb_eq). cbn [length] in H. destruct (dds_vals k t); [destruct Hin|cbn [length] in H; lia].
  - apply IH. intros k'. specialize (H k'). rewrite vals_cons in H. destruct (k2_eqb k' k); cbn [length] in H; lia.
Qed.
Lemma px_perm P px : px_ok lay own P px -> dd_sorted P -> Permutation px (flat_map tgt P).
Proof.
  intros HX HS. pose proof (sorted_nodup _ HS) as ND. apply NoDup_Permutation.
  - apply nodup_le1. destruct HX as (_ & _ & V). intros [a b]. rewrite V. destruct (dd_find a P) as [os|]; [|cbn; lia]. unfold cell. destruct (a =? b)%Z; [cbn; lia|]. destruct (filter _ os); cbn; lia.
  - clear - ND. induction P as [|[c os] P IH]; [constructor|]. cbn [map fst] in ND. inversion ND as [|? ? N1 N2]; subst. cbn [flat_map].
    assert (D : forall k v, In (k, v) (flat_map tgt P) -> In (fst k) (map fst P)). { intros k v H. apply in_flat_map in H as (q & Hq & H). unfold tgt in H. apply in_map_iff in H as (b & E & _). injection E as <- _. cbn [fst]. now apply in_map. }
    assert (X : NoDup (tgt (c, os))). { unfold tgt. apply FinFun.Injective_map_NoDup; [|apply NoDup_nodup]. intros b b' E. congruence. }
    revert X D. generalize (IH N2). generalize (flat_map tgt P) as l2. clear IH. intros l2 H2 X D. assert (DS : forall x, In x (tgt (c, os)) -> ~ In x l2). { intros [k v] H1 H3. apply D in H3. unfold tgt in H1. apply in_map_iff in H1 as (b & E & _). injection E as <- _. cbn [fst] in H3. contradiction. }
    induction (tgt (c, os)) as [|x t IHt]; [exact H2|]. inversion X; subst. cbn [app]. constructor. { rewrite in_app_iff. intros [A|A]; [contradiction|]. apply (DS x); auto. now left. } apply IHt; auto. intros y Hy. apply DS. now right.
  - intros [[a b] v]. rewrite in_flat_map. split.
    + intros H. destruct (px_entry lay own P px a b v HX HS H) as (os & I & NE & NF & ->). exists (a, os). split; auto. unfold tgt. apply in_map_iff. exists b. split; [reflexivity|]. apply nodup_In. apply filter_In. cbn [fst snd]. split; [|lia].
      destruct (filter _ os) as [|o l] eqn:E; [congruence|]. assert (Ho : In o (filter (fun o => (own o =? b)%Z) os)) by (rewrite E; now left). apply filter_In in Ho as [Ho Hb]. apply Z.eqb_eq in Hb. subst b. now apply in_map.
    + intros ([c os] & I & H). unfold tgt in H. apply in_map_iff in H as (b' & E & H). injection E as -> -> <-. cbn [fst snd] in *. apply nodup_In, filter_In in H as [H1 H2]. apply DDSer_proofs.vals_in. destruct HX as (_ & _ & V). rewrite V. apply (dd_find_In a os P ND) in I. rewrite I. unfold cell.
      destruct (Z.eqb_spec a b); [lia|]. apply in_map_iff in H1 as (o & Eo & Ho). destruct (filter _ os) as [|x l] eqn:EF; [|now left]. assert (In o (filter (fun o => (own o =? b)%Z) os)) by (apply filter_In; split; auto; now apply Z.eqb_eq). rewrite EF in H. destruct H.
Qed.
Lemma ser_len os r i b : Forall (fun o => shaped lay o /\ otyped tsz lay o) os -> fits lay (length os) -> (Z.of_nat (layer_bytes tsz lay (length os)) < 2 ^ 32)%Z ->
  l_serialize tsz (ssch r i) (sjunk r i) (Lof lay os) = Ok b -> length b = layer_bytes tsz lay (length os).
Proof.
  intros FO F1 F2 E. destruct (stores_roundtrip tsz lay os (Lof lay os) (ssch r i) (sjunk r i)) as (bb & E1 & E2 & E3); auto.
  - apply stores_Lof. eapply Forall_impl; [|exact FO]. now intros o [A _].
  - apply (w_layout _ _ _ _ _ HW).
  - apply typed_Lof. eapply Forall_impl; [|exact FO]. now intros o [_ A].
  - congruence.
Qed.
Lemma l_cnt_len os : Forall (shaped lay) os -> fits lay (length os) -> match l_get_obj_cnt (Lof lay os) with Ok n => n | _ => 0 end = length os.
Proof. intros A B. now rewrite (cnt_Lof lay (w_layout _ _ _ _ _ HW) os A B). Qed.
Lemma begin_total :
  (forall r P r', nth_error Ps r = Some P -> r' < length Ps -> r' <> r ->
     16 + leaving own tsz lay rg r' P <= max_alloc (max_mem r) max_comm /\ 16 + leaving own tsz lay rg r' P <= max_alloc (max_mem r') max_comm) ->
  exists ex ps tabs, begin = Ok (ex, ps, tabs).
Proof.
  intros HL. unfold reattr_begin. destruct (ext_all lay ipos pos_ty tsz owner uorder Ea Ek Ei ssch sjunk dsch djunk rg own Ps all HW HPos HO HU HEa HEk HEi HSs HDs HH) as (ex & E & HX). unfold ext in E. rewrite E. cbn [rbind].
  pose proof (sends_ids lay ipos tsz owner uorder Ea Ek Ei ssch sjunk dsch djunk rg own Ps all HW HO HU HEa HEk HEi HSs HDs HH ex HX) as HI. pose proof (sends_ser lay ipos tsz owner uorder Ea Ek Ei ssch sjunk dsch djunk rg own Ps all HW HO HU HEa HEk HEi HSs HDs ex HX 0) as HS.
  set (size := fun L : layer (list Z) => layer_bytes tsz lay (match l_get_obj_cnt L with Ok n => n | _ => 0 end)).
  assert (SUB : forall r P a os b, nth_error Ps r = Some P -> In (a, os) P -> let f := filter (fun o => (own o =? b)%Z) os in
     Forall (fun o => shaped lay o /\ otyped tsz lay o) f /\ fits lay (length f) /\ (Z.of_nat (layer_bytes tsz lay (length f)) < 2 ^ 32)%Z).
  { intros r P a os b HP Hin f. pose proof (in_rank lay tsz rg Ps all HW r P _ HP Hin) as IA. pose proof (w_objs _ _ _ _ _ HW) as FO. pose proof (w_fits _ _ _ _ _ HW) as FF. rewrite Forall_forall in FO, FF. specialize (FO _ IA). specialize (FF _ IA). cbn [snd] in FO, FF. destruct FF as [F1 F2].
    assert (LE : length f <= length os) by apply filter_length_le. pose proof (layer_bytes_mono tsz lay _ _ LE) as LB. split; [|split; [eapply PatchData_layer.fits_le; [exact LE|exact F1]|lia]].
    apply Forall_forall. intros o Ho. apply filter_In in Ho as [Ho _]. rewrite Forall_forall in FO. now apply FO. }
  assert (SZ : forall r P a os b, nth_error Ps r = Some P -> In (a, os) P -> size (Lof lay (filter (fun o => (own o =? b)%Z) os)) = layer_bytes tsz lay (length (filter (fun o => (own o =? b)%Z) os))).
  { intros r P a os b HP Hin. destruct (SUB r P a os b HP Hin) as (A & B & _). unfold size. rewrite l_cnt_len; auto. eapply Forall_impl; [|exact A]. now intros o [X _]. }
  destruct (DDSer_proofs.ssc_total _ _ rg (map snd ex) size sched junk max_mem max_comm HI HS) as (ps & tabs & EB).
  - intros send [[a b] v] r i bb Hs Hp ES. cbn [snd] in *. apply In_nth_error in Hs as (rr & Hr). destruct (sends_nth lay ipos owner uorder Ea Ek Ei ssch sjunk dsch djunk own Ps all HO HU HEa HEk HEi HSs HDs ex HX rr send Hr) as (P & HP & PX). destruct (w_rank _ _ _ _ _ HW rr P HP) as [SP _].
    destruct (px_entry lay own P send a b v PX SP Hp) as (os & I & _ & _ & ->). destruct (SUB rr P a os b HP I) as (A & B & C). rewrite (ser_len _ r i bb A B C ES). rewrite (SZ rr P a os b HP I). auto.
  - exact HM.
  - exact HF.
  - intros r send r' Hr Hlt NE. rewrite map_length in Hlt. destruct (sends_nth lay ipos owner uorder Ea Ek Ei ssch sjunk dsch djunk own Ps all HO HU HEa HEk HEi HSs HDs ex HX r send Hr) as (P & HP & PX). pose proof HX as [LX _]. destruct (w_rank _ _ _ _ _ HW r P HP) as [SP FP].
    assert (LE : DDSer_spec.sent_bytes size rg (Z.of_nat r') send <= leaving own tsz lay rg r' P); [|destruct (HL r P r' HP ltac:(lia) NE); lia].
    unfold DDSer_spec.sent_bytes, leaving. rewrite (DDSer_proofs.list_sum_perm _ _ (Permutation_map _ (DDSer_proofs.perm_filter _ _ _ (px_perm P send PX SP)))).
    assert (SZ' : forall a os b, In (a, os) P -> size (Lof lay (filter (fun o => (own o =? b)%Z) os)) = layer_bytes tsz lay (length (filter (fun o => (own o =? b)%Z) os))) by (intros; eapply SZ; eauto).
    rewrite Forall_forall in FP. clear - SZ' FP NE. induction P as [|[c os] P IH]; [reflexivity|]. cbn [flat_map]. rewrite filter_app, map_app, !DDComm_prep.list_sum_app.
    apply Nat.add_le_mono; [|apply IH; [intros; apply FP; now right|intros a os' b Hin; apply (SZ' a); now right]].
    assert (EC : list_sum (map (fun p => 24 + al8 (size (snd p))) (filter (fun p => (rg (snd (fst p)) =? Z.of_nat r')%Z && negb (rg (fst (fst p)) =? Z.of_nat r')%Z) (tgt (c, os)))) =
      list_sum (map (fun b => 24 + al8 (layer_bytes tsz lay (length (filter (fun o => (own o =? b)%Z) os)))) (filter (fun b => (rg b =? Z.of_nat r')%Z) (nodup Z.eq_dec (filter (fun b => negb (b =? c)%Z) (map own os)))))).
    { unfold tgt. cbn [fst snd]. pose proof (FP _ (or_introl eq_refl)) as FC. cbn [fst] in FC. induction (nodup Z.eq_dec _) as [|b l IHl]; [reflexivity|]. cbn [map filter fst snd]. replace (rg c =? Z.of_nat r')%Z with false in * by lia. cbn [negb] in *. rewrite andb_true_r in *. destruct (rg b =? Z.of_nat r')%Z; [|exact IHl]. cbn [map snd]. rewrite !DDComm_prep.list_sum_cons, (SZ' c os b (or_introl eq_refl)). f_equal. exact IHl. }
    etransitivity; [apply Nat.eq_le_incl; exact EC|]. cbn [fst snd].
    apply Nat.eq_le_incl, DDSer_proofs.list_sum_perm, Permutation_map, NoDup_Permutation; [apply NoDup_filter, NoDup_nodup|apply NoDup_nodup|].
    intros b. rewrite filter_In, !nodup_In, !filter_In. pose proof (FP _ (or_introl eq_refl)) as FC. cbn [fst] in FC. split; [intros [[A _] B]; auto|]. intros [A B]. split; auto. split; auto. destruct (Z.eqb_spec b c) as [->|]; auto. lia.
  - rewrite EB. cbn [rbind fst snd]. eauto.
Qed.
End T.

(** ** The objects are conserved *)
Lemma split_by {X} (f : X -> Z) (ids : list Z) (l : list X) : NoDup ids -> (forall x, In x l -> In (f x) ids) ->
  Permutation (flat_map (fun b => filter (fun x => (f x =? b)%Z) l) ids) l.
Proof.
  intros ND. induction l as [|x l IH]; intros H.
  - clear. induction ids; cbn; auto.
  - assert (HI : In (f x) ids) by (apply H; now left). apply in_split in HI as (l1 & l2 & ->).
    assert (NI : forall ids, ~ In (f x) ids -> flat_map (fun b => filter (fun y => (f y =? b)%Z) (x :: l)) ids = flat_map (fun b => filter (fun y => (f y =? b)%Z) l) ids).
    { clear. induction ids as [|b ids IH]; intros H; [reflexivity|]. cbn [flat_map]. rewrite IH by (intros A; apply H; now right). f_equal. cbn [filter]. destruct (Z.eqb_spec (f x) b); auto. exfalso. apply H. now left. }
    apply NoDup_remove_2 in ND as ND'. rewrite in_app_iff in ND'. rewrite flat_map_app. cbn [flat_map]. rewrite !NI by tauto. cbn [filter]. rewrite Z.eqb_refl. cbn [app].
    rewrite <- Permutation_middle. constructor. etransitivity; [|apply IH; intros; apply H; now right]. rewrite flat_map_app. reflexivity.
Qed.
Lemma after_perm own all b os : NoDup (map fst all) -> In (b, os) all -> Permutation (after own all b os) (filter (fun o => (own o =? b)%Z) (concat (map snd all))).
Proof.
  intros ND H. unfold after. apply in_split in H as (l1 & l2 & ->). rewrite map_app in ND. cbn [map fst] in ND. apply NoDup_remove_2 in ND. rewrite in_app_iff in ND.
  assert (NI : forall l, ~ In b (map fst l) -> moved own b l = filter (fun o => (own o =? b)%Z) (concat (map snd l))).
  { clear. unfold moved. induction l as [|[c os] l IH]; intros H; [reflexivity|]. cbn [flat_map map concat fst snd]. rewrite filter_app, <- IH by (intros A; apply H; now right). destruct (Z.eqb_spec c b) as [->|]; auto. exfalso. apply H. now left. }
  unfold moved at 1. rewrite flat_map_app. cbn [flat_map fst snd]. rewrite Z.eqb_refl. cbn [app]. fold (moved own b l1). fold (moved own b l2). rewrite !NI by tauto.
  rewrite map_app, concat_app. cbn [map concat snd]. rewrite !filter_app. rewrite !app_assoc. apply Permutation_app_tail. apply Permutation_app_comm.
Qed.
Lemma conserved own (all : list (Z * list obj_t)) : NoDup (map fst all) -> Forall (fun p => Forall (fun o => In (own o) (map fst all)) (snd p)) all ->
  Permutation (concat (map (fun p => after own all (fst p) (snd p)) all)) (concat (map snd all)).
Proof.
  intros ND HH. etransitivity; [|apply (split_by own (map fst all) (concat (map snd all)) ND)].
  - assert (SUB : forall p, In p all -> In (fst p, snd p) all) by (intros [c os]; auto). revert SUB.
    assert (G : forall l, (forall p, In p l -> In (fst p, snd p) all) -> Permutation (concat (map (fun p => after own all (fst p) (snd p)) l)) (flat_map (fun b => filter (fun x => (own x =? b)%Z) (concat (map snd all))) (map fst l))).
    { induction l as [|p l IH]; intros SUB; [constructor|]. cbn [map concat flat_map]. apply Permutation_app; [|apply IH; intros; apply SUB; now right]. apply after_perm; auto. apply SUB. now left. }
    apply G.
  - intros o Ho. apply in_concat in Ho as (os & H1 & H2). apply in_map_iff in H1 as (p & <- & Hp). rewrite Forall_forall in HH. specialize (HH p Hp). rewrite Forall_forall in HH. now apply HH.
Qed.
