(** Proofs for C44: all the ranks. *)
From Verif Require Import Base Streams Serialize Serialize_spec Containers Containers_spec Containers_proofs Layer Layer_spec Layer_proofs Layer_fields Layer_main
  PatchData PatchData_layer Patch SparseXchg SparseXchg_spec DDComm DDComm_spec DDSer DDSer_spec LayerSer LayerSer_spec LayerSer_proofs Reattr Reattr_spec Reattr_local Reattr_extract.
From Verif Require PatchData_proofs DDComm_group DDSer_proofs DDComm_main DDComm_final.
From Coq Require Import Permutation ZifyBool ZifyNat.
Local Open Scope nat_scope.

(** ** Sorted multimaps are determined by their values *)
Lemma vals_cons {T} k (q : key2) (v : T) m : dds_vals k ((q, v) :: m) = if k2_eqb k q then v :: dds_vals k m else dds_vals k m.
Proof. unfold dds_vals. cbn [filter fst]. destruct (k2_eqb k q); reflexivity. Qed.
Lemma k2_le_antisym a b : k2_le a b -> k2_le b a -> a = b.
Proof. destruct a as [a1 a2], b as [b1 b2]. unfold k2_le, k2_ltb. cbn [fst snd]. intros. f_equal; lia. Qed.
Lemma dds_unique {T} (m1 m2 : dds T) : dds_sorted m1 -> dds_sorted m2 -> (forall k, dds_vals k m1 = dds_vals k m2) -> m1 = m2.
Proof.
  revert m2. induction m1 as [|[k1 v1] t1 IH]; intros [|[k2 v2] t2] S1 S2 H.
  - reflexivity.
  - specialize (H k2). rewrite vals_cons in H. replace (k2_eqb k2 k2) with true in H by (symmetry; now apply k2_eqb_eq). discriminate.
  - specialize (H k1). rewrite vals_cons in H. replace (k2_eqb k1 k1) with true in H by (symmetry; now apply k2_eqb_eq). discriminate.
  - assert (R : forall k : key2, k2_eqb k k = true) by (intros; now apply k2_eqb_eq).
    assert (LE : forall k (v : T) t k' v', dds_sorted ((k, v) :: t) -> In (k', v') ((k, v) :: t) -> k2_le k k').
    { intros k v t k' v' SS [E|Hin]. { injection E as <- <-. destruct k. unfold k2_le, k2_ltb. cbn [fst snd]. lia. }
      unfold dds_sorted in SS. cbn [map fst] in SS. inversion SS as [|? ? _ F]; subst. rewrite Forall_forall in F. apply F. now apply (in_map fst) in Hin. }
    assert (E : k1 = k2).
    { apply k2_le_antisym.
      - apply (LE k1 v1 t1 k2 v2 S1). apply DDSer_proofs.vals_in. rewrite H, vals_cons, R. now left.
      - apply (LE k2 v2 t2 k1 v1 S2). apply DDSer_proofs.vals_in. rewrite <- H, vals_cons, R. now left. }
    subst k2. pose proof (H k1) as H1. rewrite !vals_cons, R in H1. injection H1 as <- _. f_equal. apply IH.
    + unfold dds_sorted in *. now inversion S1.
    + unfold dds_sorted in *. now inversion S2.
    + intros k. specialize (H k). rewrite !vals_cons in H. destruct (k2_eqb k k1); [now injection H|exact H].
Qed.

Section I.
Variables (lay : layout) (own : obj_t -> Z).
Hypothesis HG : good_layout lay.
Variable Ei : Z -> Z -> lenv (list Z).
Hypothesis HEi : forall a b, good_envs (Ei a b).
Notation Lof := (Lof lay).
Notation lays := (lays lay).

Definition got (b : Z) (R : list (key2 * list obj_t)) : list obj_t := flat_map (fun e => if (snd (fst e) =? b)%Z then snd e else []) R.
Lemma find_lays k Q : dd_find k (lays Q) = option_map Lof (dd_find k Q).
Proof. induction Q as [|[a os] Q IH]; [reflexivity|]. cbn [lays Reattr_extract.lays map dd_find fst snd]. destruct (k =? a)%Z; auto. Qed.
Lemma insert_recv_ok R : forall Q, dd_sorted Q -> Forall (fun q => Forall (shaped lay) (snd q)) Q -> Forall (fun e => Forall (shaped lay) (snd e) /\ In (snd (fst e)) (map fst Q)) R ->
  Forall (fun q => fits lay (length (snd q ++ got (fst q) R))) Q ->
  insert_recv Ei (map (fun e => (fst e, Lof (snd e))) R) (lays Q) = Ok (lays (map (fun q => (fst q, snd q ++ got (fst q) R)) Q)).
Proof.
  unfold insert_recv, dds_for_each. induction R as [|[[a b] os] R IH]; intros Q HSo HQ HR HF.
  - cbn [map rfold got flat_map]. f_equal. unfold Reattr_extract.lays. rewrite map_map. apply map_ext. intros [c ps]. cbn [fst snd]. now rewrite app_nil_r.
  - inversion HR as [|? ? [R1 R2] R3]; subst. cbn [fst snd] in *. cbn [map rfold fst snd].
    assert (ND : NoDup (map fst Q)) by (apply sorted_nodup; exact HSo).
    destruct (dd_find b Q) as [ps|] eqn:EB; [|exfalso; apply (proj2 (dd_find_in b Q)) in R2; congruence]. unfold dd_get at 1. rewrite find_lays, EB. cbn [option_map rbind].
    apply (dd_find_In b ps Q ND) in EB. pose proof HQ as HQ'. rewrite Forall_forall in HQ'. pose proof (HQ' _ EB) as PS. cbn [snd] in PS.
    assert (FF : fits lay (length ps + length os)). { rewrite Forall_forall in HF. specialize (HF _ EB). cbn [fst snd got flat_map] in HF. rewrite Z.eqb_refl in HF. rewrite !app_length in HF. eapply PatchData_layer.fits_le; [|exact HF]. lia. }
    rewrite (insert_Lof lay HG (Ei a b) os ps) by auto. cbn [of_eres rbind fst].
    set (Q2 := map (fun q => (fst q, if (fst q =? b)%Z then snd q ++ os else snd q)) Q).
    assert (E2 : dd_set b (Lof (ps ++ os)) (lays Q) = lays Q2).
    { unfold dd_set, Reattr_extract.lays, Q2. rewrite !map_map. apply map_ext_in. intros [c qs] Hin. cbn [fst snd]. destruct (Z.eqb_spec c b) as [->|]; auto. apply (dd_find_In b qs Q ND) in Hin. apply (dd_find_In b ps Q ND) in EB. congruence. }
    rewrite E2. assert (K2 : map fst Q2 = map fst Q) by (unfold Q2; rewrite map_map; reflexivity).
    assert (GT : forall q, (snd q ++ got (fst q) (((a, b), os) :: R)) = (if (fst q =? b)%Z then snd q ++ os else snd q) ++ got (fst q) R).
    { intros [c qs]. cbn [got flat_map fst snd]. rewrite (Z.eqb_sym b c). destruct (c =? b)%Z; [now rewrite app_assoc|reflexivity]. }
    etransitivity; [apply (IH Q2)|].
    + unfold dd_sorted. rewrite K2. exact HSo.
    + unfold Q2. apply Forall_map. apply Forall_forall. intros [c qs] Hin. cbn [fst snd]. pose proof (HQ' _ Hin) as PQ. cbn [snd] in PQ. destruct (c =? b)%Z; auto. apply Forall_app. auto.
    + eapply Forall_impl; [|exact R3]. intros e [A1 A2]. rewrite K2. auto.
    + unfold Q2. apply Forall_map. eapply Forall_impl; [|exact HF]. intros q Hq. cbn [fst snd]. rewrite <- GT. exact Hq.
    + f_equal. f_equal. unfold Q2. rewrite map_map. apply map_ext. intros q. cbn [fst snd]. now rewrite GT.
Qed.
End I.
