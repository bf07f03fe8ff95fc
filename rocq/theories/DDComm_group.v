(** Proofs about the grouping and the splitting of the objects of one rank. *)
From Verif Require Import Base Streams Serialize Serialize_spec Serialize_proofs Containers Containers_spec Containers_proofs SparseXchg SparseXchg_spec SparseXchg_table DDComm DDComm_spec DDComm_prep.
From Coq Require Import ZifyBool ZifyNat.

Section G.
Variable rg : Z -> Z.
Definition gkey (d : dtmp) : key2 := (rg (d_snd d), rg (d_rcv d)).
Definition to_d (p : key2 * list Z) : dtmp := DTmp (fst (fst p)) (snd (fst p)) (snd p).
Definition k2_lt (a b : key2) : Prop := k2_ltb a b = true.
Definition ginv (m : groups) : Prop :=
  StronglySorted k2_lt (map fst m) /\ Forall (fun kv => snd kv <> [] /\ Forall (fun d => gkey d = fst kv) (snd kv)) m.

Lemma k2_lt_trans a b c : k2_lt a b -> k2_lt b c -> k2_lt a c.
Proof. unfold k2_lt. rewrite !k2_lt_iff. lia. Qed.
Lemma k2_trich a b : k2_eqb a b = false -> k2_ltb a b = false -> k2_lt b a.
Proof. unfold k2_lt. intros E L. apply k2_lt_iff. destruct a as [a1 a2], b as [b1 b2]. unfold k2_eqb, k2_ltb in *. cbn [fst snd] in *. lia. Qed.
Lemma k2_lt_irr a : ~ k2_lt a a. Proof. unfold k2_lt. rewrite k2_lt_iff. lia. Qed.

Lemma g_push_keys k d m x : In x (map fst (g_push k d m)) <-> x = k \/ In x (map fst m).
Proof.
  induction m as [|[k' v] t IH]; cbn [g_push map In fst]; [intuition|]. destruct (k2_eqb k k') eqn:E.
  - apply k2_eqb_eq in E. subst. cbn [map In fst]. intuition.
  - destruct (k2_ltb k k'); cbn [map In fst]; [intuition|]. rewrite IH. intuition.
Qed.

Lemma g_push_inv k d m : gkey d = k -> ginv m -> ginv (g_push k d m).
Proof.
  intros HK [H1 H2]. induction m as [|[k' v] t IH]; cbn [g_push].
  - split; cbn; repeat constructor; auto. discriminate.
  - cbn [map fst] in H1. inversion H1 as [|? ? S1 S2]. inversion H2 as [|? ? F1 F2]. subst. cbn [fst snd] in *. destruct (k2_eqb (gkey d) k') eqn:E.
    + apply k2_eqb_eq in E. split; [exact H1|]. constructor; auto. cbn [fst snd]. split; [destruct v; discriminate|].
      apply Forall_app. split; [apply F1|]. constructor; auto.
    + destruct (k2_ltb (gkey d) k') eqn:L.
      * split.
        { cbn [map fst]. constructor; auto. constructor; auto. rewrite Forall_forall in S2 |- *. intros x Hx. apply k2_lt_trans with k'; auto. }
        { constructor; [|constructor; auto]. cbn [fst snd]. split; [discriminate|]. repeat constructor; auto. }
      * destruct IH as [I1 I2]; auto. split.
        { cbn [map fst]. constructor; auto. rewrite Forall_forall in S2 |- *. intros x Hx. apply g_push_keys in Hx as [->|Hx]; auto. now apply k2_trich. }
        { constructor; auto. }
Qed.

Lemma filter_none {A} (P : A -> bool) l : (forall x, In x l -> P x = false) -> filter P l = [].
Proof. induction l as [|a l IH]; intros H; cbn [filter]; auto. rewrite H by (left; auto). apply IH. intros; apply H; right; auto. Qed.

Lemma ginv_in m d : ginv m -> In d (concat (map snd m)) -> In (gkey d) (map fst m).
Proof.
  intros [_ H2] H. apply in_concat in H as (v & Hv & Hd). apply in_map_iff in Hv as ([k w] & <- & HK). rewrite Forall_forall in H2.
  destruct (H2 _ HK) as [_ F]. cbn [fst snd] in *. rewrite Forall_forall in F. rewrite (F d Hd). change k with (fst (k, w)). now apply in_map.
Qed.
Lemma ginv_tl kv m : ginv (kv :: m) -> ginv m.
Proof. intros [H1 H2]. inversion H1; inversion H2; subst. split; auto. Qed.

Lemma g_push_filter (P : dtmp -> bool) K k d m : (forall x, P x = true -> gkey x = K) -> gkey d = k -> ginv m ->
  filter P (concat (map snd (g_push k d m))) = filter P (concat (map snd m)) ++ filter P [d].
Proof.
  intros HP HK. induction m as [|[k' v] t IH]; intros HI; cbn [g_push].
  - reflexivity.
  - destruct (k2_eqb k k') eqn:E; [|destruct (k2_ltb k k') eqn:L].
    + apply k2_eqb_eq in E. cbn [map concat snd]. rewrite !filter_app, <- !app_assoc. f_equal. cbn [filter]. destruct (P d) eqn:PD; [|now rewrite app_nil_r].
      rewrite (filter_none P (concat (map snd t))); [reflexivity|]. intros x Hx. destruct (P x) eqn:PX; auto. exfalso.
      apply HP in PX, PD. pose proof (ginv_in _ _ (ginv_tl _ _ HI) Hx) as GI. destruct HI as [H1 _]. cbn [map fst] in H1. apply StronglySorted_inv in H1 as [S1 S2].
      rewrite E in *. rewrite Forall_forall in S2. apply S2 in GI. rewrite PX, <- PD, HK in GI. now apply k2_lt_irr in GI.
    + change (concat (map snd ((k, [d]) :: (k', v) :: t))) with (d :: concat (map snd ((k', v) :: t))). cbn [filter]. destruct (P d) eqn:PD; [|now rewrite app_nil_r].
      rewrite (filter_none P (concat (map snd ((k', v) :: t)))); [reflexivity|]. intros x Hx. destruct (P x) eqn:PX; auto. exfalso.
      apply HP in PX, PD. pose proof (ginv_in _ _ HI Hx) as GI. destruct HI as [H1 _].
      cbn [map fst] in *. apply StronglySorted_inv in H1 as [S1 S2]. rewrite <- HK in *. assert (KL : k2_lt (gkey d) (gkey x)).
      { destruct GI as [<-|GI]; [exact L|]. apply k2_lt_trans with k'; auto. rewrite Forall_forall in S2. auto. }
      rewrite PX, PD in KL. now apply k2_lt_irr in KL.
    + cbn [map concat snd]. rewrite !filter_app, IH by (now apply ginv_tl in HI). apply app_assoc.
Qed.

Lemma group_ok send : ginv (group rg send) /\
  (forall P K, (forall x, P x = true -> gkey x = K) -> filter P (concat (map snd (group rg send))) = filter P (map to_d send)).
Proof.
  unfold group, dds_for_each.
  assert (X : forall m, ginv m -> let g := fold_left (fun m p => g_push (rg (fst (fst p)), rg (snd (fst p))) (DTmp (fst (fst p)) (snd (fst p)) (snd p)) m) send m in
     ginv g /\ forall P K, (forall x, P x = true -> gkey x = K) -> filter P (concat (map snd g)) = filter P (concat (map snd m)) ++ filter P (map to_d send)).
  { induction send as [|p send IH]; intros m Hm; cbn [fold_left map].
    - split; auto. intros. now rewrite app_nil_r.
    - destruct (IH _ (g_push_inv (rg (fst (fst p)), rg (snd (fst p))) (to_d p) m eq_refl Hm)) as [I1 I2]. split; [exact I1|].
      intros P K HP. etransitivity; [exact (I2 P K HP)|]. rewrite (g_push_filter P K); auto. rewrite <- app_assoc. f_equal.
      rewrite <- filter_app. reflexivity. }
  destruct (X [] ltac:(split; constructor)) as [A B]. split; auto.
Qed.

Lemma group_in send d : In d (concat (map snd (group rg send))) <-> In d (map to_d send).
Proof.
  destruct (group_ok send) as [_ F]. specialize (F (fun x => if list_eq_dec Z.eq_dec (d_data x) (d_data d) then (d_snd x =? d_snd d)%Z && (d_rcv x =? d_rcv d)%Z else false) (gkey d)).
  set (P := fun x => if list_eq_dec Z.eq_dec (d_data x) (d_data d) then (d_snd x =? d_snd d)%Z && (d_rcv x =? d_rcv d)%Z else false) in *.
  assert (PE : forall x, P x = true <-> x = d).
  { intros [a b c]. unfold P. cbn [d_data d_snd d_rcv]. destruct d as [a' b' c']. cbn [d_data d_snd d_rcv]. destruct (list_eq_dec Z.eq_dec c c') as [->|N].
    - rewrite andb_true_iff, !Z.eqb_eq. split; [intros [-> ->]; auto|intros E; injection E; auto].
    - split; [discriminate|intros E; injection E; intros; congruence]. }
  assert (FE : filter P (concat (map snd (group rg send))) = filter P (map to_d send)) by (apply F; intros x Hx; apply PE in Hx; now subst).
  assert (X : forall l, In d l <-> In d (filter P l)). { intros l. rewrite filter_In. assert (P d = true) by (now apply PE). tauto. }
  rewrite X, FE, <- X. reflexivity.
Qed.

(** * The pieces of all the groups *)
Definition pkey (p : prep) : key2 := (p_snd p, p_rcv p).
Definition prep_ok (max : nat) (p : prep) : Prop :=
  p_sz p = chunk_sz (p_src p) /\ p_src p <> [] /\ chunk_total (p_src p) <= max /\ Forall (fun d => gkey d = pkey p) (p_src p).

Lemma split_all_ok max m : (Z.of_nat max < 2 ^ 62)%Z -> ginv m -> Forall dsmall (concat (map snd m)) -> Forall (fun d => 8 + dbytes d <= max) (concat (map snd m)) ->
  exists ps, split_all max m = Ok ps /\ Forall (prep_ok max) ps /\
    (forall Q, concat (map p_src (filter (fun p => Q (pkey p)) ps)) = concat (map snd (filter (fun kv => Q (fst kv)) m))) /\
    (forall p, In p ps -> In (pkey p) (map fst m)).
Proof.
  intros Hm. unfold split_all.
  assert (X : forall ret, ginv m -> Forall dsmall (concat (map snd m)) -> Forall (fun d => 8 + dbytes d <= max) (concat (map snd m)) ->
    exists ps, rfold (fun kv ret => split_loop max (fst kv) (snd kv) vec_length_sz [] ret) m ret = Ok (ret ++ ps) /\ Forall (prep_ok max) ps /\
    (forall Q, concat (map p_src (filter (fun p => Q (pkey p)) ps)) = concat (map snd (filter (fun kv => Q (fst kv)) m))) /\
    (forall p, In p ps -> In (pkey p) (map fst m))).
  { induction m as [|[k v] t IH]; intros ret HI HS HF; cbn [rfold].
    - exists []. rewrite app_nil_r. split; [reflexivity|]. split; [constructor|]. split; [reflexivity|]. intros p [].
    - cbn [map concat snd] in HS, HF. apply Forall_app in HS as [S1 S2]. apply Forall_app in HF as [F1 F2].
      pose proof HI as [_ HI2]. inversion HI2 as [|? ? V1 V2]. subst. cbn [fst snd] in *.
      assert (M8 : 8 <= max). { destruct V1 as [V1 _]. destruct v; [congruence|]. inversion F1; subst. lia. }
      destruct (split_loop_ok max k v Hm S1 F1 [] ret M8) as (ps & E & P & C); [congruence|].
      rewrite chunk_nil. rewrite E. cbn [rbind]. destruct (IH (ret ++ ps) (ginv_tl _ _ HI) S2 F2) as (qs & E2 & P2 & C2 & I2).
      exists (ps ++ qs). rewrite app_assoc. split; [exact E2|]. split; [|split].
      + apply Forall_app. split; auto. destruct V1 as [_ V1]. rewrite Forall_forall in P, V1 |- *. intros p Hp. destruct (P p Hp) as (A1 & A2 & A3 & A4 & A5).
        split; auto. split; auto. split; auto. unfold pkey. rewrite A1, A2, <- surjective_pairing. apply Forall_forall. intros d Hd. apply V1.
        cbn [app] in C. rewrite <- C. apply in_concat. exists (p_src p). split; auto. now apply in_map.
      + intros Q. rewrite filter_app, map_app, concat_app, C2. cbn [filter fst].
        assert (PK : forall p, In p ps -> pkey p = k). { intros p Hp. rewrite Forall_forall in P. destruct (P p Hp) as (A1 & A2 & _). unfold pkey. rewrite A1, A2. now destruct k. }
        destruct (Q k) eqn:QK.
        * cbn [map concat snd]. f_equal. cbn [app] in C. rewrite <- C. f_equal. f_equal. clear - PK QK. induction ps as [|p ps IH]; cbn [filter]; auto.
          rewrite (PK p) by (left; auto). rewrite QK. f_equal. apply IH. intros; apply PK; right; auto.
        * rewrite filter_none; [reflexivity|]. intros p Hp. now rewrite PK.
      + intros p Hp. apply in_app_iff in Hp as [Hp|Hp].
        * rewrite Forall_forall in P. destruct (P p Hp) as (A1 & A2 & _). left. cbn [fst]. unfold pkey. rewrite A1, A2. now destruct k.
        * right. now apply I2. }
  intros HI HS HF. destruct (X [] HI HS HF) as (ps & E & R). exists ps. auto.
Qed.

Lemma split_all_throw max m : (Z.of_nat max < 2 ^ 62)%Z -> ginv m -> Forall dsmall (concat (map snd m)) -> Exists (fun d => max < 8 + dbytes d) (concat (map snd m)) ->
  split_all max m = Throw.
Proof.
  intros Hm. unfold split_all. generalize (@nil prep). induction m as [|[k v] t IH]; intros ret HI HS HF; [inversion HF|]. cbn [rfold].
  cbn [map concat snd] in HS, HF. apply Forall_app in HS as [S1 S2]. pose proof HI as [_ HI2]. inversion HI2 as [|? ? V1 V2]. subst. cbn [fst snd] in *.
  assert (CO : csmall []) by (unfold csmall, chunk_total; cbn; lia). rewrite chunk_nil.
  destruct (Forall_Exists_dec (fun d => 8 + dbytes d <= max) (fun d => Compare_dec.le_dec _ _) v) as [F|F].
  - assert (M8 : 8 <= max). { destruct V1 as [V1 _]. destruct v; [congruence|]. inversion F; subst. lia. }
    destruct (split_loop_ok max k v Hm S1 F [] ret M8) as (ps & E & P & C); [congruence|]. rewrite E. cbn [rbind]. apply IH; auto; [now apply ginv_tl in HI|].
    apply Exists_app in HF as [HF|HF]; auto. exfalso. apply Exists_exists in HF as (d & Hd & HO). rewrite Forall_forall in F. apply F in Hd. lia.
  - rewrite split_loop_throw; auto. apply Exists_exists in F as (d & Hd & HO). apply Exists_exists. exists d. split; auto. lia.
Qed.
End G.
