(** Proofs for C44: one rank. *)
From Verif Require Import Base Streams Serialize Containers Containers_spec Containers_proofs Layer Layer_spec Layer_proofs Layer_fields Layer_main
  PatchData PatchData_layer Reattr Reattr_spec LayerSer_spec.
From Verif Require PatchData_proofs DDComm_main DDComm_group LayerSer_proofs.
From Coq Require Import Permutation ZifyBool ZifyNat.
Local Open Scope nat_scope.

Definition Lof (lay : layout) (os : list obj_t) : layer (list Z) :=
  map (fun '(k, (ty, nv)) => Field ty nv (column k os)) (combine (seq 0 (length lay)) lay).
Lemma stores_Lof lay os : Forall (shaped lay) os -> stores lay os (Lof lay os).
Proof. intros H. split; auto. Qed.
Lemma stores_eq lay os L : stores lay os L -> L = Lof lay os.
Proof. intros [_ H]. exact H. Qed.

Lemma Lof_nth lay os k d : nth_error lay k = Some d -> nth_error (Lof lay os) k = Some (Field (fst d) (snd d) (column k os)).
Proof.
  intros H. unfold Lof. rewrite nth_error_map.
  assert (X : forall n l j, nth_error l j = Some d -> nth_error (combine (seq n (length l)) l) j = Some (n + j, d)).
  { intros n l. revert n. induction l as [|a l IH]; intros n [|j] E; try discriminate; cbn [length seq combine nth_error] in *.
    - injection E as ->. f_equal. f_equal. lia.
    - rewrite (IH (S n) j E). f_equal. f_equal. lia. }
  rewrite (X 0 lay k H). cbn [option_map]. destruct d. reflexivity.
Qed.

Section L.
Variable lay : layout.
Hypothesis HG : good_layout lay.

Lemma cnt_Lof os : Forall (shaped lay) os -> fits lay (length os) -> l_get_obj_cnt (Lof lay os) = Ok (length os).
Proof.
  intros HS HF. destruct HG as [NE GL]. destruct lay as [|[ty nv] l] eqn:EL; [congruence|]. cbn [l_get_obj_cnt]. unfold Lof. cbn [length seq combine map l_get_obj_cnt].
  rewrite <- EL in *. rewrite column_rows. rewrite obj_cnt_ok; [now rewrite rows_length|]. apply (rows_ok lay os 0 ty nv); auto. now rewrite EL.
Qed.
Lemma empty_Lof os : Forall (shaped lay) os -> fits lay (length os) -> l_is_empty (Lof lay os) = Ok (match os with [] => true | _ => false end).
Proof. intros HS HF. unfold l_is_empty. rewrite (cnt_Lof os HS HF). cbn [rbind]. destruct os; reflexivity. Qed.
Lemma field_cnt (os : list obj_t) k d : Forall (shaped lay) os -> fits lay (length os) -> nth_error lay k = Some d ->
  get_obj_cnt (Field (fst d) (snd d) (column k os)) = Ok (length os).
Proof.
  intros HS HF H. rewrite column_rows. rewrite obj_cnt_ok; [now rewrite rows_length|]. apply (rows_ok lay os k (fst d) (snd d)); auto. now destruct d.
Qed.

Lemma keep_Lof E os ids : good_envs E -> Forall (shaped lay) os -> fits lay (length os) -> valid_ids os ids -> fits lay (length ids) ->
  l_keep_ids E ids (Lof lay os) = Ret (Lof lay (pick os ids)).
Proof.
  intros HE HS HF HV HF2.
  destruct (op_sim (KeepIds E 0 ids) [(lay, os)] [Lof lay os]) as [(s' & S' & R & Sp & Sm)|(S' & R & Sp & Sm)].
  - constructor; [|constructor]. cbn [fst snd]. repeat split; auto; try apply HG; try apply HF.
  - cbn. split; auto. exists lay, os. repeat split; auto; try apply HF2.
  - cbn [run_op] in R. unfold on_layer in R. cbn [nth_error] in R. destruct (l_keep_ids E ids (Lof lay os)) as [L'|?|]; try discriminate. injection R as <-.
    inversion Sp as [ | | | |? ? ? ? lay1 os1 L0 | | | | | | | | | ]; subst. injection L0 as <- <-. unfold set in Sm. cbn [upd] in Sm.
    inversion Sm as [|? ? ? ? (_ & _ & S1) _]; subst. cbn [fst snd] in *. f_equal. now apply stores_eq.
  - inversion Sp.
Qed.
Lemma append_Lof E os ps ids : good_envs E -> Forall (shaped lay) os -> Forall (shaped lay) ps -> fits lay (length os) -> valid_ids os ids -> fits lay (length ps + length ids) ->
  l_append_subset_to E ids (Lof lay os) (Lof lay ps) = Ret (Lof lay os, Lof lay (ps ++ pick os ids)).
Proof.
  intros HE HS HP HF HV HF2. destruct (append_one E lay os ps (Lof lay os) (Lof lay ps) ids) as (M' & R & S'); auto using stores_Lof.
  rewrite R. now rewrite (stores_eq _ _ _ S').
Qed.
Lemma insert_Lof E os ps : good_envs E -> Forall (shaped lay) os -> Forall (shaped lay) ps -> fits lay (length ps + length os) ->
  l_insert E (Lof lay ps) (Lof lay os) = Ret (Lof lay (ps ++ os), Lof lay os).
Proof.
  intros HE HS HP HF2. destruct (insert_one E lay os ps (Lof lay os) (Lof lay ps)) as (M' & R & S'); auto using stores_Lof.
  rewrite R. now rewrite (stores_eq _ _ _ S').
Qed.

(** ** The loop that sorts the objects by destination *)
Section Own.
Variable own : obj_t -> Z.
Definition idx (os : list obj_t) (n : Z) (m : nat) : list nat :=
  filter (fun i => match nth_error os i with Some o => (own o =? n)%Z | None => false end) (seq 0 m).
Lemma idx_S os n m o : nth_error os m = Some o -> idx os n (S m) = idx os n m ++ (if (own o =? n)%Z then [m] else []).
Proof. intros H. unfold idx. rewrite seq_S, filter_app. cbn [filter Nat.add]. rewrite H. reflexivity. Qed.
Lemma pick_idx os n : pick os (idx os n (length os)) = filter (fun o => (own o =? n)%Z) os.
Proof. apply (pick_filter (fun o => (own o =? n)%Z)). Qed.
Lemma idx_valid os n : valid_ids os (idx os n (length os)).
Proof. apply Forall_forall. intros i Hi. apply filter_In in Hi as (Hi & _). apply in_seq in Hi. lia. Qed.
Lemma idx_len os n : length (idx os n (length os)) = length (filter (fun o => (own o =? n)%Z) os).
Proof. rewrite <- pick_idx. symmetry. apply Layer_proofs.pick_length. apply idx_valid. Qed.
Lemma idx_nil os n m : m <= length os -> idx os n m = [] <-> forall i o, i < m -> nth_error os i = Some o -> own o <> n.
Proof.
  intros Hm. split.
  - intros E i o Hi Ho Hn. assert (In i (idx os n m)); [|rewrite E in H; destruct H]. apply filter_In. split; [apply in_seq; lia|]. rewrite Ho. lia.
  - intros H. apply DDComm_group.filter_none. intros i Hi. apply in_seq in Hi. destruct (nth_error os i) eqn:E; auto. apply Z.eqb_neq. eapply H; eauto. lia.
Qed.

Definition ext_inv (cur : Z) os m (ext : list (Z * list nat)) : Prop :=
  NoDup (map fst ext) /\ forall n v, In (n, v) ext <-> n <> cur /\ v = idx os n m /\ v <> [].
Lemma ext_push_in n i ext : NoDup (map fst ext) -> NoDup (map fst (ext_push n i ext)) /\
  (forall k, In k (map fst (ext_push n i ext)) <-> k = n \/ In k (map fst ext)) /\
  forall k v, In (k, v) (ext_push n i ext) <-> (k <> n /\ In (k, v) ext) \/ (k = n /\ exists w, v = w ++ [i] /\ (In (n, w) ext \/ (w = [] /\ ~ In n (map fst ext)))).
Proof.
  induction ext as [|[m w] t IH]; intros ND; cbn [ext_push map fst].
  - split; [repeat constructor; auto|]. split; [intros k; cbn [In map fst]; intuition congruence|]. intros k v. cbn [In]. split.
    + intros [E|[]]. injection E as <- <-. right. split; auto. exists []. split; auto.
    + intros [(_ & [])|(-> & w & -> & [[]|(-> & _)])]. now left.
  - inversion ND as [|? ? N1 N2]; subst. destruct (Z.eqb_spec m n) as [->|NE].
    + split; [cbn [map fst]; constructor; auto|]. split; [intros k; cbn [In map fst]; intuition congruence|]. intros k v. cbn [In]. split.
      * intros [E|H]. { injection E as <- <-. right. split; auto. exists w. split; auto. }
        left. split; [|now right]. intros ->. apply N1. now apply (in_map fst) in H.
      * intros [(Hk & [E|H])|(-> & w' & -> & [[E|H]|(_ & X)])]; auto.
        { injection E as <- <-. congruence. } { injection E as <-. now left. } { exfalso. apply N1. now apply (in_map fst) in H. } { exfalso. apply X. now left. }
    + destruct (IH N2) as (I1 & I2 & I3). split; [|split].
      * cbn [map fst]. constructor; auto. rewrite I2. intros [X|X]; auto.
      * intros k. cbn [In map fst]. rewrite I2. intuition congruence.
      * intros k v. cbn [In]. rewrite I3. split.
        -- intros [E|[(H1 & H2)|(-> & w' & -> & [H|(-> & X)])]].
           ++ injection E as <- <-. left. split; auto.
           ++ left; split; auto.
           ++ right. split; auto. exists w'. split; auto.
           ++ right. split; auto. exists []. split; auto. right. split; auto. cbn [fst]. intros [Y|Y]; auto.
        -- intros [(H1 & [H2|H2])|(-> & w' & -> & [[E|H]|(-> & X)])].
           ++ now left.
           ++ right. left. split; auto.
           ++ injection E as E1 E2. congruence.
           ++ right. right. split; auto. exists w'. split; auto.
           ++ right. right. split; auto. exists []. split; auto. right. split; auto.
Qed.

Lemma split_loop_ok cur os : exists ext, split_loop cur (map own os) (length os) = Ok (idx os cur (length os), ext) /\ ext_inv cur os (length os) ext.
Proof.
  unfold split_loop.
  assert (G : forall m, m <= length os -> exists ext, rfold (fun i ke => new_pid <- aget (map own os) i ;;
      if negb (cur =? new_pid)%Z then Ok (fst ke, ext_push new_pid i (snd ke)) else Ok (fst ke ++ [i], snd ke)) (seq 0 m) ([], []) = Ok (idx os cur m, ext) /\ ext_inv cur os m ext).
  { induction m as [|m IH]; intros Hm.
    - exists []. split; [reflexivity|]. split; [constructor|]. intros n v. split; [intros []|]. intros (_ & -> & H). destruct H. reflexivity.
    - destruct IH as (ext & E & I1 & I2); [lia|]. rewrite seq_S, rfold_app. rewrite E. cbn [rbind rfold Nat.add].
      destruct (nth_error os m) as [o|] eqn:Eo; [|apply nth_error_None in Eo; lia].
      assert (EA : aget (map own os) m = Ok (own o)) by (apply aget_ok; rewrite nth_error_map, Eo; reflexivity). rewrite EA. cbn [rbind fst snd].
      destruct (Z.eqb_spec cur (own o)) as [Ec|Nc]; cbn [negb].
      + exists ext. split. { rewrite (idx_S os cur m o Eo). now rewrite <- Ec, Z.eqb_refl. }
        split; auto. intros n v. rewrite I2. assert (X : n <> cur -> idx os n (S m) = idx os n m). { intros Hn. rewrite (idx_S os n m o Eo). destruct (Z.eqb_spec (own o) n); [congruence|now rewrite app_nil_r]. }
        split; intros (H1 & H2 & H3); (split; [auto|split; [|auto]]); [rewrite X; auto|rewrite X in H2; auto].
      + exists (ext_push (own o) m ext). split. { rewrite (idx_S os cur m o Eo). destruct (Z.eqb_spec (own o) cur); [congruence|now rewrite app_nil_r]. }
        destruct (ext_push_in (own o) m ext I1) as (P1 & P2 & P3). split; auto. intros n v. rewrite P3, (idx_S os n m o Eo). split.
        * intros [(H1 & H2)|(-> & w & -> & H)].
          -- apply I2 in H2 as (A & B & C). destruct (Z.eqb_spec (own o) n); [congruence|]. rewrite app_nil_r. auto.
          -- rewrite Z.eqb_refl. split; [auto|]. split; [|destruct w; discriminate]. f_equal. destruct H as [H|(-> & H)].
             ++ now apply I2 in H.
             ++ symmetry. destruct (idx os (own o) m) as [|n l] eqn:EI; auto. exfalso. apply H. apply (in_map fst ext (own o, n :: l)). apply I2. split; [auto|]. split; [congruence|discriminate].
        * intros (H1 & -> & H3). destruct (Z.eqb_spec (own o) n) as [<-|Hn].
          -- right. split; auto. exists (idx os (own o) m). split; auto. destruct (idx os (own o) m) as [|y l] eqn:EI.
             ++ right. split; auto. intros Hin. apply in_map_iff in Hin as ([k v] & Ek & Hin). cbn [fst] in Ek. subst k. apply I2 in Hin as (_ & -> & C). congruence.
             ++ left. apply I2. split; auto. split; [congruence|discriminate].
          -- left. rewrite app_nil_r in *. split; auto. apply I2. auto. }
  destruct (G (length os) (le_n _)) as (ext & E & I). eauto.
Qed.
End Own.
End L.
