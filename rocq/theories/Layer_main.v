(** Layers: every history of calls simulates lists of objects. *)
From Verif Require Import Base Par Scan Scan_spec Scan_proofs Reduction Layer Layer_spec Layer_proofs Layer_fields.
From Coq Require Import ZifyBool ZifyNat.
Local Open Scope nat_scope.
Ltac Zify.zify_post_hook ::= Z.div_mod_to_equations.

Lemma Forall2_length {X Y} (R : X -> Y -> Prop) l m : Forall2 R l m -> length l = length m.
Proof. induction 1; simpl; auto. Qed.

Section L.
Context {A : Type}.
Implicit Types (os ps : list (object A)) (L M : layer A).

Definition colayer (s : nat) (lay : layout) (c : nat -> list A) : layer A :=
  map (fun '(k, (ty, nv)) => Field ty nv (c k)) (combine (seq s (length lay)) lay).
Definition rows (k : nat) os : list (list A) := map (fun o => nth k o []) os.
Lemma column_rows k os : column k os = concat (rows k os).
Proof. apply flat_map_concat_map. Qed.

Lemma colayer_cons s ty nv lay c : colayer s ((ty, nv) :: lay) c = Field ty nv (c s) :: colayer (S s) lay c.
Proof. reflexivity. Qed.

Lemma each_ok op c c' : forall lay s,
  (forall k ty nv, nth_error lay k = Some (ty, nv) -> op (s + k) (Field ty nv (c (s + k))) = Ret (Field ty nv (c' (s + k)))) ->
  each op s (colayer s lay c) = Ret (colayer s lay c').
Proof.
  induction lay as [|[ty nv] lay IH]; intros s H. reflexivity.
  rewrite !colayer_cons. cbn [each]. pose proof (H 0 ty nv eq_refl) as H0. rewrite Nat.add_0_r in H0. rewrite H0.
  rewrite IH. auto. intros k ty' nv' N. replace (S s + k) with (s + S k) by lia. apply H. auto.
Qed.
Lemma each_raise op c lay s : lay <> [] ->
  (forall k ty nv, nth_error lay k = Some (ty, nv) -> op (s + k) (Field ty nv (c (s + k))) = Raise (Field ty nv (c (s + k)))) ->
  each op s (colayer s lay c) = Raise (colayer s lay c).
Proof.
  intros Hne H. destruct lay as [|[ty nv] lay]; [congruence|]. rewrite colayer_cons. cbn [each].
  pose proof (H 0 ty nv eq_refl) as H0. rewrite Nat.add_0_r in H0. rewrite H0. auto.
Qed.
Lemma each2_ok op c d c' d' : forall lay s,
  (forall k ty nv, nth_error lay k = Some (ty, nv) ->
     op (s + k) (Field ty nv (c (s + k))) (Field ty nv (d (s + k))) = Ret (Field ty nv (c' (s + k)), Field ty nv (d' (s + k)))) ->
  each2 op s (colayer s lay c) (colayer s lay d) = Ret (colayer s lay c', colayer s lay d').
Proof.
  induction lay as [|[ty nv] lay IH]; intros s H. reflexivity.
  rewrite !colayer_cons. cbn [each2 f_ty]. rewrite Nat.eqb_refl. cbn [negb].
  pose proof (H 0 ty nv eq_refl) as H0. rewrite Nat.add_0_r in H0. rewrite H0.
  rewrite IH. auto. intros k ty' nv' N. replace (S s + k) with (s + S k) by lia. apply H. auto.
Qed.
Lemma each2_raise op c d lay s : lay <> [] ->
  (forall k ty nv, nth_error lay k = Some (ty, nv) ->
     op (s + k) (Field ty nv (c (s + k))) (Field ty nv (d (s + k))) = Raise (Field ty nv (c (s + k)), Field ty nv (d (s + k)))) ->
  each2 op s (colayer s lay c) (colayer s lay d) = Raise (colayer s lay c, colayer s lay d).
Proof.
  intros Hne H. destruct lay as [|[ty nv] lay]; [congruence|]. rewrite !colayer_cons. cbn [each2 f_ty].
  rewrite Nat.eqb_refl. cbn [negb]. pose proof (H 0 ty nv eq_refl) as H0. rewrite Nat.add_0_r in H0. rewrite H0. auto.
Qed.
Lemma colayer_ext s lay c c' : (forall k, k < length lay -> c (s + k) = c' (s + k)) -> colayer s lay c = colayer s lay c'.
Proof.
  revert s. induction lay as [|[ty nv] lay IH]; intros s H. reflexivity.
  rewrite !colayer_cons. f_equal.
  - f_equal. specialize (H 0). rewrite Nat.add_0_r in H. apply H. simpl. lia.
  - apply IH. intros k Hk. replace (S s + k) with (s + S k) by lia. apply H. simpl. lia.
Qed.

Lemma shaped_row lay (o : object A) k ty nv : shaped lay o -> nth_error lay k = Some (ty, nv) -> length (nth k o []) = nv.
Proof.
  intros H. revert k. induction H as [|d r lay o Hd H IH]; intros [|k] N; simpl in *; try discriminate.
  - injection N as ->. auto.
  - apply IH. auto.
Qed.
Lemma rows_ok lay os k ty nv : good_layout lay -> fits lay (length os) -> Forall (shaped lay) os ->
  nth_error lay k = Some (ty, nv) -> ok_rows nv (rows k os).
Proof.
  intros (_ & HG) (_ & HF) HS N. pose proof (nth_error_In _ _ N) as HI. repeat split.
  - eapply Forall_forall in HG; eauto. auto.
  - apply Forall_forall. intros r Hr. apply in_map_iff in Hr as (o & <- & Ho).
    eapply shaped_row; eauto. eapply Forall_forall in HS; eauto.
  - unfold rows. rewrite map_length. eapply Forall_forall in HF; eauto. auto.
Qed.
Lemma rows_length k os : length (rows k os) = length os. Proof. apply map_length. Qed.
Lemma rows_pick k os ids : rows k (pick os ids) = pick (rows k os) ids. Proof. symmetry. apply pick_map. Qed.
Lemma rows_app k os ps : rows k (os ++ ps) = rows k os ++ rows k ps. Proof. apply map_app. Qed.
Lemma rows_without k os ids : rows k (without os ids) = without (rows k os) ids.
Proof. unfold without. rewrite rows_pick, rows_length. auto. Qed.
Lemma rows_firstn k os n : rows k (firstn n os) = firstn n (rows k os). Proof. symmetry. apply firstn_map. Qed.
Lemma rows_skipn k os n : rows k (skipn n os) = skipn n (rows k os). Proof. symmetry. apply skipn_map. Qed.
Lemma valid_rows k os ids : valid_ids os ids -> valid_ids (rows k os) ids.
Proof. unfold valid_ids. rewrite rows_length. auto. Qed.

(** Reassembling objects from the columns. *)
Lemma assemble lay n (c : nat -> list A) :
  (forall k ty nv, nth_error lay k = Some (ty, nv) -> length (c k) = n * nv) ->
  exists os, length os = n /\ Forall (shaped lay) os /\ forall k, k < length lay -> column k os = c k.
Proof.
  revert c. induction lay as [|[ty nv] lay IH]; intros c H.
  - exists (repeat [] n). split; [apply repeat_length|]. split.
    + apply Forall_forall. intros o Ho. apply repeat_spec in Ho. subst. constructor.
    + simpl. intros; lia.
  - destruct (IH (fun k => c (S k))) as (os & HL & HS & HC). { intros k ty' nv' N. apply (H (S k) ty' nv' N). }
    pose proof (H 0 ty nv eq_refl) as H0.
    set (row i := firstn nv (skipn (i * nv) (c 0))).
    exists (map (fun '(i, o) => row i :: o) (combine (seq 0 n) os)). split; [|split].
    + rewrite map_length, combine_length, seq_length. lia.
    + apply Forall_forall. intros o Ho. apply in_map_iff in Ho as ([i o'] & <- & Hio).
      pose proof (in_combine_l _ _ _ _ Hio) as Hi. apply in_combine_r in Hio. apply in_seq in Hi.
      constructor; [|eapply Forall_forall in HS; eauto]. unfold row. simpl.
      rewrite firstn_length, skipn_length, H0. nia.
    + intros [|k] Hk; rewrite column_rows; unfold rows; rewrite map_map.
      * rewrite (map_ext _ (fun p => row (fst p))) by (intros [? ?]; auto).
        assert (HF : map fst (combine (seq 0 n) os) = seq 0 n).
        { clear -HL. revert os HL. generalize (seq_length n 0). generalize (seq 0 n). intros l Hl os HL.
          rewrite <- HL in Hl. clear HL. revert os Hl. induction l; intros [|o os] Hl; simpl in *; try discriminate; auto.
          f_equal. apply IHl. congruence. }
        rewrite <- (map_map fst row). unfold object in *. rewrite HF.
        clear -H0. subst row. revert H0. generalize (c 0). intros l Hl.
        assert (G : forall m, m <= n -> concat (map (fun i => firstn nv (skipn (i * nv) l)) (seq 0 m)) = firstn (m * nv) l).
        { induction m as [|m IHm]; intros Hm. reflexivity.
          rewrite seq_S, map_app, concat_app, IHm by lia. simpl. rewrite app_nil_r.
          replace (nv + m * nv) with (m * nv + nv) by lia.
          rewrite <- (firstn_skipn (m * nv) l) at 3. rewrite firstn_app, firstn_firstn, firstn_length.
          f_equal. f_equal; lia. rewrite Nat.min_l by nia. f_equal. lia. }
        rewrite G by lia. apply firstn_all2. lia.
      * rewrite (map_ext _ (fun p => nth k (snd p) [])) by (intros [? ?]; auto).
        assert (HF : map snd (combine (seq 0 n) os) = os).
        { clear -HL. revert HL. generalize (seq_length n 0). generalize (seq 0 n). intros l Hl HL.
          rewrite <- HL in Hl. clear HL. revert l Hl. induction os; intros [|o l] Hl; simpl in *; try discriminate; auto.
          f_equal. apply IHos. congruence. }
        rewrite <- (map_map snd (fun o => nth k o [])). unfold object in *. rewrite HF.
        fold (rows k os). rewrite <- column_rows. apply (HC k). simpl in Hk. lia.
Qed.
Lemma object_ext lay (o p : object A) : shaped lay o -> shaped lay p ->
  (forall k, k < length lay -> nth k o [] = nth k p []) -> o = p.
Proof.
  intros Ho Hp H. apply (list_eq_nth []).
  - apply Forall2_length in Ho, Hp. congruence.
  - intros i Hi. apply H. apply Forall2_length in Ho. lia.
Qed.
Lemma column_inj lay : Forall (fun d => 0 < snd d) lay -> forall os ps, length os = length ps ->
  Forall (shaped lay) os -> Forall (shaped lay) ps ->
  (forall k, k < length lay -> column k os = column k ps) -> os = ps.
Proof.
  intros HG. induction os as [|o os IH]; intros [|p ps] HL Ho Hp H; simpl in *; try discriminate; auto.
  inversion Ho; inversion Hp; subst.
  assert (G : forall k, k < length lay -> nth k o [] = nth k p [] /\ column k os = column k ps).
  { intros k Hk. specialize (H k Hk). unfold column in H. simpl in H.
    assert (LE : length (nth k o []) = length (nth k p [])).
    { destruct (nth_error lay k) as [[ty nv]|] eqn:N. 2:{ apply nth_error_None in N. lia. }
      rewrite !(shaped_row lay _ k ty nv); auto. }
    assert (E : forall (a b c d : list A), length a = length c -> a ++ b = c ++ d -> a = c /\ b = d).
    { induction a as [|x a IHa]; intros b [|y c'] d L E; simpl in *; try discriminate; auto.
      injection E as -> E. apply IHa in E as [-> ->]; auto. }
    apply E in H; auto. }
  f_equal.
  - eapply object_ext; eauto. intros k Hk. apply G. auto.
  - apply IH; auto. intros k Hk. apply G. auto.
Qed.

Lemma resized_ok lay os n (c : nat -> list A) : good_layout lay -> Forall (shaped lay) os ->
  (forall k ty nv, nth_error lay k = Some (ty, nv) ->
     length (c k) = n * nv /\ firstn (length os * nv) (c k) = firstn (n * nv) (column k os)) ->
  exists os', resized lay n os os' /\ forall k, k < length lay -> column k os' = c k.
Proof.
  intros (_ & HG) HS H.
  destruct (assemble lay n c) as (os' & HL & HS' & HC). { intros. eapply H; eauto. }
  exists os'. split; auto. split; auto. split; auto.
  assert (HF : forall (P : object A -> Prop) l m, Forall P l -> Forall P (firstn m l)).
  { intros P l m Hl. apply Forall_forall. intros x Hx. apply (proj1 (Forall_forall _ _) Hl).
    rewrite <- (firstn_skipn m l). apply in_or_app. auto. }
  apply (column_inj lay); auto.
  - rewrite !firstn_length. lia.
  - intros k Hk. destruct (nth_error lay k) as [[ty nv]|] eqn:N. 2:{ apply nth_error_None in N. lia. }
    destruct (H k ty nv N) as (_ & E).
    assert (HU : forall l, Forall (shaped lay) l -> uniform nv (rows k l)).
    { intros l Hl. apply Forall_forall. intros r Hr. apply in_map_iff in Hr as (o & <- & Ho).
      eapply shaped_row; eauto. eapply Forall_forall in Hl; eauto. }
    rewrite !column_rows, !rows_firstn, !(concat_firstn nv) by auto. rewrite <- !column_rows.
    rewrite HC by auto. auto.
Qed.

(** * One call *)
Lemma stores_colayer lay os L : stores lay os L <-> Forall (shaped lay) os /\ L = colayer 0 lay (fun k => column k os).
Proof. reflexivity. Qed.

Lemma same_live s S h lay os : same_layers s S -> live s h lay os ->
  good_layout lay /\ fits lay (length os) /\ Forall (shaped lay) os /\ nth_error S h = Some (colayer 0 lay (fun k => column k os)).
Proof.
  intros H. revert h. induction H as [|x L s S Hx H IH]; intros [|h] Hl; try discriminate.
  - injection Hl as ->. destruct Hx as (H1 & H2 & H3 & ->). auto.
  - apply IH. auto.
Qed.
Lemma same_upd s S h lay os : same_layers s S -> good_layout lay -> fits lay (length os) -> Forall (shaped lay) os ->
  same_layers (set s h lay os) (upd S h (colayer 0 lay (fun k => column k os))).
Proof.
  intros H Hg Hf Hs. unfold set, same_layers in *. revert h. induction H as [|x L s S Hx H IH]; intros [|h]; simpl; constructor; auto.
  split; auto. split; auto. split; auto.
Qed.
Lemma same_upd_self s S h lay os : same_layers s S -> live s h lay os ->
  same_layers s (upd S h (colayer 0 lay (fun k => column k os))).
Proof.
  intros H. revert h. induction H as [|x L s S Hx H IH]; intros [|h] Hl; try discriminate; simpl; constructor; auto.
  - injection Hl as ->. destruct Hx as (H1 & H2 & H3 & H4). repeat (split; auto).
  - apply IH; auto.
Qed.
Lemma fits_le lay n m : m <= n -> fits lay n -> fits lay m.
Proof.
  intros H (H1 & H2). split; [lia|]. eapply Forall_impl; [|exact H2]. simpl. intros d Hd.
  assert (m * snd d <= n * snd d) by (apply Nat.mul_le_mono_r; auto). lia.
Qed.
Lemma fits_nth lay n k ty nv : fits lay n -> nth_error lay k = Some (ty, nv) -> (Z.of_nat (n * nv) < 2 ^ 32)%Z.
Proof. intros (_ & H) N. apply nth_error_In in N. eapply Forall_forall in H; eauto. auto. Qed.

(** The outcome of a call against the specification. *)
Definition sim_op (c : lop A) (s : list (slayer A)) (S : list (layer A)) : Prop :=
  (exists s' S', run_op c S = Ret S' /\ spec_op c s (Some s') /\ same_layers s' S') \/
  (exists S', run_op c S = Raise S' /\ spec_op c s None /\ same_layers s S').

Lemma live_fun s h lay os lay' os' : live (A := A) s h lay os -> live s h lay' os' -> lay = lay' /\ os = os'.
Proof. unfold live. intros H H'. rewrite H in H'. injection H' as -> ->. auto. Qed.
Lemma live_lt s h lay os : live (A := A) s h lay os -> h < length s.
Proof. intros H. apply nth_error_Some. unfold live in H. congruence. Qed.

Lemma resize_sim s S h lay os n c :
  same_layers s S -> live s h lay os -> fits lay n ->
  (forall k ty nv, nth_error lay k = Some (ty, nv) ->
     length (c k) = n * nv /\ firstn (length os * nv) (c k) = firstn (n * nv) (column k os)) ->
  exists os', resized lay n os os' /\ same_layers (set s h lay os') (upd S h (colayer 0 lay c)).
Proof.
  intros HR Hl Hf H. destruct (same_live _ _ _ _ _ HR Hl) as (Hg & Hfo & Hs & _).
  destruct (resized_ok lay os n c Hg Hs H) as (os' & Hr & HC). exists os'. split; auto.
  replace (colayer 0 lay c) with (colayer 0 lay (fun k => column k os')).
  - destruct Hr as (HL & HS' & _). apply same_upd; auto. rewrite HL. auto.
  - apply colayer_ext. intros k Hk. apply HC. auto.
Qed.
Lemma Forall_pick_shaped lay os ids : Forall (shaped lay) os -> Forall (shaped lay) (pick os ids).
Proof. apply pick_Forall. Qed.
Lemma without_len {X} (l : list X) ids : length (without l ids) <= length l.
Proof.
  unfold without. rewrite pick_length.
  - rewrite <- (seq_length (length l) 0) at 2.
    pose proof (filter_split (fun i => negb (if in_dec Nat.eq_dec i ids then true else false)) (seq 0 (length l))). cbv beta in H. lia.
  - apply Forall_forall. intros i Hi. apply filter_In in Hi as (Hi & _). apply in_seq in Hi. lia.
Qed.

Theorem op_sim c s S : same_layers s S -> arg_ok c s -> sim_op c s S.
Proof.
  intros HR Ha. destruct c as [E h n|E h n|E h ids|E h ids|E h ids|E h k|E h k n|E h k ids|E E' h k ids]; simpl in Ha.
  - (* Resize *)
    destruct Ha as (HE & lay & os & Hl & Hf). destruct (same_live _ _ _ _ _ HR Hl) as (Hg & Hfo & Hs & HN).
    left. destruct (resize_sim s S h lay os n (fun k => buf_resize (v_mem (E k)) (n * snd (nth k lay (0, 0))) (column k os)) HR Hl Hf) as (os' & Hr & HS').
    { intros k ty nv N. rewrite (nth_error_nth _ _ (0, 0) N). cbn [snd]. rewrite buf_resize_len. split; auto.
      rewrite <- (buf_resize_first (v_mem (E k)) (n * nv)). f_equal. rewrite column_rows, (concat_len nv), rows_length. auto.
      eapply rows_ok; eauto. }
    do 2 eexists. split; [|split; [econstructor; eauto|exact HS']].
    cbn [run_op]. unfold on_layer. rewrite HN. unfold l_resize, on1.
    rewrite (each_ok _ _ (fun k => buf_resize (v_mem (E k)) (n * snd (nth k lay (0, 0))) (column k os))). auto.
    intros k ty nv N. cbn [Nat.add]. rewrite resize_ok by (eapply fits_nth; eauto). cbn [atomically].
    rewrite (nth_error_nth _ _ (0, 0) N). auto.
  - (* Expand *)
    destruct Ha as (HE & lay & os & Hl & Hf). destruct (same_live _ _ _ _ _ HR Hl) as (Hg & Hfo & Hs & HN).
    left. destruct (resize_sim s S h lay os (length os + n) (fun k => buf_resize (v_mem (E k)) ((length os + n) * snd (nth k lay (0, 0))) (column k os)) HR Hl Hf) as (os' & Hr & HS').
    { intros k ty nv N. rewrite (nth_error_nth _ _ (0, 0) N). cbn [snd]. rewrite buf_resize_len. split; auto.
      rewrite <- (buf_resize_first (v_mem (E k)) ((length os + n) * nv)). f_equal. rewrite column_rows, (concat_len nv), rows_length. auto.
      eapply rows_ok; eauto. }
    do 2 eexists. split; [|split; [econstructor; eauto|exact HS']].
    cbn [run_op]. unfold on_layer. rewrite HN. unfold l_expand, on1.
    rewrite (each_ok _ _ (fun k => buf_resize (v_mem (E k)) ((length os + n) * snd (nth k lay (0, 0))) (column k os))). auto.
    intros k ty nv N. cbn [Nat.add]. rewrite column_rows. rewrite expand_ok.
    + rewrite rows_length. cbn [atomically]. rewrite (nth_error_nth _ _ (0, 0) N). auto.
    + eapply rows_ok; eauto.
    + rewrite rows_length. eapply fits_nth; eauto.
  - (* IndexRemap *)
    destruct Ha as (HE & lay & os & Hl & HV). destruct (same_live _ _ _ _ _ HR Hl) as (Hg & Hfo & Hs & HN).
    destruct (Nat.eq_dec (length ids) (length os)) as [EL|EL].
    + left. do 2 eexists. split; [|split; [eapply S_remap; eauto|]].
      2:{ apply same_upd; eauto. rewrite pick_length, EL; auto. apply Forall_pick_shaped; auto. }
      cbn [run_op]. unfold on_layer. rewrite HN. unfold l_index_remap, on1.
      erewrite (each_ok _ _ (fun k => column k (pick os ids))). reflexivity.
      intros k ty nv N. cbn [Nat.add]. pose proof (rows_ok _ _ _ _ _ Hg Hfo Hs N) as Hr.
      unfold index_remap. rewrite !column_rows, obj_cnt_ok by auto. cbn [rbind]. rewrite rows_length, EL, Nat.eqb_refl.
      cbn [negb]. rewrite <- EL. rewrite remap_ok; auto. cbn [atomically]. now rewrite rows_pick. apply valid_rows; auto.
      rewrite EL. eapply fits_nth; eauto.
    + right. exists (upd S h (colayer 0 lay (fun k => column k os))). split; [|split; [eapply S_remap_fail; eauto|eapply same_upd_self; eauto]].
      cbn [run_op]. unfold on_layer. rewrite HN. unfold l_index_remap, on1. rewrite each_raise; auto. apply Hg.
      intros k ty nv N. cbn [Nat.add]. pose proof (rows_ok _ _ _ _ _ Hg Hfo Hs N) as Hr.
      unfold index_remap. rewrite !column_rows, obj_cnt_ok by auto. cbn [rbind]. rewrite rows_length.
      replace (length ids =? length os) with false by (symmetry; lia). auto.
  - (* KeepIds *)
    destruct Ha as (HE & lay & os & Hl & HV & Hf). destruct (same_live _ _ _ _ _ HR Hl) as (Hg & Hfo & Hs & HN).
    left. do 2 eexists. split; [|split; [eapply S_keep; eauto|]].
    2:{ apply same_upd; eauto. rewrite pick_length; auto. apply Forall_pick_shaped; auto. }
    cbn [run_op]. unfold on_layer. rewrite HN. unfold l_keep_ids, on1.
    erewrite (each_ok _ _ (fun k => column k (pick os ids))). reflexivity.
    intros k ty nv N. cbn [Nat.add]. pose proof (rows_ok _ _ _ _ _ Hg Hfo Hs N) as Hr.
    rewrite !column_rows, remap_ok; auto. cbn [atomically]. now rewrite rows_pick. apply valid_rows; auto.
    eapply fits_nth; eauto.
  - (* RemoveIds *)
    destruct Ha as (HE & lay & os & Hl & HV). destruct (same_live _ _ _ _ _ HR Hl) as (Hg & Hfo & Hs & HN).
    assert (HD : (NoDup ids /\ (Z.of_nat (length os) < 2 ^ 31)%Z) \/ ids = [] \/ (ids <> [] /\ (~ NoDup ids \/ (2 ^ 31 <= Z.of_nat (length os))%Z))).
    { destruct (ListDec.NoDup_dec Nat.eq_dec ids); destruct (Z_lt_le_dec (Z.of_nat (length os)) (2 ^ 31)); destruct ids; auto;
      right; right; split; auto; congruence. }
    assert (HW : without os [] = os).
    { unfold without. rewrite <- (pick_all os) at 3. f_equal.
      erewrite filter_ext. 2: intros a; instantiate (1 := fun _ => true); auto.
      induction (seq 0 (length os)); simpl; congruence. }
    destruct HD as [(ND & H31)|[->|(Hne & Hbad)]].
    + left. do 2 eexists. split; [|split; [eapply S_remove; eauto|]].
      2:{ apply same_upd; eauto. eapply fits_le; [apply without_len|auto]. apply Forall_pick_shaped; auto. }
      cbn [run_op]. unfold on_layer. rewrite HN. unfold l_remove_ids, on1.
      erewrite (each_ok _ _ (fun k => column k (without os ids))). reflexivity.
      intros k ty nv N. cbn [Nat.add]. pose proof (rows_ok _ _ _ _ _ Hg Hfo Hs N) as Hr.
      rewrite !column_rows, remove_ok; auto. cbn [atomically]. now rewrite rows_without. apply valid_rows; auto.
      rewrite rows_length. auto.
    + left. do 2 eexists. split; [|split; [eapply S_remove; eauto; constructor|]].
      2:{ rewrite HW. apply same_upd; eauto. }
      cbn [run_op]. unfold on_layer. rewrite HN. unfold l_remove_ids, on1.
      erewrite (each_ok _ _ (fun k => column k os)). reflexivity.
      intros k ty nv N. cbn [Nat.add]. pose proof (rows_ok _ _ _ _ _ Hg Hfo Hs N) as Hr.
      rewrite !column_rows, remove_cases; auto. constructor.
    + right. exists (upd S h (colayer 0 lay (fun k => column k os))). split; [|split; [eapply S_remove_fail; eauto|eapply same_upd_self; eauto]].
      cbn [run_op]. unfold on_layer. rewrite HN. unfold l_remove_ids, on1. rewrite each_raise; auto. apply Hg.
      intros k ty nv N. cbn [Nat.add]. pose proof (rows_ok _ _ _ _ _ Hg Hfo Hs N) as Hr.
      rewrite !column_rows, remove_fail; auto. apply valid_rows; auto. rewrite rows_length. auto.
  - (* Insert *)
    destruct Ha as (HE & lay & os & ps & Hl & Hl' & Hf). destruct (same_live _ _ _ _ _ HR Hl) as (Hg & Hfo & Hs & HN).
    destruct (same_live _ _ _ _ _ HR Hl') as (_ & Hfp & Hsp & HN').
    cbn [run_op]. unfold sim_op. cbn [run_op]. unfold self_throws. destruct (h =? k) eqn:Ehk.
    + apply Nat.eqb_eq in Ehk. subst k. right. exists S. rewrite HN. destruct lay as [|[ty nv] lay]. { destruct Hg; congruence. }
      split; [reflexivity|]. split; auto. eapply S_insert_self; eauto.
    + apply Nat.eqb_neq in Ehk. left. do 2 eexists. split; [|split; [eapply S_insert; eauto|]].
      2:{ apply same_upd; eauto. rewrite app_length; auto. apply Forall_app; auto. }
      unfold on_layers. rewrite HN, HN'. replace (h =? k) with false by (symmetry; lia). unfold l_insert, on2l.
      erewrite (each2_ok _ _ _ (fun k => column k (os ++ ps)) (fun k => column k ps)).
      * f_equal. apply list_eq_nth_error. intros i. destruct (Nat.eq_dec k i) as [<-|Hk].
        { rewrite nth_error_upd_eq by (rewrite length_upd; apply nth_error_Some; congruence). rewrite nth_error_upd_neq by auto. auto. }
        { rewrite nth_error_upd_neq by auto. reflexivity. }
      * intros i ty nv N. cbn [Nat.add]. rewrite !column_rows, insert_ok by (eapply rows_ok; eauto).
        cbn [rbind atomically]. now rewrite rows_app.
  - (* Overwrite *)
    destruct Ha as (Hhk & HE & lay & os & ps & Hl & Hl' & Hf). destruct (same_live _ _ _ _ _ HR Hl) as (Hg & Hfo & Hs & HN).
    destruct (same_live _ _ _ _ _ HR Hl') as (_ & Hfp & Hsp & HN').
    assert (EO : forall i ty nv, nth_error lay i = Some (ty, nv) ->
      overwrite (Field ty nv (column i ps)) n (Field ty nv (column i os)) =
      if (n <=? length os) && (n <=? length ps) then Ok (Field ty nv (column i (firstn n ps ++ skipn n os))) else Throw).
    { intros i ty nv N. rewrite !column_rows. rewrite overwrite_ok; try (eapply rows_ok; eauto). 2: eapply fits_nth; eauto.
      rewrite !rows_length, rows_app, rows_firstn, rows_skipn. auto. }
    destruct ((n <=? length os) && (n <=? length ps)) eqn:En.
    + left. do 2 eexists. split; [|split; [eapply S_overwrite; eauto; lia|]].
      2:{ apply same_upd; eauto. rewrite app_length, firstn_length, skipn_length. eapply fits_le; [|exact Hfo]. lia.
          apply Forall_app. split; apply Forall_forall; intros o Ho.
          - apply (proj1 (Forall_forall _ _) Hsp). rewrite <- (firstn_skipn n ps). apply in_or_app. auto.
          - apply (proj1 (Forall_forall _ _) Hs). rewrite <- (firstn_skipn n os). apply in_or_app. auto. }
      cbn [run_op]. unfold on_layers. rewrite HN, HN'. replace (h =? k) with false by (symmetry; lia). unfold l_overwrite, on2l.
      erewrite (each2_ok _ _ _ (fun k => column k (firstn n ps ++ skipn n os)) (fun k => column k ps)).
      * f_equal. apply list_eq_nth_error. intros i. destruct (Nat.eq_dec k i) as [<-|Hk].
        { rewrite nth_error_upd_eq by (rewrite length_upd; apply nth_error_Some; congruence). rewrite nth_error_upd_neq by auto. auto. }
        { rewrite nth_error_upd_neq by auto. reflexivity. }
      * intros i ty nv N. cbn [Nat.add]. rewrite EO by auto. auto.
    + right. eexists. split; [|split; [eapply S_overwrite_fail; eauto; lia|]].
      2:{ eapply same_upd_self. eapply same_upd_self. exact HR. exact Hl. exact Hl'. }
      cbn [run_op]. unfold on_layers. rewrite HN, HN'. replace (h =? k) with false by (symmetry; lia). unfold l_overwrite, on2l.
      rewrite each2_raise; auto. apply Hg.
      intros i ty nv N. cbn [Nat.add]. rewrite EO by auto. auto.
  - (* AppendSubset *)
    destruct Ha as (Hhk & HE & lay & os & ps & Hl & Hl' & HV & Hf). destruct (same_live _ _ _ _ _ HR Hl) as (Hg & Hfo & Hs & HN).
    destruct (same_live _ _ _ _ _ HR Hl') as (_ & Hfp & Hsp & HN').
    left. do 2 eexists. split; [|split; [eapply S_append; eauto|]].
    2:{ apply same_upd; eauto. rewrite app_length, pick_length by auto. auto. apply Forall_app. split; auto. apply Forall_pick_shaped; auto. }
    cbn [run_op]. unfold on_layers. rewrite HN, HN'. replace (h =? k) with false by (symmetry; lia). unfold l_append_subset_to, on2r.
    erewrite (each2_ok _ _ _ (fun k => column k os) (fun k => column k (ps ++ pick os ids))).
    + f_equal. f_equal. apply list_eq_nth_error. intros i. destruct (Nat.eq_dec h i) as [<-|Hk].
      { rewrite nth_error_upd_eq by (apply nth_error_Some; congruence). auto. }
      { rewrite nth_error_upd_neq by auto. reflexivity. }
    + intros i ty nv N. cbn [Nat.add]. rewrite !column_rows, append_subset_ok; try (eapply rows_ok; eauto); auto.
      * cbn [rbind atomically]. now rewrite rows_app, rows_pick.
      * apply valid_rows; auto.
      * rewrite rows_length. eapply fits_nth; eauto.
  - (* Extract *)
    destruct Ha as (HE & HE' & lay & os & ps & Hl & Hl' & HV & ND & H31 & Hf). destruct (same_live _ _ _ _ _ HR Hl) as (Hg & Hfo & Hs & HN).
    destruct (same_live _ _ _ _ _ HR Hl') as (_ & Hfp & Hsp & HN').
    unfold sim_op. cbn [run_op]. unfold self_throws. destruct (h =? k) eqn:Ehk.
    + apply Nat.eqb_eq in Ehk. subst k. right. exists S. rewrite HN. destruct lay as [|[ty nv] lay]. { destruct Hg; congruence. }
      split; [reflexivity|]. split; auto. eapply S_extract_self; eauto.
    + apply Nat.eqb_neq in Ehk. left. do 2 eexists. split; [|split; [eapply S_extract; eauto|]].
      2:{ apply same_upd; auto.
          - apply same_upd; [exact HR|auto| |apply Forall_pick_shaped; auto]. eapply fits_le; [apply without_len|auto].
          - rewrite app_length, pick_length by auto. auto.
          - apply Forall_app. split; auto. apply Forall_pick_shaped; auto. }
      unfold on_layers. rewrite HN, HN'. replace (h =? k) with false by (symmetry; lia). unfold l_extract_elements.
      erewrite (each2_ok _ _ _ (fun k => column k (without os ids)) (fun k => column k (ps ++ pick os ids))).
      * reflexivity.
      * intros i ty nv N. cbn [Nat.add]. rewrite !column_rows, extract_ok; try (eapply rows_ok; eauto); auto.
        { now rewrite rows_app, rows_pick, rows_without. }
        { apply valid_rows; auto. }
        { rewrite rows_length. auto. }
        { rewrite rows_length. eapply fits_nth; eauto. }
Qed.

Theorem run_sim (cs : list (lop A)) : forall s S, same_layers s S -> args_ok cs s ->
  exists q l Q, run cs S = Ok (Q, l) /\ spec_run cs s q l /\ same_layers q Q.
Proof.
  induction cs as [|c cs IH]; intros s S HR Ha.
  - exists s, [], S. repeat split; auto. constructor.
  - inversion Ha as [|? ? ? Hc H1 H2]; subst. destruct (op_sim c s S HR Hc) as [(s' & S' & E & Hs & HR')|(S' & E & Hs & HR')].
    + destruct (IH s' S' HR' (H1 s' Hs)) as (q & l & Q & E2 & Hq & HQ). exists q, (true :: l), Q.
      cbn [run]. rewrite E, E2. split; auto. split; auto. econstructor; eauto.
    + destruct (IH s S' HR' (H2 Hs)) as (q & l & Q & E2 & Hq & HQ). exists q, (false :: l), Q.
      cbn [run]. rewrite E, E2. split; auto. split; auto. econstructor; eauto.
Qed.
End L.
