(** What each field operation does to the rows of a field. *)
From Verif Require Import Base Par Scan Scan_spec Scan_proofs Reduction Layer Layer_spec Layer_proofs.
From Coq Require Import ZifyBool ZifyNat.
Local Open Scope nat_scope.
Ltac Zify.zify_post_hook ::= Z.div_mod_to_equations.

Section F.
Context {A : Type}.
Implicit Types (rs ps : list (list A)) (e : env A).

(** the field storing the rows rs *)
Definition ok_rows (nv : nat) rs := 0 < nv /\ uniform nv rs /\ (Z.of_nat (length rs * nv) < 2 ^ 32)%Z.
Notation fld ty nv rs := (Field ty nv (concat rs)).

Lemma small_cnt nv rs : ok_rows nv rs -> (Z.of_nat (length rs) < 2 ^ 32)%Z.
Proof. intros (H & _ & H1). assert (length rs <= length rs * nv) by nia. lia. Qed.

Lemma obj_cnt_ok ty nv rs : ok_rows nv rs -> get_obj_cnt (fld ty nv rs) = Ok (length rs).
Proof.
  intros Hr. pose proof (small_cnt _ _ Hr). destruct Hr as (H0 & HU & HB).
  unfold get_obj_cnt. cbn [f_nvar f_buf].
  replace (nv =? 0) with false by (symmetry; lia). rewrite (concat_len nv) by auto.
  rewrite Nat.mod_mul, Nat.div_mul by lia. simpl. apply narrow_ok. auto.
Qed.
Lemma val_cnt_ok ty nv rs : ok_rows nv rs -> get_val_cnt (fld ty nv rs) = Ok (length rs * nv).
Proof.
  intros (H0 & HU & HB). unfold get_val_cnt. cbn [f_buf]. rewrite (concat_len nv) by auto. now apply narrow_ok.
Qed.

Lemma resize_ok e ty nv (b : list A) n : (Z.of_nat (n * nv) < 2 ^ 32)%Z ->
  resize e n (Field ty nv b) = Ok (Field ty nv (buf_resize (v_mem e) (n * nv) b)).
Proof. intros H. unfold resize. cbn [f_nvar f_buf]. now rewrite narrow_ok. Qed.
Lemma buf_resize_len (g : nat -> A) n l : length (buf_resize g n l) = n.
Proof. unfold buf_resize. rewrite app_length, firstn_length, map_length, seq_length. lia. Qed.
Lemma buf_resize_first (g : nat -> A) n l : firstn (length l) (buf_resize g n l) = firstn n l.
Proof.
  unfold buf_resize. destruct (Nat.le_gt_cases (length l) n).
  - rewrite (firstn_all2 l) by lia. rewrite firstn_app, Nat.sub_diag, firstn_O, app_nil_r, firstn_all. auto.
  - replace (n - length l) with 0 by lia. simpl. rewrite app_nil_r. rewrite firstn_firstn. f_equal. lia.
Qed.
Lemma expand_ok e ty nv rs n : ok_rows nv rs -> (Z.of_nat ((length rs + n) * nv) < 2 ^ 32)%Z ->
  expand e n (fld ty nv rs) = Ok (Field ty nv (buf_resize (v_mem e) ((length rs + n) * nv) (concat rs))).
Proof.
  intros Hr H. unfold expand. rewrite obj_cnt_ok by auto. cbn [rbind]. destruct Hr as (H0 & _).
  assert (length rs + n <= (length rs + n) * nv) by nia.
  rewrite w32n_small by lia. apply resize_ok. auto.
Qed.

Lemma append_subset_ok e ty ty' nv rs ps ids : good_env e -> ok_rows nv rs -> ok_rows nv ps ->
  valid_ids rs ids -> (Z.of_nat ((length ps + length ids) * nv) < 2 ^ 32)%Z ->
  append_subset_to e ids (length ids) (fld ty nv rs) (fld ty' nv ps)
  = Ok (Field ty' nv (concat (ps ++ pick rs ids))).
Proof.
  intros He Hr Hp HV HB. unfold append_subset_to. cbn [f_nvar f_buf f_ty]. rewrite !Nat.eqb_refl. cbn [negb].
  destruct (0 <? length ids) eqn:E0.
  2:{ destruct ids as [|i ids]; simpl in E0; [|lia]. cbn [pick flat_map]. rewrite app_nil_r. auto. }
  rewrite val_cnt_ok by auto. cbn [rbind]. rewrite expand_ok by auto. cbn [rbind].
  assert (length ids <= (length ps + length ids) * nv) by (destruct Hr; nia).
  rewrite narrow_ok by lia. cbn [rbind]. unfold kernel_call.
  replace (length ids =? 0) with false by (symmetry; lia). unfold par_for.
  destruct Hr as (H0 & HU & HB1). destruct Hp as (_ & HU' & HB2).
  rewrite rows_kernel with (n := length ids); auto.
  - cbn [rbind]. unfold with_buf. cbn [f_ty f_nvar f_buf]. f_equal. f_equal. rewrite concat_app. f_equal.
    rewrite <- (concat_len nv ps) by auto. rewrite buf_resize_first. apply firstn_all2.
    rewrite (concat_len nv) by auto. nia.
  - apply He.
  - cbn [f_buf]. rewrite buf_resize_len. lia.
  - rewrite <- Nat.mul_add_distr_r. auto.
Qed.

Lemma insert_ok ty ty' nv rs ps : ok_rows nv rs -> ok_rows nv ps ->
  insert (fld ty' nv ps) (fld ty nv rs) = Ok (Field ty nv (concat (rs ++ ps))).
Proof.
  intros (H0 & HU & HB) (_ & HU' & HB'). unfold insert, with_buf. cbn [f_ty f_nvar f_buf].
  rewrite (concat_len nv ps) by auto. rewrite w32n_small by auto.
  destruct (length ps * nv =? 0) eqn:E.
  - assert (length ps = 0) by nia. destruct ps; try discriminate. rewrite app_nil_r. auto.
  - rewrite (concat_len nv rs) by auto. replace (_ <? _)%Z with true by (symmetry; lia).
    rewrite firstn_all2 by (rewrite (concat_len nv); auto). rewrite concat_app. auto.
Qed.

Lemma concat_firstn nv rs n : uniform nv rs -> concat (firstn n rs) = firstn (n * nv) (concat rs).
Proof.
  intros H. revert n. induction H as [|r rs Hr H IH]; intros [|n]; simpl; auto. rewrite firstn_nil. auto.
  rewrite IH, <- Hr. rewrite firstn_app. rewrite (firstn_all2 r) by lia. f_equal. f_equal. lia.
Qed.
Lemma concat_skipn nv rs n : uniform nv rs -> concat (skipn n rs) = skipn (n * nv) (concat rs).
Proof.
  intros H. revert n. induction H as [|r rs Hr H IH]; intros [|n]; simpl; auto. rewrite skipn_nil. auto.
  rewrite IH, <- Hr. rewrite skipn_app. rewrite (skipn_all2 r) by lia. simpl. f_equal. lia.
Qed.
Lemma overwrite_ok ty ty' nv rs ps n : ok_rows nv rs -> ok_rows nv ps -> (Z.of_nat (n * nv) < 2 ^ 32)%Z ->
  overwrite (fld ty' nv ps) n (fld ty nv rs) =
  if (n <=? length rs) && (n <=? length ps) then Ok (Field ty nv (concat (firstn n ps ++ skipn n rs))) else Throw.
Proof.
  intros (H0 & HU & HB) (_ & HU' & HB') Hn. unfold overwrite, with_buf. cbn [f_ty f_nvar f_buf].
  rewrite w32n_small by auto. rewrite !(concat_len nv) by auto.
  assert (E1 : (n * nv <=? length rs * nv) = (n <=? length rs)).
  { apply eq_true_iff_eq. rewrite !Nat.leb_le. nia. }
  assert (E2 : (n * nv <=? length ps * nv) = (n <=? length ps)).
  { apply eq_true_iff_eq. rewrite !Nat.leb_le. nia. }
  rewrite E1, E2. destruct ((n <=? length rs) && (n <=? length ps)); simpl; auto.
  rewrite concat_app, (concat_firstn nv), (concat_skipn nv) by auto. auto.
Qed.

Lemma remap_ok e ty nv rs ids : good_env e -> ok_rows nv rs -> valid_ids rs ids ->
  (Z.of_nat (length ids * nv) < 2 ^ 32)%Z ->
  index_remap_resize e ids (length ids) (fld ty nv rs) = Ok (Field ty nv (concat (pick rs ids))).
Proof.
  intros He Hr HV HB. pose proof Hr as (H0 & HU & HB1). unfold index_remap_resize. cbn [f_buf f_nvar].
  destruct (concat rs) as [|x b] eqn:Eb.
  { assert (length rs = 0). { pose proof (concat_len nv rs HU) as E. rewrite Eb in E. simpl in E. nia. }
    destruct rs; try discriminate. destruct ids as [|i ids]. auto. inversion HV; subst; simpl in *; lia. }
  rewrite <- Eb. clear x b Eb.
  destruct (nv =? 1) eqn:E1.
  - apply Nat.eqb_eq in E1. subst nv. unfold alg_index_remap.
    destruct (length ids) as [|n'] eqn:EL.
    { destruct ids; try discriminate. assert (v_order e 0 = []) as ->.
      { apply Permutation_nil. symmetry. apply (proj1 He 0). } reflexivity. }
    assert (Hd : exists d : A, True).
    { destruct ids as [|i ids']; try discriminate. inversion HV; subst.
      destruct (nth_error rs i) as [r|] eqn:E. 2:{ apply nth_error_None in E. lia. }
      apply (uniform_nth 1) in E; auto. destruct r as [|d r]; simpl in E; [lia|]. eauto. }
    destruct Hd as (d & _). rewrite <- EL in *.
    rewrite (par_write_ok _ (fun i => nth (nth i ids 0) (concat rs) d) _ (length ids)).
    + cbn [rbind]. unfold with_buf. cbn [f_ty f_nvar f_buf]. f_equal. f_equal.
      apply concat_ext with (nv := 1); auto. apply pick_uniform; auto.
      { rewrite map_length, seq_length, pick_length by auto. lia. }
      intros i r a N Ha. assert (a = 0) by lia. subst a. rewrite Nat.mul_1_r, Nat.add_0_r.
      assert (Hi : i < length ids). { rewrite <- (pick_length rs ids) by auto. apply nth_error_Some. congruence. }
      rewrite nth_error_map, nth_error_seq by lia. cbn [option_map Nat.add].
      destruct (nth_error ids i) as [id|] eqn:Eid. 2:{ apply nth_error_None in Eid. lia. }
      rewrite (pick_nth rs ids HV i id Eid) in N.
      rewrite <- (concat_nth 1 rs HU id r 0 N Ha). rewrite (nth_error_nth _ _ 0 Eid).
      replace (id * 1 + 0) with id by lia. rewrite <- nth_error_nth' with (d := d). auto.
      rewrite (concat_len 1) by auto. assert (id < length rs) by (apply nth_error_Some; congruence). lia.
    + apply He.
    + rewrite map_length, seq_length. auto.
    + intros i Hi. rewrite (aget_lt ids i 0) by auto. cbn [rbind]. apply aget_lt.
      rewrite (concat_len 1) by auto. eapply Forall_forall in HV. 2: apply (nth_In ids 0 Hi). simpl in HV. lia.
  - unfold alg_index_remap_nvar, par_for. rewrite rows_kernel with (n := length ids); auto.
    + apply He.
    + rewrite map_length, seq_length. rewrite w32n_small by auto. auto.
Qed.

(** * Removal *)
Lemma nth_repeat_lt {X} (x d : X) n k : k < n -> nth k (repeat x n) d = x.
Proof. revert k; induction n; intros [|k] H; simpl; auto; try lia. apply IHn. lia. Qed.
Lemma flags_kernel ids n order :
  Permutation order (seq 0 (length ids)) -> Forall (fun i => i < n) ids ->
  exists m, rfold (fun i m => k <- aget ids i ;; aset m k 0%Z) order (repeat 1%Z n) = Ok m /\ length m = n /\
    forall k, k < n -> nth k m 0%Z = if in_dec Nat.eq_dec k ids then 0%Z else 1%Z.
Proof.
  intros HP HV.
  assert (G : forall order m, Forall (fun i => i < length ids) order -> length m = n ->
     exists m', rfold (fun i m => k <- aget ids i ;; aset m k 0%Z) order m = Ok m' /\ length m' = n /\
       (forall k, In k (map (fun i => nth i ids 0) order) -> nth k m' 0%Z = 0%Z) /\
       (forall k, ~ In k (map (fun i => nth i ids 0) order) -> nth k m' 0%Z = nth k m 0%Z)).
  { induction order0 as [|i t IH]; intros m Hf HL; simpl.
    - exists m. repeat split; auto. tauto.
    - inversion Hf as [|? ? Hi Hf']; subst. rewrite (aget_lt ids i 0) by auto. cbn [rbind].
      assert (Hk : nth i ids 0 < length m). { eapply Forall_forall in HV; [|apply (nth_In ids 0 Hi)]. auto. }
      rewrite aset_lt by auto. cbn [rbind].
      destruct (IH (upd m (nth i ids 0) 0%Z) Hf' ltac:(rewrite length_upd; auto)) as (m' & E & L & P1 & P2).
      exists m'. split; auto. split; auto. split.
      + intros k [<-|Hin]; auto. destruct (in_dec Nat.eq_dec (nth i ids 0) (map (fun i => nth i ids 0) t)); auto.
        rewrite P2 by auto. apply nth_upd_eq. auto.
      + intros k Hn. rewrite P2 by tauto. apply nth_upd_neq. tauto. }
  destruct (G order (repeat 1%Z n)) as (m & E & L & P1 & P2).
  { apply Forall_forall. intros i Hi. apply (Permutation_in _ HP) in Hi. apply in_seq in Hi. lia. }
  { apply repeat_length. }
  assert (Hin : forall k, In k (map (fun i => nth i ids 0) order) <-> In k ids).
  { intros k. rewrite in_map_iff. split.
    - intros (i & <- & Hi). apply (Permutation_in _ HP) in Hi. apply in_seq in Hi. apply nth_In. lia.
    - intros Hk. apply (In_nth _ _ 0) in Hk as (i & Hi & <-). exists i. split; auto.
      apply (Permutation_in _ (Permutation_sym HP)). apply in_seq. lia. }
  exists m. split; auto. split; auto. intros k Hk. destruct (in_dec Nat.eq_dec k ids) as [Hi|Hi].
  - apply P1. apply Hin. auto.
  - rewrite P2 by (rewrite Hin; auto). apply nth_repeat_lt. auto.
Qed.

Definition kept {X} (l : list X) (ids : list nat) : list nat :=
  filter (fun i => negb (if in_dec Nat.eq_dec i ids then true else false)) (seq 0 (length l)).
Lemma filter_in_len ids n : NoDup ids -> Forall (fun i => i < n) ids ->
  length (filter (fun i => if in_dec Nat.eq_dec i ids then true else false) (seq 0 n)) = length ids.
Proof.
  intros ND HV. apply Permutation_length. apply NoDup_Permutation; auto. apply NoDup_filter, seq_NoDup.
  intros i. rewrite filter_In, in_seq. destruct (in_dec Nat.eq_dec i ids) as [Hi|Hi]; split; intros H; try tauto.
  - split; auto. eapply Forall_forall in HV; eauto. lia.
  - destruct H; discriminate.
Qed.
Lemma filter_split {X} (f : X -> bool) l : length (filter f l) + length (filter (fun x => negb (f x)) l) = length l.
Proof. induction l; simpl; auto. destruct (f a); simpl; lia. Qed.
(** the number of kept objects tells whether the ids are different *)
Lemma kept_length (n : nat) ids : Forall (fun i => i < n) ids ->
  let k := length (filter (fun i => negb (if in_dec Nat.eq_dec i ids then true else false)) (seq 0 n)) in
  (NoDup ids -> k + length ids = n) /\ (~ NoDup ids -> n < k + length ids).
Proof.
  intros HV k.
  pose proof (filter_split (fun i => if in_dec Nat.eq_dec i ids then true else false) (seq 0 n)) as E.
  cbv beta in E. fold k in E. rewrite seq_length in E. split; intros ND.
  - rewrite filter_in_len in E by auto. lia.
  - pose proof (NoDup_nodup Nat.eq_dec ids) as N1.
    assert (E2 : forall l, filter (fun i => if in_dec Nat.eq_dec i ids then true else false) l
       = filter (fun i => if in_dec Nat.eq_dec i (nodup Nat.eq_dec ids) then true else false) l).
    { intros l. apply filter_ext. intros i. destruct (in_dec Nat.eq_dec i ids) as [H|H], (in_dec Nat.eq_dec i (nodup Nat.eq_dec ids)) as [H'|H']; auto;
      exfalso; rewrite nodup_In in H'; tauto. }
    rewrite E2 in E. rewrite filter_in_len in E; auto.
    2:{ apply Forall_forall. intros i Hi. apply nodup_In in Hi. eapply Forall_forall in HV; eauto. }
    enough (length (nodup Nat.eq_dec ids) < length ids) by lia.
    pose proof (NoDup_incl_length N1 (fun x H => proj1 (nodup_In Nat.eq_dec ids x) H)).
    destruct (Nat.eq_dec (length (nodup Nat.eq_dec ids)) (length ids)) as [E3|]; [|lia].
    exfalso. apply ND. eapply NoDup_incl_NoDup; [exact N1| lia | intros x Hx; now apply nodup_In in Hx].
Qed.

Lemma select_flags ids m n : length m = n ->
  (forall k, k < n -> nth k m 0%Z = if in_dec Nat.eq_dec k ids then 0%Z else 1%Z) ->
  selected m n = filter (fun i => negb (if in_dec Nat.eq_dec i ids then true else false)) (seq 0 n).
Proof.
  intros L H. unfold selected. apply filter_ext_in. intros i Hi. apply in_seq in Hi. rewrite H by lia.
  destruct (in_dec Nat.eq_dec i ids); auto.
Qed.

Lemma remove_cases e ty nv rs ids : good_env e -> ok_rows nv rs -> valid_ids rs ids ->
  remove_ids e ids (length ids) (fld ty nv rs) =
  match ids with
  | [] => Ok (fld ty nv rs)
  | _ => if (2 ^ 31 <=? Z.of_nat (length rs))%Z then Throw
         else if length (filter (fun i => negb (if in_dec Nat.eq_dec i ids then true else false)) (seq 0 (length rs))) + length ids =? length rs
         then Ok (Field ty nv (concat (without rs ids))) else Throw
  end.
Proof.
  intros He Hr HV. pose proof (small_cnt _ _ Hr) as HS. unfold remove_ids. rewrite obj_cnt_ok by auto. cbn [rbind].
  destruct ids as [|i0 ids'] eqn:Ei.
  { simpl. reflexivity. }
  rewrite <- Ei in *. assert (HI : 0 < length ids) by (subst ids; simpl; lia). clear i0 ids' Ei.
  pose proof (kept_length (length rs) ids HV) as HK. cbv zeta in HK.
  set (K := filter _ (seq 0 (length rs))) in *.
  destruct (length rs <? length ids) eqn:E1.
  { assert (HN : ~ NoDup ids) by (intros ND; apply HK in ND; lia). apply HK in HN.
    replace (length K + length ids =? length rs) with false by (symmetry; lia).
    destruct (_ <=? _)%Z; auto. }
  replace (length ids =? 0) with false by (symmetry; lia).
  destruct (Z.of_nat (length rs) <? 2 ^ 31)%Z eqn:E2.
  2:{ replace (2 ^ 31 <=? Z.of_nat (length rs))%Z with true by (symmetry; lia). auto. }
  replace (2 ^ 31 <=? Z.of_nat (length rs))%Z with false by (symmetry; lia). cbn [negb].
  unfold kernel_call. replace (length ids =? 0) with false by (symmetry; lia). unfold par_for.
  destruct (flags_kernel ids (length rs) (v_order e (length ids))) as (m & Em & Lm & Hm); auto. { apply He. }
  rewrite Em. cbn [rbind]. destruct He as (He1 & He2 & He3 & He4).
  assert (Hbin : Forall (fun b => b = 0%Z \/ b = 1%Z) m).
  { apply Forall_forall. intros b Hb. apply (In_nth _ _ 0%Z) in Hb as (k & Hk & <-). rewrite Hm by lia.
    destruct (in_dec Nat.eq_dec k ids); auto. }
  rewrite compact_scan_ok; auto; try lia.
  2:{ intros b Hb. eapply Forall_forall in Hbin; eauto. }
  2:{ apply He4; auto; lia. }
  cbn [rbind]. rewrite (select_flags ids m) by auto. fold K.
  destruct (length K =? length rs - length ids) eqn:E3.
  - cbn [negb]. replace (length K + length ids =? length rs) with true by (symmetry; lia).
    replace (length rs - length ids) with (length K) by lia.
    apply remap_ok; auto. repeat split; auto.
    { apply Forall_forall. intros k Hk. apply filter_In in Hk as (Hk & _). apply in_seq in Hk. lia. }
    { destruct Hr as (H0 & _ & HB). assert (length K * nv <= length rs * nv) by (apply Nat.mul_le_mono_r; lia). lia. }
  - cbn [negb]. replace (length K + length ids =? length rs) with false by (symmetry; lia). auto.
Qed.
Lemma remove_ok e ty nv rs ids : good_env e -> ok_rows nv rs -> valid_ids rs ids -> NoDup ids ->
  (Z.of_nat (length rs) < 2 ^ 31)%Z ->
  remove_ids e ids (length ids) (fld ty nv rs) = Ok (Field ty nv (concat (without rs ids))).
Proof.
  intros He Hr HV ND HB. rewrite remove_cases by auto. destruct ids as [|i0 ids'] eqn:Ei.
  { f_equal. f_equal. f_equal. unfold without. rewrite <- (pick_all rs) at 1. f_equal.
    symmetry. erewrite filter_ext. 2: intros a; instantiate (1 := fun _ => true); auto.
    induction (seq 0 (length rs)); simpl; congruence. }
  rewrite <- Ei in *. replace (2 ^ 31 <=? Z.of_nat (length rs))%Z with false by (symmetry; lia).
  pose proof (proj1 (kept_length (length rs) ids HV) ND) as E.
  replace (_ =? _) with true by (symmetry; lia). auto.
Qed.
Lemma remove_fail e ty nv rs ids : good_env e -> ok_rows nv rs -> valid_ids rs ids ->
  ids <> [] -> ~ NoDup ids \/ (2 ^ 31 <= Z.of_nat (length rs))%Z ->
  remove_ids e ids (length ids) (fld ty nv rs) = Throw.
Proof.
  intros He Hr HV Hne Hbad. rewrite remove_cases by auto. destruct ids as [|i0 ids'] eqn:Ei; [congruence|].
  rewrite <- Ei in *. destruct (2 ^ 31 <=? Z.of_nat (length rs))%Z eqn:E1; auto.
  destruct Hbad as [Hd|Hd]; [|lia].
  pose proof (proj2 (kept_length (length rs) ids HV) Hd) as E.
  replace (_ =? _) with false by (symmetry; lia). auto.
Qed.

Lemma extract_ok e e' ty ty' nv rs ps ids : good_env e -> good_env e' -> ok_rows nv rs -> ok_rows nv ps ->
  valid_ids rs ids -> NoDup ids -> (Z.of_nat (length rs) < 2 ^ 31)%Z ->
  (Z.of_nat ((length ps + length ids) * nv) < 2 ^ 32)%Z ->
  extract_elements e e' ids (fld ty nv rs) (fld ty' nv ps)
  = Ret (Field ty nv (concat (without rs ids)), Field ty' nv (concat (ps ++ pick rs ids))).
Proof.
  intros He He' Hr Hp HV ND H31 HB. unfold extract_elements.
  assert (length ids <= (length ps + length ids) * nv) by (destruct Hr; nia).
  rewrite w32n_small by lia. rewrite append_subset_ok by auto. cbn [rbind atomically ethen].
  rewrite remove_ok by auto. auto.
Qed.
End F.
