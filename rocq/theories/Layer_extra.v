(** Further field operations: selection, permutation of variables, single elements. *)
From Verif Require Import Base Par Scan Scan_spec Scan_proofs Reduction Layer Layer_spec Layer_proofs Layer_fields.
From Coq Require Import ZifyBool ZifyNat.
Local Open Scope nat_scope.
Ltac Zify.zify_post_hook ::= Z.div_mod_to_equations.

Section X.
Context {A : Type}.
Implicit Types (rs ps : list (list A)) (e : env A).
Notation fld ty nv rs := (Field ty nv (concat rs)).

(** the numbers of the rows whose first value satisfies cond *)
Definition first_sat (cond : A -> bool) (r : list A) : bool := match r with x :: _ => cond x | [] => false end.
Definition where_ids (cond : A -> bool) rs : list nat :=
  filter (fun i => match nth_error rs i with Some r => first_sat cond r | None => false end) (seq 0 (length rs)).

Lemma first_value nv rs i : ok_rows nv rs -> i < length rs ->
  exists r x, nth_error rs i = Some r /\ aget (concat rs) (w32n (i * nv)) = Ok x /\
    forall cond, first_sat cond r = cond x.
Proof.
  intros (H0 & HU & HB) Hi. destruct (nth_error rs i) as [r|] eqn:N. 2:{ apply nth_error_None in N. lia. }
  assert (i * nv + nv <= length rs * nv) by nia. rewrite w32n_small by lia.
  pose proof (uniform_nth nv rs i r HU N) as L. destruct r as [|x r]; simpl in L; [lia|].
  exists (x :: r), x. split; auto. split; auto. apply aget_ok.
  rewrite <- (Nat.add_0_r (i * nv)). rewrite (concat_nth nv rs HU i _ 0 N) by lia. auto.
Qed.
Lemma vec_where_ok cond ty nv rs : ok_rows nv rs -> get_ids_vec_where cond (fld ty nv rs) = Ok (where_ids cond rs).
Proof.
  intros Hr. unfold get_ids_vec_where. rewrite obj_cnt_ok by auto. cbn [rbind f_buf f_nvar].
  unfold where_ids.
  assert (G : forall l acc, Forall (fun i => i < length rs) l ->
    rfold (fun i acc => v <- aget (concat rs) (w32n (i * nv)) ;; Ok (if cond v then acc ++ [i] else acc)) l acc
    = Ok (acc ++ filter (fun i => match nth_error rs i with Some r => first_sat cond r | None => false end) l)).
  { induction l as [|i l IH]; intros acc Hl; cbn [rfold filter]. now rewrite app_nil_r.
    inversion Hl; subst. destruct (first_value nv rs i Hr) as (r & x & N & E & Hc); auto.
    rewrite E, N, Hc. cbn [rbind]. rewrite IH by auto. destruct (cond x); auto. rewrite <- app_assoc. auto. }
  rewrite G. auto. apply Forall_forall. intros i Hi. apply in_seq in Hi. lia.
Qed.
Lemma where_ok e cond ty nv rs : good_env e -> ok_rows nv rs -> get_ids_where e cond (fld ty nv rs) = Ok (where_ids cond rs).
Proof.
  intros (He1 & He2 & He3 & He4) Hr. unfold get_ids_where. rewrite obj_cnt_ok by auto. cbn [rbind f_buf f_nvar].
  pose proof (small_cnt _ _ Hr) as HS.
  destruct (0 <? length rs) eqn:E0. 2:{ destruct rs; simpl in E0; try lia. auto. }
  unfold kernel_call. replace (length rs =? 0) with false by (symmetry; lia).
  set (g := fun i => if match nth_error rs i with Some r => first_sat cond r | None => false end then 1%Z else 0%Z).
  assert (EM : par_for (v_order e (length rs)) (fun i m => v <- aget (concat rs) (w32n (i * nv)) ;; aset m i (if cond v then 1%Z else 0%Z)) (repeat 7%Z (length rs))
     = Ok (map g (seq 0 (length rs)))).
  { rewrite <- (par_write_ok (fun i => v <- aget (concat rs) (w32n (i * nv)) ;; Ok (if cond v then 1%Z else 0%Z)) g (v_order e (length rs)) _ (repeat 7%Z (length rs))).
    - unfold par_write, par_for. apply rfold_ext_in. intros i m _. destruct (aget _ _); auto.
    - apply He1.
    - apply repeat_length.
    - intros i Hi. destruct (first_value nv rs i Hr Hi) as (r & x & N & E & Hc). rewrite E. cbn [rbind]. unfold g. rewrite N, Hc. auto. }
  rewrite EM. cbn [rbind].
  rewrite compact_scan_ok; auto; try (rewrite map_length, seq_length; lia).
  - unfold selected, where_ids. f_equal. apply filter_ext_in. intros i Hi. apply in_seq in Hi.
    rewrite (nth_indep _ 0%Z (g 0)) by (rewrite map_length, seq_length; lia). rewrite map_nth, seq_nth by lia. simpl Nat.add. unfold g.
    destruct (match nth_error rs i with Some r => first_sat cond r | None => false end); auto.
  - intros b Hb. apply in_map_iff in Hb as (i & <- & _). unfold g. destruct (match _ with Some _ => _ | None => _ end); auto.
  - apply He4; auto. rewrite map_length, seq_length. auto. apply Forall_forall.
    intros b Hb. apply in_map_iff in Hb as (i & <- & _). unfold g. destruct (match _ with Some _ => _ | None => _ end); auto.
Qed.

(** scatter: item i writes one value at position sg i, all positions different *)
Lemma scatter_gen (sg : nat -> nat) (val : nat -> res A) (g : nat -> A) order : forall dst,
  NoDup order -> (forall i j, In i order -> In j order -> sg i = sg j -> i = j) ->
  (forall i, In i order -> val i = Ok (g i) /\ sg i < length dst) ->
  exists out, rfold (fun i dst => v <- val i ;; aset dst (sg i) v) order dst = Ok out /\ length out = length dst /\
    (forall i, In i order -> nth_error out (sg i) = Some (g i)) /\
    (forall j, ~ In j (map sg order) -> nth_error out j = nth_error dst j).
Proof.
  induction order as [|i t IH]; intros dst ND HI H; simpl.
  - exists dst. repeat split; auto; tauto.
  - inversion ND; subst. destruct (H i) as (E & L); simpl; auto. rewrite E. cbn [rbind]. rewrite aset_lt by auto. cbn [rbind].
    destruct (IH (upd dst (sg i) (g i))) as (out & E2 & L2 & P1 & P2); auto.
    { intros; apply HI; simpl; auto. }
    { intros j Hj. rewrite length_upd. apply H. simpl; auto. }
    exists out. rewrite length_upd in L2. split; auto. split; auto. split.
    + intros j [<-|Hj]; auto. rewrite P2. apply nth_error_upd_eq; auto.
      intros X. apply in_map_iff in X as (j & Ej & Hj). apply HI in Ej; simpl; auto. subst. auto.
    + intros j Hj. rewrite P2 by tauto. apply nth_error_upd_neq. tauto.
Qed.

(** a row whose variables are moved: variable v goes to position permut[v] *)
Definition permuted (permut : list nat) (r r' : list A) : Prop :=
  length r' = length r /\ forall v w, nth_error permut v = Some w -> nth_error r' w = nth_error r v.

Lemma permut_ok e permut ty nv rs : good_env e -> ok_rows nv rs -> rs <> [] -> Permutation permut (seq 0 nv) ->
  exists rs', permut_vars e permut (fld ty nv rs) = Ok (fld ty nv rs') /\ Forall2 (permuted permut) rs rs'.
Proof.
  intros (He1 & _) Hr Hne HP. pose proof Hr as (H0 & HU & HB). unfold permut_vars. cbn [f_nvar f_buf].
  assert (LP : length permut = nv) by (apply Permutation_length in HP; rewrite seq_length in HP; auto).
  rewrite LP, Nat.eqb_refl. cbn [negb]. rewrite val_cnt_ok by auto. cbn [rbind]. unfold kernel_call.
  assert (Hlen : 0 < length rs) by (destruct rs; simpl; [congruence|lia]).
  replace (length rs * nv =? 0) with false by (symmetry; nia).
  set (n := length rs * nv) in *.
  assert (Hd : exists d : A, True).
  { destruct rs as [|r rs']; [congruence|]. pose proof (uniform_nth nv (r :: rs') 0 r HU eq_refl) as Lr. destruct r as [|d r]; simpl in Lr; [lia|]. eauto. }
  destruct Hd as (d & _).
  assert (LC : length (concat rs) = n) by (apply concat_len; auto).
  set (sg := fun i => i / nv * nv + nth (i mod nv) permut 0).
  assert (Hpm : forall a, a < nv -> nth a permut 0 < nv).
  { intros a Ha. assert (In (nth a permut 0) permut) by (apply nth_In; lia).
    apply (Permutation_in _ HP) in H. apply in_seq in H. lia. }
  assert (ND : NoDup permut) by (eapply Permutation_NoDup; [symmetry; exact HP|apply seq_NoDup]).
  assert (Hsg : forall i, i < n -> sg i < n).
  { intros i Hi. unfold sg. pose proof (Nat.mod_upper_bound i nv ltac:(lia)). pose proof (Hpm (i mod nv) H).
    assert (i / nv < length rs) by (apply Nat.div_lt_upper_bound; subst n; lia). subst n. nia. }
  assert (Hdiv : forall q a, a < nv -> (q * nv + a) / nv = q /\ (q * nv + a) mod nv = a).
  { intros q a Ha. split. rewrite Nat.div_add_l, Nat.div_small by lia. lia. rewrite (Nat.add_comm (q * nv)), Nat.mod_add, Nat.mod_small by lia. lia. }
  assert (Hord : forall i, In i (v_order e n) <-> i < n).
  { intros i. split; intros Hi. apply (Permutation_in _ (He1 n)) in Hi. apply in_seq in Hi. lia.
    apply (Permutation_in _ (Permutation_sym (He1 n))). apply in_seq. lia. }
  destruct (scatter_gen sg (fun i => aget (concat rs) i) (fun i => nth i (concat rs) d) (v_order e n) (concat rs)) as (out & E & L & P1 & _).
  { eapply Permutation_NoDup; [symmetry; apply He1|apply seq_NoDup]. }
  { intros i j Hi Hj. rewrite Hord in Hi, Hj. unfold sg. intros Es.
    pose proof (Nat.mod_upper_bound i nv ltac:(lia)) as Mi. pose proof (Nat.mod_upper_bound j nv ltac:(lia)) as Mj.
    destruct (Hdiv (i / nv) _ (Hpm _ Mi)) as (D1 & D2). destruct (Hdiv (j / nv) _ (Hpm _ Mj)) as (D3 & D4).
    rewrite Es in D1, D2. rewrite D3 in D1. rewrite D4 in D2.
    assert (i mod nv = j mod nv). { apply (NoDup_nth permut 0); auto; lia. }
    rewrite (Nat.div_mod i nv), (Nat.div_mod j nv) by lia. congruence. }
  { intros i Hi. apply Hord in Hi. split. apply aget_lt. lia. rewrite LC. auto. }
  unfold par_for. rewrite (rfold_ext_in _ (fun i dst => v <- aget (concat rs) i ;; aset dst (sg i) v)).
  2:{ intros i dst Hi. apply Hord in Hi. pose proof (Nat.mod_upper_bound i nv ltac:(lia)).
      rewrite (aget_lt permut _ 0) by lia. cbn [rbind]. fold (sg i). rewrite w32n_small. auto.
      specialize (Hsg i Hi). lia. }
  rewrite E. cbn [rbind]. unfold with_buf. cbn [f_ty f_nvar].
  set (rs' := map (fun i => firstn nv (skipn (i * nv) out)) (seq 0 (length rs))).
  assert (HU' : uniform nv rs').
  { apply Forall_forall. intros r Hrr. apply in_map_iff in Hrr as (i & <- & Hi). apply in_seq in Hi.
    rewrite firstn_length, skipn_length. subst n. nia. }
  assert (Hrow : forall i, i < length rs -> nth_error rs' i = Some (firstn nv (skipn (i * nv) out))).
  { intros i Hi. unfold rs'. rewrite nth_error_map, nth_error_seq by auto. auto. }
  assert (EO : out = concat rs').
  { apply (concat_ext nv); auto. unfold rs'. rewrite map_length, seq_length. lia.
    intros i r a N Ha. assert (i < length rs).
    { assert (Hx : i < length rs') by (apply nth_error_Some; rewrite N; discriminate).
      unfold rs' in Hx. rewrite map_length, seq_length in Hx. lia. }
    rewrite Hrow in N by auto. injection N as <-. rewrite nth_error_firstn. replace (a <? nv) with true by (symmetry; lia).
    rewrite nth_error_skipn. auto. }
  exists rs'. split. { rewrite EO at 1. reflexivity. }
  assert (G : forall i r, nth_error rs i = Some r -> exists r', nth_error rs' i = Some r' /\ permuted permut r r').
  { intros i r N. assert (Hi : i < length rs) by (apply nth_error_Some; congruence). eexists. split; [apply Hrow; auto|].
    pose proof (uniform_nth nv rs i r HU N) as Lr. split. { rewrite firstn_length, skipn_length. subst n. nia. }
    intros v w Nv. assert (Hv : v < nv) by (rewrite <- LP; apply nth_error_Some; congruence).
    assert (Hw : w < nv). { apply nth_error_In in Nv. apply (Permutation_in _ HP) in Nv. apply in_seq in Nv. lia. }
    rewrite nth_error_firstn. replace (w <? nv) with true by (symmetry; lia). rewrite nth_error_skipn.
    assert (Hin : i * nv + v < n). { subst n. assert (i * nv + nv <= length rs * nv) by nia. lia. }
    pose proof (P1 (i * nv + v)) as Q. rewrite Hord in Q. specialize (Q Hin). unfold sg in Q.
    destruct (Hdiv i v Hv) as (D1 & D2). rewrite D1, D2 in Q. rewrite (nth_error_nth _ _ 0 Nv) in Q. rewrite Q.
    rewrite <- (concat_nth nv rs HU i r v N Hv). symmetry. rewrite <- nth_error_nth' with (d := d); auto. lia. }
  assert (Lrs : length rs' = length rs) by (unfold rs'; rewrite map_length, seq_length; auto).
  clear - G Lrs. revert G Lrs. generalize rs'. clear rs'. induction rs as [|r rs IH]; intros [|r' rs'] G L; simpl in L; try discriminate; constructor.
  - destruct (G 0 r eq_refl) as (x & Ex & Hx). injection Ex as ->. auto.
  - apply IH; auto. intros i x N. apply (G (S i) x N).
Qed.
End X.

Section Single.
Context {A : Type}.
Implicit Types (b c : list A) (e : env A).

Lemma concat_single b : concat (map (fun x => [x]) b) = b.
Proof. induction b; simpl; congruence. Qed.
Lemma ok_single b : (Z.of_nat (length b) < 2 ^ 32)%Z -> ok_rows 1 (map (fun x => [x]) b).
Proof.
  intros H. split; [lia|]. split. apply Forall_forall. intros r Hr. apply in_map_iff in Hr as (x & <- & _). auto.
  rewrite map_length. lia.
Qed.
Lemma upd_app_last (l : list A) x v : upd (l ++ [x]) (length l) v = l ++ [v].
Proof. induction l; simpl; congruence. Qed.
Lemma buf_resize_succ (g : nat -> A) b : exists x, buf_resize g (length b + 1) b = b ++ [x].
Proof.
  unfold buf_resize. rewrite firstn_all2 by lia. replace (length b + 1 - length b) with 1 by lia. simpl. eauto.
Qed.

Lemma expand_one e ty b : (Z.of_nat (length b) + 1 < 2 ^ 32)%Z -> exists x, expand e 1 (Field ty 1 b) = Ok (Field ty 1 (b ++ [x])).
Proof.
  intros H. destruct (buf_resize_succ (v_mem e) b) as (x & Ex). exists x. rewrite <- Ex.
  pose proof (expand_ok e ty 1 (map (fun x => [x]) b) 1) as G. rewrite concat_single, map_length, Nat.mul_1_r in G.
  apply G. apply ok_single; lia. lia.
Qed.

Lemma insert_element_ok e v ty b : (Z.of_nat (length b) + 1 < 2 ^ 32)%Z ->
  insert_element e v (Field ty 1 b) = Ok (Field ty 1 (b ++ [v])).
Proof.
  intros H. unfold insert_element. cbn [f_nvar Nat.eqb negb].
  assert (V1 : get_val_cnt (Field ty 1 b) = Ok (length b)). { unfold get_val_cnt. cbn [f_buf]. apply narrow_ok. lia. }
  rewrite V1. cbn [rbind].
  destruct (expand_one e ty b) as (x & ->); [lia|]. cbn [rbind f_buf]. rewrite aset_lt by (rewrite app_length; simpl; lia).
  cbn [rbind]. rewrite upd_app_last. auto.
Qed.

Lemma extract_element_ok e e' p ty ty' b c v : nth_error b p = Some v ->
  (Z.of_nat (length b) < 2 ^ 32)%Z -> (Z.of_nat (length c) + 1 < 2 ^ 32)%Z ->
  exists b', extract_element e e' p (Field ty 1 b) (Field ty' 1 c) = Ret (Field ty 1 b', Field ty' 1 (c ++ [v])) /\
    Permutation (v :: b') b.
Proof.
  intros Np Hb Hc. assert (Hp : p < length b) by (apply nth_error_Some; congruence).
  destruct (rev b) as [|l r] eqn:Er. { apply (f_equal (@length A)) in Er. rewrite rev_length in Er. simpl in Er. lia. }
  assert (Eb : b = rev r ++ [l]). { rewrite <- (rev_involutive b), Er. auto. }
  set (b0 := rev r) in *. clearbody b0. clear Er r.
  assert (Lb : length b = length b0 + 1) by (rewrite Eb, app_length; auto).
  exists (firstn (length b0) (upd b p l)). unfold extract_element.
  assert (V1 : get_val_cnt (Field ty' 1 c) = Ok (length c)). { unfold get_val_cnt. cbn [f_buf]. apply narrow_ok. lia. }
  assert (V2 : get_val_cnt (Field ty 1 b) = Ok (length b)). { unfold get_val_cnt. cbn [f_buf]. apply narrow_ok. lia. }
  rewrite V1, V2. cbn [rbind].
  destruct (expand_one e ty' c) as (x & ->); [lia|]. cbn [rbind f_nvar f_buf]. rewrite Nat.mul_1_r, w32n_small by lia.
  unfold extract_loop. cbn [seq rev app rfold]. rewrite !Nat.add_0_r.
  assert (Nl : aget b (length b - 1) = Ok l).
  { apply aget_ok. rewrite Lb, Eb. replace (length b0 + 1 - 1) with (length b0) by lia. rewrite nth_error_app2, Nat.sub_diag by lia. auto. }
  rewrite Nl. cbn [rbind]. rewrite (proj2 (aget_ok _ _ _) Np). cbn [rbind]. rewrite aset_lt by auto. cbn [rbind].
  rewrite aset_lt by (rewrite app_length; simpl; lia). cbn [rbind]. rewrite upd_app_last.
  assert (V4 : shrink e' 1 (with_buf (Field ty 1 b) (upd b p l)) = Ok (Field ty 1 (firstn (length b0) (upd b p l)))).
  { unfold shrink, with_buf. cbn [f_ty f_nvar].
    assert (G : get_obj_cnt (Field ty 1 (upd b p l)) = Ok (length b)).
    { pose proof (obj_cnt_ok ty 1 (map (fun x => [x]) (upd b p l))) as G. rewrite concat_single, map_length, length_upd in G.
      apply G. apply ok_single. rewrite length_upd. lia. }
    rewrite G. cbn [rbind]. replace (length b <? 1) with false by (symmetry; lia). rewrite resize_ok by lia.
    unfold buf_resize. rewrite length_upd. replace ((length b - 1) * 1) with (length b0) by lia.
    replace (length b0 - length b) with 0 by lia. simpl. rewrite app_nil_r. auto. }
  rewrite V4. cbn [rbind atomically]. split; auto.
  (* permutation *)
  rewrite Eb in Np, Hp. rewrite Eb. clear - Np Hp. destruct (Nat.eq_dec p (length b0)) as [->|Hne].
  - rewrite nth_error_app2, Nat.sub_diag in Np by lia. injection Np as ->. rewrite upd_app_last.
    rewrite firstn_app, Nat.sub_diag, firstn_all. simpl. rewrite app_nil_r. apply Permutation_cons_append.
  - rewrite app_length in Hp. simpl in Hp. assert (Hp' : p < length b0) by lia.
    assert (E : firstn (length b0) (upd (b0 ++ [l]) p l) = upd b0 p l).
    { clear - Hp'. revert p Hp'. induction b0 as [|y b0 IH]; intros p Hp'; simpl in *; [lia|].
      destruct p as [|p]; simpl. f_equal. rewrite firstn_app, firstn_all, Nat.sub_diag. simpl. now rewrite app_nil_r.
      f_equal. apply IH. lia. }
    rewrite E. rewrite nth_error_app1 in Np by lia. clear - Np.
    revert p Np. induction b0 as [|y b0 IH]; intros [|p] Np; try discriminate; simpl in *.
    + injection Np as ->. constructor. apply Permutation_cons_append.
    + apply IH in Np. rewrite perm_swap. constructor. auto.
Qed.
End Single.
