(** Proofs about fields: rows of values. *)
From Verif Require Import Base Par Scan Scan_spec Scan_proofs Reduction Layer Layer_spec.
From Coq Require Import ZifyBool ZifyNat.
Local Open Scope nat_scope.
Ltac Zify.zify_post_hook ::= Z.div_mod_to_equations.

Lemma w32n_small x : (Z.of_nat x < 2 ^ 32)%Z -> w32n x = x.
Proof. intros H. unfold w32n, w32, wrapZ. rewrite Z.mod_small by lia. lia. Qed.
Lemma narrow_ok x : (Z.of_nat x < 2 ^ 32)%Z -> narrow_u32 x = Ok x.
Proof. intros H. unfold narrow_u32. replace (_ <? _)%Z with true by (symmetry; lia). auto. Qed.

Lemma nth_error_firstn {A} n (l : list A) i : nth_error (firstn n l) i = if i <? n then nth_error l i else None.
Proof. revert l i; induction n as [|n IH]; intros [|x l] [|i]; simpl; auto. destruct (S i <? S n); auto. apply (IH l i). Qed.
Lemma nth_error_skipn {A} n (b : list A) j : nth_error (skipn n b) j = nth_error b (n + j).
Proof. revert b; induction n as [|n IH]; intros [|x b]; simpl; auto. destruct j; auto. Qed.

Section Rows.
Context {A : Type}.
Implicit Types (rs : list (list A)).
Definition uniform (nv : nat) rs := Forall (fun r => length r = nv) rs.

Lemma uniform_nth nv rs i r : uniform nv rs -> nth_error rs i = Some r -> length r = nv.
Proof. intros H N. apply nth_error_In in N. eapply Forall_forall in H; eauto. Qed.
Lemma concat_len nv rs : uniform nv rs -> length (concat rs) = length rs * nv.
Proof. induction 1; simpl; auto. rewrite app_length. lia. Qed.
Lemma concat_nth nv rs : uniform nv rs -> forall i r a, nth_error rs i = Some r -> a < nv ->
  nth_error (concat rs) (i * nv + a) = nth_error r a.
Proof.
  induction 1 as [|r0 rs H0 H IH]; intros i r a N Ha. destruct i; discriminate.
  destruct i; simpl in N.
  - injection N as ->. simpl. rewrite nth_error_app1 by lia. auto.
  - simpl. rewrite nth_error_app2 by lia. rewrite <- (IH i r a N Ha). f_equal. lia.
Qed.
Lemma concat_ext nv rs (l : list A) : 0 < nv -> uniform nv rs -> length l = length rs * nv ->
  (forall i r a, nth_error rs i = Some r -> a < nv -> nth_error l (i * nv + a) = nth_error r a) ->
  l = concat rs.
Proof.
  intros Hn HU HL H. apply list_eq_nth_error. intros j.
  destruct (Nat.lt_ge_cases j (length l)) as [Hj|Hj].
  - assert (Hi : j / nv < length rs). { apply Nat.div_lt_upper_bound; lia. }
    destruct (nth_error rs (j / nv)) as [r|] eqn:N. 2:{ apply nth_error_None in N. lia. }
    pose proof (Nat.mod_upper_bound j nv ltac:(lia)) as Hm.
    assert (Ej : j = j / nv * nv + j mod nv). { rewrite (Nat.mul_comm _ nv). apply Nat.div_mod. lia. }
    rewrite Ej. rewrite (H _ _ _ N Hm). symmetry. eapply concat_nth; eauto.
  - rewrite (proj2 (nth_error_None l j)) by lia. symmetry. apply nth_error_None.
    rewrite (concat_len nv) by auto. lia.
Qed.

Lemma pick_length {X} (l : list X) ids : valid_ids l ids -> length (pick l ids) = length ids.
Proof.
  induction 1 as [|i ids Hi H IH]; simpl; auto.
  apply nth_error_Some in Hi. destruct (nth_error l i); try congruence. simpl. auto.
Qed.
Lemma pick_nth {X} (l : list X) ids : valid_ids l ids -> forall k i, nth_error ids k = Some i ->
  nth_error (pick l ids) k = nth_error l i.
Proof.
  induction 1 as [|i0 ids Hi H IH]; intros k i N. destruct k; discriminate.
  unfold pick in *. simpl. apply nth_error_Some in Hi. destruct (nth_error l i0) eqn:E; try congruence.
  destruct k; simpl in *. congruence. auto.
Qed.
Lemma pick_uniform nv rs ids : uniform nv rs -> uniform nv (pick rs ids).
Proof.
  intros H. apply Forall_forall. intros r Hr. apply in_flat_map in Hr as (i & _ & Hr).
  destruct (nth_error rs i) eqn:E; simpl in Hr; try tauto. destruct Hr as [<-|[]].
  eapply uniform_nth; eauto.
Qed.
Lemma pick_map {X Y} (f : X -> Y) (l : list X) ids : pick (map f l) ids = map f (pick l ids).
Proof.
  induction ids as [|i t IH]; simpl; auto. rewrite map_app, <- IH. f_equal.
  rewrite nth_error_map. destruct (nth_error l i); auto.
Qed.
Lemma pick_Forall {X} (P : X -> Prop) (l : list X) ids : Forall P l -> Forall P (pick l ids).
Proof.
  intros H. apply Forall_forall. intros r Hr. apply in_flat_map in Hr as (i & _ & Hr).
  destruct (nth_error l i) eqn:E; simpl in Hr; try tauto. destruct Hr as [<-|[]].
  apply nth_error_In in E. eapply Forall_forall in H; eauto.
Qed.
Lemma pick_all {X} (l : list X) : pick l (seq 0 (length l)) = l.
Proof.
  induction l as [|x t IH]; simpl; auto. unfold pick in *. simpl. f_equal.
  rewrite <- seq_shift, flat_map_concat_map, map_map, <- flat_map_concat_map. exact IH.
Qed.

(** * The copy kernel *)
Lemma seq_offset s n : map (fun a => s + a) (seq 0 n) = seq s n.
Proof.
  revert s; induction n as [|n IH]; intros s; simpl; auto. f_equal; [lia|].
  rewrite <- seq_shift, map_map. rewrite <- (IH (S s)). apply map_ext. intros; lia.
Qed.
Lemma flat_seq nv start : forall n, flat_map (fun g => seq (start + g * nv) nv) (seq 0 n) = seq start (n * nv).
Proof.
  induction n as [|n IH]. reflexivity.
  rewrite seq_S, flat_map_app, IH. simpl flat_map. rewrite app_nil_r.
  replace (S n * nv) with (n * nv + nv) by lia. rewrite seq_app. auto.
Qed.
Lemma par_write_flat {B} (f : nat -> res B) (piece : nat -> list nat) (body : nat -> list B -> res (list B)) order :
  (forall g s, In g order -> body g s = par_write f (piece g) s) ->
  forall s, rfold body order s = par_write f (flat_map piece order) s.
Proof.
  unfold par_write, par_for. induction order as [|g t IH]; intros H s; simpl; auto.
  rewrite H by (simpl; auto). rewrite rfold_app.
  destruct (rfold _ (piece g) s); simpl; auto. apply IH. intros; apply H; simpl; auto.
Qed.
Lemma rfold_map {X Y St} (f : X -> Y) (body : Y -> St -> res St) l s :
  rfold body (map f l) s = rfold (fun x => body (f x)) l s.
Proof. revert s; induction l as [|x t IH]; intros s; simpl; auto. destruct (body (f x) s); simpl; auto. Qed.
Lemma rfold_ext_in {X St} (b1 b2 : X -> St -> res St) l : (forall x s, In x l -> b1 x s = b2 x s) ->
  forall s, rfold b1 l s = rfold b2 l s.
Proof.
  induction l as [|x t IH]; intros H s; simpl; auto. rewrite H by (simpl; auto).
  destruct (b2 x s); simpl; auto. apply IH. intros; apply H; simpl; auto.
Qed.

Lemma rows_kernel nv start order n ids rs dst :
  0 < nv -> Permutation order (seq 0 n) -> length ids = n -> valid_ids rs ids -> uniform nv rs ->
  length dst = start + n * nv -> (Z.of_nat (start + n * nv) < 2 ^ 32)%Z -> (Z.of_nat (length rs * nv) < 2 ^ 32)%Z ->
  rfold (rows_item nv start ids (concat rs)) order dst = Ok (firstn start dst ++ concat (pick rs ids)).
Proof.
  intros Hnv HP HI HV HU HL HB1 HB2.
  destruct n as [|n'].
  { assert (order = []) as -> by (apply Permutation_nil; symmetry; exact HP).
    destruct ids; try discriminate. simpl. rewrite app_nil_r, firstn_all2 by lia. auto. }
  set (n := S n') in *.
  assert (Hd : exists d : A, True).
  { destruct ids as [|i ids']; try discriminate. inversion HV; subst.
    assert (nth_error rs i <> None) by (apply nth_error_Some; auto).
    destruct (nth_error rs i) as [r|] eqn:E; try congruence. apply (uniform_nth nv) in E; auto.
    destruct r as [|d r]; simpl in E; [lia|]. eauto. }
  destruct Hd as (d & _).
  set (src := concat rs) in *.
  assert (HS : length src = length rs * nv) by (apply concat_len; auto).
  set (f := fun j => id <- aget ids ((j - start) / nv) ;; aget src (id * nv + (j - start) mod nv)).
  assert (Hord : forall g, In g order -> g < n).
  { intros g Hg. apply (Permutation_in _ HP) in Hg. apply in_seq in Hg. lia. }
  rewrite (par_write_flat f (fun g => seq (start + g * nv) nv)).
  2:{ intros g s Hg. apply Hord in Hg. unfold rows_item.
      destruct (nth_error ids g) as [id|] eqn:Eid. 2:{ apply nth_error_None in Eid. lia. }
      assert (Hid : id < length rs). { eapply Forall_forall in HV; [exact HV|]. eapply nth_error_In; eauto. }
      rewrite (proj2 (aget_ok _ _ _) Eid). cbn [rbind].
      assert (id * nv + nv <= length rs * nv) by nia.
      assert (start + g * nv + nv <= start + n * nv) by nia.
      rewrite (w32n_small (id * nv)) by lia. rewrite (w32n_small (start + g * nv)) by lia.
      unfold par_write, par_for. rewrite <- (seq_offset (start + g * nv) nv), rfold_map. apply rfold_ext_in.
      intros a dst' Ha. apply in_seq in Ha. rewrite !w32n_small by lia. unfold f.
      replace (start + g * nv + a - start) with (g * nv + a) by lia.
      assert (E1 : (g * nv + a) / nv = g). { rewrite Nat.div_add_l by lia. rewrite Nat.div_small; lia. }
      assert (E2 : (g * nv + a) mod nv = a). { rewrite Nat.add_comm, Nat.mod_add by lia. apply Nat.mod_small. lia. }
      rewrite E1, E2. rewrite (proj2 (aget_ok _ _ _) Eid). cbn [rbind]. auto. }
  assert (HPf : Permutation (flat_map (fun g => seq (start + g * nv) nv) order) (seq start (n * nv))).
  { rewrite <- flat_seq. apply Permutation_flat_map. exact HP. }
  destruct (par_write_gen f (fun j => nth (nth ((j - start) / nv) ids 0 * nv + (j - start) mod nv) src d) (flat_map (fun g => seq (start + g * nv) nv) order))
    with (old := dst) as (out & E & L & P1 & P2).
  { eapply Permutation_NoDup; [symmetry; exact HPf|]. apply seq_NoDup. }
  { intros j Hj. apply (Permutation_in _ HPf) in Hj. apply in_seq in Hj. split; [|lia]. unfold f.
    assert (Hq : (j - start) / nv < n) by (apply Nat.div_lt_upper_bound; lia).
    rewrite (aget_lt ids _ 0) by lia. cbn [rbind]. apply aget_lt.
    pose proof (Nat.mod_upper_bound (j - start) nv ltac:(lia)).
    assert (nth ((j - start) / nv) ids 0 < length rs).
    { eapply Forall_forall in HV; [exact HV|]. apply nth_In. lia. }
    assert (nth ((j - start) / nv) ids 0 * nv + nv <= length rs * nv) by nia. lia. }
  rewrite E. f_equal.
  assert (Hfirst : firstn start out = firstn start dst).
  { apply list_eq_nth_error. intros i. destruct (Nat.lt_ge_cases i start).
    - rewrite !nth_error_firstn. replace (i <? start) with true by (symmetry; lia).
      apply P2. intros X. apply (Permutation_in _ HPf) in X. apply in_seq in X. lia.
    - rewrite !(proj2 (nth_error_None _ i)); auto; rewrite firstn_length; lia. }
  rewrite <- (firstn_skipn start out), Hfirst. f_equal.
  apply concat_ext with (nv := nv); auto.
  - apply pick_uniform; auto.
  - rewrite skipn_length, pick_length by auto. lia.
  - intros i r a N Ha.
    assert (Hi : i < n). { rewrite <- HI, <- (pick_length rs ids) by auto. apply nth_error_Some. congruence. }
    destruct (nth_error ids i) as [id|] eqn:Eid. 2:{ apply nth_error_None in Eid. lia. }
    rewrite (pick_nth rs ids HV i id Eid) in N.
    rewrite <- (concat_nth nv rs HU id r a N Ha). fold src.
    assert (Hb : i * nv + nv <= n * nv) by nia.
    rewrite nth_error_skipn.
    rewrite P1. 2:{ apply (Permutation_in _ (Permutation_sym HPf)). apply in_seq. lia. }
    replace (start + (i * nv + a) - start) with (i * nv + a) by lia.
    rewrite Nat.div_add_l, (Nat.div_small a), Nat.add_0_r by lia.
    rewrite (Nat.add_comm (i * nv)), Nat.mod_add, Nat.mod_small by lia.
    rewrite (nth_error_nth _ _ 0 Eid). symmetry. rewrite <- nth_error_nth' with (d := d). auto.
    assert (id < length rs) by (apply nth_error_Some; congruence).
    assert (id * nv + nv <= length rs * nv) by nia. lia.
Qed.
End Rows.
