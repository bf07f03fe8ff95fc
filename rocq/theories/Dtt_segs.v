(** Work items that write consecutive segments of a buffer, at positions given by an exclusive scan. *)
From Verif Require Import Base Par Scan Scan_spec.
From Coq Require Import ZifyBool ZifyNat.
Local Open Scope nat_scope.

Section Segs.
  Context {A : Type}.
  Definition writel (k : nat) (l buf : list A) : list A := firstn k buf ++ l ++ skipn (k + length l) buf.
  Lemma length_writel k l buf : k + length l <= length buf -> length (writel k l buf) = length buf.
  Proof. intros H. unfold writel. rewrite !app_length, firstn_length, skipn_length. lia. Qed.
  Lemma nth_writel_in k l buf x : k + length l <= length buf -> x < length l -> nth_error (writel k l buf) (k + x) = nth_error l x.
  Proof.
    intros H Hx. unfold writel. rewrite nth_error_app2 by (rewrite firstn_length; lia). rewrite firstn_length.
    replace (k + x - Nat.min k (length buf)) with x by lia. now rewrite nth_error_app1 by lia.
  Qed.
  Lemma nth_error_firstn' n (l : list A) x : x < n -> nth_error (firstn n l) x = nth_error l x.
  Proof. revert l x. induction n as [|n IH]; intros l x H; [lia|]. destruct l; [reflexivity|]. destruct x; simpl; auto. apply IH. lia. Qed.
  Lemma nth_error_skipn' n (l : list A) x : nth_error (skipn n l) x = nth_error l (n + x).
  Proof. revert l. induction n as [|n IH]; intros l; [reflexivity|]. destruct l; [now destruct x|]. simpl. apply IH. Qed.
  Lemma nth_writel_out k l buf x : k + length l <= length buf -> x < k \/ k + length l <= x -> nth_error (writel k l buf) x = nth_error buf x.
  Proof.
    intros H [Hx|Hx]; unfold writel.
    - rewrite nth_error_app1 by (rewrite firstn_length; lia). now apply nth_error_firstn'.
    - rewrite nth_error_app2 by (rewrite firstn_length; lia). rewrite firstn_length.
      rewrite nth_error_app2 by lia. rewrite nth_error_skipn'. f_equal. lia.
  Qed.
  Lemma writel_nil k buf : writel k [] buf = buf.
  Proof. unfold writel. simpl. rewrite Nat.add_0_r. apply firstn_skipn. Qed.
  Lemma writel_one k v buf : k < length buf -> writel k [v] buf = upd buf k v.
  Proof.
    intros H. apply list_eq_nth_error. intros x. destruct (Nat.eq_dec x k) as [->|N].
    - rewrite nth_error_upd_eq by auto. replace k with (k + 0) at 2 by lia. rewrite nth_writel_in; simpl; auto; lia.
    - rewrite nth_error_upd_neq by auto. apply nth_writel_out; simpl; lia.
  Qed.
  Lemma writel_cons k v l buf : k + S (length l) <= length buf -> writel (S k) l (upd buf k v) = writel k (v :: l) buf.
  Proof.
    intros H. apply list_eq_nth_error. intros x.
    destruct (Nat.lt_ge_cases x k) as [L|G]; [|destruct (Nat.eq_dec x k) as [->|N]; [|destruct (Nat.lt_ge_cases x (k + S (length l))) as [L'|G']]].
    - rewrite !nth_writel_out by (rewrite ?length_upd; simpl; lia). apply nth_error_upd_neq. lia.
    - rewrite nth_writel_out by (rewrite ?length_upd; simpl; lia). rewrite nth_error_upd_eq by lia.
      replace k with (k + 0) at 2 by lia. rewrite nth_writel_in; simpl; auto; lia.
    - replace x with (S k + (x - S k)) at 1 by lia. replace x with (k + S (x - S k)) at 2 by lia.
      rewrite !nth_writel_in by (rewrite ?length_upd; simpl; lia). reflexivity.
    - rewrite !nth_writel_out by (rewrite ?length_upd; simpl; lia). apply nth_error_upd_neq. lia.
  Qed.

  Variable segs : nat -> list A.
  Definition pos (i : nat) : nat := length (flat_map segs (seq 0 i)).
  Lemma pos_S i : pos (S i) = pos i + length (segs i).
  Proof. unfold pos. rewrite seq_S, flat_map_app, app_length. cbn. now rewrite app_nil_r. Qed.
  Lemma pos_mono i j : i <= j -> pos i <= pos j.
  Proof. induction 1; auto. rewrite pos_S. lia. Qed.
  Lemma pos_seg i n : i < n -> pos i + length (segs i) <= pos n.
  Proof. intros. rewrite <- pos_S. apply pos_mono. lia. Qed.
  Lemma nth_flat n : forall i x, i < n -> x < length (segs i) -> nth_error (flat_map segs (seq 0 n)) (pos i + x) = nth_error (segs i) x.
  Proof.
    induction n as [|n IH]; intros i x Hi Hx; [lia|]. rewrite seq_S, flat_map_app. cbn [flat_map Nat.add]. rewrite app_nil_r.
    destruct (Nat.eq_dec i n) as [->|].
    - rewrite nth_error_app2 by (unfold pos; lia). f_equal. unfold pos. lia.
    - rewrite nth_error_app1; [apply IH; lia|]. assert (i < n) by lia. pose proof (pos_seg i n H). unfold pos in *. lia.
  Qed.
  Lemma find_seg n : forall x, x < pos n -> exists i y, i < n /\ y < length (segs i) /\ x = pos i + y.
  Proof.
    induction n as [|n IH]; intros x Hx; [unfold pos in Hx; simpl in Hx; lia|]. rewrite pos_S in Hx.
    destruct (Nat.lt_ge_cases x (pos n)) as [L|G].
    - destruct (IH x L) as (i & y & ? & ? & ?). exists i, y. lia.
    - exists n, (x - pos n). lia.
  Qed.

  Variables (n lb : nat).
  Definition seg_step (buf : list A) (i : nat) : list A := writel (lb + pos i) (segs i) buf.
  Lemma segs_gen order : NoDup order -> (forall i, In i order -> i < n) -> forall buf, length buf = lb + pos n ->
    let out := fold_left seg_step order buf in
    length out = length buf /\ (forall x, x < lb -> nth_error out x = nth_error buf x) /\
    (forall i y, i < n -> y < length (segs i) -> nth_error out (lb + pos i + y) =
       if existsb (Nat.eqb i) order then nth_error (segs i) y else nth_error buf (lb + pos i + y)).
  Proof.
    induction order as [|j order IH]; intros ND HB buf HL; cbn [fold_left existsb]; cbv zeta; [auto|].
    inversion ND as [|? ? NI ND']; subst. assert (Hj : j < n) by (apply HB; simpl; auto).
    assert (FIT : lb + pos j + length (segs j) <= length buf) by (pose proof (pos_seg j n Hj); lia).
    destruct (IH ND' ltac:(intros; apply HB; simpl; auto) (seg_step buf j)) as (L & P & Q).
    { unfold seg_step. now rewrite length_writel. }
    assert (LS : length (seg_step buf j) = length buf) by (unfold seg_step; now rewrite length_writel).
    rewrite LS in L. split; [exact L|]. split.
    - intros x Hx. rewrite P by auto. unfold seg_step. apply nth_writel_out; auto. lia.
    - intros i y Hi Hy. rewrite Q by auto. destruct (Nat.eqb_spec i j) as [->|N]; cbn [orb].
      + replace (existsb (Nat.eqb j) order) with false.
        * unfold seg_step. now apply nth_writel_in.
        * symmetry. apply not_true_is_false. intros X. apply existsb_exists in X. destruct X as (z & Hz & E). apply Nat.eqb_eq in E. now subst.
      + destruct (existsb (Nat.eqb i) order); auto. unfold seg_step. apply nth_writel_out; auto.
        destruct (Nat.lt_ge_cases i j) as [LT|GE].
        * pose proof (pos_seg i j LT). lia.
        * assert (j < i) by lia. pose proof (pos_seg j i H). lia.
  Qed.
  Lemma segs_ok order buf : Permutation order (seq 0 n) -> length buf = lb + pos n ->
    fold_left seg_step order buf = firstn lb buf ++ flat_map segs (seq 0 n).
  Proof.
    intros HP HL. destruct (segs_gen order) with (buf := buf) as (L & P & Q); auto.
    { eapply Permutation_NoDup; [symmetry; exact HP|apply seq_NoDup]. }
    { intros i Hi. apply (Permutation_in _ HP), in_seq in Hi. lia. }
    apply list_eq_nth_error. intros x. destruct (Nat.lt_ge_cases x lb) as [H|H].
    - rewrite P by auto. rewrite nth_error_app1 by (rewrite firstn_length; lia). now rewrite nth_error_firstn'.
    - rewrite nth_error_app2 by (rewrite firstn_length; lia). rewrite firstn_length. replace (x - Nat.min lb (length buf)) with (x - lb) by lia.
      destruct (Nat.lt_ge_cases (x - lb) (pos n)) as [H2|H2].
      + destruct (find_seg n _ H2) as (i & y & Hi & Hy & E). rewrite E, nth_flat by auto.
        replace x with (lb + pos i + y) by lia. rewrite Q by auto.
        replace (existsb (Nat.eqb i) order) with true; auto. symmetry. apply existsb_exists. exists i.
        split; [apply (Permutation_in _ (Permutation_sym HP)); apply in_seq; lia|apply Nat.eqb_refl].
      + rewrite (proj2 (nth_error_None _ _)) by lia. symmetry. apply nth_error_None. exact H2.
  Qed.
  (** the kernel version *)
  Lemma segs_kernel (f : nat -> list A -> res (list A)) order buf :
    Permutation order (seq 0 n) -> length buf = lb + pos n ->
    (forall i b, i < n -> length b = lb + pos n -> f i b = Ok (seg_step b i)) ->
    par_for order f buf = Ok (firstn lb buf ++ flat_map segs (seq 0 n)).
  Proof.
    intros HP HL HF. rewrite <- (segs_ok order buf HP HL). unfold par_for.
    assert (HB : forall i, In i order -> i < n) by (intros i Hi; apply (Permutation_in _ HP), in_seq in Hi; lia).
    clear HP. revert buf HL HB. induction order as [|i order IH]; intros buf HL HB; [reflexivity|]. cbn [rfold fold_left].
    assert (Hi : i < n) by (apply HB; simpl; auto). rewrite HF by auto. cbn [rbind]. apply IH; [|intros; apply HB; simpl; auto].
    unfold seg_step. rewrite length_writel; auto. pose proof (pos_seg i n Hi). lia.
  Qed.
End Segs.

(** the exclusive scan of the lengths of the segments gives their positions *)
Lemma zsum_app a b : zsum (a ++ b) = (zsum a + zsum b)%Z.
Proof. induction a; simpl; lia. Qed.
Lemma scan_pos {A} (segs : nat -> list A) (cnts : list Z) (n i : nat) :
  i <= n -> n <= length cnts -> (forall j, j < n -> nth j cnts 0%Z = Z.of_nat (length (segs j))) ->
  zsum (firstn i cnts) = Z.of_nat (pos segs i).
Proof.
  intros Hi Hn HC. induction i as [|i IH]; [reflexivity|].
  assert (E : firstn (S i) cnts = firstn i cnts ++ [nth i cnts 0%Z]).
  { assert (i < length cnts) by lia. clear - H. revert i H. induction cnts as [|x c IH]; intros i H; simpl in H; [lia|].
    destruct i; [reflexivity|]. cbn [firstn nth app]. f_equal. apply IH. lia. }
  rewrite E, zsum_app, IH by lia. cbn [zsum]. rewrite HC by lia. rewrite pos_S. lia.
Qed.
Lemma excl_nth l len i : i < len -> nth i (excl_spec l len) 0%Z = w32 (zsum (firstn i l)).
Proof.
  intros H. unfold excl_spec. rewrite (nth_indep _ 0%Z (prefix l 0)) by (rewrite map_length, seq_length; lia).
  rewrite map_nth. rewrite seq_nth by lia. reflexivity.
Qed.
Lemma w32_small z : (0 <= z < 2 ^ 32)%Z -> w32 z = z.
Proof. intros. unfold w32, wrapZ. apply Z.mod_small. auto. Qed.
Lemma length_excl l n : length (excl_spec l n) = n.
Proof. unfold excl_spec. now rewrite map_length, seq_length. Qed.
Lemma scan_read {A} (segs : nat -> list A) cnts n len i tl :
  len <= n + 1 -> i < len -> n <= length cnts -> (forall j, j < n -> nth j cnts 0%Z = Z.of_nat (length (segs j))) ->
  (Z.of_nat (pos segs n) < 2 ^ 32)%Z ->
  aget (excl_spec cnts len ++ tl) i = Ok (Z.of_nat (pos segs i)).
Proof.
  intros HL Hi Hn HC HB. rewrite (aget_lt _ _ 0%Z) by (rewrite app_length, length_excl; lia).
  rewrite app_nth1 by (rewrite length_excl; lia). rewrite excl_nth by auto.
  rewrite (scan_pos segs cnts n i) by (auto; lia). rewrite w32_small; auto.
  assert (pos segs i <= pos segs n) by (apply pos_mono; lia). lia.
Qed.
