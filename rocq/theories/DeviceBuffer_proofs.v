From Verif Require Import Base Integer DeviceBuffer DeviceBuffer_spec.
From Coq Require Import ZifyBool ZifyNat.
Local Open Scope Z_scope.

Lemma w64_id x : 0 <= x < 2 ^ 64 -> w64 x = x.
Proof. intros H. unfold w64, wrapZ. apply Z.mod_small; auto. Qed.
Lemma w32_id x : 0 <= x < 2 ^ 32 -> w32 x = x.
Proof. intros H. unfold w32, wrapZ. apply Z.mod_small; auto. Qed.

Lemma round_up_bounds x m : 0 < m -> x <= round_up x m < x + m.
Proof.
  intros H. unfold round_up. pose proof (Z.div_mod (x + m - 1) m ltac:(lia)).
  pose proof (Z.mod_pos_bound (x + m - 1) m H). nia.
Qed.
Lemma round_up_mult x m : 0 < m -> round_up x m mod m = 0.
Proof. intros H. unfold round_up. apply Z.mod_mul; lia. Qed.
Lemma round_up_nonneg x m : 0 < m -> 0 <= x -> 0 <= round_up x m.
Proof. intros H H0. pose proof (round_up_bounds x m H). lia. Qed.
Lemma round_up_mono x y m : 0 < m -> x <= y -> round_up x m <= round_up y m.
Proof.
  intros H H0. unfold round_up.
  pose proof (Z.div_le_mono (x + m - 1) (y + m - 1) m H ltac:(lia)). nia.
Qed.
Lemma round_up_double x m : 0 < m -> round_up (2 * x) m <= 2 * round_up x m.
Proof.
  intros H.
  pose proof (round_up_bounds x m H). 
  pose proof (round_up_mult x m H).
  assert (round_up (2 * x) m <= round_up (2 * round_up x m) m) by (apply round_up_mono; lia).
  assert (E : 2 * round_up x m = 2 * (round_up x m / m) * m).
  { pose proof (Z.div_mod (round_up x m) m ltac:(lia)). lia. }
  assert (round_up (2 * round_up x m) m = 2 * round_up x m).
  { rewrite E at 1 2. unfold round_up at 1.
    replace (2 * (round_up x m / m) * m + m - 1) with ((m - 1) + (2 * (round_up x m / m)) * m) by lia.
    rewrite Z.div_add by lia. rewrite Z.div_small by lia. lia. }
  lia.
Qed.
Lemma round_up_zero m : 0 < m -> round_up 0 m = 0.
Proof. intros H. unfold round_up. rewrite Z.div_small; lia. Qed.

Lemma upgrade_round sz m : 0 < m -> 0 <= sz -> sz + m < 2 ^ 64 -> upgrade_multiple sz m = round_up sz m.
Proof.
  intros H H0 H1. unfold upgrade_multiple, round_up.
  pose proof (Z.div_mod sz m ltac:(lia)) as Hd. pose proof (Z.mod_pos_bound sz m H) as Hb.
  destruct (sz mod m =? 0) eqn:Hz.
  - apply Z.eqb_eq in Hz.
    replace (sz + m - 1) with ((m - 1) + (sz / m) * m) by lia.
    rewrite Z.div_add by lia. rewrite Z.div_small by lia. lia.
  - apply Z.eqb_neq in Hz. rewrite w64_id by lia.
    replace (sz + m - 1) with ((sz mod m - 1) + (sz / m + 1) * m) by lia.
    rewrite Z.div_add by lia. rewrite Z.div_small by lia. lia.
Qed.

Section Env.
Variable E : dev_env.
Hypothesis HE : env_ok E.

Lemma align_pos : 0 < alignment E.
Proof.
  destruct HE as (_ & Ha & Hb & _).
  pose proof (round_up_bounds (e_alignof E) (Z.max (e_base E) 8) ltac:(lia)). unfold alignment. lia.
Qed.
Lemma align_small : alignment E < 2 ^ 34.
Proof.
  destruct HE as (_ & Ha & Hb & _).
  pose proof (round_up_bounds (e_alignof E) (Z.max (e_base E) 8) ltac:(lia)). unfold alignment. lia.
Qed.
Lemma get_alignment_eq : get_alignment E = alignment E.
Proof.
  destruct HE as (_ & Ha & Hb & _). unfold get_alignment, alignment. apply upgrade_round; lia.
Qed.
Lemma align_base : alignment E mod e_base E = 0.
Proof.
  destruct HE as (_ & Ha & Hb & Hc & _). unfold alignment, round_up.
  set (k := (e_alignof E + Z.max (e_base E) 8 - 1) / Z.max (e_base E) 8).
  destruct Hc as [Hc|[Hc|[Hc|Hc]]].
  - rewrite Z.max_l by lia. apply Z.mod_mul; lia.
  - rewrite Hc. apply Z.mod_1_r.
  - rewrite Hc. change (Z.max 2 8) with (4 * 2). rewrite Z.mul_assoc. apply Z.mod_mul; lia.
  - rewrite Hc. change (Z.max 4 8) with (2 * 4). rewrite Z.mul_assoc. apply Z.mod_mul; lia.
Qed.

Definition req (n : Z) : Z := round_up (n * e_sizeof E) (alignment E).
Lemma alloc_request_eq n : 0 <= n -> n * e_sizeof E + alignment E < 2 ^ 64 -> alloc_request E n = req n.
Proof.
  intros Hn Hf. unfold alloc_request, req. pose proof align_pos.
  destruct HE as (Hs & _).
  rewrite w64_id by nia. rewrite get_alignment_eq. apply upgrade_round; nia.
Qed.
Lemma fits_alloc n : fits E n -> alloc_request E n = req n.
Proof.
  intros (Hn & Hf). destruct HE as (Hs & _). pose proof align_pos. apply alloc_request_eq; nia.
Qed.
Lemma fits_alloc_half n : fits E n -> alloc_request E (w64 (n + n / 2)) = req (n + n / 2).
Proof.
  intros (Hn & Hf). destruct HE as (Hs & _). pose proof align_pos.
  assert (0 <= n / 2) by (apply Z.div_pos; lia).
  assert (2 * (n / 2) <= n) by (apply Z.mul_div_le; lia).
  rewrite w64_id by nia. apply alloc_request_eq; nia.
Qed.
Lemma req_ge n : n * e_sizeof E <= req n.
Proof. unfold req. pose proof (round_up_bounds (n * e_sizeof E) (alignment E) align_pos). lia. Qed.
Lemma req_mono n m : n <= m -> req n <= req m.
Proof. intros H. destruct HE as (Hs & _). apply round_up_mono. apply align_pos. nia. Qed.
Lemma req_lt_inv n m : req n < req m -> n < m.
Proof. intros H. destruct (Z_lt_le_dec n m); auto. apply req_mono in l. lia. Qed.
Lemma req_half n : 0 <= n -> req (n + n / 2) <= 2 * req n.
Proof.
  intros Hn. assert (2 * (n / 2) <= n) by (apply Z.mul_div_le; lia).
  etransitivity. apply (req_mono _ (2 * n)). lia.
  unfold req. replace (2 * n * e_sizeof E) with (2 * (n * e_sizeof E)) by lia.
  apply round_up_double, align_pos.
Qed.
Lemma req_0 : req 0 = 0.
Proof. unfold req. rewrite Z.mul_0_l. apply round_up_zero, align_pos. Qed.
Lemma req_nonneg n : 0 <= n -> 0 <= req n.
Proof. intros H. rewrite <- req_0. now apply req_mono. Qed.
Lemma req_mult n : req n mod alignment E = 0.
Proof. apply round_up_mult, align_pos. Qed.

(** ** Allocation *)
Definition cap (bytes : Z) : nat := Z.to_nat (bytes / e_sizeof E).
Lemma cap_ge n bytes : 0 <= n -> n * e_sizeof E <= bytes -> (Z.to_nat n <= cap bytes)%nat.
Proof.
  intros Hn H. destruct HE as (Hs & _). unfold cap. apply Z2Nat.inj_le; auto.
  - apply Z.div_pos; nia.
  - apply Z.div_le_lower_bound; nia.
Qed.

Lemma create_usm_ok {A} (o : oracle A) bytes :
  0 <= bytes -> bytes mod alignment E = 0 ->
  (exists m, create_usm_ptr E o bytes = Ok (bytes, m) /\ length m = cap bytes) \/
  (create_usm_ptr E o bytes = Throw /\ 0 < bytes /\ (o_accept o = false \/ e_max E < bytes)).
Proof.
  intros Hb Hm. unfold create_usm_ptr. rewrite get_alignment_eq, align_base, Hm. simpl.
  destruct (0 <? bytes) eqn:H0.
  - destruct (e_max E <? bytes) eqn:H1. right; repeat split; auto; lia.
    destruct (o_accept o) eqn:H2.
    + left. eexists; split; eauto. rewrite map_length, seq_length. reflexivity.
    + right; repeat split; auto; lia.
  - assert (bytes = 0) by lia. subst bytes. left. exists []. split; auto.
Qed.
End Env.

(** ** Copies *)
Lemma memcpy_ok {A} (src dst : list A) s d len0 :
  0 <= s -> 0 <= d -> 0 <= len0 -> s + len0 <= len src -> d + len0 <= len dst ->
  exists dst', memcpy src s d len0 dst = Ok dst' /\ length dst' = length dst /\
    forall i, nth_error dst' i =
      if (Z.to_nat d <=? i)%nat && (i <? Z.to_nat d + Z.to_nat len0)%nat
      then nth_error src (Z.to_nat s + (i - Z.to_nat d)) else nth_error dst i.
Proof.
  intros Hs Hd Hl Hsrc Hdst. unfold memcpy, len in *.
  set (sn := Z.to_nat s). set (dn := Z.to_nat d). set (n := Z.to_nat len0).
  assert (H1 : (sn + n <= length src)%nat) by lia.
  assert (H2 : (dn + n <= length dst)%nat) by lia.
  clearbody sn dn n. clear - H1 H2.
  induction n as [|n IH].
  - exists dst. simpl. repeat split; auto. intros i.
    replace ((dn <=? i)%nat && (i <? dn + 0)%nat) with false by (symmetry; lia). auto.
  - destruct IH as (dst' & R & L & N); try lia.
    rewrite seq_S, rfold_app, R. simpl.
    destruct (nth_error src (sn + n)) as [v|] eqn:Ev; [|apply nth_error_None in Ev; lia].
    unfold aget. rewrite Ev. simpl. rewrite aset_lt by lia. simpl.
    eexists; split; eauto. split. now rewrite length_upd.
    intros i. destruct (Nat.eq_dec (dn + n) i) as [He|He].
    + subst i. rewrite nth_error_upd_eq by lia.
      replace ((dn <=? dn + n)%nat && (dn + n <? dn + S n)%nat) with true by (symmetry; lia).
      replace (sn + (dn + n - dn))%nat with (sn + n)%nat by lia. auto.
    + rewrite nth_error_upd_neq by auto. rewrite N.
      destruct ((dn <=? i)%nat && (i <? dn + n)%nat) eqn:C.
      * replace ((dn <=? i)%nat && (i <? dn + S n)%nat) with true by (symmetry; lia). auto.
      * replace ((dn <=? i)%nat && (i <? dn + S n)%nat) with false by (symmetry; lia). auto.
Qed.

(** A loop over disjoint chunks, in any order: [written P i] is the value written at cell [i]. *)
Lemma chunk_loop {A} (mcl count : Z) (d : Z) (val : nat -> option A) (body : nat -> list A -> res (list A)) order dst :
  0 < mcl -> 0 <= d -> 0 <= count -> d + count <= len dst ->
  Permutation order (seq 0 (nchunks mcl count)) ->
  (forall k dst0, (k < nchunks mcl count)%nat -> length dst0 = length dst ->
     exists dst', body k dst0 = Ok dst' /\ length dst' = length dst0 /\
       forall i, nth_error dst' i =
        let lo := Z.to_nat (d + Z.of_nat k * mcl) in
        let n := Z.to_nat (Z.min mcl (count - Z.of_nat k * mcl)) in
        if (lo <=? i)%nat && (i <? lo + n)%nat then val i else nth_error dst0 i) ->
  exists dst', rfold body order dst = Ok dst' /\ length dst' = length dst /\
    forall i, nth_error dst' i =
      if (Z.to_nat d <=? i)%nat && (i <? Z.to_nat d + Z.to_nat count)%nat then val i
      else nth_error dst i.
Proof.
  intros Hm Hd Hc Hlen Hperm Hbody.
  assert (Hnc : forall k, (k < nchunks mcl count)%nat <-> Z.of_nat k * mcl < count).
  { intros k. unfold nchunks.
    pose proof (Z.div_mod (count + mcl - 1) mcl ltac:(lia)).
    pose proof (Z.mod_pos_bound (count + mcl - 1) mcl Hm).
    assert (0 <= (count + mcl - 1) / mcl) by (apply Z.div_pos; lia).
    split; intros H'.
    - assert (Z.of_nat k + 1 <= (count + mcl - 1) / mcl) by lia. nia.
    - assert (Z.of_nat k < (count + mcl - 1) / mcl) by nia. lia. }
  (* invariant over prefixes of the order *)
  assert (HI : forall done_ rest, order = done_ ++ rest ->
    exists dst', rfold body done_ dst = Ok dst' /\ length dst' = length dst /\
      forall i, nth_error dst' i =
        if existsb (fun k => (Z.to_nat (d + Z.of_nat k * mcl) <=? i)%nat &&
              (i <? Z.to_nat (d + Z.of_nat k * mcl) + Z.to_nat (Z.min mcl (count - Z.of_nat k * mcl)))%nat) done_
        then val i else nth_error dst i).
  { intros done_. induction done_ as [|k done_ IH] using rev_ind; intros rest Heq.
    - exists dst. simpl. auto.
    - destruct (IH (k :: rest)) as (d1 & R & L & N). { rewrite Heq, <- app_assoc. reflexivity. }
      rewrite rfold_app, R. simpl.
      assert (Hk : (k < nchunks mcl count)%nat).
      { assert (In k (seq 0 (nchunks mcl count))).
        { eapply Permutation_in; eauto. rewrite Heq, <- app_assoc. apply in_or_app; right; simpl; auto. }
        apply in_seq in H. lia. }
      destruct (Hbody k d1 Hk L) as (d2 & R2 & L2 & N2). rewrite R2. simpl.
      exists d2. split; auto. split. lia. intros i. rewrite N2. cbv zeta.
      rewrite existsb_app. simpl. rewrite orb_false_r.
      rewrite N. destruct (existsb _ done_); simpl; auto.
      destruct ((Z.to_nat (d + Z.of_nat k * mcl) <=? i)%nat && _); auto. }
  destruct (HI order []) as (d1 & R & L & N). now rewrite app_nil_r.
  exists d1. split; auto. split; auto. intros i. rewrite N.
  set (ex := existsb _ order).
  assert (Hex : ex = ((Z.to_nat d <=? i)%nat && (i <? Z.to_nat d + Z.to_nat count)%nat)).
  { unfold ex. apply eq_true_iff_eq. rewrite existsb_exists. split.
    - intros (k & Hin & Hk).
      assert (Hk' : (k < nchunks mcl count)%nat).
      { eapply Permutation_in in Hin; eauto. apply in_seq in Hin. lia. }
      apply Hnc in Hk'. apply andb_true_iff in Hk as (K1 & K2).
      apply Nat.leb_le in K1. apply Nat.ltb_lt in K2.
      assert (0 <= Z.of_nat k * mcl) by nia.
      apply andb_true_iff; split; [apply Nat.leb_le|apply Nat.ltb_lt]; lia.
    - intros H. apply andb_true_iff in H as (K1 & K2).
      apply Nat.leb_le in K1. apply Nat.ltb_lt in K2.
      set (off := Z.of_nat i - d). assert (0 <= off < count) by lia.
      set (q := off / mcl).
      pose proof (Z.div_mod off mcl ltac:(lia)). pose proof (Z.mod_pos_bound off mcl Hm).
      fold q in H0. assert (0 <= q) by (apply Z.div_pos; lia).
      exists (Z.to_nat q). split.
      + eapply Permutation_in. apply Permutation_sym; eauto. apply in_seq. split. lia.
        rewrite Nat.add_0_l. apply Hnc. rewrite Z2Nat.id by lia. lia.
      + rewrite Z2Nat.id by lia. assert (0 <= q * mcl) by nia.
        apply andb_true_iff; split; [apply Nat.leb_le|apply Nat.ltb_lt]; lia. }
  rewrite Hex. reflexivity.
Qed.

Lemma overlay_nth {A} (a : list A) pos l i :
  0 <= pos -> pos + len l <= len a ->
  nth_error (overlay a pos l) i =
    if (Z.to_nat pos <=? i)%nat && (i <? Z.to_nat pos + length l)%nat
    then nth_error l (i - Z.to_nat pos) else nth_error a i.
Proof.
  intros Hp Hl. unfold overlay, len in *. set (p := Z.to_nat pos).
  assert (Hpl : (p + length l <= length a)%nat) by lia. clearbody p. clear - Hpl.
  assert (Lf : length (firstn p a) = p) by (rewrite firstn_length; lia).
  destruct (Nat.ltb_spec i p).
  - replace ((p <=? i)%nat && _) with false by (symmetry; lia).
    rewrite nth_error_app1 by lia. 
    clear - H. revert i a H. induction p; intros i a H; [lia|]. destruct a; simpl; [now destruct i|].
    destruct i; simpl; auto. apply IHp; lia.
  - rewrite nth_error_app2 by lia. rewrite Lf.
    destruct (Nat.ltb_spec (i - p) (length l)).
    + replace ((p <=? i)%nat && (i <? p + length l)%nat) with true by (symmetry; lia).
      now rewrite nth_error_app1 by lia.
    + replace ((p <=? i)%nat && (i <? p + length l)%nat) with false by (symmetry; lia).
      rewrite nth_error_app2 by lia.
      rewrite (nth_error_skipn (p + length l) a (i - p - length l)) || idtac.
      assert (G : forall n (b : list A) j, nth_error (skipn n b) j = nth_error b (n + j)).
      { intros n b. revert n. induction b; intros [|n] j; simpl; auto. now destruct j. }
      rewrite G. f_equal. lia.
Qed.
Lemma overlay_length {A} (a : list A) pos l : 0 <= pos -> pos + len l <= len a ->
  length (overlay a pos l) = length a.
Proof.
  intros Hp Hl. unfold overlay, len in *. rewrite !app_length, firstn_length, skipn_length. lia.
Qed.
Lemma sub_length {A} (a : list A) b e : 0 <= b <= e -> e <= len a -> length (sub a b e) = Z.to_nat (e - b).
Proof. intros H1 H2. unfold sub, len in *. rewrite firstn_length, skipn_length. lia. Qed.
Lemma nth_error_firstn' {A} n (l : list A) i : nth_error (firstn n l) i = if (i <? n)%nat then nth_error l i else None.
Proof.
  revert n i; induction l as [|a l IH]; intros [|n] [|i]; simpl; auto.
  - now destruct (S i <? S n)%nat.
  - rewrite IH. reflexivity.
Qed.
Lemma nth_error_skipn' {A} n (b : list A) j : nth_error (skipn n b) j = nth_error b (n + j).
Proof. revert n. induction b; intros [|n]; simpl; auto. now destruct j. Qed.
Lemma sub_nth {A} (a : list A) b e i :
  nth_error (sub a b e) i = if (i <? Z.to_nat (e - b))%nat then nth_error a (Z.to_nat b + i) else None.
Proof. unfold sub. rewrite nth_error_firstn'. now rewrite nth_error_skipn'. Qed.

Lemma safe_copy_ok {A} E (o : oracle A) src s d count dst :
  env_ok E -> good_oracle o -> 0 <= s -> 0 <= d -> 0 <= count ->
  s + count <= len src -> d + count <= len dst ->
  safe_copy E o src s d count dst = Ok (overlay dst d (sub src s (s + count))).
Proof.
  intros HE Ho Hs Hd Hc H1 H2. unfold safe_copy.
  assert (Hm : 0 < max_copy_len E).
  { destruct HE as (Hz & _). unfold max_copy_len.
    assert (1 <= 2 ^ 30 / e_sizeof E) by (apply Z.div_le_lower_bound; lia). lia. }
  replace (max_copy_len E =? 0) with false by (symmetry; lia).
  destruct (chunk_loop (max_copy_len E) count d
     (fun i => nth_error src (Z.to_nat s + (i - Z.to_nat d)))
     (fun k dst0 => memcpy src (s + Z.of_nat k * max_copy_len E) (d + Z.of_nat k * max_copy_len E)
        (Z.min (max_copy_len E) (count - Z.of_nat k * max_copy_len E)) dst0)
     (o_order o (nchunks (max_copy_len E) count)) dst) as (dst' & R & L & N); auto.
  - intros k dst0 Hk Hl0.
    assert (Hk' : Z.of_nat k * max_copy_len E < count).
    { unfold nchunks in Hk.
      pose proof (Z.div_mod (count + max_copy_len E - 1) (max_copy_len E) ltac:(lia)).
      pose proof (Z.mod_pos_bound (count + max_copy_len E - 1) (max_copy_len E) Hm).
      assert (Z.of_nat k + 1 <= (count + max_copy_len E - 1) / max_copy_len E) by lia. nia. }
    assert (0 <= Z.of_nat k * max_copy_len E) by nia.
    destruct (memcpy_ok src dst0 (s + Z.of_nat k * max_copy_len E) (d + Z.of_nat k * max_copy_len E)
       (Z.min (max_copy_len E) (count - Z.of_nat k * max_copy_len E))) as (d1 & R & L & N).
    + lia. + lia. + lia. + lia. + unfold len in *. lia.
    + exists d1. split; auto. split; auto. intros i. rewrite N. cbv zeta.
      destruct ((Z.to_nat (d + Z.of_nat k * max_copy_len E) <=? i)%nat && _) eqn:C; auto.
      apply andb_true_iff in C as (C1 & C2). apply Nat.leb_le in C1. f_equal. lia.
  - rewrite R. f_equal.
    assert (Lsub : length (sub src s (s + count)) = Z.to_nat count) by (rewrite sub_length; lia).
    apply list_eq_nth_error. intros i. rewrite N.
    rewrite overlay_nth by (try unfold len; try rewrite Lsub; unfold len in *; lia).
    rewrite Lsub. destruct ((Z.to_nat d <=? i)%nat && _) eqn:C; auto.
    rewrite sub_nth. replace (s + count - s) with count by lia.
    apply andb_true_iff in C as (C1 & C2). apply Nat.leb_le in C1. apply Nat.ltb_lt in C2.
    replace (i - Z.to_nat d <? Z.to_nat count)%nat with true by (symmetry; lia). reflexivity.
Qed.

Lemma fill_chunk_ok {A} (v : A) lo n dst : (lo + n <= length dst)%nat ->
  exists dst', rfold (fun j dst => aset dst (lo + j)%nat v) (seq 0 n) dst = Ok dst' /\
    length dst' = length dst /\
    forall i, nth_error dst' i = if (lo <=? i)%nat && (i <? lo + n)%nat then Some v else nth_error dst i.
Proof.
  intros H. induction n as [|n IH].
  - exists dst. simpl. repeat split; auto. intros i.
    replace ((lo <=? i)%nat && _) with false by (symmetry; lia). auto.
  - destruct IH as (d1 & R & L & N); try lia. rewrite seq_S, rfold_app, R. simpl.
    rewrite aset_lt by lia. simpl. eexists; split; eauto. split. now rewrite length_upd.
    intros i. destruct (Nat.eq_dec (lo + n) i) as [He|He].
    + subst i. rewrite nth_error_upd_eq by lia.
      replace ((lo <=? lo + n)%nat && (lo + n <? lo + S n)%nat) with true by (symmetry; lia). auto.
    + rewrite nth_error_upd_neq by auto. rewrite N.
      destruct ((lo <=? i)%nat && (i <? lo + n)%nat) eqn:C.
      * replace ((lo <=? i)%nat && (i <? lo + S n)%nat) with true by (symmetry; lia). auto.
      * replace ((lo <=? i)%nat && (i <? lo + S n)%nat) with false by (symmetry; lia). auto.
Qed.

Lemma safe_fill_ok {A} (o : oracle A) d count v dst :
  good_oracle o -> 0 <= d -> 0 <= count -> d + count <= len dst ->
  safe_fill o d count v dst = Ok (overlay dst d (repeat v (Z.to_nat count))).
Proof.
  intros Ho Hd Hc H2. unfold safe_fill. set (mcl := 2 ^ 30).
  assert (Hm : 0 < mcl) by (unfold mcl; lia).
  destruct (chunk_loop mcl count d (fun i => Some v)
     (fun k dst0 => rfold (fun j dst => aset dst (Z.to_nat (d + Z.of_nat k * mcl) + j)%nat v)
        (seq 0 (Z.to_nat (Z.min mcl (count - Z.of_nat k * mcl)))) dst0)
     (o_order o (nchunks mcl count)) dst) as (dst' & R & L & N); auto.
  - intros k dst0 Hk Hl0.
    assert (Hk' : Z.of_nat k * mcl < count).
    { unfold nchunks in Hk.
      pose proof (Z.div_mod (count + mcl - 1) mcl ltac:(lia)).
      pose proof (Z.mod_pos_bound (count + mcl - 1) mcl Hm).
      assert (Z.of_nat k + 1 <= (count + mcl - 1) / mcl) by lia. clearbody mcl. nia. }
    assert (0 <= Z.of_nat k * mcl) by (clearbody mcl; nia).
    destruct (fill_chunk_ok v (Z.to_nat (d + Z.of_nat k * mcl))
       (Z.to_nat (Z.min mcl (count - Z.of_nat k * mcl))) dst0) as (d1 & R & L & N).
    + unfold len in *. clearbody mcl. lia.
    + exists d1. split; auto.
  - rewrite R. f_equal. apply list_eq_nth_error. intros i. rewrite N.
    rewrite overlay_nth by (unfold len in *; rewrite ?repeat_length; lia).
    rewrite repeat_length. destruct ((Z.to_nat d <=? i)%nat && _) eqn:C; auto.
    apply andb_true_iff in C as (C1 & C2). apply Nat.leb_le in C1. apply Nat.ltb_lt in C2.
    symmetry. assert (G : forall n j, (j < n)%nat -> nth_error (repeat v n) j = Some v).
    { intros n. induction n; intros [|j] Hj; simpl; try lia; auto. apply IHn; lia. }
    apply G. lia.
Qed.
