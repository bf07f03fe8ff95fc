(** Proofs about SortSearch.v *)
From Verif Require Import Base SortSearch SortSearch_spec.
From Coq Require Import ZifyBool ZifyNat.

(* ---------------- binary search ---------------- *)
Lemma bsearch_loop_ok {A} (p : A -> bool) key d : forall fuel first len k,
  len <= fuel -> first + len <= length key -> first <= k <= first + len ->
  (forall i, first <= i < k -> p (nth i key d) = true) ->
  (forall i, k <= i < first + len -> p (nth i key d) = false) ->
  bsearch_loop p key fuel first len = Ok k.
Proof.
  induction fuel as [|fuel IH]; intros first len k Hf Hb Hk H1 H2.
  - assert (len = 0) by lia; subst. simpl. f_equal; lia.
  - destruct len as [|n]; [simpl; f_equal; lia|]. set (len := S n) in *.
    change (bsearch_loop p key (S fuel) first len) with
      (k0 <- aget key (first + len / 2) ;;
       bsearch_loop p key fuel (if p k0 then first + (len / 2 + len mod 2) else first) (len / 2)).
    pose proof (Nat.div_mod len 2). pose proof (Nat.mod_upper_bound len 2).
    assert (len / 2 < len) by (apply Nat.div_lt; lia).
    rewrite (aget_lt key _ d) by lia. cbn [rbind].
    destruct (p (nth (first + len / 2) key d)) eqn:E.
    + assert (first + len / 2 < k).
      { destruct (Nat.lt_ge_cases (first + len / 2) k); auto. rewrite H2 in E by lia. discriminate. }
      apply IH; try lia.
      * intros i Hi. apply H1. lia.
      * intros i Hi. apply H2. lia.
    + assert (k <= first + len / 2).
      { destruct (Nat.lt_ge_cases (first + len / 2) k); auto. rewrite H1 in E by lia. discriminate. }
      apply IH; try lia; intros i Hi; [apply H1|apply H2]; lia.
Qed.

Lemma partition_point (q : nat -> bool) f n :
  (forall i j, f <= i -> i <= j -> j < f + n -> q j = true -> q i = true) ->
  exists k, f <= k <= f + n /\ (forall i, f <= i < k -> q i = true) /\ (forall i, k <= i < f + n -> q i = false).
Proof.
  induction n as [|n IH]; intros Hm.
  - exists f. repeat split; intros; lia.
  - destruct IH as (k & Hk & K1 & K2).
    { intros i j Hi Hij Hj. apply Hm; lia. }
    destruct (q (f + n)) eqn:E.
    + exists (f + S n). split; [lia|]. split; [|intros; lia].
      intros i Hi. apply (Hm i (f + n)); auto; lia.
    + exists k. split; [lia|]. split; auto. intros i Hi.
      destruct (Nat.eq_dec i (f + n)); [subst; auto|]. apply K2; lia.
Qed.

Lemma lower_bound_ok {A} (ltb : A -> A -> bool) key first last v d :
  strict_weak ltb -> first <= last -> last <= length key ->
  (forall i j, first <= i -> i < j -> j < last -> ltb (nth j key d) (nth i key d) = false) ->
  exists k, lower_bound ltb key first last v = Ok k /\ first <= k <= last /\
    (forall i, first <= i < k -> ltb (nth i key d) v = true) /\
    (forall i, k <= i < last -> ltb (nth i key d) v = false).
Proof.
  intros [SA ST] Hfl Hl Hs.
  destruct (partition_point (fun i => ltb (nth i key d) v) first (last - first)) as (k & Hk & K1 & K2).
  { intros i j Hi Hij Hj Hq. destruct (Nat.eq_dec i j); [subst; auto|].
    destruct (ltb (nth i key d) v) eqn:E; auto.
    assert (Hji : ltb (nth j key d) (nth i key d) = false) by (apply Hs; lia).
    (* v <= key i, key i <= key j  ->  v <= key j *)
    rewrite (ST v (nth i key d) (nth j key d)) in Hq; auto. }
  exists k. unfold lower_bound. replace (last <? first) with false by lia.
  replace (first + (last - first)) with last in * by lia.
  rewrite (bsearch_loop_ok _ key d _ first (last - first) k); auto; try lia.
  intros i Hi. apply K2. lia.
Qed.

Lemma upper_bound_ok {A} (ltb : A -> A -> bool) key first last v d :
  strict_weak ltb -> first <= last -> last <= length key ->
  (forall i j, first <= i -> i < j -> j < last -> ltb (nth j key d) (nth i key d) = false) ->
  exists k, upper_bound ltb key first last v = Ok k /\ first <= k <= last /\
    (forall i, first <= i < k -> ltb v (nth i key d) = false) /\
    (forall i, k <= i < last -> ltb v (nth i key d) = true).
Proof.
  intros [SA ST] Hfl Hl Hs.
  destruct (partition_point (fun i => negb (ltb v (nth i key d))) first (last - first)) as (k & Hk & K1 & K2).
  { intros i j Hi Hij Hj Hq. destruct (Nat.eq_dec i j); [subst; auto|].
    assert (Hji : ltb (nth j key d) (nth i key d) = false) by (apply Hs; lia).
    rewrite negb_true_iff in *. apply (ST (nth i key d) (nth j key d) v); auto. }
  exists k. unfold upper_bound. replace (last <? first) with false by lia.
  replace (first + (last - first)) with last in * by lia.
  rewrite (bsearch_loop_ok _ key d _ first (last - first) k); auto; try lia.
  - repeat split; try lia.
    + intros i Hi. apply negb_true_iff, K1. lia.
    + intros i Hi. apply negb_false_iff, K2. lia.
  - intros i Hi. apply K2. lia.
Qed.

Lemma Zltb_sw : strict_weak Z.ltb.
Proof. split; intros; lia. Qed.

Lemma range_search_ok key first last vmin vmax :
  first < last -> last <= length key ->
  (forall i j, first <= i -> i < j -> j < last -> (nth i key 0 <= nth j key 0)%Z) ->
  (vmin <= vmax)%Z -> (nth first key 0 <= vmin)%Z -> (vmax <= nth (last - 1) key 0)%Z ->
  exists inf sup, binary_range_search key first last vmin vmax = Ok (inf, sup) /\
    first <= inf < last /\ first <= sup < last /\
    (nth inf key 0 <= vmin)%Z /\ (vmax <= nth sup key 0)%Z /\
    (nth inf key 0%Z = vmin /\ (forall i, first <= i < inf -> (nth i key 0 < vmin)%Z) \/
     (nth inf key 0 < vmin)%Z /\ (forall i, inf < i < last -> (vmin < nth i key 0)%Z)) /\
    (nth sup key 0%Z = vmax /\ (forall i, sup < i < last -> (vmax < nth i key 0)%Z) \/
     (vmax < nth sup key 0)%Z /\ (forall i, first <= i < sup -> (nth i key 0 < vmax)%Z)).
Proof.
  intros Hfl Hl Hs Hmm H0 H1.
  unfold binary_range_search. replace (negb (vmin <=? vmax)%Z) with false by lia.
  replace (first <? last) with true by lia. rewrite (aget_lt key first 0%Z), (aget_lt key (last - 1) 0%Z) by lia.
  cbn [rbind]. replace (negb _) with false by lia.
  destruct (lower_bound_ok Z.ltb key first last vmin 0%Z Zltb_sw) as (a & E1 & A1 & A2 & A3); try lia.
  { intros i j ? ? ?. specialize (Hs i j). lia. }
  destruct (upper_bound_ok Z.ltb key first last vmax 0%Z Zltb_sw) as (b & E2 & B1 & B2 & B3); try lia.
  { intros i j ? ? ?. specialize (Hs i j). lia. }
  rewrite E1. cbn [rbind]. rewrite E2. cbn [rbind].
  assert (Ha : a < last).
  { destruct (Nat.lt_ge_cases a last); auto. specialize (A2 (last - 1)). lia. }
  assert (Hka : (vmin <= nth a key 0)%Z) by (specialize (A3 a); lia).
  assert (Hb : first < b).
  { destruct (Nat.lt_ge_cases first b); auto. specialize (B3 first). lia. }
  assert (Hkb : (nth (b - 1) key 0 <= vmax)%Z) by (specialize (B2 (b - 1)); lia).
  replace (a <? last) with true by lia. rewrite andb_true_r.
  replace ((first <? b) && (b <=? last)) with true by lia.
  rewrite (aget_lt key (b - 1) 0%Z) by lia.
  set (inf := if first <? a then a - (if (vmin <? nth a key 0)%Z then 1 else 0) else a).
  replace (if first <? a then k <- aget key a ;; Ok (a - (if (vmin <? k)%Z then 1 else 0)) else Ok a) with (Ok inf).
  2:{ unfold inf. destruct (first <? a); auto. now rewrite (aget_lt key a 0%Z) by lia. }
  cbn [rbind]. set (sup := b - (if (nth (b - 1) key 0 =? vmax)%Z then 1 else 0)).
  exists inf, sup. split; [reflexivity|].
  assert (HI : first <= inf < last /\
    (nth inf key 0%Z = vmin /\ (forall i, first <= i < inf -> (nth i key 0 < vmin)%Z) \/
     (nth inf key 0 < vmin)%Z /\ (forall i, inf < i < last -> (vmin < nth i key 0)%Z))).
  { unfold inf. destruct (first <? a) eqn:F.
    - destruct (vmin <? nth a key 0)%Z eqn:G.
      + split; [lia|]. right. split; [specialize (A2 (a - 1)); lia|].
        intros i Hi. destruct (Nat.eq_dec i a); [subst; lia|]. specialize (Hs a i). lia.
      + rewrite Nat.sub_0_r. split; [lia|]. left. split; [lia|]. intros i Hi. specialize (A2 i). lia.
    - assert (a = first) by lia. subst a. split; [lia|]. left. split; [lia|]. intros; lia. }
  assert (HS : first <= sup < last /\
    (nth sup key 0%Z = vmax /\ (forall i, sup < i < last -> (vmax < nth i key 0)%Z) \/
     (vmax < nth sup key 0)%Z /\ (forall i, first <= i < sup -> (nth i key 0 < vmax)%Z))).
  { unfold sup. destruct (nth (b - 1) key 0 =? vmax)%Z eqn:G.
    - split; [lia|]. left. split; [lia|]. intros i Hi. specialize (B3 i). lia.
    - rewrite Nat.sub_0_r. assert (b < last).
      { destruct (Nat.lt_ge_cases b last); auto. assert (b = last) by lia. subst b. lia. }
      split; [lia|]. right. split; [specialize (B3 b); lia|].
      intros i Hi. destruct (Nat.eq_dec i (b - 1)); [subst; lia|]. specialize (Hs i (b - 1)). lia. }
  destruct HI as [I1 I2]. destruct HS as [S1 S2]. repeat split; try lia; auto.
Qed.

(* ---------------- insertion sort ---------------- *)
Lemma aget_mid {A} (l1 l2 : list A) x i : i = length l1 -> aget (l1 ++ x :: l2) i = Ok x.
Proof. intros ->. apply aget_ok. rewrite nth_error_app2, Nat.sub_diag by lia. reflexivity. Qed.
Lemma aset_mid {A} (l1 l2 : list A) x y i : i = length l1 -> aset (l1 ++ x :: l2) i y = Ok (l1 ++ y :: l2).
Proof. intros ->. rewrite aset_lt by (rewrite app_length; simpl; lia). f_equal.
  induction l1; simpl; congruence. Qed.

Lemma shift_loop_ok {A} (comp : A -> A -> bool) key pre : forall l1 hole l2,
  exists l1a l1b hole', l1 = l1a ++ l1b /\
    shift_loop comp key (length pre) (length pre + length l1) (pre ++ l1 ++ hole :: l2)
      = Ok (pre ++ l1a ++ hole' :: l1b ++ l2, length pre + length l1a) /\
    Forall (fun x => comp key x = true) l1b /\
    (forall x l, l1a = l ++ [x] -> comp key x = false).
Proof.
  intros l1. induction l1 as [|x l1 IH] using rev_ind; intros hole l2.
  - exists [], [], hole. simpl. rewrite Nat.add_0_r. repeat split; auto.
    + destruct (length pre) eqn:E; simpl; auto. now rewrite Nat.ltb_irrefl.
    + intros x l E. destruct l; discriminate.
  - rewrite app_length. simpl. replace (length pre + (length l1 + 1)) with (S (length pre + length l1)) by lia.
    cbn [shift_loop]. replace (length pre <? S (length pre + length l1)) with true by lia.
    rewrite <- app_assoc. simpl. rewrite app_assoc. rewrite aget_mid by (rewrite app_length; auto). cbn [rbind].
    destruct (comp key x) eqn:E.
    + replace ((pre ++ l1) ++ x :: hole :: l2) with ((pre ++ l1 ++ [x]) ++ hole :: l2)
        by (rewrite <- !app_assoc; reflexivity).
      rewrite aset_mid by (rewrite !app_length; simpl; lia). cbn [rbind].
      replace ((pre ++ l1 ++ [x]) ++ x :: l2) with (pre ++ l1 ++ x :: (x :: l2))
        by (rewrite <- !app_assoc; reflexivity).
      destruct (IH x (x :: l2)) as (a & b & h & -> & E2 & F & L).
      exists a, (b ++ [x]), h. rewrite E2. repeat split; auto.
      * now rewrite app_assoc.
      * now rewrite <- app_assoc.
      * apply Forall_app; auto.
    + exists (l1 ++ [x]), [], hole. rewrite app_nil_r. simpl. rewrite app_length. simpl. repeat split; auto.
      * f_equal. f_equal; [|lia]. rewrite <- !app_assoc. reflexivity.
      * intros y l Ey. apply app_inj_tail in Ey as [_ ->]. auto.
Qed.

Lemma sorted_app {A} (R : A -> A -> Prop) l1 l2 :
  StronglySorted R (l1 ++ l2) <-> StronglySorted R l1 /\ StronglySorted R l2 /\
    (forall x y, In x l1 -> In y l2 -> R x y).
Proof.
  induction l1 as [|a l1 IH]; simpl.
  - split; [intros; repeat split; auto; [constructor|tauto]|tauto].
  - split.
    + intros H. inversion H as [|? ? H1 H2]; subst. apply IH in H1 as (A1 & A2 & A3).
      apply Forall_app in H2 as [F1 F2]. repeat split; auto; [constructor; auto|].
      intros x y [<-|Hx] Hy; auto. rewrite Forall_forall in F2; auto.
    + intros (H1 & H2 & H3). inversion H1 as [|? ? A1 A2]; subst. constructor.
      * apply IH. auto.
      * apply Forall_app; split; auto. apply Forall_forall. auto.
Qed.

Lemma insert_step_ok {A} (comp : A -> A -> bool) pre l1 key l2 :
  strict_weak comp -> sorted_by comp l1 ->
  exists l1', insert_step comp (length pre) (length pre + length l1) (pre ++ l1 ++ key :: l2)
      = Ok (pre ++ l1' ++ l2) /\ Permutation l1' (l1 ++ [key]) /\ sorted_by comp l1'.
Proof.
  intros [SA ST] Hs. unfold insert_step. rewrite app_assoc, aget_mid by (rewrite app_length; auto).
  cbn [rbind]. rewrite <- app_assoc.
  destruct (shift_loop_ok comp key pre l1 key l2) as (a & b & h & -> & E & F & L). rewrite E. cbn [rbind].
  rewrite app_assoc, aset_mid by (rewrite app_length; auto). exists (a ++ key :: b). split.
  - now rewrite <- !app_assoc.
  - split.
    + rewrite <- app_assoc. apply Permutation_app_head. apply Permutation_cons_append.
    + unfold sorted_by in *. apply sorted_app in Hs as (S1 & S2 & S3). apply sorted_app. split; auto.
      rewrite Forall_forall in F.
      assert (K : forall x, In x a -> comp key x = false).
      { destruct a as [|y a' _] using rev_ind; [simpl; tauto|]. specialize (L y a' eq_refl).
        intros x Hx. apply in_app_or in Hx as [Hx|[<-|[]]]; auto.
        apply sorted_app in S1 as (_ & _ & S1). specialize (S1 x y Hx (or_introl eq_refl)). eauto. }
      split.
      * constructor; auto. apply Forall_forall. intros x Hx. apply SA. auto.
      * intros x y Hx [<-|Hy]; auto.
Qed.

Lemma ptr_insert_sort_ok {A} (comp : A -> A -> bool) pre seg post :
  strict_weak comp ->
  exists seg', ptr_insert_sort comp (pre ++ seg ++ post) (length pre) (length pre + length seg)
     = Ok (pre ++ seg' ++ post) /\ Permutation seg' seg /\ sorted_by comp seg'.
Proof.
  intros SW. unfold ptr_insert_sort. destruct seg as [|x0 seg].
  - exists []. simpl. rewrite Nat.add_0_r. replace (length pre - (length pre + 1)) with 0 by lia. simpl.
    repeat split; auto. constructor.
  - assert (G : forall rest l1, sorted_by comp l1 -> l1 <> [] ->
      exists seg', rfold (insert_step comp (length pre)) (seq (length pre + length l1) (length rest)) (pre ++ l1 ++ rest ++ post)
        = Ok (pre ++ seg' ++ post) /\ Permutation seg' (l1 ++ rest) /\ sorted_by comp seg').
    { induction rest as [|k rest IH]; intros l1 Hs Hn; simpl.
      - exists l1. rewrite app_nil_r. auto.
      - destruct (insert_step_ok comp pre l1 k (rest ++ post) SW Hs) as (l1' & E & P & S').
        rewrite E. cbn [rbind].
        assert (L : length l1' = S (length l1)) by (apply Permutation_length in P; rewrite app_length in P; simpl in P; lia).
        destruct (IH l1') as (seg' & E2 & P2 & S2); auto.
        { destruct l1'; simpl in L; [lia|discriminate]. }
        replace (S (length pre + length l1)) with (length pre + length l1') by lia.
        exists seg'. split; auto. split; auto. rewrite P2, P, <- app_assoc. reflexivity. }
    destruct (G seg [x0]) as (seg' & E & P & S'); [repeat constructor|discriminate|].
    exists seg'. simpl in *. replace (length pre + S (length seg) - (length pre + 1)) with (length seg) by lia.
    auto.
Qed.

(* ---------------- segmented sort ---------------- *)
Lemma slice_split {A} (l : list A) s e : s <= e -> e <= length l ->
  l = firstn s l ++ slice s e l ++ skipn e l /\ length (firstn s l) = s /\ length (slice s e l) = e - s.
Proof.
  intros H1 H2. unfold slice. split.
  - rewrite <- (firstn_skipn s l) at 1. f_equal. rewrite <- (firstn_skipn (e - s) (skipn s l)) at 1. f_equal.
    rewrite skipn_skipn. f_equal; lia.
  - rewrite !firstn_length, skipn_length. lia.
Qed.

Lemma slice_mid {A} (a b c : list A) s e : s = length a -> e = s + length b -> slice s e (a ++ b ++ c) = b.
Proof.
  intros -> ->. unfold slice. rewrite skipn_app, skipn_all, Nat.sub_diag. simpl.
  replace (length a + length b - length a) with (length b) by lia.
  rewrite firstn_app, firstn_all, Nat.sub_diag. simpl. now rewrite app_nil_r.
Qed.

(** What a range sort must guarantee. *)
Definition range_sort_ok {A} (comp : A -> A -> bool) (rs : list A -> nat -> nat -> res (list A)) : Prop :=
  forall buf s e, s < e -> e <= length buf ->
    exists seg, rs buf s e = Ok (firstn s buf ++ seg ++ skipn e buf) /\
      Permutation seg (slice s e buf) /\ sorted_by comp seg.

Lemma insert_range_ok {A} (comp : A -> A -> bool) : strict_weak comp -> range_sort_ok comp (ptr_insert_sort comp).
Proof.
  intros SW buf s e H1 H2. destruct (slice_split buf s e) as (E & L1 & L2); [lia|lia|].
  destruct (ptr_insert_sort_ok comp (firstn s buf) (slice s e buf) (skipn e buf) SW) as (seg & E2 & P & S).
  rewrite <- E, L1, L2 in E2. replace (s + (e - s)) with e in E2 by lia. eauto.
Qed.
Lemma std_range_ok {A} (comp : A -> A -> bool) srt :
  (forall l, Permutation (srt l) l /\ sorted_by comp (srt l)) -> range_sort_ok comp (std_sort_range srt).
Proof.
  intros H buf s e H1 H2. unfold std_sort_range. replace (e <=? length buf) with true by lia.
  eexists; split; [reflexivity|]. apply H.
Qed.

Lemma nth_error_slice_other {A} (buf : list A) s e seg i : s <= e -> e <= length buf ->
  length seg = e - s -> i < s \/ e <= i ->
  nth_error (firstn s buf ++ seg ++ skipn e buf) i = nth_error buf i.
Proof.
  intros H1 H2 HL Hi. destruct (slice_split buf s e) as (E & L1 & L2); auto.
  rewrite E at 3. destruct Hi as [Hi|Hi].
  - rewrite !nth_error_app1 by lia. reflexivity.
  - rewrite (nth_error_app2 (firstn s buf)) by lia. rewrite (nth_error_app2 seg) by lia.
    rewrite (nth_error_app2 (firstn s buf)) by lia. rewrite (nth_error_app2 (slice s e buf)) by lia.
    rewrite L1, L2, HL. reflexivity.
Qed.

Lemma nth_error_slice {A} (l : list A) s e i : nth_error (slice s e l) i = if s + i <? e then nth_error l (s + i) else None.
Proof.
  unfold slice. destruct (s + i <? e) eqn:E.
  - assert (Hi : i < e - s) by lia. clear E. revert l. revert Hi.
    generalize (e - s) as n. intros n Hn. revert i n Hn. induction s as [|s IH]; intros i n Hn l; simpl.
    + revert i n Hn. induction l as [|a t IHl]; intros [|i] [|n] Hn; simpl; try lia; auto. apply IHl; lia.
    + destruct l; simpl; [rewrite firstn_nil; now destruct i|]. apply IH; auto.
  - apply nth_error_None. rewrite firstn_length. lia.
Qed.

Lemma slice_ext {A} (l l' : list A) s e : (forall i, s <= i < e -> nth_error l i = nth_error l' i) -> slice s e l = slice s e l'.
Proof. intros H. apply list_eq_nth_error. intros i. rewrite !nth_error_slice.
  destruct (s + i <? e) eqn:E; auto. apply H; lia. Qed.

Lemma segmented_ok {A} (comp : A -> A -> bool) rs order buf offsets :
  range_sort_ok comp rs -> offsets_ok offsets (length buf) -> offsets <> [] -> buf <> [] ->
  Permutation order (seq 0 (length offsets - 1)) ->
  exists buf', segmented_sort_in_place rs order buf offsets = Ok buf' /\ length buf' = length buf /\
    (forall g, g + 1 < length offsets ->
       let s := nth g offsets 0 in let e := nth (g + 1) offsets 0 in
       Permutation (slice s e buf') (slice s e buf) /\ sorted_by comp (slice s e buf')) /\
    (forall i, i < nth 0 offsets 0 \/ nth (length offsets - 1) offsets 0 <= i ->
       nth_error buf' i = nth_error buf i).
Proof.
  intros HR [HO1 HO2] HN HB HP. unfold segmented_sort_in_place.
  destruct (Nat.eqb_spec (length buf) 0) as [E|_].
  { destruct buf; [congruence|discriminate]. }
  destruct (Nat.eqb_spec (length offsets) 0) as [E|_].
  { destruct offsets; [congruence|discriminate]. }
  set (N := length offsets) in *. set (n := length buf) in *.
  assert (Hmono : forall i j, i <= j -> j < N -> nth i offsets 0 <= nth j offsets 0).
  { intros i j Hij. induction Hij as [|j Hij IH]; auto. intros Hj. specialize (HO1 j).
    replace (j + 1) with (S j) in HO1 by lia. lia. }
  assert (HND : NoDup order).
  { apply Permutation_sym in HP. eapply Permutation_NoDup; eauto. apply seq_NoDup. }
  assert (HIN : forall g, In g order <-> g + 1 < N).
  { intros g. split; intros H.
    - apply (Permutation_in _ HP) in H. apply in_seq in H. lia.
    - apply Permutation_sym in HP. apply (Permutation_in _ HP). apply in_seq. lia. }
  assert (G : forall ord st, NoDup ord -> (forall g, In g ord -> g + 1 < N) -> length st = n ->
    exists st', par_for ord (segment_body rs n offsets) st = Ok st' /\ length st' = n /\
     (forall g, In g ord -> let s := nth g offsets 0 in let e := nth (g + 1) offsets 0 in
        Permutation (slice s e st') (slice s e st) /\ sorted_by comp (slice s e st')) /\
     (forall i, (forall g, In g ord -> i < nth g offsets 0 \/ nth (g + 1) offsets 0 <= i) ->
        nth_error st' i = nth_error st i)).
  { intros ord. induction ord as [|g t IH]; intros st Hnd Hin HL.
    - exists st. simpl. repeat split; auto; tauto.
    - inversion Hnd as [|? ? Hg Ht]; subst.
      assert (Hg1 : g + 1 < N) by (apply Hin; simpl; auto).
      set (s := nth g offsets 0) in *. set (e := nth (g + 1) offsets 0) in *.
      assert (Hse : s <= e) by (apply HO1; auto). assert (Hen : e <= n) by (apply HO2; auto).
      assert (Step : exists st1, segment_body rs n offsets g st = Ok st1 /\ length st1 = n /\
        Permutation (slice s e st1) (slice s e st) /\ sorted_by comp (slice s e st1) /\
        (forall i, i < s \/ e <= i -> nth_error st1 i = nth_error st i)).
      { unfold segment_body. rewrite (aget_lt offsets g 0), (aget_lt offsets (g + 1) 0) by lia. cbn [rbind].
        fold s e. replace (e <? s) with false by lia. destruct (Nat.eqb_spec s e).
        - exists st. repeat split; auto. replace (slice s e st) with (@nil A); [constructor|].
          unfold slice. replace (e - s) with 0 by lia. reflexivity.
        - replace ((s <? n) && (e <=? n)) with true by lia.
          destruct (HR st s e) as (seg & E & P & S); [lia|lia|]. rewrite E.
          destruct (slice_split st s e) as (ES & L1 & L2); [lia|lia|].
          assert (LS : length seg = e - s) by (apply Permutation_length in P; lia).
          eexists; split; [reflexivity|]. split.
          { rewrite !app_length, skipn_length, LS, L1. lia. }
          rewrite (slice_mid (firstn s st) seg) by lia. repeat split; auto.
          intros i Hi. apply nth_error_slice_other; auto; lia. }
      destruct Step as (st1 & E1 & L1 & P1 & S1 & K1).
      destruct (IH st1 Ht) as (st2 & E2 & L2 & R2 & K2); auto.
      { intros g' Hg'. apply Hin; simpl; auto. }
      exists st2. unfold par_for in *. simpl. rewrite E1. cbn [rbind]. split; [exact E2|]. split; [auto|].
      assert (Dis : forall g', In g' t -> forall i, s <= i < e -> i < nth g' offsets 0 \/ nth (g' + 1) offsets 0 <= i).
      { intros g' Hg' i Hi. assert (g' <> g) by (intros ->; auto).
        assert (g' + 1 < N) by (apply Hin; simpl; auto).
        destruct (Nat.lt_ge_cases g' g).
        - right. pose proof (Hmono (g' + 1) g). fold s in H1. lia.
        - left. pose proof (Hmono (g + 1) g'). fold e in H2. lia. }
      split.
      + intros g' [<-|Hg'].
        * fold s e. cbv zeta. rewrite (slice_ext st2 st1) by (intros i Hi; apply K2; intros g' Hg'; apply Dis; auto).
          auto.
        * specialize (R2 g' Hg'). cbv zeta in *. rewrite (slice_ext st st1); auto.
          intros i Hi. symmetry. apply K1.
          assert (g' <> g) by (intros ->; auto). assert (g' + 1 < N) by (apply Hin; simpl; auto).
          destruct (Nat.lt_ge_cases g' g).
          -- pose proof (Hmono (g' + 1) g). fold s in H1. lia.
          -- pose proof (Hmono (g + 1) g'). fold e in H2. lia.
      + intros i Hi. rewrite K2 by (intros; apply Hi; simpl; auto). apply K1. apply Hi; simpl; auto. }
  destruct (G order buf HND) as (buf' & E & L & R & K); auto.
  { intros g; apply HIN. }
  exists buf'. split; auto. split; auto. split.
  - intros g Hg. apply R. now apply HIN.
  - intros i Hi. apply K. intros g Hg. apply HIN in Hg.
    pose proof (Hmono 0 g). pose proof (Hmono (g + 1) (N - 1)). lia.
Qed.

Lemma comp_u32_sw : strict_weak comp_u32.
Proof. split; unfold comp_u32; intros; lia. Qed.
Lemma comp_u32_2_sw : strict_weak comp_u32_2.
Proof. split; unfold comp_u32_2; intros [a1 a2] [b1 b2]; simpl; [|intros [c1 c2]; simpl];
  intros; repeat match goal with |- context [(?x =? ?y)%Z] => destruct (Z.eqb_spec x y) | H : context [(?x =? ?y)%Z] |- _ => destruct (Z.eqb_spec x y) end; lia. Qed.

(** Two sorted permutations coincide when equivalent elements are equal. *)
Lemma sorted_perm_unique {A} (comp : A -> A -> bool) : strict_weak comp ->
  (forall a b, comp a b = false -> comp b a = false -> a = b) ->
  forall l1 l2, Permutation l1 l2 -> sorted_by comp l1 -> sorted_by comp l2 -> l1 = l2.
Proof.
  intros SW HE l1. induction l1 as [|a t IH]; intros l2 HP H1 H2.
  - apply Permutation_nil in HP. auto.
  - destruct l2 as [|b t2]; [apply Permutation_sym, Permutation_nil in HP; discriminate|].
    inversion H1 as [|? ? A1 A2]; subst. inversion H2 as [|? ? B1 B2]; subst.
    rewrite Forall_forall in A2, B2.
    assert (E : a = b).
    { assert (Ia : In a (b :: t2)) by (apply (Permutation_in _ HP); simpl; auto).
      assert (Ib : In b (a :: t)) by (apply (Permutation_in _ (Permutation_sym HP)); simpl; auto).
      destruct Ia as [|Ia]; auto. destruct Ib as [|Ib]; auto. }
    subst b. f_equal. apply IH; auto. eapply Permutation_cons_inv; eauto.
Qed.


Lemma sorted_nth {A} (R : A -> A -> Prop) (l : list A) d : StronglySorted R l ->
  forall i j, i < j -> j < length l -> R (nth i l d) (nth j l d).
Proof.
  induction 1 as [|a l HS IH HF]; intros i j Hij Hj; simpl in Hj; [lia|].
  destruct j as [|j]; [lia|]. destruct i as [|i]; simpl.
  - rewrite Forall_forall in HF. apply HF, nth_In. lia.
  - apply IH; lia.
Qed.
Lemma nth_slice {A} (l : list A) d s e i : e <= length l -> s + i < e -> nth i (slice s e l) d = nth (s + i) l d.
Proof.
  intros He Hi. apply nth_error_nth. rewrite nth_error_slice. replace (s + i <? e) with true by lia.
  apply nth_error_nth'. lia.
Qed.
Lemma length_slice {A} (l : list A) s e : e <= length l -> length (slice s e l) = e - s.
Proof. intros. unfold slice. rewrite firstn_length, skipn_length. lia. Qed.
Lemma slice_sorted_nth {A} (ltb : A -> A -> bool) key d first last i j : strict_weak ltb ->
  last <= length key -> sorted_by ltb (slice first last key) -> first <= i -> i < j -> j < last ->
  ltb (nth j key d) (nth i key d) = false.
Proof.
  intros _ HL HS Hi Hij Hj. pose proof (sorted_nth _ _ d HS (i - first) (j - first)) as H.
  rewrite !nth_slice in H by lia. replace (first + (i - first)) with i in H by lia.
  replace (first + (j - first)) with j in H by lia. apply H; [lia|]. rewrite length_slice; lia.
Qed.

(** A buffer cut along the offsets. *)
Lemma agree_gen {A} (comp : A -> A -> bool) rs1 rs2 o1 o2 (buf : list A) offsets :
  strict_weak comp -> (forall a b, comp a b = false -> comp b a = false -> a = b) ->
  offsets_ok offsets (length buf) -> offsets <> [] ->
  (let post rs o := exists buf', segmented_sort_in_place rs o buf offsets = Ok buf' /\
    length buf' = length buf /\
    (forall g, g + 1 < length offsets ->
       let s := nth g offsets 0 in let e := nth (g + 1) offsets 0 in
       Permutation (slice s e buf') (slice s e buf) /\ sorted_by comp (slice s e buf')) /\
    (forall i, i < nth 0 offsets 0 \/ nth (length offsets - 1) offsets 0 <= i ->
       nth_error buf' i = nth_error buf i) in
   post rs1 o1 -> post rs2 o2 ->
   exists b, segmented_sort_in_place rs1 o1 buf offsets = Ok b /\ segmented_sort_in_place rs2 o2 buf offsets = Ok b).
Proof.
  intros SW HE [HO1 HO2] HN post (b1 & E1 & L1 & R1 & K1) (b2 & E2 & L2 & R2 & K2).
  exists b1. split; auto. rewrite E2. f_equal. apply list_eq_nth_error. intros i.
  assert (SS : forall g, g + 1 < length offsets ->
    slice (nth g offsets 0) (nth (g + 1) offsets 0) b1 = slice (nth g offsets 0) (nth (g + 1) offsets 0) b2).
  { intros g Hg. destruct (R1 g Hg) as [P S]. destruct (R2 g Hg) as [P' S'].
    apply (sorted_perm_unique comp SW HE); auto. rewrite P, P'. auto. }
  destruct (Nat.lt_ge_cases i (nth 0 offsets 0)) as [H|H]; [rewrite K1, K2; auto|].
  destruct (Nat.lt_ge_cases i (nth (length offsets - 1) offsets 0)) as [H'|H']; [|rewrite K1, K2; auto].
  assert (F : exists g, g + 1 < length offsets /\ nth g offsets 0 <= i < nth (g + 1) offsets 0).
  { assert (G : forall m, m < length offsets -> i < nth m offsets 0 -> exists g, g + 1 < length offsets /\ nth g offsets 0 <= i < nth (g + 1) offsets 0).
    { induction m as [|m IH]; intros Hm Hi; [lia|]. destruct (Nat.lt_ge_cases i (nth m offsets 0)).
      - apply IH; auto; lia.
      - exists m. replace (m + 1) with (S m) by lia. lia. }
    apply (G (length offsets - 1)); auto. destruct offsets; [congruence|simpl; lia]. }
  destruct F as (g & Hg & Hi). specialize (SS g Hg).
  assert (X := f_equal (fun l => nth_error l (i - nth g offsets 0)) SS). cbv beta in X. rewrite !nth_error_slice in X.
  replace (nth g offsets 0 + (i - nth g offsets 0)) with i in X by lia.
  replace (i <? nth (g + 1) offsets 0) with true in X by lia. auto.
Qed.
