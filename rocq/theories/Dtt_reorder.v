(** reorder_scan_dtt_result: the list is sorted and the offsets delimit the pairs of each first component. *)
From Verif Require Import Base Par Reduction Scan Scan_spec SortSearch SortSearch_spec SortSearch_proofs P_SortSearch Dtt Dtt_spec Dtt_tree Dtt_segs Dtt_scan Dtt_scan2 Dtt_select Dtt_select2.
From Coq Require Import ZifyBool ZifyNat.
Local Open Scope nat_scope.

Lemma comp_pair_sw : strict_weak comp_pair.
Proof.
  constructor; unfold comp_pair.
  - intros [a b] [c d]. cbn [fst snd]. destruct (Nat.eqb_spec a c), (Nat.eqb_spec c a); lia.
  - intros [a b] [c d] [e f]. cbn [fst snd]. destruct (Nat.eqb_spec c a), (Nat.eqb_spec e c), (Nat.eqb_spec e a); lia.
Qed.

Definition grp (L : list ipair) (j : nat) : list ipair := filter (fun p => fst p =? j) L.
Lemma grp_app a b j : grp (a ++ b) j = grp a j ++ grp b j. Proof. apply filter_app. Qed.
Lemma grp1 p j : grp [p] j = if fst p =? j then [p] else []. Proof. reflexivity. Qed.
Lemma pos_grp L g : pos (grp L) g = before L g.
Proof.
  induction g as [|g IH].
  - unfold pos, before. cbn [seq flat_map length]. induction L as [|p L IHL]; [reflexivity|]. cbn [filter Nat.ltb]. replace (fst p <? 0) with false by lia. exact IHL.
  - rewrite pos_S, IH. unfold before, grp. clear. induction L as [|p L IH]; [reflexivity|]. cbn [filter].
    destruct (fst p <? g) eqn:A, (fst p =? g) eqn:D, (fst p <? S g) eqn:E; cbn [length]; lia.
Qed.
Lemma before_all L N : (forall p : ipair, In p L -> fst p < N) -> before L N = length L.
Proof.
  unfold before. induction L as [|p L IH]; intros H; [reflexivity|]. cbn [filter]. assert (fst p < N) by (apply H; simpl; auto).
  replace (fst p <? N) with true by lia. cbn [length]. rewrite IH; auto. intros; apply H; simpl; auto.
Qed.
Lemma Permutation_filter' {A} (f : A -> bool) l l' : Permutation l l' -> Permutation (filter f l) (filter f l').
Proof. apply Permutation_filter. Qed.
Lemma before_perm L L' g : Permutation L L' -> before L g = before L' g.
Proof. intros H. unfold before. apply Permutation_length. now apply Permutation_filter. Qed.

(** a kernel over the indices of L is a loop over L in another order *)
Lemma kernel_perm {S} (body : ipair -> S -> res S) (L : list ipair) order s : Permutation order (seq 0 (length L)) ->
  exists L', Permutation L' L /\ par_for order (fun i s => p <- aget L i ;; body p s) s = rfold body L' s.
Proof.
  intros HP. exists (map (fun i => nth i L (0, 0)) order). split.
  - rewrite HP. clear. induction L as [|x L IH]; [constructor|]. cbn [length seq map nth]. constructor. rewrite <- seq_shift, map_map. exact IH.
  - unfold par_for. assert (HB : forall i, In i order -> i < length L) by (intros i Hi; apply (Permutation_in _ HP), in_seq in Hi; lia).
    clear HP. revert s. induction order as [|i o IH]; intros s; [reflexivity|]. cbn [map rfold]. rewrite (aget_lt _ _ (0, 0)) by (apply HB; simpl; auto). cbn [rbind].
    assert (EQ : forall r : res S, (s' <- r ;; rfold (fun i s => p <- aget L i ;; body p s) o s') = (s' <- r ;; rfold body (map (fun i => nth i L (0, 0)) o) s')).
    { intros [x| |]; cbn [rbind]; auto. apply IH. intros; apply HB; simpl; auto. }
    apply EQ.
Qed.

Section R.
  Variables (N : nat).
  Definition cbody (p : ipair) (o : list Z) : res (list Z) :=
    if fst p <? N then v <- aget o (fst p) ;; aset o (fst p) (w32 (v + 1)) else UB.
  Lemma cbody_ok L : (forall p : ipair, In p L -> fst p < N) -> forall o, length o = N + 1 ->
    (forall j, (0 <= nth j o 0 /\ nth j o 0 + Z.of_nat (length (grp L j)) < 2 ^ 32)%Z) ->
    exists o', rfold cbody L o = Ok o' /\ length o' = N + 1 /\ forall j, nth j o' 0%Z = (nth j o 0 + Z.of_nat (length (grp L j)))%Z.
  Proof.
    rewrite P32. induction L as [|p L IH]; intros HB o Lo Ho.
    - exists o. split; [reflexivity|]. split; auto. intros j. cbn. lia.
    - cbn [rfold]. unfold cbody at 1. assert (fst p < N) by (apply HB; simpl; auto). replace (fst p <? N) with true by lia.
      rewrite (aget_lt o (fst p) 0%Z) by lia. cbn [rbind]. rewrite aset_lt by lia. cbn [rbind].
      assert (G : forall j, nth j (upd o (fst p) (w32 (nth (fst p) o 0%Z + 1))) 0%Z = if fst p =? j then (nth j o 0 + 1)%Z else nth j o 0%Z).
      { intros j. destruct (Nat.eqb_spec (fst p) j) as [E|E].
        - subst j. rewrite nth_upd_eq by lia. apply w32_small. specialize (Ho (fst p)). unfold grp in Ho. cbn [filter] in Ho. rewrite Nat.eqb_refl in Ho. cbn [length] in Ho. rewrite P32. lia.
        - apply nth_upd_neq. auto. }
      destruct (IH (fun q Hq => HB q (or_intror Hq)) (upd o (fst p) (w32 (nth (fst p) o 0%Z + 1)))) as (o' & E & L' & V).
      + now rewrite length_upd.
      + intros j. rewrite G. specialize (Ho j). unfold grp in *. cbn [filter] in Ho. destruct (fst p =? j); cbn [length] in Ho; lia.
      + exists o'. split; [exact E|]. split; auto. intros j. rewrite V, G. unfold grp. cbn [filter]. destruct (fst p =? j); cbn [length]; lia.
  Qed.

  Definition sbody (p : ipair) (sh : list ipair * list Z) : res (list ipair * list Z) :=
    if fst p <? N then
      ret <- aget (snd sh) (fst p) ;; h <- aset (snd sh) (fst p) (w32 (ret + 1)) ;;
      s <- aset (fst sh) (Z.to_nat ret) p ;; Ok (s, h)
    else UB.
  Lemma sbody_ok L0 s0 h0 : (forall p, In p L0 -> fst p < N) -> length s0 = pos (grp L0) N -> length h0 = N + 1 -> (Z.of_nat (length L0) < 2 ^ 31)%Z ->
    (forall j, j < N -> nth j h0 0%Z = Z.of_nat (pos (grp L0) j)) ->
    forall L R, L0 = L ++ R ->
    exists s h, rfold sbody L (s0, h0) = Ok (s, h) /\ length s = length s0 /\ length h = N + 1 /\
      (forall j, j < N -> nth j h 0%Z = Z.of_nat (pos (grp L0) j + length (grp L j))) /\
      (forall j x, j < N -> x < length (grp L j) -> nth_error s (pos (grp L0) j + x) = nth_error (grp L j) x).
  Proof.
    intros HB Ls Lh BD Hh. rewrite P31 in BD. induction L as [|p L IH] using rev_ind; intros R E0.
    - exists s0, h0. split; [reflexivity|]. split; auto. split; auto. split; [intros j Hj; rewrite Hh by auto; cbn [grp filter length]; f_equal; lia|].
      intros j x _ Hx. cbn in Hx. lia.
    - destruct (IH (p :: R)) as (s & h & E & L1 & L2 & V & W); [rewrite E0, <- app_assoc; reflexivity|].
      rewrite rfold_app, E. cbn [rbind rfold]. unfold sbody at 1. cbn [fst snd].
      assert (Hp : fst p < N) by (apply HB; rewrite E0; apply in_or_app; left; apply in_or_app; simpl; auto). replace (fst p <? N) with true by lia.
      rewrite (aget_lt h (fst p) 0%Z) by lia. cbn [rbind]. rewrite aset_lt by lia. cbn [rbind]. rewrite V by auto. rewrite Nat2Z.id.
      assert (GL : length (grp L (fst p)) < length (grp L0 (fst p))).
      { rewrite E0, !grp_app, !app_length. rewrite grp1, Nat.eqb_refl. cbn [length]. lia. }
      pose proof (pos_seg (grp L0) (fst p) N Hp) as PS.
      assert (PN : pos (grp L0) N <= length L0). { rewrite pos_grp. unfold before. clear. induction L0 as [|q l IH]; [auto|]. cbn [filter]. destruct (fst q <? N); cbn [length]; lia. }
      rewrite aset_lt by lia. cbn [rbind]. do 2 eexists. split; [reflexivity|]. rewrite !length_upd. split; auto. split; auto. split.
      + intros j Hj. rewrite grp_app, app_length, grp1. destruct (Nat.eqb_spec (fst p) j) as [EE|NE].
        * subst j. rewrite nth_upd_eq by lia. rewrite w32_small by (rewrite P32; lia). cbn [length]. lia.
        * rewrite nth_upd_neq by auto. rewrite V by auto. cbn [length]. f_equal. lia.
      + intros j x Hj Hx. rewrite grp_app, app_length in Hx. rewrite grp_app. rewrite grp1 in *.
        destruct (Nat.eqb_spec (fst p) j) as [EE|NE].
        * subst j. cbn [length] in Hx. destruct (Nat.eq_dec x (length (grp L (fst p)))) as [->|NX].
          -- rewrite nth_error_upd_eq by lia. rewrite nth_error_app2, Nat.sub_diag by lia. reflexivity.
          -- rewrite nth_error_upd_neq by lia. rewrite nth_error_app1 by lia. apply W; auto. lia.
        * cbn [length] in Hx. rewrite app_nil_r. assert (x < length (grp L j)) by lia.
          assert (GJ : length (grp L j) <= length (grp L0 j)) by (rewrite E0, !grp_app, !app_length; lia).
          rewrite nth_error_upd_neq; [apply W; auto|].
          destruct (Nat.lt_ge_cases j (fst p)) as [LT|GE].
          -- pose proof (pos_seg (grp L0) j (fst p) LT). lia.
          -- assert (fst p < j) by lia. pose proof (pos_seg (grp L0) (fst p) j H0). lia.
  Qed.
  Lemma scatter_ok L s0 h0 : (forall p : ipair, In p L -> fst p < N) -> length s0 = length L -> length h0 = N + 1 -> (Z.of_nat (length L) < 2 ^ 31)%Z ->
    (forall j, j < N -> nth j h0 0%Z = Z.of_nat (pos (grp L) j)) ->
    exists h, rfold sbody L (s0, h0) = Ok (flat_map (grp L) (seq 0 N), h).
  Proof.
    intros HB Ls Lh BD Hh. assert (PN : pos (grp L) N = length L) by (rewrite pos_grp; now apply before_all).
    destruct (sbody_ok L s0 h0 HB ltac:(lia) Lh BD Hh L [] ltac:(now rewrite app_nil_r)) as (s & h & E & L1 & L2 & V & W).
    exists h. rewrite E. do 2 f_equal. apply list_eq_nth_error. intros x. destruct (Nat.lt_ge_cases x (pos (grp L) N)) as [X|X].
    - destruct (find_seg (grp L) N x X) as (i & y & Hi & Hy & ->). rewrite W by auto. symmetry. now apply nth_flat.
    - rewrite (proj2 (nth_error_None s x)) by lia. symmetry. apply nth_error_None. exact X.
  Qed.
End R.

Lemma slice_flat {A} (segs : nat -> list A) n g : g < n -> slice (pos segs g) (pos segs (S g)) (flat_map segs (seq 0 n)) = segs g.
Proof.
  intros Hg. unfold slice. rewrite pos_S. replace (pos segs g + length (segs g) - pos segs g) with (length (segs g)) by lia.
  apply list_eq_nth_error. intros x. destruct (Nat.lt_ge_cases x (length (segs g))) as [L|G].
  - rewrite nth_error_firstn', nth_error_skipn' by auto. now apply nth_flat.
  - rewrite (proj2 (nth_error_None (segs g) x)) by lia. apply nth_error_None. rewrite firstn_length. lia.
Qed.
Lemma slices_concat {A} (f : nat -> nat) (l : list A) n : f 0 = 0 -> (forall g, g < n -> f g <= f (S g)) -> f n = length l ->
  l = flat_map (fun g => slice (f g) (f (S g)) l) (seq 0 n).
Proof.
  intros F0 FM FN. assert (G : forall k, k <= n -> firstn (f k) l = flat_map (fun g => slice (f g) (f (S g)) l) (seq 0 k)).
  { induction k as [|k IH]; intros Hk; [now rewrite F0|]. rewrite seq_S, flat_map_app, <- IH by lia. cbn [flat_map Nat.add]. rewrite app_nil_r. unfold slice.
    specialize (FM k ltac:(lia)). replace (f (S k)) with (f k + (f (S k) - f k)) at 1 by lia.
    generalize (f (S k) - f k) as d. generalize (f k) as m. clear. intros m d. revert l. induction m as [|m IHm]; intros l; [reflexivity|]. destruct l as [|x l]; [cbn; now rewrite firstn_nil|]. cbn [Nat.add firstn skipn app]. now rewrite IHm. }
  rewrite <- G by auto. rewrite FN. symmetry. apply firstn_all.
Qed.
Lemma sorted_app {A} (R : A -> A -> Prop) a b : StronglySorted R a -> StronglySorted R b -> (forall x y, In x a -> In y b -> R x y) -> StronglySorted R (a ++ b).
Proof.
  induction 1 as [|x a Sa IH F]; intros Sb H; [auto|]. cbn [app]. constructor.
  - apply IH; auto. intros; apply H; simpl; auto.
  - rewrite Forall_forall in *. intros y Hy. apply in_app_or in Hy. destruct Hy; [auto|apply H; simpl; auto].
Qed.
Lemma sorted_groups (segs : nat -> list ipair) n : (forall g, g < n -> sorted_by comp_pair (segs g) /\ forall p, In p (segs g) -> fst p = g) ->
  sorted_by comp_pair (flat_map segs (seq 0 n)).
Proof.
  induction n as [|n IH]; intros H; [constructor|]. rewrite seq_S, flat_map_app. cbn [flat_map Nat.add]. rewrite app_nil_r. apply sorted_app.
  - apply IH. intros; apply H; lia.
  - apply H. lia.
  - intros x y Hx Hy. apply in_flat_map in Hx. destruct Hx as (g & Hg & Hx). apply in_seq in Hg. assert (fst x = g) by (apply (H g); auto; lia).
    assert (fst y = n) by (apply (H n); auto; lia). unfold comp_pair. replace (fst y =? fst x) with false by lia. lia.
Qed.

Theorem reorder_ok scan env N (L : list ipair) : scan_ip_ok scan -> reorder_env_ok (length L) N env -> (forall p : ipair, In p L -> fst p < N) ->
  (Z.of_nat N + 1 < 2 ^ 31)%Z -> (Z.of_nat (length L) < 2 ^ 31)%Z ->
  exists L', reorder_scan_dtt_result scan env N L = Ok (L', map (fun g => Z.of_nat (before L g)) (seq 0 (N + 1))) /\
    Permutation L' L /\ sorted_by comp_pair L'.
Proof.
  intros SC [V1 V2 V3 V4 V5] HB HN HL. unfold reorder_scan_dtt_result. rewrite P31 in *.
  rewrite fill_ok by (rewrite ?repeat_length, ?P31; lia). rewrite skipn_all2 by (rewrite repeat_length; auto). rewrite app_nil_r. cbn [rbind].
  destruct (Nat.eqb_spec (length L) 0) as [E0|E0].
  { apply length_zero_iff_nil in E0. subst L. exists []. split; [|split; constructor]. cbn [length Nat.eqb]. do 2 f_equal.
    apply list_eq_nth_error. intros x. rewrite nth_error_map. destruct (Nat.lt_ge_cases x (N + 1)) as [X|X].
    - rewrite nth_error_seq by auto. cbn [option_map before filter length Nat.add]. rewrite (nth_error_nth' _ 0%Z) by (now rewrite repeat_length). f_equal. apply nth_repeat.
    - rewrite !(proj2 (nth_error_None _ _)); auto; rewrite ?seq_length, ?repeat_length; lia. }
  unfold kernel_call. replace (length L =? 0) with false by lia.
  destruct (kernel_perm (cbody N) L (re_count env) (repeat 0%Z (N + 1)) V1) as (L1 & P1 & E1).
  assert (Z0 : forall j, nth j (repeat 0%Z (N + 1)) 0%Z = 0%Z) by (intros; apply nth_repeat).
  assert (GL : forall X j, length (grp X j) <= length X) by (intros X j; unfold grp; induction X as [|q X IH]; [auto|]; cbn [filter]; destruct (fst q =? j); cbn [length]; lia).
  destruct (cbody_ok N L1) with (o := repeat 0%Z (N + 1)) as (o & F1 & F2 & F3).
  { intros p Hp. apply HB. eapply Permutation_in; eauto. }
  { apply repeat_length. }
  { intros j. rewrite Z0, P32. specialize (GL L1 j). rewrite (Permutation_length P1) in GL. lia. }
  unfold cbody in E1 at 1. change (par_for (re_count env) (fun (i : nat) (o0 : list Z) => p <- aget L i;; (if fst p <? N then v <- aget o0 (fst p);; aset o0 (fst p) (w32 (v + 1)) else UB)) (repeat 0%Z (N + 1)) = rfold (cbody N) L1 (repeat 0%Z (N + 1))) in E1.
  rewrite E1, F1. cbn [rbind].
  unfold scan_exclusive_sum_in_place. replace (N + 1 =? 0) with false by lia. replace (length o <? N + 1) with false by lia.
  rewrite SC by lia. cbn [rbind]. rewrite skipn_all2 by lia. rewrite app_nil_r.
  assert (CN : forall j, j < N -> nth j o 0%Z = Z.of_nat (length (grp L j))).
  { intros j Hj. rewrite F3, Z0. pose proof (Permutation_length (Permutation_filter (fun p : ipair => fst p =? j) _ _ P1)) as PL. unfold grp. rewrite Z.add_0_l. f_equal. exact PL. }
  assert (PNL : pos (grp L) N = length L) by (rewrite pos_grp; now apply before_all).
  assert (OF : excl_spec o (N + 1) = map (fun g => Z.of_nat (before L g)) (seq 0 (N + 1))).
  { apply list_eq_nth_error. intros x. rewrite nth_error_map. destruct (Nat.lt_ge_cases x (N + 1)) as [X|X].
    - rewrite nth_error_seq by auto. cbn [option_map Nat.add]. rewrite <- pos_grp. apply aget_ok. rewrite <- (app_nil_r (excl_spec o (N + 1))).
      eapply scan_read with (n := N); auto; try lia.
    - rewrite !(proj2 (nth_error_None _ _)); auto; rewrite ?seq_length, ?length_excl; lia. }
  rewrite OF. set (offs := map (fun g => Z.of_nat (before L g)) (seq 0 (N + 1))).
  assert (LO : length offs = N + 1) by (unfold offs; now rewrite map_length, seq_length).
  assert (ON : forall j, j < N + 1 -> nth j offs 0%Z = Z.of_nat (before L j)).
  { intros j Hj. unfold offs. apply nth_error_nth. rewrite nth_error_map, nth_error_seq by auto. reflexivity. }
  destruct (kernel_perm (sbody N) L (re_scatter env) (re_junk env (length L), offs) V2) as (L2 & P2 & E2).
  destruct (scatter_ok N L2 (re_junk env (length L)) offs) as (h & S2); auto.
  { intros p Hp. apply HB. eapply Permutation_in; eauto. }
  { rewrite V4. symmetry. now apply Permutation_length. }
  { rewrite (Permutation_length P2), P31. auto. }
  { intros j Hj. rewrite ON by lia. rewrite pos_grp. f_equal. apply before_perm. now symmetry. }
  assert (E2' : par_for (re_scatter env) (fun i sh => p <- aget L i ;; if fst p <? N then ret <- aget (snd sh) (fst p) ;; h <- aset (snd sh) (fst p) (w32 (ret + 1)) ;;
      s <- aset (fst sh) (Z.to_nat ret) p ;; Ok (s, h) else UB) (re_junk env (length L), offs) = Ok (flat_map (grp L2) (seq 0 N), h)) by (rewrite <- S2; exact E2).
  rewrite E2'. cbn [rbind fst].
  set (G := flat_map (grp L2) (seq 0 N)).
  assert (BP : forall g, before L g = pos (grp L2) g) by (intros g; rewrite pos_grp; apply before_perm; now symmetry).
  assert (PN2 : pos (grp L2) N = length L) by (rewrite <- BP, <- pos_grp; auto).
  assert (LG : length G = length L) by exact PN2.
  set (no := map Z.to_nat offs). assert (LNO : length no = N + 1) by (unfold no; now rewrite map_length).
  assert (NN : forall j, j < N + 1 -> nth j no 0 = pos (grp L2) j).
  { intros j Hj. unfold no. change 0 with (Z.to_nat 0) at 1. rewrite map_nth, ON by auto. rewrite Nat2Z.id. apply BP. }
  assert (OK : offsets_ok no (length G)).
  { split; rewrite LNO; intros i Hi; rewrite !NN by lia; [apply pos_mono; lia|]. rewrite LG, <- PN2. apply pos_mono. lia. }
  assert (SRT : exists buf', segmented_sort_in_place (range_sort (re_impl env)) (re_sort env) G no = Ok buf' /\ length buf' = length G /\
    forall g, g + 1 < length no -> Permutation (slice (nth g no 0) (nth (g + 1) no 0) buf') (slice (nth g no 0) (nth (g + 1) no 0) G) /\ sorted_by comp_pair (slice (nth g no 0) (nth (g + 1) no 0) buf')).
  { assert (NE : no <> []) by (intros X; rewrite X in LNO; simpl in LNO; lia).
    assert (PO : Permutation (re_sort env) (seq 0 (length no - 1))) by (rewrite LNO; replace (N + 1 - 1) with N by lia; auto).
    destruct (re_impl env) as [|srt]; cbn [range_sort impl_ok] in *.
    - destruct (C23_device_sort _ comp_pair (re_sort env) G no comp_pair_sw OK NE PO) as (b & X1 & X2 & X3 & _). exists b. auto.
    - destruct (C23_host_sort _ comp_pair srt (re_sort env) G no V5 OK NE PO) as (b & X1 & X2 & X3 & _). exists b. auto. }
  destruct SRT as (b & X1 & X2 & X3). rewrite X1. cbn [rbind]. exists b. split; [reflexivity|].
  assert (SL : b = flat_map (fun g => slice (pos (grp L2) g) (pos (grp L2) (S g)) b) (seq 0 N)).
  { apply slices_concat; [reflexivity| |]. - intros g Hg. apply pos_mono. lia. - rewrite X2, LG. exact PN2. }
  assert (SP : forall g, g < N -> Permutation (slice (pos (grp L2) g) (pos (grp L2) (S g)) b) (grp L2 g) /\ sorted_by comp_pair (slice (pos (grp L2) g) (pos (grp L2) (S g)) b)).
  { intros g Hg. destruct (X3 g ltac:(lia)) as [Y1 Y2]. rewrite !NN in Y1, Y2 by lia. rewrite Nat.add_1_r in Y1, Y2. split; auto.
    rewrite Y1. unfold G. rewrite slice_flat by auto. reflexivity. }
  split.
  - rewrite <- P2. rewrite SL. transitivity (flat_map (grp L2) (seq 0 N)).
    + assert (Q : forall s, (forall g, In g s -> g < N) -> Permutation (flat_map (fun g => slice (pos (grp L2) g) (pos (grp L2) (S g)) b) s) (flat_map (grp L2) s)).
      { induction s as [|g s IH]; intros Hs; [constructor|]. cbn [flat_map]. apply Permutation_app; [apply SP, Hs; simpl; auto|]. apply IH. intros; apply Hs; simpl; auto. }
      apply Q. intros g Hg. apply in_seq in Hg. lia.
    + apply (Dtt_select2.flat_filter_perm (fun p : ipair => fst p) N L2). intros p Hp. apply HB. eapply Permutation_in; eauto.
  - rewrite SL. apply sorted_groups. intros g Hg. destruct (SP g Hg) as [Y1 Y2]. split; auto. intros p Hp. apply (Permutation_in _ Y1) in Hp.
    unfold grp in Hp. apply filter_In in Hp. destruct Hp as [_ Hp]. lia.
Qed.
