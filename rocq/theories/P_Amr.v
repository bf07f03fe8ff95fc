(** C59: splitting and merging the blocks of the AMR grid keeps the tiling and the conserved quantities. *)
From Verif Require Import Base Par Scan_spec Morton Morton_spec Amr Amr_spec Amr_proofs Amr_lists Amr_geo Amr_order.
From Coq Require Import ZArith Reals Lra.
Local Open Scope nat_scope.

Lemma cover_app a b p : cover (a ++ b) p = cover a p + cover b p.
Proof. unfold cover. now rewrite filter_app, app_length. Qed.
Lemma cover_perm a b p : Permutation a b -> cover a p = cover b p.
Proof. unfold cover. intros H. induction H; cbn [filter]; repeat (match goal with |- context [if ?c then _ else _] => destruct c end); cbn [length]; congruence. Qed.
Lemma cover_flat_map {A} (f g : A -> list block) l p : (forall a, In a l -> cover (f a) p = cover (g a) p) -> cover (flat_map f l) p = cover (flat_map g l) p.
Proof. induction l as [|a l IH]; intros H; simpl; auto. rewrite !cover_app, (H a) by (simpl; auto). rewrite IH; auto. intros; apply H; simpl; auto. Qed.
Lemma total_flat_map {A} h (f g : A -> list block) l : (forall a, In a l -> total h (f a) = total h (g a)) -> total h (flat_map f l) = total h (flat_map g l).
Proof. induction l as [|a l IH]; intros H; simpl; auto. rewrite !total_app, (H a) by (simpl; auto). rewrite IH; auto. intros; apply H; simpl; auto. Qed.
Lemma value_flat_map {A} (f g : A -> list block) l p v : (forall a, In a l -> value_at (f a) p v -> value_at (g a) p v) -> value_at (flat_map f l) p v -> value_at (flat_map g l) p v.
Proof.
  induction l as [|a l IH]; intros H; simpl; auto. rewrite !value_app. intros [X|X]; [left; apply H; simpl; auto|right; apply IH; auto; intros; apply H; simpl; auto].
Qed.

Lemma eight_from_group st g : g + 8 <= length st -> eight_from st g = group st g.
Proof.
  intros H. unfold eight_from, group. apply list_eq_nth_error. intros i. destruct (Nat.lt_ge_cases i 8) as [A|A].
  - rewrite nth_error_map, nth_error_seq by lia. cbn [option_map]. rewrite <- (nth_error_nth' st dflt) by lia.
    rewrite <- (firstn_skipn g st) at 2. rewrite nth_error_app2 by (rewrite firstn_length; lia). rewrite firstn_length, Nat.min_l by lia.
    replace (g + (0 + i) - g) with i by lia. rewrite <- (firstn_skipn 8 (skipn g st)) at 2. rewrite nth_error_app1; auto.
    rewrite firstn_length, skipn_length. lia.
  - rewrite !(proj2 (nth_error_None _ i)); auto; rewrite ?firstn_length, ?map_length, ?seq_length; lia.
Qed.
Lemma eight_from_in st g b : In b (eight_from st g) -> In b st.
Proof.
  intros H. rewrite <- (firstn_skipn g st). apply in_app_iff. right. rewrite <- (firstn_skipn 8 (skipn g st)). apply in_app_iff. now left.
Qed.

(** ** The merge flags, for every schedule of the kernel which computes them in place.
    A group is merged only if its eight blocks exist, all asked for it and none is split, and they are the
    octants of a box. *)
Theorem C59_merge_flags : forall crit st sched,
  Forall good st -> complete (length st) sched ->
  exists flags pr, merge_kernel sched st (snd (crit_flags crit st)) = Ok (flags, pr) /\ all_done pr /\ length flags = length st /\
    forall g, nth g flags false = true ->
      g + 8 <= length st /\ (exists c k3, octants (eight_from st g) c k3) /\
      forall b, In b (eight_from st g) -> crit b = (false, true).
Proof.
  intros crit st sched HG HC.
  destruct (merge_kernel_ok st (snd (crit_flags crit st)) sched) as (flags & pr & E & D & L & P); auto.
  { unfold crit_flags. cbn [snd]. now rewrite !map_length. }
  exists flags, pr. split; auto. split; auto. split; auto. intros g Hg. destruct (P g Hg) as (A & B & C). split; auto.
  rewrite eight_from_group by auto. unfold eight in B. fold (eight_from st g) in B. rewrite eight_from_group in B by auto. split.
  - destruct (mergeable_octants (group st g)) as (c & k3 & O & _); auto; [|now exists c, k3].
    apply Forall_forall. intros b Hb. rewrite Forall_forall in HG. apply HG. apply (eight_from_in st g). now rewrite eight_from_group.
  - intros b Hb. apply in_map_iff in Hb as (p & <- & Hp). apply in_seq in Hp. specialize (C p ltac:(lia)).
    unfold crit_flags in C. cbn [snd] in C. rewrite map_map in C.
    rewrite (nth_indep _ _ (snd (guard (crit dflt)))) in C by (rewrite map_length; lia).
    rewrite (map_nth (fun b => snd (guard (crit b)))) in C. destruct (crit (nth (g + p) st dflt)) as [[|] [|]]; cbn in C; congruence.
Qed.

Lemma refs_lt crit st i : In i (flagged (fst (crit_flags crit st))) <-> i < length st /\ fst (crit (nth i st dflt)) = true.
Proof.
  rewrite flagged_in. unfold crit_flags. cbn [fst]. rewrite map_map. split.
  - intros H. destruct (Nat.lt_ge_cases i (length st)) as [A|A]; [|rewrite nth_overflow in H by (rewrite map_length; lia); discriminate]. split; auto.
    rewrite (nth_indep _ _ (fst (guard (crit dflt)))) in H by (rewrite map_length; lia). rewrite (map_nth (fun b => fst (guard (crit b)))) in H.
    destruct (crit (nth i st dflt)); exact H.
  - intros [A B]. rewrite (nth_indep _ _ (fst (guard (crit dflt)))) by (rewrite map_length; lia). rewrite (map_nth (fun b => fst (guard (crit b)))).
    destruct (crit (nth i st dflt)); exact B.
Qed.

Definition refined_ids crit st := flagged (fst (crit_flags crit st)).
Lemma update_steps crit st sched order fresh :
  Forall good st -> complete (length st) sched -> (forall n, Permutation (order n) (seq 0 n)) ->
  7 * length st <= length fresh -> (forall b, In b fresh -> length (cells b) = 8) -> lone_octants st ->
  exists st' ds, update sched order fresh crit st = Ok st' /\
    (forall d, In d ds -> d + 8 <= length st /\ (exists c k3, octants (group st d) c k3 /\ get_merge (map coords (group st d)) = (c, plus3 c (dbl k3))) /\
       are_mergeable (eight st d) = true) /\
    (exists A, Permutation st' (A ++ flat_map (fun i => [merged st i]) ds) /\
      Permutation (map (fun i => nth i st dflt) (others (length st) (refined_ids crit st)) ++ flat_map (fun i => map (child (nth i st dflt)) (seq 0 8)) (refined_ids crit st))
                  (A ++ flat_map (group st) ds)) /\
    Permutation st (map (fun i => nth i st dflt) (others (length st) (refined_ids crit st)) ++ flat_map (fun i => [nth i st dflt]) (refined_ids crit st)).
Proof.
  intros HG HC HO HF HF8 HLO.
  destruct (C59_merge_flags crit st sched HG HC) as (flags & pr & E & D & L & P).
  destruct (merge_kernel_ok st (snd (crit_flags crit st)) sched) as (flags' & pr' & E' & _ & _ & P'); auto.
  { unfold crit_flags. cbn [snd]. now rewrite !map_length. }
  rewrite E in E'. injection E' as <- <-.
  unfold update. destruct (crit_flags crit st) as [rf df] eqn:CF. cbn [snd] in *. rewrite E. cbn [rbind].
  assert (ER : flagged rf = refined_ids crit st) by (unfold refined_ids; now rewrite CF). rewrite ER in *. set (refs := refined_ids crit st) in *.
  assert (HR : forall i, In i refs -> i < length st) by (intros i Hi; apply refs_lt in Hi; tauto).
  assert (ND : NoDup refs) by apply flagged_nodup.
  assert (LR : length refs <= length st). { rewrite <- (seq_length (length st) 0). apply NoDup_incl_length; auto. intros i Hi. apply in_seq. specialize (HR i Hi). lia. }
  assert (H8 : forall b, In b st -> length (cells b) = 8) by (intros b Hb; rewrite Forall_forall in HG; apply (HG b Hb)).
  destruct (internal_refine_ok (order (length refs)) (firstn (7 * length refs) fresh) refs st) as (st1 & E1 & L1 & S1 & P1 & P0); auto.
  { rewrite firstn_length. lia. }
  { intros b Hb. apply HF8. rewrite <- (firstn_skipn (7 * length refs) fresh). apply in_app_iff. now left. }
  rewrite E1. cbn [rbind]. set (ds := flagged flags) in *.
  assert (HD : forall d, In d ds -> d + 8 <= length st /\ (exists c k3, octants (eight_from st d) c k3) /\ forall b, In b (eight_from st d) -> crit b = (false, true)).
  { intros d Hd. apply P. apply flagged_in. exact Hd. }
  assert (GS : forall d, In d ds -> group st1 d = group st d).
  { intros d Hd. apply group_ext. intros p Hp. destruct (HD d Hd) as (A & _ & B). apply nth_error_nth. rewrite S1.
    - apply nth_error_nth'. lia.
    - lia.
    - intros X. apply refs_lt in X as [_ X]. rewrite (B (nth (d + p) st dflt)) in X; [discriminate|].
      rewrite eight_from_group by auto. apply in_map_iff. exists p. split; auto. apply in_seq. lia. }
  destruct (internal_derefine_ok (order (length ds)) ds st1) as (st' & E2 & P2 & P3).
  - apply HO.
  - apply flagged_nodup.
  - intros a b Ha Hb Hab. destruct (Nat.le_gt_cases (a + 8) b) as [|X]; auto. exfalso.
    destruct (HD a Ha) as (_ & (c & k3 & Oa) & _). destruct (HD b Hb) as (_ & (c' & k3' & Ob) & _). apply (HLO a b c k3 c' k3'); auto.
  - intros i Hi. destruct (HD i Hi). lia.
  - intros i b Hi Hb. rewrite GS in Hb by auto. apply H8. apply (eight_from_in st i). destruct (HD i Hi). now rewrite eight_from_group.
  - exists st', ds. split; [exact E2|]. split; [|split].
    + intros d Hd. destruct (HD d Hd) as (A & _ & _). destruct (P' d) as (_ & M & _); [apply flagged_in; exact Hd|]. split; auto. split; auto.
      unfold eight in M. fold (eight_from st d) in M. rewrite eight_from_group in M by auto.
      apply mergeable_octants; auto. apply Forall_forall. intros b Hb. rewrite Forall_forall in HG. apply HG. apply (eight_from_in st d). now rewrite eight_from_group.
    + exists (map (fun i => nth i st1 dflt) (others (length st1) (flat_map (fun i => seq i 8) ds))). split.
      * rewrite P2. apply Permutation_app_head, perm_eq. apply flat_map_ext_in. intros d Hd. unfold merged. now rewrite GS.
      * rewrite <- P1, P3 at 1. apply Permutation_app_head, perm_eq. apply flat_map_ext_in. exact GS.
    + exact P0.
Qed.

(** ** The whole change, for every criterion, every schedule and every order: it does not fail, each
    unit cube of space is in as many blocks after as before (a tiling stays a tiling of the same region),
    and the totals of mass, momentum and energy are the same. *)
Theorem C59_update : forall crit st sched order fresh,
  Forall good st -> complete (length st) sched -> (forall n, Permutation (order n) (seq 0 n)) ->
  7 * length st <= length fresh -> (forall b, In b fresh -> length (cells b) = 8) -> lone_octants st ->
  exists st', update sched order fresh crit st = Ok st' /\
    (forall p, cover st' p = cover st p) /\
    (forall f, In f comps -> total f st' = total f st).
Proof.
  intros crit st sched order fresh HG HC HO HF HF8 HLO.
  destruct (update_steps crit st sched order fresh) as (st' & ds & E & HD & (A & P2 & P3) & P0); auto.
  exists st'. split; auto.
  assert (GN : forall i, In i (refined_ids crit st) -> good (nth i st dflt)).
  { intros i Hi. apply refs_lt in Hi as [Hi _]. rewrite Forall_forall in HG. apply HG, nth_In. auto. }
  split.
  - intros p. rewrite (cover_perm _ _ p P2), cover_app.
    rewrite (cover_flat_map (fun i => [merged st i]) (group st) ds p).
    2: { intros d Hd. destruct (HD d Hd) as (_ & (c & k3 & O & EM) & _). symmetry. apply (octants_cover _ c k3); auto; unfold merged; rewrite EM; reflexivity. }
    rewrite <- cover_app, <- (cover_perm _ _ p P3), (cover_perm _ _ p P0), !cover_app. f_equal. apply cover_flat_map. intros i Hi. now apply child_cover, GN.
  - intros f Hf. apply comps_linear in Hf. rewrite (total_perm f _ _ P2), total_app.
    rewrite (total_flat_map f (fun i => [merged st i]) (group st) ds).
    2: { intros d Hd. destruct (HD d Hd) as (HL & (c & k3 & O & EM) & _). symmetry. unfold merged. rewrite EM. cbn [fst snd]. apply octants_total; auto.
         intros b Hb. rewrite Forall_forall in HG. apply (HG b). apply (eight_from_in st d). now rewrite eight_from_group. }
    rewrite <- total_app, <- (total_perm f _ _ P3), (total_perm f _ _ P0), !total_app. f_equal. apply total_flat_map. intros i Hi. now apply child_total, GN.
Qed.

(** On blocks in Morton order (AMRSortBlocks, which runs at the setup and after each change) no group is ever merged,
    whatever the criterion asks; the field is unchanged at every point of space. *)
Theorem C59_sorted : forall scale corner crit st sched order fresh,
  morton_order scale corner st ->
  Forall good st -> complete (length st) sched -> (forall n, Permutation (order n) (seq 0 n)) ->
  7 * length st <= length fresh -> (forall b, In b fresh -> length (cells b) = 8) ->
  exists st', update sched order fresh crit st = Ok st' /\
    length st' = length st + 7 * length (filter (fun b => fst (crit b)) st) /\
    (forall p v, value_at st' p v <-> value_at st p v) /\
    (forall p, cover st' p = cover st p) /\
    (forall f, In f comps -> total f st' = total f st).
Proof.
  intros scale corner crit st sched order fresh HM HG HC HO HF HF8.
  assert (NO : forall a c k3, ~ octants (eight_from st a) c k3).
  { intros a c k3 O. pose proof O as (A & B & C & E).
    assert (L8 : length (eight_from st a) = 8) by (rewrite <- (map_length coords), E; reflexivity).
    assert (LA : a + 8 <= length st) by (unfold eight_from in L8; rewrite firstn_length, skipn_length in L8; lia).
    eapply (not_mergeable scale corner st a); eauto. unfold eight. fold (eight_from st a). rewrite E.
    destruct c as [[x y] z], k3 as [[u v] w]. unfold px, py, pz in A, B, C. cbn [fst snd] in A, B, C.
    unfold are_mergeable.
    assert (EM : get_merge (map (fun '(i, j, k) => (sub_lo (x, y, z) (u, v, w) i j k, plus3 (sub_lo (x, y, z) (u, v, w) i j k) (u, v, w))) oct)
                 = ((x, y, z), plus3 (x, y, z) (dbl (u, v, w)))).
    { cbv - [Z.add Z.min Z.max]. repeat apply (f_equal2 pair); lia. }
    rewrite EM. cbn [fst snd]. apply forallb_forall. intros n Hn. rewrite <- oct_index in Hn. apply in_map_iff in Hn as ([[i j] k] & <- & _).
    rewrite split_at. cbn [fst snd].
    assert (EN : nth (cell_index i j k) (map (fun '(i, j, k) => (sub_lo (x, y, z) (u, v, w) i j k, plus3 (sub_lo (x, y, z) (u, v, w) i j k) (u, v, w))) oct) ((0, 0, 0), (0, 0, 0))%Z
       = (sub_lo (x, y, z) (u, v, w) i j k, plus3 (sub_lo (x, y, z) (u, v, w) i j k) (u, v, w))) by (destruct i, j, k; reflexivity).
    rewrite EN. cbn [fst snd]. unfold eqb3. rewrite !Z.eqb_refl. reflexivity. }
  assert (HLO : lone_octants st) by (intros a b c k3 c' k3' _ Oa _; eapply NO; eauto).
  destruct (update_steps crit st sched order fresh) as (st' & ds & E & HD & (A & P2 & P3) & P0); auto.
  destruct (C59_update crit st sched order fresh) as (st'' & E'' & CV & TT); auto. rewrite E in E''. injection E'' as <-.
  exists st'. split; auto.
  assert (ds = []) as ->.
  { destruct ds as [|d ds]; auto. exfalso. destruct (HD d (or_introl eq_refl)) as (HL & (c & k3 & O & _) & _). apply (NO d c k3). now rewrite eight_from_group. }
  cbn [flat_map] in P2, P3. rewrite app_nil_r in P2, P3. rewrite <- P2 in P3.
  assert (GN : forall i, In i (refined_ids crit st) -> good (nth i st dflt)).
  { intros i Hi. apply refs_lt in Hi as [Hi _]. rewrite Forall_forall in HG. apply HG, nth_In. auto. }
  split; [|split; auto].
  - pose proof (Permutation_length P3) as K3. pose proof (Permutation_length P0) as K0. rewrite app_length in K3, K0.
    assert (L8 : forall (f : nat -> list block) n l, (forall i, length (f i) = n) -> length (flat_map f l) = n * length l).
    { clear. intros f n l H. induction l as [|a l IH]; simpl; [lia|]. rewrite app_length, H, IH. lia. }
    rewrite (L8 (fun i => map (child (nth i st dflt)) (seq 0 8)) 8) in K3 by reflexivity. rewrite (L8 (fun i => [nth i st dflt]) 1) in K0 by reflexivity.
    assert (LR : length (refined_ids crit st) = length (filter (fun b => fst (crit b)) st)).
    { rewrite (list_as_map dflt st) at 2. rewrite filter_map_len. unfold refined_ids, flagged.
      assert (LL : length (fst (crit_flags crit st)) = length st) by (unfold crit_flags; cbn [fst]; now rewrite !map_length).
      rewrite LL. apply filter_ext_len. intros i Hi. apply in_seq in Hi. destruct (nth i (fst (crit_flags crit st)) false) eqn:X.
      - apply flagged_in in X. apply refs_lt in X. symmetry. tauto.
      - symmetry. apply not_true_is_false. intros Y. assert (nth i (fst (crit_flags crit st)) false = true); [|congruence]. apply flagged_in, refs_lt. split; auto. lia. }
    lia.
  - intros p v. split; intros H.
    + apply (value_perm _ _ p v (Permutation_sym P3)) in H. apply (value_perm _ _ p v (Permutation_sym P0)). rewrite value_app in *. destruct H as [H|H]; [now left|right].
      revert H. apply value_flat_map. intros i Hi. apply child_value. now apply GN.
    + apply (value_perm _ _ p v P3). apply (value_perm _ _ p v P0) in H. rewrite value_app in *. destruct H as [H|H]; [now left|right].
      revert H. apply value_flat_map. intros i Hi. apply child_value. now apply GN.
Qed.

(** ** Findings and examples *)
Definition uniform (v : R) : list cell := repeat (v, (0, 0, 0), 0)%R 8.
(** the block number i of the 2 x 2 x n grid of blocks of side 2, x fastest *)
Definition raster (i : nat) : block :=
  let x := Z.of_nat (i mod 2) in let y := Z.of_nat ((i / 2) mod 2) in let z := Z.of_nat (i / 4) in
  mkB (2 * x, 2 * y, 2 * z)%Z (2 * x + 2, 2 * y + 2, 2 * z + 2)%Z (uniform (INR (S i))).
Definition increasing (n : nat) : list nat := flat_map (fun i => repeat i 9) (seq 0 n).
Definition decreasing (n : nat) : list nat := flat_map (fun i => repeat i 9) (rev (seq 0 n)).
Definition lockstep (n : nat) : list nat := flat_map (fun _ => seq 0 (n - 7)) (seq 0 8) ++ flat_map (fun _ => seq 0 n) (seq 0 9).
Definition ask_merge (_ : block) : bool * bool := (false, true).
Definition junk : block := mkB (0, 0, 0)%Z (0, 0, 0)%Z (uniform 0).

Lemma good_raster n : Forall good (map raster (seq 0 n)).
Proof.
  apply Forall_forall. intros b Hb. apply in_map_iff in Hb as (i & <- & _). split; [|reflexivity].
  intros f Hf. unfold raster. cbn [bmin bmax].
  generalize (Z.of_nat (i mod 2)) (Z.of_nat ((i / 2) mod 2)) (Z.of_nat (i / 4)). intros x y z.
  assert (X : forall t, Z.even (2 * t + 2 - 2 * t) = true) by (intros t; replace (2 * t + 2 - 2 * t)%Z with 2%Z by lia; reflexivity).
  destruct Hf as [ -> | [ -> | -> ] ]; unfold px, py, pz; cbn [fst snd]; (split; [lia|apply X]).
Qed.
Fixpoint all_below (f : nat -> bool) (n : nat) : bool := match n with 0 => true | S n => f n && all_below f n end.
Lemma all_below_ok f n : all_below f n = true -> forall i, i < n -> f i = true.
Proof. induction n as [|n IH]; simpl; intros H i Hi; [lia|]. apply andb_true_iff in H as [A B]. destruct (Nat.eq_dec i n) as [->|X]; auto. apply IH; auto; lia. Qed.
Lemma complete_dec n s : forallb (fun i => i <? n) s && all_below (fun i => 9 <=? count_occ Nat.eq_dec s i) n = true -> complete n s.
Proof.
  intros H. apply andb_true_iff in H as [A B]. split.
  - apply Forall_forall. intros i Hi. rewrite forallb_forall in A. now apply Nat.ltb_lt, A.
  - intros i Hi. apply Nat.leb_le. exact (all_below_ok _ n B i Hi).
Qed.
Lemma lone_eight n : n < 9 -> lone_octants (map raster (seq 0 n)).
Proof.
  intros Hn a b c k3 c' k3' Hab _ (_ & _ & _ & E). apply (f_equal (@length _)) in E. rewrite map_length in E.
  unfold eight_from in E. rewrite firstn_length, skipn_length, map_length, seq_length in E. change (length (map _ oct)) with 8 in E. lia.
Qed.

(** Finding: the merge flags are read by some work items while others overwrite them, so the grid after the change
    depends on the order in which the work items run: eight sibling blocks which all ask to be merged give
    one block with one order and stay eight with another. *)
Theorem C59_race_refuted : exists st crit s1 s2 order fresh r1 r2,
  Forall good st /\ lone_octants st /\ complete (length st) s1 /\ complete (length st) s2 /\
  (forall b, crit b = (false, true)) /\ (exists c k3, octants st c k3) /\ (forall n, order n = seq 0 n) /\
  update s1 order fresh crit st = Ok r1 /\ update s2 order fresh crit st = Ok r2 /\
  length r1 = 1 /\ length r2 = 8.
Proof.
  exists (map raster (seq 0 8)), ask_merge, (increasing 8), (decreasing 8), (fun n => seq 0 n), (repeat junk 56).
  eexists. eexists. split; [apply good_raster|]. split; [apply lone_eight; lia|]. split; [apply complete_dec; reflexivity|].
  split; [apply complete_dec; reflexivity|]. split; [reflexivity|]. split; [exists (0, 0, 0)%Z, (2, 2, 2)%Z; repeat split; reflexivity|]. split; [reflexivity|].
  split; [vm_compute; reflexivity|]. split; [vm_compute; reflexivity|]. split; reflexivity.
Qed.

(** Finding: the merged cells are averages of the wrong cells.  The cell (i,j,k) of the merged block is the mean, over the
    eight blocks, of their cell (i,j,k), instead of the mean of the eight cells of the block (i,j,k) which it covers:
    the field is not preserved even where it is uniform over each of the new cells (the totals are). *)
Theorem C59_merge_refuted : exists st sched order fresh b,
  Forall good st /\ complete (length st) sched /\ (forall n, order n = seq 0 n) /\
  update sched order fresh ask_merge st = Ok [b] /\
  forall p, in_cell b false false false p ->
    value_at st p (1, (0, 0, 0), 0)%R /\ ~ value_at [b] p (1, (0, 0, 0), 0)%R.
Proof.
  set (b := merged (map raster (seq 0 8)) 0).
  exists (map raster (seq 0 8)), (increasing 8), (fun n => seq 0 n), (repeat junk 56), b.
  split; [apply good_raster|]. split; [apply complete_dec; reflexivity|]. split; [reflexivity|].
  split; [vm_compute; reflexivity|]. intros p Hp. split.
  - exists (raster 0). assert (EB : bmin b = (0, 0, 0)%Z /\ bmax b = (4, 4, 4)%Z) by (split; reflexivity). destruct EB as [EB0 EB1].
    unfold in_cell in *. rewrite EB0, EB1 in Hp. unfold in_half, px, py, pz in *. cbn [fst snd] in Hp. destruct p as [[u v] w]. cbn [fst snd] in *.
    assert (H : forall t, ((0 + 0 * ((4 - 0) / 2) <= t < 0 + (0 + 1) * ((4 - 0) / 2))%R) ->
       exists i, in_half 0 2 i t).
    { intros t Ht. destruct (Rlt_dec t 1); [exists false|exists true]; unfold in_half; lra. }
    destruct Hp as (A & B & C). destruct (H u A) as (i & X), (H v B) as (j & Y), (H w C) as (k & Z). exists i, j, k.
    split; [now left|]. split; [exact (conj X (conj Y Z))|]. destruct i, j, k; reflexivity.
  - intros (b' & i & j & k & [<-|[]] & _ & E). apply nth_error_In in E.
    assert (F : forall c, In c (cells b) -> fst (fst c) = (36 / 8)%R).
    { intros c Hc. unfold b, merged, group, mean in Hc. cbn in Hc.
      repeat (destruct Hc as [<-|Hc]; [cbn; lra|]). destruct Hc. }
    apply F in E. cbn in E. lra.
Qed.

(** Finding: where two groups of eight overlap (possible when the blocks are not in the order of the octree) both can be
    merged, and a part of space is lost. *)
Theorem C59_overlap_refuted : exists st sched order fresh r p,
  Forall good st /\ complete (length st) sched /\ (forall n, order n = seq 0 n) /\
  update sched order fresh ask_merge st = Ok r /\ cover st p = 1 /\ cover r p = 0.
Proof.
  exists (map raster (seq 0 12)), (lockstep 12), (fun n => seq 0 n), []. eexists. exists (0, 0, 4)%Z.
  split; [apply good_raster|]. split; [apply complete_dec; reflexivity|]. split; [reflexivity|].
  split; [vm_compute; reflexivity|]. split; reflexivity.
Qed.

(** The base grid with its corner at the origin: every unit cube of the domain is in exactly one block, and the blocks
    do not leave the domain. *)
Theorem C59_base_grid : forall n sz p,
  (0 < px n -> 0 < py n -> 0 < pz n -> 0 < px sz -> 0 < py sz -> 0 < pz sz ->
  let box (b : Z3 * Z3) := in_block (mkB (fst b) (snd b) []) p = true in
  let valid it := 0 <= it < px n * py n * pz n in
  (box (base_domain (0, 0, 0) n sz) <-> exists it, valid it /\ box (base_block n sz it)) /\
  (forall it it', valid it -> valid it' -> box (base_block n sz it) -> box (base_block n sz it') -> it = it'))%Z.
Proof.
  intros [[nx ny] nz] [[a b] c] [[x y] z]. unfold px, py, pz. cbn [fst snd]. intros N1 N2 N3 S1 S2 S3.
  unfold base_domain, base_block, in_block, zip3, px, py, pz. cbn [fst snd bmin bmax].
  assert (Q : forall it, (0 <= it < nx * ny * nz)%Z ->
     let i := Z.rem it nx in let j := Z.rem (Z.quot it nx) ny in let k := Z.quot it (nx * ny) in
     it = (i + nx * (j + ny * k))%Z /\ (0 <= i < nx)%Z /\ (0 <= j < ny)%Z /\ (0 <= k < nz)%Z).
  { intros it Hit i j k. subst i j k.
    assert (0 < nx * ny)%Z by nia.
    rewrite !Z.quot_div_nonneg, !Z.rem_mod_nonneg by (try apply Z.div_pos; try apply Z.quot_pos; nia).
    pose proof (Z.div_mod it nx ltac:(lia)) as D1. pose proof (Z.div_mod (it / nx) ny ltac:(lia)) as D2.
    rewrite Z.div_div in D2 by lia. pose proof (Z.mod_pos_bound it nx N1). pose proof (Z.mod_pos_bound (it / nx) ny N2).
    repeat split; try lia; try nia. }
  assert (U : forall s t u v, (0 < s)%Z -> (s * t <= v < s * (t + 1))%Z -> (s * u <= v < s * (u + 1))%Z -> t = u) by (intros; nia).
  split.
  - rewrite !andb_true_iff, !Z.leb_le, !Z.ltb_lt. split.
    + intros H. pose proof (Z.div_mod x a ltac:(lia)). pose proof (Z.div_mod y b ltac:(lia)). pose proof (Z.div_mod z c ltac:(lia)).
      pose proof (Z.mod_pos_bound x a S1). pose proof (Z.mod_pos_bound y b S2). pose proof (Z.mod_pos_bound z c S3).
      assert (I : (0 <= x / a < nx)%Z) by (split; [apply Z.div_pos; lia|apply Z.div_lt_upper_bound; lia]).
      assert (J : (0 <= y / b < ny)%Z) by (split; [apply Z.div_pos; lia|apply Z.div_lt_upper_bound; lia]).
      assert (K : (0 <= z / c < nz)%Z) by (split; [apply Z.div_pos; lia|apply Z.div_lt_upper_bound; lia]).
      set (i := (x / a)%Z) in *. set (j := (y / b)%Z) in *. set (k := (z / c)%Z) in *.
      exists (i + nx * (j + ny * k))%Z.
      assert (V : (0 <= i + nx * (j + ny * k) < nx * ny * nz)%Z).
      { assert (0 <= j + ny * k < ny * nz)%Z by nia. generalize dependent (j + ny * k)%Z. intros m Hm. split; [nia|].
        assert (nx * (m + 1) <= nx * (ny * nz))%Z by nia. lia. }
      split; [exact V|]. pose proof (Q _ V) as (E & I' & J' & K').
      cbv zeta in E, I', J', K'. set (i' := Z.rem _ _) in *. set (j' := Z.rem _ ny) in *. set (k' := Z.quot _ (nx * ny)) in *.
      assert (i = i' /\ j + ny * k = j' + ny * k')%Z as [<- E2].
      { destruct (Z.div_mod_unique nx (j + ny * k) (j' + ny * k') i i') as [A B]; [lia|lia|lia|]. now split. }
      assert (j = j' /\ k = k') as [<- <-]. { destruct (Z.div_mod_unique ny k k' j j') as [A B]; [lia|lia|lia|]. now split. }
      rewrite !andb_true_iff, !Z.leb_le, !Z.ltb_lt. lia.
    + intros (it & V & H). destruct (Q it V) as (_ & I & J & K). rewrite !andb_true_iff, !Z.leb_le, !Z.ltb_lt in H.
      assert (M : forall s t m v, (0 < s)%Z -> (0 <= t < m)%Z -> (s * t <= v)%Z -> (v < s * (t + 1))%Z -> (0 <= v < 0 + s * m)%Z) by (clear; intros; nia).
      destruct H as (((((H1 & H2) & H3) & H4) & H5) & H6).
      pose proof (M _ _ _ _ S1 I H1 H2). pose proof (M _ _ _ _ S2 J H3 H4). pose proof (M _ _ _ _ S3 K H5 H6). lia.
  - intros it it' V V'. destruct (Q it V) as (E & _). destruct (Q it' V') as (E' & _). cbv zeta in E, E'.
    rewrite !andb_true_iff, !Z.leb_le, !Z.ltb_lt. intros (((((H1 & H2) & H3) & H4) & H5) & H6) (((((G1 & G2) & G3) & G4) & G5) & G6). rewrite E, E'.
    rewrite (U a _ _ x S1 (conj H1 H2) (conj G1 G2)), (U b _ _ y S2 (conj H3 H4) (conj G3 G4)), (U c _ _ z S3 (conj H5 H6) (conj G5 G6)). reflexivity.
Qed.
(** Finding: the generator of the base grid does not know the corner of the domain which the user gave *)
Theorem C59_base_grid_refuted : exists bmn n sz p,
  (0 < px n /\ 0 < py n /\ 0 < pz n /\ 0 < px sz /\ 0 < py sz /\ 0 < pz sz)%Z /\
  in_block (mkB (fst (base_domain bmn n sz)) (snd (base_domain bmn n sz)) []) p = true /\
  forall it, (0 <= it < px n * py n * pz n)%Z -> in_block (mkB (fst (base_block n sz it)) (snd (base_block n sz it)) []) p = false.
Proof.
  exists (10, 10, 10)%Z, (1, 1, 1)%Z, (2, 2, 2)%Z, (10, 10, 10)%Z. split; [cbn; lia|]. split; [reflexivity|].
  intros it Hit. cbn in Hit. assert (it = 0)%Z as -> by lia. reflexivity.
Qed.

(** The hypotheses hold on a grid where the first block is split and the others, in Morton order, ask to be merged *)
Definition zfirst (i : nat) : block := let z := Z.of_nat i in mkB (0, 0, 2 * z)%Z (2, 2, 2 * z + 2)%Z (uniform (INR (S i))).
Definition split_first (b : block) : bool * bool := if (pz (bmin b) =? 0)%Z then (true, false) else (false, true).
Lemma good_zfirst n : Forall good (map zfirst (seq 0 n)).
Proof.
  apply Forall_forall. intros b Hb. apply in_map_iff in Hb as (i & <- & _). split; [|reflexivity].
  intros f Hf. unfold zfirst. cbn [bmin bmax]. generalize (Z.of_nat i). intros z.
  assert (X : Z.even (2 * z + 2 - 2 * z) = true) by (replace (2 * z + 2 - 2 * z)%Z with 2%Z by lia; reflexivity).
  destruct Hf as [ -> | [ -> | -> ] ]; unfold px, py, pz; cbn [fst snd]; (split; [lia|try apply X; reflexivity]).
Qed.
Example ex_C59_sorted :
  let st := map zfirst (seq 0 2) in
  morton_order (2 ^ 19) (0, 0, 0)%Z st /\ Forall good st /\ complete (length st) (decreasing 2) /\
  (forall n, Permutation (rev (seq 0 n)) (seq 0 n)) /\ 7 * length st <= length (repeat junk 14) /\ (forall b, In b (repeat junk 14) -> length (cells b) = 8) /\
  length (filter (fun b => fst (split_first b)) st) = 1.
Proof.
  assert (AL : forall i, i < 2 -> aligned_cube (2 ^ 19) (0, 0, 0)%Z (zfirst i) 20).
  { intros i Hi f Hf. destruct i as [|[|i]]; [| |lia]; destruct Hf as [ -> | [ -> | -> ] ]; vm_compute; repeat split; try discriminate;
      ((now exists 0%Z) || (now exists 1%Z)). }
  split; [split; [reflexivity|split]|].
  - intros b [<-|[<-|[]]]; exists 20%N; apply AL; lia.
  - intros [|[|i]] b b' H H'; cbn in H, H'; try (destruct i; discriminate); try discriminate. injection H as <-. injection H' as <-. exists 20%N. split; [apply AL; lia|]. reflexivity.
  - split; [apply good_zfirst|]. split; [apply complete_dec; reflexivity|]. split; [intros n; apply Permutation_sym, Permutation_rev|]. split; [cbn; lia|].
    split; [|reflexivity]. intros b Hb. apply repeat_spec in Hb. now subst.
Qed.
(** and, for C59_merge_flags and C59_update, on eight blocks which are merged *)
Example ex_C59_update :
  let st := map raster (seq 0 8) in
  Forall good st /\ complete (length st) (increasing 8) /\ lone_octants st /\ 7 * length st <= length (repeat junk 56) /\
  (exists c k3, octants (eight_from st 0) c k3) /\
  exists r, update (increasing 8) (fun n => seq 0 n) (repeat junk 56) ask_merge st = Ok r /\ length r = 1.
Proof.
  split; [apply good_raster|]. split; [apply complete_dec; reflexivity|]. split; [apply lone_eight; lia|]. split; [cbn; lia|].
  split; [exists (0, 0, 0)%Z, (2, 2, 2)%Z; repeat split; reflexivity|]. eexists. split; [vm_compute; reflexivity|reflexivity].
Qed.

Print Assumptions C59_merge_flags.
Print Assumptions C59_update.
Print Assumptions C59_sorted.
Print Assumptions C59_race_refuted.
Print Assumptions C59_merge_refuted.
Print Assumptions C59_overlap_refuted.
Print Assumptions C59_base_grid.
Print Assumptions C59_base_grid_refuted.
