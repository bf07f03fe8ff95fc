(** The maximum of a particle field in every cell of the tree. *)
Require Import Reals Lra.
From Verif Require Import Base Par Karras Karras_spec Traverse Traverse_spec Reduction Scan Scan_spec SortSearch BVH BVH_spec BVH_prop P_Traverse Dtt Dtt_spec Dtt_sep Interleave Sgfmm Sgfmm_passes Sgfmm_util Sgfmm_tree Sgfmm_spec
  Ncache Ncache_spec.
From Coq Require Import ZifyBool ZifyNat.
Local Open Scope nat_scope.

Lemma par_at {A} (f : nat -> res A) (g : nat -> A) (ad : nat -> nat) (INJ : forall i j, ad i = ad j -> i = j) order : NoDup order -> forall old,
  (forall i, In i order -> f i = Ok (g i) /\ ad i < length old) ->
  exists out, par_for order (fun i out => v <- f i ;; aset out (ad i) v) old = Ok out /\ length out = length old /\
    (forall i, In i order -> nth_error out (ad i) = Some (g i)) /\ (forall x, (forall i, In i order -> ad i <> x) -> nth_error out x = nth_error old x).
Proof.
  unfold par_for. induction order as [|i order IH]; intros ND old H; cbn [rfold].
  - exists old. repeat split; auto. intros i [].
  - inversion ND as [|? ? NI ND']; subst. destruct (H i (or_introl eq_refl)) as [E L]. rewrite E. cbn [rbind].
    rewrite aset_lt by auto. cbn [rbind].
    destruct (IH ND' (upd old (ad i) (g i))) as (out & E2 & L2 & P1 & P2).
    { intros j Hj. rewrite length_upd. apply H. now right. }
    exists out. split; auto. split; [now rewrite L2, length_upd|]. split.
    + intros j [<-|Hj]; auto. rewrite P2; [now apply nth_error_upd_eq|]. intros k Hk E'. apply INJ in E'. congruence.
    + intros x Hx. rewrite P2 by (intros; apply Hx; now right). apply nth_error_upd_neq. apply Hx. now left.
Qed.
(** every work item changes its own entry *)
Lemma par_map {A} (g : A -> A) order n : Permutation order (seq 0 n) -> forall (old : list A), length old = n ->
  par_for order (fun i buf => v <- aget buf i ;; aset buf i (g v)) old = Ok (map g old).
Proof.
  intros HP old HL. unfold par_for.
  assert (G : forall o old, NoDup o -> (forall i, In i o -> i < length old) ->
    exists out, rfold (fun i buf => v <- aget buf i ;; aset buf i (g v)) o old = Ok out /\ length out = length old /\
    forall x, nth_error out x = if existsb (Nat.eqb x) o then option_map g (nth_error old x) else nth_error old x).
  { induction o as [|i o IH]; intros b ND HB; cbn [rfold]; [exists b; auto|]. inversion ND as [|? ? NI ND']; subst.
    destruct (nth_error b i) as [v|] eqn:E; [|apply nth_error_None in E; specialize (HB i (or_introl eq_refl)); lia].
    unfold aget at 1. rewrite E. cbn [rbind]. rewrite aset_lt by (apply HB; now left). cbn [rbind].
    destruct (IH (upd b i (g v)) ND') as (out & E2 & L2 & X); [intros j Hj; rewrite length_upd; apply HB; now right|].
    exists out. split; auto. split; [now rewrite L2, length_upd|]. intros x. rewrite X. cbn [existsb]. destruct (Nat.eqb_spec x i) as [->|N]; cbn [orb].
    - replace (existsb (Nat.eqb i) o) with false.
      + rewrite nth_error_upd_eq by (apply HB; now left). now rewrite E.
      + symmetry. apply not_true_is_false. intros Y. apply existsb_exists in Y. destruct Y as (z & Hz & Ez). apply Nat.eqb_eq in Ez. now subst.
    - rewrite nth_error_upd_neq by auto. reflexivity. }
  destruct (G order old) as (out & E & L & X).
  { eapply Permutation_NoDup; [symmetry; exact HP|apply seq_NoDup]. }
  { intros i Hi. apply (Permutation_in _ HP), in_seq in Hi. lia. }
  rewrite E. f_equal. apply list_eq_nth_error. intros x. rewrite X, nth_error_map. destruct (Nat.lt_ge_cases x n) as [Hx|Hx].
  - replace (existsb (Nat.eqb x) order) with true; [destruct (nth_error old x); reflexivity|]. symmetry. apply existsb_exists. exists x. split; [|apply Nat.eqb_refl].
    apply (Permutation_in _ (Permutation_sym HP)), in_seq. lia.
  - rewrite (proj2 (nth_error_None old x)) by lia. destruct (existsb _ _); reflexivity.
Qed.

Section Field.
  Context (B : @bvh R) (xyz : list (vec R)) (leb : R -> R -> bool) (plo phi : nat -> vec R) (t : tree) (objs : nat -> list nat).
  Hypothesis RP : represents leb plo phi (length xyz) B t objs.
  Hypothesis SZ : (Z.of_nat (b_leafs B) <= 2 ^ 24 + 1)%Z.
  Notation cells := (b_cells B).
  Notation off := (length (b_cells B)).
  Notation nid := (node_id (length (b_cells B))).
  Notation total := (total_cell_count B).
  Notation fnode := (find_node (b_cells B) t).
  Notation below := (below objs).
  Context (hmin : R) (field : list R).
  Hypothesis HF : length field = length xyz.

  Fixpoint hval (u : tree) : R :=
    match u with
    | Leaf k => fold_left (fun m j => Rmax m (h_of field j)) (objs k) hmin
    | Node _ l r => Rmax (hval l) (hval r)
    end.
  Lemma fold_max_ge l : forall m, (m <= fold_left (fun m j => Rmax m (h_of field j)) l m)%R.
  Proof. induction l as [|j l IH]; intros m; cbn [fold_left]; [lra|]. eapply Rle_trans; [|apply IH]. apply Rmax_l. Qed.
  Lemma fold_max_in l : forall m j, In j l -> (h_of field j <= fold_left (fun m j => Rmax m (h_of field j)) l m)%R.
  Proof. induction l as [|i l IH]; [intros m j []|]; intros m j [->|H]; cbn [fold_left]; [|auto]. eapply Rle_trans; [apply (Rmax_r m)|apply fold_max_ge]. Qed.
  Lemma fold_max_att l : forall m, fold_left (fun m j => Rmax m (h_of field j)) l m = m \/ exists j, In j l /\ fold_left (fun m j => Rmax m (h_of field j)) l m = h_of field j.
  Proof.
    induction l as [|i l IH]; intros m; cbn [fold_left]; [auto|]. destruct (IH (Rmax m (h_of field i))) as [E|(j & Hj & E)].
    - rewrite E. unfold Rmax. destruct (Rle_dec m (h_of field i)); [right; exists i; split; [now left|reflexivity]|auto].
    - right. exists j. split; [now right|exact E].
  Qed.
  Lemma hval_ge u j : In j (below u) -> (h_of field j <= hval u)%R.
  Proof.
    induction u as [k|i l IHl r IHr]; intros H.
    - rewrite leaf_below in H. now apply fold_max_in.
    - unfold Sgfmm_tree.below in *. cbn [leaves hval] in *. rewrite flat_map_app in H. apply in_app_or in H. destruct H as [H|H].
      + eapply Rle_trans; [now apply IHl|apply Rmax_l].
      + eapply Rle_trans; [now apply IHr|apply Rmax_r].
  Qed.
  Lemma hval_att u : In u (subtrees t) -> (forall j, In j (below u) -> (hmin <= h_of field j)%R) -> exists j, In j (below u) /\ hval u = h_of field j.
  Proof.
    induction u as [k|i l IHl r IHr]; intros Hu HM.
    - assert (HL : In k (leaves t)) by (eapply leaves_sub; eauto; now left). pose proof (rp_nonempty _ _ _ _ _ _ _ RP k HL) as NE.
      rewrite leaf_below in *. cbn [hval]. destruct (objs k) as [|j0 l0] eqn:E; [congruence|]. destruct (fold_max_att (j0 :: l0) hmin) as [X|X]; auto.
      exists j0. split; [now left|]. pose proof (HM j0 (or_introl eq_refl)) as Y. pose proof (fold_max_in (j0 :: l0) hmin j0 (or_introl eq_refl)) as Z. lra.
    - destruct (T_children B xyz leb plo phi t objs RP SZ i l r Hu) as (_ & _ & Ql & Qr).
      assert (Bi : forall j, In j (below (Node i l r)) <-> In j (below l) \/ In j (below r)) by (intros j; unfold Sgfmm_tree.below; cbn [leaves]; rewrite flat_map_app, in_app_iff; reflexivity).
      destruct (IHl Ql) as (j & Hj & Ej); [intros j Hj; apply HM, Bi; auto|]. destruct (IHr Qr) as (j' & Hj' & Ej'); [intros x Hx; apply HM, Bi; auto|].
      cbn [hval]. unfold Rmax. destruct (Rle_dec (hval l) (hval r)); [exists j'|exists j]; (split; [apply Bi; auto|auto]).
  Qed.

  Lemma field_leaf_ok k : k <= off -> field_leaf B hmin field k = Ok (hval (Leaf k)).
  Proof.
    intros Hk. assert (HL : In k (leaves t)) by (rewrite (T_leaves B xyz leb plo phi t objs RP); apply in_seq; lia).
    unfold field_leaf. rewrite (rp_leaf _ _ _ _ _ _ _ RP k HL). cbn [rbind hval].
    rewrite (rfold_pure _ (fun j m => Rmax m (h_of field j))); [reflexivity|]. intros j m Hj.
    assert (j < length xyz). { apply (below_lt B xyz leb plo phi t objs RP (Leaf k)); [now apply leaf_sub|now rewrite leaf_below]. }
    unfold h_of. rewrite (aget_lt _ _ 0%R) by lia. reflexivity.
  Qed.

  Definition fcomb (g : nat) (a b : list R) : list R := match a, b with [x], [y] => [Rmax x y] | _, _ => [0%R] end.
  Notation Lc := (Lc B t).
  Notation Rc := (Rc B t).
  Lemma field_prog_eq g : g < off -> field_prog B g = uprog 1 Lc Rc fcomb g.
  Proof.
    intros Hg. destruct (T_node B xyz leb plo phi t objs RP g Hg) as (l & r & F & X). destruct (T_children B xyz leb plo phi t objs RP SZ _ _ _ X) as (A1 & A2 & _).
    unfold field_prog, uprog, Sgfmm_tree.Lc, Sgfmm_tree.Rc. rewrite F, A1, A2. cbn [rbind]. rewrite !Nat.mul_1_r. reflexivity.
  Qed.
  Notation settled := (usettled 1 total (fun id => height (fnode id)) (fun id => [hval (fnode id)])).
  Lemma field_loop_ok sched : (forall i, fair off 3 (sched i)) -> forall todo i k x, settled k x ->
    exists x', field_loop B sched i todo x = Ok x' /\ settled (k + todo) x'.
  Proof.
    intros HFr. induction todo as [|todo IH]; intros i k x HS; cbn [field_loop].
    - exists x. rewrite Nat.add_0_r. auto.
    - rewrite (map_ext_in _ (uprog 1 Lc Rc fcomb)) by (intros g Hg; apply in_seq in Hg; apply field_prog_eq; lia).
      destruct (HFr i) as (F1 & F2).
      destruct (upass 1 off total Lc Rc fcomb (fun id => height (fnode id)) (fun id => [hval (fnode id)])) with (k := k) (sched := sched i) (flags := @nil nat) (x := x) as (m' & E & S'); auto.
      + unfold total_cell_count; lia.
      + intros g Hg. destruct (T_node B xyz leb plo phi t objs RP g Hg) as (l & r & F & X). destruct (T_children B xyz leb plo phi t objs RP SZ _ _ _ X) as (A1 & A2 & A3 & A4). unfold Sgfmm_tree.Lc. rewrite F, (T_find B xyz leb plo phi t objs RP) by auto. split; [eapply T_total; eauto|]. cbn [height]. lia.
      + intros g Hg. destruct (T_node B xyz leb plo phi t objs RP g Hg) as (l & r & F & X). destruct (T_children B xyz leb plo phi t objs RP SZ _ _ _ X) as (A1 & A2 & A3 & A4). unfold Sgfmm_tree.Rc. rewrite F, (T_find B xyz leb plo phi t objs RP) by auto. split; [eapply T_total; eauto|]. cbn [height]. lia.
      + intros g Hg. destruct (T_node B xyz leb plo phi t objs RP g Hg) as (l & r & F & X). destruct (T_children B xyz leb plo phi t objs RP SZ _ _ _ X) as (A1 & A2 & A3 & A4). unfold fcomb, Sgfmm_tree.Lc, Sgfmm_tree.Rc. rewrite F. rewrite !(T_find B xyz leb plo phi t objs RP) by auto. reflexivity.
      + intros g a b. unfold fcomb. destruct a as [|? [|]], b as [|? [|]]; reflexivity.
      + intros id Hid. eapply T_leaf; eauto.
      + rewrite E. cbn [rbind]. destruct (IH (S i) (S k) (snd m') S') as (x' & E' & S2). exists x'. split; auto. now rewrite <- Nat.add_succ_comm.
  Qed.

  Definition field_done (x : list R) : Prop := length x = total /\ forall u, In u (subtrees t) -> nth_error x (nid u) = Some (hval u).
  Theorem max_field_ok depth env : height t <= depth -> Permutation (ne_leaf env) (seq 0 (b_leafs B)) -> (forall n, length (ne_field env n) = n) ->
    (forall i, fair off 3 (ne_up env i)) -> exists x, compute_tree_field_max_field B depth env hmin field = Ok x /\ field_done x.
  Proof.
    intros HD HO HN HU. unfold compute_tree_field_max_field, fill_field, kernel_call. pose proof (T_leafs B xyz leb plo phi t objs RP) as LE.
    replace (b_leafs B =? 0) with false by lia.
    destruct (par_at (field_leaf B hmin field) (fun k => hval (Leaf k)) (fun i => off + i)) with (order := ne_leaf env) (old := ne_field env total) as (x & E & L & P1 & _).
    - intros; lia.
    - eapply Permutation_NoDup; [symmetry; exact HO|apply seq_NoDup].
    - intros i Hi. apply (Permutation_in _ HO), in_seq in Hi. rewrite field_leaf_ok by lia. split; auto. rewrite HN. unfold total_cell_count. lia.
    - rewrite E. cbn [rbind]. rewrite HN in L.
      assert (S0 : settled 0 x).
      { split; [lia|]. intros id Hid Hh c Hc. destruct (T_find_ok B xyz leb plo phi t objs RP id Hid) as [X Y]. destruct (fnode id) as [k|i l r] eqn:F; [|cbn [height] in Hh; lia].
        pose proof (T_id B xyz leb plo phi t objs RP _ X) as Q. cbn [node_id] in Y; cbv beta iota in Q. replace (id * 1 + c) with (off + k) by lia. rewrite P1; [|apply (Permutation_in _ (Permutation_sym HO)), in_seq; lia].
        replace c with 0 by lia. reflexivity. }
      assert (FIN : forall x', settled depth x' -> field_done x').
      { intros x' (L' & A'). split; [lia|]. intros u Hu. pose proof (T_total B xyz leb plo phi t objs RP SZ u Hu) as TU. specialize (A' (nid u) TU).
        rewrite (T_find B xyz leb plo phi t objs RP) in A' by auto. pose proof (subtree_height _ _ Hu). specialize (A' ltac:(lia) 0 ltac:(lia)). rewrite Nat.mul_1_r, Nat.add_0_r in A'. exact A'. }
      destruct (Nat.eqb_spec off 0) as [Z|NZ].
      + exists x. split; auto. apply FIN. destruct S0 as (S1 & S2). split; auto. intros id Hid _. apply S2; auto. rewrite (T_leaf B xyz leb plo phi t objs RP); lia.
      + destruct (field_loop_ok (ne_up env) HU depth 0 0 x S0) as (x' & E' & S'). exists x'. split; auto.
  Qed.
  Theorem rint_ok depth env htol : height t <= depth -> Permutation (ne_leaf env) (seq 0 (b_leafs B)) -> (forall n, length (ne_field env n) = n) ->
    (forall i, fair off 3 (ne_up env i)) -> Permutation (ne_scale env) (seq 0 total) ->
    exists x, compute_presteps_rint B depth env hmin htol field = Ok x /\ length x = total /\ forall u, In u (subtrees t) -> nth_error x (nid u) = Some (hval u * htol)%R.
  Proof.
    intros HD HO HN HU HS. destruct (max_field_ok depth env HD HO HN HU) as (x & E & L & X). unfold compute_presteps_rint. rewrite E. cbn [rbind].
    unfold kernel_call. replace (length x =? 0) with false by (rewrite L; unfold total_cell_count; lia).
    rewrite (par_map (fun v => (v * htol)%R) _ total) by auto. eexists. split; [reflexivity|]. split; [now rewrite map_length|].
    intros u Hu. rewrite nth_error_map, X by auto. reflexivity.
  Qed.
End Field.
