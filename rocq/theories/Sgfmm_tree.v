(** The moments of the cells: the leaves, then the upward passes. *)
Require Import Reals Lra.
From Verif Require Import Fmm_tensors Fmm_ops Fmm_spec Fmm_orders Fmm_store Fmm_reps.
From Verif Require Import Base Par Karras Karras_spec Traverse Traverse_spec Reduction Scan SortSearch BVH BVH_spec BVH_prop P_Traverse Dtt Dtt_sep Interleave Sgfmm Sgfmm_passes Sgfmm_util.
From Coq Require Import ZifyBool ZifyNat.
Local Open Scope nat_scope.

(** every work item below n makes at least c accesses *)
Definition fair (n c : nat) (s : list nat) : Prop := Forall (fun g => g < n) s /\ forall g, g < n -> c <= count_occ Nat.eq_dec s g.

Lemma rfold_pure {A St} (body : A -> St -> res St) (f : A -> St -> St) l : (forall a s, In a l -> body a s = Ok (f a s)) ->
  forall s, rfold body l s = Ok (fold_left (fun s a => f a s) l s).
Proof.
  induction l as [|a l IH]; intros H s; [reflexivity|]. cbn [rfold fold_left]. rewrite H by (left; reflexivity). cbn [rbind]. apply IH. intros; apply H; now right.
Qed.
Lemma cell_fun K (x : list R) id v w : length v = K -> length w = K -> cell_is K x id v -> cell_is K x id w -> v = w.
Proof.
  intros Lv Lw Hv Hw. apply nth_ext with (d := 0%R) (d' := 0%R); [lia|]. intros c Hc. specialize (Hv c). specialize (Hw c).
  rewrite (nth_error_nth' v 0%R) in Hv by lia. rewrite (nth_error_nth' w 0%R) in Hw by lia. specialize (Hv ltac:(lia)). specialize (Hw ltac:(lia)). congruence.
Qed.

Section Tree.
  Context (o : mmorder) (B : @bvh R) (xyz : list (vec R)) (leb : R -> R -> bool) (plo phi : nat -> vec R) (t : tree) (objs : nat -> list nat).
  Hypothesis RP : represents leb plo phi (length xyz) B t objs.
  Hypothesis SZ : (Z.of_nat (b_leafs B) <= 2 ^ 24 + 1)%Z.
  Notation cells := (b_cells B).
  Notation off := (length (b_cells B)).
  Notation nid := (node_id (length (b_cells B))).
  Notation total := (total_cell_count B).
  Notation fnode := (find_node (b_cells B) t).

  Let lb0 : nat -> vec R * vec R := fun _ => ((0, 0, 0), (0, 0, 0))%R.
  Lemma T_leaves : leaves t = seq 0 (off + 1).
  Proof. rewrite (rp_leaves _ _ _ _ _ _ _ RP). now rewrite (rp_count _ _ _ _ _ _ _ RP). Qed.
  Lemma T_small : (Z.of_nat off <= 2 ^ 24)%Z.
  Proof. rewrite (rp_count _ _ _ _ _ _ _ RP) in SZ. change (2 ^ 24)%Z with 16777216%Z in *. lia. Qed.
  Lemma T_leafs : b_leafs B = off + 1.
  Proof. apply (rp_count _ _ _ _ _ _ _ RP). Qed.
  Lemma T_children i l r : In (Node i l r) (subtrees t) ->
    get_left_child cells off i = Ok (nid l) /\ get_right_child cells off i = Ok (nid r) /\ In l (subtrees t) /\ In r (subtrees t).
  Proof. apply (children lb0 cells t _ _ (rp_reads _ _ _ _ _ _ _ RP) T_leaves (rp_internals _ _ _ _ _ _ _ RP) T_small). Qed.
  Lemma T_id u : In u (subtrees t) -> match u with Leaf k => k <= off | Node i _ _ => i < off end.
  Proof. apply (sub_id lb0 cells t T_leaves (rp_internals _ _ _ _ _ _ _ RP)). Qed.
  Lemma T_total u : In u (subtrees t) -> nid u < total.
  Proof. apply (node_id_total lb0 cells t T_leaves (rp_internals _ _ _ _ _ _ _ RP) T_small). Qed.
  Lemma T_find u : In u (subtrees t) -> fnode (nid u) = u.
  Proof. apply (find_node_sub lb0 cells t _ _ (rp_reads _ _ _ _ _ _ _ RP) T_leaves (rp_internals _ _ _ _ _ _ _ RP)). Qed.
  Lemma T_find_ok id : id < total -> In (fnode id) (subtrees t) /\ nid (fnode id) = id.
  Proof. apply (find_node_ok lb0 cells t _ _ (rp_reads _ _ _ _ _ _ _ RP) T_leaves (rp_internals _ _ _ _ _ _ _ RP)). Qed.
  Lemma T_node g : g < off -> exists l r, fnode g = Node g l r /\ In (Node g l r) (subtrees t).
  Proof.
    intros Hg. destruct (T_find_ok g) as [X Y]; [unfold total_cell_count; lia|]. destruct (fnode g) as [k|i l r]; cbn [node_id] in Y; [lia|]. subst. eauto.
  Qed.
  Lemma T_leaf id : off <= id -> height (fnode id) = 0.
  Proof.
    intros Hid. unfold find_node. destruct (find _ (subtrees t)) as [v|] eqn:E; auto.
    apply find_some in E. destruct E as [Hv E]. pose proof (T_id _ Hv). destruct v; cbn [node_id] in E; auto. lia.
  Qed.

  (** geometry *)
  Definition ctr (u : tree) : vec3 :=
    match box_at B (nid u) with Some bx => v3div (v3add (tov (fst bx)) (tov (snd bx))) 2 | None => mkv 0 0 0 end.
  Lemma center_ok u : In u (subtrees t) -> center B (nid u) = Ok (ctr u).
  Proof.
    intros H. destruct (rp_box _ _ _ _ _ _ _ RP u H) as (bx & E & _). unfold ctr. rewrite E. unfold center. unfold box_at in E. unfold box_read, aget.
    destruct (nth_error (b_min B) (nid u)); [|discriminate]. cbn [rbind]. destruct (nth_error (b_max B) (nid u)); [|discriminate]. injection E as <-. reflexivity.
  Qed.
  Definition pnt (j : nat) : vec3 := tov (nth j xyz (0, 0, 0)%R).
  Definition below (u : tree) : list nat := flat_map objs (leaves u).
  Lemma below_lt u j : In u (subtrees t) -> In j (below u) -> j < length xyz.
  Proof.
    intros Hu Hj. apply in_flat_map in Hj. destruct Hj as (k & Hk & Hj).
    assert (In j (flat_map objs (leaves t))) by (apply in_flat_map; exists k; split; auto; eapply leaves_sub; eauto).
    apply (Permutation_in _ (rp_partition _ _ _ _ _ _ _ RP)) in H. apply in_seq in H. lia.
  Qed.
  Lemma leaf_below k : below (Leaf k) = objs k.
  Proof. unfold below. cbn. apply app_nil_r. Qed.
  Lemma aget_xyz j : j < length xyz -> aget xyz j = Ok (nth j xyz (0, 0, 0)%R).
  Proof. apply aget_lt. Qed.

  (** ** moments *)
  Variable gm : R.
  Fixpoint mval (u : tree) : MassMoments o :=
    match u with
    | Leaf k => mass_scale o (fold_left (fun Q j => mass_acc o Q (mass_from_vec o (v3sub (pnt j) (ctr (Leaf k))))) (objs k) (mass_zeros o)) gm
    | Node i l r => mass_acc o (mass_acc o (mass_zeros o) (offset_multipole o (mval l) (ctr l) (ctr (Node i l r)))) (offset_multipole o (mval r) (ctr r) (ctr (Node i l r)))
    end.
  Definition pts (u : tree) : list pmass := map (fun j => (gm, pnt j)) (below u).

  Lemma mval_ok u : mass_of o (mval u) (pts u) (ctr u).
  Proof.
    induction u as [k|i l IHl r IHr].
    - unfold pts. rewrite leaf_below. cbn [mval]. set (c := ctr (Leaf k)). clearbody c.
      assert (G : forall ids P Q, mass_of o Q P c -> mass_of o (fold_left (fun Q j => mass_acc o Q (mass_from_vec o (v3sub (pnt j) c))) ids Q) (P ++ map (fun j => (1%R, pnt j)) ids) c).
      { induction ids as [|j ids IH]; intros P Q H; cbn [fold_left map]; [now rewrite app_nil_r|].
        replace (P ++ (1%R, pnt j) :: map (fun j => (1%R, pnt j)) ids) with ((P ++ [(1%R, pnt j)]) ++ map (fun j => (1%R, pnt j)) ids) by (now rewrite <- app_assoc).
        apply IH. apply mass_of_acc; auto. apply mass_of_from_vec. }
      specialize (G (objs k) [] (mass_zeros o) (mass_of_zeros o c)). cbn [app] in G. apply (mass_of_scale o _ _ c gm) in G.
      rewrite map_map in G. cbn [fst snd] in G. rewrite (map_ext _ (fun j => (gm, pnt j))) in G; [exact G|]. intros j. now rewrite Rmult_1_l.
    - cbn [mval]. unfold pts, below. cbn [leaves]. rewrite flat_map_app, map_app.
      apply mass_of_acc; [|apply mass_of_offset; exact IHr]. change (map (fun j => (gm, pnt j)) (flat_map objs (leaves l))) with ([] ++ pts l).
      apply mass_of_acc; [apply mass_of_zeros|]. apply mass_of_offset. exact IHl.
  Qed.

  Lemma leaf_moment_ok k : k <= off -> leaf_moment o B xyz gm k = Ok (mval (Leaf k)).
  Proof.
    intros Hk. assert (HL : In k (leaves t)) by (rewrite T_leaves; apply in_seq; lia).
    pose proof (leaf_sub _ _ HL) as HS. unfold leaf_moment. change (k + off) with (nid (Leaf k)). rewrite center_ok by auto. cbn [rbind].
    rewrite (rp_leaf _ _ _ _ _ _ _ RP k HL). cbn [rbind]. 
    rewrite (rfold_pure _ (fun j Q => mass_acc o Q (mass_from_vec o (v3sub (pnt j) (ctr (Leaf k)))))); [reflexivity|].
    intros j Q Hj. rewrite aget_xyz; [reflexivity|]. apply (below_lt (Leaf k)); auto. now rewrite leaf_below.
  Qed.

  Definition mass_done (x : list R) : Prop := length x = total * mass_terms o /\ forall u, In u (subtrees t) -> cell_is (mass_terms o) x (nid u) (mass_out o (mval u)).

  Lemma fill_ok order buf : Permutation order (seq 0 (b_leafs B)) -> length buf = total * mass_terms o ->
    exists x, fill_moments o B xyz order gm buf = Ok x /\ length x = total * mass_terms o /\
      forall k, k <= off -> cell_is (mass_terms o) x (k + off) (mass_out o (mval (Leaf k))).
  Proof.
    intros HO LB. unfold fill_moments, kernel_call. rewrite T_leafs in *. replace (off + 1 =? 0) with false by lia. unfold par_for.
    assert (HI : forall i, In i order <-> i <= off) by (intros i; split; intros H; [apply (Permutation_in _ HO), in_seq in H; lia|apply (Permutation_in _ (Permutation_sym HO)), in_seq; lia]).
    destruct (par_cells (mass_terms o) (fun i => i + off) (fun i => mass_out o (mval (Leaf i))) (fun i => Q <- leaf_moment o B xyz gm i ;; Ok (mass_out o Q)) total order) with (buf := buf) as (x & E & L & A & _); auto.
    - apply (Permutation_NoDup (Permutation_sym HO)), seq_NoDup.
    - intros; lia.
    - intros i Hi. apply HI in Hi. split; [unfold total_cell_count; lia|]. rewrite leaf_moment_ok by auto. cbn [rbind]. split; auto. apply mass_out_len.
    - exists x. split; [|split; [lia|intros k Hk; apply A, HI; auto]]. rewrite <- E. clear. generalize buf. induction order as [|i l IH]; intros b; [reflexivity|]. cbn [rfold].
      destruct (leaf_moment o B xyz gm i); cbn [rbind]; auto. destruct (put _ _ _); cbn [rbind]; auto.
  Qed.

  Definition Lc (g : nat) : nat := match fnode g with Node _ l _ => nid l | Leaf _ => 0 end.
  Definition Rc (g : nat) : nat := match fnode g with Node _ _ r => nid r | Leaf _ => 0 end.
  Definition ucomb (g : nat) (a b : list R) : list R :=
    mass_out o (mass_acc o (mass_acc o (mass_zeros o) (offset_multipole o (mass_in o a) (ctr (fnode (Lc g))) (ctr (fnode g))))
                  (offset_multipole o (mass_in o b) (ctr (fnode (Rc g))) (ctr (fnode g)))).
  Lemma up_prog_eq g : g < off -> up_prog o B g = uprog (mass_terms o) Lc Rc ucomb g.
  Proof.
    intros Hg. destruct (T_node g Hg) as (l & r & F & X). destruct (T_children _ _ _ X) as (A1 & A2 & A3 & A4). unfold up_prog, uprog, ucomb, Lc, Rc. rewrite F, A1, A2. cbn [rbind].
    rewrite !center_ok by auto. cbn [rbind]. change (center B g) with (center B (nid (Node g l r))). rewrite center_ok by auto. cbn [rbind].
    rewrite !T_find by auto. reflexivity.
  Qed.

  Lemma up_loop_ok sched : (forall i, fair off (3 * mass_terms o) (sched i)) -> forall todo i k x, usettled (mass_terms o) total (fun id => height (fnode id)) (fun id => mass_out o (mval (fnode id))) k x ->
    0 < off -> exists x', up_loop o B sched i todo x = Ok x' /\ usettled (mass_terms o) total (fun id => height (fnode id)) (fun id => mass_out o (mval (fnode id))) (k + todo) x'.
  Proof.
    intros HF. induction todo as [|todo IH]; intros i k x HS H0; cbn [up_loop].
    - exists x. rewrite Nat.add_0_r. auto.
    - replace (off =? 0) with false by lia. rewrite (map_ext_in _ (uprog (mass_terms o) Lc Rc ucomb)) by (intros g Hg; apply in_seq in Hg; apply up_prog_eq; lia).
      destruct (HF i) as (F1 & F2).
      destruct (upass (mass_terms o) off total Lc Rc ucomb (fun id => height (fnode id)) (fun id => mass_out o (mval (fnode id)))) with (k := k) (sched := sched i) (flags := @nil nat) (x := x) as (m' & E & S'); auto.
      + unfold total_cell_count; lia.
      + intros g Hg. destruct (T_node g Hg) as (l & r & F & X). destruct (T_children _ _ _ X) as (A1 & A2 & A3 & A4). unfold Lc. rewrite F, T_find by auto. split; [now apply T_total|]. cbn [height]. lia.
      + intros g Hg. destruct (T_node g Hg) as (l & r & F & X). destruct (T_children _ _ _ X) as (A1 & A2 & A3 & A4). unfold Rc. rewrite F, T_find by auto. split; [now apply T_total|]. cbn [height]. lia.
      + intros g Hg. destruct (T_node g Hg) as (l & r & F & X). destruct (T_children _ _ _ X) as (A1 & A2 & A3 & A4). unfold ucomb, Lc, Rc. rewrite F. rewrite !T_find by auto. rewrite !mass_in_out. reflexivity.
      + intros. apply mass_out_len.
      + intros. apply mass_out_len.
      + apply T_leaf.
      + rewrite E. cbn [rbind]. destruct (IH (S i) (S k) (snd m') S' H0) as (x' & E' & S2). exists x'. split; auto. now rewrite <- Nat.add_succ_comm.
  Qed.

  Theorem moments_ok depth env : height t <= depth -> Permutation (se_leaf env) (seq 0 (b_leafs B)) ->
    (forall n, length (se_mass env n) = n) -> (forall i, fair off (3 * mass_terms o) (se_up env i)) ->
    exists x, compute_tree_mass_moments o B xyz depth env gm = Ok x /\ mass_done x.
  Proof.
    intros HD HO HM HF. unfold compute_tree_mass_moments. destruct (fill_ok (se_leaf env) (se_mass env (total * mass_terms o))) as (x & E & L & A); auto.
    rewrite E. cbn [rbind].
    assert (S0 : usettled (mass_terms o) total (fun id => height (fnode id)) (fun id => mass_out o (mval (fnode id))) 0 x).
    { split; auto. intros id Hid Hh. destruct (T_find_ok id Hid) as [X Y]. destruct (fnode id) as [k|i l r]; [|cbn [height] in Hh; lia].
      rewrite <- Y. cbn [node_id]. apply A. apply (T_id _ X). }
    assert (FIN : forall x', usettled (mass_terms o) total (fun id => height (fnode id)) (fun id => mass_out o (mval (fnode id))) depth x' -> mass_done x').
    { intros x' (L' & A'). split; auto. intros u Hu. rewrite <- (T_find u Hu) at 2. apply A'; [now apply T_total|]. rewrite T_find by auto. pose proof (subtree_height _ _ Hu). lia. }
    destruct (Nat.eqb_spec off 0) as [Z|NZ].
    - exists x. split; auto. apply FIN. destruct S0 as (S1 & S2). split; auto. intros id Hid _. apply S2; auto. rewrite T_leaf; lia.
    - destruct (up_loop_ok (se_up env) HF depth 0 0 x S0) as (x' & E' & S'); [lia|]. exists x'. split; auto.
  Qed.
End Tree.
