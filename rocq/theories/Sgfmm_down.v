(** The local expansions: interactions between cells, then the downward passes. *)
Require Import Reals Lra.
From Verif Require Import Fmm_tensors Fmm_ops Fmm_spec Fmm_orders Fmm_store Fmm_reps.
From Verif Require Import Base Par Karras Karras_spec Traverse Traverse_spec Reduction Scan SortSearch BVH BVH_spec BVH_prop P_Traverse Dtt Dtt_spec Dtt_sep Interleave Sgfmm Sgfmm_passes Sgfmm_util Sgfmm_tree.
From Coq Require Import ZifyBool ZifyNat.
Local Open Scope nat_scope.

Lemma NoDup_app_l {A} (a b : list A) : NoDup (a ++ b) -> NoDup a.
Proof. induction a as [|x a IH]; intros H; [constructor|]. cbn in H. inversion H; subst. constructor; auto. intros X. apply H2, in_or_app. auto. Qed.
Lemma NoDup_app_disj {A} (a b : list A) : NoDup (a ++ b) -> forall x, In x a -> In x b -> False.
Proof.
  induction a as [|y a IH]; intros H x Ha Hb; [destruct Ha|]. cbn in H. inversion H; subst. destruct Ha as [->|Ha]; [apply H2, in_or_app; auto|eapply IH; eauto].
Qed.
Lemma NoDup_app_r {A} (a b : list A) : NoDup (a ++ b) -> NoDup b.
Proof. induction a as [|x a IH]; intros H; auto. cbn in H. inversion H; subst. auto. Qed.
Lemma NoDup_flat {A B} (f : A -> list B) l : NoDup (flat_map f l) ->
  (forall a, In a l -> NoDup (f a)) /\ (forall a b x, In a l -> In b l -> a <> b -> In x (f a) -> In x (f b) -> False).
Proof.
  induction l as [|c l IH]; intros H; [split; intros; contradiction|]. cbn [flat_map] in H. destruct (IH (NoDup_app_r _ _ H)) as [I1 I2]. pose proof (NoDup_app_disj _ _ H) as D.
  split.
  - intros a [<-|Ha]; [eapply NoDup_app_l; eauto|auto].
  - intros a b x Ha Hb NE Hxa Hxb. destruct Ha as [<-|Ha], Hb as [<-|Hb].
    + congruence.
    + apply (D x); auto. apply in_flat_map; eauto.
    + apply (D x); auto. apply in_flat_map; eauto.
    + eapply I2; eauto.
Qed.

Definition kids (u : tree) : list tree := match u with Node _ l r => [l; r] | Leaf _ => [] end.
Lemma subtrees_kids u : Permutation (subtrees u) (u :: flat_map kids (subtrees u)).
Proof.
  induction u as [k|i l IHl r IHr]; [constructor; constructor|]. cbn [subtrees]. constructor. cbn [flat_map kids app]. rewrite flat_map_app.
  etransitivity; [apply Permutation_app; [exact IHl|exact IHr]|]. cbn [app]. apply perm_skip. symmetry. apply Permutation_middle.
Qed.

Section Down.
  Context (o : mmorder) (B : @bvh R) (xyz : list (vec R)) (leb : R -> R -> bool) (plo phi : nat -> vec R) (t : tree) (objs : nat -> list nat).
  Hypothesis RP : represents leb plo phi (length xyz) B t objs.
  Hypothesis SZ : (Z.of_nat (b_leafs B) <= 2 ^ 24 + 1)%Z.
  Notation cells := (b_cells B).
  Notation off := (length (b_cells B)).
  Notation nid := (node_id (length (b_cells B))).
  Notation total := (total_cell_count B).
  Notation fnode := (find_node (b_cells B) t).
  Notation ctr := (ctr B).
  Notation Lc := (Lc B t).
  Notation Rc := (Rc B t).
  Let TN := T_node B xyz leb plo phi t objs RP.
  Let TC := T_children B xyz leb plo phi t objs RP SZ.
  Let TF := T_find B xyz leb plo phi t objs RP.
  Let TFO := T_find_ok B xyz leb plo phi t objs RP.
  Let TT := T_total B xyz leb plo phi t objs RP SZ.

  Lemma ids_gen u : Permutation (map nid (subtrees u)) (map (fun k => k + off) (leaves u) ++ internals u).
  Proof.
    induction u as [k|i l IHl r IHr]; [reflexivity|]. cbn [subtrees map leaves internals]. rewrite map_app.
    transitivity (i :: (map (fun k => k + off) (leaves l) ++ internals l) ++ (map (fun k => k + off) (leaves r) ++ internals r)).
    - constructor. now apply Permutation_app.
    - rewrite map_app. rewrite <- Permutation_middle. apply perm_skip. rewrite <- !app_assoc. apply Permutation_app_head.
      rewrite !app_assoc. apply Permutation_app_tail. apply Permutation_app_comm.
  Qed.
  Lemma ids_perm : Permutation (map nid (subtrees t)) (seq 0 total).
  Proof.
    rewrite ids_gen, (T_leaves B xyz leb plo phi t objs RP), (rp_internals _ _ _ _ _ _ _ RP), Permutation_app_comm. unfold total_cell_count.
    rewrite (seq_app off (off + 1) 0). apply Permutation_app_head. cbn [Nat.add].
    replace (map (fun k => k + off) (seq 0 (off + 1))) with (seq off (off + 1)); [reflexivity|].
    generalize (off + 1) as n. generalize off as a. intros a n. rewrite <- (Nat.add_0_l a) at 1. generalize 0 as s. induction n as [|n IH]; intros s; [reflexivity|]. cbn [seq map]. now rewrite <- IH.
  Qed.
  Lemma sub_ND : NoDup (subtrees t).
  Proof. apply (NoDup_map_inv nid). apply (Permutation_NoDup (Permutation_sym ids_perm)), seq_NoDup. Qed.
  (** sums over the cells *)
  Lemma Rsum_cells (f : nat -> R) : Rsum f (seq 0 total) = Rsum (fun u => f (nid u)) (subtrees t).
  Proof. rewrite <- (Rsum_perm _ _ _ _ ids_perm). apply Rsum_map. Qed.
  Lemma root_id : nid t = 0.
  Proof.
    pose proof (rp_reads _ _ _ _ _ _ _ RP) as X. destruct (Nat.eqb_spec off 0) as [E|NE]; inversion X; subst; cbn [node_id]; auto.
  Qed.

  Lemma kids_nd : NoDup (0 :: map nid (flat_map kids (subtrees t))).
  Proof. rewrite <- root_id. change (NoDup (map nid (t :: flat_map kids (subtrees t)))). eapply Permutation_NoDup; [apply Permutation_map, subtrees_kids|]. apply (Permutation_NoDup (Permutation_sym ids_perm)), seq_NoDup. Qed.
  Lemma kids_nd' : NoDup (0 :: flat_map (fun id => map nid (kids (fnode id))) (seq 0 total)).
  Proof.
    eapply Permutation_NoDup; [|exact kids_nd]. constructor. rewrite <- ids_perm.
    assert (G : forall l, (forall u, In u l -> In u (subtrees t)) -> map nid (flat_map kids l) = flat_map (fun id => map nid (kids (fnode id))) (map nid l)).
    { induction l as [|u l IH]; intros H; [reflexivity|]. cbn [map flat_map]. rewrite map_app, IH by (intros; apply H; simpl; auto). now rewrite TF by (apply H; simpl; auto). }
    rewrite G by auto. reflexivity.
  Qed.
  Lemma kids_of g : g < off -> map nid (kids (fnode g)) = [Lc g; Rc g].
  Proof. intros Hg. destruct (TN g Hg) as (l & r & F & X). unfold Sgfmm_tree.Lc, Sgfmm_tree.Rc. now rewrite F. Qed.
  Lemma kids_ne g : g < off -> Lc g <> Rc g /\ Lc g <> 0 /\ Rc g <> 0.
  Proof.
    intros Hg. pose proof kids_nd' as H. inversion H as [|? ? N0 N1]; subst. destruct (NoDup_flat _ _ N1) as [A _].
    assert (Hin : In g (seq 0 total)) by (apply in_seq; unfold total_cell_count; lia). specialize (A g Hin). rewrite kids_of in A by auto. inversion A as [|? ? A1 _]; subst.
    split; [intros E; apply A1; simpl; auto|].
    split; intros E; apply N0; apply in_flat_map; exists g; split; auto; rewrite kids_of by auto; simpl; auto.
  Qed.
  Lemma kids_dis g h : g < off -> h < off -> g <> h -> Lc g <> Lc h /\ Lc g <> Rc h /\ Rc g <> Lc h /\ Rc g <> Rc h.
  Proof.
    intros Hg Hh NE. pose proof kids_nd' as H. inversion H as [|? ? N0 N1]; subst. destruct (NoDup_flat _ _ N1) as [_ A].
    assert (D : forall x y, In x [Lc g; Rc g] -> In y [Lc h; Rc h] -> x <> y).
    { intros x y Hx Hy ->. rewrite <- kids_of in Hx, Hy by auto. apply (A g h y); auto; apply in_seq; unfold total_cell_count; lia. }
    repeat split; apply D; simpl; auto.
  Qed.
  Lemma kids_all id : id < total -> id = 0 \/ exists g, g < off /\ (id = Lc g \/ id = Rc g).
  Proof.
    intros Hid. destruct (TFO id Hid) as [X Y]. apply (Permutation_in _ (subtrees_kids t)) in X. destruct X as [X|X]; [left; now rewrite <- Y, <- X, root_id|right].
    apply in_flat_map in X. destruct X as (u & Hu & X). destruct u as [k|g l r]; [destruct X|]. exists g.
    pose proof (T_id B xyz leb plo phi t objs RP _ Hu) as Hg. cbn in Hg. split; auto. unfold Sgfmm_tree.Lc, Sgfmm_tree.Rc. pose proof (TF _ Hu) as F. cbn [node_id] in F. rewrite F. rewrite <- Y.
    destruct X as [X|[X|[]]]; rewrite <- X; auto.
  Qed.

  (** ** downward passes *)
  Variable ini : nat -> GravMoments o.
  Fixpoint fin (u : tree) (d : nat) (v : GravMoments o) : list (tree * (nat * GravMoments o)) :=
    (u, (d, v)) ::
    match u with
    | Leaf _ => []
    | Node _ l r => fin l (S d) (grav_acc o (ini (nid l)) (offset_dM_mat o v (ctr u) (ctr l))) ++
                    fin r (S d) (grav_acc o (ini (nid r)) (offset_dM_mat o v (ctr u) (ctr r)))
    end.
  Lemma fin_fst u : forall d v, map fst (fin u d v) = subtrees u.
  Proof. induction u as [k|i l IHl r IHr]; intros d v; [reflexivity|]. cbn [fin map fst subtrees]. now rewrite map_app, IHl, IHr. Qed.
  Lemma fin_self u d v : In (u, (d, v)) (fin u d v).
  Proof. destruct u; cbn [fin]; left; reflexivity. Qed.
  Lemma fin_child u : forall d v i l r d' v', In (Node i l r, (d', v')) (fin u d v) ->
    In (l, (S d', grav_acc o (ini (nid l)) (offset_dM_mat o v' (ctr (Node i l r)) (ctr l)))) (fin u d v) /\
    In (r, (S d', grav_acc o (ini (nid r)) (offset_dM_mat o v' (ctr (Node i l r)) (ctr r)))) (fin u d v).
  Proof.
    induction u as [k|j a IHa b IHb]; intros d v i l r d' v' H; cbn [fin] in H.
    - destruct H as [H|[]]. discriminate.
    - destruct H as [H|H].
      + injection H as -> -> -> -> ->. cbn [fin]. split; right; apply in_or_app; [left|right]; apply fin_self.
      + apply in_app_or in H. destruct H as [H|H]; [destruct (IHa _ _ _ _ _ _ _ H)|destruct (IHb _ _ _ _ _ _ _ H)]; cbn [fin]; split; right; apply in_or_app; auto.
  Qed.
  Lemma fin_depth u : forall d v u' d' v', In (u', (d', v')) (fin u d v) -> d' <= d + height u.
  Proof.
    induction u as [k|j a IHa b IHb]; intros d v u' d' v' H; cbn [fin] in H; (destruct H as [H|H]; [injection H as <- <- <-; lia|]).
    - destruct H.
    - cbn [height]. apply in_app_or in H. destruct H as [H|H]; [apply IHa in H|apply IHb in H]; lia.
  Qed.
  Notation FIN := (fin t 0 (ini (nid t))).
  Definition ent (id : nat) : tree * (nat * GravMoments o) :=
    match find (fun e => nid (fst e) =? id) FIN with Some e => e | None => (Leaf 0, (0, grav_zeros o)) end.
  Lemma ent_in e : In e FIN -> ent (nid (fst e)) = e.
  Proof.
    intros H. unfold ent. destruct (find _ FIN) as [e'|] eqn:E.
    - apply find_some in E. destruct E as [H' E]. apply Nat.eqb_eq in E.
      assert (S1 : In (fst e) (subtrees t)) by (rewrite <- (fin_fst t 0 (ini (nid t))); now apply in_map).
      assert (S2 : In (fst e') (subtrees t)) by (rewrite <- (fin_fst t 0 (ini (nid t))); now apply in_map).
      assert (EF : fst e' = fst e) by (rewrite <- (TF _ S1), <- (TF _ S2); now f_equal).
      assert (ND : NoDup (map fst FIN)) by (rewrite fin_fst; apply sub_ND). clear - ND H H' EF.
      induction FIN as [|a l IH]; [destruct H|]. cbn [map] in ND. inversion ND; subst. destruct H as [->|H], H' as [->|H']; auto.
      + exfalso. apply H2. rewrite <- EF. now apply in_map.
      + exfalso. apply H2. rewrite EF. now apply in_map.
    - exfalso. pose proof (find_none _ _ E e H) as X. cbn in X. rewrite Nat.eqb_refl in X. discriminate.
  Qed.
  Lemma ent_ok id : id < total -> In (ent id) FIN /\ fst (ent id) = fnode id.
  Proof.
    intros Hid. destruct (TFO id Hid) as [X Y]. rewrite <- (fin_fst t 0 (ini (nid t))) in X. apply in_map_iff in X. destruct X as (e & E & He).
    assert (EE : ent id = e) by (rewrite <- Y, <- E; apply (ent_in e He)). rewrite EE. auto.
  Qed.
  Definition fval (id : nat) : GravMoments o := snd (snd (ent id)).
  Definition dep (id : nat) : nat := fst (snd (ent id)).
  Lemma ent_root : ent 0 = (t, (0, ini 0)).
  Proof. pose proof (ent_in (t, (0, ini (nid t))) (fin_self _ _ _)) as E. cbn [fst] in E. rewrite root_id in E at 1. rewrite E. now rewrite root_id. Qed.
  Lemma ent_child g : g < off ->
    ent (Lc g) = (fnode (Lc g), (S (dep g), grav_acc o (ini (Lc g)) (offset_dM_mat o (fval g) (ctr (fnode g)) (ctr (fnode (Lc g)))))) /\
    ent (Rc g) = (fnode (Rc g), (S (dep g), grav_acc o (ini (Rc g)) (offset_dM_mat o (fval g) (ctr (fnode g)) (ctr (fnode (Rc g)))))).
  Proof.
    intros Hg. destruct (TN g Hg) as (l & r & F & X). destruct (TC _ _ _ X) as (_ & _ & A3 & A4).
    destruct (ent_ok g) as [E1 E2]; [unfold total_cell_count; lia|]. unfold dep, fval, Sgfmm_tree.Lc, Sgfmm_tree.Rc. rewrite F in *.
    destruct (ent g) as [u (d, v)]. cbn [fst snd] in *. subst u. destruct (fin_child _ _ _ _ _ _ _ _ E1) as [C1 C2].
    apply ent_in in C1, C2. cbn [fst] in C1, C2. rewrite C1, C2. rewrite !TF by auto. split; reflexivity.
  Qed.

  Definition updL (g : nat) (my ml : list R) : list R := grav_out o (grav_acc o (grav_in o ml) (offset_dM_mat o (grav_in o my) (ctr (fnode g)) (ctr (fnode (Lc g))))).
  Definition updR (g : nat) (my mr : list R) : list R := grav_out o (grav_acc o (grav_in o mr) (offset_dM_mat o (grav_in o my) (ctr (fnode g)) (ctr (fnode (Rc g))))).
  Notation K := (grav_terms o).
  Lemma down_prog_eq g : g < off -> down_prog o B g = dprog K Lc Rc updL updR g.
  Proof.
    intros Hg. destruct (TN g Hg) as (l & r & F & X). destruct (TC _ _ _ X) as (A1 & A2 & A3 & A4). pose proof (center_ok B xyz leb plo phi t objs RP) as CO.
    unfold down_prog, dprog, updL, updR, Sgfmm_tree.Lc, Sgfmm_tree.Rc. rewrite F, A1, A2. cbn [rbind].
    change (center B g) with (center B (nid (Node g l r))). rewrite !CO by auto. cbn [rbind].
    rewrite !TF by auto. reflexivity.
  Qed.
  Let vals (id : nat) : list R := grav_out o (fval id).
  Let inis (id : nat) : list R := grav_out o (ini id).
  Notation settled := (dsettled K off total Lc Rc dep inis vals).
  Lemma down_loop_ok sched : 0 < off -> (forall i, fair off (5 * K + 5) (sched i)) -> forall todo i k m, settled k m ->
    exists m', down_loop o B sched i todo m = Ok m' /\ settled (k + todo) m'.
  Proof.
    intros H0 HF. induction todo as [|todo IH]; intros i k m HS; cbn [down_loop].
    - exists m. rewrite Nat.add_0_r. auto.
    - replace (off =? 0) with false by lia. rewrite (map_ext_in _ (dprog K Lc Rc updL updR)) by (intros g Hg; apply in_seq in Hg; apply down_prog_eq; lia).
      destruct (HF i) as (F1 & F2).
      destruct (dpass K off total Lc Rc updL updR dep inis vals) with (k := k) (sched := sched i) (m := m) as (m' & E & S'); auto.
      + unfold total_cell_count; lia.
      + intros g Hg. destruct (TN g Hg) as (l & r & F & X). destruct (TC _ _ _ X) as (A1 & A2 & A3 & A4). split; [unfold Sgfmm_tree.Lc; rewrite F; now apply TT|].
        unfold dep at 1. rewrite (proj1 (ent_child g Hg)). reflexivity.
      + intros g Hg. destruct (TN g Hg) as (l & r & F & X). destruct (TC _ _ _ X) as (A1 & A2 & A3 & A4). split; [unfold Sgfmm_tree.Rc; rewrite F; now apply TT|].
        unfold dep at 1. rewrite (proj2 (ent_child g Hg)). reflexivity.
      + intros g Hg. apply (kids_ne g Hg).
      + apply kids_dis.
      + intros g Hg. unfold vals, inis, updL. rewrite !grav_in_out. unfold fval at 1. now rewrite (proj1 (ent_child g Hg)).
      + intros g Hg. unfold vals, inis, updR. rewrite !grav_in_out. unfold fval at 1. now rewrite (proj2 (ent_child g Hg)).
      + intros. apply grav_out_len.
      + intros. apply grav_out_len.
      + unfold dep. now rewrite ent_root.
      + intros. apply grav_out_len.
      + intros. apply grav_out_len.
      + apply kids_all.
      + rewrite E. cbn [rbind]. destruct (IH (S i) (S k) m' S') as (m2 & E2 & S2). exists m2. split; auto. now rewrite <- Nat.add_succ_comm.
  Qed.

  Theorem l2l_ok depth sched grav : 0 < off -> height t <= depth -> (forall i, fair off (5 * K + 5) (sched i)) ->
    length grav = total * K -> (forall id, id < total -> cell_is K grav id (grav_out o (ini id))) ->
    exists g', l2l o B depth sched grav = Ok g' /\ length g' = total * K /\ forall id, id < total -> cell_is K g' id (grav_out o (fval id)).
  Proof.
    intros H0 HD HF LG HG. unfold l2l. assert (Htot : 0 < total) by (unfold total_cell_count; lia). rewrite aset_lt by (now rewrite repeat_length). cbn [rbind].
    set (m0 := (upd (repeat 0 total) 0 1, grav) : mem R).
    assert (FL : forall id, id < total -> flag m0 id (if id =? 0 then 1 else 0)).
    { intros id Hid. unfold flag, m0. cbn [fst]. destruct (Nat.eqb_spec id 0) as [->|NE]; [apply nth_error_upd_eq; now rewrite repeat_length|].
      rewrite nth_error_upd_neq by auto. now rewrite nth_error_repeat. }
    assert (S0 : settled 0 m0).
    { split; [|split].
      - split; [cbn; now rewrite length_upd, repeat_length|]. split; [exact LG|]. split; [apply (FL 0); auto|]. intros id Hid. pose proof (FL id Hid) as F.
        destruct (Nat.eqb_spec id 0) as [->|NE].
        + split; auto. intros _. unfold vals, fval. rewrite ent_root. cbn [snd]. apply HG; auto.
        + split; auto. intros F'. unfold flag in *. congruence.
      - intros g Hg. destruct (kids_ne g Hg) as (N1 & N2 & N3). destruct (TN g Hg) as (l & r & F & X). destruct (TC _ _ _ X) as (A1 & A2 & A3 & A4).
        assert (T1 : Lc g < total) by (unfold Sgfmm_tree.Lc; rewrite F; now apply TT). assert (T2 : Rc g < total) by (unfold Sgfmm_tree.Rc; rewrite F; now apply TT).
        right. pose proof (FL _ T1) as F1. pose proof (FL _ T2) as F2. replace (Lc g =? 0) with false in F1 by lia. replace (Rc g =? 0) with false in F2 by lia.
        split; auto. split; auto. split; apply HG; auto.
      - intros id Hid Hd. destruct (kids_all id Hid) as [->|(g & Hg & E)]; [apply (FL 0); auto|]. exfalso. destruct (ent_child g Hg) as [E1 E2]. unfold dep in Hd.
        destruct E as [->| ->]; [rewrite E1 in Hd|rewrite E2 in Hd]; cbn [fst snd] in Hd; lia. }
    destruct (down_loop_ok sched H0 HF depth 0 0 m0 S0) as (m' & E & S'). change (upd (repeat 0 total) 0 1, grav) with m0. rewrite E. cbn [rbind]. exists (snd m'). split; auto.
    destruct S' as (I' & _ & F'). destruct I' as (_ & L' & _ & V'). split; auto. intros id Hid. apply (proj2 (V' id Hid)). apply F'; auto.
    destruct (ent_ok id Hid) as [E1 _]. unfold dep. destruct (ent id) as [u [d v]]. cbn [fst snd]. apply fin_depth in E1. lia.
  Qed.
End Down.
