(** The object cache and the walks. *)
Require Import Reals Lra.
From Verif Require Import Base Par Karras Karras_spec Traverse Traverse_spec Traverse_proofs Reduction Bitonic Bitonic_proofs Scan Scan_spec SortSearch BVH BVH_spec BVH_proofs BVH_prop P_Traverse Dtt Dtt_spec Dtt_segs Dtt_scan Dtt_sep Interleave Sgfmm Sgfmm_passes Sgfmm_util Sgfmm_tree Sgfmm_down Sgfmm_spec
  Ncache Ncache_spec.
From Coq Require Import ZifyBool ZifyNat.
Local Open Scope nat_scope.

Section Cache.
  Variables (segs : nat -> list nat) (n : nat) (scan : list Z -> nat -> res (list Z)) (o1 o2 : list nat) (jz : nat -> list Z) (jn : nat -> list nat)
    (count : nat -> res Z) (fill : list Z -> nat -> list nat -> res (list nat)).
  Hypothesis N0 : 0 < n.
  Hypothesis SC : scan_ok scan.
  Hypothesis O1 : Permutation o1 (seq 0 n).
  Hypothesis O2 : Permutation o2 (seq 0 n).
  Hypothesis JZ : forall k, length (jz k) = k.
  Hypothesis JN : forall k, length (jn k) = k.
  Hypothesis BD : (Z.of_nat (pos segs n) < 2 ^ 32)%Z.
  Hypothesis CO : forall i, i < n -> count i = Ok (Z.of_nat (length (segs i))).
  Hypothesis FI : forall sc i b, i < n -> aget sc i = Ok (Z.of_nat (pos segs i)) -> length b = pos segs n -> fill sc i b = Ok (writel (pos segs i) (segs i) b).
  Definition build : res ocache :=
    counts <- par_for o1 (fun i out => v <- count i ;; aset out i v) (jz n) ;;
    c <- prepare_object_cache scan jn counts n ;;
    neigh <- par_for o2 (fun i out => fill (oc_scan c) i out) (oc_map c) ;;
    Ok (mkoc (oc_cnt c) (oc_scan c) (oc_sum c) neigh).
  Theorem build_ok : exists c, build = Ok c /\ oc_sum c = Z.of_nat (pos segs n) /\ forall i, i < n -> for_each_object c i = Ok (segs i).
  Proof.
    unfold build. change (par_for o1 _ (jz n)) with (par_write count o1 (jz n)).
    rewrite (par_write_ok count (fun i => Z.of_nat (length (segs i))) o1 n) by auto. cbn [rbind].
    set (cn := map _ (seq 0 n)). assert (LC : length cn = n) by (unfold cn; now rewrite map_length, seq_length).
    assert (CN : forall j, j < n -> nth j cn 0%Z = Z.of_nat (length (segs j))).
    { intros j Hj. apply nth_error_nth. unfold cn. rewrite nth_error_map, nth_error_seq by lia. reflexivity. }
    assert (RD : forall i, i < n -> aget (excl_spec cn n) i = Ok (Z.of_nat (pos segs i))).
    { intros i Hi. rewrite <- (app_nil_r (excl_spec cn n)). apply (scan_read segs cn n); auto; lia. }
    assert (PS : pos segs n = pos segs (n - 1) + length (segs (n - 1))) by (rewrite <- pos_S; f_equal; lia).
    unfold prepare_object_cache. replace (n =? 0) with false by lia. rewrite (aget_lt cn (n - 1) 0%Z) by lia. rewrite CN by lia. cbn [rbind].
    rewrite SC by lia. cbn [rbind]. rewrite RD by lia. cbn [rbind].
    assert (SU : w32 (Z.of_nat (length (segs (n - 1))) + Z.of_nat (pos segs (n - 1))) = Z.of_nat (pos segs n)) by (rewrite w32_small; lia).
    rewrite SU, Nat2Z.id. cbn [oc_scan oc_map oc_cnt oc_sum].
    rewrite (segs_kernel segs n 0 (fun i out => fill (excl_spec cn n) i out) o2 (jn (pos segs n))); auto.
    - cbn [rbind firstn app]. eexists. split; [reflexivity|]. split; [reflexivity|]. intros i Hi. unfold for_each_object. cbn [oc_cnt oc_scan oc_map].
      rewrite (aget_lt cn i 0%Z), CN by lia. cbn [rbind]. rewrite RD by auto. cbn [rbind]. pose proof (pos_seg segs i n Hi) as PI.
      rewrite w32_small by lia. replace (Z.to_nat (Z.of_nat (pos segs i) + Z.of_nat (length (segs i))) - Z.to_nat (Z.of_nat (pos segs i))) with (length (segs i)) by lia. rewrite Nat2Z.id.
      assert (LF : length (flat_map segs (seq 0 n)) = pos segs n) by reflexivity.
      rewrite (BVH_proofs.gather_seq _ _ _) by lia. f_equal. apply list_eq_nth_error. intros x. rewrite nth_error_map.
      destruct (Nat.lt_ge_cases x (length (segs i))) as [L|G].
      + rewrite nth_error_seq by lia. cbn [option_map]. rewrite <- (nth_flat segs n i x) by auto. symmetry. apply nth_error_nth'. lia.
      + rewrite (proj2 (nth_error_None (seq _ _) x)) by (rewrite seq_length; lia). cbn [option_map]. symmetry. apply nth_error_None. lia.
    - intros i b Hi Lb. cbn [Nat.add] in *. rewrite (FI _ i b) by auto. reflexivity.
  Qed.
End Cache.

(** the leaves a walk finds, in order *)
Fixpoint hits (off : nat) (cond : nat -> bool) (t : tree) : list nat :=
  match t with
  | Leaf k => if cond (k + off) then [k] else []
  | Node i l r => if cond i then hits off cond l ++ hits off cond r else []
  end.
Lemma hits_incl off cond t : incl (hits off cond t) (leaves t).
Proof.
  induction t as [k|i l IHl r IHr]; cbn [hits leaves].
  - destruct (cond _); [apply incl_refl|intros x []].
  - destruct (cond i); [|intros x []]. apply incl_app; [now apply incl_appl|now apply incl_appr].
Qed.
Lemma hits_iff off cond t k : NoDup (leaves t) -> (In k (hits off cond t) <-> In k (leaves t) /\ forall u, In u (subtrees t) -> In k (leaves u) -> cond (node_id off u) = true).
Proof.
  induction t as [j|i l IHl r IHr]; intros ND; cbn [hits leaves subtrees].
  - split.
    + intros H. destruct (cond (j + off)) eqn:E; [|destruct H]. split; auto. intros u [<-|[]] _. exact E.
    + intros [[->|[]] H]. pose proof (H (Leaf k) (or_introl eq_refl) (or_introl eq_refl)) as X. cbn [node_id] in X. rewrite X. now left.
  - cbn [leaves] in ND. pose proof (NoDup_app_l _ _ ND) as NL. pose proof (NoDup_app_r _ _ ND) as NR. specialize (IHl NL). specialize (IHr NR).
    assert (SUB : forall u v x, In u (subtrees v) -> In x (leaves u) -> In x (leaves v)) by (intros; eapply leaves_sub; eauto).
    split.
    + intros H. destruct (cond i) eqn:E; [|destruct H]. apply in_app_or in H. destruct H as [H|H].
      * apply IHl in H. destruct H as [H1 H2]. split; [apply in_or_app; auto|]. intros u [<-|Hu] K; [exact E|]. apply in_app_or in Hu. destruct Hu as [Hu|Hu]; auto.
        exfalso. eapply NoDup_app_disj; [exact ND|exact H1|eauto].
      * apply IHr in H. destruct H as [H1 H2]. split; [apply in_or_app; auto|]. intros u [<-|Hu] K; [exact E|]. apply in_app_or in Hu. destruct Hu as [Hu|Hu]; auto.
        exfalso. eapply NoDup_app_disj; [exact ND|eauto|exact H1].
    + intros [H1 H2]. pose proof (H2 (Node i l r) (or_introl eq_refl) H1) as E. cbn [node_id] in E. rewrite E. apply in_or_app. apply in_app_or in H1. destruct H1 as [H1|H1]; [left; apply IHl|right; apply IHr]; split; auto; intros u Hu K; apply H2; auto; right; apply in_or_app; auto.
Qed.
Lemma hits_nd off cond t : NoDup (leaves t) -> NoDup (hits off cond t).
Proof.
  induction t as [j|i l IHl r IHr]; intros ND; cbn [hits leaves] in *.
  - destruct (cond _); [exact ND|constructor].
  - destruct (cond i); [|constructor]. assert (G : forall a b a' b' : list nat, NoDup (a ++ b) -> incl a' a -> incl b' b -> NoDup a' -> NoDup b' -> NoDup (a' ++ b')).
    { intros a b a' b' N Ia Ib Na Nb. induction a' as [|x a' IH]; auto. inversion Na; subst. cbn [app]. constructor; [|apply IH; auto; intros y Hy; apply Ia; now right].
      intros X. apply in_app_or in X. destruct X as [X|X]; auto. eapply NoDup_app_disj; [exact N|apply Ia; now left|auto]. }
    apply (G _ _ _ _ ND); auto using hits_incl. apply IHl. eapply NoDup_app_l; eauto. apply IHr. eapply NoDup_app_r; eauto.
Qed.

Section Walk.
  Context (B : @bvh R) (xyz : list (vec R)) (leb : R -> R -> bool) (plo phi : nat -> vec R) (t : tree) (objs : nat -> list nat).
  Hypothesis RP : represents leb plo phi (length xyz) B t objs.
  Hypothesis SZ : (Z.of_nat (b_leafs B) <= 2 ^ 24 + 1)%Z.
  Notation cells := (b_cells B).
  Notation off := (length (b_cells B)).
  Notation nid := (node_id (length (b_cells B))).
  Notation n := (length xyz).
  Variables (cond : nat -> vec R * vec R -> bool) (sd : nat) (garbage : list N).
  Hypothesis HS : S (height t) <= sd.
  Hypothesis HG : length garbage = sd.
  Notation nc := (node_cond B cond).
  Notation hit := (hits off nc t).

  Lemma walk_log : stack_based_traversal sd cells nc 0 garbage = Ok (map (event_of off nc) (frontier off nc t)).
  Proof.
    pose proof (T_small B xyz leb plo phi t objs RP SZ) as SM. change (2 ^ 24)%Z with 16777216%Z in SM. pose proof (T_leaves B xyz leb plo phi t objs RP) as TL.
    eapply (traversal_ok sd cells nc garbage t 0 _ 0); [exact (rp_reads _ _ _ _ _ _ _ RP)|symmetry; exact (root_id B xyz leb plo phi t objs RP SZ)| | | |exact HS|exact HG].
    - change (2 ^ 32)%Z with 4294967296%Z. lia.
    - split.
      + intros k Hk. rewrite TL in Hk. apply in_seq in Hk. change (2 ^ 32)%Z with 4294967296%Z. lia.
      + intros i Hi. apply (Permutation_in _ (rp_internals _ _ _ _ _ _ _ RP)), in_seq in Hi. lia.
    - rewrite (Permutation_length (rp_internals _ _ _ _ _ _ _ RP)), seq_length. lia.
  Qed.
  Lemma nd_leaves' : NoDup (leaves t).
  Proof. rewrite (rp_leaves _ _ _ _ _ _ _ RP). apply seq_NoDup. Qed.
  Lemma leaf_walk : leaf_rtree_for B sd cond garbage = Ok (map (fun k => k + off) hit).
  Proof.
    unfold leaf_rtree_for. rewrite walk_log. cbn [rbind].
    assert (BX : forall u, In u (subtrees t) -> box_at B (nid u) <> None) by (intros u Hu; destruct (rp_box _ _ _ _ _ _ _ RP u Hu) as (bx & -> & _); discriminate).
    assert (AP : forall a b ra rb, found_leafs B a = Ok ra -> found_leafs B b = Ok rb -> found_leafs B (a ++ b) = Ok (ra ++ rb)).
    { induction a as [|e a IH]; intros b ra rb Ha Hb; cbn [app found_leafs] in *; [injection Ha as <-; exact Hb|]. destruct (box_at B (event_id e)); [|discriminate].
      destruct (found_leafs B a) as [x| |]; cbn [rbind] in Ha; try discriminate. injection Ha as <-. rewrite (IH b x rb) by auto. cbn [rbind]. destruct e; reflexivity. }
    assert (G : forall u, incl (subtrees u) (subtrees t) -> found_leafs B (map (event_of off nc) (frontier off nc u)) = Ok (map (fun k => k + off) (hits off nc u))).
    { induction u as [k|i l IHl r IHr]; intros HI.
      - cbn [frontier map hits found_leafs]. unfold event_of. cbn [node_id]. pose proof (BX (Leaf k) (HI _ (or_introl eq_refl))) as X. cbn [node_id] in X.
        destruct (nc (k + off)); cbn [event_id]; (destruct (box_at B (k + off)); [|congruence]); reflexivity.
      - assert (Hl : incl (subtrees l) (subtrees t)) by (intros v Hv; apply HI; right; apply in_or_app; auto).
        assert (Hr : incl (subtrees r) (subtrees t)) by (intros v Hv; apply HI; right; apply in_or_app; auto).
        cbn [frontier hits]. destruct (nc i) eqn:E.
        + rewrite !map_app. apply AP; auto.
        + cbn [map found_leafs]. unfold event_of. cbn [node_id]. rewrite E. cbn [event_id]. pose proof (BX (Node i l r) (HI _ (or_introl eq_refl))) as X. cbn [node_id] in X.
          destruct (box_at B i); [reflexivity|congruence]. }
    apply G. apply incl_refl.
  Qed.
  Lemma obj_walk : rtree_for sd B cond garbage = Ok (flat_map objs hit).
  Proof.
    unfold rtree_for. rewrite walk_log. cbn [rbind].
    assert (BX : forall u, In u (subtrees t) -> box_at B (nid u) <> None) by (intros u Hu; destruct (rp_box _ _ _ _ _ _ _ RP u Hu) as (bx & -> & _); discriminate).
    assert (AP : forall a b ra rb, found_objects B a = Ok ra -> found_objects B b = Ok rb -> found_objects B (a ++ b) = Ok (ra ++ rb)).
    { induction a as [|e a IH]; intros b ra rb Ha Hb; cbn [app found_objects] in *; [injection Ha as <-; exact Hb|]. destruct (box_at B (event_id e)); [|discriminate].
      destruct (match e with Found id => _ | Excluded _ => _ end) as [y| |]; cbn [rbind] in *; try discriminate.
      destruct (found_objects B a) as [x| |]; cbn [rbind] in Ha; try discriminate. injection Ha as <-. rewrite (IH b x rb) by auto. cbn [rbind]. now rewrite app_assoc. }
    assert (G : forall u, In u (subtrees t) -> incl (subtrees u) (subtrees t) -> found_objects B (map (event_of off nc) (frontier off nc u)) = Ok (flat_map objs (hits off nc u))).
    { induction u as [k|i l IHl r IHr]; intros HU HI.
      - cbn [frontier map hits found_objects]. unfold event_of. cbn [node_id]. pose proof (BX (Leaf k) HU) as X. cbn [node_id] in X.
        destruct (nc (k + off)); cbn [event_id]; (destruct (box_at B (k + off)); [|congruence]); cbn [rbind flat_map]; [|reflexivity].
        replace (k + off - off) with k by lia. rewrite (rp_leaf _ _ _ _ _ _ _ RP k) by (eapply leaves_sub; [exact HU|now left]). reflexivity.
      - assert (Hl : incl (subtrees l) (subtrees t)) by (intros v Hv; apply HI; right; apply in_or_app; auto).
        assert (Hr : incl (subtrees r) (subtrees t)) by (intros v Hv; apply HI; right; apply in_or_app; auto).
        cbn [frontier hits]. destruct (nc i) eqn:E.
        + rewrite map_app, flat_map_app. apply AP; [apply IHl|apply IHr]; auto; [apply Hl|apply Hr]; apply self_sub.
        + cbn [map found_objects flat_map]. unfold event_of. cbn [node_id]. rewrite E. cbn [event_id]. pose proof (BX (Node i l r) HU) as X. cbn [node_id] in X.
          destruct (box_at B i); [reflexivity|congruence]. }
    apply G; [apply self_sub|apply incl_refl].
  Qed.
End Walk.
