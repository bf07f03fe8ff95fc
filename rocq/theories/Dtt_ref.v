(** The tree read through the buffers of the BVH, and the recursive implementation. *)
From Verif Require Import Base Par Karras Karras_spec Traverse Traverse_spec Traverse_proofs Reduction Scan SortSearch BVH BVH_spec Dtt Dtt_tree.
From Coq Require Import ZifyBool ZifyNat.
Local Open Scope nat_scope.

Lemma height_internals t : height t <= length (internals t).
Proof. induction t; cbn [height internals length]; [lia|]. rewrite app_length. lia. Qed.

Section Link.
  Context {C : Type} (leb : C -> C -> bool) (mac : vec C * vec C -> vec C * vec C -> bool) (B : @bvh C) (t0 : tree).
  Notation cells := (b_cells B).
  Notation off := (length (b_cells B)).
  Notation nid := (node_id (length (b_cells B))).
  Definition idp (p : tpair) : ipair := (nid (fst p), nid (snd p)).
  Definition macT (t u : tree) : bool :=
    match box_at B (nid t), box_at B (nid u) with Some a, Some b => mac a b | _, _ => false end.
  Definition m2l_of (L : list ev) : list ipair := map (fun e => idp (snd e)) (filter (fun e => negb (fst e)) L).
  Definition p2p_of (L : list ev) : list ipair := map (fun e => idp (snd e)) (filter fst L).
  Definition sub2 (p : tpair) : Prop := In (fst p) (subtrees t0) /\ In (snd p) (subtrees t0).

  (** what the link needs of the BVH *)
  Record linked : Prop := {
    lk_reads : reads cells (off =? 0) 0 t0;
    lk_off : (Z.of_nat off < 2 ^ 31)%Z;
    lk_small : small off t0;
    lk_internals : length (internals t0) = off;
    lk_nd_int : NoDup (internals t0);
    lk_nd_leaf : NoDup (leaves t0);
    lk_bound : forall u, In u (subtrees t0) -> nid u < total_cell_count B;
    lk_box : forall u, In u (subtrees t0) -> exists bx, box_at B (nid u) = Some bx }.
  Hypothesis LK : linked.

  Lemma small_sub u t : small off t -> In u (subtrees t) -> small off u.
  Proof.
    revert u. induction t as [k|i l IHl r IHr]; intros u SM H.
    - simpl in H. destruct H as [<-|[]]. auto.
    - cbn [subtrees] in H. destruct H as [<-|H]; auto. destruct SM as [A Bq]. apply in_app_or in H. destruct H as [H|H].
      + apply IHl; auto. split; intros; [apply A|apply Bq]; cbn [leaves internals]; [apply in_or_app|right; apply in_or_app]; auto.
      + apply IHr; auto. split; intros; [apply A|apply Bq]; cbn [leaves internals]; [apply in_or_app|right; apply in_or_app]; auto.
  Qed.
  Lemma reads_sub' u : In u (subtrees t0) -> exists b id, reads cells b id u.
  Proof.
    assert (G : forall t b id, reads cells b id t -> In u (subtrees t) -> exists b id, reads cells b id u).
    { induction t as [k|i l IHl r IHr]; intros b id R H.
      - simpl in H. destruct H as [<-|[]]. eauto.
      - cbn [subtrees] in H. destruct H as [<-|H]; [eauto|]. destruct (reads_node_inv _ _ _ _ _ _ R) as (c & _ & _ & _ & Rl & Rr).
        apply in_app_or in H. destruct H; eauto. }
    intros H. eapply G; eauto. apply (lk_reads LK).
  Qed.
  Lemma off32 : (Z.of_nat off < 2 ^ 32)%Z.
  Proof. pose proof (lk_off LK) as H. change (2 ^ 31)%Z with 2147483648%Z in H. change (2 ^ 32)%Z with 4294967296%Z. lia. Qed.
  Lemma sub_small' u : In u (subtrees t0) -> small off u.
  Proof. intros. eapply small_sub; eauto. apply (lk_small LK). Qed.
  Lemma leaf_ok u : In u (subtrees t0) -> is_id_leaf off (nid u) = leafb u.
  Proof.
    intros H. destruct (sub_small' u H) as [_ S2]. unfold is_id_leaf. destruct u as [k|i l r]; cbn [node_id leafb]; [lia|].
    specialize (S2 i (or_introl eq_refl)). lia.
  Qed.
  Lemma child_ids i l r : In (Node i l r) (subtrees t0) ->
    get_left_child cells off i = Ok (nid l) /\ get_right_child cells off i = Ok (nid r) /\ In l (subtrees t0) /\ In r (subtrees t0).
  Proof.
    intros H. assert (Hl : In l (subtrees t0)) by (eapply sub_trans; [apply sub_l|exact H]).
    assert (Hr : In r (subtrees t0)) by (eapply sub_trans; [apply sub_r|exact H]).
    destruct (reads_sub' _ H) as (b & id & R). destruct (reads_node_inv _ _ _ _ _ _ R) as (c & E & L0 & R0 & Rl & Rr).
    unfold get_left_child, get_right_child, aget. rewrite E. cbn [rbind].
    rewrite (child_ok _ _ (fun _ => true) off32 _ _ l L0 Rl (sub_small' l Hl)).
    rewrite (child_ok _ _ (fun _ => true) off32 _ _ r R0 Rr (sub_small' r Hr)). auto.
  Qed.
  Lemma lchild_ok t : In t (subtrees t0) -> forall i l r, t = Node i l r -> get_left_child cells off (nid t) = Ok (nid l) /\ get_right_child cells off (nid t) = Ok (nid r).
  Proof. intros H i l r ->. destruct (child_ids i l r H) as (A & Bq & _). cbn [node_id]. auto. Qed.
  Lemma box_read_ok u : In u (subtrees t0) -> exists bx, box_read B (nid u) = Ok bx /\ box_at B (nid u) = Some bx.
  Proof.
    intros H. destruct (lk_box LK u H) as (bx & E). exists bx. split; auto. unfold box_at in E. unfold box_read, aget.
    destruct (nth_error (b_min B) (nid u)); [|discriminate]. cbn [rbind]. destruct (nth_error (b_max B) (nid u)); [|discriminate]. cbn [rbind]. congruence.
  Qed.
  Lemma crit_ok p : sub2 p -> crit mac B (nid (fst p)) (nid (snd p)) = Ok (negb (macT (fst p) (snd p))).
  Proof.
    intros [H1 H2]. destruct (box_read_ok _ H1) as (b1 & E1 & F1). destruct (box_read_ok _ H2) as (b2 & E2 & F2).
    unfold crit, macT. rewrite E1, E2, F1, F2. reflexivity.
  Qed.
  (** one visit, as all the implementations compute it *)
  Lemma kids_sub2 low p l q : sub2 p -> kids low (fst p) (snd p) = Some l -> In q l -> sub2 q.
  Proof. intros [H1 H2] E Hq. destruct (kids_sub _ _ _ _ _ E Hq). split; eapply sub_trans; eauto. Qed.

  Lemma m2l_app a b : m2l_of (a ++ b) = m2l_of a ++ m2l_of b.
  Proof. unfold m2l_of. now rewrite filter_app, map_app. Qed.
  Lemma p2p_app a b : p2p_of (a ++ b) = p2p_of a ++ p2p_of b.
  Proof. unfold p2p_of. now rewrite filter_app, map_app. Qed.

  Lemma ref_ok low p : forall fuel out, sub2 p -> okp low p -> mu p < fuel ->
    dtt_recursive_internal mac B low fuel (nid (fst p)) (nid (snd p)) out =
    Ok (fst out ++ m2l_of (walk low macT p), snd out ++ p2p_of (walk low macT p)).
  Proof.
    pattern p. apply (pair_ind low). clear p. intros p IH. cbv beta in *. intros fuel out S2 OK HF.
    destruct fuel as [|f]; [lia|]. cbn [dtt_recursive_internal]. rewrite crit_ok by auto. cbn [rbind].
    rewrite walk_eq. destruct (macT (fst p) (snd p)) eqn:M; cbn [negb].
    { unfold m2l_of, p2p_of. cbn. now rewrite app_nil_r. }
    assert (IH' : forall l q o, kids low (fst p) (snd p) = Some l -> In q l ->
      dtt_recursive_internal mac B low f (nid (fst q)) (nid (snd q)) o = Ok (fst o ++ m2l_of (walk low macT q), snd o ++ p2p_of (walk low macT q))).
    { intros l q o E Hq. apply (IH l q E Hq); [eapply kids_sub2; eauto|eapply kids_okp; eauto|].
      assert (mu q < mu p) by (destruct p; eapply kids_mu; eauto). lia. }
    clear IH. destruct S2 as [H1 H2]. destruct p as [t u]. cbn [fst snd] in *.
    assert (NONE : kids low t u = None ->
      Ok (fst out, snd out ++ [(nid t, nid u)]) = Ok (fst out ++ m2l_of match kids low t u with Some l => flat_map (walk low macT) l | None => [(true, (t, u))] end,
          snd out ++ p2p_of match kids low t u with Some l => flat_map (walk low macT) l | None => [(true, (t, u))] end)).
    { intros ->. unfold m2l_of, p2p_of. cbn. now rewrite app_nil_r. }
    destruct low.
    - rewrite !leaf_ok by auto. destruct t as [x|i a b], u as [x'|i' a' b']; cbn [leafb andb negb left_or_self right_or_self rbind] in *.
      + apply NONE. reflexivity.
      + destruct (child_ids _ _ _ H2) as (E1 & E2 & _ & _). cbn [left_or_self right_or_self]. change (nid (Node i' a' b')) with i'. rewrite E1, E2. cbn [rbind].
        cbn [kids] in *. rewrite (IH' _ (Leaf x, a') _ eq_refl) by (simpl; auto). cbn [rbind].
        rewrite (IH' _ (Leaf x, b') _ eq_refl) by (simpl; auto). cbn [rbind fst snd flat_map].
        rewrite app_nil_r, m2l_app, p2p_app, !app_assoc. reflexivity.
      + destruct (child_ids _ _ _ H1) as (E1 & E2 & _ & _). cbn [left_or_self right_or_self]. change (nid (Node i a b)) with i. rewrite E1, E2. cbn [rbind].
        cbn [kids] in *. rewrite (IH' _ (a, Leaf x') _ eq_refl) by (simpl; auto). cbn [rbind].
        rewrite (IH' _ (b, Leaf x') _ eq_refl) by (simpl; auto). cbn [rbind fst snd flat_map].
        rewrite app_nil_r, m2l_app, p2p_app, !app_assoc. reflexivity.
      + destruct (child_ids _ _ _ H1) as (E1 & E2 & _ & _). destruct (child_ids _ _ _ H2) as (E3 & E4 & _ & _).
        change (nid (Node i a b)) with i. change (nid (Node i' a' b')) with i'. rewrite E1, E2, E3, E4. cbn [rbind].
        cbn [kids negb andb] in *. rewrite (IH' _ (a, a') _ eq_refl) by (simpl; auto). cbn [rbind].
        rewrite (IH' _ (b, a') _ eq_refl) by (simpl; auto). cbn [rbind].
        rewrite (IH' _ (a, b') _ eq_refl) by (simpl; auto). cbn [rbind].
        rewrite (IH' _ (b, b') _ eq_refl) by (simpl; auto). cbn [rbind fst snd flat_map].
        rewrite app_nil_r, !m2l_app, !p2p_app, !app_assoc. reflexivity.
    - destruct OK as [X|[L1 L2]]; [discriminate|]. cbn [fst snd] in *. destruct t as [x|i a b]; [discriminate|]. destruct u as [x'|i' a' b']; [discriminate|].
      destruct (child_ids _ _ _ H1) as (E1 & E2 & Ia & Ib). destruct (child_ids _ _ _ H2) as (E3 & E4 & Ia' & Ib').
      change (nid (Node i a b)) with i. change (nid (Node i' a' b')) with i'. rewrite E1, E2, E3, E4. cbn [rbind].
      rewrite !leaf_ok by auto. cbn [kids negb andb] in *. destruct (leafb a || leafb b || leafb a' || leafb b').
      + apply NONE. reflexivity.
      + rewrite (IH' _ (a, a') _ eq_refl) by (simpl; auto). cbn [rbind].
        rewrite (IH' _ (b, a') _ eq_refl) by (simpl; auto). cbn [rbind].
        rewrite (IH' _ (a, b') _ eq_refl) by (simpl; auto). cbn [rbind].
        rewrite (IH' _ (b, b') _ eq_refl) by (simpl; auto). cbn [rbind fst snd flat_map].
        rewrite app_nil_r, !m2l_app, !p2p_app, !app_assoc. reflexivity.
  Qed.

  (** the events of the whole traversal *)
  Definition all_events (low : bool) : list ev := if leafb t0 then [(true, (t0, t0))] else walk low macT (t0, t0).
  Lemma root_id : nid t0 = 0.
  Proof. rewrite (node_id_reads _ _ _ _ _ (lk_reads LK)). destruct (Nat.eqb_spec off 0); lia. Qed.
  Lemma root_leaf : leafb t0 = (off =? 0).
  Proof. pose proof (lk_reads LK) as R. inversion R; subst; reflexivity. Qed.
  Lemma height_off : height t0 <= off.
  Proof. rewrite <- (lk_internals LK). apply height_internals. Qed.
  Lemma root_ok low : leafb t0 = false -> sub2 (t0, t0) /\ okp low (t0, t0) /\ mu (t0, t0) < off + 1.
  Proof.
    intros H. split; [split; apply self_sub'|]. split; [right; auto|]. unfold mu. cbn [fst snd]. pose proof height_off. lia.
  Qed.
  Theorem dtt_ref_ok low : dtt_recursive_ref mac B low = Ok (m2l_of (all_events low), p2p_of (all_events low)).
  Proof.
    unfold dtt_recursive_ref, all_events. unfold is_id_leaf. rewrite root_leaf. destruct (Nat.eqb_spec off 0) as [E|E].
    - replace (off <=? 0) with true by lia. unfold m2l_of, p2p_of, idp. cbn. now rewrite root_id.
    - replace (off <=? 0) with false by lia. destruct (root_ok low) as (A & Bq & D); [rewrite root_leaf; lia|].
      pose proof (ref_ok low (t0, t0) (off + 1) ([], []) A Bq D) as R. cbn [fst snd] in R. rewrite root_id in R. exact R.
  Qed.
End Link.
