(** The three implementations give the specified lists. *)
From Verif Require Import Base Par Karras Karras_spec P_Karras Traverse Traverse_spec Traverse_proofs Reduction Scan Scan_spec SortSearch SortSearch_spec
  BVH BVH_spec Dtt Dtt_spec Dtt_tree Dtt_ref Dtt_segs Dtt_scan Dtt_scan2 Dtt_select Dtt_select2 Dtt_mono Dtt_sep Dtt_reorder.
From Coq Require Import ZifyBool ZifyNat.
Local Open Scope nat_scope.

Lemma leaves_ne t : leaves t <> [].
Proof. induction t as [k|i l IHl r IHr]; [discriminate|]. cbn [leaves]. destruct (leaves l); [congruence|discriminate]. Qed.

Section Main.
  Context {C : Type} (leb : C -> C -> bool) (plo phi : nat -> vec C) (cnt : nat) (B : @bvh C) (t0 : tree) (objs : nat -> list nat).
  Hypothesis R : represents leb plo phi cnt B t0 objs.
  Hypothesis SZ : (Z.of_nat (b_leafs B) <= 2 ^ 24 + 1)%Z.
  Variables (mac : vec C * vec C -> vec C * vec C -> bool) (low : bool).
  Notation off := (length (b_cells B)).
  Notation nid := (node_id (length (b_cells B))).
  Notation idp := (idp B).
  Notation allev := (all_events mac B t0 low).
  Let LK : linked B t0 := linked_of leb plo phi cnt B t0 objs R SZ.

  Lemma ev_sub e : In e allev -> sub2 t0 (snd e).
  Proof.
    unfold all_events. destruct (leafb t0); [intros [<-|[]]; split; apply self_sub'|]. intros H. apply walk_sub in H. exact H.
  Qed.
  Lemma cell_obj u : In u (subtrees t0) -> cell_objects B (nid u) = flat_map objs (leaves u).
  Proof. intros H. unfold cell_objects. now rewrite (rp_cell _ _ _ _ _ _ _ R u H). Qed.
  Lemma inb_in o l : inb o l = true <-> In o l.
  Proof. unfold inb. rewrite existsb_exists. split; [intros (x & H & E); apply Nat.eqb_eq in E; now subst|]. intros H. exists o. split; auto. apply Nat.eqb_refl. Qed.
  Lemma inb_mem o k u : In u (subtrees t0) -> In k (leaves t0) -> In o (objs k) -> inb o (cell_objects B (nid u)) = mem k u.
  Proof.
    intros Hu Hk Ho. rewrite cell_obj by auto. destruct (mem k u) eqn:E.
    - apply inb_in, in_flat_map. exists k. split; auto. now apply mem_in.
    - apply not_true_is_false. intros X. apply inb_in, in_flat_map in X. destruct X as (k' & Hk' & Ho').
      assert (k' = k) by (apply (obj_unique leb plo phi cnt B t0 objs R k' k o); auto; exact (leaves_sub u t0 Hu k' Hk')). subst k'. apply mem_in in Hk'. congruence.
  Qed.
  Lemma split_perm (L : list ev) : Permutation (m2l_of B L ++ p2p_of B L) (map (fun e => idp (snd e)) L).
  Proof.
    unfold m2l_of, p2p_of. induction L as [|[k q] L IH]; [constructor|]. destruct k; cbn [filter fst negb map snd].
    - rewrite <- Permutation_middle. constructor. exact IH.
    - cbn [app]. constructor. exact IH.
  Qed.
  Lemma covering_perm L L' o p : Permutation L L' -> covering B L o p = covering B L' o p.
  Proof. intros H. unfold covering. apply Permutation_length. now apply Permutation_filter. Qed.
  Lemma cover_hits L k l o p : (forall e, In e L -> sub2 t0 (snd e)) -> In k (leaves t0) -> In l (leaves t0) -> In o (objs k) -> In p (objs l) ->
    covering B (map (fun e => idp (snd e)) L) o p = hits k l L.
  Proof.
    intros HS Hk Hl Ho Hp. unfold covering, hits. induction L as [|e L IH]; [reflexivity|]. cbn [map filter].
    assert (S2 : sub2 t0 (snd e)) by (apply HS; simpl; auto). destruct S2 as [S1 S2].
    unfold Dtt_ref.idp at 1 2. cbn [fst snd]. rewrite (inb_mem o k), (inb_mem p l) by auto. unfold hit at 1.
    destruct (mem k (fst (snd e)) && mem l (snd (snd e))); cbn [length]; rewrite IH; auto; intros; apply HS; simpl; auto.
  Qed.
  Lemma obj_leaf o : o < cnt -> exists k, In k (leaves t0) /\ In o (objs k).
  Proof.
    intros H. assert (In o (flat_map objs (leaves t0))) by (eapply Permutation_in; [symmetry; apply (rp_partition _ _ _ _ _ _ _ R)|apply in_seq; lia]).
    apply in_flat_map in H0. exact H0.
  Qed.
  Lemma leafs1 : leafb t0 = (b_leafs B =? 1).
  Proof. rewrite (root_leaf B t0 LK). rewrite (rp_count _ _ _ _ _ _ _ R). destruct (off =? 0) eqn:E1, (off + 1 =? 1) eqn:E2; auto; lia. Qed.
  Lemma leaf_iff u : In u (subtrees t0) -> (is_leaf B (nid u) <-> leafb u = true).
  Proof. intros H. rewrite <- (leaf_ok B t0 LK u H). unfold is_leaf, is_id_leaf. split; intros; lia. Qed.
  Lemma accepts_mac u v r : In u (subtrees t0) -> In v (subtrees t0) -> macT mac B u v = r -> accepts mac B (nid u) (nid v) r.
  Proof.
    intros Hu Hv M. destruct (lk_box B t0 LK u Hu) as (bu & Eu). destruct (lk_box B t0 LK v Hv) as (bv & Ev).
    exists bu, bv. unfold macT in M. rewrite Eu, Ev in M. auto.
  Qed.

  Theorem events_correct m q : Permutation m (m2l_of B allev) -> Permutation q (p2p_of B allev) -> dtt_correct mac B low cnt m q.
  Proof.
    intros PM PQ. assert (PA : Permutation (m ++ q) (map (fun e => idp (snd e)) allev)) by (rewrite PM, PQ; apply split_perm).
    assert (IE : forall a b, In (a, b) (m ++ q) -> exists e, In e allev /\ idp (snd e) = (a, b)).
    { intros a b H. apply (Permutation_in _ PA), in_map_iff in H. destruct H as (e & E & H). eauto. }
    assert (IM : forall a b, In (a, b) m -> exists e, In e allev /\ fst e = false /\ idp (snd e) = (a, b)).
    { intros a b H. apply (Permutation_in _ PM) in H. unfold m2l_of in H. apply in_map_iff in H. destruct H as (e & E & H). apply filter_In in H. destruct H as [H F].
      exists e. repeat split; auto. now destruct (fst e). }
    assert (IQ : forall a b, In (a, b) q -> exists e, In e allev /\ fst e = true /\ idp (snd e) = (a, b)).
    { intros a b H. apply (Permutation_in _ PQ) in H. unfold p2p_of in H. apply in_map_iff in H. destruct H as (e & E & H). apply filter_In in H. destruct H as [H F].
      exists e. repeat split; auto. }
    assert (KD : leafb t0 = false -> forall e, In e allev -> okp low (snd e) /\ macT mac B (fst (snd e)) (snd (snd e)) = negb (fst e) /\ (fst e = true -> kids low (fst (snd e)) (snd (snd e)) = None)).
    { intros LF e He. unfold all_events in He. rewrite LF in He. eapply walk_kind; eauto. apply (root_ok B t0 LK low LF). }
    constructor.
    - intros o p Ho Hp. destruct (obj_leaf o Ho) as (k & Hk & Ok'). destruct (obj_leaf p Hp) as (l & Hl & Ol).
      rewrite (covering_perm _ _ o p PA). rewrite (cover_hits allev k l o p ev_sub Hk Hl Ok' Ol).
      apply mem_in in Hk. apply mem_in in Hl. unfold all_events. destruct (leafb t0).
      + unfold hits. cbn [filter]. unfold hit. cbn [fst snd]. now rewrite Hk, Hl.
      + rewrite walk_cover by apply (lk_nd_leaf B t0 LK). cbn [fst snd]. now rewrite Hk, Hl.
    - intros a b H. destruct (IE a b H) as (e & He & E). destruct (ev_sub e He) as [S1 S2]. injection E as <- <-. split; apply (lk_bound B t0 LK); auto.
    - intros a b H. destruct (IM a b H) as (e & He & F & E). destruct (ev_sub e He) as [S1 S2]. injection E as <- <-.
      destruct (leafb t0) eqn:LF.
      + unfold all_events in He. rewrite LF in He. destruct He as [<-|[]]. discriminate.
      + apply accepts_mac; auto. destruct (KD eq_refl e He) as (_ & X & _). now rewrite X, F.
    - intros a b H N1. destruct (IQ a b H) as (e & He & F & E). destruct (ev_sub e He) as [S1 S2]. injection E as <- <-.
      assert (LF : leafb t0 = false) by (rewrite leafs1; lia).
      apply accepts_mac; auto. destruct (KD LF e He) as (_ & X & _). now rewrite X, F.
    - intros HL a b H. destruct (IQ a b H) as (e & He & F & E). destruct (ev_sub e He) as [S1 S2]. injection E as <- <-.
      destruct (leafb t0) eqn:LF.
      + assert (He' := He). unfold all_events in He'. rewrite LF in He'. destruct He' as [<-|[]]. cbn [fst snd] in *. split; apply leaf_iff; auto.
      + destruct (KD eq_refl e He) as (_ & _ & K). specialize (K F). rewrite HL in K.
        rewrite !leaf_iff by auto. destruct (fst (snd e)), (snd (snd e)); cbn [kids] in K; try discriminate. auto.
    - intros HL N1 a b H. assert (LF : leafb t0 = false) by (rewrite leafs1; lia).
      destruct (IE a b H) as (e & He & E). destruct (ev_sub e He) as [S1 S2]. injection E as <- <-. destruct (KD LF e He) as ([O|[O1 O2]] & _); [congruence|].
      rewrite !leaf_iff by auto. rewrite O1, O2. split; discriminate.
    - intros HL N1 a b H. assert (LF : leafb t0 = false) by (rewrite leafs1; lia).
      destruct (IQ a b H) as (e & He & F & E). destruct (ev_sub e He) as [S1 S2]. injection E as <- <-. destruct (KD LF e He) as ([O|[O1 O2]] & _ & K); [congruence|].
      specialize (K F). rewrite HL in K. destruct (fst (snd e)) as [x|i l r] eqn:E1; [discriminate|]. destruct (snd (snd e)) as [x|i' l' r'] eqn:E2; [discriminate|].
      destruct (child_ids B t0 LK _ _ _ S1) as (c1 & c2 & I1 & I2). destruct (child_ids B t0 LK _ _ _ S2) as (c3 & c4 & I3 & I4).
      cbn [kids negb andb] in K. destruct (leafb l) eqn:B1; [exists i, (nid l); split; [left; reflexivity|]; split; [now apply leaf_iff|auto]|].
      destruct (leafb r) eqn:B2; [exists i, (nid r); split; [left; reflexivity|]; split; [now apply leaf_iff|auto]|].
      destruct (leafb l') eqn:B3; [exists i', (nid l'); split; [right; reflexivity|]; split; [now apply leaf_iff|auto]|].
      destruct (leafb r') eqn:B4; [exists i', (nid r'); split; [right; reflexivity|]; split; [now apply leaf_iff|auto]|]. discriminate.
  Qed.

  (** at most one interaction per pair of leaves *)
  Lemma events_bound : length allev <= b_leafs B * b_leafs B.
  Proof.
    assert (G : forall L, (forall e, In e L -> sub2 t0 (snd e)) ->
      length L <= list_sum (map (fun k => list_sum (map (fun l => hits k l L) (leaves t0))) (leaves t0))).
    { induction L as [|e L IH]; intros HS; [cbn; lia|]. specialize (IH (fun x Hx => HS x (or_intror Hx))).
      destruct (HS e (or_introl eq_refl)) as [S1 S2].
      destruct (leaves (fst (snd e))) as [|k ks] eqn:E1; [exfalso; exact (leaves_ne _ E1)|].
      destruct (leaves (snd (snd e))) as [|l ls] eqn:E2; [exfalso; exact (leaves_ne _ E2)|].
      assert (Hk : In k (leaves t0)) by (eapply leaves_sub; [exact S1|rewrite E1; simpl; auto]).
      assert (Hl : In l (leaves t0)) by (eapply leaves_sub; [exact S2|rewrite E2; simpl; auto]).
      assert (H1 : hits k l (e :: L) = S (hits k l L)).
      { unfold hits. cbn [filter]. unfold hit at 1. replace (mem k (fst (snd e))) with true by (symmetry; apply mem_in; rewrite E1; simpl; auto).
        replace (mem l (snd (snd e))) with true by (symmetry; apply mem_in; rewrite E2; simpl; auto). reflexivity. }
      assert (HM : forall x y, hits x y L <= hits x y (e :: L)) by (intros; unfold hits; cbn [filter]; destruct (hit x y e); cbn [length]; lia).
      assert (SS : forall (f g : nat -> nat) s, (forall x, f x <= g x) -> list_sum (map f s) <= list_sum (map g s)).
      { intros f g s H. induction s as [|x s IHs]; [auto|]. cbn [map list_sum fold_right]. specialize (H x). unfold list_sum in *. lia. }
      assert (SI : forall (f g : nat -> nat) s x, (forall x, f x <= g x) -> In x s -> f x < g x -> list_sum (map f s) < list_sum (map g s)).
      { intros f g s x H. induction s as [|y s IHs]; [intros []|]. cbn [map list_sum fold_right]. intros [->|Hx] LT.
        - pose proof (SS f g s H). unfold list_sum in *. lia.
        - specialize (IHs Hx LT). specialize (H y). unfold list_sum in *. lia. }
      cbn [length]. eapply Nat.le_lt_trans; [exact IH|]. apply (SI _ _ _ k); auto. apply (SI _ _ _ l); auto. rewrite H1. lia. }
    etransitivity; [apply G; intros; now apply ev_sub|].
    assert (H1 : forall k l, hits k l allev <= 1).
    { intros k l. unfold all_events. destruct (leafb t0).
      - unfold hits. cbn [filter]. destruct (hit _ _ _); simpl; lia.
      - rewrite walk_cover by apply (lk_nd_leaf B t0 LK). unfold b2n. destruct (mem _ _), (mem _ _); lia. }
    assert (SB : forall (f : nat -> nat) c s, (forall x, f x <= c) -> list_sum (map f s) <= c * length s).
    { intros f c s H. induction s as [|x s IHs]; [simpl; lia|]. cbn [map list_sum fold_right length]. specialize (H x). unfold list_sum in *. lia. }
    assert (LL : length (leaves t0) = b_leafs B) by (rewrite (rp_leaves _ _ _ _ _ _ _ R); apply seq_length).
    etransitivity; [apply (SB _ (b_leafs B))|rewrite LL; auto]. intros k. etransitivity; [apply (SB _ 1); auto|]. lia.
  Qed.

  Lemma ids_fst (e : ev) : In e allev -> fst (idp (snd e)) < total_cell_count B.
  Proof. intros H. destruct (ev_sub e H) as [S1 _]. apply (lk_bound B t0 LK); auto. Qed.
End Main.

(** grouping *)
Lemma before_mono L a b : a <= b -> before L a <= before L b.
Proof. intros H. rewrite <- !pos_grp. now apply pos_mono. Qed.
Lemma before_le L a : before L a <= length L.
Proof. unfold before. induction L as [|p L IH]; [auto|]. cbn [filter]. destruct (fst p <? a); cbn [length]; lia. Qed.
Lemma grouped_of N (L : list ipair) : (forall p, In p L -> fst p < N) -> StronglySorted (fun a b => fst a <= fst b) L ->
  grouped N L (map (fun g => Z.of_nat (before L g)) (seq 0 (N + 1))).
Proof.
  intros HB HS. split; [now rewrite map_length, seq_length|]. intros g Hg. exists (before L g), (before L (g + 1)).
  split; [rewrite nth_error_map, nth_error_seq by lia; reflexivity|]. split; [rewrite nth_error_map, nth_error_seq by lia; reflexivity|].
  split; [split; [apply before_mono; lia|apply before_le]|].
  assert (G : forall k j ab, nth_error L j = Some ab -> (fst ab < k <-> j < before L k)).
  { intros k. clear - HS. induction HS as [|x L HS IH F]; intros j ab E; [destruct j; discriminate|]. unfold before. cbn [filter].
    rewrite Forall_forall in F. destruct j as [|j]; cbn [nth_error] in E.
    - injection E as ->. destruct (fst ab <? k) eqn:T; cbn [length]; [lia|].
      assert (Z : filter (fun p => fst p <? k) L = []). { apply filter_none. intros y Hy. specialize (F y Hy). lia. }
      rewrite Z. cbn [length]. lia.
    - specialize (IH j ab E). unfold before in IH. destruct (fst x <? k) eqn:T; cbn [length]; [lia|].
      apply nth_error_In in E. specialize (F ab E). rewrite IH. split; [|lia]. intros X.
      assert (fst ab < k) by (apply IH; exact X). lia. }
  intros j ab E. rewrite <- (G g j ab E) || idtac. pose proof (G g j ab E). pose proof (G (g + 1) j ab E). lia.
Qed.
