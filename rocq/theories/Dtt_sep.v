(** From the representation theorem of C33 to the link used by the proofs of the traversal; the stack bound for
    points with Morton codes. *)
From Verif Require Import Base Par Karras Karras_spec P_Karras Traverse Traverse_spec Traverse_proofs Reduction Scan Scan_spec SortSearch
  Morton_spec BVH BVH_spec Dtt Dtt_spec Dtt_tree Dtt_ref Dtt_segs Dtt_scan Dtt_scan2 Dtt_select Dtt_select2.
From Coq Require Import ZifyBool ZifyNat.
Local Open Scope nat_scope.

Lemma vleq_iff {C} (leb : C -> C -> bool) u v : vleq leb u v = true <-> forall x, In x (@coords C) -> leb (x u) (x v) = true.
Proof.
  destruct u as [[a b] c], v as [[a' b'] c']. unfold vleq. rewrite !andb_true_iff. split.
  - intros [[H1 H2] H3] x [<-|[<-|[<-|[]]]]; auto.
  - intros H. repeat split; [apply (H cx)|apply (H cy)|apply (H cz)]; simpl; auto.
Qed.
Lemma contains_iff {C} (leb : C -> C -> bool) bx by' : aabb_contains leb bx by' = true <->
  forall x, In x (@coords C) -> leb (x (fst bx)) (x (fst by')) = true /\ leb (x (snd by')) (x (snd bx)) = true.
Proof.
  unfold aabb_contains. rewrite andb_true_iff, !vleq_iff. split.
  - intros [H1 H2] x Hx. auto.
  - intros H. split; intros x Hx; apply (H x Hx).
Qed.

Lemma leaves_sub u t : In u (subtrees t) -> forall k, In k (leaves u) -> In k (leaves t).
Proof.
  induction t as [j|i l IHl r IHr]; cbn [subtrees]; intros H k Hk.
  - destruct H as [<-|[]]. auto.
  - destruct H as [<-|H]; auto. cbn [leaves]. apply in_or_app. apply in_app_or in H. destruct H; [left|right]; eauto.
Qed.
Lemma ints_sub u t : In u (subtrees t) -> forall k, In k (internals u) -> In k (internals t).
Proof.
  induction t as [j|i l IHl r IHr]; cbn [subtrees]; intros H k Hk.
  - destruct H as [<-|[]]. auto.
  - destruct H as [<-|H]; auto. cbn [internals]. right. apply in_or_app. apply in_app_or in H. destruct H; [left|right]; eauto.
Qed.

Section FromBVH.
  Context {C : Type} (leb : C -> C -> bool) (plo phi : nat -> vec C) (cnt : nat) (B : @bvh C) (t0 : tree) (objs : nat -> list nat).
  Hypothesis R : represents leb plo phi cnt B t0 objs.
  Hypothesis SZ : (Z.of_nat (b_leafs B) <= 2 ^ 24 + 1)%Z.
  Notation off := (length (b_cells B)).
  Notation nid := (node_id (length (b_cells B))).

  Lemma total_eq : total_cell_count B = off + b_leafs B.
  Proof. unfold total_cell_count. now rewrite (rp_count _ _ _ _ _ _ _ R). Qed.
  Lemma linked_of : linked B t0.
  Proof.
    destruct R as [R1 R2 R3 R4 R5 R6 R7 R8 R9]. change (2 ^ 24 + 1)%Z with 16777217%Z in SZ. constructor.
    - exact R1.
    - rewrite P31. lia.
    - split; intros k Hk.
      + rewrite R2 in Hk. apply in_seq in Hk. rewrite P32. lia.
      + apply (Permutation_in _ R3), in_seq in Hk. lia.
    - rewrite (Permutation_length R3). apply seq_length.
    - eapply Permutation_NoDup; [symmetry; exact R3|apply seq_NoDup].
    - rewrite R2. apply seq_NoDup.
    - intros u Hu. unfold total_cell_count. destruct u as [k|i l r]; cbn [node_id].
      + assert (In k (leaves t0)) by (eapply leaves_sub; eauto; simpl; auto). rewrite R2 in H. apply in_seq in H. lia.
      + assert (In i (internals t0)) by (eapply ints_sub; eauto; simpl; auto). apply (Permutation_in _ R3), in_seq in H. lia.
    - intros u Hu. destruct (R9 u Hu) as (bx & E & _). eauto.
  Qed.

  Notation below u := (flat_map objs (leaves u)).
  Lemma below_sub u x : In u (subtrees x) -> forall o, In o (below u) -> In o (below x).
  Proof. intros H o Ho. apply in_flat_map in Ho. destruct Ho as (k & Hk & Ho). apply in_flat_map. exists k. split; auto. eapply leaves_sub; eauto. Qed.

  Lemma anc_contains x v : In x (subtrees t0) -> In v (subtrees x) -> cTb leb B x v = true.
  Proof.
    intros Hx Hv. destruct (rp_box _ _ _ _ _ _ _ R x Hx) as (bx & Ex & Tx).
    destruct (rp_box _ _ _ _ _ _ _ R v (sub_trans _ _ _ Hv Hx)) as (bv & Ev & Tv).
    unfold cTb. rewrite Ex, Ev. apply contains_iff. intros a Ha. destruct (Tx a Ha) as (B1 & _ & _). destruct (Tv a Ha) as (_ & (o1 & O1 & E1) & (o2 & O2 & E2)).
    rewrite E1, E2. split; [apply (B1 o1)|apply (B1 o2)]; eapply below_sub; eauto.
  Qed.

  Lemma obj_bound k o : In k (leaves t0) -> In o (objs k) -> o < cnt.
  Proof.
    intros Hk Ho. assert (In o (flat_map objs (leaves t0))) by (apply in_flat_map; eauto).
    apply (Permutation_in _ (rp_partition _ _ _ _ _ _ _ R)), in_seq in H. lia.
  Qed.
  Lemma obj_unique k k' o : In k (leaves t0) -> In k' (leaves t0) -> In o (objs k) -> In o (objs k') -> k = k'.
  Proof.
    intros Hk Hk' Ho Ho'. assert (ND : NoDup (flat_map objs (leaves t0))) by (eapply Permutation_NoDup; [symmetry; apply (rp_partition _ _ _ _ _ _ _ R)|apply seq_NoDup]).
    revert Hk Hk' ND. clear - Ho Ho'. induction (leaves t0) as [|a l IH]; [intros []|]. cbn [flat_map]. intros Hk Hk' ND.
    assert (DJ : forall x, In x (objs a) -> ~ In x (flat_map objs l)).
    { clear - ND. induction (objs a) as [|y s IHs]; [intros x []|]. cbn [app] in ND. inversion ND; subst. intros x [<-|Hx]; [intros X; apply H1, in_or_app; auto|]. apply IHs; auto. }
    assert (ND2 : NoDup (flat_map objs l)) by (clear - ND; induction (objs a) as [|y s IHs]; [auto|]; cbn [app] in ND; inversion ND; auto).
    destruct Hk as [->|Hk], Hk' as [->|Hk']; auto.
    - exfalso. apply (DJ o Ho). apply in_flat_map. eauto.
    - exfalso. apply (DJ o Ho'). apply in_flat_map. eauto.
  Qed.

  (** the boxes of two siblings never both contain the box of a node below one of them *)
  Definition separated : Prop := forall i x y v, In (Node i x y) (subtrees t0) ->
    (In v (subtrees x) -> cTb leb B y v = false) /\ (In v (subtrees y) -> cTb leb B x v = false).
End FromBVH.

Section Inst.
  Context {C : Type} (leb : C -> C -> bool) (mac : vec C * vec C -> vec C * vec C -> bool) (B : @bvh C) (t0 : tree).
  Hypothesis LK : linked B t0.
  Variable low : bool.
  Notation off := (length (b_cells B)).
  Notation nid := (node_id (length (b_cells B))).

  Lemma sk_len_any p : length (sk mac B low p) <= 4.
  Proof. apply sk_len. Qed.
  Lemma good_any v bi p l : In v (subtrees t0) -> box_at B (nid v) = Some bi -> sub2 t0 p -> True -> kids low (fst p) (snd p) = Some l ->
    length (sel leb mac B low bi (nid v) p) <= 3 + 1 /\ forall q, In q (sel leb mac B low bi (nid v) p) -> True.
  Proof.
    intros _ _ _ _ _. split; auto. unfold sel. destruct (negb _ && _); [simpl; lia|]. pose proof (sk_len mac B low p).
    assert (FL : forall (f : tpair -> bool) s, length (filter f s) <= length s) by (intros f s; induction s as [|x s IH]; [auto|]; cbn [filter]; destruct (f x); cbn [length]; lia).
    etransitivity; [apply FL|]. lia.
  Qed.
  Lemma good_sep v bi p l : separated leb B t0 -> (forall x v, In x (subtrees t0) -> In v (subtrees x) -> cTb leb B x v = true) ->
    In v (subtrees t0) -> box_at B (nid v) = Some bi -> sub2 t0 p -> In v (subtrees (fst p)) -> kids low (fst p) (snd p) = Some l ->
    length (sel leb mac B low bi (nid v) p) <= 1 + 1 /\ forall q, In q (sel leb mac B low bi (nid v) p) -> In v (subtrees (fst q)).
  Proof.
    intros SP AN Hv Ev [S1 S2] Vp K. unfold sel.
    assert (CT : forall x, In x (subtrees t0) -> cT leb B bi x = cTb leb B x v) by (intros x Hx; unfold cT, cTb; rewrite Ev; destruct (box_at B (nid x)); auto).
    assert (FP : Permutation (filter (fun q => cT leb B bi (fst q)) (sk mac B low p)) (filter (fun q => cT leb B bi (fst q)) (if macT mac B (fst p) (snd p) then [] else l))).
    { destruct (macT mac B (fst p) (snd p)) eqn:M; [unfold sk; rewrite M; constructor|]. apply Permutation_filter. now apply sk_perm. }
    destruct (negb (leafb (fst p)) && (nid (fst p) =? nid v)) eqn:SM; [split; [simpl; lia|intros q []]|].
    assert (G : length (filter (fun q => cT leb B bi (fst q)) (if macT mac B (fst p) (snd p) then [] else l)) <= 1 + 1 /\
      forall q, In q (filter (fun q => cT leb B bi (fst q)) (if macT mac B (fst p) (snd p) then [] else l)) -> In v (subtrees (fst q))).
    2:{ destruct G as [G1 G2]. split; [etransitivity; [apply Nat.eq_le_incl; exact (Permutation_length FP)|exact G1]|]. intros q Hq. apply G2. eapply Permutation_in; [exact FP|exact Hq]. }
    destruct (macT mac B (fst p) (snd p)); [split; [simpl; lia|intros q []]|].
    rewrite (kids_form _ _ _ _ K). destruct p as [t u]. cbn [fst snd] in *.
    destruct t as [k|i x y].
    - destruct u as [k'|i' x' y']; [split; [simpl; lia|intros q []]|]. split.
      + cbn [filter fst]. destruct (cT leb B bi (Leaf k)); simpl; lia.
      + intros q Hq. apply filter_In in Hq. destruct Hq as [[<-|[<-|[]]] _]; exact Vp.
    - cbn [leafb negb andb] in SM. assert (Ix : In x (subtrees t0)) by (eapply sub_trans; [|exact S1]; auto with dtt).
      assert (Iy : In y (subtrees t0)) by (eapply sub_trans; [|exact S1]; auto with dtt).
      destruct (SP i x y v S1) as [P1 P2]. cbn [subtrees] in Vp. destruct Vp as [<-|Vp]; [rewrite Nat.eqb_refl in SM; discriminate|].
      apply in_app_or in Vp. destruct Vp as [Vx|Vy].
      + assert (A1 : cT leb B bi x = true) by (rewrite CT; auto). assert (A2 : cT leb B bi y = false) by (rewrite CT; auto).
        destruct u as [k'|i' x' y']; cbn [filter fst]; rewrite A1, A2; (split; [simpl; lia|]).
        * intros q [<-|[]]. exact Vx. * intros q [<-|[<-|[]]]; exact Vx.
      + assert (A1 : cT leb B bi y = true) by (rewrite CT; auto). assert (A2 : cT leb B bi x = false) by (rewrite CT; auto).
        destruct u as [k'|i' x' y']; cbn [filter fst]; rewrite A1, A2; (split; [simpl; lia|]).
        * intros q [<-|[]]. exact Vy. * intros q [<-|[<-|[]]]; exact Vy.
  Qed.
End Inst.

Lemma bit_le a b P : N.testbit a P = false -> N.testbit b P = true -> (forall j, (P < j)%N -> N.testbit a j = N.testbit b j) -> (b <= a)%N -> False.
Proof.
  intros HA HB HJ L.
  assert (E : N.shiftr a (P + 1) = N.shiftr b (P + 1)).
  { apply N.bits_inj. intros j. rewrite !N.shiftr_spec'. apply HJ. lia. }
  assert (Da : N.shiftr a P = (2 * N.shiftr a (P + 1))%N).
  { rewrite <- N.shiftr_shiftr, (N.shiftr_div_pow2 _ 1). change (2 ^ 1)%N with 2%N. rewrite (N.div_mod (N.shiftr a P) 2) at 1 by lia.
    rewrite <- N.bit0_mod, N.shiftr_spec'. cbn [N.add]. rewrite HA. cbn. lia. }
  assert (Db : N.shiftr b P = (2 * N.shiftr b (P + 1) + 1)%N).
  { rewrite <- N.shiftr_shiftr, (N.shiftr_div_pow2 _ 1). change (2 ^ 1)%N with 2%N. rewrite (N.div_mod (N.shiftr b P) 2) at 1 by lia.
    rewrite <- N.bit0_mod, N.shiftr_spec'. cbn [N.add]. rewrite HB. cbn. lia. }
  assert (M : (N.shiftr b P <= N.shiftr a P)%N) by (rewrite !N.shiftr_div_pow2; apply N.div_le_mono; [apply N.pow_nonzero; lia|auto]).
  rewrite Da, Db, E in M. lia.
Qed.

Section Points.
  Context {C : Type} (leb : C -> C -> bool) (pos : nat -> vec C) (cnt : nat) (B : @bvh C) (t0 : tree) (objs : nat -> list nat) (code : vec C -> N) (nb : N).
  Hypothesis R : represents leb pos pos cnt B t0 objs.
  Hypothesis GC : grid_code leb nb code.
  Hypothesis NO : forall u, In u (subtrees t0) -> node_ok (b_codes B) (b_cells B) u.
  Hypothesis LP : forall k, In k (leaves t0) -> exists p v, forall o, o < cnt -> (In o (objs k) <-> N.shiftr (code (pos o)) p = v).
  Hypothesis LC : forall k, In k (leaves t0) -> exists o, In o (objs k) /\ code (pos o) = nth k (b_codes B) 0%N.
  Notation nid := (node_id (length (b_cells B))).
  Notation below u := (flat_map objs (leaves u)).

  (** every object of leaf k has the code of the leaf above the bits that separate it from another leaf *)
  Lemma leaf_bits k k' P o : In k (leaves t0) -> In k' (leaves t0) -> k <> k' -> In o (objs k) ->
    (forall j, (P < j)%N -> N.testbit (nth k (b_codes B) 0%N) j = N.testbit (nth k' (b_codes B) 0%N) j) ->
    forall j, (P <= j)%N -> N.testbit (code (pos o)) j = N.testbit (nth k (b_codes B) 0%N) j.
  Proof.
    intros Hk Hk' NE Ho AG j Hj. destruct (LP k Hk) as (p & v & PV). destruct (LC k Hk) as (o1 & O1 & C1). destruct (LC k' Hk') as (o2 & O2 & C2).
    assert (B0 : o < cnt) by (apply (obj_bound leb pos pos cnt B t0 objs R k); auto). assert (B1 : o1 < cnt) by (apply (obj_bound leb pos pos cnt B t0 objs R k); auto). assert (B2 : o2 < cnt) by (apply (obj_bound leb pos pos cnt B t0 objs R k'); auto).
    assert (V1 : N.shiftr (code (pos o1)) p = v) by (apply PV; auto). assert (V0 : N.shiftr (code (pos o)) p = v) by (apply PV; auto).
    destruct (N.le_gt_cases p P) as [L|G].
    - rewrite <- C1. assert (E : N.testbit (N.shiftr (code (pos o)) p) (j - p) = N.testbit (N.shiftr (code (pos o1)) p) (j - p)) by congruence.
      rewrite !N.shiftr_spec' in E. replace (j - p + p)%N with j in E by lia. exact E.
    - exfalso. apply NE. apply (obj_unique leb pos pos cnt B t0 objs R k k' o2); auto. apply PV; auto. rewrite <- V1. apply N.bits_inj. intros i. rewrite !N.shiftr_spec'.
      rewrite C1, C2. symmetry. apply AG. lia.
  Qed.

  (** the objects of two siblings are strictly ordered on one axis *)
  Lemma sibling_axis i x y : In (Node i x y) (subtrees t0) ->
    exists a, In a (@coords C) /\ forall o o', In o (below x) -> In o' (below y) -> leb (a (pos o')) (a (pos o)) = true -> False.
  Proof.
    intros HN. assert (Ix : In x (subtrees t0)) by (eapply sub_trans; [|exact HN]; auto with dtt).
    assert (Iy : In y (subtrees t0)) by (eapply sub_trans; [|exact HN]; auto with dtt).
    destruct (NO _ HN) as (c & _ & _ & _ & P & PA & PB & PJ).
    (* any object on the left and any object on the right *)
    assert (ND : NoDup (leaves t0)) by (rewrite (rp_leaves _ _ _ _ _ _ _ R); apply seq_NoDup).
    assert (BITS : forall o o', In o (below x) -> In o' (below y) ->
      N.testbit (code (pos o)) P = false /\ N.testbit (code (pos o')) P = true /\
      forall j, (P < j)%N -> N.testbit (code (pos o)) j = N.testbit (code (pos o')) j).
    { intros o o' Ho Ho'. apply in_flat_map in Ho. destruct Ho as (k & Hk & Ho). apply in_flat_map in Ho'. destruct Ho' as (k' & Hk' & Ho').
      assert (K0 : In k (leaves t0)) by exact (leaves_sub x t0 Ix k Hk). assert (K0' : In k' (leaves t0)) by exact (leaves_sub y t0 Iy k' Hk').
      assert (NE : k <> k') by (intros ->; specialize (PA k' Hk); specialize (PB k' Hk'); congruence).
      assert (AG : forall j, (P < j)%N -> N.testbit (nth k (b_codes B) 0%N) j = N.testbit (nth k' (b_codes B) 0%N) j).
      { intros j Hj. apply PJ; auto; apply in_or_app; auto. }
      pose proof (leaf_bits k k' P o K0 K0' NE Ho AG) as Q1.
      pose proof (leaf_bits k' k P o' K0' K0 (not_eq_sym NE) Ho' (fun j Hj => eq_sym (AG j Hj))) as Q2.
      split; [rewrite Q1 by lia; auto|]. split; [rewrite Q2 by lia; auto|]. intros j Hj. rewrite Q1, Q2 by lia. auto. }
    (* on the axis of bit P the coordinates on the left are strictly below *)
    destruct GC as (gx & gy & gz & MO & IL).
      assert (X : forall o o', In o (below x) -> In o' (below y) -> (P < 3 * nb)%N).
      { intros o o' Ho Ho'. destruct (BITS o o' Ho Ho') as (_ & H & _). destruct (IL (pos o')) as [_ [Hm _]].
        destruct (N.lt_ge_cases P (3 * nb)) as [L|G]; auto. exfalso.
        assert (Z : N.testbit (code (pos o')) P = false).
        { rewrite <- (N.mod_small (code (pos o')) (2 ^ (3 * nb))) by auto. apply N.mod_pow2_bits_high. exact G. }
        congruence. }
      assert (Pd : (P = 3 * (P / 3) + P mod 3)%N) by (apply N.div_mod; lia). pose proof (N.mod_lt P 3 ltac:(lia)) as Pm.
      set (q := (P / 3)%N) in *.
      assert (GEN : forall (s : N) (g : C -> N) (a : vec C -> C), (P = 3 * q + s)%N -> (s < 3)%N ->
        (forall u w, leb u w = true -> (g u <= g w)%N) ->
        (forall p k, (k < nb)%N -> N.testbit (code p) (3 * k + s) = N.testbit (g (a p)) k) ->
        (forall p, (g (a p) < 2 ^ nb)%N) ->
        forall o o', In o (below x) -> In o' (below y) -> leb (a (pos o')) (a (pos o)) = true -> False).
      { intros s g a Es Ls Mo Bt Gr o o' Ho Ho' L. destruct (BITS o o' Ho Ho') as (H1 & H2 & H3). specialize (X o o' Ho Ho').
        apply Mo in L. assert (Q : (q < nb)%N) by lia. rewrite Es, Bt in H1, H2 by lia.
        apply (bit_le (g (a (pos o))) (g (a (pos o'))) q); auto. intros j Hj. destruct (N.lt_ge_cases j nb) as [J|J].
        - rewrite <- !Bt by lia. apply H3. lia.
        - rewrite <- (N.mod_small (g (a (pos o))) (2 ^ nb)), <- (N.mod_small (g (a (pos o'))) (2 ^ nb)) by auto. now rewrite !N.mod_pow2_bits_high. }
      assert (CS : (P mod 3 = 0 \/ P mod 3 = 1 \/ P mod 3 = 2)%N) by lia. destruct CS as [S0|[S1|S2]].
      - exists cz. split; [simpl; auto|]. apply (GEN 0%N gz cz); [lia|lia| | |].
        + intros u w H. now apply MO. + intros p k Hk. rewrite N.add_0_r. destruct (IL p) as [_ [_ I]]. now apply I. + intros p. destruct (IL p) as [I _]. now apply I.
      - exists cy. split; [simpl; auto|]. apply (GEN 1%N gy cy); [lia|lia| | |].
        + intros u w H. now apply MO. + intros p k Hk. destruct (IL p) as [_ [_ I]]. now apply I. + intros p. destruct (IL p) as [I _]. now apply I.
      - exists cx. split; [simpl; auto|]. apply (GEN 2%N gx cx); [lia|lia| | |].
        + intros u w H. now apply MO. + intros p k Hk. destruct (IL p) as [_ [_ I]]. now apply I. + intros p. destruct (IL p) as [I _]. now apply I.
  Qed.

  Theorem separated_points : separated leb B t0.
  Proof.
    intros i x y v HN. assert (Ix : In x (subtrees t0)) by (eapply sub_trans; [|exact HN]; auto with dtt).
    assert (Iy : In y (subtrees t0)) by (eapply sub_trans; [|exact HN]; auto with dtt).
    pose proof (sibling_axis i x y HN) as AX.
    destruct AX as (a & Ha & SEP). destruct (rp_box _ _ _ _ _ _ _ R x Ix) as (bx & Ex & Tx). destruct (rp_box _ _ _ _ _ _ _ R y Iy) as (by' & Ey & Ty).
    split; intros Hv.
    - destruct (rp_box _ _ _ _ _ _ _ R v (sub_trans _ _ _ Hv Ix)) as (bv & Ev & Tv).
      unfold cTb. rewrite Ey, Ev. apply not_true_is_false. intros CT. rewrite contains_iff in CT. destruct (CT a Ha) as [A1 _].
      destruct (Ty a Ha) as (_ & (o' & O' & E') & _). destruct (Tv a Ha) as (_ & (o & O & E) & _). rewrite E, E' in A1.
      apply (SEP o o'); auto. eapply below_sub; eauto.
    - destruct (rp_box _ _ _ _ _ _ _ R v (sub_trans _ _ _ Hv Iy)) as (bv & Ev & Tv).
      unfold cTb. rewrite Ex, Ev. apply not_true_is_false. intros CT. rewrite contains_iff in CT. destruct (CT a Ha) as [_ A1].
      destruct (Tx a Ha) as (_ & _ & (o & O & E)). destruct (Tv a Ha) as (_ & _ & (o' & O' & E')). rewrite E, E' in A1.
      apply (SEP o o'); auto. eapply below_sub; eauto.
  Qed.
End Points.
