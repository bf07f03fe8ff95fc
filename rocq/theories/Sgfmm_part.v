(** From the expansions of the leaves to the particles, and the near interactions. *)
Require Import Reals Lra.
From Verif Require Import Fmm_tensors Fmm_ops Fmm_spec Fmm_orders Fmm_store Fmm_reps.
From Verif Require Import Base Par Karras Karras_spec Traverse Traverse_spec Reduction Scan Scan_spec SortSearch SortSearch_spec BVH BVH_spec BVH_prop P_Traverse Dtt Dtt_spec Dtt_sep Interleave Sgfmm Sgfmm_passes Sgfmm_util Sgfmm_tree Sgfmm_down Sgfmm_field Sgfmm_inv.
From Coq Require Import ZifyBool ZifyNat.
Local Open Scope nat_scope.

Definition z3 : vec3 := mkv 0 0 0.
Lemma comp_add a b i : comp (v3add a b) i = (comp a i + comp b i)%R.
Proof. destruct i; reflexivity. Qed.
Lemma comp_scal k a i : comp (vscal k a) i = (k * comp a i)%R.
Proof. destruct i; reflexivity. Qed.
Lemma comp_z3 i : comp z3 i = 0%R.
Proof. destruct i; reflexivity. Qed.

Lemma firstn_skipn_map (l : list nat) s : forall m, s + m <= length l -> firstn m (skipn s l) = map (fun k => nth k l 0) (seq s m).
Proof.
  revert l. induction s as [|s IH]; intros l m H.
  - cbn [skipn]. revert l H. induction m as [|m IHm]; intros l H; [reflexivity|]. destruct l as [|x l]; [cbn in H; lia|]. cbn [firstn seq map nth]. f_equal.
    rewrite IHm by (cbn in H; lia). rewrite <- seq_shift, map_map. reflexivity.
  - destruct l as [|x l]; cbn [length] in H; [lia|]. cbn [skipn]. rewrite IH by lia. rewrite <- seq_shift, map_map. reflexivity.
Qed.
Lemma Rsum_one v c N : v < N -> Rsum (fun x => ind (x =? v) c) (seq 0 N) = c.
Proof.
  intros H. transitivity (Rsum (fun _ : nat => c) [v]); [|cbn; ring]. rewrite (Rsum_subset (fun _ => c) [v] N).
  - apply Rsum_ext. intros x _. cbn [existsb]. now rewrite orb_false_r.
  - repeat constructor. intros [].
  - intros x [<-|[]]. auto.
Qed.

(** a loop that adds f j to entry j, for distinct j *)
Lemma add_each (body : nat -> list vec3 -> res (list vec3)) (f : nat -> vec3) n ids : NoDup ids ->
  (forall j, In j ids -> j < n /\ forall ax, length ax = n -> body j ax = Ok (upd ax j (v3add (nth j ax z3) (f j)))) ->
  forall ax, length ax = n -> exists ax', rfold body ids ax = Ok ax' /\ length ax' = n /\
    (forall j, In j ids -> nth j ax' z3 = v3add (nth j ax z3) (f j)) /\ (forall j, ~ In j ids -> nth j ax' z3 = nth j ax z3).
Proof.
  induction ids as [|j ids IH]; intros ND H ax L; cbn [rfold].
  - exists ax. split; auto. split; auto. split; [intros j []|auto].
  - apply NoDup_cons_iff in ND; destruct ND as [NI ND']. destruct (H j (or_introl eq_refl)) as (Hj & E). rewrite E by auto. cbn [rbind].
    destruct (IH ND' (fun x Hx => H x (or_intror Hx)) (upd ax j (v3add (nth j ax z3) (f j)))) as (ax' & E' & L' & A1 & A2); [now rewrite length_upd|].
    exists ax'. split; auto. split; auto. split.
    + intros x [<-|Hx].
      * rewrite A2 by auto. apply nth_upd_eq. lia.
      * rewrite A1 by auto. f_equal. apply nth_upd_neq. intros ->. auto.
    + intros x Hx. rewrite A2 by (intros X; apply Hx; simpl; auto). apply nth_upd_neq. intros ->. apply Hx. simpl; auto.
Qed.
(** a kernel whose work items do this on disjoint sets of entries *)
Lemma add_groups (body : nat -> list vec3 -> res (list vec3)) (f : nat -> nat -> vec3) (ids : nat -> list nat) n order : NoDup order ->
  (forall k k' j, In k order -> In k' order -> In j (ids k) -> In j (ids k') -> k = k') ->
  (forall k, In k order -> forall ax, length ax = n -> exists ax', body k ax = Ok ax' /\ length ax' = n /\
     (forall j, In j (ids k) -> nth j ax' z3 = v3add (nth j ax z3) (f k j)) /\ (forall j, ~ In j (ids k) -> nth j ax' z3 = nth j ax z3)) ->
  forall ax, length ax = n -> exists ax', rfold body order ax = Ok ax' /\ length ax' = n /\
    (forall k j, In k order -> In j (ids k) -> nth j ax' z3 = v3add (nth j ax z3) (f k j)) /\
    (forall j, (forall k, In k order -> ~ In j (ids k)) -> nth j ax' z3 = nth j ax z3).
Proof.
  induction order as [|k order IH]; intros ND DJ H ax L; cbn [rfold].
  - exists ax. split; auto. split; auto. split; [intros k j []|auto].
  - apply NoDup_cons_iff in ND; destruct ND as [NI ND']. destruct (H k (or_introl eq_refl) ax L) as (a1 & E1 & L1 & B1 & B2). rewrite E1. cbn [rbind].
    destruct (IH ND') with (ax := a1) as (ax' & E' & L' & A1 & A2); auto.
    { intros x y j Hx Hy. apply DJ; simpl; auto. }
    { intros x Hx. apply H. simpl; auto. }
    exists ax'. split; auto. split; auto. split.
    + intros x j [<-|Hx] Hj.
      * rewrite A2; [now apply B1|]. intros y Hy Hy'. apply NI. rewrite (DJ k y j); simpl; auto.
      * rewrite (A1 x) by auto. f_equal. apply B2. intros X. apply NI. rewrite (DJ k x j); simpl; auto.
    + intros j Hj. rewrite A2 by (intros y Hy; apply Hj; simpl; auto). apply B2. apply Hj. simpl; auto.
Qed.

Section Part.
  Context (o : mmorder) (B : @bvh R) (xyz : list (vec R)) (leb : R -> R -> bool) (plo phi : nat -> vec R) (t : tree) (objs : nat -> list nat) (gm : R).
  Hypothesis RP : represents leb plo phi (length xyz) B t objs.
  Hypothesis SZ : (Z.of_nat (b_leafs B) <= 2 ^ 24 + 1)%Z.
  Notation cells := (b_cells B).
  Notation off := (length (b_cells B)).
  Notation nid := (node_id (length (b_cells B))).
  Notation total := (total_cell_count B).
  Notation fnode := (find_node (b_cells B) t).
  Notation ctr := (ctr B).
  Notation pnt := (pnt xyz).
  Notation below := (below objs).
  Notation n := (length xyz).
  Let TF := T_find B xyz leb plo phi t objs RP.
  Let TFO := T_find_ok B xyz leb plo phi t objs RP.
  Let TT := T_total B xyz leb plo phi t objs RP SZ.
  Let TL := T_leaves B xyz leb plo phi t objs RP.

  Lemma objs_nd : NoDup (flat_map objs (leaves t)).
  Proof. eapply Permutation_NoDup; [symmetry; apply (rp_partition _ _ _ _ _ _ _ RP)|apply seq_NoDup]. Qed.
  Lemma objs_dis k k' j : k <= off -> k' <= off -> In j (objs k) -> In j (objs k') -> k = k'.
  Proof.
    intros H H' J J'. pose proof objs_nd as ND. rewrite TL in ND.
    assert (G : forall l, NoDup l -> NoDup (flat_map objs l) -> In k l -> In k' l -> k = k').
    { induction l as [|x l IH]; intros N1 N2 I1 I2; [destruct I1|]. cbn [flat_map] in N2. inversion N1; subst.
      destruct I1 as [->|I1], I2 as [E|I2]; auto.
      - exfalso. eapply NoDup_app_disj; [exact N2|exact J|]. apply in_flat_map. eauto.
      - subst x. exfalso. eapply NoDup_app_disj; [exact N2|exact J'|]. apply in_flat_map. eauto.
      - apply IH; auto. eapply NoDup_app_r; eauto. }
    apply (G (seq 0 (off + 1))); auto; [apply seq_NoDup|apply in_seq; lia|apply in_seq; lia].
  Qed.
  Lemma objs_nd1 k : k <= off -> NoDup (objs k).
  Proof.
    intros H. pose proof objs_nd as ND. rewrite TL in ND. assert (I : In k (seq 0 (off + 1))) by (apply in_seq; lia).
    apply in_split in I. destruct I as (a & b & E). rewrite E, flat_map_app in ND. apply NoDup_app_r in ND. cbn [flat_map] in ND. now apply NoDup_app_l in ND.
  Qed.
  Lemma leaf_of j : j < n -> exists k, k <= off /\ In j (objs k).
  Proof.
    intros Hj. assert (I : In j (flat_map objs (leaves t))) by (eapply Permutation_in; [symmetry; apply (rp_partition _ _ _ _ _ _ _ RP)|apply in_seq; lia]).
    apply in_flat_map in I. destruct I as (k & Hk & Hj'). exists k. split; auto. rewrite TL in Hk. apply in_seq in Hk. lia.
  Qed.
  (** being below a cell, for a particle and for its leaf *)
  Lemma below_leaf k j u : k <= off -> In j (objs k) -> In u (subtrees t) -> inb j (below u) = inb k (leaves u).
  Proof.
    intros Hk Hj Hu. apply eq_true_iff_eq. rewrite !inb_in. unfold Sgfmm_tree.below. rewrite in_flat_map. split.
    - intros (k' & H1 & H2). assert (E : k = k'); [|now subst]. apply (objs_dis k k' j); auto.
      assert (H : In k' (leaves t)) by (eapply leaves_sub; eauto). rewrite TL in H. apply in_seq in H. lia.
    - intros H. exists k. auto.
  Qed.
  Lemma objects_eq a : a < total -> for_each_in_cell (b_map B) (b_red B) cells a = Ok (below (fnode a)).
  Proof. intros Ha. destruct (TFO a Ha) as [X Y]. pose proof (rp_cell _ _ _ _ _ _ _ RP _ X) as E. rewrite Y in E. exact E. Qed.
  Lemma cell_objects_eq a : a < total -> cell_objects B a = below (fnode a).
  Proof. intros Ha. unfold cell_objects. now rewrite objects_eq. Qed.
  Lemma below_nd a : a < total -> NoDup (below (fnode a)).
  Proof.
    intros Ha. destruct (TFO a Ha) as [X _]. pose proof objs_nd as ND. clear - X ND. revert X ND. generalize (fnode a) as u. unfold Sgfmm_tree.below.
    induction t as [k|i l IHl r IHr]; intros u X ND; cbn [subtrees] in X.
    - destruct X as [<-|[]]. auto.
    - cbn [leaves] in ND. rewrite flat_map_app in ND. destruct X as [<-|X]; [cbn [leaves]; rewrite flat_map_app; auto|]. apply in_app_or in X. destruct X as [X|X].
      + apply IHl; auto. eapply NoDup_app_l; eauto.
      + apply IHr; auto. eapply NoDup_app_r; eauto.
  Qed.
  Lemma below_n a j : a < total -> In j (below (fnode a)) -> j < n.
  Proof. intros Ha. destruct (TFO a Ha) as [X _]. now apply (below_lt B xyz leb plo phi t objs RP). Qed.

  (** ** L2P *)
  Theorem l2p_ok order G grav fv axyz : Permutation order (seq 0 (b_leafs B)) ->
    (forall id, id < total -> cell_is (grav_terms o) grav id (grav_out o (fv id))) -> length axyz = n ->
    exists ax', l2p o B xyz order G grav axyz = Ok ax' /\ length ax' = n /\
      forall k j c, k <= off -> In j (objs k) -> comp (nth j ax' z3) c = (comp (nth j axyz z3) c + - G * field_of o (fv (k + off)%nat) (ctr (Leaf k)) (pnt j) c)%R.
  Proof.
    intros HO HC LA. unfold l2p, kernel_call. rewrite (T_leafs B xyz leb plo phi t objs RP) in *. replace (off + 1 =? 0) with false by lia. unfold par_for.
    assert (HI : forall i, In i order <-> i <= off) by (intros i; split; intros H; [apply (Permutation_in _ HO), in_seq in H; lia|apply (Permutation_in _ (Permutation_sym HO)), in_seq; lia]).
    set (f := fun k j => vscal (- G) (contract_to_force o (mass_from_vec o (v3sub (pnt j) (ctr (Leaf k)))) (fv (k + off)))).
    match goal with |- exists ax', rfold ?bd order axyz = Ok ax' /\ _ => destruct (add_groups bd f objs n order) with (ax := axyz) as (ax' & E & L & A1 & _); auto end.
    - apply (Permutation_NoDup (Permutation_sym HO)), seq_NoDup.
    - intros k k' j Hk Hk' Hj Hj'. apply HI in Hk, Hk'. eapply objs_dis; eauto.
    - intros k Hk ax L. apply HI in Hk. assert (HL : In k (leaves t)) by (rewrite TL; apply in_seq; lia). pose proof (leaf_sub _ _ HL) as HS.
      assert (Hid : k + off < total) by (unfold total_cell_count; lia).
      rewrite (fetch_ok _ _ _ (grav_out o (fv (k + off)))) by (try apply grav_out_len; intros c Hc; now apply HC). cbn [rbind].
      change (k + off) with (nid (Leaf k)) at 1. rewrite (center_ok B xyz leb plo phi t objs RP) by auto. cbn [rbind].
      rewrite (rp_leaf _ _ _ _ _ _ _ RP k HL). cbn [rbind].
      apply (add_each _ (f k)); auto; [now apply objs_nd1|]. intros j Hj.
      assert (Hjn : j < n) by (apply (below_lt B xyz leb plo phi t objs RP (Leaf k)); auto; now rewrite leaf_below). split; auto.
      intros a La. rewrite aget_xyz by auto. cbn [rbind]. rewrite (aget_lt a j z3) by lia. cbn [rbind]. rewrite aset_lt by lia. rewrite grav_in_out. reflexivity.
    - exists ax'. split; auto. split; auto. intros k j c Hk Hj. rewrite (A1 k j) by (try apply HI; auto). rewrite comp_add. unfold f. rewrite comp_scal. reflexivity.
  Qed.

  (** ** the inverted list *)
  Lemma incidences_ok : incidences B = Ok (flat_map (fun c => map (pair c) (below (fnode c))) (seq 0 total)).
  Proof.
    unfold incidences.
    assert (G : forall l acc, (forall c, In c l -> c < total) -> rfold (fun c acc => ids <- for_each_in_cell (b_map B) (b_red B) cells c ;; Ok (acc ++ map (pair c) ids)) l acc =
      Ok (acc ++ flat_map (fun c => map (pair c) (below (fnode c))) l)).
    { induction l as [|c l IH]; intros acc H; cbn [rfold flat_map]; [now rewrite app_nil_r|]. rewrite objects_eq by (apply H; simpl; auto). cbn [rbind].
      rewrite IH by (intros; apply H; simpl; auto). now rewrite <- app_assoc. }
    rewrite G; auto. intros c Hc. apply in_seq in Hc. lia.
  Qed.
  Definition incs : list (nat * nat) := flat_map (fun c => map (pair c) (below (fnode c))) (seq 0 total).
  Lemma incs_lt p : In p incs -> snd p < n.
  Proof.
    intros H. apply in_flat_map in H. destruct H as (c & Hc & H). apply in_map_iff in H. destruct H as (j & <- & Hj). apply in_seq in Hc. cbn [snd]. eapply below_n; eauto. lia.
  Qed.
  Lemma gr_incs a : gr incs a = filter (fun c => inb a (below (fnode c))) (seq 0 total).
  Proof.
    unfold incs. assert (H : forall c, In c (seq 0 total) -> c < total) by (intros c Hc; apply in_seq in Hc; lia).
    induction (seq 0 total) as [|c l IH]; [reflexivity|]. cbn [flat_map filter]. rewrite gr_app, IH by (intros; apply H; simpl; auto).
    assert (Hc : c < total) by (apply H; simpl; auto). pose proof (below_nd c Hc) as ND. clear - ND. replace (gr (map (pair c) (below (fnode c))) a) with (if inb a (below (fnode c)) then [c] else []); [destruct (inb a _); reflexivity|].
    induction (below (fnode c)) as [|x L IHL]; [reflexivity|]. apply NoDup_cons_iff in ND; destruct ND as [NI ND]. cbn [map]. rewrite gr_cons. cbn [fst snd inb existsb]. rewrite (Nat.eqb_sym a x).
    destruct (Nat.eqb_spec x a) as [->|NE]; cbn [orb]; [|apply IHL; auto]. rewrite <- IHL by auto. 
    destruct (inb a L) eqn:E; [apply inb_in in E; contradiction|reflexivity].
  Qed.

  (** ** near interactions *)
  Lemma near_item G gm' eps2 offs cont (q : list ipair) offp a s e : grouped total q offp -> (forall p, In p q -> fst p < total /\ snd p < total) ->
    a < n -> aget offs a = Ok (Z.of_nat s) -> aget offs (a + 1) = Ok (Z.of_nat e) -> s <= e <= length cont ->
    Permutation (slice s e cont) (gr incs a) ->
    exists f, p2p_item B xyz G gm' eps2 offs cont q offp a = Ok f /\ forall c, comp f c =
      Rsum (fun p => ind (inb a (below (fnode (fst p)))) (Rsum (fun j => comp (p2p_term G gm' eps2 (pnt a) (pnt j)) c) (below (fnode (snd p))))) q.
  Proof.
    intros HG HB Ha E1 E2 SE PM. unfold p2p_item. rewrite E1. cbn [rbind]. rewrite E2. cbn [rbind]. rewrite !Nat2Z.id.
    set (g := fun c icell => Rsum (fun p => ind (fst p =? icell) (Rsum (fun j => comp (p2p_term G gm' eps2 (pnt a) (pnt j)) c) (below (fnode (snd p))))) q).
    assert (CL : forall x, In x (slice s e cont) -> x < total).
    { intros x Hx. apply (Permutation_in _ PM) in Hx. rewrite gr_incs in Hx. apply filter_In in Hx. destruct Hx as [Hx _]. apply in_seq in Hx. lia. }
    assert (IT : forall icell f0, icell < total -> exists f1, (s2 <- aget offp icell ;; e2 <- aget offp (icell + 1) ;;
      rfold (fun j f => p <- aget q j ;; if fst p =? icell then ids <- for_each_in_cell (b_map B) (b_red B) cells (snd p) ;;
          rfold (fun j f => xj <- aget xyz j ;; xi <- aget xyz a ;; Ok (v3add f (p2p_term G gm' eps2 (tov xi) (tov xj)))) ids f else UB)
        (seq (Z.to_nat s2) (Z.to_nat e2 - Z.to_nat s2)) f0) = Ok f1 /\ forall c, comp f1 c = (comp f0 c + g c icell)%R).
    { intros icell f0 Hc. destruct (Rsum_segment total q offp icell dp (fun _ => 0%R) HG Hc) as (s2 & e2 & F1 & F2 & F3 & F4 & _).
      unfold aget at 1. rewrite F1. cbn [rbind]. unfold aget at 1. rewrite F2. cbn [rbind]. rewrite !Nat2Z.id.
      assert (PR : forall c, g c icell = Rsum (fun i => Rsum (fun j => comp (p2p_term G gm' eps2 (pnt a) (pnt j)) c) (below (fnode (snd (nth i q dp))))) (seq s2 (e2 - s2))).
      { intros c. destruct (Rsum_segment total q offp icell dp (fun p => Rsum (fun j => comp (p2p_term G gm' eps2 (pnt a) (pnt j)) c) (below (fnode (snd p)))) HG Hc) as (s' & e' & F1' & F2' & _ & _ & F5).
        rewrite F1 in F1'. rewrite F2 in F2'. injection F1' as F1'. injection F2' as F2'. apply Nat2Z.inj in F1', F2'. subst s' e'. now rewrite F5. }
      assert (HS : forall i, In i (seq s2 (e2 - s2)) -> i < length q /\ fst (nth i q dp) = icell) by (intros i Hi; apply in_seq in Hi; split; [lia|apply F4; lia]).
      set (l := seq s2 (e2 - s2)) in *. setoid_rewrite PR. clearbody l. clear - HS HB Ha RP TFO TF TL. revert f0. induction l as [|i l IH]; intros f0; cbn [rfold].
      - exists f0. split; auto. intros c. cbn. ring.
      - destruct (HS i (or_introl eq_refl)) as [H1 H2]. rewrite (aget_lt q i dp) by auto. cbn [rbind]. rewrite H2, Nat.eqb_refl.
        assert (Hb : snd (nth i q dp) < total) by (apply HB, nth_In; auto). rewrite objects_eq by auto. cbn [rbind].
        rewrite (rfold_pure _ (fun j f => v3add f (p2p_term G gm' eps2 (pnt a) (pnt j)))).
        2:{ intros j f Hj. rewrite aget_xyz by (eapply below_n; eauto). cbn [rbind]. rewrite aget_xyz by auto. reflexivity. }
        cbn [rbind]. destruct (IH (fun x Hx => HS x (or_intror Hx)) (fold_left (fun f j => v3add f (p2p_term G gm' eps2 (pnt a) (pnt j))) (below (fnode (snd (nth i q dp)))) f0)) as (f1 & E & V).
        exists f1. split; auto. intros c. rewrite V, Rsum_cons. rewrite <- Rplus_assoc. f_equal. clear. generalize f0. induction (below (fnode (snd (nth i q dp)))) as [|j l IH]; intros f; cbn [fold_left]; [cbn; ring|].
        rewrite IH, Rsum_cons, comp_add. ring. }
    assert (MAIN : forall f0, exists f1, rfold (fun k f => icell <- aget cont k ;; s2 <- aget offp icell ;; e2 <- aget offp (icell + 1) ;;
      rfold (fun j f => p <- aget q j ;; if fst p =? icell then ids <- for_each_in_cell (b_map B) (b_red B) cells (snd p) ;;
          rfold (fun j f => xj <- aget xyz j ;; xi <- aget xyz a ;; Ok (v3add f (p2p_term G gm' eps2 (tov xi) (tov xj)))) ids f else UB)
        (seq (Z.to_nat s2) (Z.to_nat e2 - Z.to_nat s2)) f) (seq s (e - s)) f0 = Ok f1 /\ forall c, comp f1 c = (comp f0 c + Rsum (g c) (slice s e cont))%R).
    { assert (SL : slice s e cont = map (fun k => nth k cont 0) (seq s (e - s))).
      { unfold slice. apply firstn_skipn_map. lia. }
      assert (HS : forall k, In k (seq s (e - s)) -> k < length cont /\ nth k cont 0 < total).
      { intros k Hk. split; [apply in_seq in Hk; lia|]. apply CL. rewrite SL. apply in_map_iff. eauto. }
      rewrite SL. clear SL CL PM SE E2. induction (seq s (e - s)) as [|k l IH]; intros f0; cbn [rfold map].
      - exists f0. split; auto. intros c. cbn. ring.
      - destruct (HS k (or_introl eq_refl)) as [H1 H2]. rewrite (aget_lt cont k 0) by auto. cbn [rbind]. destruct (IT (nth k cont 0) f0 H2) as (f1 & E & V). rewrite E. cbn [rbind].
        destruct (IH (fun x Hx => HS x (or_intror Hx)) f1) as (f2 & E' & V'). exists f2. split; auto. intros c. rewrite V', V, Rsum_cons. ring. }
    destruct (MAIN (mkv 0 0 0)) as (f & E & V). exists f. split; [exact E|]. intros c. rewrite V. change (mkv 0 0 0) with z3. rewrite comp_z3, Rplus_0_l.
    rewrite (Rsum_perm _ _ _ _ PM), gr_incs, Rsum_filter. unfold g.
    transitivity (Rsum (fun x => Rsum (fun p => ind (inb a (below (fnode x))) (ind (fst p =? x) (Rsum (fun j => comp (p2p_term G gm' eps2 (pnt a) (pnt j)) c) (below (fnode (snd p)))))) q) (seq 0 total)).
    { apply Rsum_ext. intros x _. symmetry. apply Rsum_ind. }
    rewrite Rsum_swap. apply Rsum_ext. intros p Hp. destruct (HB p Hp) as [H1 _].
    transitivity (Rsum (fun x => ind (x =? fst p) (ind (inb a (below (fnode (fst p)))) (Rsum (fun j => comp (p2p_term G gm' eps2 (pnt a) (pnt j)) c) (below (fnode (snd p)))))) (seq 0 total)).
    { apply Rsum_ext. intros x _. unfold ind. rewrite (Nat.eqb_sym x). destruct (Nat.eqb_spec (fst p) x) as [<-|]; auto. destruct (inb a _); auto. }
    apply Rsum_one. auto.
  Qed.
End Part.
