(** The interactions between cells and the field of the local expansion of a leaf. *)
Require Import Reals Lra.
From Verif Require Import Fmm_tensors Fmm_ops Fmm_spec Fmm_orders Fmm_store Fmm_reps.
From Verif Require Import Base Par Karras Karras_spec Traverse Traverse_spec Reduction Scan SortSearch BVH BVH_spec BVH_prop P_Traverse Dtt Dtt_spec Dtt_sep Interleave Sgfmm Sgfmm_passes Sgfmm_util Sgfmm_tree Sgfmm_down.
From Coq Require Import ZifyBool ZifyNat.
Local Open Scope nat_scope.

(** sum over the segment of the pairs of g *)
Lemma Rsum_segment N (L : list ipair) offs g d (f : ipair -> R) : grouped N L offs -> g < N ->
  exists s e, nth_error offs g = Some (Z.of_nat s) /\ nth_error offs (g + 1) = Some (Z.of_nat e) /\ s <= e <= length L /\
    (forall i, s <= i < e -> fst (nth i L d) = g) /\
    Rsum (fun i => f (nth i L d)) (seq s (e - s)) = Rsum (fun p => ind (fst p =? g) (f p)) L.
Proof.
  intros (LO & H) Hg. destruct (H g Hg) as (s & e & E1 & E2 & E3 & E4). exists s, e. split; auto. split; auto. split; auto.
  assert (NE : forall i, i < length L -> nth_error L i = Some (nth i L d)) by (intros; now apply nth_error_nth').
  split; [intros i Hi; apply (E4 i); [apply NE; lia|lia]|].
  assert (LL : L = map (fun i => nth i L d) (seq 0 (length L))).
  { clear. induction L as [|x L IH]; [reflexivity|]. cbn [length seq map nth]. f_equal. rewrite <- seq_shift, map_map. exact IH. }
  transitivity (Rsum (fun i => ind (fst (nth i L d) =? g) (f (nth i L d))) (seq 0 (length L))).
  2:{ symmetry. etransitivity; [exact (f_equal (Rsum (fun p => ind (fst p =? g) (f p))) LL)|apply Rsum_map]. }
  replace (length L) with (s + ((e - s) + (length L - e))) by lia. rewrite !seq_app, !Rsum_app. cbn [Nat.add].
  replace (s + (e - s)) with e by lia.
  rewrite (Rsum_ext _ _ (fun _ => 0%R) (seq 0 s)), (Rsum_ext _ _ (fun _ => 0%R) (seq e _)), !Rsum_zero.
  - rewrite Rplus_0_l, Rplus_0_r. apply Rsum_ext. intros i Hi. apply in_seq in Hi. unfold ind. rewrite (proj2 (E4 i _ (NE i ltac:(lia)))) by lia. now rewrite Nat.eqb_refl.
  - intros i Hi. apply in_seq in Hi. unfold ind. destruct (Nat.eqb_spec (fst (nth i L d)) g) as [X|X]; auto. apply (E4 i _ (NE i ltac:(lia))) in X. lia.
  - intros i Hi. apply in_seq in Hi. unfold ind. destruct (Nat.eqb_spec (fst (nth i L d)) g) as [X|X]; auto. apply (E4 i _ (NE i ltac:(lia))) in X. lia.
Qed.

Lemma inb_in k l : inb k l = true <-> In k l.
Proof. unfold inb. rewrite existsb_exists. split; [intros (x & H & E); apply Nat.eqb_eq in E; now subst|intros H; exists k; split; auto; apply Nat.eqb_refl]. Qed.
Lemma inb_app k a b : inb k (a ++ b) = inb k a || inb k b.
Proof. apply existsb_app. Qed.

Section Field.
  Context (o : mmorder) (B : @bvh R) (xyz : list (vec R)) (leb : R -> R -> bool) (plo phi : nat -> vec R) (t : tree) (objs : nat -> list nat) (gm : R).
  Hypothesis RP : represents leb plo phi (length xyz) B t objs.
  Hypothesis SZ : (Z.of_nat (b_leafs B) <= 2 ^ 24 + 1)%Z.
  Notation cells := (b_cells B).
  Notation off := (length (b_cells B)).
  Notation nid := (node_id (length (b_cells B))).
  Notation total := (total_cell_count B).
  Notation fnode := (find_node (b_cells B) t).
  Notation ctr := (ctr B).
  Notation pnt := (pnt xyz).
  Notation below := (below objs).
  Let TF := T_find B xyz leb plo phi t objs RP.
  Let TFO := T_find_ok B xyz leb plo phi t objs RP.
  Let TT := T_total B xyz leb plo phi t objs RP SZ.

  (** ** downward: the expansion of a leaf is the sum of those of the cells around it *)
  Section Sum.
    Variable ini : nat -> GravMoments o.
    Lemma fin_field u : NoDup (leaves u) -> forall d v k d' v', In (Leaf k, (d', v')) (fin o B ini u d v) -> forall x i,
      field_of o v' (ctr (Leaf k)) x i =
      (field_of o v (ctr u) x i + Rsum (fun a => ind (inb k (leaves a)) (field_of o (ini (nid a)) (ctr a) x i)) (tl (subtrees u)))%R.
    Proof.
      induction u as [j|j l IHl r IHr]; intros ND d v k d' v' H x i; cbn [fin] in H.
      - destruct H as [H|[]]. injection H as -> -> ->. cbn. ring.
      - destruct H as [H|H]; [discriminate|]. cbn [leaves] in ND.
        assert (LV : forall u d v, In (Leaf k, (d', v')) (fin o B ini u d v) -> In k (leaves u)).
        { intros u d0 v0 Hu. apply sub_leaf_in. rewrite <- (fin_fst o B ini u d0 v0). change (Leaf k) with (fst (Leaf k, (d', v'))). now apply in_map. }
        assert (Z0 : forall u, ~ In k (leaves u) -> Rsum (fun a => ind (inb k (leaves a)) (field_of o (ini (nid a)) (ctr a) x i)) (subtrees u) = 0%R).
        { intros u Hu. rewrite (Rsum_ext _ _ (fun _ => 0%R)); [apply Rsum_zero|]. intros a Ha. destruct (inb k (leaves a)) eqn:E; [|reflexivity].
          exfalso. apply Hu. eapply leaves_sub; eauto. now apply inb_in. }
        assert (HD : forall u d v, In (Leaf k, (d', v')) (fin o B ini u d v) ->
          Rsum (fun a => ind (inb k (leaves a)) (field_of o (ini (nid a)) (ctr a) x i)) (subtrees u) =
          (field_of o (ini (nid u)) (ctr u) x i + Rsum (fun a => ind (inb k (leaves a)) (field_of o (ini (nid a)) (ctr a) x i)) (tl (subtrees u)))%R).
        { intros u d0 v0 Hu. apply LV in Hu. apply inb_in in Hu. destruct u; cbn [subtrees tl]; rewrite Rsum_cons, Hu; reflexivity. }
        cbn [subtrees tl]. rewrite Rsum_app. apply in_app_or in H. destruct H as [H|H].
        + rewrite (Z0 r) by (intros X; eapply NoDup_app_disj; [exact ND| |exact X]; eapply LV; eauto).
          rewrite (HD l _ _ H). rewrite (IHl (NoDup_app_l _ _ ND) _ _ _ _ _ H). rewrite field_of_acc, field_of_offset. ring.
        + rewrite (Z0 l) by (intros X; eapply NoDup_app_disj; [exact ND|exact X|]; eapply LV; eauto).
          rewrite (HD r _ _ H). rewrite (IHr (NoDup_app_r _ _ ND) _ _ _ _ _ H). rewrite field_of_acc, field_of_offset. ring.
    Qed.
    Lemma leaf_field k : k <= off -> forall x i, field_of o (fval o B t ini (k + off)) (ctr (Leaf k)) x i =
      Rsum (fun id => ind (inb k (leaves (fnode id))) (field_of o (ini id) (ctr (fnode id)) x i)) (seq 0 total).
    Proof.
      intros Hk x i. destruct (ent_ok o B xyz leb plo phi t objs RP ini (k + off)) as [E1 E2]; [unfold total_cell_count; lia|].
      assert (HS : In (Leaf k) (subtrees t)) by (apply leaf_sub; rewrite (T_leaves B xyz leb plo phi t objs RP); apply in_seq; lia).
      pose proof (TF _ HS) as F. cbn [node_id] in F. unfold fval. destruct (ent o B t ini (k + off)) as [u [d v]]. cbn [fst snd] in *. rewrite E2, F in E1.
      assert (ND : NoDup (leaves t)) by (rewrite (T_leaves B xyz leb plo phi t objs RP); apply seq_NoDup).
      rewrite (fin_field t ND _ _ _ _ _ E1).
      rewrite (Rsum_cells B xyz leb plo phi t objs RP).
      rewrite (Rsum_ext _ _ (fun a => ind (inb k (leaves a)) (field_of o (ini (nid a)) (ctr a) x i)) (subtrees t)) by (intros u' Hu; now rewrite TF).
      assert (IT : inb k (leaves t) = true) by (apply inb_in; now apply sub_leaf_in).
      destruct t; cbn [subtrees tl]; rewrite Rsum_cons, IT; reflexivity.
    Qed.
  End Sum.

  (** ** M2L *)
  (** the force on x of the mass j of cell b, seen from cell a *)
  Definition gfar (a b : nat) (x : vec3) (i : ix) (j : nat) : R :=
    (gm * taylor Dgrav (ordn o - 1) (vsub (ctr (fnode b)) (ctr (fnode a))) (vsub (vsub (pnt j) (ctr (fnode b))) (vsub x (ctr (fnode a)))) i)%R.
  Lemma fetch_mass mass b : mass_done o B xyz t objs gm mass -> b < total -> fetch (b * mass_terms o) (mass_terms o) mass = Ok (mass_out o (mval o B xyz objs gm (fnode b))).
  Proof.
    intros (L & H) Hb. destruct (TFO b Hb) as [X Y]. apply fetch_ok; [apply mass_out_len|]. intros c Hc. rewrite <- Y at 1. now apply H.
  Qed.
  Definition m2l_step (a : nat) (dM : GravMoments o) (p : ipair) : GravMoments o :=
    grav_acc o dM (get_dM_mat o (green_der o (v3sub (ctr (fnode (snd p))) (ctr (fnode a)))) (mval o B xyz objs gm (fnode (snd p)))).
  Definition dp : ipair := (0, 0).
  Lemma m2l_ok m2l offs mass a : mass_done o B xyz t objs gm mass -> grouped total m2l offs -> (forall p, In p m2l -> fst p < total /\ snd p < total) -> a < total ->
    exists dM, m2l_cell o B m2l offs mass a = Ok dM /\ forall x i, field_of o dM (ctr (fnode a)) x i =
      Rsum (fun p => ind (fst p =? a) (Rsum (gfar a (snd p) x i) (below (fnode (snd p))))) m2l.
  Proof.
    intros HM HG HB Ha. destruct (TFO a Ha) as [XA YA]. unfold m2l_cell.
    pose proof (center_ok B xyz leb plo phi t objs RP) as CO.
    destruct (Rsum_segment total m2l offs a dp (fun _ => 0%R) HG Ha) as (s & e & E1 & E2 & E3 & E4 & _).
    assert (CA : forall c, c < total -> center B c = Ok (ctr (fnode c))) by (intros c Hc; destruct (TFO c Hc) as [XC YC]; rewrite <- (CO _ XC); now rewrite YC).
    rewrite CA by auto. cbn [rbind]. unfold aget. rewrite E1. cbn [rbind]. rewrite E2. cbn [rbind]. rewrite !Nat2Z.id.
    eexists. split.
    - apply (rfold_pure _ (fun i dM => m2l_step a dM (nth i m2l dp))). intros i dM Hi. apply in_seq in Hi.
      assert (Hi' : i < length m2l) by lia. fold (aget m2l i). rewrite (aget_lt m2l i dp) by auto. cbn [rbind]. rewrite E4 by lia. rewrite Nat.eqb_refl.
      assert (Hb : snd (nth i m2l dp) < total) by (apply HB, nth_In; auto). rewrite fetch_mass by auto. cbn [rbind].
      rewrite CA by auto. cbn [rbind]. rewrite mass_in_out. reflexivity.
    - intros x i. destruct (Rsum_segment total m2l offs a dp (fun p => Rsum (gfar a (snd p) x i) (below (fnode (snd p)))) HG Ha) as (s' & e' & E1' & E2' & _ & _ & E5).
      rewrite E1 in E1'. rewrite E2 in E2'. injection E1' as E1'. injection E2' as E2'. apply Nat2Z.inj in E1', E2'. subst s' e'. rewrite <- E5. clear E5.
      assert (G : forall l dM0, field_of o (fold_left (fun s a0 => m2l_step a s (nth a0 m2l dp)) l dM0) (ctr (fnode a)) x i =
        (field_of o dM0 (ctr (fnode a)) x i + Rsum (fun j => Rsum (gfar a (snd (nth j m2l dp)) x i) (below (fnode (snd (nth j m2l dp))))) l)%R).
      { induction l as [|j l IH]; intros dM0; cbn [fold_left]; [cbn; ring|]. rewrite IH, Rsum_cons. unfold m2l_step. rewrite field_of_acc.
        set (b := snd (nth j m2l dp)). change v3sub with vsub. rewrite (field_of_m2l o _ (pts xyz objs gm (fnode b)) (ctr (fnode a)) (ctr (fnode b)) x i (mval_ok o B xyz objs gm (fnode b))).
        unfold pts. rewrite Rsum_map. cbn [fst snd]. unfold gfar. ring. }
      rewrite G, field_of_zeros. ring.
  Qed.

  Theorem m2l_kernel_ok order m2l offs mass buf : mass_done o B xyz t objs gm mass -> grouped total m2l offs -> (forall p, In p m2l -> fst p < total /\ snd p < total) ->
    Permutation order (seq 0 total) -> length buf = total * grav_terms o ->
    exists x ini, m2l_kernel o B order m2l offs mass buf = Ok x /\ length x = total * grav_terms o /\
      (forall id, id < total -> cell_is (grav_terms o) x id (grav_out o (ini id))) /\
      forall id, id < total -> forall y i, field_of o (ini id) (ctr (fnode id)) y i = Rsum (fun p => ind (fst p =? id) (Rsum (gfar id (snd p) y i) (below (fnode (snd p))))) m2l.
  Proof.
    intros HM HG HB HO LB. set (ini := fun id => match m2l_cell o B m2l offs mass id with Ok v => v | _ => grav_zeros o end).
    assert (IO : forall id, id < total -> m2l_cell o B m2l offs mass id = Ok (ini id) /\ forall y i, field_of o (ini id) (ctr (fnode id)) y i = Rsum (fun p => ind (fst p =? id) (Rsum (gfar id (snd p) y i) (below (fnode (snd p))))) m2l).
    { intros id Hid. destruct (m2l_ok m2l offs mass id HM HG HB Hid) as (v & E & F). unfold ini. rewrite E. auto. }
    unfold m2l_kernel, kernel_call. replace (total =? 0) with false by (unfold total_cell_count; lia). unfold par_for.
    assert (HI : forall i, In i order <-> i < total) by (intros i; split; intros H; [apply (Permutation_in _ HO), in_seq in H; lia|apply (Permutation_in _ (Permutation_sym HO)), in_seq; lia]).
    destruct (par_cells (grav_terms o) (fun i => i) (fun i => grav_out o (ini i)) (fun i => Q <- m2l_cell o B m2l offs mass i ;; Ok (grav_out o Q)) total order) with (buf := buf) as (x & E & L & A & _); auto.
    - apply (Permutation_NoDup (Permutation_sym HO)), seq_NoDup.
    - intros i Hi. apply HI in Hi. split; auto. rewrite (proj1 (IO i Hi)). cbn [rbind]. split; auto. apply grav_out_len.
    - exists x, ini. split; [|split; [lia|split; [intros id Hid; apply A, HI; auto|intros id Hid; apply IO; auto]]]. rewrite <- E. clear. generalize buf. induction order as [|i l IH]; intros b; [reflexivity|]. cbn [rfold].
      destruct (m2l_cell o B m2l offs mass i); cbn [rbind]; auto. destruct (put _ _ _); cbn [rbind]; auto.
  Qed.
End Field.
