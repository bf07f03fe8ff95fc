(** Proofs about the tree walks and the direct sum of self gravity. *)
Require Import Reals Lra.
From Verif Require Import Fmm_tensors Fmm_ops Fmm_spec Fmm_orders Fmm_store Fmm_reps.
From Verif Require Import Base Par Karras Karras_spec Traverse Traverse_spec Traverse_proofs Reduction Scan Scan_spec SortSearch SortSearch_spec BVH BVH_spec BVH_prop P_Traverse Dtt Dtt_spec Dtt_sep
  Interleave Sgfmm Sgfmm_passes Sgfmm_util Sgfmm_tree Sgfmm_down Sgfmm_field Sgfmm_inv Sgfmm_part Sgfmm_spec Sgfmm_main Sgmm Sgmm_spec.
From Coq Require Import ZifyBool ZifyNat.
Local Open Scope nat_scope.

Lemma vsub_zero (a x : vec3) : Fmm_spec.vsub a (Fmm_spec.vsub x x) = a.
Proof. destruct a as [a1 a2 a3], x as [x1 x2 x3]. unfold Fmm_spec.vsub. cbn [vx vy vz]. f_equal; ring. Qed.

(** contraction of moments with the derivatives: the multipole expansion *)
Lemma contract_moments : forall o Q P x sB i, mass_of o Q P sB ->
  comp (contract_to_force o Q (green_der o (Fmm_spec.vsub sB x))) i =
  Rsum (fun mx => (fst mx * taylor Dgrav (ordn o - 1) (Fmm_spec.vsub sB x) (Fmm_spec.vsub (snd mx) sB) i)%R) P.
Proof.
  intros o Q P x sB i H. rewrite contract_at. unfold contract_formula. pose proof (ordn_pos o) as OP.
  rewrite (nsum_ext _ _ (fun n => (ifact n * csum n (fun w => Dgrav (Fmm_spec.vsub sB x) (i :: w) * moment P sB w))%R)).
  2:{ intros n Hn. f_equal. apply csum_ext. intros w Hw. rewrite green_at by (cbn [length]; lia). rewrite H by lia. reflexivity. }
  clear H Q. induction P as [|[m y] P IH].
  - unfold Rsum at 1. cbn [fold_right]. rewrite (nsum_ext _ _ (fun _ => 0%R)); [apply Rsum_zero|]. intros n _. rewrite (csum_ext _ _ (fun _ => 0%R)); [unfold csum; rewrite Rsum_zero; ring|]. intros w _. cbn. ring.
  - rewrite Rsum_cons, <- IH. cbn [fst snd]. unfold taylor. rewrite (Rmult_comm m), <- nsum_scal, <- nsum_plus. apply nsum_ext. intros n Hn.
    rewrite Rmult_assoc, <- Rmult_plus_distr_l. f_equal. rewrite <- csum_scal, <- csum_plus. apply csum_ext. intros w _.
    unfold moment. rewrite Rsum_cons. cbn [fst snd]. ring.
Qed.

(** the walk stops at the first rejected cell or at a leaf *)
Lemma frontier_sub off cond t : incl (frontier off cond t) (subtrees t).
Proof.
  induction t as [k|i l IHl r IHr]; cbn [frontier subtrees]; intros u Hu; auto. destruct (cond i).
  - right. apply in_or_app. apply in_app_or in Hu. destruct Hu; [left; now apply IHl|right; now apply IHr].
  - destruct Hu as [<-|[]]. now left.
Qed.
Lemma frontier_leaves off cond t : flat_map leaves (frontier off cond t) = leaves t.
Proof.
  induction t as [k|i l IHl r IHr]; cbn [frontier leaves flat_map]; auto. destruct (cond i); [|cbn [flat_map leaves]; apply app_nil_r].
  now rewrite flat_map_app, IHl, IHr.
Qed.
Lemma frontier_node off cond t u : In u (frontier off cond t) -> match u with Leaf _ => True | Node i _ _ => cond i = false end.
Proof.
  induction t as [k|i l IHl r IHr]; cbn [frontier]; intros Hu; [destruct Hu as [<-|[]]; exact I|]. destruct (cond i) eqn:E.
  - apply in_app_or in Hu. destruct Hu; [now apply IHl|now apply IHr].
  - destruct Hu as [<-|[]]. auto.
Qed.
Lemma frontier_anc off cond t u u' k : NoDup (leaves t) -> In u (frontier off cond t) -> In u' (subtrees t) -> In k (leaves u) -> In k (leaves u') ->
  In u' (subtrees u) \/ cond (node_id off u') = true.
Proof.
  induction t as [j|i l IHl r IHr]; cbn [frontier subtrees leaves]; intros ND Hu Hu' K K'.
  - destruct Hu as [<-|[]]. left. exact Hu'.
  - destruct (cond i) eqn:E; [|destruct Hu as [<-|[]]; left; exact Hu'].
    destruct Hu' as [<-|Hu']; [right; exact E|]. apply in_app_or in Hu, Hu'.
    assert (KK : forall a b c, In a (frontier off cond b) -> In c (leaves a) -> In c (leaves b)).
    { intros a b c Ha Hc. rewrite <- (frontier_leaves off cond b). apply in_flat_map. eauto. }
    assert (K2 : forall a b c, In a (subtrees b) -> In c (leaves a) -> In c (leaves b)) by (intros; eapply leaves_sub; eauto).
    destruct Hu as [Hu|Hu], Hu' as [Hu'|Hu'].
    + apply IHl; auto. now apply NoDup_app_l in ND.
    + exfalso. eapply NoDup_app_disj; [exact ND| |]; eauto.
    + exfalso. eapply NoDup_app_disj; [exact ND| |]; eauto.
    + apply IHr; auto. now apply NoDup_app_r in ND.
Qed.

Section Walk.
  Context (o : mmorder) (B : @bvh R) (xyz : list (vec R)) (leb : R -> R -> bool) (plo phi : nat -> vec R) (t : tree) (objs : nat -> list nat) (gm : R).
  Hypothesis RP : represents leb plo phi (length xyz) B t objs.
  Hypothesis SZ : (Z.of_nat (b_leafs B) <= 2 ^ 24 + 1)%Z.
  Notation cells := (b_cells B).
  Notation off := (length (b_cells B)).
  Notation nid := (node_id (length (b_cells B))).
  Notation total := (total_cell_count B).
  Notation fnode := (find_node (b_cells B) t).
  Notation ctr := (ctr B).
  Notation pnt := (pnt xyz).
  Notation below := (below objs).
  Notation n := (length xyz).
  Let TF := T_find B xyz leb plo phi t objs RP.
  Let TFO := T_find_ok B xyz leb plo phi t objs RP.
  Let TT := T_total B xyz leb plo phi t objs RP SZ.
  Let TL := T_leaves B xyz leb plo phi t objs RP.

  Lemma walk_ok cond sd garbage : S (height t) <= sd -> length garbage = sd ->
    stack_based_traversal sd cells cond 0 garbage = Ok (map (event_of off cond) (frontier off cond t)).
  Proof.
    intros HS HG. pose proof (T_small B xyz leb plo phi t objs RP SZ) as SM. change (2 ^ 24)%Z with 16777216%Z in SM.
    eapply (traversal_ok sd cells cond garbage t 0 _ 0); [exact (rp_reads _ _ _ _ _ _ _ RP)|symmetry; exact (root_id B xyz leb plo phi t objs RP SZ)| | | |exact HS|exact HG].
    - change (2 ^ 32)%Z with 4294967296%Z. lia.
    - split.
      + intros k Hk. rewrite TL in Hk. apply in_seq in Hk. change (2 ^ 32)%Z with 4294967296%Z. lia.
      + intros i Hi. apply (Permutation_in _ (rp_internals _ _ _ _ _ _ _ RP)), in_seq in Hi. lia.
    - rewrite (Permutation_length (rp_internals _ _ _ _ _ _ _ RP)), seq_length. lia.
  Qed.

  Lemma nd_leaves : NoDup (leaves t).
  Proof. rewrite TL. apply seq_NoDup. Qed.
  Lemma half_box u : In u (subtrees t) -> exists bx, box_at B (nid u) = Some bx /\ ctr u = v3div (v3add (tov (fst bx)) (tov (snd bx))) 2 /\
     half_size B (nid u) = (max_component (v3sub (tov (snd bx)) (tov (fst bx))) / 2)%R /\ cell_center B (nid u) = ctr u.
  Proof.
    intros Hu. destruct (rp_box _ _ _ _ _ _ _ RP u Hu) as (bx & E & _). exists bx. split; auto. unfold Sgfmm_tree.ctr, half_size, cell_center. rewrite E.
    destruct bx as [[[x y] z] [[x' y'] z']]. auto.
  Qed.
  (** the opening test, for theta > 0 *)
  Lemma open_apart theta s h u : In u (subtrees t) -> (0 < theta)%R ->
    (node_cond B (fun _ => open_node theta s h) (nid u) = false <-> apart theta s h B (nid u)).
  Proof.
    intros Hu TH. destruct (half_box u Hu) as (bx & E & EC & EH & ECC). unfold node_cond. rewrite E. unfold open_node, apart. cbv zeta. rewrite ECC, EH, <- EC. 
    change (vx (v3sub (ctr u) s) * vx (v3sub (ctr u) s) + vy (v3sub (ctr u) s) * vy (v3sub (ctr u) s) + vz (v3sub (ctr u) s) * vz (v3sub (ctr u) s))%R with (norm2 (Fmm_spec.vsub (ctr u) s)).
    set (r2 := norm2 (Fmm_spec.vsub (ctr u) s)). set (sz := (max_component _ / 2)%R).
    assert (P : (0 <= r2)%R) by (unfold r2, norm2; nra).
    destruct (Req_EM_T r2 0) as [Z|NZ].
    - destruct (Rlt_dec _ _) as [|N]; [split; [discriminate|intros [H _]; lra]|exfalso; lra].
    - assert (P' : (0 < r2)%R) by lra. pose proof (sqrt_lt_R0 _ P') as SP. destruct (Rlt_dec _ _) as [L|L].
      + split; [discriminate|]. intros [_ H]. exfalso. apply (Rmult_lt_compat_r (sqrt r2)) in L; auto. rewrite Rmult_assoc, Rinv_l, Rmult_1_r in L; lra.
      + split; auto. intros _. split; auto. apply Rnot_lt_le in L. apply (Rmult_le_compat_r (sqrt r2)) in L; [|lra]. rewrite Rmult_assoc, Rinv_l, Rmult_1_r in L; lra.
  Qed.

  (** the particles, regrouped by the cells where the walk stops *)
  Section Fr.
    Context (cond : nat -> bool).
    Notation fr := (frontier off cond t).
    Definition owner (j : nat) : tree := match find (fun u => inb j (below u)) fr with Some u => u | None => t end.
    Lemma fr_objs : Permutation (flat_map below fr) (seq 0 n).
    Proof.
      assert (E : flat_map below fr = flat_map objs (flat_map leaves fr)).
      { induction fr as [|u l IH]; [reflexivity|]. cbn [flat_map]. rewrite flat_map_app, IH. reflexivity. }
      rewrite E, frontier_leaves. apply (rp_partition _ _ _ _ _ _ _ RP).
    Qed.
    Lemma owner_eq j u : In u fr -> In j (below u) -> owner j = u.
    Proof.
      intros Hu Hj. unfold owner. assert (ND : NoDup (flat_map below fr)) by (eapply Permutation_NoDup; [symmetry; apply fr_objs|apply seq_NoDup]).
      revert Hu ND. induction fr as [|v l IH]; intros Hu ND; [destruct Hu|]. cbn [find flat_map] in *. destruct (inb j (below v)) eqn:E.
      - destruct Hu as [->|Hu]; auto. exfalso. apply inb_in in E. eapply NoDup_app_disj; [exact ND|exact E|]. apply in_flat_map. eauto.
      - destruct Hu as [->|Hu]; [apply inb_in in Hj; congruence|]. apply IH; auto. eapply NoDup_app_r; eauto.
    Qed.
    Lemma owner_in j : j < n -> In (owner j) fr /\ In j (below (owner j)).
    Proof.
      intros Hj. assert (I : In j (flat_map below fr)) by (eapply Permutation_in; [symmetry; apply fr_objs|apply in_seq; lia]).
      apply in_flat_map in I. destruct I as (u & Hu & I). now rewrite (owner_eq j u).
    Qed.
    Lemma sum_fr (g : tree -> nat -> R) : Rsum (fun u => Rsum (g u) (below u)) fr = Rsum (fun j => g (owner j) j) (seq 0 n).
    Proof.
      rewrite <- (Rsum_perm _ (fun j => g (owner j) j) _ _ fr_objs). rewrite Rsum_flat. apply Rsum_ext. intros u Hu. apply Rsum_ext. intros j Hj. now rewrite (owner_eq j u).
    Qed.
  End Fr.

  (** the action that a walk gives *)
  Lemma walk_acts_ok theta s h G eps i j : (0 < theta)%R -> j < n ->
    let cond := node_cond B (fun _ => open_node theta s h) in let u := owner cond j in
    walk_acts Dgrav (ordn o - 1) theta s h B xyz G gm eps i j
      (fun c => if cond (nid u) then softened G gm eps (position xyz i) (position xyz j) c
                else expanded Dgrav (ordn o - 1) G gm s (ctr u) (position xyz i) (position xyz j) c).
  Proof.
    intros TH Hj cond u. destruct (owner_in cond j Hj) as [UF UJ]. fold u in UF, UJ. pose proof (frontier_sub _ _ _ _ UF) as US.
    assert (ANC : forall b, b < total -> In j (cell_objects B b) -> apart theta s h B b -> In (fnode b) (subtrees u)).
    { intros b Hb Ib AB. rewrite (cell_objects_eq B xyz leb plo phi t objs RP) in Ib by auto. destruct (TFO b Hb) as [X Y].
      apply in_flat_map in UJ, Ib. destruct UJ as (k & K1 & K2), Ib as (k' & K1' & K2').
      assert (k = k').
      { assert (L1 : In k (leaves t)) by exact (leaves_sub _ _ US _ K1). assert (L2 : In k' (leaves t)) by exact (leaves_sub _ _ X _ K1'). rewrite TL in L1, L2. apply in_seq in L1, L2.
        apply (objs_dis B xyz leb plo phi t objs RP SZ k k' j); auto; lia. }
      subst k'. destruct (frontier_anc off cond t u (fnode b) k nd_leaves UF X K1 K1') as [H|H]; auto. exfalso.
      rewrite <- Y in AB. apply (open_apart theta s h (fnode b) X TH) in AB. unfold cond in H. congruence. }
    destruct (cond (nid u)) eqn:E.
    - apply walk_near; auto. intros b Hb Ib AB. pose proof (ANC b Hb Ib AB) as S. pose proof (frontier_node _ _ _ _ UF) as FN.
      destruct u as [k|i0 l r]; [|cbn [node_id] in E; congruence]. cbn [subtrees] in S. destruct S as [S|[]].
      destruct (TFO b Hb) as [X Y]. rewrite <- Y, <- S in AB. apply (open_apart theta s h (Leaf k) US TH) in AB. unfold cond in E. congruence.
    - apply (walk_far _ _ _ _ _ _ _ _ _ _ _ _ _ (nid u)).
      + now apply TT.
      + rewrite (cell_objects_eq B xyz leb plo phi t objs RP) by (now apply TT). now rewrite TF.
      + now apply open_apart.
      + intros b Hb Ib AB. rewrite !(cell_objects_eq B xyz leb plo phi t objs RP) by (auto; now apply TT). rewrite TF by auto. pose proof (ANC b Hb Ib AB) as S.
        intros x Hx. apply in_flat_map in Hx. destruct Hx as (k & K1 & K2). apply in_flat_map. exists k. split; auto. eapply leaves_sub; eauto.
      + intros c. destruct (half_box u US) as (_ & _ & _ & _ & ->). reflexivity.
  Qed.
End Walk.
