(** The tree walks (one particle, one leaf) and the full multipole updates. *)
Require Import Reals Lra.
From Verif Require Import Fmm_tensors Fmm_ops Fmm_spec Fmm_orders Fmm_store Fmm_reps.
From Verif Require Import Base Par Karras Karras_spec Traverse Traverse_spec Traverse_proofs Reduction Scan Scan_spec SortSearch SortSearch_spec BVH BVH_spec BVH_prop P_Traverse Dtt Dtt_spec Dtt_sep
  Interleave Sgfmm Sgfmm_passes Sgfmm_util Sgfmm_tree Sgfmm_down Sgfmm_field Sgfmm_inv Sgfmm_part Sgfmm_spec Sgfmm_main Sgmm Sgmm_spec Sgmm_proofs.
From Coq Require Import ZifyBool ZifyNat.
Local Open Scope nat_scope.

Lemma comp_sub a b i : comp (v3sub a b) i = (comp a i - comp b i)%R.
Proof. destruct i; reflexivity. Qed.
Lemma comp_ext (a b : vec3) : (forall c, comp a c = comp b c) -> a = b.
Proof. intros H. destruct a, b. pose proof (H X0). pose proof (H X1). pose proof (H X2). cbn in *. congruence. Qed.
Lemma plummer_eq G m eps x y c : (G * comp (plummer_term m (eps * eps) x y) c)%R = softened G m eps x y c.
Proof.
  rewrite <- (near_eq m G eps x y c). unfold plummer_term, p2p_term. rewrite !comp_scal. ring.
Qed.
Lemma add_fold (xyz : list (vec R)) (term : nat -> vec3) (body : nat -> vec3 -> res vec3) ids : 
  (forall j f, In j ids -> body j f = Ok (v3add f (term j))) ->
  forall f, exists f', rfold body ids f = Ok f' /\ forall c, comp f' c = (comp f c + Rsum (fun j => comp (term j) c) ids)%R.
Proof.
  induction ids as [|j ids IH]; intros H f; cbn [rfold].
  - exists f. split; auto. intros c. cbn. ring.
  - rewrite H by (simpl; auto). cbn [rbind]. destruct (IH (fun k g Hk => H k g (or_intror Hk)) (v3add f (term j))) as (f' & E & C). exists f'. split; auto.
    intros c. rewrite C, comp_add, Rsum_cons. ring.
Qed.

Section Walk.
  Context (o : mmorder) (B : @bvh R) (xyz : list (vec R)) (leb : R -> R -> bool) (plo phi : nat -> vec R) (t : tree) (objs : nat -> list nat) (gm : R).
  Hypothesis RP : represents leb plo phi (length xyz) B t objs.
  Hypothesis SZ : (Z.of_nat (b_leafs B) <= 2 ^ 24 + 1)%Z.
  Notation cells := (b_cells B).
  Notation off := (length (b_cells B)).
  Notation nid := (node_id (length (b_cells B))).
  Notation total := (total_cell_count B).
  Notation fnode := (find_node (b_cells B) t).
  Notation ctr := (ctr B).
  Notation pnt := (pnt xyz).
  Notation below := (below objs).
  Notation n := (length xyz).
  Let TF := T_find B xyz leb plo phi t objs RP.
  Let TFO := T_find_ok B xyz leb plo phi t objs RP.
  Let TT := T_total B xyz leb plo phi t objs RP SZ.
  Let TL := T_leaves B xyz leb plo phi t objs RP.

  (** what an event adds, per particle *)
  Definition far_term (s : vec3) (u : tree) (x : vec3) (j : nat) (c : ix) : R :=
    (gm * taylor Dgrav (ordn o - 1) (Fmm_spec.vsub (ctr u) s) (Fmm_spec.vsub (Fmm_spec.vsub (pnt j) (ctr u)) (Fmm_spec.vsub x s)) c)%R.

  Theorem mm_item_ok theta eps mass sd garbage i : mass_done o B xyz t objs gm mass -> S (height t) <= sd -> length garbage = sd -> i < n -> (0 < theta)%R ->
    let cond := node_cond B (fun _ => open_node theta (pnt i) 0) in
    exists f, mm_item o B xyz theta gm (eps * eps) mass sd garbage i = Ok f /\
      forall G c, (G * comp f c)%R = Rsum (fun j => if cond (nid (owner B t objs cond j)) then softened G gm eps (pnt i) (pnt j) c
        else expanded Dgrav (ordn o - 1) G gm (pnt i) (ctr (owner B t objs cond j)) (pnt i) (pnt j) c) (seq 0 n).
  Proof.
    intros MD HS HG Hi TH cond. unfold mm_item. rewrite aget_xyz by auto. cbn [rbind]. fold (pnt i). fold cond.
    rewrite (walk_ok B xyz leb plo phi t objs RP SZ cond sd garbage HS HG). cbn [rbind].
    set (g := fun (u : tree) (j : nat) (c : ix) => if cond (nid u) then comp (plummer_term gm (eps * eps) (pnt i) (pnt j)) c else (- far_term (pnt i) u (pnt i) j c)%R).
    set (step := fun (e : event) (f : vec3) => _).
    assert (ST : forall l, (forall u, In u l -> In u (subtrees t) /\ match u with Leaf _ => True | Node i0 _ _ => cond i0 = false end) -> forall f, exists f', rfold step (map (event_of off cond) l) f = Ok f' /\
       forall c, comp f' c = (comp f c + Rsum (fun u => Rsum (fun j => g u j c) (below u)) l)%R).
    { induction l as [|u l IH]; intros HL f; cbn [map rfold].
      - exists f. split; auto. intros c. cbn. ring.
      - destruct (HL u (or_introl eq_refl)) as [US UN].
        assert (S1 : exists f1, step (event_of off cond u) f = Ok f1 /\ forall c, comp f1 c = (comp f c + Rsum (fun j => g u j c) (below u))%R).
        { unfold event_of, step, g. destruct (cond (nid u)) eqn:E.
          - destruct u as [k|i0 a b]; [|cbn [node_id] in E; congruence]. cbn [node_id]. replace (k + off - off) with k by lia.
            rewrite (rp_leaf _ _ _ _ _ _ _ RP k) by (eapply sub_leaf_in; eauto; simpl; auto). cbn [rbind]. rewrite leaf_below.
            apply (add_fold xyz (fun j => plummer_term gm (eps * eps) (pnt i) (pnt j))).
            intros j f0 Hj. rewrite aget_xyz by (apply (below_lt B xyz leb plo phi t objs RP (Leaf k)); auto; now rewrite leaf_below). reflexivity.
          - rewrite (center_ok B xyz leb plo phi t objs RP) by auto. cbn [rbind].
            rewrite (fetch_mass o B xyz leb plo phi t objs gm RP mass (nid u) MD) by (now apply TT). cbn [rbind]. eexists. split; [reflexivity|].
            intros c. rewrite comp_sub, mass_in_out, TF by auto. change v3sub with Fmm_spec.vsub.
            rewrite (contract_moments o _ (pts xyz objs gm u) (pnt i) (ctr u) c (mval_ok o B xyz objs gm u)). unfold pts. rewrite Rsum_map. cbn [fst snd].
            unfold far_term. rewrite (Rsum_ext _ (fun j => - _)%R (fun j => -1 * (gm * taylor Dgrav (ordn o - 1) (Fmm_spec.vsub (ctr u) (pnt i)) (Fmm_spec.vsub (pnt j) (ctr u)) c))%R).
            + rewrite !Rsum_scal_l. ring.
            + intros j _. rewrite vsub_zero. ring. }
        destruct S1 as (f1 & E1 & C1). rewrite E1. cbn [rbind]. destruct (IH (fun v Hv => HL v (or_intror Hv)) f1) as (f2 & E2 & C2). exists f2. split; auto.
        intros c. rewrite C2, C1, Rsum_cons. ring. }
    destruct (ST (frontier off cond t)) with (f := mkv 0 0 0) as (f & E & C).
    { intros u Hu. split; [eapply frontier_sub; eauto|eapply frontier_node; eauto]. }
    exists f. split; auto. intros G c. rewrite C, (sum_fr B xyz leb plo phi t objs RP cond (fun u j => g u j c)).
    replace (comp (mkv 0 0 0) c) with 0%R by (destruct c; reflexivity). rewrite Rplus_0_l, <- Rsum_scal_l. apply Rsum_ext. intros j _. unfold g.
    destruct (cond _); [apply plummer_eq|]. unfold expanded, far_term. ring.
  Qed.

  Theorem sgmm_ok theta depth sd env order garbage G eps axyz : (0 < theta)%R -> 0 < n -> height t <= depth -> S (height t) <= sd ->
    mm_env_ok o B n sd env order garbage -> length axyz = n ->
    exists ax', sgmm o B xyz depth sd env order garbage theta G gm eps axyz = Ok ax' /\ length ax' = n /\
      forall i, i < n -> exists f, (forall j, j < n -> walk_acts Dgrav (ordn o - 1) theta (position xyz i) 0 B xyz G gm eps i j (f j)) /\
        forall c, comp (nth i ax' z3) c = (comp (nth i axyz z3) c + Rsum (fun j => f j c) (seq 0 n))%R.
  Proof.
    intros TH N0 HD HS [V1 V2 V3 V4 V5] LA. unfold sgmm. destruct (moments_ok o B xyz leb plo phi t objs RP SZ gm depth env) as (mass & E1 & MD); auto. rewrite E1. cbn [rbind].
    unfold kernel_call. replace (n =? 0) with false by lia. unfold par_for.
    set (F := fun i j c => if node_cond B (fun _ => open_node theta (pnt i) 0) (nid (owner B t objs (node_cond B (fun _ => open_node theta (pnt i) 0)) j)) then softened G gm eps (pnt i) (pnt j) c
        else expanded Dgrav (ordn o - 1) G gm (pnt i) (ctr (owner B t objs (node_cond B (fun _ => open_node theta (pnt i) 0)) j)) (pnt i) (pnt j) c).
    set (S := fun i c => Rsum (fun j => F i j c) (seq 0 n)).
    match goal with |- exists ax', rfold ?bd _ axyz = Ok ax' /\ _ => destruct (add_each bd (fun i => mkv (S i X0) (S i X1) (S i X2)) n order) with (ax := axyz) as (ax' & E & L & A1 & _); auto end.
    - apply (Permutation_NoDup (Permutation_sym V4)), seq_NoDup.
    - intros i Hi. assert (Hi' : i < n) by (apply (Permutation_in _ V4), in_seq in Hi; lia). split; auto. intros ax L.
      destruct (mm_item_ok theta eps mass sd (garbage i) i MD HS (V5 i) Hi' TH) as (f & EF & CF). rewrite EF. cbn [rbind]. rewrite (aget_lt ax i z3) by lia. cbn [rbind]. rewrite aset_lt by lia.
      do 2 f_equal. apply comp_ext. intros c. rewrite !comp_add, comp_scal, CF. destruct c; reflexivity.
    - exists ax'. split; auto. split; auto. intros i Hi. exists (F i). split.
      + intros j Hj. apply (walk_acts_ok o B xyz leb plo phi t objs gm RP SZ theta (position xyz i) 0 G eps i j TH Hj).
      + intros c. rewrite A1 by (apply (Permutation_in _ (Permutation_sym V4)), in_seq; lia). rewrite comp_add. f_equal. destruct c; reflexivity.
  Qed.

  (** ** one leaf of the leaf-based walk *)
  Lemma p2p_pairs G eps k js : k <= off -> (forall j, In j js -> j < n) -> forall ax, length ax = n ->
    exists ax', rfold (fun j ax =>
                is <- for_each_in_leaf_cell (b_map B) (b_red B) k ;;
                rfold (fun i ax => xj <- aget xyz j ;; xi <- aget xyz i ;; a <- aget ax i ;;
                  aset ax i (v3add a (p2p_term G gm (eps * eps) (tov xi) (tov xj)))) is ax) js ax = Ok ax' /\ length ax' = n /\
      (forall i c, In i (objs k) -> comp (nth i ax' z3) c = (comp (nth i ax z3) c + Rsum (fun j => softened G gm eps (pnt i) (pnt j) c) js)%R) /\
      (forall i, ~ In i (objs k) -> nth i ax' z3 = nth i ax z3).
  Proof.
    intros Hk. assert (HL : In k (leaves t)) by (rewrite TL; apply in_seq; lia).
    rewrite (rp_leaf _ _ _ _ _ _ _ RP k HL). cbn [rbind].
    induction js as [|j js IH]; intros HJ ax L; cbn [rfold].
    - exists ax. split; auto. split; auto. split; auto. intros i c _. cbn. ring.
    - 
      match goal with |- context [rfold ?bd (objs k) ax] => destruct (add_each bd (fun i => p2p_term G gm (eps * eps) (pnt i) (pnt j)) n (objs k)) with (ax := ax) as (a1 & E1 & L1 & A1 & A2); auto end.
      + now apply (objs_nd1 B xyz leb plo phi t objs RP).
      + intros i Hi. assert (Hin : i < n) by (apply (below_lt B xyz leb plo phi t objs RP (Leaf k)); [now apply leaf_sub|now rewrite leaf_below]). split; auto.
        intros a La. rewrite !aget_xyz by (auto; apply HJ; simpl; auto). cbn [rbind]. rewrite (aget_lt a i z3) by lia. cbn [rbind]. rewrite aset_lt by lia. reflexivity.
      + rewrite E1. cbn [rbind]. destruct (IH (fun x Hx => HJ x (or_intror Hx)) a1 L1) as (a2 & E2 & L2 & B1 & B2). exists a2. split; auto. split; auto. split.
        * intros i c Hi. rewrite B1, A1, comp_add, Rsum_cons, near_eq by auto. ring.
        * intros i Hi. rewrite B2, A2; auto.
  Qed.

  Theorem fmm_item_ok theta eps mass sd garbage G k : mass_done o B xyz t objs gm mass -> S (height t) <= sd -> length garbage = sd -> k <= off ->
    let s := ctr (Leaf k) in let h := half_size B (k + off) in
    let cond := node_cond B (fun _ => open_node theta s h) in
    forall ax, length ax = n -> exists ax', fmm_item o B xyz theta G gm (eps * eps) mass sd garbage k ax = Ok ax' /\ length ax' = n /\
      (forall i c, In i (objs k) -> comp (nth i ax' z3) c = (comp (nth i ax z3) c + Rsum (fun j => if cond (nid (owner B t objs cond j)) then softened G gm eps (pnt i) (pnt j) c
        else expanded Dgrav (ordn o - 1) G gm s (ctr (owner B t objs cond j)) (pnt i) (pnt j) c) (seq 0 n))%R) /\
      (forall i, ~ In i (objs k) -> nth i ax' z3 = nth i ax z3).
  Proof.
    intros MD HS HG Hk s h cond ax LA. unfold fmm_item.
    assert (HL : In k (leaves t)) by (rewrite TL; apply in_seq; lia). pose proof (leaf_sub _ _ HL) as SL.
    destruct (half_box B xyz leb plo phi t objs RP (Leaf k) SL) as (bx & EB & _ & EH & _). cbn [node_id] in EB, EH.
    assert (EBR : box_read B (k + off) = Ok bx).
    { unfold box_at in EB. unfold box_read, aget. destruct (nth_error (b_min B) _); [|discriminate]. cbn [rbind]. destruct (nth_error (b_max B) _); [|discriminate]. injection EB as <-. reflexivity. }
    rewrite EBR. cbn [rbind]. change (k + off) with (nid (Leaf k)) at 1. rewrite (center_ok B xyz leb plo phi t objs RP) by auto. cbn [rbind]. cbv zeta. rewrite <- EH. fold s. fold h. fold cond.
    rewrite (walk_ok B xyz leb plo phi t objs RP SZ cond sd garbage HS HG). cbn [rbind].
    set (near := fun (i : nat) (c : ix) (u : tree) => if cond (nid u) then Rsum (fun j => softened G gm eps (pnt i) (pnt j) c) (below u) else 0%R).
    set (far := fun (x : vec3) (c : ix) (u : tree) => if cond (nid u) then 0%R else Rsum (fun j => far_term s u x j c) (below u)).
    assert (ST : forall l, (forall u, In u l -> In u (subtrees t) /\ match u with Leaf _ => True | Node i0 _ _ => cond i0 = false end) -> forall ax dM, length ax = n ->
       exists ax' dM', rfold (fmm_event o B xyz G gm (eps * eps) mass k s) (map (event_of off cond) l) (ax, dM) = Ok (ax', dM') /\ length ax' = n /\
       (forall i c, In i (objs k) -> comp (nth i ax' z3) c = (comp (nth i ax z3) c + Rsum (near i c) l)%R) /\
       (forall i, ~ In i (objs k) -> nth i ax' z3 = nth i ax z3) /\
       forall x c, field_of o dM' s x c = (field_of o dM s x c + Rsum (far x c) l)%R).
    { clear ax LA. induction l as [|u l IH]; intros HU ax dM LA; cbn [map rfold].
      - exists ax, dM. repeat (split; auto); intros; cbn; ring.
      - destruct (HU u (or_introl eq_refl)) as [US UN].
        assert (S1 : exists a1 d1, fmm_event o B xyz G gm (eps * eps) mass k s (event_of off cond u) (ax, dM) = Ok (a1, d1) /\ length a1 = n /\
          (forall i c, In i (objs k) -> comp (nth i a1 z3) c = (comp (nth i ax z3) c + near i c u)%R) /\ (forall i, ~ In i (objs k) -> nth i a1 z3 = nth i ax z3) /\
          forall x c, field_of o d1 s x c = (field_of o dM s x c + far x c u)%R).
        { unfold event_of, near, far. destruct (cond (nid u)) eqn:E; cbn [fmm_event].
          - destruct u as [k'|i0 a b]; [|cbn [node_id] in E; congruence]. cbn [node_id]. replace (k' + off - off) with k' by lia.
            rewrite (rp_leaf _ _ _ _ _ _ _ RP k') by (eapply sub_leaf_in; eauto; simpl; auto). cbn [rbind fst snd].
            destruct (p2p_pairs G eps k (objs k') Hk) with (ax := ax) as (a1 & E1 & L1 & A1 & A2); auto.
            { intros j Hj. apply (below_lt B xyz leb plo phi t objs RP (Leaf k')); auto. now rewrite leaf_below. }
            rewrite E1. cbn [rbind]. exists a1, dM. rewrite leaf_below. repeat (split; auto). intros. ring.
          - rewrite (center_ok B xyz leb plo phi t objs RP) by auto. cbn [rbind].
            rewrite (fetch_mass o B xyz leb plo phi t objs gm RP mass (nid u) MD) by (now apply TT). cbn [rbind fst snd]. eexists _, _. split; [reflexivity|]. split; auto.
            split; [intros; ring|]. split; auto. intros x c. rewrite field_of_acc. f_equal. rewrite mass_in_out, TF by auto. change v3sub with Fmm_spec.vsub.
            rewrite (field_of_m2l o _ (pts xyz objs gm u) s (ctr u) x c (mval_ok o B xyz objs gm u)). unfold pts. rewrite Rsum_map. cbn [fst snd]. unfold far_term. reflexivity. }
        destruct S1 as (a1 & d1 & E1 & L1 & A1 & A2 & A3). rewrite E1. cbn [rbind].
        destruct (IH (fun v Hv => HU v (or_intror Hv)) a1 d1 L1) as (a2 & d2 & E2 & L2 & B1 & B2 & B3). exists a2, d2. split; auto. split; auto. split; [|split].
        + intros i c Hi. rewrite B1, A1, Rsum_cons by auto. ring.
        + intros i Hi. rewrite B2, A2; auto.
        + intros x c. rewrite B3, A3, Rsum_cons. ring. }
    destruct (ST (frontier off cond t)) with (ax := ax) (dM := grav_zeros o) as (a1 & dM & E1 & L1 & A1 & A2 & A3); auto.
    { intros u Hu. split; [eapply frontier_sub; eauto|eapply frontier_node; eauto]. }
    rewrite E1. cbn [rbind fst snd]. rewrite (rp_leaf _ _ _ _ _ _ _ RP k HL). cbn [rbind].
    match goal with |- exists ax', rfold ?bd (objs k) a1 = Ok ax' /\ _ => destruct (add_each bd (fun i => vscal (- G) (contract_to_force o (mass_from_vec o (v3sub (pnt i) s)) dM)) n (objs k)) with (ax := a1) as (a2 & E2 & L2 & B1 & B2); auto end.
    - now apply (objs_nd1 B xyz leb plo phi t objs RP).
    - intros i Hi. assert (Hin : i < n) by (apply (below_lt B xyz leb plo phi t objs RP (Leaf k)); [now apply leaf_sub|now rewrite leaf_below]). split; auto.
      intros a La. rewrite aget_xyz by auto. cbn [rbind]. rewrite (aget_lt a i z3) by lia. cbn [rbind]. rewrite aset_lt by lia. reflexivity.
    - exists a2. split; auto. split; auto. split; [|intros i Hi; rewrite B2, A2; auto].
      intros i c Hi. rewrite B1, comp_add, comp_scal by auto. change (comp (contract_to_force o (mass_from_vec o (v3sub (pnt i) s)) dM) c) with (field_of o dM s (pnt i) c).
      rewrite A3, field_of_zeros, Rplus_0_l, A1 by auto. rewrite Rplus_assoc. f_equal. rewrite <- Rsum_scal_l, <- Rsum_plus.
      transitivity (Rsum (fun u => Rsum (fun j => if cond (nid u) then softened G gm eps (pnt i) (pnt j) c else expanded Dgrav (ordn o - 1) G gm s (ctr u) (pnt i) (pnt j) c) (below u)) (frontier off cond t)).
      + apply Rsum_ext. intros u _. unfold near, far. destruct (cond (nid u)); [ring|]. rewrite Rplus_0_l, <- Rsum_scal_l. apply Rsum_ext. intros j _. unfold expanded, far_term. ring.
      + apply (sum_fr B xyz leb plo phi t objs RP cond (fun u j => if cond (nid u) then softened G gm eps (pnt i) (pnt j) c else expanded Dgrav (ordn o - 1) G gm s (ctr u) (pnt i) (pnt j) c)).
  Qed.

  Theorem sgfmm_ok theta depth sd env order garbage G eps axyz : (0 < theta)%R -> height t <= depth -> S (height t) <= sd ->
    mm_env_ok o B (b_leafs B) sd env order garbage -> length axyz = n ->
    exists ax', sgfmm o B xyz depth sd env order garbage theta G gm eps axyz = Ok ax' /\ length ax' = n /\
      forall k i, k < b_leafs B -> In i (cell_objects B (k + off)) -> exists f,
        (forall j, j < n -> walk_acts Dgrav (ordn o - 1) theta (cell_center B (k + off)) (half_size B (k + off)) B xyz G gm eps i j (f j)) /\
        forall c, comp (nth i ax' z3) c = (comp (nth i axyz z3) c + Rsum (fun j => f j c) (seq 0 n))%R.
  Proof.
    intros TH HD HS [V1 V2 V3 V4 V5] LA. unfold sgfmm. destruct (moments_ok o B xyz leb plo phi t objs RP SZ gm depth env) as (mass & E1 & MD); auto. rewrite E1. cbn [rbind].
    pose proof (T_leafs B xyz leb plo phi t objs RP) as LF. unfold kernel_call. replace (b_leafs B =? 0) with false by lia. unfold par_for.
    set (cnd := fun k => node_cond B (fun _ => open_node theta (ctr (Leaf k)) (half_size B (k + off)))).
    set (F := fun k i j c => if cnd k (nid (owner B t objs (cnd k) j)) then softened G gm eps (pnt i) (pnt j) c
        else expanded Dgrav (ordn o - 1) G gm (ctr (Leaf k)) (ctr (owner B t objs (cnd k) j)) (pnt i) (pnt j) c).
    set (S := fun k i c => Rsum (fun j => F k i j c) (seq 0 n)).
    assert (HI : forall i, In i order <-> i <= off) by (intros i; split; intros H; [apply (Permutation_in _ V4), in_seq in H; lia|apply (Permutation_in _ (Permutation_sym V4)), in_seq; lia]).
    match goal with |- exists ax', rfold ?bd order axyz = Ok ax' /\ _ => destruct (add_groups bd (fun k i => mkv (S k i X0) (S k i X1) (S k i X2)) objs n order) with (ax := axyz) as (ax' & E & L & A1 & _); auto end.
    - apply (Permutation_NoDup (Permutation_sym V4)), seq_NoDup.
    - intros k k' j Hk Hk' Hj Hj'. apply HI in Hk, Hk'. eapply (objs_dis B xyz leb plo phi t objs RP SZ); eauto.
    - intros k Hk ax L. apply HI in Hk. destruct (fmm_item_ok theta eps mass sd (garbage k) G k MD HS (V5 k) Hk ax L) as (a1 & E2 & L2 & B1 & B2). exists a1. split; auto. split; auto. split; auto.
      intros j Hj. apply comp_ext. intros c. rewrite B1, comp_add by auto. f_equal. destruct c; reflexivity.
    - exists ax'. split; auto. split; auto. intros k i Hk Hi. assert (Hko : k <= off) by lia. assert (HL : In k (leaves t)) by (rewrite TL; apply in_seq; lia). pose proof (leaf_sub _ _ HL) as SL.
      assert (Hid : k + off < total) by (apply (TT (Leaf k) SL)). rewrite (cell_objects_eq B xyz leb plo phi t objs RP) in Hi by auto.
      change (k + off) with (nid (Leaf k)) in Hi. rewrite TF, leaf_below in Hi by auto. exists (F k i). split.
      + intros j Hj. change (k + off) with (nid (Leaf k)). destruct (half_box B xyz leb plo phi t objs RP (Leaf k) SL) as (_ & _ & _ & _ & ->).
        apply (walk_acts_ok o B xyz leb plo phi t objs gm RP SZ theta (ctr (Leaf k)) (half_size B (nid (Leaf k))) G eps i j TH Hj).
      + intros c. rewrite (A1 k) by (auto; now apply HI). rewrite comp_add. f_equal. destruct c; reflexivity.
  Qed.
End Walk.
