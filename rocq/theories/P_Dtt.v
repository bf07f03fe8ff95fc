(** Property theorems C45 (see properties.jsonl): the dual tree traversal. *)
From Verif Require Import Base Bits Par Morton Morton_spec Morton_proofs Karras Karras_spec P_Karras Traverse Traverse_spec Traverse_proofs Reduction Reduction_spec Scan Scan_spec P_Scan SortSearch SortSearch_spec
  Integer BVH BVH_spec BVH_main P_BVH Dtt Dtt_spec Dtt_tree Dtt_ref Dtt_segs Dtt_scan Dtt_scan2 Dtt_select Dtt_select2 Dtt_mono Dtt_sep Dtt_reorder Dtt_main Dtt_main2.
From Coq Require Import ZifyBool ZifyNat ZifyN.
Local Open Scope nat_scope.

(** [built ... B]: B is the BVH of C33 over the boxes [lo, hi] of cnt objects, with codes of b bits *)
Definition built {C} (leb : C -> C -> bool) (b : N) (code : vec C -> N) (lo hi : list (vec C)) (cnt : nat) (B : @bvh C) : Prop :=
  exists w err vtop vbot level env,
    bvh_input leb w b code err vtop vbot lo hi cnt /\ bvh_env_ok cnt (N.to_nat (roundup_pow2_32 (N.of_nat cnt))) env /\
    rebuild leb w code err vtop vbot env lo hi cnt level = Ok B.

Section Setup.
  Context {C : Type} (leb : C -> C -> bool) (b : N) (code : vec C -> N) (lo hi : list (vec C)) (cnt : nat) (B : @bvh C) (d : vec C).
  Hypothesis HB : built leb b code lo hi cnt B.
  Lemma setup : exists t objs, represents leb (fun o => nth o lo d) (fun o => nth o hi d) cnt B t objs /\
    (Z.of_nat (b_leafs B) <= 2 ^ 24 + 1)%Z /\ height t <= N.to_nat b /\
    (hi = lo -> forall nb, grid_code leb nb code -> separated leb B t).
  Proof.
    destruct HB as (w & err & vtop & vbot & level & env & HI & HE & E).
    destruct (rebuild_full leb w b code err vtop vbot lo hi cnt level env d HI HE) as (B' & t & objs & order & old & E' & R & P & S1 & S2 & S3 & S4 & S5 & S6 & S7 & S8 & S9).
    rewrite E in E'. injection E' as <-. exists t, objs. split; auto. split; auto. split.
    - pose proof R as [R1 R2 R3 R4 R5 R6 R7 R8 R9]. set (off := length (b_cells B)) in *.
      destruct (Nat.eq_dec (b_leafs B) 1) as [L1|L1].
      + assert (off = 0) by lia. rewrite H in R1. simpl in R1. inversion R1; subst. simpl. lia.
      + apply (height_bits w b (b_codes B) order old (b_cells B)); auto; try (rewrite S3; lia); try (rewrite S3; auto).
        { apply (bi_bits _ _ _ _ _ _ _ _ _ _ HI). }
        rewrite (proj2 (Nat.eqb_neq off 0)) in R1 by lia. exact R1.
    - intros -> nb G. apply (separated_points leb (fun o => nth o lo d) cnt B t objs code nb); auto.
  Qed.
End Setup.

Section Both.
  Context {C : Type} (leb : C -> C -> bool) (b : N) (code : vec C -> N) (lo hi : list (vec C)) (cnt : nat) (B : @bvh C) (d : vec C)
    (mac : vec C * vec C -> vec C * vec C -> bool) (low : bool).
  Hypothesis HB : built leb b code lo hi cnt B.

  Lemma built_total : (Z.of_nat (total_cell_count B) < 2 ^ 26)%Z /\ 1 <= b_leafs B.
  Proof.
    destruct (setup leb b code lo hi cnt B d HB) as (t & objs & R & SZ & _). unfold total_cell_count. rewrite (rp_count _ _ _ _ _ _ _ R) in *.
    clear - SZ. change (2 ^ 26)%Z with 67108864%Z. change (2 ^ 24 + 1)%Z with 16777217%Z in SZ. lia.
  Qed.
  Lemma ids_before m q : dtt_correct mac B low cnt m q -> (forall p : ipair, In p m -> fst p < total_cell_count B) /\ (forall p : ipair, In p q -> fst p < total_cell_count B).
  Proof. intros D. split; intros [x y] H; cbn [fst]; apply (dc_ids _ _ _ _ _ _ D x y), in_or_app; auto. Qed.

  (** the ordering step *)
  Lemma ordering_ok env m q m0 q0 : dtt_correct mac B low cnt m q -> Permutation m m0 -> Permutation q q0 -> (Z.of_nat (length m0 + length q0) < 2 ^ 30)%Z ->
    dtt_env_ok B (length m0) (length q0) env -> forall ord,
    exists m' q' offs, add_ordering B env ord (m, q) = Ok ((m', q'), offs) /\ Permutation m' m0 /\ Permutation q' q0 /\
      match offs with
      | None => ord = false
      | Some (om, oq) => ord = true /\ sorted_by comp_pair m' /\ sorted_by comp_pair q' /\
          grouped (total_cell_count B) m' om /\ grouped (total_cell_count B) q' oq /\
          om = map (fun g => Z.of_nat (before m0 g)) (seq 0 (total_cell_count B + 1)) /\
          oq = map (fun g => Z.of_nat (before q0 g)) (seq 0 (total_cell_count B + 1))
      end.
  Proof.
    intros D PM PQ BD [V1 V2 V3 V4 V5 V6 V7 V8 V9] ord. unfold add_ordering. destruct ord.
    2:{ exists m, q, None. auto. }
    cbn [fst snd]. destruct (ids_before m q D) as [I1 I2]. destruct built_total as [T _]. change (2 ^ 26)%Z with 67108864%Z in T. change (2 ^ 30)%Z with 1073741824%Z in BD.
    assert (LM := Permutation_length PM). assert (LQ := Permutation_length PQ).
    destruct (reorder_ok (de_scan_ip env) (de_rm env) (total_cell_count B) m) as (m' & E1 & P1 & S1); auto; [now rewrite LM|rewrite P31; lia|rewrite P31; lia|].
    destruct (reorder_ok (de_scan_ip env) (de_rp env) (total_cell_count B) q) as (q' & E2 & P2 & S2); auto; [now rewrite LQ|rewrite P31; lia|rewrite P31; lia|].
    rewrite E1. cbn [rbind]. rewrite E2. cbn [rbind fst snd]. eexists m', q', _. split; [reflexivity|].
    split; [now rewrite P1|]. split; [now rewrite P2|]. split; auto. split; auto. split; auto.
    assert (EB : forall X Y : list ipair, Permutation X Y -> (map (fun g => Z.of_nat (before X g)) (seq 0 (total_cell_count B + 1)) : list Z) = map (fun g => Z.of_nat (before Y g)) (seq 0 (total_cell_count B + 1))).
    { intros X Y PXY. apply map_ext. intros g. f_equal. now apply before_perm. }
    split; [now apply sorted_grouped|]. split; [now apply sorted_grouped|]. split; now apply EB.
  Qed.
End Both.


Lemma len_events {C} (B : @bvh C) L : length (m2l_of B L) + length (p2p_of B L) = length L.
Proof.
  unfold m2l_of, p2p_of. rewrite !map_length. induction L as [|e L IH]; [reflexivity|]. cbn [filter]. destruct (fst e); cbn [negb length]; lia.
Qed.

(** C45.  For every BVH of C33, every criterion and both settings of the leaf lowering, the reference
    implementation returns, and its lists are correct: every ordered pair of objects is below exactly
    one listed pair of cells; far pairs satisfy the criterion; near pairs do not and cannot be split. *)
Theorem C45_reference : forall (C : Type) (leb : C -> C -> bool) b code lo hi cnt B mac low,
  built leb b code lo hi cnt B ->
  exists m q, dtt_recursive_ref mac B low = Ok (m, q) /\ dtt_correct mac B low cnt m q /\ length m + length q <= b_leafs B * b_leafs B.
Proof.
  intros C leb b code lo hi cnt B mac low HB. pose proof HB as (w & err & d & _).
  destruct (setup leb b code lo hi cnt B d HB) as (t & objs & R & SZ & HH & _). pose proof (linked_of leb _ _ cnt B t objs R SZ) as LK.
  eexists _, _. split; [apply (dtt_ref_ok mac B t LK low)|]. split; [eapply events_correct; eauto|]. rewrite len_events. eapply events_bound; eauto.
Qed.
Print Assumptions C45_reference.

(** Every implementation, in any schedule of its kernels and with any content of new memory, gives the same lists
    up to their order, and the offsets of the ordered mode delimit the pairs of each first cell.  The parallel
    select implementation has fixed-size stacks: for it the objects are points and their code is the interleaving
    of grid coordinates (see [C45_select_ranges] for boxes). *)
Theorem C45_traversal : forall (C : Type) (leb : C -> C -> bool) b code lo hi cnt B mac low m q env bcap impl ord,
  built leb b code lo hi cnt B -> N.to_nat b <= bcap ->
  dtt_recursive_ref mac B low = Ok (m, q) -> (Z.of_nat (length m + length q) < 2 ^ 30)%Z ->
  dtt_env_ok B (length m) (length q) env ->
  (impl = PARALLEL_SELECT -> hi = lo /\ exists nb, grid_code leb nb code) ->
  exists m' q' offs, clbvh_dual_tree_traversal leb mac B bcap env impl ord low = Ok ((m', q'), offs) /\
    Permutation m' m /\ Permutation q' q /\ dtt_correct mac B low cnt m' q' /\
    match offs with
    | None => ord = false
    | Some (om, oq) => ord = true /\ grouped (total_cell_count B) m' om /\ grouped (total_cell_count B) q' oq
    end.
Proof.
  intros C leb b code lo hi cnt B mac low m q env bcap impl ord HB Hb E BD EV HS. pose proof HB as (w & err & d & _).
  destruct (setup leb b code lo hi cnt B d HB) as (t & objs & R & SZ & HH & SP). pose proof (linked_of leb _ _ cnt B t objs R SZ) as LK.
  pose proof (dtt_ref_ok mac B t LK low) as E'. rewrite E in E'. injection E' as -> ->.
  assert (EC : forall m' q', Permutation m' (m2l_of B (all_events mac B t low)) -> Permutation q' (p2p_of B (all_events mac B t low)) -> dtt_correct mac B low cnt m' q')
    by (intros; eapply events_correct; eauto).
  destruct (built_total leb b code lo hi cnt B d HB) as [_ L1].
  unfold clbvh_dual_tree_traversal. replace (b_leafs B =? 0) with false by lia.
  assert (ORD : forall m0 q0, Permutation m0 (m2l_of B (all_events mac B t low)) -> Permutation q0 (p2p_of B (all_events mac B t low)) ->
    exists m' q' offs, add_ordering B env ord (m0, q0) = Ok ((m', q'), offs) /\
    Permutation m' (m2l_of B (all_events mac B t low)) /\ Permutation q' (p2p_of B (all_events mac B t low)) /\ dtt_correct mac B low cnt m' q' /\
    match offs with
    | None => ord = false
    | Some (om, oq) => ord = true /\ grouped (total_cell_count B) m' om /\ grouped (total_cell_count B) q' oq
    end).
  { intros m0 q0 P1 P2. destruct (ordering_ok leb b code lo hi cnt B d mac low HB env m0 q0 _ _ (EC m0 q0 P1 P2) P1 P2 BD EV ord) as (m' & q' & offs & A1 & A2 & A3 & A4).
    exists m', q', offs. repeat (split; auto). destruct offs as [[om oq]|]; auto. destruct A4 as (X1 & _ & _ & X2 & X3 & _). auto. }
  destruct impl.
  - rewrite E. cbn [rbind]. apply ORD; auto.
  - destruct (HS eq_refl) as (HL & nb & G). specialize (SP HL nb G). destruct EV as [V1 V2 V3 V4 V5 V6 V7 V8 V9].
    pose proof (anc_contains leb _ _ cnt B t objs R) as AN.
    destruct (dtt_select_ok leb mac B t LK low (fun v u => In v (subtrees u)) 1 (bcap + 2) AN) with (scan := de_scan env) (o1 := de_o1 env) (o2 := de_o2 env) (j2 := de_jz env) (junk := de_jp env) as (Ef & HE & ES); auto.
    + intros v bi p l X1 X2 X3 X4 X5. eapply good_sep; eauto.
    + lia.
    + rewrite len_events in BD. eapply Z.lt_trans; [exact BD|]. now rewrite P32.
    + rewrite ES. cbn [rbind fst snd]. destruct (sel_result mac B t LK low Ef HE) as (Q1 & Q2 & Q3 & Q4).
      eexists _, _, _. split; [reflexivity|]. split; [exact Q1|]. split; [exact Q2|]. split; [apply EC; auto|]. destruct ord; auto.
  - destruct EV as [V1 V2 V3 V4 V5 V6 V7 V8 V9]. rewrite len_events in BD.
    destruct (dtt_scan_ok mac B t LK low (de_scan_ip env) (de_pass env) (de_j1 env) (de_j2 env)) as (m0 & q0 & E0 & P1 & P2); auto.
    rewrite E0. cbn [rbind]. apply ORD; auto.
Qed.
Print Assumptions C45_traversal.

(** With the ordering, the reference and the multipass implementations give exactly the same result in every
    schedule: lists sorted lexicographically. *)
Theorem C45_ordered_deterministic : forall (C : Type) (leb : C -> C -> bool) b code lo hi cnt B mac low m q env env' bcap bcap' impl impl',
  built leb b code lo hi cnt B ->
  dtt_recursive_ref mac B low = Ok (m, q) -> (Z.of_nat (length m + length q) < 2 ^ 30)%Z ->
  dtt_env_ok B (length m) (length q) env -> dtt_env_ok B (length m) (length q) env' ->
  impl <> PARALLEL_SELECT -> impl' <> PARALLEL_SELECT ->
  exists m' q' offs, clbvh_dual_tree_traversal leb mac B bcap env impl true low = Ok ((m', q'), Some offs) /\
    clbvh_dual_tree_traversal leb mac B bcap' env' impl' true low = Ok ((m', q'), Some offs) /\
    sorted_by comp_pair m' /\ sorted_by comp_pair q'.
Proof.
  intros C leb b code lo hi cnt B mac low m q env env' bcap bcap' impl impl' HB E BD EV EV' I1 I2. pose proof HB as (w & err & d & _).
  destruct (setup leb b code lo hi cnt B d HB) as (t & objs & R & SZ & HH & SP). pose proof (linked_of leb _ _ cnt B t objs R SZ) as LK.
  pose proof (dtt_ref_ok mac B t LK low) as E'. rewrite E in E'. injection E' as EM EQ.
  destruct (built_total leb b code lo hi cnt B d HB) as [_ L1].
  assert (G : forall env bcap impl, dtt_env_ok B (length m) (length q) env -> impl <> PARALLEL_SELECT ->
    exists m' q' , clbvh_dual_tree_traversal leb mac B bcap env impl true low =
      Ok ((m', q'), Some (map (fun g => Z.of_nat (before m g)) (seq 0 (total_cell_count B + 1)), map (fun g => Z.of_nat (before q g)) (seq 0 (total_cell_count B + 1)))) /\
      Permutation m' m /\ Permutation q' q /\ sorted_by comp_pair m' /\ sorted_by comp_pair q').
  { clear env env' EV EV' bcap bcap' impl impl' I1 I2. intros env bcap impl EV I.
    assert (ORD : forall m0 q0, Permutation m0 m -> Permutation q0 q -> exists m' q', add_ordering B env true (m0, q0) =
      Ok ((m', q'), Some (map (fun g => Z.of_nat (before m g)) (seq 0 (total_cell_count B + 1)), map (fun g => Z.of_nat (before q g)) (seq 0 (total_cell_count B + 1)))) /\
      Permutation m' m /\ Permutation q' q /\ sorted_by comp_pair m' /\ sorted_by comp_pair q').
    { intros m0 q0 P1 P2. destruct (ordering_ok leb b code lo hi cnt B d mac low HB env m0 q0 m q) with (ord := true) as (m' & q' & offs & A1 & A2 & A3 & A4); auto.
      - eapply events_correct; eauto; congruence.
      - exists m', q'. destruct offs as [[om oq]|]; [|discriminate]. destruct A4 as (_ & X1 & X2 & _ & _ & -> & ->). auto. }
    unfold clbvh_dual_tree_traversal. replace (b_leafs B =? 0) with false by lia. destruct impl; [|congruence|].
    - rewrite E. cbn [rbind]. apply ORD; auto.
    - destruct EV as [V1 V2 V3 V4 V5 V6 V7 V8 V9].
      destruct (dtt_scan_ok mac B t LK low (de_scan_ip env) (de_pass env) (de_j1 env) (de_j2 env)) as (m0 & q0 & E0 & P1 & P2); auto.
      { rewrite <- (len_events B). congruence. }
      rewrite E0. cbn [rbind]. apply ORD; congruence. }
  destruct (G env bcap impl EV I1) as (m1 & q1 & A1 & A2 & A3 & A4 & A5). destruct (G env' bcap' impl' EV' I2) as (m2 & q2 & B1 & B2 & B3 & B4 & B5).
  exists m1, q1. eexists. split; [exact A1|]. split; [|auto]. rewrite B1. f_equal. f_equal. f_equal; apply sorted_unique; auto.
  - etransitivity; [exact B2|now symmetry].
  - etransitivity; [exact B3|now symmetry].
Qed.
Print Assumptions C45_ordered_deterministic.

(** A symmetric criterion gives symmetric lists: a acts on b as often as b on a. *)
Theorem C45_symmetric : forall (C : Type) (leb : C -> C -> bool) b code lo hi cnt B mac low m q,
  built leb b code lo hi cnt B -> (forall x y, mac x y = mac y x) ->
  dtt_recursive_ref mac B low = Ok (m, q) ->
  Permutation (map (fun ab => (snd ab, fst ab)) m) m /\ Permutation (map (fun ab => (snd ab, fst ab)) q) q.
Proof.
  intros C leb b code lo hi cnt B mac low m q HB SY E. pose proof HB as (w & err & d & _).
  destruct (setup leb b code lo hi cnt B d HB) as (t & objs & R & SZ & HH & SP). pose proof (linked_of leb _ _ cnt B t objs R SZ) as LK.
  pose proof (dtt_ref_ok mac B t LK low) as E'. rewrite E in E'. injection E' as -> ->.
  assert (W : Permutation (map eswap (all_events mac B t low)) (all_events mac B t low)).
  { unfold all_events. destruct (leafb t); [reflexivity|]. apply (walk_swap low (macT mac B) (t, t)).
    intros x y. unfold macT. destruct (box_at B _), (box_at B _); auto. }
  assert (G : forall f : ev -> bool, (forall e, f (eswap e) = f e) ->
    Permutation (map (fun ab : ipair => (snd ab, fst ab)) (map (fun e => idp B (snd e)) (filter f (all_events mac B t low)))) (map (fun e => idp B (snd e)) (filter f (all_events mac B t low)))).
  { intros f Hf. etransitivity; [|apply Permutation_map, Permutation_filter, W]. clear W E. induction (all_events mac B t low) as [|e L IH]; [constructor|].
    cbn [map filter]. rewrite Hf. destruct (f e); [|exact IH]. cbn [map]. apply perm_skip. exact IH. }
  split; apply G; intros [[] p]; reflexivity.
Qed.
Print Assumptions C45_symmetric.

(** A tree that was not built is refused. *)
Theorem C45_empty : forall (C : Type) (leb : C -> C -> bool) mac B bcap env impl ord low, b_leafs (B : @bvh C) = 0 ->
  clbvh_dual_tree_traversal leb mac B bcap env impl ord low = Throw.
Proof. intros. unfold clbvh_dual_tree_traversal. now rewrite H. Qed.

(** The parallel select implementation over arbitrary boxes: the result is correct unless a stack overflows, which
    cannot happen when the tree is at most a third as deep as the stacks. *)
Theorem C45_select_ranges : forall (C : Type) (leb : C -> C -> bool) b code lo hi cnt B mac low m q env bcap ord,
  built leb b code lo hi cnt B ->
  dtt_recursive_ref mac B low = Ok (m, q) -> (Z.of_nat (length m + length q) < 2 ^ 30)%Z ->
  dtt_env_ok B (length m) (length q) env ->
  (clbvh_dual_tree_traversal leb mac B bcap env PARALLEL_SELECT ord low = UB /\ bcap < 3 * N.to_nat b) \/
  exists m' q' offs, clbvh_dual_tree_traversal leb mac B bcap env PARALLEL_SELECT ord low = Ok ((m', q'), offs) /\
    Permutation m' m /\ Permutation q' q /\ dtt_correct mac B low cnt m' q' /\
    match offs with
    | None => ord = false
    | Some (om, oq) => ord = true /\ grouped (total_cell_count B) m' om /\ grouped (total_cell_count B) q' oq
    end.
Proof.
  intros C leb b code lo hi cnt B mac low m q env bcap ord HB E BD EV. pose proof HB as (w & err & d & _).
  destruct (setup leb b code lo hi cnt B d HB) as (t & objs & R & SZ & HH & SP). pose proof (linked_of leb _ _ cnt B t objs R SZ) as LK.
  pose proof (dtt_ref_ok mac B t LK low) as E'. rewrite E in E'. injection E' as -> ->.
  destruct (built_total leb b code lo hi cnt B d HB) as [_ L1].
  destruct EV as [V1 V2 V3 V4 V5 V6 V7 V8 V9]. pose proof (anc_contains leb _ _ cnt B t objs R) as AN.
  set (cap' := Nat.max (bcap + 2) (1 + 3 * N.to_nat b)).
  destruct (dtt_select_ok leb mac B t LK low (fun v u => True) 3 cap' AN) with (scan := de_scan env) (o1 := de_o1 env) (o2 := de_o2 env) (j2 := de_jz env) (junk := de_jp env) as (Ef & HE & ES); auto.
  - intros v bi p l X1 X2 X3 X4 X5. eapply good_any; eauto.
  - unfold cap'. lia.
  - rewrite len_events in BD. eapply Z.lt_trans; [exact BD|]. now rewrite P32.
  - unfold clbvh_dual_tree_traversal. replace (b_leafs B =? 0) with false by lia.
    assert (OKC : forall r, r = Ok (flat_map (fun i => m2l_of B (Ef i)) (seq 0 (total_cell_count B)), flat_map (fun i => p2p_of B (Ef i)) (seq 0 (total_cell_count B)),
       (map (fun i => Z.of_nat (pos (fun i0 => m2l_of B (Ef i0)) i)) (seq 0 (total_cell_count B + 1)),
        map (fun i => Z.of_nat (pos (fun i0 => p2p_of B (Ef i0)) i)) (seq 0 (total_cell_count B + 1)))) ->
      exists m' q' offs, rbind r (fun r => Ok (fst r, if ord then Some (snd r) else None)) = Ok ((m', q'), offs) /\
        Permutation m' (m2l_of B (all_events mac B t low)) /\ Permutation q' (p2p_of B (all_events mac B t low)) /\ dtt_correct mac B low cnt m' q' /\
        match offs with
        | None => ord = false
        | Some (om, oq) => ord = true /\ grouped (total_cell_count B) m' om /\ grouped (total_cell_count B) q' oq
        end).
    { intros r ->. cbn [rbind fst snd]. destruct (sel_result mac B t LK low Ef HE) as (Q1 & Q2 & Q3 & Q4).
      eexists _, _, _. split; [reflexivity|]. split; [exact Q1|]. split; [exact Q2|]. split; [eapply events_correct; eauto|]. destruct ord; auto. }
    destruct (Nat.lt_ge_cases bcap (3 * N.to_nat b)) as [Lt|Ge].
    + destruct (select_mono leb mac B low (bcap + 2) cap') with (scan := de_scan env) (o1 := de_o1 env) (o2 := de_o2 env) (j2 := de_jz env) (junk := de_jp env) as [U|U]; [unfold cap'; lia| |].
      * left. rewrite U. auto.
      * right. apply OKC. rewrite U. exact ES.
    + right. apply OKC. replace (bcap + 2) with cap' by (unfold cap'; lia). exact ES.
Qed.
Print Assumptions C45_select_ranges.

(* ------------------------------------------------------------------ *)
(** 13 objects whose codes 0, 1.., 11.., ... make the tree a chain, and two sets of boxes over them: points, and
    boxes with a common upper corner. *)
Definition exd_pos (k : nat) : vec Z := (1024 - 2 ^ (10 - Z.of_nat ((k + 2) / 3)), 1024 - 2 ^ (10 - Z.of_nat ((k + 1) / 3)), 1024 - 2 ^ (10 - Z.of_nat (k / 3)))%Z.
Definition exd_lo : list (vec Z) := map exd_pos (seq 0 13).
Definition exd_hi : list (vec Z) := repeat (2000, 2000, 2000)%Z 13.
Definition exd_grid (z : Z) : N := Z.to_N (Z.max 0 (Z.min 1023 z)).
Definition exd_code (v : vec Z) : N := icoord_to_morton_32 (exd_grid (cx v)) (exd_grid (cy v)) (exd_grid (cz v)).
Definition exd_red : red_env := {|
  re_orders := fun _ => rev (seq 0 13); re_g1 := repeat 9%Z 13; re_g2 := repeat 8%Z 13;
  re_ce := {| ce_scan := fun l n => Scan.exclusive_sum_fallback (repeat 9%Z n) l n; ce_order := fun n => rev (seq 0 n); ce_garbage := fun k => repeat 5 k |};
  re_order := fun k => rev (seq 0 k); re_garbage := fun k => repeat 4 k; re_old := fun k => repeat 3%N k |}.
Definition exd_env : @bvh_env Z := {|
  e_o1 := rev (seq 0 13); e_o2 := rev (seq 0 3); e_codes := fun k => repeat 1%N k;
  e_oi := fun k => rev (seq 0 k); e_map := fun k => repeat 7 k; e_sort := fun _ _ n => rev (seq 0 n); e_stencil := 4;
  e_red := exd_red; e_karras := fun n => rev (seq 0 n); e_cells := fun n => repeat (mkcell 9 true 9 true 9) n;
  e_leaf := fun n => rev (seq 0 n); e_min := fun n => repeat (0,0,0)%Z n; e_max := fun n => repeat (0,0,0)%Z n;
  e_prop := fun n _ => flat_map (fun _ => seq 0 n) (seq 0 6) |}.
Definition exd_build (hi : list (vec Z)) : res (@bvh Z) :=
  rebuild Z.leb 32 exd_code (2 ^ 32 - 1) (3000,3000,3000)%Z (-10,-10,-10)%Z exd_env exd_lo hi 13 0.
Lemma exd_input hi : hi = exd_lo \/ hi = exd_hi ->
  bvh_input Z.leb 32 30 exd_code (2 ^ 32 - 1) (3000,3000,3000)%Z (-10,-10,-10)%Z exd_lo hi 13.
Proof.
  intros HH. constructor.
  - split; intros *; rewrite ?Z.leb_le; lia.
  - lia.
  - now vm_compute.
  - simpl; lia.
  - destruct HH; subst; simpl; lia.
  - lia.
  - intros o p _ E. apply nth_error_In in E. unfold exd_code. pose proof (Morton_proofs.encode_32 (exd_grid (cx p)) (exd_grid (cy p)) (exd_grid (cz p))) as [H _]. exact H.
  - now vm_compute.
  - now vm_compute.
  - intros o p x H E Hx. apply nth_error_In in E. vm_compute in E. repeat (destruct E as [<-|E]; [destruct Hx as [<-|[<-|[<-|[]]]]; reflexivity|]). destruct E.
  - intros o p x H E Hx. apply nth_error_In in E. destruct HH; subst hi; vm_compute in E; repeat (destruct E as [<-|E]; [destruct Hx as [<-|[<-|[<-|[]]]]; reflexivity|]); destruct E.
Qed.
Lemma exd_env_ok : bvh_env_ok 13 (N.to_nat (roundup_pow2_32 (N.of_nat 13))) exd_env.
Proof.
  assert (RP : forall k, Permutation (rev (seq 0 k)) (seq 0 k)) by (intros; symmetry; apply Permutation_rev).
  replace (N.to_nat (roundup_pow2_32 (N.of_nat 13))) with 16 by reflexivity.
  constructor; cbn [e_o1 e_o2 e_codes e_oi e_map e_sort e_red e_karras e_cells e_leaf e_min e_max e_prop exd_env]; intros; try apply repeat_length; try apply RP; auto.
  - constructor; cbn [re_orders re_g1 re_g2 re_ce re_order re_garbage re_old exd_red ce_scan ce_order ce_garbage]; intros; try apply repeat_length; try apply RP; auto.
    apply (C19_exclusive_host (repeat 9%Z 13) T 13 H). rewrite repeat_length. lia.
  - intros g. apply count_rounds.
Qed.
Lemma exd_grid_code : grid_code Z.leb 10 exd_code.
Proof.
  exists exd_grid, exd_grid, exd_grid. split.
  - intros a b H. apply Z.leb_le in H. unfold exd_grid. lia.
  - intros p. split; [|apply Morton_proofs.encode_32]. unfold in_grid, exd_grid. change (2 ^ 10)%N with 1024%N. lia.
Qed.
Definition exd_denv (B : @bvh Z) (nm nq : nat) : dtt_env :=
  let n := total_cell_count B in
  let re k := {| re_count := rev (seq 0 k); re_scatter := rev (seq 0 k); re_sort := rev (seq 0 n); re_junk := fun k => repeat (7, 7) k; Dtt.re_impl := LocalInsertionSort |} in
  {| de_scan_ip := fun buf len => exclusive_sum_in_place_fallback buf len; de_scan := fun buf len => exclusive_sum_fallback (repeat 9%Z len) buf len;
     de_pass := fun _ k => {| pe_main := rev (seq 0 k); pe_task := rev (seq 0 k); pe_m2l := rev (seq 0 k); pe_p2p := rev (seq 0 k);
                              pe_junk := fun k => repeat (7, 7) k; pe_junkZ := fun k => repeat 7%Z k |};
     de_j1 := [(8, 8)]; de_j2 := [9%Z]; de_o1 := rev (seq 0 n); de_o2 := rev (seq 0 n); de_jz := fun k => repeat 5%Z k; de_jp := fun k => repeat (6, 6) k;
     de_rm := re nm; de_rp := re nq |}.
Lemma exd_denv_ok B nm nq : dtt_env_ok B nm nq (exd_denv B nm nq).
Proof.
  assert (RP : forall k, Permutation (rev (seq 0 k)) (seq 0 k)) by (intros; symmetry; apply Permutation_rev).
  constructor; cbn; intros; try apply repeat_length; try apply RP.
  - intros buf len H0 H1. apply (C19_exclusive_host (repeat 0%Z len) buf len H1). rewrite repeat_length. lia.
  - intros buf len H0 H1. apply (C19_exclusive_host (repeat 9%Z len) buf len H1). rewrite repeat_length. lia.
  - constructor; cbn; intros; try apply repeat_length; apply RP.
  - constructor; cbn; intros; try apply repeat_length; try apply RP. exact I.
  - constructor; cbn; intros; try apply repeat_length; try apply RP. exact I.
Qed.

(** For points: 14 far and 55 near pairs. *)
Definition exd_mac (a b : vec Z * vec Z) : bool := (100 <? cx (fst b) - cx (snd a))%Z || (100 <? cx (fst a) - cx (snd b))%Z.
Lemma exd_built hi B : hi = exd_lo \/ hi = exd_hi -> exd_build hi = Ok B -> built Z.leb 30 exd_code exd_lo hi 13 B.
Proof. intros H E. exists 32%N, (2 ^ 32 - 1)%N, (3000,3000,3000)%Z, (-10,-10,-10)%Z, 0, exd_env. split; [now apply exd_input|]. split; [apply exd_env_ok|exact E]. Qed.
Example C45_nonvacuous : exists B m q,
  built Z.leb 30 exd_code exd_lo exd_lo 13 B /\ grid_code Z.leb 10 exd_code /\ b_leafs B = 13 /\
  dtt_recursive_ref exd_mac B true = Ok (m, q) /\
  m = [(1, 12); (12, 1); (4, 13); (13, 4); (4, 14); (14, 4); (4, 15); (15, 4); (7, 16); (16, 7); (7, 17); (17, 7); (7, 18); (18, 7)] /\ length q = 55 /\
  dtt_env_ok B (length m) (length q) (exd_denv B (length m) (length q)) /\
  match clbvh_dual_tree_traversal Z.leb exd_mac B 30 (exd_denv B (length m) (length q)) PARALLEL_SELECT true true with
  | Ok ((m', q'), Some (om, _)) => firstn 4 m' = [(1, 12); (4, 15); (4, 14); (4, 13)] /\ length q' = 55 /\ firstn 6 om = [0; 0; 1; 1; 1; 4]%Z
  | _ => False
  end.
Proof.
  assert (G : match exd_build exd_lo with
    | Ok B => b_leafs B = 13 /\ match dtt_recursive_ref exd_mac B true with
        | Ok (m, q) => m = [(1, 12); (12, 1); (4, 13); (13, 4); (4, 14); (14, 4); (4, 15); (15, 4); (7, 16); (16, 7); (7, 17); (17, 7); (7, 18); (18, 7)] /\ length q = 55 /\
          match clbvh_dual_tree_traversal Z.leb exd_mac B 30 (exd_denv B (length m) (length q)) PARALLEL_SELECT true true with
          | Ok ((m', q'), Some (om, _)) => firstn 4 m' = [(1, 12); (4, 15); (4, 14); (4, 13)] /\ length q' = 55 /\ firstn 6 om = [0; 0; 1; 1; 1; 4]%Z
          | _ => False
          end
        | _ => False end
    | _ => False end) by (vm_compute; repeat split).
  destruct (exd_build exd_lo) as [B| |] eqn:E; try (exfalso; exact G). destruct G as (G1 & G). destruct (dtt_recursive_ref exd_mac B true) as [[m q]| |] eqn:E2; try (exfalso; exact G). destruct G as (G2 & G3 & G4).
  exists B, m, q. split; [apply exd_built; auto|]. split; [apply exd_grid_code|]. split; [exact G1|]. split; [exact E2|]. split; [exact G2|]. split; [exact G3|]. split; [apply exd_denv_ok|exact G4].
Qed.

(** The stacks of the parallel select implementation (32 entries for 32-bit codes) are too small for arbitrary
    boxes: 13 boxes with the same upper corner overflow them, although the other implementations, or a
    larger stack, give the result. *)
Theorem C45_select_ranges_refuted : exists B m q env (mac : vec Z * vec Z -> vec Z * vec Z -> bool),
  built Z.leb 30 exd_code exd_lo exd_hi 13 B /\ grid_code Z.leb 10 exd_code /\
  dtt_recursive_ref mac B true = Ok (m, q) /\ length m + length q = 169 /\ dtt_env_ok B (length m) (length q) env /\
  clbvh_dual_tree_traversal Z.leb mac B 30 env PARALLEL_SELECT false true = UB /\
  match clbvh_dual_tree_traversal Z.leb mac B 60 env PARALLEL_SELECT false true with Ok ((m', q'), _) => length q' = 169 | _ => False end.
Proof.
  assert (G : match exd_build exd_hi with
    | Ok B => match dtt_recursive_ref (fun _ _ => false) B true with
        | Ok (m, q) => length m + length q = 169 /\
          clbvh_dual_tree_traversal Z.leb (fun _ _ => false) B 30 (exd_denv B (length m) (length q)) PARALLEL_SELECT false true = UB /\
          match clbvh_dual_tree_traversal Z.leb (fun _ _ => false) B 60 (exd_denv B (length m) (length q)) PARALLEL_SELECT false true with Ok ((m', q'), _) => length q' = 169 | _ => False end
        | _ => False end
    | _ => False end) by (vm_compute; repeat split).
  destruct (exd_build exd_hi) as [B| |] eqn:E; try (exfalso; exact G). destruct (dtt_recursive_ref (fun _ _ => false) B true) as [[m q]| |] eqn:E2; try (exfalso; exact G). destruct G as (G2 & G3 & G4).
  exists B, m, q, (exd_denv B (length m) (length q)), (fun _ _ => false). split; [apply exd_built; auto|]. split; [apply exd_grid_code|]. split; [exact E2|]. split; [exact G2|]. split; [apply exd_denv_ok|]. split; [exact G3|exact G4].
Qed.
Print Assumptions C45_select_ranges_refuted.
