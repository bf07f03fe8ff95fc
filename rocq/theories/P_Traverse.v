(** Property theorem C17 (see properties.jsonl). *)
From Verif Require Import Base Morton Karras Karras_spec Karras_abs Karras_proofs Traverse Traverse_spec Traverse_proofs.
From Coq Require Import ZifyBool ZifyNat ZifyN.
Local Open Scope nat_scope.

(** ancestors-or-self of leaf k in t, as node ids *)
Fixpoint path_to (off : nat) (t : tree) (k : nat) (ids : list nat) : Prop :=
  match t with
  | Leaf j => j = k /\ ids = [j + off]
  | Node i l r => exists ids', ids = i :: ids' /\ (path_to off l k ids' \/ path_to off r k ids')
  end.
Lemma accepted_path off cond t k : accepted off cond t k <-> exists ids, path_to off t k ids /\ (forall i, In i ids -> cond i = true).
Proof.
  induction t as [j|i l IHl r IHr]; simpl.
  - split.
    + intros [-> H]. exists [k + off]. split; auto. intros i [<-|[]]; auto.
    + intros (ids & [-> ->] & H). split; auto. apply H; simpl; auto.
  - rewrite IHl, IHr. split.
    + intros [C [(ids & P & A)|(ids & P & A)]]; exists (i :: ids); (split; [exists ids; split; auto|]); intros x [<-|Hx]; auto.
    + intros (ids & (ids' & -> & P) & A). split; [apply A; simpl; auto|].
      destruct P; [left|right]; exists ids'; split; auto; intros; apply A; simpl; auto.
Qed.

Lemma subtree_reads cells b id t : reads cells b id t -> forall u, In u (subtrees t) -> exists b' id', reads cells b' id' u.
Proof.
  intros R. induction R as [k|i c l r E L0 R0 Hl IHl Hr IHr]; simpl; intros u Hu.
  - destruct Hu as [<-|[]]. exists true, k. constructor.
  - destruct Hu as [<-|Hu]; [exists false, i; econstructor; eauto|]. apply in_app_or in Hu. destruct Hu; auto.
Qed.
Lemma subtree_leaves t u : In u (subtrees t) -> exists a b, leaves t = a ++ leaves u ++ b.
Proof.
  induction t as [k|i l IHl r IHr]; simpl; intros H.
  - destruct H as [<-|[]]. exists [], []. reflexivity.
  - destruct H as [<-|H]; [exists [], []; simpl; now rewrite app_nil_r|].
    apply in_app_or in H. destruct H as [H|H].
    + destruct (IHl H) as (a & b & ->). exists a, (b ++ leaves r). now rewrite <- !app_assoc.
    + destruct (IHr H) as (a & b & ->). exists (leaves l ++ a), b. now rewrite <- !app_assoc.
Qed.
Lemma subtree_internals t u i : In u (subtrees t) -> In i (internals u) -> In i (internals t).
Proof.
  induction t as [k|j l IHl r IHr]; simpl; intros H Hi.
  - destruct H as [<-|[]]. exact Hi.
  - destruct H as [<-|H]; [exact Hi|]. right. apply in_or_app. apply in_app_or in H. destruct H; auto.
Qed.
Lemma subtree_height t u : In u (subtrees t) -> height u <= height t.
Proof.
  induction t as [k|j l IHl r IHr]; simpl; intros H.
  - destruct H as [<-|[]]. auto.
  - destruct H as [<-|H]; [auto|]. apply in_app_or in H. destruct H as [H|H]; [specialize (IHl H)|specialize (IHr H)]; lia.
Qed.
Lemma subtree_internals_len t u : In u (subtrees t) -> length (internals u) <= length (internals t).
Proof.
  induction t as [k|j l IHl r IHr]; simpl; intros H.
  - destruct H as [<-|[]]. auto.
  - destruct H as [<-|H]; [auto|]. rewrite app_length. apply in_app_or in H. destruct H as [H|H]; [specialize (IHl H)|specialize (IHr H)]; lia.
Qed.
Lemma SS_sub (a l b : list nat) : StronglySorted lt (a ++ l ++ b) -> StronglySorted lt l.
Proof.
  induction a as [|x a IH]; simpl.
  - induction l as [|y l IH]; simpl; intros H; [constructor|]. inversion H as [|? ? H1 H2]; subst.
    constructor; auto. apply Forall_app in H2. tauto.
  - intros H. inversion H; auto.
Qed.
Lemma SS_seq a n : StronglySorted lt (seq a n).
Proof. revert a. induction n; simpl; intros; constructor; auto. apply Forall_forall. intros x Hx. apply in_seq in Hx. lia. Qed.
Lemma SS_same (a b : list nat) : StronglySorted lt a -> StronglySorted lt b -> (forall x, In x a <-> In x b) -> a = b.
Proof.
  revert b. induction a as [|x a IH]; intros b Ha Hb E.
  - destruct b as [|y b]; auto. exfalso. apply (E y). simpl; auto.
  - inversion Ha as [|? ? Ha1 Ha2]; subst. rewrite Forall_forall in Ha2.
    destruct b as [|y b]; [exfalso; apply (E x); simpl; auto|]. inversion Hb as [|? ? Hb1 Hb2]; subst. rewrite Forall_forall in Hb2.
    assert (x = y).
    { destruct (proj1 (E x) (or_introl eq_refl)) as [|Hx]; auto. destruct (proj2 (E y) (or_introl eq_refl)) as [|Hy]; auto.
      specialize (Ha2 _ Hy). specialize (Hb2 _ Hx). lia. }
    subst. f_equal. apply IH; auto. intros z. split; intros Hz.
    + destruct (proj1 (E z) (or_intror Hz)) as [<-|]; auto. specialize (Ha2 _ Hz). lia.
    + destruct (proj2 (E z) (or_intror Hz)) as [<-|]; auto. specialize (Hb2 _ Hz). lia.
Qed.
Lemma SS_filter (f : nat -> bool) l : StronglySorted lt l -> StronglySorted lt (filter f l).
Proof.
  induction 1 as [|x l H IH F]; simpl; [constructor|]. destruct (f x); auto. constructor; auto.
  rewrite Forall_forall in *. intros y Hy. apply filter_In in Hy. apply F; tauto.
Qed.

Lemma trav_any_sub cells t cond u depth garbage :
  reads cells false 0 t -> leaves t = seq 0 (S (length cells)) -> Permutation (internals t) (seq 0 (length cells)) ->
  (Z.of_nat (length cells) <= 2 ^ 24)%Z -> In u (subtrees t) -> S (height t) <= depth -> length garbage = depth ->
  stack_based_traversal depth cells cond (node_id (length cells) u) garbage
  = Ok (map (event_of (length cells) cond) (frontier (length cells) cond u)).
Proof.
  intros R HL HP HB Hu HD HG. destruct (subtree_reads _ _ _ _ R u Hu) as (b & id & Ru).
  eapply traversal_ok; eauto; try reflexivity.
  - change (2 ^ 24)%Z with 16777216%Z in HB. change (2 ^ 32)%Z with 4294967296%Z. lia.
  - split.
    + intros k Hk. destruct (subtree_leaves _ _ Hu) as (x & y & E). assert (In k (seq 0 (S (length cells)))).
      { rewrite <- HL, E. apply in_or_app; right; apply in_or_app; left; exact Hk. }
      apply in_seq in H. change (2 ^ 24)%Z with 16777216%Z in HB. change (2 ^ 32)%Z with 4294967296%Z. lia.
    + intros i Hi. apply (subtree_internals _ _ _ Hu) in Hi. apply (Permutation_in _ HP) in Hi. apply in_seq in Hi. lia.
  - etransitivity; [apply (subtree_internals_len _ _ Hu)|]. rewrite (Permutation_length HP), seq_length. lia.
  - pose proof (subtree_height _ _ Hu). lia.
Qed.

(** For strictly increasing codes below 2^b, every order of the construction kernel, every traversal
    condition (any function of the node id), every start node [u] of the tree and every initial content
    of the traversal stack, a stack of b + 1 entries never overflows and the traversal terminates.  The
    nodes at which it stops partition the leaves below the start node; the leaves reported found are
    exactly those all of whose ancestors-or-self (below the start node) satisfy the condition, each
    reported once, in increasing order. *)
Theorem C17_traversal : forall (w b : N) (m : list N) order old,
  strictly_sorted m -> (forall x, In x m -> (x < 2 ^ b)%N) -> (b <= w)%N ->
  2 <= length m -> (Z.of_nat (length m) <= 2 ^ 24 + 1)%Z -> length old = length m - 1 ->
  Permutation order (seq 0 (length m - 1)) ->
  exists cells t, karras_alg w m order old = Ok cells /\ reads cells false 0 t /\ leaves t = seq 0 (length m) /\
    forall cond u depth garbage, In u (subtrees t) -> N.to_nat b + 1 <= depth -> length garbage = depth ->
    let off := length cells in
    exists stops, stack_based_traversal depth cells cond (node_id off u) garbage = Ok (map (event_of off cond) stops) /\
      incl stops (subtrees u) /\ flat_map leaves stops = leaves u /\
      let found := found_leaves off (map (event_of off cond) stops) in
      StronglySorted lt found /\
      (forall k, In k found <-> exists ids, path_to off u k ids /\ forall i, In i ids -> cond i = true).
Proof.
  intros w b m order old HS HW Hb H2 HB HL HP.
  assert (HW' : forall x, In x m -> (x < 2 ^ w)%N).
  { intros x Hx. eapply N.lt_le_trans; [apply HW; auto|]. apply N.pow_le_mono_r; lia. }
  destruct (karras_alg_ok w m order old H2 HB HS HW' HL HP) as (cells & E & L & t & T1 & T2 & T3 & T4 & T5).
  exists cells, t. split; [auto|]. split; [auto|]. split; [auto|].
  intros cond u depth garbage Hu HD HG off.
  assert (HH : height t <= N.to_nat b).
  { assert (F : (nth 0 m 0 < nth (length m - 1) m 0)%N).
    { clear - HS H2. destruct m as [|x m]; simpl in *; [lia|]. inversion HS as [|? ? _ F]; subst. rewrite Forall_forall in F.
      destruct m as [|y m]; simpl in *; [lia|]. apply F. apply (nth_In (y :: m)). simpl. lia. }
    assert (B2 : (nth (length m - 1) m 0 < 2 ^ b)%N) by (apply HW, nth_In; lia).
    destruct (clz_xor_lt w _ _ F) as (p & Ep & Pp & _ & D2 & _); [eapply N.lt_le_trans; [exact B2|apply N.pow_le_mono_r; lia]|].
    assert (p < b)%N.
    { destruct (N.lt_ge_cases p b) as [|Hge]; auto. exfalso. rewrite (Bits.testbit_high _ b _ B2 Hge) in D2. discriminate. }
    rewrite Ep in T5. clear - T5 H Pp. lia. }
  assert (LC : length m = S off) by (unfold off; lia).
  exists (frontier off cond u). split.
  { unfold off. eapply trav_any_sub; eauto; try lia; [now rewrite T2, LC|now rewrite L]. }
  split; [intros v Hv; now apply frontier_kind in Hv|]. split; [apply frontier_leaves|].
  assert (SB : forall i, In i (internals u) -> i < off).
  { intros i Hi. apply (subtree_internals _ _ _ Hu) in Hi. apply (Permutation_in _ T3) in Hi. apply in_seq in Hi. lia. }
  intros found. unfold found. rewrite found_spec by auto. split.
  - apply found_sorted. destruct (subtree_leaves _ _ Hu) as (x & y & Q). apply (SS_sub x _ y). rewrite <- Q, T2. apply SS_seq.
  - intros k. rewrite found_accepted. apply accepted_path.
Qed.
Print Assumptions C17_traversal.

(** No false negative: when the condition is monotone (it holds for a node whenever it holds for one of
    its children, as box overlap tests do), the traversal from the root finds exactly the leaves that
    satisfy the condition themselves. *)
Theorem C17_complete_for_monotone_conditions : forall (w b : N) (m : list N) order old,
  strictly_sorted m -> (forall x, In x m -> (x < 2 ^ b)%N) -> (b <= w)%N ->
  2 <= length m -> (Z.of_nat (length m) <= 2 ^ 24 + 1)%Z -> length old = length m - 1 ->
  Permutation order (seq 0 (length m - 1)) ->
  exists cells, karras_alg w m order old = Ok cells /\
    forall cond garbage, length garbage = N.to_nat b + 1 ->
    let off := length cells in
    (forall i l r, i < off -> get_left_child cells off i = Ok l -> get_right_child cells off i = Ok r ->
       cond l = true \/ cond r = true -> cond i = true) ->
    exists log, stack_based_traversal (N.to_nat b + 1) cells cond 0 garbage = Ok log /\
      found_leaves off log = filter (fun k => cond (k + off)) (seq 0 (length m)).
Proof.
  intros w b m order old HS HW Hb H2 HB HL HP.
  destruct (C17_traversal w b m order old HS HW Hb H2 HB HL HP) as (cells & t & E & R & T2 & T).
  exists cells. split; auto. intros cond garbage HG off MON.
  assert (Ht : In t (subtrees t)) by (destruct t; simpl; auto).
  destruct (T cond t (N.to_nat b + 1) garbage Ht ltac:(lia) HG) as (stops & S1 & S2 & S3 & S4 & S5).
  assert (N0 : node_id (length cells) t = 0) by (rewrite (node_id_reads _ _ _ _ _ R); reflexivity).
  rewrite N0 in S1. exists (map (event_of off cond) stops). split; [exact S1|].
  apply SS_same; [exact S4|apply SS_filter, SS_seq|].
  intros k. etransitivity; [exact (S5 k)|]. rewrite filter_In.
  destruct (karras_alg_ok w m order old H2 HB HS) as (cells' & E' & L & t' & T1' & T2' & T3' & _); auto.
  { intros x Hx. eapply N.lt_le_trans; [apply HW; auto|]. apply N.pow_le_mono_r; lia. }
  rewrite E in E'. injection E' as <-.
  assert (UN : forall v b1 id1, reads cells b1 id1 v -> forall v', reads cells b1 id1 v' -> v = v').
  { clear. induction v; intros b1 id1 R v' R'; inversion R; subst; inversion R'; subst; auto.
    rewrite H2 in *. match goal with H : Some _ = Some _ |- _ => injection H as <- end. f_equal; eauto. }
  assert (t' = t) by (eapply UN; eauto). subst t'.
  assert (SM : small off t).
  { unfold off. split.
    - rewrite T2. intros j Hj. apply in_seq in Hj. change (2 ^ 24)%Z with 16777216%Z in HB. change (2 ^ 32)%Z with 4294967296%Z. lia.
    - intros i Hi. apply (Permutation_in _ T3') in Hi. apply in_seq in Hi. lia. }
  rewrite <- T2.
  enough (G : forall v b1 id1, reads cells b1 id1 v -> small off v ->
     ((In k (leaves v) /\ cond (k + off) = true) <-> exists ids, path_to off v k ids /\ (forall i, In i ids -> cond i = true))).
  { symmetry. apply (G t false 0 R SM). }
  assert (PI : forall v ids, path_to off v k ids -> In (node_id off v) ids).
  { intros [j|i l r] ids; simpl; [intros [_ ->]; simpl; auto|intros (ids' & -> & _); simpl; auto]. }
  induction v as [j|i l IHl r IHr]; intros b1 id1 Rv SMv.
  - simpl. split.
    + intros [[->|[]] C]. exists [k + off]. split; auto. intros i [<-|[]]; auto.
    + intros (ids & [-> ->] & C). split; auto. apply C. simpl. auto.
  - destruct (reads_node_inv _ _ _ _ _ _ Rv) as (c & En & L0 & R0 & Rl & Rr).
    assert (SMl : small off l).
    { destruct SMv as [A B]. split; intros; [apply A|apply B]; simpl; [apply in_or_app; auto|right; apply in_or_app; auto]. }
    assert (SMr : small off r).
    { destruct SMv as [A B]. split; intros; [apply A|apply B]; simpl; [apply in_or_app; auto|right; apply in_or_app; auto]. }
    specialize (IHl _ _ Rl SMl). specialize (IHr _ _ Rr SMr).
    assert (Hi : i < off) by (apply SMv; simpl; auto).
    assert (MO : cond (node_id off l) = true \/ cond (node_id off r) = true -> cond i = true).
    { apply MON; auto; [unfold get_left_child|unfold get_right_child]; unfold aget; rewrite En; cbn [rbind]; f_equal.
      - apply (child_ok cells off) with (t := l); auto; unfold off; change (2 ^ 24)%Z with 16777216%Z in HB; change (2 ^ 32)%Z with 4294967296%Z; lia.
      - apply (child_ok cells off) with (t := r); auto; unfold off; change (2 ^ 24)%Z with 16777216%Z in HB; change (2 ^ 32)%Z with 4294967296%Z; lia. }
    cbn [leaves path_to]. rewrite in_app_iff. split.
    + intros [[Hk|Hk] C].
      * destruct (proj1 IHl (conj Hk C)) as (ids & P & A). exists (i :: ids). split; [eauto|].
        intros x [<-|Hx]; [apply MO; left; apply A; now apply PI|auto].
      * destruct (proj1 IHr (conj Hk C)) as (ids & P & A). exists (i :: ids). split; [eauto|].
        intros x [<-|Hx]; [apply MO; right; apply A; now apply PI|auto].
    + intros (ids & (ids' & -> & P) & A). destruct P as [P|P].
      * destruct (proj2 IHl) as [X Y]; [exists ids'; split; auto; intros; apply A; simpl; auto|]. auto.
      * destruct (proj2 IHr) as [X Y]; [exists ids'; split; auto; intros; apply A; simpl; auto|]. auto.
Qed.
Print Assumptions C17_complete_for_monotone_conditions.

(** A tree made of a single leaf has no internal cell: node 0 is that leaf. *)
Theorem C17_single_leaf : forall depth cond garbage, 1 <= depth -> length garbage = depth ->
  stack_based_traversal depth [] cond 0 garbage = Ok (if cond 0 then [Found 0] else [Excluded 0]).
Proof.
  intros depth cond garbage HD HG.
  rewrite (traversal_ok depth [] cond garbage (Leaf 0) 0 true 0); simpl; auto; try lia.
  - unfold event_of. simpl. destruct (cond 0); reflexivity.
  - constructor.
  - split; simpl; [intros k [<-|[]]; lia|tauto].
Qed.
Print Assumptions C17_single_leaf.

(** The depth used by the code is significant_bits + 1 (64 for 63-bit codes, 31 for 30-bit codes); it
    is not enough for codes using all the bits of the word: 65 codes 0, 1, 2, 4, ..., 2^63 with 64 stack
    entries write before the start of the stack. *)
Definition comb_codes : list N := 0%N :: map (fun i => (2 ^ N.of_nat i)%N) (seq 0 64).
Definition comb_cells : list cell :=
  Eval vm_compute in match karras_alg 64 comb_codes (seq 0 64) (repeat (mkcell 0 false 0 false 0) 64) with Ok c => c | _ => [] end.
Theorem C17_full_width_codes_refuted :
  strictly_sorted comb_codes /\ (forall x, In x comb_codes -> (x < 2 ^ 64)%N) /\
  exists cells, karras_alg 64 comb_codes (seq 0 64) (repeat (mkcell 0 false 0 false 0) 64) = Ok cells /\
    stack_based_traversal 64 cells (fun _ => true) 0 (repeat 0%N 64) = UB.
Proof.
  split; [|split].
  - unfold strictly_sorted.
    assert (G : forall n a, StronglySorted N.lt (map (fun i => (2 ^ N.of_nat i)%N) (seq a n))).
    { induction n as [|n IH]; intros a; simpl; constructor; auto. apply Forall_forall. intros x Hx.
      apply in_map_iff in Hx. destruct Hx as (j & <- & Hj). apply in_seq in Hj. apply N.pow_lt_mono_r; lia. }
    constructor; [apply G|]. apply Forall_forall. intros x Hx. apply in_map_iff in Hx. destruct Hx as (j & <- & _).
    apply N.neq_0_lt_0. apply N.pow_nonzero. discriminate.
  - intros x [<-|Hx]; [reflexivity|]. apply in_map_iff in Hx. destruct Hx as (j & <- & Hj). apply in_seq in Hj.
    apply N.pow_lt_mono_r; lia.
  - exists comb_cells. split; vm_compute; reflexivity.
Qed.
Print Assumptions C17_full_width_codes_refuted.

Example C17_nonvacuous :
  match karras_alg 64 [1; 2; 4; 5; 19; 24; 25; 30]%N (seq 0 7) (repeat (mkcell 9 true 9 true 9) 7) with
  | Ok cells => length cells = 7 /\
      match stack_based_traversal 6 cells (fun id => negb ((id =? 1) || (id =? 7 + 5))) 0 (repeat 3%N 6) with
      | Ok log => log = [Excluded 1; Found 9; Found 10; Found 11; Excluded 12; Found 13; Found 14] /\ found_leaves 7 log = [2; 3; 4; 6; 7]
      | _ => False
      end
  | _ => False
  end.
Proof. vm_compute. auto. Qed.
