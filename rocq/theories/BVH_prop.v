(** Propagation of the boxes to the internal cells: correctness under every interleaving. *)
From Verif Require Import Base Karras Karras_spec Traverse Traverse_spec Traverse_proofs P_Traverse BVH BVH_spec.
From Coq Require Import ZifyBool ZifyNat ZifyN.
Local Open Scope nat_scope.

Section Prop_.
  Context {C : Type} (leb : C -> C -> bool) (cells : list cell) (L R : nat -> nat) (ht : nat -> nat) (vlo vhi : nat -> vec C).
  Let off := length cells.
  Variable total : nat.
  Hypothesis Htot : off <= total.
  Hypothesis HL : forall g, g < off -> get_left_child cells off g = Ok (L g) /\ L g < total /\ ht (L g) < ht g.
  Hypothesis HR : forall g, g < off -> get_right_child cells off g = Ok (R g) /\ R g < total /\ ht (R g) < ht g.
  Hypothesis Hlo : forall g, g < off -> vlo g = vmin leb (vlo (L g)) (vlo (R g)).
  Hypothesis Hhi : forall g, g < off -> vhi g = vmax leb (vhi (L g)) (vhi (R g)).

  (** all nodes of rank <= k hold their final box *)
  Definition settled (k : nat) (m : list (vec C) * list (vec C)) : Prop :=
    length (fst m) = total /\ length (snd m) = total /\
    forall id, id < total -> ht id <= k -> nth_error (fst m) id = Some (vlo id) /\ nth_error (snd m) id = Some (vhi id).

  Definition reads_of (g : nat) : list (vec C) := [vlo (L g); vlo (R g); vhi (L g); vhi (R g)].
  Definition inv (k : nat) (todo : list nat) (st : @prop_state C) : Prop :=
    let '(m, th) := st in
    settled k m /\ length th = off /\
    (forall g, off <= g -> count_occ Nat.eq_dec todo g = 0) /\
    forall g, g < off -> exists pc vs, nth_error th g = Some (pc, vs) /\
      pc + count_occ Nat.eq_dec todo g = 6 /\ length vs = Nat.min pc 4 /\
      (ht g <= S k -> vs = firstn pc (reads_of g) /\
        (5 <= pc -> nth_error (fst m) g = Some (vlo g)) /\ (6 <= pc -> nth_error (snd m) g = Some (vhi g))).

  Lemma reads_of_ge g pc : 4 <= pc -> firstn pc (reads_of g) = reads_of g.
  Proof. intros H. apply firstn_all2. simpl. lia. Qed.

  Lemma count_cons g x l : count_occ Nat.eq_dec (g :: l) x = (if Nat.eq_dec g x then 1 else 0) + count_occ Nat.eq_dec l x.
  Proof. cbn [count_occ]. destruct (Nat.eq_dec g x); reflexivity. Qed.

  Lemma inv_step k g todo st : inv k (g :: todo) st -> exists st', prop_access leb cells g st = Ok st' /\ inv k todo st'.
  Proof.
    destruct st as [[mn mx] th]. intros (S0 & LT & OO & TH). destruct S0 as (L1 & L2 & S0). cbn [fst snd] in L1, L2.
    assert (Hg : g < off).
    { destruct (Nat.lt_ge_cases g off) as [|H]; auto. specialize (OO g H). rewrite count_cons in OO.
      destruct (Nat.eq_dec g g); [lia|congruence]. }
    destruct (TH g Hg) as (pc & vs & E1 & E2 & E3 & E4).
    rewrite count_cons in E2. destruct (Nat.eq_dec g g) as [_|N]; [|congruence].
    destruct (HL g Hg) as (G1 & G2 & G3). destruct (HR g Hg) as (G4 & G5 & G6).
    unfold prop_access. unfold aget at 1. rewrite E1. cbn [rbind]. fold off. rewrite G1, G4. cbn [rbind].
    assert (OO' : forall x, off <= x -> count_occ Nat.eq_dec todo x = 0).
    { intros x Hx. specialize (OO x Hx). rewrite count_cons in OO. lia. }
    (* everything but the state of g is unchanged by an access that does not write *)
    assert (RD : forall pc' vs', pc' = S pc -> pc <= 3 -> length vs' = pc' ->
       (ht g <= S k -> vs' = firstn pc' (reads_of g)) -> inv k todo ((mn, mx), upd th g (pc', vs'))).
    { intros pc' vs' Ep Hp Lv Hv. unfold inv. split; [split; [exact L1|split; [exact L2|exact S0]]|]. split; [now rewrite length_upd|].
      split; [exact OO'|]. intros x Hx. destruct (Nat.eq_dec g x) as [<-|NE].
      - exists pc', vs'. rewrite nth_error_upd_eq by (unfold off in *; lia). split; auto. split; [lia|]. split; [lia|].
        intros Hh. split; auto. split; lia.
      - rewrite nth_error_upd_neq by auto. destruct (TH x Hx) as (p & v & F1 & F2 & F3 & F4). exists p, v. split; auto.
        rewrite count_cons in F2. destruct (Nat.eq_dec g x); [congruence|]. split; [lia|]. auto. }
    assert (AS : forall v, aset th g v = Ok (upd th g v)) by (intros; apply aset_lt; unfold off in *; lia).
    assert (rdmn : forall j d, j < total -> aget mn j = Ok (nth j mn d)) by (intros; apply aget_lt; lia).
    assert (rdmx : forall j d, j < total -> aget mx j = Ok (nth j mx d)) by (intros; apply aget_lt; lia).
    destruct pc as [|[|[|[|[|[|pc]]]]]]; try lia.
    - rewrite (rdmn _ (vlo g)) by auto. cbn [rbind]. rewrite AS. cbn [rbind]. eexists. split; [reflexivity|]. apply RD; auto; try lia.
      { rewrite app_length. simpl in *. lia. }
      intros Hh. destruct (E4 Hh) as (-> & _ & _). destruct (S0 (L g) G2) as [X _]; [lia|]. cbn [fst] in X.
      rewrite (nth_error_nth _ _ _ X). reflexivity.
    - rewrite (rdmn _ (vlo g)) by auto. cbn [rbind]. rewrite AS. cbn [rbind]. eexists. split; [reflexivity|]. apply RD; auto; try lia.
      { rewrite app_length. simpl in *. lia. }
      intros Hh. destruct (E4 Hh) as (-> & _ & _). destruct (S0 (R g) G5) as [X _]; [lia|]. cbn [fst] in X.
      rewrite (nth_error_nth _ _ _ X). reflexivity.
    - rewrite (rdmx _ (vlo g)) by auto. cbn [rbind]. rewrite AS. cbn [rbind]. eexists. split; [reflexivity|]. apply RD; auto; try lia.
      { rewrite app_length. simpl in *. lia. }
      intros Hh. destruct (E4 Hh) as (-> & _ & _). destruct (S0 (L g) G2) as [_ X]; [lia|]. cbn [snd] in X.
      rewrite (nth_error_nth _ _ _ X). reflexivity.
    - rewrite (rdmx _ (vlo g)) by auto. cbn [rbind]. rewrite AS. cbn [rbind]. eexists. split; [reflexivity|]. apply RD; auto; try lia.
      { rewrite app_length. simpl in *. lia. }
      intros Hh. destruct (E4 Hh) as (-> & _ & _). destruct (S0 (R g) G5) as [_ X]; [lia|]. cbn [snd] in X.
      rewrite (nth_error_nth _ _ _ X). reflexivity.
    - (* write of the min *)
      destruct vs as [|a [|b [|c [|d [|? ?]]]]]; simpl in E3; try lia. rewrite (aset_lt mn) by lia. cbn [rbind]. rewrite AS. cbn [rbind].
      eexists. split; [reflexivity|].
      assert (VW : ht g <= S k -> vmin leb a b = vlo g).
      { intros Hh. destruct (E4 Hh) as (X & _ & _). cbn in X. injection X as -> -> -> ->. symmetry. now apply Hlo. }
      assert (KEEP : forall x, x < total -> ht x <= S k -> nth_error mn x = Some (vlo x) -> nth_error (upd mn g (vmin leb a b)) x = Some (vlo x)).
      { intros x Hx Hh Hn. destruct (Nat.eq_dec g x) as [<-|NE]; [rewrite nth_error_upd_eq by lia; f_equal; auto|now rewrite nth_error_upd_neq]. }
      unfold inv. split.
      { split; [cbn [fst]; now rewrite length_upd|]. split; [exact L2|]. intros id Hid Hh. destruct (S0 id Hid Hh) as [X Y]. cbn [fst snd] in *.
        split; auto. }
      split; [now rewrite length_upd|]. split; [exact OO'|]. intros x Hx. destruct (Nat.eq_dec g x) as [<-|NE].
      + exists 5, [a; b; c; d]. rewrite nth_error_upd_eq by (unfold off in *; lia). split; auto. split; [lia|]. split; [reflexivity|].
        intros Hh. destruct (E4 Hh) as (X & _ & _). split; [exact X|]. split; [intros _; cbn [fst]; rewrite nth_error_upd_eq by lia; f_equal; auto|lia].
      + rewrite nth_error_upd_neq by auto. destruct (TH x Hx) as (p & v & F1 & F2 & F3 & F4). exists p, v. split; auto.
        rewrite count_cons in F2. destruct (Nat.eq_dec g x); [congruence|]. split; [lia|]. split; auto.
        intros Hh. destruct (F4 Hh) as (X & Y & Z). cbn [fst snd] in *. split; auto. split; auto. intros Hp. apply KEEP; auto; lia.
    - destruct vs as [|a [|b [|c [|d [|? ?]]]]]; simpl in E3; try lia. rewrite (aset_lt mx) by lia. cbn [rbind]. rewrite AS. cbn [rbind].
      eexists. split; [reflexivity|].
      assert (VW : ht g <= S k -> vmax leb c d = vhi g).
      { intros Hh. destruct (E4 Hh) as (X & _ & _). cbn in X. injection X as -> -> -> ->. symmetry. now apply Hhi. }
      assert (KEEP : forall x, x < total -> ht x <= S k -> nth_error mx x = Some (vhi x) -> nth_error (upd mx g (vmax leb c d)) x = Some (vhi x)).
      { intros x Hx Hh Hn. destruct (Nat.eq_dec g x) as [<-|NE]; [rewrite nth_error_upd_eq by lia; f_equal; auto|now rewrite nth_error_upd_neq]. }
      unfold inv. split.
      { split; [exact L1|]. split; [cbn [snd]; now rewrite length_upd|]. intros id Hid Hh. destruct (S0 id Hid Hh) as [X Y]. cbn [fst snd] in *.
        split; auto. }
      split; [now rewrite length_upd|]. split; [exact OO'|]. intros x Hx. destruct (Nat.eq_dec g x) as [<-|NE].
      + exists 6, [a; b; c; d]. rewrite nth_error_upd_eq by (unfold off in *; lia). split; auto. split; [lia|]. split; [reflexivity|].
        intros Hh. destruct (E4 Hh) as (X & Y & _). split; [exact X|]. split; [intros _; apply Y; lia|intros _; cbn [snd]; rewrite nth_error_upd_eq by lia; f_equal; auto].
      + rewrite nth_error_upd_neq by auto. destruct (TH x Hx) as (p & v & F1 & F2 & F3 & F4). exists p, v. split; auto.
        rewrite count_cons in F2. destruct (Nat.eq_dec g x); [congruence|]. split; [lia|]. split; auto.
        intros Hh. destruct (F4 Hh) as (X & Y & Z). cbn [fst snd] in *. split; auto. split; auto. intros Hp. apply KEEP; auto; lia.
  Qed.

  Lemma inv_run k todo : forall st, inv k todo st -> exists st', rfold (prop_access leb cells) todo st = Ok st' /\ inv k [] st'.
  Proof.
    induction todo as [|g todo IH]; intros st H; cbn [rfold]; [eauto|].
    destruct (inv_step k g todo st H) as (st' & E & H'). rewrite E. cbn [rbind]. auto.
  Qed.

  Hypothesis Hleaf : forall id, off <= id -> ht id = 0.

  Lemma prop_step_ok k sched m : 0 < off -> interleaving off sched -> settled k m -> exists m', prop_step leb cells sched m = Ok m' /\ settled (S k) m'.
  Proof.
    intros H0 HI HS. unfold prop_step. fold off. replace (off =? 0) with false by lia.
    destruct (inv_run k sched (m, repeat (0, []) off)) as (st & E & I).
    { unfold inv. split; [exact HS|]. split; [apply repeat_length|]. split.
      - intros g Hg. rewrite (HI g). replace (g <? off) with false by lia. reflexivity.
      - intros g Hg. exists 0, []. split; [apply nth_error_repeat; auto|]. split; [rewrite (HI g); replace (g <? off) with true by lia; reflexivity|].
        split; [reflexivity|]. intros _. split; [reflexivity|]. split; lia. }
    rewrite E. cbn [rbind]. destruct st as [m' th]. exists m'. split; [reflexivity|]. destruct I as ((I1 & I2 & I3) & _ & _ & TH).
    split; auto. split; auto. intros id Hid Hh. destruct (Nat.lt_ge_cases id off) as [Hi|Hi].
    - destruct (TH id Hi) as (pc & vs & F1 & F2 & F3 & F4). cbn [count_occ] in F2. destruct (F4 Hh) as (_ & X & Y). split; [apply X|apply Y]; lia.
    - apply I3; auto. rewrite Hleaf; auto. lia.
  Qed.

  Lemma propagate_ok depth sched m : (forall i, interleaving off (sched i)) -> (forall id, id < total -> ht id <= depth) -> settled 0 m ->
    exists m', propagate_aabb_up leb cells depth sched m = Ok m' /\ settled depth m'.
  Proof.
    intros HI HD HS. unfold propagate_aabb_up. fold off. destruct (Nat.eqb_spec off 0) as [Z|NZ].
    - exists m. split; auto. destruct HS as (A & B & D). split; auto. split; auto. intros id Hid _. apply D; auto. rewrite Hleaf; lia.
    - assert (G : forall todo i k m, settled k m -> exists m', prop_loop leb cells sched i todo m = Ok m' /\ settled (k + todo) m').
      { clear HS HD m. induction todo as [|todo IH]; intros i k m HS; cbn [prop_loop].
        - exists m. rewrite Nat.add_0_r. auto.
        - destruct (prop_step_ok k (sched i) m) as (m1 & E1 & S1); auto; [lia|]. rewrite E1. cbn [rbind].
          destruct (IH (S i) (S k) m1 S1) as (m2 & E2 & S2). exists m2. split; auto. now rewrite <- Nat.add_succ_comm. }
      destruct (G depth 0 0 m HS) as (m' & E & S'). exists m'. split; auto.
  Qed.
End Prop_.

(** subtrees *)
  Lemma leaf_sub : forall k u, In k (leaves u) -> In (Leaf k) (subtrees u).
  Proof.
    intros k u. induction u as [j|i l IHl r IHr]; simpl; [intros [->|[]]; auto|].
    rewrite !in_app_iff. intuition.
  Qed.
  Lemma internal_sub : forall i u, In i (internals u) -> exists l r, In (Node i l r) (subtrees u).
  Proof.
    intros i u. induction u as [j|j l IHl r IHr]; simpl; [tauto|].
    rewrite in_app_iff. intros [->|[H|H]]; [exists l, r; auto| |].
    - destruct (IHl H) as (a & b & X). exists a, b. right. apply in_or_app; auto.
    - destruct (IHr H) as (a & b & X). exists a, b. right. apply in_or_app; auto.
  Qed.
  Lemma sub_leaf_in k u : In (Leaf k) (subtrees u) -> In k (leaves u).
  Proof. induction u as [j|j l IHl r IHr]; simpl; [intros [H|[]]; injection H; auto|]. intros [H|H]; [discriminate|]. apply in_app_or in H. apply in_or_app. tauto. Qed.
  Lemma sub_node_in i l r u : In (Node i l r) (subtrees u) -> In i (internals u).
  Proof.
    induction u as [j|j l' IHl r' IHr]; simpl; [intros [H|[]]; discriminate|]. intros [H|H]; [injection H; auto|].
    right. apply in_app_or in H. apply in_or_app. tauto.
  Qed.
  Lemma subtree_trans a b c : In a (subtrees b) -> In b (subtrees c) -> In a (subtrees c).
  Proof.
    intros H. induction c as [k|i l IHl r IHr]; simpl; intros Hb.
    - destruct Hb as [<-|[]]. exact H.
    - destruct Hb as [<-|Hb]; [exact H|]. right. apply in_app_or in Hb. apply in_or_app. tauto.
  Qed.
  Lemma self_sub u : In u (subtrees u).
  Proof. destruct u; simpl; auto. Qed.

(** the boxes of the nodes of a tree, from the boxes of its leaves *)
Section TreeBox.
  Context {C : Type} (leb : C -> C -> bool) (lb : nat -> vec C * vec C).
  Fixpoint tbox (t : tree) : vec C * vec C :=
    match t with
    | Leaf k => lb k
    | Node _ l r => (vmin leb (fst (tbox l)) (fst (tbox r)), vmax leb (snd (tbox l)) (snd (tbox r)))
    end.

  Variables (cells : list cell) (t : tree) (b0 : bool) (id0 : nat).
  Let off := length cells.
  Hypothesis HR : reads cells b0 id0 t.
  Hypothesis HLv : leaves t = seq 0 (off + 1).
  Hypothesis HIn : Permutation (internals t) (seq 0 off).
  Hypothesis Hsm : (Z.of_nat off <= 2 ^ 24)%Z.

  Definition find_node (id : nat) : tree :=
    match find (fun u => node_id off u =? id) (subtrees t) with Some u => u | None => Leaf 0 end.

  Lemma sub_id u : In u (subtrees t) -> match u with Leaf k => k <= off | Node i _ _ => i < off end.
  Proof.
    intros H. destruct u as [k|i l r].
    - apply sub_leaf_in in H. rewrite HLv in H. apply in_seq in H. lia.
    - apply sub_node_in in H. apply (Permutation_in _ HIn), in_seq in H. lia.
  Qed.
  Lemma reads_unique b id u1 : reads cells b id u1 -> forall u2, reads cells b id u2 -> u1 = u2.
  Proof.
    clear. induction 1 as [k|i c l r E L0 R0 Hl IHl Hr IHr]; intros t2 H2; inversion H2; subst; auto.
    rewrite E in *. match goal with H : Some _ = Some _ |- _ => injection H as <- end. f_equal; auto.
  Qed.
  Lemma sub_unique u1 u2 : In u1 (subtrees t) -> In u2 (subtrees t) -> node_id off u1 = node_id off u2 -> u1 = u2.
  Proof.
    intros H1 H2 E. pose proof (sub_id _ H1) as B1. pose proof (sub_id _ H2) as B2.
    destruct (subtree_reads _ _ _ _ HR _ H1) as (b1 & i1 & R1). destruct (subtree_reads _ _ _ _ HR _ H2) as (b2 & i2 & R2).
    destruct u1 as [k1|j1 l1 r1], u2 as [k2|j2 l2 r2]; cbn [node_id] in E; try lia.
    - f_equal. lia.
    - subst j2. inversion R1; subst; inversion R2; subst. eapply reads_unique; eauto.
  Qed.
  Lemma find_node_sub u : In u (subtrees t) -> find_node (node_id off u) = u.
  Proof.
    intros H. unfold find_node. destruct (find _ (subtrees t)) as [v|] eqn:E.
    - apply find_some in E. destruct E as [Hv E]. apply sub_unique; auto. lia.
    - exfalso. apply (find_none _ _ E u) in H. simpl in H. lia.
  Qed.
  Lemma find_node_ok id : id < off + (off + 1) -> In (find_node id) (subtrees t) /\ node_id off (find_node id) = id.
  Proof.
    intros H. assert (exists u, In u (subtrees t) /\ node_id off u = id) as (u & Hu & E).
    { destruct (Nat.lt_ge_cases id off) as [Hi|Hi].
      - destruct (internal_sub id t) as (l & r & X).
        { apply (Permutation_in _ (Permutation_sym HIn)). apply in_seq. lia. }
        exists (Node id l r). auto.
      - exists (Leaf (id - off)). split; [apply leaf_sub; rewrite HLv; apply in_seq; lia|simpl; lia]. }
    rewrite <- E, find_node_sub by auto. auto.
  Qed.


  Lemma sub_small u : In u (subtrees t) -> small off u.
  Proof.
    intros H. split.
    - intros k Hk. apply leaf_sub in Hk. pose proof (sub_id _ (subtree_trans _ _ _ Hk H)) as X. cbn in X.
      change (2 ^ 24)%Z with 16777216%Z in Hsm. change (2 ^ 32)%Z with 4294967296%Z. clear - X Hsm. lia.
    - intros i Hi. destruct (internal_sub _ _ Hi) as (l & r & X). apply (sub_id _ (subtree_trans _ _ _ X H)).
  Qed.
  Lemma children i l r : In (Node i l r) (subtrees t) ->
    get_left_child cells off i = Ok (node_id off l) /\ get_right_child cells off i = Ok (node_id off r) /\
    In l (subtrees t) /\ In r (subtrees t).
  Proof.
    intros H.
    assert (Hl : In l (subtrees t)) by (eapply subtree_trans; [|exact H]; simpl; right; apply in_or_app; left; apply self_sub).
    assert (Hr : In r (subtrees t)) by (eapply subtree_trans; [|exact H]; simpl; right; apply in_or_app; right; apply self_sub).
    destruct (subtree_reads _ _ _ _ HR _ H) as (b & id & Rn). destruct (reads_node_inv _ _ _ _ _ _ Rn) as (c & En & L0 & R0 & Rl & Rr).
    assert (B : (Z.of_nat off < 2 ^ 32)%Z) by (clear - Hsm; change (2 ^ 24)%Z with 16777216%Z in Hsm; change (2 ^ 32)%Z with 4294967296%Z; lia).
    unfold get_left_child, get_right_child, aget. rewrite En. cbn [rbind]. split; [|split; [|auto]]; f_equal.
    - apply (child_ok cells off) with (t := l); auto. now apply sub_small.
    - apply (child_ok cells off) with (t := r); auto. now apply sub_small.
  Qed.

  Lemma node_id_total u : In u (subtrees t) -> node_id off u < off + (off + 1).
  Proof. intros H. pose proof (sub_id _ H). destruct u; simpl in *; lia. Qed.

  Theorem propagate_tree depth sched m :
    (forall i, interleaving off (sched i)) -> height t <= depth ->
    length (fst m) = off + (off + 1) -> length (snd m) = off + (off + 1) ->
    (forall k, k <= off -> nth_error (fst m) (off + k) = Some (fst (lb k)) /\ nth_error (snd m) (off + k) = Some (snd (lb k))) ->
    exists m', propagate_aabb_up leb cells depth sched m = Ok m' /\
      length (fst m') = off + (off + 1) /\ length (snd m') = off + (off + 1) /\
      forall u, In u (subtrees t) -> nth_error (fst m') (node_id off u) = Some (fst (tbox u)) /\ nth_error (snd m') (node_id off u) = Some (snd (tbox u)).
  Proof.
    intros HI HD L1 L2 HB.
    set (L := fun g => match find_node g with Node _ l _ => node_id off l | Leaf _ => 0 end).
    set (R := fun g => match find_node g with Node _ _ r => node_id off r | Leaf _ => 0 end).
    assert (FN : forall g, g < off -> exists l r, find_node g = Node g l r /\ In (Node g l r) (subtrees t)).
    { intros g Hg. destruct (find_node_ok g) as [X Y]; [lia|]. destruct (find_node g) as [k|i l r]; cbn [node_id] in Y; [lia|]. subst. eauto. }
    destruct (propagate_ok leb cells L R (fun id => height (find_node id)) (fun id => fst (tbox (find_node id))) (fun id => snd (tbox (find_node id)))
      (off + (off + 1))) with (depth := depth) (sched := sched) (m := m) as (m' & E & S').
    - fold off. lia.
    - fold off. intros g Hg. destruct (FN g Hg) as (l & r & F & X). destruct (children _ _ _ X) as (A & _ & B & _).
      unfold L. rewrite F. rewrite find_node_sub by auto. split; auto. split; [now apply node_id_total|]. cbn [height]. lia.
    - fold off. intros g Hg. destruct (FN g Hg) as (l & r & F & X). destruct (children _ _ _ X) as (_ & A & _ & B).
      unfold R. rewrite F. rewrite find_node_sub by auto. split; auto. split; [now apply node_id_total|]. cbn [height]. lia.
    - fold off. intros g Hg. destruct (FN g Hg) as (l & r & F & X). destruct (children _ _ _ X) as (_ & _ & A & B).
      unfold L, R. rewrite F. rewrite !find_node_sub by auto. reflexivity.
    - fold off. intros g Hg. destruct (FN g Hg) as (l & r & F & X). destruct (children _ _ _ X) as (_ & _ & A & B).
      unfold L, R. rewrite F. rewrite !find_node_sub by auto. reflexivity.
    - fold off. intros id Hid. unfold find_node. destruct (find _ (subtrees t)) as [v|] eqn:E; auto.
      apply find_some in E. destruct E as [Hv E]. pose proof (sub_id _ Hv). destruct v; cbn [node_id] in E; auto. lia.
    - auto.
    - intros id Hid. destruct (find_node_ok id Hid) as [X _]. pose proof (subtree_height _ _ X). lia.
    - split; [exact L1|]. split; [exact L2|]. intros id Hid Hh. destruct (find_node_ok id Hid) as [X Y].
      destruct (find_node id) as [k|i l r] eqn:F; [|simpl in Hh; lia]. cbn [node_id] in Y. cbn [tbox]. rewrite <- Y.
      pose proof (sub_id _ X). rewrite (Nat.add_comm k off). apply HB. cbn in *. lia.
    - exists m'. split; auto. destruct S' as (A & B & D). split; auto. split; auto. intros u Hu.
      destruct (D (node_id off u)) as [X Y]; [now apply node_id_total|rewrite find_node_sub by auto; pose proof (subtree_height _ _ Hu); lia|].
      rewrite find_node_sub in X, Y by auto. auto.
  Qed.
End TreeBox.
