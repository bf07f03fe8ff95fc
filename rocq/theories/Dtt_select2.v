(** The two kernels of the parallel select implementation. *)
From Verif Require Import Base Par Karras Karras_spec P_Karras Traverse Traverse_spec Traverse_proofs Reduction Scan Scan_spec SortSearch BVH BVH_spec
  Dtt Dtt_spec Dtt_tree Dtt_ref Dtt_segs Dtt_scan Dtt_scan2 Dtt_select.
From Coq Require Import ZifyBool ZifyNat.
Local Open Scope nat_scope.

Lemma fin_choice {A} (n : nat) (P : nat -> A -> Prop) (d : A) : (forall i, i < n -> exists a, P i a) -> exists f, forall i, i < n -> P i (f i).
Proof.
  induction n as [|n IH]; intros H; [exists (fun _ => d); lia|].
  destruct IH as (f & Hf); [intros; apply H; lia|]. destruct (H n) as (a & Ha); [lia|].
  exists (fun i => if i =? n then a else f i). intros i Hi. destruct (Nat.eqb_spec i n) as [->|]; auto. apply Hf. lia.
Qed.
Lemma par_pair {A B} (g1 : list A -> nat -> list A) (g2 : list B -> nat -> list B) f (n L1 L2 : nat) order : (forall i, In i order -> i < n) ->
  (forall i b, i < n -> length b = L1 -> length (g1 b i) = L1) -> (forall i b, i < n -> length b = L2 -> length (g2 b i) = L2) ->
  (forall i b c, i < n -> length b = L1 -> length c = L2 -> f i (b, c) = Ok (g1 b i, g2 c i)) ->
  forall b c, length b = L1 -> length c = L2 -> par_for order f (b, c) = Ok (fold_left g1 order b, fold_left g2 order c).
Proof.
  unfold par_for. intros HO G1 G2 F. induction order as [|i o IH]; intros b c H1 H2; [reflexivity|].
  assert (i < n) by (apply HO; simpl; auto). cbn [rfold fold_left]. rewrite F by auto. cbn [rbind]. apply IH; auto. intros; apply HO; simpl; auto.
Qed.
Lemma flat_filter_perm {A} (k : A -> nat) (n : nat) (L : list A) : (forall x, In x L -> k x < n) ->
  Permutation (flat_map (fun i => filter (fun x => k x =? i) L) (seq 0 n)) L.
Proof.
  induction L as [|x L IH]; intros H.
  - clear. induction (seq 0 n); [constructor|auto].
  - assert (Hx : k x < n) by (apply H; simpl; auto). etransitivity; [|apply perm_skip; exact (IH (fun y Hy => H y (or_intror Hy)))].
    assert (G : forall s, NoDup s -> In (k x) s -> Permutation (flat_map (fun i => filter (fun x => k x =? i) (x :: L)) s) (x :: flat_map (fun i => filter (fun x => k x =? i) L) s)).
    { assert (G0 : forall s, ~ In (k x) s -> flat_map (fun i => filter (fun x => k x =? i) (x :: L)) s = flat_map (fun i => filter (fun x => k x =? i) L) s).
      { induction s as [|i s IHs]; intros N; [reflexivity|]. cbn [flat_map]. rewrite IHs by (intros X; apply N; simpl; auto). f_equal.
        cbn [filter]. destruct (Nat.eqb_spec (k x) i); [exfalso; apply N; simpl; auto|reflexivity]. }
      induction s as [|i s IHs]; intros ND Hin; [destruct Hin|]. inversion ND; subst. cbn [flat_map]. destruct (Nat.eq_dec (k x) i) as [E|E].
      - subst i. rewrite G0 by auto. cbn [filter]. rewrite Nat.eqb_refl. reflexivity.
      - destruct Hin as [X|X]; [congruence|]. rewrite IHs by auto. cbn [filter]. destruct (Nat.eqb_spec (k x) i); [congruence|].
        symmetry. apply Permutation_middle. }
    apply G; [apply seq_NoDup|]. apply in_seq. lia.
Qed.

Section Kernels.
  Context {C : Type} (leb : C -> C -> bool) (mac : vec C * vec C -> vec C * vec C -> bool) (B : @bvh C) (t0 : tree).
  Hypothesis LK : linked B t0.
  Variable low : bool.
  Notation off := (length (b_cells B)).
  Notation nid := (node_id (length (b_cells B))).
  Notation idp := (idp B).
  Notation macT := (macT mac B).
  Notation total := (total_cell_count B).
  Notation allev := (all_events mac B t0 low).

  Lemma len_leaves t : length (leaves t) = length (internals t) + 1.
  Proof. induction t as [k|i l IHl r IHr]; [reflexivity|]. cbn [leaves internals length]. rewrite !app_length. lia. Qed.
  Lemma int_sub i t : In i (internals t) -> exists l r, In (Node i l r) (subtrees t).
  Proof.
    induction t as [k|j l IHl r IHr]; [intros []|]. cbn [internals subtrees]. intros [->|H]; [exists l, r; simpl; auto|].
    apply in_app_or in H. destruct H as [H|H]; [destruct (IHl H) as (a & b & X)|destruct (IHr H) as (a & b & X)]; exists a, b; right; apply in_or_app; auto.
  Qed.
  Lemma leaf_sub k t : In k (leaves t) -> In (Leaf k) (subtrees t).
  Proof.
    induction t as [j|j l IHl r IHr]; cbn [leaves subtrees]; [intros [->|[]]; simpl; auto|]. intros H. right. apply in_or_app.
    apply in_app_or in H. destruct H; auto.
  Qed.
  Lemma nid_surj i : i < total -> exists v, In v (subtrees t0) /\ nid v = i.
  Proof.
    unfold total_cell_count. intros H. pose proof (lk_internals B t0 LK) as LI. destruct (Nat.lt_ge_cases i off) as [L|G].
    - assert (I : In i (internals t0)).
      { apply (NoDup_length_incl (l := internals t0) (l' := seq 0 off) (lk_nd_int B t0 LK)); [rewrite seq_length; lia| |apply in_seq; lia].
        intros x Hx. destruct (lk_small B t0 LK) as [_ Q]. specialize (Q x Hx). apply in_seq. lia. }
      destruct (int_sub i t0 I) as (l & r & X). exists (Node i l r). auto.
    - assert (I : In (i - off) (leaves t0)).
      { apply (NoDup_length_incl (l := leaves t0) (l' := seq 0 (off + 1)) (lk_nd_leaf B t0 LK)); [rewrite seq_length, len_leaves; lia| |apply in_seq; lia].
        intros x Hx. pose proof (lk_bound B t0 LK _ (leaf_sub x t0 Hx)) as Q. cbn [node_id] in Q. unfold total_cell_count in Q. apply in_seq. lia. }
      exists (Leaf (i - off)). split; [now apply leaf_sub|]. cbn [node_id]. lia.
  Qed.

  Definition mine_of (i : nat) (e : ev) : bool := nid (fst (snd e)) =? i.

  (** what a work item does *)
  Definition item_spec (cap i : nat) (E : list ev) : Prop :=
    Permutation E (filter (mine_of i) allev) /\
    forall S (emit : bool -> ipair -> S -> res S) bi s, box_read B i = Ok bi ->
      select_start leb mac B emit low cap i bi (select_fuel B) s = rfold (emitE B emit) E s.

  (** [good v]: what the visited first components satisfy for the work item of v *)
  Variables (good : tree -> tree -> Prop) (rho cap : nat).
  Definition cTb (x v : tree) : bool :=
    match box_at B (nid x), box_at B (nid v) with Some bx, Some bv => aabb_contains leb bx bv | _, _ => false end.
  Hypothesis Hanc : forall x v, In x (subtrees t0) -> In v (subtrees x) -> cTb x v = true.
  Hypothesis Hroot : forall v, In v (subtrees t0) -> good v t0.
  Hypothesis Hgood : forall v bi p l, In v (subtrees t0) -> box_at B (nid v) = Some bi -> sub2 t0 p -> good v (fst p) ->
    kids low (fst p) (snd p) = Some l ->
    length (sel leb mac B low bi (nid v) p) <= rho + 1 /\ forall q, In q (sel leb mac B low bi (nid v) p) -> good v (fst q).
  Hypothesis Hcap : 1 + rho * height t0 <= cap.

  Lemma item_ex i : i < total -> exists E, item_spec cap i E.
  Proof.
    intros Hi. destruct (nid_surj i Hi) as (v & Hv & Ei). destruct (box_read_ok B t0 LK v Hv) as (bi & R1 & R2).
    pose proof (root_leaf B t0 LK) as RL. pose proof (root_id B t0 LK) as R0.
    unfold item_spec, select_start, all_events in *. destruct (leafb t0) eqn:LF.
    - exists [(true, (t0, t0))]. destruct t0 as [k|]; [|discriminate]. cbn [subtrees] in Hv. destruct Hv as [<-|[]].
      cbn [node_id] in *. assert (off = 0) by lia. assert (k = 0) by lia. subst k. assert (i = 0) by lia. clear Ei. subst i. split.
      + cbn [filter]. unfold mine_of. cbn [fst snd node_id]. rewrite R0. cbn. constructor. constructor.
      + intros S emit b s _. unfold is_id_leaf. rewrite H. cbn [Nat.eqb Nat.leb andb rfold]. unfold emitE, Dtt_ref.idp. cbn [fst snd node_id]. rewrite R0.
        destruct (emit true (0, 0) s); reflexivity.
    - destruct (root_ok B t0 LK low LF) as (A & OK & D).
      destruct (loop_ok leb mac B t0 LK low v bi i Hv Ei) with (good := good v) (rho := rho) (cap := cap) (p := (t0, t0)) as (E & c & P & CB & R); auto.
      + intros x Hx Vx. pose proof (Hanc x v Hx Vx) as X. unfold cTb in X. unfold cT. rewrite R2 in X. destruct (box_at B (nid x)); [exact X|discriminate].
      + intros p l S2 GD K. rewrite <- Ei. exact (Hgood v bi p l Hv R2 S2 GD K).
      + exists E. split; [exact P|]. intros S emit b s RB. rewrite <- Ei, R1 in RB. injection RB as <-.
        unfold is_id_leaf. replace (off <=? 0) with false by lia. rewrite andb_false_r. unfold fpush. cbn [length].
        replace (0 <? cap) with true by lia. cbn [rbind].
        assert (EF : select_fuel B = c + (select_fuel B - c)).
        { cbn [fst snd] in CB. rewrite tsize_internals, (lk_internals B t0 LK) in CB. unfold select_fuel, total_cell_count.
          assert ((2 * off + 1) * (2 * off + 1) <= (off + (off + 1) + 1) * (off + (off + 1) + 1)) by nia. lia. }
        rewrite EF. specialize (R S emit [] s (select_fuel B - c)). unfold Dtt_ref.idp at 1 in R. cbn [fst snd] in R. rewrite R0 in R. rewrite R.
        * destruct (rfold (emitE B emit) E s); cbn [rbind]; auto. destruct (select_fuel B - c); reflexivity.
        * cbn [length]. unfold mu. cbn [fst snd]. rewrite Nat.max_id. lia.
  Qed.

  Notation m2l_of := (m2l_of B).
  Notation p2p_of := (p2p_of B).

  Lemma count_fold E : forall a b, (0 <= a)%Z -> (0 <= b)%Z -> (a + Z.of_nat (length (m2l_of E)) < 2 ^ 32)%Z -> (b + Z.of_nat (length (p2p_of E)) < 2 ^ 32)%Z ->
    rfold (emitE B emit_count) E (a, b) = Ok (a + Z.of_nat (length (m2l_of E)), b + Z.of_nat (length (p2p_of E)))%Z.
  Proof.
    rewrite P32. induction E as [|[k q] E IH]; intros a b Ha Hb H1 H2; [cbn [rfold m2l_of p2p_of Dtt_ref.m2l_of Dtt_ref.p2p_of filter map length]; do 2 f_equal; lia|].
    cbn [rfold]. change (emitE B emit_count (k, q)) with (emit_count k (idp q)). unfold emit_count at 1. cbn [fst snd]. unfold Dtt_ref.m2l_of, Dtt_ref.p2p_of in *. destruct k; cbn [filter fst negb map length] in *; cbn [rbind].
    - rewrite w32_small by (rewrite P32; lia). rewrite IH by lia. do 2 f_equal. lia.
    - rewrite w32_small by (rewrite P32; lia). rewrite IH by lia. do 2 f_equal. lia.
  Qed.
  Lemma store_fold E : forall im ip om op,
    om + length (m2l_of E) <= length im -> op + length (p2p_of E) <= length ip ->
    (Z.of_nat (om + length (m2l_of E)) < 2 ^ 32)%Z -> (Z.of_nat (op + length (p2p_of E)) < 2 ^ 32)%Z ->
    exists c, rfold (emitE B emit_store) E ((im, ip), (Z.of_nat om, Z.of_nat op)) = Ok ((writel om (m2l_of E) im, writel op (p2p_of E) ip), c).
  Proof.
    rewrite P32. induction E as [|[k q] E IH]; intros im ip om op H1 H2 H3 H4.
    - eexists. cbn [rfold]. unfold Dtt_ref.m2l_of, Dtt_ref.p2p_of. cbn [filter map]. rewrite !writel_nil. reflexivity.
    - cbn [rfold]. change (emitE B emit_store (k, q)) with (emit_store k (idp q)). unfold emit_store at 1. unfold Dtt_ref.m2l_of, Dtt_ref.p2p_of in *. destruct k; cbn [filter fst negb map length] in *.
      + rewrite Nat2Z.id, aset_lt by lia. cbn [rbind]. rewrite w32_small by (rewrite P32; lia). replace (Z.of_nat op + 1)%Z with (Z.of_nat (Datatypes.S op)) by lia.
        destruct (IH im (upd ip op (idp q)) om (Datatypes.S op)) as (c & R); [lia|rewrite length_upd; lia|lia|lia|]. exists c. rewrite R. do 3 f_equal.
        apply writel_cons. lia.
      + rewrite Nat2Z.id, aset_lt by lia. cbn [rbind]. rewrite w32_small by (rewrite P32; lia). replace (Z.of_nat om + 1)%Z with (Z.of_nat (Datatypes.S om)) by lia.
        destruct (IH (upd im om (idp q)) ip (Datatypes.S om) op) as (c & R); [rewrite length_upd; lia|lia|lia|lia|]. exists c. rewrite R. do 3 f_equal.
        apply writel_cons. lia.
  Qed.

  Lemma filt_perm (f : ev -> bool) E i : Permutation E (filter (mine_of i) allev) -> Permutation (filter f E) (filter f (filter (mine_of i) allev)).
  Proof. apply Permutation_filter. Qed.

  Theorem dtt_select_ok scan o1 o2 j2 junk : scan_ok scan -> Permutation o1 (seq 0 total) -> Permutation o2 (seq 0 total) ->
    (forall k, length (j2 k) = k) -> (forall k, length (junk k) = k) -> (Z.of_nat (length allev) < 2 ^ 32)%Z ->
    exists Ef : nat -> list ev,
      (forall i, i < total -> Permutation (Ef i) (filter (mine_of i) allev)) /\
      dtt_parallel_select leb mac B scan low cap o1 o2 j2 junk =
      Ok ((flat_map (fun i => m2l_of (Ef i)) (seq 0 total), flat_map (fun i => p2p_of (Ef i)) (seq 0 total)),
          (map (fun i => Z.of_nat (pos (fun i => m2l_of (Ef i)) i)) (seq 0 (total + 1)),
           map (fun i => Z.of_nat (pos (fun i => p2p_of (Ef i)) i)) (seq 0 (total + 1)))).
  Proof.
    intros SC O1 O2 J2 JK BD. rewrite P32 in BD. destruct (fin_choice total (item_spec cap) [] item_ex) as (Ef & HE).
    exists Ef. split; [intros i Hi; apply (HE i Hi)|].
    set (ms := fun i => m2l_of (Ef i)). set (ps := fun i => p2p_of (Ef i)).
    assert (BI : forall e, In e allev -> nid (fst (snd e)) < total).
    { intros e He. apply (lk_bound B t0 LK). unfold all_events in He. destruct (leafb t0); [destruct He as [<-|[]]; cbn [fst snd]; apply self_sub'|].
      apply walk_sub in He. destruct He as [He _]. exact He. }
    assert (PE : Permutation (flat_map Ef (seq 0 total)) allev).
    { etransitivity; [|exact (flat_filter_perm (fun e => nid (fst (snd e))) total allev BI)].
      assert (G : forall s, (forall i, In i s -> i < total) -> Permutation (flat_map Ef s) (flat_map (fun i => filter (fun x => nid (fst (snd x)) =? i) allev) s)).
      { induction s as [|i s IH]; intros Hs; [constructor|]. cbn [flat_map]. apply Permutation_app; [apply (HE i); apply Hs; simpl; auto|]. apply IH. intros; apply Hs; simpl; auto. }
      apply G. intros i Hi. apply in_seq in Hi. lia. }
    assert (MP : forall n, pos ms n = length (m2l_of (flat_map Ef (seq 0 n)))).
    { intros n. unfold pos, ms, Dtt_ref.m2l_of. rewrite filter_flat, Dtt_scan2.map_flat. reflexivity. }
    assert (PP : forall n, pos ps n = length (p2p_of (flat_map Ef (seq 0 n)))).
    { intros n. unfold pos, ps, Dtt_ref.p2p_of. rewrite filter_flat, Dtt_scan2.map_flat. reflexivity. }
    assert (MB : pos ms total + pos ps total = length allev).
    { rewrite MP, PP, <- (Dtt_scan2.ev_split B), (Permutation_length PE). reflexivity. }
    assert (O1n : forall i, In i o1 -> i < total) by (intros i Hi; apply (Permutation_in _ O1), in_seq in Hi; lia).
    assert (O2n : forall i, In i o2 -> i < total) by (intros i Hi; apply (Permutation_in _ O2), in_seq in Hi; lia).
    assert (T0 : 0 < total) by (unfold total_cell_count; lia).
    assert (BX : forall i, i < total -> exists bi, box_read B i = Ok bi).
    { intros i Hi. destruct (nid_surj i Hi) as (v & Hv & <-). destruct (box_read_ok B t0 LK v Hv) as (bi & R & _). eauto. }
    assert (SB : forall (sg : nat -> list ipair) i, i < total -> length (sg i) <= pos sg total).
    { intros sg i Hi. pose proof (pos_seg sg i total Hi). lia. }
    unfold dtt_parallel_select. rewrite aset_lt by (rewrite J2; lia). cbn [rbind].
    unfold kernel_call. replace (total =? 0) with false by lia.
    assert (CI : forall (sg : nat -> list ipair) i (b : list Z), upd b i (Z.of_nat (length (sg i))) = upd b i (Z.of_nat (length (sg i)))) by reflexivity.
    rewrite (par_pair (fun b i => upd b i (Z.of_nat (length (ms i)))) (fun b i => upd b i (Z.of_nat (length (ps i)))) (count_item leb mac B low cap) total (total + 1) (total + 1));
      auto; try (intros; rewrite length_upd; auto; fail); try (rewrite length_upd; apply J2).
    2:{ intros i b c Hi Lb Lc. unfold count_item. destruct (BX i Hi) as (bi & EB). rewrite EB. cbn [rbind]. destruct (HE i Hi) as [_ HR]. rewrite HR by auto.
        pose proof (SB ms i Hi) as X1. pose proof (SB ps i Hi) as X2. unfold ms in X1 at 1. unfold ps in X2 at 1.
        rewrite count_fold by (rewrite ?P32; lia). cbn [rbind fst snd]. rewrite !aset_lt by lia. cbn [rbind]. reflexivity. }
    cbn [rbind fst snd].
    (* the counts *)
    assert (CNT : forall (sg : nat -> list ipair) b0, length b0 = total + 1 ->
      let c := fold_left (fun b i => upd b i (Z.of_nat (length (sg i)))) o1 b0 in
      length c = total + 1 /\ forall j, j < total -> nth j c 0%Z = Z.of_nat (length (sg j))).
    { intros sg b0 L0. cbv zeta. set (s1 := fun i : nat => [Z.of_nat (length (sg i))]).
      assert (P1 : forall k, pos s1 k = k) by (induction k as [|k IHk]; [reflexivity|rewrite pos_S, IHk; simpl; lia]).
      assert (F : forall o b, (forall i, In i o -> i < total) -> length b = total + 1 ->
        fold_left (fun b i => upd b i (Z.of_nat (length (sg i)))) o b = fold_left (seg_step s1 0) o b).
      { induction o as [|i o IH]; intros b Ho Lb; [reflexivity|]. cbn [fold_left]. assert (i < total) by (apply Ho; simpl; auto).
        unfold seg_step at 2. rewrite P1. cbn [Nat.add]. unfold s1 at 2. rewrite writel_one by lia.
        apply IH; [intros; apply Ho; simpl; auto|rewrite length_upd; auto]. }
      rewrite F by auto. destruct (segs_gen s1 (total + 1) 0 o1) with (buf := b0) as (L & _ & Q).
      - eapply Permutation_NoDup; [symmetry; exact O1|apply seq_NoDup].
      - intros i Hi. specialize (O1n i Hi). lia.
      - rewrite P1. lia.
      - split; [rewrite L; auto|]. intros j Hj. specialize (Q j 0). rewrite P1 in Q. cbn [Nat.add] in Q.
        replace (existsb (Nat.eqb j) o1) with true in Q.
        + apply nth_error_nth. rewrite Nat.add_0_r in Q. apply Q; simpl; lia.
        + symmetry. apply existsb_exists. exists j. split; [|apply Nat.eqb_refl]. eapply Permutation_in; [symmetry; exact O1|]. apply in_seq. lia. }
    set (b0 := upd (j2 (total + 1)) total 0%Z). assert (LB0 : length b0 = total + 1) by (unfold b0; rewrite length_upd; auto).
    destruct (CNT ms b0 LB0) as [LM CM]. destruct (CNT ps b0 LB0) as [LP CP]. cbv zeta in *.
    set (cm := fold_left (fun b i => upd b i (Z.of_nat (length (ms i)))) o1 b0) in *. set (cp := fold_left (fun b i => upd b i (Z.of_nat (length (ps i)))) o1 b0) in *.
    rewrite !SC by lia. cbn [rbind].
    assert (RD : forall (sg : nat -> list ipair) c i, length c = total + 1 -> (forall j, j < total -> nth j c 0%Z = Z.of_nat (length (sg j))) ->
      (Z.of_nat (pos sg total) < 2 ^ 32)%Z -> i < total + 1 -> aget (excl_spec c (total + 1)) i = Ok (Z.of_nat (pos sg i))).
    { intros sg c i Lc Hc Bc Hi. rewrite <- (app_nil_r (excl_spec c (total + 1))). eapply scan_read; eauto; lia. }
    rewrite (RD ms cm total), (RD ps cp total) by (auto; rewrite ?P32; lia). cbn [rbind]. rewrite !Nat2Z.id.
    rewrite (par_pair (seg_step ms 0) (seg_step ps 0) _ total (pos ms total) (pos ps total)); auto.
    - cbn [rbind]. rewrite (segs_ok ms total 0), (segs_ok ps total 0) by auto. cbn [firstn app]. do 3 f_equal.
      + apply list_eq_nth_error. intros x. destruct (Nat.lt_ge_cases x (total + 1)) as [L|G].
        * assert (X := RD ms cm x LM CM ltac:(rewrite P32; lia) L). apply aget_ok in X. rewrite X. rewrite nth_error_map, nth_error_seq by lia. reflexivity.
        * rewrite (proj2 (nth_error_None _ _)) by (rewrite length_excl; lia). symmetry. apply nth_error_None. rewrite map_length, seq_length. lia.
      + apply list_eq_nth_error. intros x. destruct (Nat.lt_ge_cases x (total + 1)) as [L|G].
        * assert (X := RD ps cp x LP CP ltac:(rewrite P32; lia) L). apply aget_ok in X. rewrite X. rewrite nth_error_map, nth_error_seq by lia. reflexivity.
        * rewrite (proj2 (nth_error_None _ _)) by (rewrite length_excl; lia). symmetry. apply nth_error_None. rewrite map_length, seq_length. lia.
    - intros i b Hi Lb. unfold seg_step. rewrite length_writel; auto. pose proof (pos_seg ms i total Hi). lia.
    - intros i b Hi Lb. unfold seg_step. rewrite length_writel; auto. pose proof (pos_seg ps i total Hi). lia.
    - intros i b c Hi Lb Lc. unfold store_item. rewrite (RD ms cm i), (RD ps cp i) by (auto; rewrite ?P32; lia). cbn [rbind].
      destruct (BX i Hi) as (bi & EB). rewrite EB. cbn [rbind]. destruct (HE i Hi) as [_ HR]. rewrite HR by auto.
      pose proof (pos_seg ms i total Hi) as X1. pose proof (pos_seg ps i total Hi) as X2.
      destruct (store_fold (Ef i) b c (pos ms i) (pos ps i)) as (cu & R); try (fold (ms i) (ps i); rewrite ?P32; lia).
      etransitivity; [apply (f_equal (fun z => rbind z _) R)|reflexivity].
  Qed.
End Kernels.
