(** The loop of one work item of the parallel select implementation. *)
From Verif Require Import Base Par Karras Karras_spec P_Karras Traverse Traverse_spec Traverse_proofs Reduction Scan Scan_spec SortSearch BVH BVH_spec
  Dtt Dtt_spec Dtt_tree Dtt_ref Dtt_segs Dtt_scan.
From Coq Require Import ZifyBool ZifyNat.
Local Open Scope nat_scope.

Definition tsize (t : tree) : nat := length (subtrees t).
Lemma tsize_node i l r : tsize (Node i l r) = 1 + tsize l + tsize r.
Proof. unfold tsize. cbn [subtrees length]. rewrite app_length. lia. Qed.
Lemma tsize_leaf k : tsize (Leaf k) = 1. Proof. reflexivity. Qed.
Lemma tsize_internals t : tsize t = 2 * length (internals t) + 1.
Proof. induction t as [k|i l IHl r IHr]; [reflexivity|]. rewrite tsize_node, IHl, IHr. cbn [internals length]. rewrite app_length. lia. Qed.
Lemma sub_height x y : In x (subtrees y) -> height x <= height y.
Proof.
  induction y as [k|i l IHl r IHr]; intros H.
  - destruct H as [<-|[]]. auto.
  - cbn [subtrees] in H. destruct H as [<-|H]; auto. apply in_app_or in H. cbn [height]. destruct H as [H|H]; [apply IHl in H|apply IHr in H]; lia.
Qed.
Lemma filter_none {A} (f : A -> bool) l : (forall x, In x l -> f x = false) -> filter f l = [].
Proof. induction l as [|x l IH]; intros H; [reflexivity|]. cbn [filter]. rewrite (H x) by (simpl; auto). apply IH. intros; apply H; simpl; auto. Qed.
Lemma filter_flat {A B} (g : B -> bool) (f : A -> list B) l : filter g (flat_map f l) = flat_map (fun x => filter g (f x)) l.
Proof. induction l as [|x l IH]; [reflexivity|]. cbn [flat_map]. now rewrite filter_app, IH. Qed.
Lemma flat_filter {A B} (c : A -> bool) (f : A -> list B) l : (forall x, In x l -> c x = false -> f x = []) -> flat_map f (filter c l) = flat_map f l.
Proof.
  induction l as [|x l IH]; intros H; [reflexivity|]. cbn [filter flat_map]. rewrite <- IH by (intros; apply H; simpl; auto).
  destruct (c x) eqn:E; [reflexivity|]. rewrite (H x) by (simpl; auto). reflexivity.
Qed.
Lemma Permutation_filter {A} (f : A -> bool) l l' : Permutation l l' -> Permutation (filter f l) (filter f l').
Proof.
  induction 1; cbn [filter]; auto; repeat match goal with |- context [if ?c then _ else _] => destruct c end; auto using perm_swap.
  etransitivity; eauto.
Qed.

Section Sel.
  Context {C : Type} (leb : C -> C -> bool) (mac : vec C * vec C -> vec C * vec C -> bool) (B : @bvh C) (t0 : tree).
  Hypothesis LK : linked B t0.
  Variable low : bool.
  Notation off := (length (b_cells B)).
  Notation nid := (node_id (length (b_cells B))).
  Notation idp := (idp B).
  Notation macT := (macT mac B).
  Notation sk := (sk mac B low).
  Notation wk := (walk low macT).

  Lemma nid_inj x y : In x (subtrees t0) -> In y (subtrees t0) -> nid x = nid y -> x = y.
  Proof.
    intros Hx Hy E. destruct (sub_small' B t0 LK x Hx) as [_ Sx]. destruct (sub_small' B t0 LK y Hy) as [_ Sy].
    destruct (reads_sub' B t0 LK x Hx) as (bx & ix & Rx). destruct (reads_sub' B t0 LK y Hy) as (by' & iy & Ry).
    destruct x as [k|i l r], y as [k'|i' l' r']; cbn [node_id] in E.
    - f_equal. lia.
    - specialize (Sy i' (or_introl eq_refl)). lia.
    - specialize (Sx i (or_introl eq_refl)). lia.
    - subst i'. inversion Rx; subst. inversion Ry; subst. eapply C16_tree_unique; eauto.
  Qed.

  Variables (v : tree) (bi : vec C * vec C) (i : nat).
  Hypothesis Hv : In v (subtrees t0).
  Hypothesis Hi : nid v = i.
  Definition cT (x : tree) : bool := match box_at B (nid x) with Some bx => aabb_contains leb bx bi | None => false end.
  Hypothesis Hanc : forall x, In x (subtrees t0) -> In v (subtrees x) -> cT x = true.

  Lemma within_ok x : In x (subtrees t0) -> within leb B bi (nid x) = Ok (cT x).
  Proof. intros H. destruct (box_read_ok B t0 LK x H) as (bx & E1 & E2). unfold within, cT. now rewrite E1, E2. Qed.

  Definition mine (e : ev) : bool := nid (fst (snd e)) =? i.
  (** the pairs pushed on the stack for p, in this order *)
  Definition sel (p : tpair) : list tpair :=
    if negb (leafb (fst p)) && (nid (fst p) =? i) then [] else filter (fun q => cT (fst q)) (sk p).

  Lemma nid_child x y z j : In (Node j x y) (subtrees t0) -> In z (subtrees x) \/ In z (subtrees y) -> nid z <> j.
  Proof.
    intros H Hz E. assert (Z0 : In z (subtrees t0)).
    { destruct Hz as [Hz|Hz]; (eapply sub_trans; [exact Hz|]); (eapply sub_trans; [|exact H]); auto with dtt. }
    assert (z = Node j x y) by (apply nid_inj; auto). subst z.
    assert (height (Node j x y) <= Nat.max (height x) (height y)) by (destruct Hz as [Hz|Hz]; apply sub_height in Hz; lia).
    cbn [height] in H0. lia.
  Qed.
  (** the interactions of i below p are below the selected pairs *)
  Lemma sel_events p l : sub2 t0 p -> macT (fst p) (snd p) = false -> kids low (fst p) (snd p) = Some l ->
    Permutation (flat_map (fun q => filter mine (wk q)) (rev (sel p))) (filter mine (wk p)).
  Proof.
    intros [H1 H2] M K. rewrite <- (Permutation_flat_map (fun q => filter mine (wk q)) (Permutation_rev (sel p))).
    rewrite walk_eq, M, K. rewrite filter_flat.
    assert (SKL : Permutation (sk p) l) by (apply sk_perm; auto).
    rewrite <- (Permutation_flat_map (fun q => filter mine (wk q)) SKL).
    assert (NONE : forall q, In q (sk p) -> (forall z, In z (subtrees (fst q)) -> nid z <> i) -> filter mine (wk q) = []).
    { intros q Hq HZ. apply filter_none. intros e He. apply walk_sub in He. destruct He as [He _]. unfold mine. apply Nat.eqb_neq. auto. }
    unfold sel. destruct (negb (leafb (fst p)) && (nid (fst p) =? i)) eqn:SM.
    - apply andb_true_iff in SM. destruct SM as [L E]. apply Nat.eqb_eq in E. apply negb_true_iff in L.
      assert (Z : flat_map (fun q => filter mine (wk q)) (sk p) = []).
      { assert (G : forall q, In q (sk p) -> filter mine (wk q) = []).
        { intros q Hq. apply NONE; auto. intros z Hz. apply (Permutation_in _ SKL) in Hq. rewrite (kids_form _ _ _ _ K) in Hq.
          destruct p as [t u]. cbn [fst snd] in *. destruct t as [k|j x y]; [discriminate|]. cbn [node_id] in E. rewrite <- E.
          apply (nid_child x y z j H1). destruct u as [k'|j' x' y'].
          - destruct Hq as [<-|[<-|[]]]; cbn [fst] in Hz; auto.
          - destruct Hq as [<-|[<-|[<-|[<-|[]]]]]; cbn [fst] in Hz; auto. }
        clear - G. induction (sk p) as [|q s IH]; [reflexivity|]. cbn [flat_map]. rewrite (G q) by (simpl; auto). apply IH. intros; apply G; simpl; auto. }
      rewrite Z. constructor.
    - rewrite flat_filter; [reflexivity|]. intros q Hq CQ. apply NONE; auto. intros z Hz E.
      assert (Q0 : In (fst q) (subtrees t0)).
      { apply (Permutation_in _ SKL) in Hq. destruct (kids_sub _ _ _ _ _ K Hq) as [X _]. eapply sub_trans; eauto. }
      assert (z = v) by (apply nid_inj; auto; [eapply sub_trans; eauto|congruence]). subst z.
      rewrite (Hanc _ Q0 Hz) in CQ. discriminate.
  Qed.

  (** [good]: what the visited first components satisfy, [rho] + 1: how many pairs are pushed at most *)
  Variables (good : tree -> Prop) (rho cap : nat).
  Hypothesis Hgood : forall p l, sub2 t0 p -> good (fst p) -> kids low (fst p) (snd p) = Some l ->
    length (sel p) <= rho + 1 /\ forall q, In q (sel p) -> good (fst q).

  (** one iteration *)
  Lemma iter_ok {S} (emit : bool -> ipair -> S -> res S) p rest s f : sub2 t0 p -> okp low p ->
    (forall l, kids low (fst p) (snd p) = Some l -> length rest + length (sel p) <= cap) ->
    select_loop leb mac B emit low cap i bi (1 + f) (idp p :: rest) s =
    if macT (fst p) (snd p) then (s' <- (if nid (fst p) =? i then emit false (idp p) s else Ok s) ;; select_loop leb mac B emit low cap i bi f rest s')
    else match kids low (fst p) (snd p) with
    | None => s' <- (if nid (fst p) =? i then emit true (idp p) s else Ok s) ;; select_loop leb mac B emit low cap i bi f rest s'
    | Some _ => select_loop leb mac B emit low cap i bi f (map idp (rev (sel p)) ++ rest) s
    end.
  Proof.
    intros S2 OK FIT. pose proof S2 as [H1 H2]. pose proof (crit_ok mac B t0 LK p S2) as CR.
    assert (SE : forall l, macT (fst p) (snd p) = false -> kids low (fst p) (snd p) = Some l ->
      sk p = if low then l else match l with [x; y; z; w] => [x; z; y; w] | _ => l end) by (intros l M E; unfold Dtt_scan.sk; now rewrite M, E).
    destruct p as [t u]. unfold Dtt_ref.idp at 1. cbn [fst snd] in *. cbn [Nat.add select_loop].
    rewrite CR. cbn [rbind]. unfold Dtt_ref.idp at 1 2. cbn [fst snd].
    destruct (macT t u) eqn:M; cbn [negb]; [reflexivity|]. unfold sel in *. cbn [fst snd] in *.
    destruct low eqn:EL.
    - rewrite !(leaf_ok B t0 LK) by auto. unfold left_or_self, right_or_self.
      destruct t as [x|ia a b], u as [x'|ib a' b']; cbn [leafb andb negb] in *.
      + reflexivity.
      + destruct (child_ids B t0 LK _ _ _ H2) as (E1 & E2 & I1 & I2). change (nid (Node ib a' b')) with ib. rewrite E1, E2. cbn [rbind].
        rewrite Nat.eqb_refl. cbn [negb]. rewrite andb_false_r. rewrite (within_ok (Leaf x) H1). cbn [rbind].
        cbn [kids] in *. rewrite (SE _ eq_refl eq_refl) in *. specialize (FIT _ eq_refl). cbn [filter fst] in *.
        unfold fpush_if, fpush. rewrite !andb_true_r. cbn [andb]. destruct (cT (Leaf x)); cbn [length] in FIT; cbn [rbind rev app map].
        * replace (length rest <? cap) with true by lia. cbn [rbind length]. replace (Datatypes.S (length rest) <? cap) with true by lia. reflexivity.
        * reflexivity.
      + destruct (child_ids B t0 LK _ _ _ H1) as (E1 & E2 & I1 & I2). change (nid (Node ia a b)) with ia in *. rewrite E1, E2. cbn [rbind].
        assert (NE : nid a =? ia = false) by (apply Nat.eqb_neq; apply (nid_child a b a ia H1); left; apply self_sub'). rewrite NE. cbn [negb]. rewrite andb_true_r.
        cbn [kids] in *. rewrite (SE _ eq_refl eq_refl) in *. specialize (FIT _ eq_refl). destruct (ia =? i) eqn:EI; [reflexivity|].
        rewrite (within_ok a I1), (within_ok b I2). cbn [rbind]. rewrite ?andb_false_r, ?andb_true_r. cbn [andb].
        cbn [filter fst length] in *. unfold fpush_if, fpush.
        destruct (cT a), (cT b); cbn [length] in FIT; cbn [rbind rev app map andb];
          repeat first [progress cbn [rbind length app rev map] | match goal with |- context [?x <? cap] => replace (x <? cap) with true by lia end]; reflexivity.
      + destruct (child_ids B t0 LK _ _ _ H1) as (E1 & E2 & I1 & I2). destruct (child_ids B t0 LK _ _ _ H2) as (E3 & E4 & I3 & I4).
        change (nid (Node ia a b)) with ia in *. change (nid (Node ib a' b')) with ib in *. rewrite E1, E2, E3, E4. cbn [rbind].
        assert (NE : nid a =? ia = false) by (apply Nat.eqb_neq; apply (nid_child a b a ia H1); left; apply self_sub'). rewrite NE. cbn [negb]. rewrite andb_true_r.
        cbn [kids negb andb] in *. rewrite (SE _ eq_refl eq_refl) in *. specialize (FIT _ eq_refl). destruct (ia =? i) eqn:EI; [reflexivity|].
        rewrite (within_ok a I1), (within_ok b I2). cbn [rbind]. rewrite ?andb_false_r, ?andb_true_r. cbn [andb].
        cbn [filter fst length] in *. unfold fpush_if, fpush.
        destruct (cT a), (cT b); cbn [length] in FIT; cbn [rbind rev app map andb];
          repeat first [progress cbn [rbind length app rev map] | match goal with |- context [?x <? cap] => replace (x <? cap) with true by lia end]; reflexivity.
    - destruct OK as [X|[L1 L2]]; [discriminate|]. cbn [fst snd] in *.
      destruct t as [x|ia a b]; [discriminate|]. destruct u as [x'|ib a' b']; [discriminate|].
      destruct (child_ids B t0 LK _ _ _ H1) as (E1 & E2 & I1 & I2). destruct (child_ids B t0 LK _ _ _ H2) as (E3 & E4 & I3 & I4).
      change (nid (Node ia a b)) with ia in *. change (nid (Node ib a' b')) with ib in *. rewrite E1, E2, E3, E4. cbn [rbind].
      rewrite !(leaf_ok B t0 LK) by auto. cbn [kids negb andb leafb] in *. destruct (leafb a || leafb b || leafb a' || leafb b').
      + reflexivity.
      + rewrite (SE _ eq_refl eq_refl) in *. specialize (FIT _ eq_refl). rewrite (within_ok a I1), (within_ok b I2). cbn [rbind].
        destruct (ia =? i) eqn:EI; [reflexivity|].
        cbn [filter fst length] in *. unfold fpush_if, fpush.
        destruct (cT a), (cT b); cbn [length] in FIT; cbn [rbind rev app map andb];
          repeat first [progress cbn [rbind length app rev map] | match goal with |- context [?x <? cap] => replace (x <? cap) with true by lia end]; reflexivity.
  Qed.

  Definition emitE {S} (emit : bool -> ipair -> S -> res S) (e : ev) (s : S) : res S := emit (fst e) (idp (snd e)) s.

  Lemma kids_size p l : kids low (fst p) (snd p) = Some l ->
    1 + list_sum (map (fun q => tsize (fst q) * tsize (snd q)) l) <= tsize (fst p) * tsize (snd p).
  Proof.
    intros K. rewrite (kids_form _ _ _ _ K). destruct p as [t u]. cbn [fst snd].
    destruct t as [k|j x y], u as [k'|j' x' y']; rewrite ?tsize_node, ?tsize_leaf; cbn [map list_sum fst snd fold_right]; rewrite ?tsize_leaf; nia.
  Qed.
  Lemma list_sum_perm l l' : Permutation l l' -> list_sum l = list_sum l'.
  Proof. induction 1; cbn [list_sum fold_right] in *; unfold list_sum in *; lia. Qed.
  Lemma filter_sum {A} (c : A -> bool) (f : A -> nat) l : list_sum (map f (filter c l)) <= list_sum (map f l).
  Proof. induction l as [|x l IH]; [auto|]. cbn [filter]. destruct (c x); cbn [map list_sum fold_right]; unfold list_sum in *; lia. Qed.
  Lemma sel_size p l : macT (fst p) (snd p) = false -> kids low (fst p) (snd p) = Some l ->
    1 + list_sum (map (fun q => tsize (fst q) * tsize (snd q)) (rev (sel p))) <= tsize (fst p) * tsize (snd p).
  Proof.
    intros M K. pose proof (kids_size p l K) as KS. rewrite <- (list_sum_perm _ _ (Permutation_map _ (sk_perm mac B low p l M K))) in KS.
    rewrite (list_sum_perm _ _ (Permutation_map _ (Permutation_sym (Permutation_rev (sel p))))).
    unfold sel. destruct (negb _ && _); [cbn [map list_sum fold_right]; unfold list_sum in KS; lia|].
    pose proof (filter_sum (fun q => cT (fst q)) (fun q => tsize (fst q) * tsize (snd q)) (sk p)) as FS. etransitivity; [|exact KS]. apply le_n_S. exact FS.
  Qed.

  Lemma rfold_app' {A S} (f : A -> S -> res S) a b s : rfold f (a ++ b) s = (s' <- rfold f a s ;; rfold f b s').
  Proof. apply rfold_app. Qed.

  Lemma loop_ok p : sub2 t0 p -> okp low p -> good (fst p) ->
    exists E c, Permutation E (filter mine (wk p)) /\ 1 <= c <= tsize (fst p) * tsize (snd p) /\
      forall S (emit : bool -> ipair -> S -> res S) rest s fuel, length rest + 1 + rho * mu p <= cap ->
        select_loop leb mac B emit low cap i bi (c + fuel) (idp p :: rest) s =
        (s' <- rfold (emitE emit) E s ;; select_loop leb mac B emit low cap i bi fuel rest s').
  Proof.
    pattern p. apply (pair_ind low). clear p. intros p IH. cbv beta in *. intros S2 OK GD.
    assert (TS : forall t, 1 <= tsize t) by (intros []; unfold tsize; simpl; lia).
    pose proof (TS (fst p)) as T1. pose proof (TS (snd p)) as T2.
    destruct (macT (fst p) (snd p)) eqn:M.
    { exists (if nid (fst p) =? i then [(false, p)] else []), 1. split; [|split; [nia|]].
      - rewrite walk_eq, M. cbn [filter]. unfold mine. cbn [snd fst]. destruct (nid (fst p) =? i); reflexivity.
      - intros S emit rest s fuel FIT. rewrite iter_ok; auto.
        + rewrite M. destruct (nid (fst p) =? i); cbn [rfold rbind]; unfold emitE; cbn [fst snd]; destruct (emit false (idp p) s); reflexivity.
        + intros l K. unfold sel, Dtt_scan.sk. rewrite M. cbn [filter]. destruct (negb _ && _); cbn [length]; lia. }
    destruct (kids low (fst p) (snd p)) as [l|] eqn:K.
    2:{ exists (if nid (fst p) =? i then [(true, p)] else []), 1. split; [|split; [nia|]].
      - rewrite walk_eq, M, K. cbn [filter]. unfold mine. cbn [snd fst]. destruct (nid (fst p) =? i); reflexivity.
      - intros S emit rest s fuel FIT. rewrite iter_ok; auto; [|intros l X; congruence].
        rewrite M, K. destruct (nid (fst p) =? i); cbn [rfold rbind]; unfold emitE; cbn [fst snd]; destruct (emit true (idp p) s); reflexivity. }
    destruct (Hgood p l S2 GD K) as [LEN GQ].
    assert (INK : forall q, In q (sel p) -> In q l).
    { intros q Hq. unfold sel in Hq. destruct (negb _ && _); [destruct Hq|]. apply filter_In in Hq. destruct Hq as [Hq _].
      eapply Permutation_in; [apply (sk_perm mac B low p l M K)|auto]. }
    assert (SUB : forall L, (forall q, In q L -> In q (sel p)) -> length L <= rho + 1 ->
      exists E c, Permutation E (flat_map (fun q => filter mine (wk q)) L) /\ c <= list_sum (map (fun q => tsize (fst q) * tsize (snd q)) L) /\
        forall S (emit : bool -> ipair -> S -> res S) rest s fuel, length rest + 1 + rho * mu p <= cap -> 
          select_loop leb mac B emit low cap i bi (c + fuel) (map idp L ++ rest) s =
          (s' <- rfold (emitE emit) E s ;; select_loop leb mac B emit low cap i bi fuel rest s')).
    { induction L as [|q L IHL]; intros HIn HLen.
      - exists [], 0. split; [constructor|]. split; [cbn; lia|]. intros. reflexivity.
      - destruct IHL as (E2 & c2 & P2 & C2 & R2); [intros; apply HIn; simpl; auto|cbn [length] in HLen; lia|].
        assert (Hq : In q l) by (apply INK, HIn; simpl; auto).
        destruct (IH l q eq_refl Hq) as (E1 & c1 & P1 & C1 & R1);
          [eapply kids_sub2; eauto|eapply kids_okp; eauto|apply GQ, HIn; simpl; auto|].
        exists (E1 ++ E2), (c1 + c2). split; [cbn [flat_map]; apply Permutation_app; auto|].
        split; [cbn [map list_sum fold_right]; unfold list_sum in C2; lia|].
        intros S emit rest s fuel FIT. cbn [map app]. rewrite <- Nat.add_assoc.
        assert (MU : mu q < mu p) by (destruct p; eapply kids_mu; eauto).
        rewrite R1.
        + rewrite rfold_app'. destruct (rfold (emitE emit) E1 s); cbn [rbind]; auto.
        + rewrite app_length, map_length. cbn [length] in HLen. nia. }
    destruct (SUB (rev (sel p))) as (E & c & P & CB & R); [intros q Hq; now apply in_rev in Hq|rewrite rev_length; auto|].
    exists E, (1 + c). split; [rewrite P; eapply sel_events; eauto|].
    pose proof (sel_size p l M K) as SS. split; [lia|].
    intros S emit rest s fuel FIT. change (1 + c + fuel) with (1 + (c + fuel)). rewrite iter_ok; auto.
    - rewrite M, K. apply R. exact FIT.
    - intros l2 _. assert (1 <= mu p). { assert (X : exists q, In q l) by (destruct l as [|q l3]; [now apply kids_ne in K|exists q; simpl; auto]).
        destruct X as (q & Hq). assert (mu q < mu p) by (destruct p; eapply kids_mu; eauto). lia. }
      nia.
  Qed.
End Sel.
