(** The search in the serial patch tree. *)
From Verif Require Import Base Par Patch Patch_spec Patch_proofs PatchTree PatchTree_spec Domain SerialTree SerialTree_proofs SerialTree_build.
From Coq Require Import ZifyBool ZifyNat.
Local Open Scope Z_scope.

Section S.
Context {C : Type}.
Variables (leb ltb : C -> C -> bool).
Variable to_box : pcoord -> res (range C).
Variable cellof : vec3 C -> v3.
Variable t : ptree.
Hypothesis I : tree_ok t.
(** The boxes of the nodes have a box of positions, with the cells inside. *)
Hypothesis Hcell : forall x n, t_map t x = Some n -> exists r, to_box (n_box n) = Ok r /\
  forall v, is_in_patch_converted leb ltb v (fst r) (snd r) = true <-> in_box (cellof v) (n_box n).

Variables (ids : list Z) (s : sstate C).
Hypothesis Hser : ser to_box t 0 ids (ss_tree s) (ss_linked s).
Hypothesis Hlev : levels t 0 (ss_level s) ids.
Hypothesis Hcomplete : forall x n, t_map t x = Some n -> In x ids.

(** Index [j] of the arrays holds the copy of node [x]. *)
Definition at_node (j : Z) (x : Z) : Prop := 0 <= j /\ nth_error ids (Z.to_nat j) = Some x.

Lemma at_entry j x : at_node j x -> exists n m, t_map t x = Some n /\ node_at s j = Ok m /\
  aget (ss_linked s) (Z.to_nat j) = Ok (n_linked n) /\
  (forall v, in_node leb ltb v m = true <-> in_box (cellof v) (n_box n)) /\ length (sn_childs m) = 8%nat /\
  (n_leaf n = true -> sn_childs m = n_childs n) /\
  (n_leaf n = false -> Forall2 at_node (sn_childs m) (n_childs n)).
Proof.
  intros (Hj & Hx). destruct Hser as (_ & _ & HS). destruct (HS _ _ Hx) as (n & m & A1 & A2 & A3 & A4 & A5 & A6 & A7).
  exists n, m. split; auto. split; [now apply aget_ok|]. split; [now apply aget_ok|]. split.
  - intros v. destruct (Hcell x n A1) as (r & Hr & Hc). rewrite A4 in Hr. injection Hr as <-. apply (Hc v).
  - split; auto. split; auto. intros Hl. specialize (A7 Hl).
    pose proof (ok_childs_len _ I _ _ A1) as H8. clear - A5 A7 H8.
    assert (W : forall cs js, length js = length cs ->
      (forall k c, nth_error cs k = Some c -> exists j, nth_error ids j = Some c /\ nth_error js k = Some (0 + Z.of_nat j)) -> Forall2 at_node js cs).
    { induction cs as [|c cs IH]; intros [|j js] HL H; try discriminate; constructor.
      - destruct (H 0%nat c eq_refl) as (q & Hq & E). cbn in E. injection E as ->. split; [lia|]. now rewrite Nat2Z.id.
      - apply IH; [cbn in HL; lia|]. intros k d Hk. exact (H (S k) d Hk). }
    apply W; auto. congruence.
Qed.

Lemma find_child_ok v cur : forall js cs, Forall2 at_node js cs ->
  (exists j c n, find_child leb ltb s cur js v = Ok j /\ at_node j c /\ In c cs /\ t_map t c = Some n /\ in_box (cellof v) (n_box n)) \/
  (find_child leb ltb s cur js v = Ok cur /\ forall c n, In c cs -> t_map t c = Some n -> ~ in_box (cellof v) (n_box n)).
Proof.
  induction 1 as [|j c js cs Hj HF IH]; cbn [find_child].
  - right. split; [reflexivity|contradiction].
  - destruct (at_entry j c Hj) as (n & m & A1 & A2 & _ & A4 & _). rewrite A2. cbn [rbind].
    destruct (in_node leb ltb v m) eqn:E.
    + left. exists j, c, n. split; auto. split; auto. split; [left; auto|]. split; auto. now apply A4.
    + destruct IH as [(j' & c' & n' & B1 & B2 & B3 & B4)|(B1 & B2)].
      * left. exists j', c', n'. split; auto. split; auto. split; [right; auto|auto].
      * right. split; auto. intros d k [<-|Hd] Hk.
        -- assert (k = n) by congruence. subst k. rewrite <- A4, E. discriminate.
        -- eauto.
Qed.

Hypothesis Hroot : roots_level0 t.
Hypothesis Hleafc : forall x n, t_map t x = Some n -> n_leaf n = true -> nth_error (n_childs n) 0 = Some u64_max.
Hypothesis Hsmall : Z.of_nat (length ids) <= 2 ^ 32.

Lemma inner_head x n (m : snode C) : t_map t x = Some n -> n_leaf n = false -> Forall2 at_node (sn_childs m) (n_childs n) -> length (sn_childs m) = 8%nat ->
  exists c0, aget (sn_childs m) 0 = Ok c0 /\ c0 <> u64_max.
Proof.
  intros Hn Hl F H8. destruct F as [|j c js cs (Hj1 & Hj2) F]; [discriminate|]. exists j. split; [reflexivity|].
  assert (Z.to_nat j < length ids)%nat by (apply nth_error_Some; congruence). unfold u64_max. lia.
Qed.

Lemma owner_loop_ok v : forall steps j x n r, at_node j x -> t_map t x = Some n -> In r (t_roots t) -> desc t r x ->
  in_box (cellof v) (n_box n) -> ss_level s + 1 - n_level n <= Z.of_nat steps ->
  exists y k, t_map t y = Some k /\ n_leaf k = true /\ in_box (cellof v) (n_box k) /\ desc t r y /\
    owner_loop leb ltb steps s j v = match n_linked k with Some id => Ok id | None => UB end.
Proof.
  induction steps as [|steps IH]; intros j x n r Hj Hn Hr HD Hin Hst.
  - exfalso. destruct Hlev as (_ & HL & _). specialize (HL x n (Hcomplete _ _ Hn) Hn). lia.
  - cbn [owner_loop]. destruct (at_entry j x Hj) as (n' & m & A1 & A2 & A3 & A4 & A5 & A6 & A7).
    assert (n' = n) by congruence. subst n'. rewrite A2. cbn [rbind]. destruct (n_leaf n) eqn:Hl.
    + rewrite (A6 eq_refl). rewrite (proj2 (aget_ok _ _ _) (Hleafc _ _ Hn Hl)). cbn [rbind]. rewrite Z.eqb_refl. cbn [negb].
      rewrite A3. cbn [rbind]. exists x, n. auto 10.
    + specialize (A7 eq_refl). destruct (inner_head x n m Hn Hl A7 A5) as (c0 & Ec0 & Hc0). rewrite Ec0. cbn [rbind].
      replace (c0 =? u64_max) with false by lia. cbn [negb]. rewrite firstn_all2 by lia.
      destruct (find_child_ok v j _ _ A7) as [(j' & c & k & B1 & B2 & B3 & B4 & B5)|(B1 & B2)].
      * rewrite B1. cbn [rbind]. apply (IH j' c k r); auto.
        -- exact (desc_step t r x c n HD Hn Hl B3).
        -- rewrite (child_level t I Hroot r x n c k Hr HD Hn Hl B3 B4). lia.
      * exfalso. pose proof (ok_splittable _ I _ _ Hn Hl) as Sp.
        destruct (proj1 (proj1 (get_split_partition _ Sp) (cellof v)) Hin) as (b & Hb & Hvb).
        apply In_nth_error in Hb. destruct Hb as (q & Hq).
        assert (Hq8 : (q < 8)%nat) by (rewrite <- (length_get_split (n_box n)); apply nth_error_Some; congruence).
        destruct (nth_error (n_childs n) q) as [c|] eqn:Ec.
        2:{ apply nth_error_None in Ec. rewrite (ok_childs_len _ I _ _ Hn) in Ec. lia. }
        destruct (proj2 (ok_children _ I x n Hn Hl) q c Ec) as (k & Hk & _ & Hbk & _).
        apply (B2 c k); auto; [eapply nth_error_In; eauto|]. congruence.
Qed.

(** Outside every child the search stays where it is. *)
Lemma owner_loop_stuck v : forall steps j x n, at_node j x -> t_map t x = Some n -> n_leaf n = false ->
  ~ in_box (cellof v) (n_box n) -> owner_loop leb ltb steps s j v = Ok u64_max.
Proof.
  induction steps as [|steps IH]; intros j x n Hj Hn Hl Hout; [reflexivity|].
  cbn [owner_loop]. destruct (at_entry j x Hj) as (n' & m & A1 & A2 & A3 & A4 & A5 & A6 & A7).
  assert (n' = n) by congruence. subst n'. rewrite A2. cbn [rbind].
  specialize (A7 Hl). destruct (inner_head x n m Hn Hl A7 A5) as (c0 & Ec0 & Hc0). rewrite Ec0. cbn [rbind].
  replace (c0 =? u64_max) with false by lia. cbn [negb]. rewrite firstn_all2 by lia.
  destruct (find_child_ok v j _ _ A7) as [(j' & c & k & B1 & B2 & B3 & B4 & B5)|(B1 & B2)].
  - exfalso. apply Hout. apply In_nth_error in B3. destruct B3 as (q & Hq).
    destruct (proj2 (ok_children _ I x n Hn Hl) q c Hq) as (k' & Hk & _ & Hbk & _).
    assert (k' = k) by congruence. subst k'. apply (proj1 (get_split_partition _ (ok_splittable _ I _ _ Hn Hl))).
    exists (n_box k). split; auto. eapply nth_error_In; eauto.
  - rewrite B1. cbn [rbind]. eapply IH; eauto.
Qed.

Lemma find_root_ok v : forall js rs, Forall2 (fun r x => 0 <= r < 2 ^ 32 /\ nth_error ids (Z.to_nat r) = Some x) js rs ->
  (exists j c n, find_root leb ltb s js v = Ok j /\ at_node j c /\ In c rs /\ t_map t c = Some n /\ in_box (cellof v) (n_box n)) \/
  (find_root leb ltb s js v = Ok 0 /\ forall c n, In c rs -> t_map t c = Some n -> ~ in_box (cellof v) (n_box n)).
Proof.
  induction 1 as [|j c js cs (Hj1 & Hj2) HF IH]; cbn [find_root].
  - right. split; [reflexivity|contradiction].
  - replace (w32 j) with j by (unfold w32, wrapZ; rewrite Z.mod_small; lia).
    assert (Hj : at_node j c) by (split; auto; lia).
    destruct (at_entry j c Hj) as (n & m & A1 & A2 & _ & A4 & _). rewrite A2. cbn [rbind].
    destruct (in_node leb ltb v m) eqn:E.
    + left. exists j, c, n. split; auto. split; auto. split; [left; auto|]. split; auto. now apply A4.
    + destruct IH as [(j' & c' & n' & B1 & B2 & B3 & B4)|(B1 & B2)].
      * left. exists j', c', n'. split; auto. split; auto. split; [right; auto|auto].
      * right. split; auto. intros d k [<-|Hd] Hk.
        -- assert (k = n) by congruence. subst k. rewrite <- A4, E. discriminate.
        -- eauto.
Qed.

Variable roots : list Z.
Hypothesis HF : Forall2 (fun r x => 0 <= r < 2 ^ 32 /\ nth_error ids (Z.to_nat r) = Some x) roots (t_roots t).
Hypothesis Hhd : forall r, hd_error roots = Some r -> r = 0.

Lemma level_le : 0 <= ss_level s <= 64.
Proof.
  destruct Hlev as (L0 & _ & LM). split; [exact L0|]. apply LM; [lia|]. intros y n _ Hn.
  destruct (below_root t I y n Hn) as (r & Hr & D). apply (level_bound t I Hroot r y n Hr D Hn).
Qed.

(** A position in a root is attributed to the leaf that contains it. *)
Lemma patch_owner_in v r n : In r (t_roots t) -> t_map t r = Some n -> in_box (cellof v) (n_box n) ->
  exists y k, t_map t y = Some k /\ n_leaf k = true /\ in_box (cellof v) (n_box k) /\
    patch_owner leb ltb s roots v = match n_linked k with Some id => Ok id | None => UB end.
Proof.
  intros Hr Hn Hin. unfold patch_owner. pose proof level_le as LL.
  assert (E : w32 (ss_level s + 1) = ss_level s + 1) by (unfold w32, wrapZ; rewrite Z.mod_small; lia). rewrite E.
  destruct (find_root_ok v _ _ HF) as [(j & c & m & B1 & B2 & B3 & B4 & B5)|(B1 & B2)].
  - rewrite B1. cbn [rbind]. destruct (proj1 (ok_roots _ I c) B3) as (m' & Hm' & Hp). assert (m' = m) by congruence. subst m'.
    destruct (owner_loop_ok v (Z.to_nat (ss_level s + 1)) j c m c) as (y & k & K1 & K2 & K3 & _ & K4); auto; [constructor|rewrite (Hroot _ _ B4 Hp); lia|].
    exists y, k. auto.
  - exfalso. eapply B2; eauto.
Qed.
(** Outside: no patch, unless the first root is a leaf, in which case it is that one. *)
Lemma patch_owner_out v x0 rest n0 : t_roots t = x0 :: rest -> t_map t x0 = Some n0 ->
  (forall r n, In r (t_roots t) -> t_map t r = Some n -> ~ in_box (cellof v) (n_box n)) ->
  patch_owner leb ltb s roots v =
    if n_leaf n0 then match n_linked n0 with Some id => Ok id | None => UB end else Ok u64_max.
Proof.
  intros Ex Hn0 Hout. unfold patch_owner. pose proof level_le as LL.
  assert (E : w32 (ss_level s + 1) = ss_level s + 1) by (unfold w32, wrapZ; rewrite Z.mod_small; lia). rewrite E.
  assert (H0 : at_node 0 x0).
  { rewrite Ex in HF. inversion HF as [|r ? rs ? (R1 & R2)]; subst. specialize (Hhd r eq_refl). subst r. split; [lia|auto]. }
  destruct (find_root_ok v _ _ HF) as [(j & c & m & B1 & B2 & B3 & B4 & B5)|(B1 & B2)]; [exfalso; eapply Hout; eauto|].
  rewrite B1. cbn [rbind]. destruct (n_leaf n0) eqn:Hl.
  - replace (Z.to_nat (ss_level s + 1)) with (S (Z.to_nat (ss_level s))) by lia. cbn [owner_loop].
    destruct (at_entry 0 x0 H0) as (n' & m & A1 & A2 & A3 & A4 & A5 & A6 & A7).
    assert (n' = n0) by congruence. subst n'. rewrite A2. cbn [rbind]. rewrite (A6 Hl).
    rewrite (proj2 (aget_ok _ _ _) (Hleafc _ _ Hn0 Hl)). cbn [rbind]. rewrite Z.eqb_refl. cbn [negb]. rewrite A3. reflexivity.
  - apply (owner_loop_stuck v _ 0 x0 n0); auto. apply (Hout x0 n0); auto. rewrite Ex. left; auto.
Qed.
End S.
