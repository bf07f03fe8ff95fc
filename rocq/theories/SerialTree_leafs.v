(** host_for_each_leafs visits the accepted leaves once. *)
From Verif Require Import Base Par Patch Patch_spec Patch_proofs PatchTree PatchTree_spec Domain SerialTree SerialTree_proofs SerialTree_build.
From Coq Require Import ZifyBool ZifyNat.
Local Open Scope Z_scope.

Section S.
Context {C : Type}.
Variable to_box : pcoord -> res (range C).
Variable t : ptree.
Hypothesis I : tree_ok t.
Variables (ids : list Z) (s : sstate C).
Hypothesis Hser : ser to_box t 0 ids (ss_tree s) (ss_linked s).
Hypothesis HND : NoDup ids.
Hypothesis Hcomplete : forall x n, t_map t x = Some n -> In x ids.
Hypothesis Hleaf : forall x n, t_map t x = Some n -> n_leaf n = true -> exists id, n_linked n = Some id /\ id <> u64_max.
Hypothesis Hinner : forall x n, t_map t x = Some n -> n_leaf n = false -> n_linked n = Some u64_max.

(** The index of a node in the arrays, and its copy. *)
Fixpoint index_of (x : Z) (l : list Z) : nat :=
  match l with [] => O | y :: l => if x =? y then O else S (index_of x l) end.
Definition idx (x : Z) : Z := Z.of_nat (index_of x ids).
Lemma index_of_nth l x : In x l -> nth_error l (index_of x l) = Some x.
Proof.
  induction l as [|y l IH]; intros H; [contradiction|]. cbn [index_of]. destruct (Z.eqb_spec x y) as [->|N]; [reflexivity|].
  cbn [nth_error]. apply IH. destruct H; [congruence|auto].
Qed.
Lemma idx_unique j x : nth_error ids j = Some x -> idx x = Z.of_nat j.
Proof.
  intros H. unfold idx. f_equal. pose proof (index_of_nth ids x (nth_error_In _ _ H)) as H2.
  apply (proj1 (NoDup_nth_error ids) HND); [apply nth_error_Some; congruence|congruence].
Qed.
Lemma node_entry x n : t_map t x = Some n -> exists m, node_at s (idx x) = Ok m /\
  aget (ss_linked s) (Z.to_nat (idx x)) = Ok (n_linked n) /\ to_box (n_box n) = Ok (sn_min m, sn_max m) /\
  length (sn_childs m) = 8%nat /\ (n_leaf n = true -> sn_childs m = n_childs n) /\
  (n_leaf n = false -> sn_childs m = map idx (n_childs n)).
Proof.
  intros Hn. pose proof (index_of_nth ids x (Hcomplete _ _ Hn)) as Hx. destruct Hser as (_ & _ & HS).
  destruct (HS _ _ Hx) as (n' & m & A1 & A2 & A3 & A4 & A5 & A6 & A7). assert (n' = n) by congruence. subst n'.
  exists m. unfold node_at, idx. rewrite Nat2Z.id. split; [now apply aget_ok|]. split; [now apply aget_ok|]. split; auto. split; auto.
  split; auto. intros Hl. specialize (A7 Hl). pose proof (ok_childs_len _ I _ _ A1) as H8.
  apply list_eq_nth_error. intros k. rewrite nth_error_map. destruct (nth_error (n_childs n) k) as [c|] eqn:E.
  - destruct (A7 k c E) as (j & Hj & ->). cbn. f_equal. symmetry. now apply idx_unique.
  - cbn. apply nth_error_None. apply nth_error_None in E. lia.
Qed.

Variable interact : Z -> snode C -> bool.
Definition accepts (x : Z) : bool := match node_at s (idx x) with Ok m => interact (idx x) m | _ => false end.
Notation pre := (pre t).
Fixpoint vis (f : nat) (x : Z) : list Z :=
  match f with
  | O => []
  | S f' => match t_map t x with
            | None => []
            | Some n => if accepts x then if n_leaf n then [x] else flat_map (vis f') (rev (n_childs n)) else []
            end
  end.
Definition is_call (x : Z) (c : Z * snode C) : Prop :=
  exists n, t_map t x = Some n /\ n_linked n = Some (fst c) /\ node_at s (idx x) = Ok (snd c).

Lemma loop_mono f : forall st cs, leafs_loop f s interact st = Ok cs -> forall f', (f <= f')%nat -> leafs_loop f' s interact st = Ok cs.
Proof.
  induction f as [|f IH]; intros st cs H [|f'] Hf; try discriminate; try lia. cbn [leafs_loop] in *.
  destruct st as [|cur st]; auto. destruct (node_at s cur) as [m| |]; cbn [rbind] in *; try discriminate.
  destruct (interact cur m); [|eapply IH; eauto; lia].
  destruct (aget (ss_linked s) (Z.to_nat cur)) as [[l|]| |]; cbn [rbind] in *; try discriminate.
  destruct (negb (l =? u64_max)); [|eapply IH; eauto; lia].
  destruct (leafs_loop f s interact st) as [cs'| |] eqn:E; cbn [rbind] in *; try discriminate.
  rewrite (IH _ _ E f') by lia. exact H.
Qed.

Lemma visit_ok f : forall x, hle t f x -> forall rest rc fuel, leafs_loop fuel s interact rest = Ok rc ->
  exists cs, leafs_loop (fuel + length (pre f x)) s interact (idx x :: rest) = Ok (cs ++ rc) /\ Forall2 is_call (vis f x) cs.
Proof.
  induction f as [|f IH]; intros x H rest rc fuel E; [inversion H|].
  assert (exists n, t_map t x = Some n) as (n & Hn) by (inversion H; subst; eauto).
  cbn [SerialTree_proofs.pre vis]. rewrite Hn. destruct (node_entry x n Hn) as (m & M1 & M2 & _ & M3 & M4 & M5).
  cbn [length]. rewrite Nat.add_succ_r. cbn [leafs_loop]. rewrite M1. cbn [rbind].
  unfold accepts. rewrite M1. destruct (interact (idx x) m).
  2:{ exists []. split; [|constructor]. eapply loop_mono; eauto. lia. }
  rewrite M2. cbn [rbind]. destruct (n_leaf n) eqn:Hl.
  - destruct (Hleaf x n Hn Hl) as (id & Hid & Nid). rewrite Hid. replace (id =? u64_max) with false by lia. cbn [negb].
    rewrite (loop_mono _ _ _ E) by lia. cbn [rbind]. exists [(id, m)]. split; [reflexivity|]. constructor; [|constructor].
    exists n. auto.
  - rewrite (Hinner x n Hn Hl). rewrite Z.eqb_refl. cbn [negb]. rewrite firstn_all2 by lia. rewrite (M5 eq_refl), <- map_rev.
    assert (Hcs : forall c, In c (rev (n_childs n)) -> hle t f c).
    { intros c Hc. apply in_rev in Hc. inversion H as [|? ? n' Hn' Hl' Hc']; subst; [congruence|]. assert (n' = n) by congruence. subst. auto. }
    assert (L : forall cs, (forall c, In c cs -> hle t f c) ->
      exists ks, leafs_loop (fuel + length (flat_map (pre f) cs)) s interact (map idx cs ++ rest) = Ok (ks ++ rc) /\
        Forall2 is_call (flat_map (vis f) cs) ks).
    { induction cs as [|c cs IHc]; intros Hh; cbn [flat_map map app length].
      - exists []. rewrite Nat.add_0_r. split; [exact E|constructor].
      - destruct (IHc (fun d Hd => Hh d (or_intror Hd))) as (ks & E2 & F2).
        destruct (IH c (Hh c (or_introl eq_refl)) _ _ _ E2) as (kc & E3 & F3). exists (kc ++ ks). split.
        + rewrite app_length, <- app_assoc. rewrite <- E3. f_equal. lia.
        + now apply Forall2_app. }
    destruct (L (rev (n_childs n)) Hcs) as (ks & E2 & F2). exists ks. split; auto.
    rewrite <- E2. f_equal. f_equal. clear. rewrite !flat_map_concat_map, map_rev.
    induction (map (pre f) (n_childs n)) as [|a l IHl]; cbn; auto. rewrite concat_app, !app_length, IHl. cbn. rewrite app_nil_r. lia.
Qed.

Lemma vis_desc f : forall x y, In y (vis f x) -> desc t x y.
Proof.
  induction f as [|f IH]; intros x y H; [contradiction|]. cbn [vis] in H. destruct (t_map t x) as [n|] eqn:Hn; [|contradiction].
  destruct (accepts x); [|contradiction]. destruct (n_leaf n) eqn:Hl.
  - destruct H as [<-|[]]. constructor.
  - apply in_flat_map in H. destruct H as (c & Hc & Hy). apply in_rev in Hc. eapply (desc_trans t); [|exact (IH _ _ Hy)].
    exact (desc_step t x x c n (desc_refl t x) Hn Hl Hc).
Qed.
Lemma vis_NoDup f : forall x, NoDup (vis f x).
Proof.
  induction f as [|f IH]; intros x; cbn [vis]; [constructor|]. destruct (t_map t x) as [n|] eqn:Hn; [|constructor].
  destruct (accepts x); [|constructor]. destruct (n_leaf n) eqn:Hl; [constructor; [tauto|constructor]|].
  apply (NoDup_flat_map); auto; [apply NoDup_rev; apply (ok_children _ I x n Hn Hl)|].
  intros a b y Ha Hb Hya Hyb. apply vis_desc in Hya, Hyb. apply in_rev in Ha, Hb. eapply (siblings_disjoint t I); eauto.
Qed.
Lemma desc_case x z : desc t x z -> z = x \/ exists n c, t_map t x = Some n /\ n_leaf n = false /\ In c (n_childs n) /\ desc t c z.
Proof.
  induction 1 as [x|x y c n D IH Hn Hl Hc]; auto. right. destruct IH as [->|(m & d & A & B & E & D')].
  - exists n, c. repeat split; auto. constructor.
  - exists m, d. repeat split; auto. exact (desc_step t d y c n D' Hn Hl Hc).
Qed.
Lemma vis_iff f x : hle t f x -> forall y, In y (vis f x) <->
  (desc t x y /\ (exists n, t_map t y = Some n /\ n_leaf n = true) /\ forall z, desc t x z -> desc t z y -> accepts z = true).
Proof.
  induction 1 as [f x n Hn Hl|f x n Hn Hl Hc IH]; intros y; cbn [vis]; rewrite Hn, Hl.
  - split.
    + destruct (accepts x) eqn:A; [|contradiction]. intros [<-|[]]. split; [constructor|]. split; [eauto|].
      intros z D _. destruct (desc_case _ _ D) as [->|(m & c & Hm & Hml & _)]; auto. congruence.
    + intros (D & _ & Acc). destruct (desc_case _ _ D) as [->|(m & c & Hm & Hml & _)]; [|congruence].
      rewrite (Acc x (desc_refl t x) (desc_refl t x)). left; auto.
  - split.
    + destruct (accepts x) eqn:A; [|contradiction]. intros H. apply in_flat_map in H. destruct H as (c & Hcin & Hy).
      apply in_rev in Hcin. apply (IH c Hcin) in Hy. destruct Hy as (D & Lf & Acc). split; [|split; auto].
      * eapply (desc_trans t); [|exact D]. exact (desc_step t x x c n (desc_refl t x) Hn Hl Hcin).
      * intros z Dz Dzy. destruct (desc_case _ _ Dz) as [->|(m & d & Hm & Hml & Hd & Dd)]; auto.
        assert (m = n) by congruence. subst m.
        assert (d = c) by exact (siblings_disjoint t I x n d c y Hn Hl Hd Hcin (desc_trans t _ _ _ Dd Dzy) D). subst d. auto.
    + intros (D & (k & Hk & Hkl) & Acc). rewrite (Acc x (desc_refl t x) D).
      destruct (desc_case _ _ D) as [->|(m & c & Hm & Hml & Hcin & Dc)]; [congruence|]. assert (m = n) by congruence. subst m.
      apply in_flat_map. exists c. rewrite <- in_rev. split; auto. apply (IH c Hcin). split; auto. split; [eauto|].
      intros z Dz. apply Acc. eapply (desc_trans t); [|exact Dz]. exact (desc_step t x x c n (desc_refl t x) Hn Hl Hcin).
Qed.

Variable roots : list Z.
Hypothesis HF : Forall2 (fun r x => 0 <= r < 2 ^ 32 /\ nth_error ids (Z.to_nat r) = Some x) roots (t_roots t).
Lemma roots_idx : roots = map idx (t_roots t).
Proof.
  clear - HF HND. induction HF as [|r x rs xs (H1 & H2) F IH]; cbn; auto. f_equal; auto.
  symmetry. rewrite (idx_unique _ _ H2). lia.
Qed.
Lemma host_for_each_ok f fuel : (65 <= f)%nat -> (length (pre_all t f) < fuel)%nat ->
  exists calls, host_for_each_leafs fuel s roots interact = Ok calls /\
    exists ys, Forall2 is_call ys calls /\ NoDup ys /\
      forall y, In y ys <-> ((exists n, t_map t y = Some n /\ n_leaf n = true) /\ forall z, desc t z y -> (exists m, t_map t z = Some m) -> accepts z = true).
Proof.
  intros Hf Hfu. unfold host_for_each_leafs. rewrite roots_idx, <- map_rev.
  assert (L : forall rs, (forall r, In r rs -> In r (t_roots t)) ->
    exists calls, leafs_loop (1 + length (flat_map (pre f) rs)) s interact (map idx rs) = Ok calls /\ Forall2 is_call (flat_map (vis f) rs) calls).
  { induction rs as [|r rs IHr]; intros Hin; cbn [flat_map map length].
    - exists []. split; [reflexivity|constructor].
    - destruct IHr as (cs & E & F); [intros; apply Hin; right; auto|].
      destruct (proj1 (ok_roots _ I r)) as (n & Hn & _); [apply Hin; left; auto|].
      destruct (visit_ok f r (hle_all t I r n f Hn Hf) _ _ _ E) as (kc & E3 & F3). exists (kc ++ cs). split.
      + rewrite app_length. rewrite <- E3. f_equal. lia.
      + now apply Forall2_app. }
  destruct (L (rev (t_roots t))) as (calls & E & F); [intros r; now rewrite <- in_rev|].
  exists calls. split.
  - eapply loop_mono; [exact E|].
    assert (Lrev : forall l, length (flat_map (pre f) (rev l)) = length (flat_map (pre f) l)).
    { clear. intros l. rewrite !flat_map_concat_map, map_rev. induction (map (pre f) l) as [|a r IHl]; cbn; auto.
      rewrite concat_app, !app_length, IHl. cbn. rewrite app_nil_r. lia. }
    unfold pre_all in Hfu. rewrite Lrev. lia.
  - exists (flat_map (vis f) (rev (t_roots t))). split; auto. split.
    + apply NoDup_flat_map; [apply NoDup_rev, (ok_nodup _ I)|intros; apply vis_NoDup|].
      intros a b y Ha Hb Hya Hyb. apply vis_desc in Hya, Hyb. apply in_rev in Ha, Hb. eapply (roots_disjoint t I); eauto.
    + intros y. split.
      * intros H. apply in_flat_map in H. destruct H as (r & Hr & Hy). apply in_rev in Hr.
        destruct (proj1 (ok_roots _ I r) Hr) as (n & Hn & Hp).
        apply (vis_iff f r (hle_all t I r n f Hn Hf)) in Hy. destruct Hy as (D & Lf & Acc). split; auto.
        intros z Dz (m & Hm). destruct (below_root t I z m Hm) as (q & Hq & Dq).
        assert (q = r) by exact (roots_disjoint t I q r y Hq Hr (desc_trans t _ _ _ Dq Dz) D). subst q. auto.
      * intros ((n & Hn & Hl) & Acc). destruct (below_root t I y n Hn) as (r & Hr & D).
        destruct (proj1 (ok_roots _ I r) Hr) as (k & Hk & _).
        apply in_flat_map. exists r. rewrite <- in_rev. split; auto. apply (vis_iff f r (hle_all t I r k f Hk Hf)).
        split; auto. split; [eauto|]. intros z Drz Dzy. apply Acc; auto. eapply (desc_mapped t I); eauto.
Qed.
End S.
