From Verif Require Import Base Patch Patch_spec Patch_proofs PatchTree PatchTree_spec.
From Coq Require Import ZifyBool ZifyNat ZifyN.
Local Open Scope Z_scope.

Lemma set_mem_In x l : set_mem x l = true <-> In x l.
Proof.
  unfold set_mem. rewrite existsb_exists. split.
  - intros (y & Hy & E). apply Z.eqb_eq in E. now subst.
  - intros H; exists x; split; auto. apply Z.eqb_refl.
Qed.
Lemma set_insert_In x y l : In x (set_insert y l) <-> In x l \/ x = y.
Proof.
  unfold set_insert. destruct (set_mem y l) eqn:E.
  - apply set_mem_In in E. split; [tauto|intros [H| ->]; auto].
  - simpl. intuition congruence.
Qed.
Lemma set_insert_NoDup y l : NoDup l -> NoDup (set_insert y l).
Proof.
  unfold set_insert. destruct (set_mem y l) eqn:E; auto. intros H; constructor; auto.
  intros Hin. apply set_mem_In in Hin. congruence.
Qed.
Lemma set_erase_In x y l : In x (set_erase y l) <-> In x l /\ x <> y.
Proof. unfold set_erase. rewrite filter_In. rewrite negb_true_iff, Z.eqb_neq. tauto. Qed.
Lemma set_erase_NoDup y l : NoDup l -> NoDup (set_erase y l).
Proof. apply NoDup_filter. Qed.

Lemma fold_insert_In cs x l : In x (fold_left (fun l c => set_insert c l) cs l) <-> In x l \/ In x cs.
Proof.
  revert l; induction cs as [|c cs IH]; intros l; simpl; [tauto|]. rewrite IH, set_insert_In.
  intuition congruence.
Qed.
Lemma fold_insert_NoDup cs l : NoDup l -> NoDup (fold_left (fun l c => set_insert c l) cs l).
Proof. revert l; induction cs as [|c cs IH]; intros l H; simpl; auto. apply IH. now apply set_insert_NoDup. Qed.
Lemma fold_erase_In cs x l : In x (fold_left (fun l c => set_erase c l) cs l) <-> In x l /\ ~ In x cs.
Proof.
  revert l; induction cs as [|c cs IH]; intros l; simpl; [tauto|]. rewrite IH, set_erase_In.
  intuition congruence.
Qed.
Lemma fold_erase_NoDup cs l : NoDup l -> NoDup (fold_left (fun l c => set_erase c l) cs l).
Proof. revert l; induction cs as [|c cs IH]; intros l H; simpl; auto. apply IH. now apply set_erase_NoDup. Qed.

Lemma fold_remove cs t :
  let t' := fold_left (fun t c => remove_node c t) cs t in
  t_roots t' = t_roots t /\ t_leaf t' = t_leaf t /\ t_ponly t' = t_ponly t /\ t_next t' = t_next t /\
  forall x, t_map t' x = if set_mem x cs then None else t_map t x.
Proof.
  revert t; induction cs as [|c cs IH]; intros t; cbn [fold_left].
  - auto 10.
  - destruct (IH (remove_node c t)) as (A & B & C & D & E). rewrite A, B, C, D.
    repeat (split; [reflexivity|]). intros x. rewrite E. cbn [set_mem existsb]. unfold set_mem.
    destruct (existsb (Z.eqb x) cs) eqn:Em; [now rewrite orb_true_r|]. rewrite orb_false_r.
    unfold remove_node, t_with_map, map_erase; cbn. now destruct (x =? c).
Qed.

(** Consecutive ids. *)
Definition zseq (a : Z) (n : nat) : list Z := map (fun k => a + Z.of_nat k) (seq 0 n).
Lemma zseq_S a n : zseq a (S n) = a :: zseq (a + 1) n.
Proof.
  unfold zseq. simpl. f_equal; [lia|]. rewrite <- seq_shift, map_map. apply map_ext; intros; lia.
Qed.
Lemma length_zseq a n : length (zseq a n) = n.
Proof. unfold zseq. now rewrite map_length, seq_length. Qed.
Lemma zseq_nth a n k : (k < n)%nat -> nth_error (zseq a n) k = Some (a + Z.of_nat k).
Proof. intros H. unfold zseq. rewrite nth_error_map, nth_error_seq by lia. reflexivity. Qed.
Lemma zseq_In a n x : In x (zseq a n) <-> a <= x < a + Z.of_nat n.
Proof.
  unfold zseq. rewrite in_map_iff. split.
  - intros (k & <- & H). apply in_seq in H. lia.
  - intros H. exists (Z.to_nat (x - a)). split; [lia|]. apply in_seq; lia.
Qed.
Lemma zseq_NoDup a n : NoDup (zseq a n).
Proof.
  revert a; induction n as [|n IH]; intros a; [constructor|]. rewrite zseq_S. constructor; auto.
  rewrite zseq_In; lia.
Qed.

Lemma upd_app_mid {A} (l1 l2 : list A) x v : upd (l1 ++ x :: l2) (length l1) v = l1 ++ v :: l2.
Proof. induction l1 as [|a l1 IH]; simpl; auto. now rewrite IH. Qed.

Lemma insert_children_spec id : forall kids pre post t n,
  t_map t id = Some n -> n_childs n = pre ++ post -> length post = length kids ->
  0 <= id < t_next t -> t_next t + Z.of_nat (length kids) < 2 ^ 64 ->
  exists t', insert_children id (length pre) kids t = Ok t' /\
    t_roots t' = t_roots t /\ t_leaf t' = t_leaf t /\ t_ponly t' = t_ponly t /\
    t_next t' = t_next t + Z.of_nat (length kids) /\
    forall x, t_map t' x =
      if x =? id then Some (n_set_childs (pre ++ zseq (t_next t) (length kids)) n)
      else if (t_next t <=? x) && (x <? t_next t + Z.of_nat (length kids))
           then nth_error kids (Z.to_nat (x - t_next t)) else t_map t x.
Proof.
  induction kids as [|k kids IH]; intros pre post t n Hn Hc Hl Hid Hnx.
  - exists t. simpl in Hl. destruct post; [|discriminate].
    cbn [insert_children length Z.of_nat]. rewrite Z.add_0_r.
    repeat (split; [reflexivity|]). intros x. unfold zseq; simpl. rewrite <- Hc.
    destruct (Z.eqb_spec x id) as [->|].
    + rewrite Hn. now destruct n.
    + destruct (t_next t <=? x) eqn:E1, (x <? t_next t) eqn:E2; cbn; auto; lia.
  - destruct post as [|c0 post]; [discriminate|]. simpl in Hl; injection Hl as Hl.
    cbn [insert_children]. unfold insert_node at 1.
    assert (Wn : w64 (t_next t + 1) = t_next t + 1) by (apply w64_small; simpl length in Hnx; lia).
    rewrite Wn. replace (t_next t + 1 - 1) with (t_next t) by lia.
    assert (Wc : w64 (t_next t) = t_next t) by (apply w64_small; simpl length in Hnx; lia).
    rewrite Wc. cbn [n_childs].
    unfold tmod, tget; cbn [t_map rbind]. unfold map_set.
    replace (id =? t_next t) with false by lia. rewrite Hn. cbn [rbind].
    set (t2 := tput _ _ _).
    destruct (IH (pre ++ [t_next t]) post t2 (n_set_childs (pre ++ t_next t :: post) n))
      as (t' & E & R1 & R2 & R3 & R4 & R5).
    + unfold t2, tput, t_with_map, map_set; cbn [t_map]. rewrite Z.eqb_refl. rewrite Hc, upd_app_mid. reflexivity.
    + cbn [n_set_childs n_childs]. now rewrite <- app_assoc.
    + exact Hl.
    + unfold t2, tput, t_with_map; cbn [t_next]. lia.
    + unfold t2, tput, t_with_map; cbn [t_next]. simpl length in Hnx; lia.
    + replace (S (length pre)) with (length (pre ++ [t_next t])) by (rewrite app_length; simpl; lia).
      exists t'. split; [exact E|].
      rewrite R1, R2, R3, R4. unfold t2, tput, t_with_map; cbn [t_roots t_leaf t_ponly t_next].
      repeat (split; [reflexivity|]). split; [simpl length; lia|].
      intros x. rewrite R5. unfold t2, tput, t_with_map, map_set; cbn [t_next t_map].
      destruct (Z.eqb_spec x id) as [->|Hx].
      * change (length (k :: kids)) with (S (length kids)). rewrite zseq_S, <- app_assoc. reflexivity.
      * simpl length.
        destruct (Z.eqb_spec x (t_next t)) as [->|].
        -- replace (t_next t + 1 <=? t_next t) with false by lia. cbn [andb].
           replace ((t_next t <=? t_next t) && (t_next t <? t_next t + Z.of_nat (S (length kids)))) with true by lia.
           rewrite Z.sub_diag. reflexivity.
        -- replace ((t_next t <=? x) && (x <? t_next t + Z.of_nat (S (length kids))))
             with ((t_next t + 1 <=? x) && (x <? t_next t + 1 + Z.of_nat (length kids))) by lia.
           destruct (_ && _) eqn:Eb; auto.
           replace (Z.to_nat (x - t_next t)) with (S (Z.to_nat (x - (t_next t + 1)))) by lia.
           reflexivity.
Qed.

Lemma map_set_eq m k n x : map_set m k n x = if x =? k then Some n else m x.
Proof. reflexivity. Qed.

(** Effect of split_node, pointwise. *)
Definition split_child (n : node) (id : Z) (k : nat) : option node :=
  nth_error (get_split_nodes n id) k.

Lemma split_node_spec t id n :
  tree_ok t -> In id (t_leaf t) -> t_map t id = Some n -> t_next t + 8 < 2 ^ 64 ->
  exists t', split_node id t = Ok t' /\
    t_roots t' = t_roots t /\ t_next t' = t_next t + 8 /\
    (forall x, t_map t' x =
       if x =? id then Some (Node (n_box n) (n_level n) (n_parent n) (zseq (t_next t) 8) false true (n_linked n) (n_load n))
       else if (t_next t <=? x) && (x <? t_next t + 8) then split_child n id (Z.to_nat (x - t_next t))
       else if (x =? n_parent n) && negb (n_parent n =? u64_max)
            then option_map (n_set_allleaf false) (t_map t x)
            else t_map t x) /\
    (forall x, In x (t_leaf t') <-> (In x (t_leaf t) /\ x <> id) \/ t_next t <= x < t_next t + 8) /\
    (forall x, In x (t_ponly t') <-> (In x (t_ponly t) /\ (n_parent n = u64_max \/ x <> n_parent n)) \/ x = id) /\
    NoDup (t_leaf t') /\ NoDup (t_ponly t').
Proof.
  intros Inv Hl Hn Hnx. pose proof (ok_ids _ Inv _ _ Hn) as Hid.
  unfold split_node. set (t0 := t_with_leaf (set_erase id (t_leaf t)) t).
  assert (E0 : tget t0 id = Ok n) by (unfold tget, t0; cbn; now rewrite Hn).
  rewrite E0; cbn [rbind].
  (* parent update *)
  set (m1 := fun x => if (x =? n_parent n) && negb (n_parent n =? u64_max)
            then option_map (n_set_allleaf false) (t_map t x) else t_map t x).
  assert (P1 : exists t1,
     (if n_parent n =? u64_max then Ok t0
        else tmod (n_parent n) (n_set_allleaf false)
               (t_with_ponly (set_erase (n_parent n) (t_ponly t0)) t0)) = Ok t1 /\
     t_roots t1 = t_roots t /\ t_next t1 = t_next t /\ t_leaf t1 = t_leaf t0 /\
     t_ponly t1 = (if n_parent n =? u64_max then t_ponly t else set_erase (n_parent n) (t_ponly t)) /\
     (forall x, t_map t1 x = m1 x) /\ t_map t1 id = Some n).
  { destruct (Z.eqb_spec (n_parent n) u64_max) as [E|E].
    - exists t0. repeat (split; [reflexivity|]). split; [|exact Hn].
      intros x; unfold m1. destruct (Z.eqb_spec (n_parent n) u64_max); [|contradiction].
      cbn [negb]. now rewrite andb_false_r.
    - destruct (ok_parent _ Inv _ _ Hn E) as (Lt & mm & Hm & _).
      unfold tmod, tget. cbn [t_with_ponly t_map t0 t_with_leaf]. rewrite Hm. cbn [rbind].
      eexists. split; [reflexivity|]. cbn [tput t_with_map t_roots t_next t_leaf t_ponly t_map t0 t_with_leaf t_with_ponly].
      repeat (split; [reflexivity|]). split.
      + intros x. unfold m1. rewrite map_set_eq. replace (n_parent n =? u64_max) with false by lia.
        cbn [negb]. rewrite andb_true_r. destruct (Z.eqb_spec x (n_parent n)) as [->|]; auto.
        now rewrite Hm.
      + rewrite map_set_eq. replace (id =? n_parent n) with false by lia. exact Hn. }
  destruct P1 as (t1 & -> & R1 & R2 & R3 & R4 & R5 & R6). cbn [rbind].
  unfold tmod at 1, tget at 1. rewrite R6. cbn [rbind].
  unfold tmod at 1, tget at 1. cbn [tput t_with_map t_map]. rewrite map_set_eq, Z.eqb_refl. cbn [rbind].
  unfold tget at 1. cbn [tput t_with_map t_map]. rewrite map_set_eq, Z.eqb_refl. cbn [rbind].
  set (n2 := n_set_allleaf true (n_set_leaf false n)).
  set (t2 := tput id n2 (tput id (n_set_leaf false n) t1)).
  assert (M2 : t_map t2 id = Some n2).
  { unfold t2; cbn [tput t_with_map t_map]. rewrite map_set_eq, Z.eqb_refl. reflexivity. }
  assert (LK : length (get_split_nodes n2 id) = 8%nat).
  { unfold get_split_nodes. rewrite map_length. apply length_get_split. }
  destruct (insert_children_spec id (get_split_nodes n2 id) [] (n_childs n2) t2 n2 M2 eq_refl)
    as (t3 & E3 & S1 & S2 & S3 & S4 & S5).
  { rewrite LK. unfold n2; cbn. apply (ok_childs_len _ Inv _ _ Hn). }
  { unfold t2; cbn. rewrite R2. lia. }
  { unfold t2; cbn [tput t_with_map t_next]. rewrite R2, LK. lia. }
  cbn [length] in E3. rewrite E3. cbn [rbind].
  assert (M3 : t_map t3 id = Some (n_set_childs (zseq (t_next t) 8) n2)).
  { rewrite S5, Z.eqb_refl. rewrite LK. unfold t2; cbn [tput t_with_map t_next app]. now rewrite R2. }
  unfold tget at 1. rewrite M3. cbn [rbind].
  eexists. split; [reflexivity|].
  cbn [t_with_leaf t_with_ponly t_roots t_next t_map t_leaf t_ponly].
  assert (N2 : t_next t2 = t_next t) by (unfold t2; cbn; exact R2).
  destruct (ok_nodup _ Inv) as (Nd1 & Nd2 & Nd3).
  split; [rewrite S1; unfold t2; cbn; exact R1|].
  split; [rewrite S4, N2, LK; lia|].
  split; [|split; [|split; [|split]]].
  - intros x. rewrite S5. rewrite N2, LK.
    destruct (Z.eqb_spec x id) as [->|]; [reflexivity|].
    change (Z.of_nat 8) with 8.
    destruct ((t_next t <=? x) && (x <? t_next t + 8)) eqn:Eb; [reflexivity|].
    unfold t2; cbn [tput t_with_map t_map]. rewrite !map_set_eq.
    replace (x =? id) with false by lia. rewrite R5. reflexivity.
  - intros x. rewrite fold_insert_In, S2.
    change (t_leaf t2) with (t_leaf t1). rewrite R3.
    cbn [t0 t_with_leaf t_leaf]. rewrite set_erase_In.
    change (firstn 8 (n_childs (n_set_childs (zseq (t_next t) 8) n2))) with (zseq (t_next t) 8).
    rewrite zseq_In. change (Z.of_nat 8) with 8. tauto.
  - intros x. rewrite set_insert_In, S3.
    change (t_ponly t2) with (t_ponly t1). rewrite R4.
    destruct (Z.eqb_spec (n_parent n) u64_max) as [->|E].
    + tauto.
    + rewrite set_erase_In. tauto.
  - apply fold_insert_NoDup. rewrite S2. change (t_leaf t2) with (t_leaf t1). rewrite R3.
    now apply set_erase_NoDup.
  - apply set_insert_NoDup. rewrite S3. change (t_ponly t2) with (t_ponly t1). rewrite R4.
    destruct (_ =? _); auto. now apply set_erase_NoDup.
Qed.

Lemma get_split_nodes_nth n id k m : nth_error (get_split_nodes n id) k = Some m ->
  exists b, nth_error (get_split (n_box n)) k = Some b /\
    m = Node b (w32 (n_level n + 1)) (w32 id) childs_init true false None u64_max.
Proof.
  unfold get_split_nodes. rewrite nth_error_map. destruct (nth_error _ k) as [b|]; [|discriminate].
  intros E; injection E as <-. eauto.
Qed.
Lemma split_child_some n id k : (k < 8)%nat ->
  exists b, nth_error (get_split (n_box n)) k = Some b /\
  split_child n id k = Some (Node b (w32 (n_level n + 1)) (w32 id) childs_init true false None u64_max).
Proof.
  intros Hk. unfold split_child, get_split_nodes. rewrite nth_error_map.
  destruct (nth_error (get_split (n_box n)) k) as [b|] eqn:E.
  - eauto.
  - apply nth_error_None in E. rewrite length_get_split in E. lia.
Qed.
Lemma w32_small x : 0 <= x < 2 ^ 32 -> w32 x = x.
Proof. intros H; unfold w32, wrapZ. apply Z.mod_small; lia. Qed.

Lemma split_node_ok t id t' :
  tree_ok t -> In id (t_leaf t) -> id < 2 ^ 32 -> t_next t + 8 <= u64_max ->
  (forall n, t_map t id = Some n -> splittable (n_box n)) ->
  split_node id t = Ok t' -> tree_ok t'.
Proof.
  intros Inv Hl H32 Hnx Hsp Hs.
  destruct (proj1 (ok_leaf _ Inv id) Hl) as (n & Hn & Hleaf).
  pose proof (ok_ids _ Inv _ _ Hn) as Hid.
  destruct (split_node_spec t id n Inv Hl Hn) as (t'' & E & R & N & M & L & P & D1 & D2).
  { unfold u64_max in Hnx; lia. }
  rewrite Hs in E; injection E as <-.
  pose proof (ok_next _ Inv) as Hnext.
  assert (Hw : w32 id = id) by (apply w32_small; lia).
  (* inspect a node of t' *)
  assert (Old : forall x m', t_map t' x = Some m' -> x <> id -> ~ (t_next t <= x < t_next t + 8) ->
     exists m, t_map t x = Some m /\ n_box m' = n_box m /\ n_level m' = n_level m /\ n_parent m' = n_parent m /\
       n_childs m' = n_childs m /\ n_leaf m' = n_leaf m /\ n_linked m' = n_linked m /\
       (n_allleaf m' = if (x =? n_parent n) && negb (n_parent n =? u64_max) then false else n_allleaf m)).
  { intros x m' Hm Hx Hr. rewrite M in Hm. replace (x =? id) with false in Hm by lia.
    replace ((t_next t <=? x) && (x <? t_next t + 8)) with false in Hm by lia.
    destruct ((x =? n_parent n) && negb (n_parent n =? u64_max)) eqn:Eb.
    - destruct (t_map t x) as [m|] eqn:Em; [|discriminate]. cbn in Hm. injection Hm as <-.
      exists m. auto 10.
    - exists m'. auto 10. }
  assert (OldC : forall x m, t_map t x = Some m -> x <> id ->
     exists m', t_map t' x = Some m' /\ n_box m' = n_box m /\ n_level m' = n_level m /\ n_parent m' = n_parent m /\
       n_childs m' = n_childs m /\ n_leaf m' = n_leaf m).
  { intros x m Hm Hx. pose proof (ok_ids _ Inv _ _ Hm). rewrite M. replace (x =? id) with false by lia.
    replace ((t_next t <=? x) && (x <? t_next t + 8)) with false by lia.
    destruct ((x =? n_parent n) && negb (n_parent n =? u64_max)) eqn:Eb.
    - rewrite Hm. cbn. eexists; split; [reflexivity|]. auto 10.
    - exists m. auto 10. }
  assert (Mid : t_map t' id = Some (Node (n_box n) (n_level n) (n_parent n) (zseq (t_next t) 8) false true (n_linked n) (n_load n))).
  { rewrite M, Z.eqb_refl. reflexivity. }
  assert (New : forall x, t_next t <= x < t_next t + 8 -> exists b,
     nth_error (get_split (n_box n)) (Z.to_nat (x - t_next t)) = Some b /\
     t_map t' x = Some (Node b (w32 (n_level n + 1)) id childs_init true false None u64_max)).
  { intros x Hx. rewrite M. replace (x =? id) with false by lia.
    replace ((t_next t <=? x) && (x <? t_next t + 8)) with true by lia.
    destruct (split_child_some n id (Z.to_nat (x - t_next t))) as (b & B1 & B2); [lia|].
    exists b. split; auto. rewrite B2, Hw. reflexivity. }
  assert (Cases : forall x m', t_map t' x = Some m' -> x = id \/ t_next t <= x < t_next t + 8 \/
                     (x <> id /\ ~ (t_next t <= x < t_next t + 8))) by (intros; lia).
  (* leaves of t' *)
  assert (Leaf' : forall x, is_leaf_of t' x <-> (is_leaf_of t x /\ x <> id) \/ t_next t <= x < t_next t + 8).
  { intros x. split.
    - intros (m' & Hm' & Hlf). destruct (Cases _ _ Hm') as [->|[Hc|(Hc1 & Hc2)]]; auto.
      + rewrite Mid in Hm'; injection Hm' as <-. discriminate.
      + destruct (Old _ _ Hm' Hc1 Hc2) as (m & Hm & _ & _ & _ & _ & El & _). left. split; auto.
        exists m; split; auto. congruence.
    - intros [((m & Hm & Hlf) & Hx)|Hx].
      + destruct (OldC _ _ Hm Hx) as (m' & Hm' & _ & _ & _ & _ & El). exists m'; split; auto. congruence.
      + destruct (New _ Hx) as (b & _ & Hb). eexists; split; [exact Hb|reflexivity]. }
  assert (Ponly' : forall x, only_leaf_children t' x <->
      (only_leaf_children t x /\ (n_parent n = u64_max \/ x <> n_parent n)) \/ x = id).
  { intros x. split.
    - intros (m' & Hm' & Hlf & Hall). destruct (Cases _ _ Hm') as [->|[Hc|(Hc1 & Hc2)]]; auto.
      + destruct (New _ Hc) as (b & _ & Hb). rewrite Hb in Hm'; injection Hm' as <-. discriminate.
      + destruct (Old _ _ Hm' Hc1 Hc2) as (m & Hm & _ & _ & _ & Ec & El & _). left. split.
        * exists m. split; auto. split; [congruence|]. rewrite <- Ec. intros c Hcin.
          specialize (Hall c Hcin). apply Leaf' in Hall. destruct Hall as [(Ha & _)|Hbad]; auto.
          rewrite Ec in Hcin. apply In_nth_error in Hcin. destruct Hcin as (k & Hk).
          destruct (proj2 (ok_children _ Inv _ _ Hm ltac:(congruence)) k c Hk) as (mc & Hmc & _).
          pose proof (ok_ids _ Inv _ _ Hmc). lia.
        * destruct (Z.eq_dec (n_parent n) u64_max) as [|Hp]; auto. right. intros ->.
          destruct (ok_parent _ Inv _ _ Hn Hp) as (_ & pm & Hpm & Hplf & Hpin).
          rewrite Hm in Hpm; injection Hpm as <-. rewrite <- Ec in Hpin.
          specialize (Hall _ Hpin). apply Leaf' in Hall. lia.
    - intros [((m & Hm & Hlf & Hall) & Hp)| ->].
      + assert (Hx : x <> id) by (intros ->; congruence).
        destruct (OldC _ _ Hm Hx) as (m' & Hm' & _ & _ & _ & Ec & El).
        exists m'. split; auto. split; [congruence|]. rewrite Ec. intros c Hc.
        apply Leaf'. left. split; auto. intros ->.
        apply In_nth_error in Hc. destruct Hc as (k & Hk).
        destruct (proj2 (ok_children _ Inv _ _ Hm Hlf) k id Hk) as (mc & Hmc & Hpar & _).
        rewrite Hn in Hmc; injection Hmc as <-.
        destruct Hp as [Hp|Hp]; [ |congruence].
        pose proof (ok_ids _ Inv _ _ Hm). rewrite <- Hpar, Hp in H. unfold u64_max in *; lia.
      + eexists. split; [exact Mid|]. split; [reflexivity|]. cbn [n_childs]. intros c Hc.
        apply zseq_In in Hc. apply Leaf'. right; lia. }
  assert (Fix : ~ only_leaf_children t id) by (intros (m & Hm & Hlf & _); congruence).
  constructor.
  - rewrite N. unfold u64_max in *. lia.
  - intros x m' Hm'. rewrite N. destruct (Cases _ _ Hm') as [->|[Hc|(Hc1 & Hc2)]]; [lia|lia|].
    destruct (Old _ _ Hm' Hc1 Hc2) as (m & Hm & _). pose proof (ok_ids _ Inv _ _ Hm). lia.
  - intros x m' Hm'. destruct (Cases _ _ Hm') as [->|[Hc|(Hc1 & Hc2)]].
    + rewrite Mid in Hm'; injection Hm' as <-. cbn. reflexivity.
    + destruct (New _ Hc) as (b & _ & Hb). rewrite Hb in Hm'; injection Hm' as <-. reflexivity.
    + destruct (Old _ _ Hm' Hc1 Hc2) as (m & Hm & _ & _ & _ & Ec & _). rewrite Ec.
      apply (ok_childs_len _ Inv _ _ Hm).
  - intros x m' Hm' Hlf. destruct (Cases _ _ Hm') as [->|[Hc|(Hc1 & Hc2)]].
    + rewrite Mid in Hm'; injection Hm' as <-. cbn [n_childs n_box n_level]. split; [apply zseq_NoDup|].
      intros k c Hk. assert (Hk8 : (k < 8)%nat).
      { rewrite <- (length_zseq (t_next t) 8). apply nth_error_Some. congruence. }
      rewrite zseq_nth in Hk by auto. injection Hk as <-.
      destruct (New (t_next t + Z.of_nat k)) as (b & Hb1 & Hb2); [lia|].
      replace (Z.to_nat (t_next t + Z.of_nat k - t_next t)) with k in Hb1 by lia.
      eexists. split; [exact Hb2|]. cbn. auto.
    + destruct (New _ Hc) as (b & _ & Hb). rewrite Hb in Hm'; injection Hm' as <-. discriminate.
    + destruct (Old _ _ Hm' Hc1 Hc2) as (m & Hm & Eb & Elv & _ & Ec & El & _).
      destruct (ok_children _ Inv _ _ Hm ltac:(congruence)) as (Nd & Ch).
      rewrite Ec. split; auto. intros k c Hk. destruct (Ch k c Hk) as (mc & Hmc & Hp & Hb & Hlv).
      destruct (Z.eq_dec c id) as [->|Hci].
      * rewrite Hn in Hmc; injection Hmc as <-. eexists. split; [exact Mid|]. cbn.
        rewrite Eb, Elv. auto.
      * destruct (OldC _ _ Hmc Hci) as (mc' & Hmc' & B1 & B2 & B3 & _).
        exists mc'. split; auto. rewrite B1, B2, B3, Eb, Elv. auto.
  - intros x m' Hm' Hp. destruct (Cases _ _ Hm') as [->|[Hc|(Hc1 & Hc2)]].
    + rewrite Mid in Hm'; injection Hm' as <-. cbn [n_parent] in *.
      destruct (ok_parent _ Inv _ _ Hn Hp) as (Lt & pm & Hpm & Hplf & Hpin).
      split; auto. destruct (OldC _ _ Hpm ltac:(lia)) as (pm' & Hpm' & _ & _ & _ & Ec & El).
      exists pm'. split; auto. split; congruence.
    + destruct (New _ Hc) as (b & _ & Hb). rewrite Hb in Hm'; injection Hm' as <-. cbn [n_parent].
      split; [lia|]. eexists. split; [exact Mid|]. cbn. split; auto.
      change (In x (zseq (t_next t) 8)). apply zseq_In. lia.
    + destruct (Old _ _ Hm' Hc1 Hc2) as (m & Hm & _ & _ & Ep & _). rewrite Ep in *.
      destruct (ok_parent _ Inv _ _ Hm Hp) as (Lt & pm & Hpm & Hplf & Hpin). split; auto.
      assert (Hpi : n_parent m <> id) by (intros Ei; rewrite Ei in Hpm; congruence).
      destruct (OldC _ _ Hpm Hpi) as (pm' & Hpm' & _ & _ & _ & Ec & El).
      exists pm'. split; auto. split; congruence.
  - intros x. rewrite R, (ok_roots _ Inv x). split.
    + intros (m & Hm & Hp). destruct (Z.eq_dec x id) as [->|Hx].
      * rewrite Hn in Hm; injection Hm as <-. eexists; split; [exact Mid|]. exact Hp.
      * destruct (OldC _ _ Hm Hx) as (m' & Hm' & _ & _ & Ep & _). exists m'; split; auto; congruence.
    + intros (m' & Hm' & Hp). destruct (Cases _ _ Hm') as [->|[Hc|(Hc1 & Hc2)]].
      * rewrite Mid in Hm'; injection Hm' as <-. exists n; auto.
      * destruct (New _ Hc) as (b & _ & Hb). rewrite Hb in Hm'; injection Hm' as <-. cbn in Hp. unfold u64_max in *; lia.
      * destruct (Old _ _ Hm' Hc1 Hc2) as (m & Hm & _ & _ & Ep & _). exists m; split; auto; congruence.
  - intros x. rewrite L, Leaf', (ok_leaf _ Inv x). tauto.
  - intros x. rewrite P, Ponly', (ok_ponly _ Inv x). tauto.
  - intros x m' Hm'. rewrite P. destruct (Cases _ _ Hm') as [->|[Hc|(Hc1 & Hc2)]].
    + rewrite Mid in Hm'; injection Hm' as <-. cbn. tauto.
    + destruct (New _ Hc) as (b & _ & Hb). rewrite Hb in Hm'; injection Hm' as <-. cbn.
      split; [discriminate|]. intros [(Hx & _)|Hx]; [|lia].
      apply (ok_ponly _ Inv) in Hx. destruct Hx as (mx & Hmx & _). pose proof (ok_ids _ Inv _ _ Hmx). lia.
    + destruct (Old _ _ Hm' Hc1 Hc2) as (m & Hm & _ & _ & _ & _ & _ & _ & Ea). rewrite Ea.
      pose proof (ok_flag _ Inv _ _ Hm) as F.
      destruct (Z.eqb_spec x (n_parent n)), (Z.eqb_spec (n_parent n) u64_max); cbn [andb negb]; intuition (try congruence; try discriminate).
  - split; [|split]; auto. rewrite R. apply (ok_nodup _ Inv).
  - intros x m' Hm' Hlf. destruct (Cases _ _ Hm') as [->|[Hc|(Hc1 & Hc2)]].
    + rewrite Mid in Hm'; injection Hm' as <-. cbn. auto.
    + destruct (New _ Hc) as (b & _ & Hb). rewrite Hb in Hm'; injection Hm' as <-. discriminate.
    + destruct (Old _ _ Hm' Hc1 Hc2) as (m & Hm & Eb & _ & _ & _ & El & _). rewrite Eb.
      apply (ok_splittable _ Inv _ _ Hm). congruence.
  - intros x m' Hm'. destruct (Cases _ _ Hm') as [->|[Hc|(Hc1 & Hc2)]].
    + rewrite Mid in Hm'; injection Hm' as <-. cbn. apply (ok_wf _ Inv _ _ Hn).
    + destruct (New _ Hc) as (b & Hb' & Hb). rewrite Hb in Hm'; injection Hm' as <-. cbn.
      eapply split_wf; [apply Hsp, Hn|]. eapply nth_error_In; eauto.
    + destruct (Old _ _ Hm' Hc1 Hc2) as (m & Hm & Eb & _). rewrite Eb. apply (ok_wf _ Inv _ _ Hm).
  - intros x m' Hm' Hlf. destruct (Cases _ _ Hm') as [->|[Hc|(Hc1 & Hc2)]].
    + rewrite Mid in Hm'; injection Hm' as <-. discriminate.
    + destruct (New _ Hc) as (b & _ & Hb). rewrite Hb in Hm'; injection Hm' as <-. reflexivity.
    + destruct (Old _ _ Hm' Hc1 Hc2) as (m & Hm & _ & _ & _ & Ec & El & _). rewrite Ec. apply (ok_leaf_childs _ Inv _ _ Hm). congruence.
  - intros x m' Hm' Hp. destruct (Cases _ _ Hm') as [->|[Hc|(Hc1 & Hc2)]].
    + rewrite Mid in Hm'; injection Hm' as <-. cbn [n_parent n_level] in *. apply (ok_root_level _ Inv _ _ Hn Hp).
    + destruct (New _ Hc) as (b & _ & Hb). rewrite Hb in Hm'; injection Hm' as <-. cbn in Hp. unfold u64_max in *; lia.
    + destruct (Old _ _ Hm' Hc1 Hc2) as (m & Hm & _ & Elv & Ep & _). rewrite Elv. apply (ok_root_level _ Inv _ _ Hm). congruence.
Qed.

(** * merge_node_dm1 *)
Lemma only_leafs_fold t cs : (forall c, In c cs -> exists m, t_map t c = Some m) -> forall b,
  exists r, rfold (fun c acc => if (acc : bool) then n <- tget t c ;; Ok (n_leaf n) else Ok false) cs b = Ok r /\
    (r = true <-> b = true /\ forall c, In c cs -> is_leaf_of t c).
Proof.
  induction cs as [|c cs IH]; intros Hc b; simpl.
  - exists b. split; auto. intuition.
  - destruct (Hc c (or_introl eq_refl)) as (m & Hm).
    destruct b.
    + unfold tget at 1. rewrite Hm. cbn [rbind].
      destruct (IH (fun c' H => Hc c' (or_intror H)) (n_leaf m)) as (r & E & Hr). exists r; split; auto.
      rewrite Hr. split.
      * intros (A & B). split; auto. intros c' [<-|Hin]; auto. exists m; auto.
      * intros (_ & B). split; auto. destruct (B c (or_introl eq_refl)) as (m2 & Hm2 & Hl2). congruence.
    + cbn [rbind]. destruct (IH (fun c' H => Hc c' (or_intror H)) false) as (r & E & Hr).
      exists r; split; auto. rewrite Hr. intuition discriminate.
Qed.

Lemma merge_node_spec t id n :
  tree_ok t -> In id (t_ponly t) -> t_map t id = Some n ->
  exists t' only, merge_node_dm1 id t = Ok t' /\
    t_roots t' = t_roots t /\ t_next t' = t_next t /\
    (forall x, t_map t' x =
       if x =? id then Some (Node (n_box n) (n_level n) (n_parent n) (repeat u64_max 8) true false (n_linked n) (n_load n))
       else if set_mem x (n_childs n) then None
       else if (x =? n_parent n) && only then option_map (n_set_allleaf true) (t_map t x)
       else t_map t x) /\
    (only = true <-> n_parent n <> u64_max /\
       forall m, t_map t (n_parent n) = Some m -> forall c, In c (n_childs m) -> c = id \/ is_leaf_of t c) /\
    (forall x, In x (t_leaf t') <-> (In x (t_leaf t) /\ ~ In x (n_childs n)) \/ x = id) /\
    (forall x, In x (t_ponly t') <-> (In x (t_ponly t) /\ x <> id) \/ (only = true /\ x = n_parent n)) /\
    NoDup (t_leaf t') /\ NoDup (t_ponly t').
Proof.
  intros Inv Hin Hn.
  destruct (proj1 (ok_ponly _ Inv id) Hin) as (n0 & Hn0 & Hlf & Hall).
  rewrite Hn in Hn0; injection Hn0 as <-.
  assert (Hflag : n_allleaf n = true) by (apply (ok_flag _ Inv _ _ Hn); auto).
  pose proof (ok_childs_len _ Inv _ _ Hn) as Hlen.
  assert (Hself : ~ In id (n_childs n)).
  { intros Hc. destruct (Hall _ Hc) as (m & Hm & Hml). congruence. }
  unfold merge_node_dm1. unfold tget at 1. rewrite Hn. cbn [rbind]. rewrite Hflag. cbn [negb].
  assert (Hf : firstn 8 (n_childs n) = n_childs n) by (rewrite <- Hlen; apply firstn_all).
  rewrite Hf.
  set (t0 := t_with_leaf _ t).
  destruct (fold_remove (n_childs n) t0) as (R1 & R2 & R3 & R4 & R5).
  set (t1 := fold_left (fun t c => remove_node c t) (n_childs n) t0) in *.
  assert (M1 : t_map t1 id = Some n).
  { rewrite R5. destruct (set_mem id (n_childs n)) eqn:E; [apply set_mem_In in E; contradiction|]. exact Hn. }
  unfold tmod at 1, tget at 1. rewrite M1. cbn [rbind].
  unfold tmod at 1, tget at 1. cbn [tput t_with_map t_map t_with_leaf]. rewrite map_set_eq, Z.eqb_refl. cbn [rbind].
  unfold tmod at 1, tget at 1. cbn [tput t_with_map t_map t_with_leaf t_with_ponly]. rewrite map_set_eq, Z.eqb_refl. cbn [rbind].
  unfold tget at 1. cbn [tput t_with_map t_map t_with_leaf t_with_ponly]. rewrite map_set_eq, Z.eqb_refl. cbn [rbind].
  cbn [n_parent n_set_allleaf n_set_leaf n_set_childs].
  match goal with |- exists t' only, (if _ then Ok ?X else _) = _ /\ _ => set (t2 := X) end.
  set (n2 := Node (n_box n) (n_level n) (n_parent n) (repeat u64_max 8) true false (n_linked n) (n_load n)).
  assert (M2 : forall x, t_map t2 x = if x =? id then Some n2 else if set_mem x (n_childs n) then None else t_map t x).
  { intros x. unfold t2. cbn [tput t_with_map t_map t_with_leaf t_with_ponly]. rewrite !map_set_eq.
    destruct (x =? id); [reflexivity|]. rewrite R5. reflexivity. }
  assert (L2 : forall x, In x (t_leaf t2) <-> (In x (t_leaf t) /\ ~ In x (n_childs n)) \/ x = id).
  { intros x. unfold t2. cbn [tput t_with_map t_map t_with_leaf t_with_ponly t_leaf]. rewrite set_insert_In.
    rewrite R2. unfold t0; cbn [t_with_leaf t_leaf]. rewrite fold_erase_In. tauto. }
  assert (P2 : forall x, In x (t_ponly t2) <-> In x (t_ponly t) /\ x <> id).
  { intros x. unfold t2. cbn [tput t_with_map t_map t_with_leaf t_with_ponly t_leaf t_ponly]. rewrite set_erase_In.
    rewrite R3. unfold t0; cbn [t_with_leaf t_ponly]. tauto. }
  destruct (ok_nodup _ Inv) as (Nd1 & Nd2 & Nd3).
  assert (D1 : NoDup (t_leaf t2)).
  { unfold t2. cbn [tput t_with_map t_map t_with_leaf t_with_ponly t_leaf]. apply set_insert_NoDup. rewrite R2.
    unfold t0; cbn [t_with_leaf t_leaf]. now apply fold_erase_NoDup. }
  assert (D2 : NoDup (t_ponly t2)).
  { unfold t2. cbn [tput t_with_map t_map t_with_leaf t_with_ponly t_leaf t_ponly]. apply set_erase_NoDup. rewrite R3.
    exact Nd3. }
  assert (Rr : t_roots t2 = t_roots t) by (unfold t2; cbn [tput t_with_map t_with_leaf t_with_ponly t_roots]; rewrite R1; reflexivity).
  assert (Rn : t_next t2 = t_next t) by (unfold t2; cbn [tput t_with_map t_with_leaf t_with_ponly t_next]; rewrite R4; reflexivity).
  destruct (Z.eqb_spec (n_parent n) u64_max) as [Hp|Hp].
  { exists t2, false. split; [reflexivity|]. split; auto. split; auto. split.
    { intros x. rewrite M2. now rewrite andb_false_r. }
    split; [intuition discriminate|]. split; auto. split; [|auto].
    intros x. rewrite P2. intuition discriminate. }
  destruct (ok_parent _ Inv _ _ Hn Hp) as (Lt & pm & Hpm & Hplf & Hpin).
  assert (Hpc : ~ In (n_parent n) (n_childs n)).
  { intros Hc. destruct (Hall _ Hc) as (m & Hm & Hml). congruence. }
  assert (MP : t_map t2 (n_parent n) = Some pm).
  { rewrite M2. replace (n_parent n =? id) with false by lia.
    destruct (set_mem (n_parent n) (n_childs n)) eqn:E; [apply set_mem_In in E; contradiction|]. exact Hpm. }
  unfold tget at 1. rewrite MP. cbn [rbind].
  assert (Hpf : firstn 8 (n_childs pm) = n_childs pm).
  { rewrite <- (ok_childs_len _ Inv _ _ Hpm). apply firstn_all. }
  rewrite Hpf.
  assert (Hsib : forall c, In c (n_childs pm) -> ~ In c (n_childs n)).
  { intros c Hc1 Hc2. apply In_nth_error in Hc1, Hc2. destruct Hc1 as (k1 & H1), Hc2 as (k2 & H2).
    destruct (proj2 (ok_children _ Inv _ _ Hpm Hplf) _ _ H1) as (m1 & Hm1 & E1 & _).
    destruct (proj2 (ok_children _ Inv _ _ Hn Hlf) _ _ H2) as (m2 & Hm2 & E2 & _).
    rewrite Hm1 in Hm2; injection Hm2 as <-. lia. }
  assert (Hleaf2 : forall c, In c (n_childs pm) -> (is_leaf_of t2 c <-> c = id \/ is_leaf_of t c)).
  { intros c Hc. specialize (Hsib c Hc). unfold is_leaf_of. rewrite M2.
    destruct (set_mem c (n_childs n)) eqn:Em; [apply set_mem_In in Em; contradiction|].
    destruct (Z.eqb_spec c id) as [->|Hci].
    - split; auto. intros _. exists n2; auto.
    - split; [intros H; auto|intros [H|H]; [contradiction|auto]]. }
  destruct (only_leafs_fold t2 (n_childs pm)) with (b := true) as (only & Eo & Ho).
  { intros c Hc. pose proof Hc as Hc'. apply In_nth_error in Hc'. destruct Hc' as (k & Hk).
    destruct (proj2 (ok_children _ Inv _ _ Hpm Hplf) _ _ Hk) as (mc & Hmc & _).
    rewrite M2. destruct (Z.eqb_spec c id); [eauto|].
    destruct (set_mem c (n_childs n)) eqn:Em; [apply set_mem_In in Em; exfalso; eapply Hsib; eauto|]. eauto. }
  rewrite Eo. cbn [rbind].
  assert (Ho' : only = true <-> n_parent n <> u64_max /\
       forall m, t_map t (n_parent n) = Some m -> forall c, In c (n_childs m) -> c = id \/ is_leaf_of t c).
  { rewrite Ho. split.
    - intros (_ & H). split; auto. intros m Hm c Hc. rewrite Hpm in Hm; injection Hm as <-.
      apply Hleaf2; auto.
    - intros (_ & H). split; auto. intros c Hc. apply Hleaf2; auto. eapply H; eauto. }
  destruct only.
  - unfold tmod, tget. rewrite MP. cbn [rbind]. eexists _, true. split; [reflexivity|].
    cbn [tput t_with_map t_map t_with_leaf t_with_ponly t_leaf t_ponly t_roots t_next].
    split; [exact Rr|]. split; [exact Rn|]. split; [|split; [exact Ho'|split; [exact L2|split; [|split; [exact D1|]]]]].
    + intros x. rewrite map_set_eq, M2. rewrite andb_true_r.
      destruct (Z.eqb_spec x (n_parent n)) as [->|Hx]; [|reflexivity].
      replace (n_parent n =? id) with false by lia.
      destruct (set_mem (n_parent n) (n_childs n)) eqn:Em; [apply set_mem_In in Em; contradiction|].
      rewrite Hpm. reflexivity.
    + intros x. rewrite set_insert_In, P2. intuition.
    + now apply set_insert_NoDup.
  - exists t2, false. split; [reflexivity|]. split; auto. split; auto. split.
    { intros x. rewrite M2. now rewrite andb_false_r. }
    split; [exact Ho'|]. split; auto. split; [|auto].
    intros x. rewrite P2. intuition discriminate.
Qed.

Lemma merge_node_ok t id t' :
  tree_ok t -> In id (t_ponly t) -> merge_node_dm1 id t = Ok t' -> tree_ok t'.
Proof.
  intros Inv Hin Hs.
  destruct (proj1 (ok_ponly _ Inv id) Hin) as (n & Hn & Hlf & Hall).
  destruct (merge_node_spec t id n Inv Hin Hn) as (t'' & only & E & R & N & M & HO & L & P & D1 & D2).
  rewrite Hs in E; injection E as <-.
  pose proof (ok_ids _ Inv _ _ Hn) as Hid.
  pose proof (ok_next _ Inv) as Hnext.
  assert (Hself : ~ In id (n_childs n)).
  { intros Hc. destruct (Hall _ Hc) as (m & Hm & Hml). congruence. }
  set (n2 := Node (n_box n) (n_level n) (n_parent n) (repeat u64_max 8) true false (n_linked n) (n_load n)) in *.
  assert (Mid : t_map t' id = Some n2) by (rewrite M, Z.eqb_refl; reflexivity).
  assert (Old : forall x m', t_map t' x = Some m' -> x <> id ->
     ~ In x (n_childs n) /\
     exists m, t_map t x = Some m /\ n_box m' = n_box m /\ n_level m' = n_level m /\ n_parent m' = n_parent m /\
       n_childs m' = n_childs m /\ n_leaf m' = n_leaf m /\ n_linked m' = n_linked m /\
       (n_allleaf m' = if (x =? n_parent n) && only then true else n_allleaf m)).
  { intros x m' Hm Hx. rewrite M in Hm. replace (x =? id) with false in Hm by lia.
    destruct (set_mem x (n_childs n)) eqn:Em; [discriminate|].
    split; [intros Hc; apply set_mem_In in Hc; congruence|].
    destruct ((x =? n_parent n) && only) eqn:Eb.
    - destruct (t_map t x) as [m|] eqn:Emx; [|discriminate]. cbn in Hm. injection Hm as <-.
      exists m. auto 10.
    - exists m'. auto 10. }
  assert (OldC : forall x m, t_map t x = Some m -> x <> id -> ~ In x (n_childs n) ->
     exists m', t_map t' x = Some m' /\ n_box m' = n_box m /\ n_level m' = n_level m /\ n_parent m' = n_parent m /\
       n_childs m' = n_childs m /\ n_leaf m' = n_leaf m).
  { intros x m Hm Hx Hc. rewrite M. replace (x =? id) with false by lia.
    destruct (set_mem x (n_childs n)) eqn:Em; [apply set_mem_In in Em; contradiction|].
    destruct ((x =? n_parent n) && only) eqn:Eb.
    - rewrite Hm. cbn. eexists; split; [reflexivity|]. auto 10.
    - exists m. auto 10. }
  (* a child of n has parent id *)
  assert (ChP : forall c m, In c (n_childs n) -> t_map t c = Some m -> n_parent m = id).
  { intros c m Hc Hm. apply In_nth_error in Hc. destruct Hc as (k & Hk).
    destruct (proj2 (ok_children _ Inv _ _ Hn Hlf) _ _ Hk) as (mc & Hmc & Hp & _). congruence. }
  (* children of another internal node survive *)
  assert (Surv : forall x m c, t_map t x = Some m -> n_leaf m = false -> x <> id -> In c (n_childs m) ->
           ~ In c (n_childs n)).
  { intros x m c Hm Hl Hx Hc Hc2. pose proof Hc as Hc'. apply In_nth_error in Hc'. destruct Hc' as (k & Hk).
    destruct (proj2 (ok_children _ Inv _ _ Hm Hl) _ _ Hk) as (mc & Hmc & Hp & _).
    specialize (ChP _ _ Hc2 Hmc). congruence. }
  assert (Leaf' : forall x, is_leaf_of t' x <-> (is_leaf_of t x /\ ~ In x (n_childs n)) \/ x = id).
  { intros x. split.
    - intros (m' & Hm' & Hl'). destruct (Z.eq_dec x id) as [->|Hx]; auto.
      destruct (Old _ _ Hm' Hx) as (Hc & m & Hm & _ & _ & _ & _ & El & _). left. split; auto.
      exists m; split; auto; congruence.
    - intros [((m & Hm & Hl') & Hc)| ->].
      + assert (Hx : x <> id) by (intros ->; congruence).
        destruct (OldC _ _ Hm Hx Hc) as (m' & Hm' & _ & _ & _ & _ & El). exists m'; split; auto; congruence.
      + exists n2; auto. }
  assert (Ponly' : forall x, only_leaf_children t' x <->
      (only_leaf_children t x /\ x <> id) \/ (only = true /\ x = n_parent n)).
  { intros x. split.
    - intros (m' & Hm' & Hl' & Hall'). assert (Hx : x <> id).
      { intros ->. rewrite Mid in Hm'; injection Hm' as <-. discriminate. }
      destruct (Old _ _ Hm' Hx) as (Hc & m & Hm & _ & _ & _ & Ec & El & _).
      destruct (in_dec Z.eq_dec id (n_childs m)) as [Hi|Hi].
      + right. pose proof Hi as Hi'. apply In_nth_error in Hi'. destruct Hi' as (k & Hk).
        destruct (proj2 (ok_children _ Inv _ _ Hm ltac:(congruence)) _ _ Hk) as (mc & Hmc & Hp & _).
        rewrite Hn in Hmc; injection Hmc as <-. split; auto. apply HO.
        split.
        { intros Hu. pose proof (ok_ids _ Inv _ _ Hm). unfold u64_max in *. lia. }
        intros m0 Hm0 c Hcin. rewrite Hp, Hm in Hm0; injection Hm0 as <-.
        rewrite <- Ec in Hcin. specialize (Hall' _ Hcin). apply Leaf' in Hall'. tauto.
      + left. split; auto. exists m. split; auto. split; [congruence|]. intros c Hcin.
        pose proof Hcin as Hcin'. rewrite <- Ec in Hcin. specialize (Hall' _ Hcin). apply Leaf' in Hall'.
        destruct Hall' as [(A & _)| ->]; [auto|contradiction].
    - intros [((m & Hm & Hl' & Hall') & Hx)|(Ho & ->)].
      + assert (Hcx : ~ In x (n_childs n)).
        { intros Hc. destruct (Hall _ Hc) as (m0 & Hm0 & Hl0). congruence. }
        destruct (OldC _ _ Hm Hx Hcx) as (m' & Hm' & _ & _ & _ & Ec & El).
        exists m'. split; auto. split; [congruence|]. rewrite Ec. intros c Hc. apply Leaf'. left.
        split; auto. eapply Surv; eauto.
      + pose proof (proj1 HO Ho) as (Hpu & Hcs).
        destruct (ok_parent _ Inv _ _ Hn Hpu) as (Lt & pm & Hpm & Hplf & Hpin).
        assert (Hcx : ~ In (n_parent n) (n_childs n)).
        { intros Hc. destruct (Hall _ Hc) as (m0 & Hm0 & Hl0). congruence. }
        destruct (OldC _ _ Hpm ltac:(lia) Hcx) as (m' & Hm' & _ & _ & _ & Ec & El).
        exists m'. split; auto. split; [congruence|]. rewrite Ec. intros c Hc. apply Leaf'.
        destruct (Hcs _ Hpm c Hc) as [->|Hcl]; auto. left. split; auto. eapply Surv; eauto. lia. }
  constructor.
  - now rewrite N.
  - intros x m' Hm'. rewrite N. destruct (Z.eq_dec x id) as [->|Hx]; auto.
    destruct (Old _ _ Hm' Hx) as (_ & m & Hm & _). apply (ok_ids _ Inv _ _ Hm).
  - intros x m' Hm'. destruct (Z.eq_dec x id) as [->|Hx].
    + rewrite Mid in Hm'; injection Hm' as <-. reflexivity.
    + destruct (Old _ _ Hm' Hx) as (_ & m & Hm & _ & _ & _ & Ec & _). rewrite Ec. apply (ok_childs_len _ Inv _ _ Hm).
  - intros x m' Hm' Hl'. assert (Hx : x <> id).
    { intros ->. rewrite Mid in Hm'; injection Hm' as <-. discriminate. }
    destruct (Old _ _ Hm' Hx) as (_ & m & Hm & Eb & Elv & _ & Ec & El & _).
    destruct (ok_children _ Inv _ _ Hm ltac:(congruence)) as (Nd & Ch). rewrite Ec. split; auto.
    intros k c Hk. destruct (Ch k c Hk) as (mc & Hmc & Hp & Hb & Hlv).
    destruct (Z.eq_dec c id) as [->|Hci].
    + rewrite Hn in Hmc; injection Hmc as <-. exists n2. split; auto. rewrite Eb, Elv. auto.
    + destruct (OldC _ _ Hmc Hci) as (mc' & Hmc' & B1 & B2 & B3 & _).
      { apply (Surv x m c Hm); [congruence|exact Hx|]. eapply nth_error_In; eauto. }
      exists mc'. split; auto. rewrite B1, B2, B3, Eb, Elv. auto.
  - intros x m' Hm' Hp. destruct (Z.eq_dec x id) as [->|Hx].
    + rewrite Mid in Hm'; injection Hm' as <-. cbn [n_parent n2] in *.
      destruct (ok_parent _ Inv _ _ Hn Hp) as (Lt & pm & Hpm & Hplf & Hpin). split; auto.
      assert (Hcx : ~ In (n_parent n) (n_childs n)).
      { intros Hc. destruct (Hall _ Hc) as (m0 & Hm0 & Hl0). congruence. }
      destruct (OldC _ _ Hpm ltac:(lia) Hcx) as (pm' & Hpm' & _ & _ & _ & Ec & El).
      exists pm'. split; auto. split; congruence.
    + destruct (Old _ _ Hm' Hx) as (Hcn & m & Hm & _ & _ & Ep & _). rewrite Ep in *.
      destruct (ok_parent _ Inv _ _ Hm Hp) as (Lt & pm & Hpm & Hplf & Hpin). split; auto.
      assert (Hpi : n_parent m <> id).
      { intros Ei. rewrite Ei in Hpm. rewrite Hn in Hpm; injection Hpm as <-. contradiction. }
      assert (Hcx : ~ In (n_parent m) (n_childs n)).
      { intros Hc. destruct (Hall _ Hc) as (m0 & Hm0 & Hl0). congruence. }
      destruct (OldC _ _ Hpm Hpi Hcx) as (pm' & Hpm' & _ & _ & _ & Ec & El).
      exists pm'. split; auto. split; congruence.
  - intros x. rewrite R, (ok_roots _ Inv x). split.
    + intros (m & Hm & Hp). destruct (Z.eq_dec x id) as [->|Hx].
      * rewrite Hn in Hm; injection Hm as <-. exists n2; auto.
      * assert (Hcx : ~ In x (n_childs n)).
        { intros Hc. specialize (ChP _ _ Hc Hm). unfold u64_max in *; lia. }
        destruct (OldC _ _ Hm Hx Hcx) as (m' & Hm' & _ & _ & Ep & _). exists m'; split; auto; congruence.
    + intros (m' & Hm' & Hp). destruct (Z.eq_dec x id) as [->|Hx].
      * rewrite Mid in Hm'; injection Hm' as <-. exists n; auto.
      * destruct (Old _ _ Hm' Hx) as (_ & m & Hm & _ & _ & Ep & _). exists m; split; auto; congruence.
  - intros x. rewrite L, Leaf', (ok_leaf _ Inv x). tauto.
  - intros x. rewrite P, Ponly', (ok_ponly _ Inv x). tauto.
  - intros x m' Hm'. rewrite P. destruct (Z.eq_dec x id) as [->|Hx].
    + rewrite Mid in Hm'; injection Hm' as <-. cbn. split; [discriminate|].
      intros [(_ & Hc)|(Ho & He)]; [congruence|].
      destruct (proj1 HO Ho) as (Hpu & _). destruct (ok_parent _ Inv _ _ Hn Hpu) as (Lt & _). lia.
    + destruct (Old _ _ Hm' Hx) as (_ & m & Hm & _ & _ & _ & _ & _ & _ & Ea). rewrite Ea.
      pose proof (ok_flag _ Inv _ _ Hm) as F.
      destruct (Z.eqb_spec x (n_parent n)), only; cbn [andb]; intuition (try congruence; try discriminate).
  - split; [|split]; auto. rewrite R. apply (ok_nodup _ Inv).
  - intros x m' Hm' Hl'. destruct (Z.eq_dec x id) as [->|Hx].
    + rewrite Mid in Hm'; injection Hm' as <-. discriminate.
    + destruct (Old _ _ Hm' Hx) as (_ & m & Hm & Eb & _ & _ & _ & El & _). rewrite Eb.
      apply (ok_splittable _ Inv _ _ Hm). congruence.
  - intros x m' Hm'. destruct (Z.eq_dec x id) as [->|Hx].
    + rewrite Mid in Hm'; injection Hm' as <-. cbn. apply (ok_wf _ Inv _ _ Hn).
    + destruct (Old _ _ Hm' Hx) as (_ & m & Hm & Eb & _). rewrite Eb. apply (ok_wf _ Inv _ _ Hm).
  - intros x m' Hm' Hl'. destruct (Z.eq_dec x id) as [->|Hx].
    + rewrite Mid in Hm'; injection Hm' as <-. reflexivity.
    + destruct (Old _ _ Hm' Hx) as (_ & m & Hm & _ & _ & _ & Ec & El & _). rewrite Ec. apply (ok_leaf_childs _ Inv _ _ Hm). congruence.
  - intros x m' Hm' Hp. destruct (Z.eq_dec x id) as [->|Hx].
    + rewrite Mid in Hm'; injection Hm' as <-. cbn [n_parent n_level] in *. apply (ok_root_level _ Inv _ _ Hn Hp).
    + destruct (Old _ _ Hm' Hx) as (_ & m & Hm & _ & Elv & Ep & _). rewrite Elv. apply (ok_root_level _ Inv _ _ Hm). congruence.
Qed.

(** merge_node_dm1 rejects every other existing node. *)
Lemma merge_node_rejects t id n : tree_ok t -> t_map t id = Some n -> ~ In id (t_ponly t) ->
  merge_node_dm1 id t = Throw.
Proof.
  intros Inv Hn Hin. unfold merge_node_dm1, tget. rewrite Hn. cbn [rbind].
  destruct (n_allleaf n) eqn:E; auto. apply (ok_flag _ Inv _ _ Hn) in E. contradiction.
Qed.

(** * roots *)
Lemma insert_root_spec t pid b : tree_ok t -> t_next t + 1 <= u64_max ->
  let t' := insert_root_node pid b t in
  t_next t' = t_next t + 1 /\
  (forall x, t_map t' x = if x =? t_next t then Some (Node b 0 u64_max childs_init true false (Some (w32 pid)) u64_max) else t_map t x) /\
  (forall x, In x (t_leaf t') <-> In x (t_leaf t) \/ x = t_next t) /\
  (forall x, In x (t_roots t') <-> In x (t_roots t) \/ x = t_next t) /\
  t_ponly t' = t_ponly t /\ NoDup (t_leaf t') /\ NoDup (t_roots t').
Proof.
  intros Inv Hn. pose proof (ok_next _ Inv) as Hnx. unfold insert_root_node, insert_node.
  assert (W : w64 (t_next t + 1) = t_next t + 1) by (apply w64_small; unfold u64_max in *; lia).
  rewrite W. replace (t_next t + 1 - 1) with (t_next t) by lia.
  assert (W2 : w64 (t_next t) = t_next t) by (apply w64_small; unfold u64_max in *; lia).
  rewrite W2. cbn [t_with_roots t_with_leaf t_next t_map t_leaf t_roots t_ponly].
  destruct (ok_nodup _ Inv) as (N1 & N2 & N3).
  split; [reflexivity|]. split; [reflexivity|].
  split; [intros x; apply set_insert_In|]. split; [intros x; apply set_insert_In|].
  split; [reflexivity|]. split; now apply set_insert_NoDup.
Qed.

Lemma insert_root_ok t pid b : tree_ok t -> t_next t + 1 <= u64_max -> wf_box b -> tree_ok (insert_root_node pid b t).
Proof.
  intros Inv Hn Hwf. pose proof (ok_next _ Inv) as Hnx.
  destruct (insert_root_spec t pid b Inv Hn) as (N & M & L & R & P & D1 & D2).
  set (t' := insert_root_node pid b t) in *.
  set (nd := Node b 0 u64_max childs_init true false (Some (w32 pid)) u64_max) in *.
  assert (Fresh : t_map t (t_next t) = None).
  { destruct (t_map t (t_next t)) eqn:E; auto. apply (ok_ids _ Inv) in E. lia. }
  assert (Old : forall x m, t_map t x = Some m -> t_map t' x = Some m).
  { intros x m Hm. rewrite M. destruct (Z.eqb_spec x (t_next t)) as [->|]; auto. congruence. }
  assert (Leaf' : forall x, is_leaf_of t' x <-> is_leaf_of t x \/ x = t_next t).
  { intros x. unfold is_leaf_of. rewrite M. destruct (Z.eqb_spec x (t_next t)) as [->|].
    - split; auto. intros _. exists nd; auto.
    - intuition. }
  assert (Ponly' : forall x, only_leaf_children t' x <-> only_leaf_children t x).
  { intros x. unfold only_leaf_children. rewrite M. destruct (Z.eqb_spec x (t_next t)) as [->|].
    - rewrite Fresh. split; [intros (m & E & Hl & _); injection E as <-; discriminate|intros (m & E & _); discriminate].
    - split; intros (m & Hm & Hl & Hall); exists m; (split; [auto|split; [auto|]]); intros c Hc.
      + specialize (Hall c Hc). apply Leaf' in Hall. destruct Hall as [|E]; auto. subst c.
        apply In_nth_error in Hc. destruct Hc as (k & Hk).
        destruct (proj2 (ok_children _ Inv _ _ Hm Hl) _ _ Hk) as (mc & Hmc & _). congruence.
      + apply Leaf'. left; auto. }
  constructor.
  - rewrite N. lia.
  - intros x m. rewrite M, N. destruct (Z.eqb_spec x (t_next t)) as [->|]; [lia|].
    intros Hm; pose proof (ok_ids _ Inv _ _ Hm); lia.
  - intros x m. rewrite M. destruct (Z.eqb_spec x (t_next t)) as [->|]; [intros E; injection E as <-; reflexivity|].
    apply (ok_childs_len _ Inv).
  - intros x m. rewrite M. destruct (Z.eqb_spec x (t_next t)) as [->|]; [intros E; injection E as <-; discriminate|].
    intros Hm Hl. destruct (ok_children _ Inv _ _ Hm Hl) as (Nd & Ch). split; auto.
    intros k c Hk. destruct (Ch k c Hk) as (mc & Hmc & Hr). exists mc; split; auto.
  - intros x m. rewrite M. destruct (Z.eqb_spec x (t_next t)) as [->|]; [intros E; injection E as <-; cbn; congruence|].
    intros Hm Hp. destruct (ok_parent _ Inv _ _ Hm Hp) as (Lt & pm & Hpm & Hr). split; auto. exists pm; split; auto.
  - intros x. rewrite R, (ok_roots _ Inv), M. destruct (Z.eqb_spec x (t_next t)) as [->|].
    + split; auto. intros _. exists nd; auto.
    + intuition.
  - intros x. rewrite L, Leaf', (ok_leaf _ Inv). tauto.
  - intros x. rewrite P, Ponly'. apply (ok_ponly _ Inv).
  - intros x m. rewrite M, P. destruct (Z.eqb_spec x (t_next t)) as [->|].
    + intros E; injection E as <-. cbn. split; [discriminate|]. intros Hin. apply (ok_ponly _ Inv) in Hin.
      destruct Hin as (m & Hm & _). congruence.
    + apply (ok_flag _ Inv).
  - split; [|split]; auto. rewrite P. apply (ok_nodup _ Inv).
  - intros x m. rewrite M. destruct (Z.eqb_spec x (t_next t)) as [->|]; [intros E; injection E as <-; discriminate|].
    apply (ok_splittable _ Inv).
  - intros x m. rewrite M. destruct (Z.eqb_spec x (t_next t)) as [->|]; [intros E; injection E as <-; exact Hwf|].
    apply (ok_wf _ Inv).
  - intros x m. rewrite M. destruct (Z.eqb_spec x (t_next t)) as [->|]; [intros E; injection E as <-; reflexivity|].
    apply (ok_leaf_childs _ Inv).
  - intros x m. rewrite M. destruct (Z.eqb_spec x (t_next t)) as [->|]; [intros E; injection E as <-; reflexivity|].
    apply (ok_root_level _ Inv).
Qed.

Lemma empty_ok : tree_ok empty_ptree.
Proof.
  constructor; cbn; try discriminate; try (intros; discriminate).
  - unfold u64_max; lia.
  - intros x; split; [contradiction|intros (n & E & _); discriminate].
  - intros x; split; [contradiction|intros (n & E & _); discriminate].
  - intros x; split; [contradiction|intros (n & E & _); discriminate].
  - split; [|split]; constructor.
Qed.

(** * The partition invariant *)
Lemma root_partition t pid b : tree_ok t -> t_next t + 1 <= u64_max ->
  (forall r n, In r (t_roots t) -> t_map t r = Some n -> disjoint (n_box n) b) ->
  leaves_partition_roots t -> leaves_partition_roots (insert_root_node pid b t).
Proof.
  intros Inv Hn Hd (Cov & Dis). destruct (insert_root_spec t pid b Inv Hn) as (N & M & L & R & P & D1 & D2).
  set (t' := insert_root_node pid b t) in *.
  set (nd := Node b 0 u64_max childs_init true false (Some (w32 pid)) u64_max) in *.
  assert (Fresh : t_map t (t_next t) = None).
  { destruct (t_map t (t_next t)) eqn:E; auto. apply (ok_ids _ Inv) in E. lia. }
  assert (Old : forall x m, t_map t x = Some m -> t_map t' x = Some m).
  { intros x m Hm. rewrite M. destruct (Z.eqb_spec x (t_next t)) as [->|]; auto. congruence. }
  assert (New : t_map t' (t_next t) = Some nd) by (rewrite M, Z.eqb_refl; reflexivity).
  assert (Cases : forall x m, t_map t' x = Some m -> (x = t_next t /\ m = nd) \/ t_map t x = Some m).
  { intros x m. rewrite M. destruct (Z.eqb_spec x (t_next t)); [intros E; injection E as <-; auto|auto]. }
  assert (InL : forall l n, In l (t_leaf t') -> t_map t' l = Some n -> (l = t_next t /\ n = nd) \/ (In l (t_leaf t) /\ t_map t l = Some n)).
  { intros l n Hl Hm. destruct (Cases _ _ Hm) as [|Hm']; auto. right. split; auto.
    apply L in Hl. destruct Hl as [| ->]; auto. congruence. }
  split.
  - intros p. split.
    + intros (r & n & Hr & Hm & Hp). destruct (Cases _ _ Hm) as [(-> & ->)|Hm'].
      * exists (t_next t), nd. split; [apply L; auto|auto].
      * apply R in Hr. destruct Hr as [Hr| ->]; [|congruence].
        destruct (proj1 (Cov p)) as (l & m & A & B & C); [eauto 6|]. exists l, m. split; [apply L; auto|auto].
    + intros (l & n & Hl & Hm & Hp). destruct (InL _ _ Hl Hm) as [(-> & ->)|(Hl' & Hm')].
      * exists (t_next t), nd. split; [apply R; auto|auto].
      * destruct (proj2 (Cov p)) as (r & m & A & B & C); [eauto 6|]. exists r, m. split; [apply R; auto|auto].
  - intros a c na nc Ha Hc Hac Hma Hmc p (P1 & P2).
    assert (Cross : forall l n, In l (t_leaf t) -> t_map t l = Some n -> in_box p (n_box n) -> in_box p b -> False).
    { intros l n Hl Hm Hp Hb. destruct (proj2 (Cov p)) as (r & m & A & B & C); [eauto 6|].
      apply (Hd _ _ A B p). auto. }
    destruct (InL _ _ Ha Hma) as [(-> & ->)|(Ha' & Hma')], (InL _ _ Hc Hmc) as [(-> & ->)|(Hc' & Hmc')].
    + congruence.
    + eapply (Cross c); eauto.
    + eapply (Cross a); eauto.
    + eapply (Dis a c); eauto.
Qed.

Lemma split_partition t id t' :
  tree_ok t -> In id (t_leaf t) -> id < 2 ^ 32 -> t_next t + 8 <= u64_max ->
  (forall n, t_map t id = Some n -> splittable (n_box n)) ->
  split_node id t = Ok t' -> leaves_partition_roots t -> leaves_partition_roots t'.
Proof.
  intros Inv Hl H32 Hnx Hsp Hs (Cov & Dis).
  destruct (proj1 (ok_leaf _ Inv id) Hl) as (n & Hn & Hleaf).
  pose proof (ok_ids _ Inv _ _ Hn) as Hid. pose proof (ok_next _ Inv) as Hnext.
  destruct (split_node_spec t id n Inv Hl Hn) as (t'' & E & R & N & M & L & P & D1 & D2).
  { unfold u64_max in Hnx; lia. }
  rewrite Hs in E; injection E as <-.
  destruct (get_split_partition _ (Hsp _ Hn)) as (SC & SD).
  (* boxes of old nodes do not change *)
  assert (BoxOld : forall x m, t_map t x = Some m -> exists m', t_map t' x = Some m' /\ n_box m' = n_box m).
  { intros x m Hm. pose proof (ok_ids _ Inv _ _ Hm). rewrite M.
    destruct (Z.eqb_spec x id) as [->|]; [eexists; split; [reflexivity|cbn; congruence]|].
    replace ((t_next t <=? x) && (x <? t_next t + 8)) with false by lia.
    destruct (_ && _); [rewrite Hm; cbn; eexists; split; [reflexivity|reflexivity]|eauto]. }
  assert (BoxNew : forall k, (k < 8)%nat -> exists m' b, t_map t' (t_next t + Z.of_nat k) = Some m' /\
            nth_error (get_split (n_box n)) k = Some b /\ n_box m' = b).
  { intros k Hk. rewrite M. replace (t_next t + Z.of_nat k =? id) with false by lia.
    replace ((t_next t <=? t_next t + Z.of_nat k) && (t_next t + Z.of_nat k <? t_next t + 8)) with true by lia.
    replace (Z.to_nat (t_next t + Z.of_nat k - t_next t)) with k by lia.
    destruct (split_child_some n id k Hk) as (b & B1 & B2). rewrite B2. eexists _, b. split; [reflexivity|]. auto. }
  assert (LeafNew : forall x m', In x (t_leaf t') -> t_map t' x = Some m' ->
      (exists m, In x (t_leaf t) /\ x <> id /\ t_map t x = Some m /\ n_box m' = n_box m) \/
      (exists k, (k < 8)%nat /\ x = t_next t + Z.of_nat k /\ nth_error (get_split (n_box n)) k = Some (n_box m'))).
  { intros x m' Hx Hm'. apply L in Hx. destruct Hx as [(Hx & Hxi)|Hx].
    - left. destruct (proj1 (ok_leaf _ Inv x) Hx) as (m & Hm & _). exists m. split; auto. split; auto. split; auto.
      destruct (BoxOld _ _ Hm) as (m2 & Hm2 & Eb). congruence.
    - right. exists (Z.to_nat (x - t_next t)). split; [lia|]. split; [lia|].
      destruct (BoxNew (Z.to_nat (x - t_next t))) as (m2 & b & Hm2 & Hb & Eb); [lia|].
      replace (t_next t + Z.of_nat (Z.to_nat (x - t_next t))) with x in Hm2 by lia. congruence. }
  split.
  - intros p. split.
    + intros (r & m' & Hr & Hm' & Hp). rewrite R in Hr.
      destruct (proj1 (ok_roots _ Inv r) Hr) as (m & Hm & _).
      destruct (BoxOld _ _ Hm) as (m2 & Hm2 & Eb). rewrite Hm' in Hm2; injection Hm2 as <-. rewrite Eb in Hp.
      destruct (proj1 (Cov p)) as (l & ml & A & B & C); [eauto 6|].
      destruct (Z.eq_dec l id) as [->|Hli].
      * rewrite Hn in B; injection B as <-. apply SC in C. destruct C as (c & Hc & Hpc).
        apply In_nth_error in Hc. destruct Hc as (k & Hk).
        assert (Hk8 : (k < 8)%nat) by (rewrite <- (length_get_split (n_box n)); apply nth_error_Some; congruence).
        destruct (BoxNew k Hk8) as (m2 & b & Hm2 & Hb & Ebb). exists (t_next t + Z.of_nat k), m2.
        split; [apply L; lia|]. split; auto. congruence.
      * destruct (BoxOld _ _ B) as (m2 & Hm2 & Eb2). exists l, m2. split; [apply L; auto|]. split; auto. congruence.
    + intros (l & m' & Hl' & Hm' & Hp).
      assert (exists l0 m0, In l0 (t_leaf t) /\ t_map t l0 = Some m0 /\ in_box p (n_box m0)) as (l0 & m0 & A0 & B0 & C0).
      { destruct (LeafNew _ _ Hl' Hm') as [(m & A & _ & B & Eb)|(k & Hk & _ & Hb)].
        - exists l, m. split; auto. split; auto. congruence.
        - exists id, n. split; auto. split; auto. apply SC. exists (n_box m'). split; auto. eapply nth_error_In; eauto. }
      destruct (proj2 (Cov p)) as (r & m & A & B & C); [eauto 6|].
      destruct (BoxOld _ _ B) as (m2 & Hm2 & Eb). exists r, m2. rewrite R. split; auto. split; auto. congruence.
  - intros a c ma mc Ha Hc Hac Hma Hmc p (P1 & P2).
    assert (Sub : forall k b, nth_error (get_split (n_box n)) k = Some b -> in_box p b -> in_box p (n_box n)).
    { intros k b Hk Hb. apply SC. exists b; split; auto. eapply nth_error_In; eauto. }
    destruct (LeafNew _ _ Ha Hma) as [(m1 & A1 & A2 & A3 & A4)|(k1 & A1 & A2 & A3)],
             (LeafNew _ _ Hc Hmc) as [(m2 & B1 & B2 & B3 & B4)|(k2 & B1 & B2 & B3)].
    + rewrite A4 in P1. rewrite B4 in P2. eapply (Dis a c); eauto.
    + rewrite A4 in P1. eapply (Dis a id); eauto.
    + rewrite B4 in P2. apply (Dis c id _ _ B1 Hl B2 B3 Hn p). eauto.
    + eapply (SD k1 k2); eauto. lia.
Qed.

Lemma merge_partition t id t' :
  tree_ok t -> In id (t_ponly t) -> merge_node_dm1 id t = Ok t' ->
  leaves_partition_roots t -> leaves_partition_roots t'.
Proof.
  intros Inv Hin Hs (Cov & Dis).
  destruct (proj1 (ok_ponly _ Inv id) Hin) as (n & Hn & Hlf & Hall).
  destruct (merge_node_spec t id n Inv Hin Hn) as (t'' & only & E & R & N & M & HO & L & P & D1 & D2).
  rewrite Hs in E; injection E as <-.
  pose proof (ok_splittable _ Inv _ _ Hn Hlf) as Hsp.
  destruct (get_split_partition _ Hsp) as (SC & SD).
  destruct (ok_children _ Inv _ _ Hn Hlf) as (Nd & Ch).
  pose proof (ok_childs_len _ Inv _ _ Hn) as Hlen.
  assert (BoxNew : forall x m', t_map t' x = Some m' -> exists m, t_map t x = Some m /\ n_box m' = n_box m).
  { intros x m'. rewrite M. destruct (Z.eqb_spec x id) as [->|].
    - intros E; injection E as <-. exists n; auto.
    - destruct (set_mem x (n_childs n)); [discriminate|]. destruct (_ && _); [|eauto].
      destruct (t_map t x) as [m|] eqn:Em; [|discriminate]. intros E; injection E as <-. exists m; auto. }
  assert (BoxOld : forall x m, t_map t x = Some m -> ~ In x (n_childs n) -> exists m', t_map t' x = Some m' /\ n_box m' = n_box m).
  { intros x m Hm Hx. rewrite M. destruct (Z.eqb_spec x id) as [->|].
    - eexists; split; [reflexivity|cbn; congruence].
    - destruct (set_mem x (n_childs n)) eqn:Em; [apply set_mem_In in Em; contradiction|].
      destruct (_ && _); [rewrite Hm; cbn; eexists; split; [reflexivity|reflexivity]|eauto]. }
  assert (Hself : ~ In id (n_childs n)).
  { intros Hc. destruct (Hall _ Hc) as (m & Hm & Hml). congruence. }
  assert (ChBox : forall c, In c (n_childs n) -> exists m, t_map t c = Some m /\ In c (t_leaf t) /\ forall p, in_box p (n_box m) -> in_box p (n_box n)).
  { intros c Hc. pose proof Hc as Hc'. apply In_nth_error in Hc'. destruct Hc' as (k & Hk).
    destruct (Ch k c Hk) as (m & Hm & _ & Hb & _). exists m. split; auto. split; [apply (ok_leaf _ Inv); auto|].
    intros p Hp. apply SC. exists (n_box m). split; auto. eapply nth_error_In; eauto. }
  assert (InChild : forall p, in_box p (n_box n) -> exists c m, In c (n_childs n) /\ t_map t c = Some m /\ in_box p (n_box m)).
  { intros p Hp. apply SC in Hp. destruct Hp as (b & Hb & Hpb). apply In_nth_error in Hb. destruct Hb as (k & Hk).
    assert (Hk8 : (k < length (n_childs n))%nat).
    { rewrite Hlen, <- (length_get_split (n_box n)). apply nth_error_Some. congruence. }
    destruct (nth_error (n_childs n) k) as [c|] eqn:Ec; [|apply nth_error_None in Ec; lia].
    destruct (Ch k c Ec) as (m & Hm & _ & Hb & _). exists c, m. split; [eapply nth_error_In; eauto|]. split; auto. congruence. }
  split.
  - intros p. split.
    + intros (r & m' & Hr & Hm' & Hp). rewrite R in Hr. destruct (BoxNew _ _ Hm') as (m & Hm & Eb). rewrite Eb in Hp.
      destruct (proj1 (Cov p)) as (l & ml & A & B & C); [eauto 6|].
      destruct (in_dec Z.eq_dec l (n_childs n)) as [Hc|Hc].
      * destruct (ChBox _ Hc) as (ml2 & Hml2 & _ & Hsub). rewrite B in Hml2; injection Hml2 as <-.
        destruct (BoxOld _ _ Hn Hself) as (m2 & Hm2 & Eb2). exists id, m2. split; [apply L; auto|]. split; auto.
        rewrite Eb2. auto.
      * destruct (BoxOld _ _ B Hc) as (m2 & Hm2 & Eb2). exists l, m2. split; [apply L; auto|]. split; auto. congruence.
    + intros (l & m' & Hl' & Hm' & Hp). destruct (BoxNew _ _ Hm') as (m & Hm & Eb). rewrite Eb in Hp.
      assert (exists l0 m0, In l0 (t_leaf t) /\ t_map t l0 = Some m0 /\ in_box p (n_box m0)) as (l0 & m0 & A0 & B0 & C0).
      { apply L in Hl'. destruct Hl' as [(Hl' & _)| ->]; [eauto 6|].
        rewrite Hn in Hm; injection Hm as <-. destruct (InChild _ Hp) as (c & mc & A & B & C).
        exists c, mc. split; auto. apply (ok_leaf _ Inv). auto. }
      destruct (proj2 (Cov p)) as (r & mr & A & B & C); [eauto 6|].
      assert (Hrc : ~ In r (n_childs n)).
      { intros Hc. pose proof Hc as Hc'. apply In_nth_error in Hc'. destruct Hc' as (k & Hk).
        destruct (Ch k r Hk) as (m2 & Hm2 & Hp2 & _).
        destruct (proj1 (ok_roots _ Inv r) A) as (m3 & Hm3 & Hp3). pose proof (ok_ids _ Inv _ _ Hn).
        pose proof (ok_next _ Inv). unfold u64_max in *. rewrite Hm2 in Hm3; injection Hm3 as <-. lia. }
      destruct (BoxOld _ _ B Hrc) as (m2 & Hm2 & Eb2). exists r, m2. rewrite R. split; auto. split; auto. congruence.
  - intros a c ma mc Ha Hc Hac Hma Hmc p (P1 & P2).
    destruct (BoxNew _ _ Hma) as (m1 & Hm1 & E1), (BoxNew _ _ Hmc) as (m2 & Hm2 & E2). rewrite E1 in P1. rewrite E2 in P2.
    assert (Cross : forall x mx, In x (t_leaf t) -> ~ In x (n_childs n) -> t_map t x = Some mx -> in_box p (n_box mx) -> in_box p (n_box n) -> False).
    { intros x mx Hx Hxc Hmx Hpx Hpn. destruct (InChild _ Hpn) as (d & md & A & B & C).
      apply (Dis x d mx md Hx) with (p := p); auto.
      - apply (ok_leaf _ Inv). auto.
      - intros ->. contradiction. }
    apply L in Ha, Hc. destruct Ha as [(Ha & Ha2)| ->], Hc as [(Hc & Hc2)| ->].
    + apply (Dis a c m1 m2 Ha Hc Hac Hm1 Hm2 p). auto.
    + rewrite Hn in Hm2; injection Hm2 as <-. eauto.
    + rewrite Hn in Hm1; injection Hm1 as <-. eauto.
    + congruence.
Qed.

Lemma tree_history_ok ops t : tree_history ops t -> tree_ok t /\ leaves_partition_roots t.
Proof.
  induction 1 as [|ops o t t' Hh (Inv & Part) Ha Hs].
  - split; [apply empty_ok|]. split; cbn; [intros p; split; intros (x & n & F & _); contradiction|contradiction].
  - destruct o as [pid b|id|id]; cbn [tree_allowed tree_step] in *.
    + destruct Ha as (Ha & Hwf & Hd). injection Hs as <-. split; [now apply insert_root_ok|now apply root_partition].
    + destruct Ha as (A & B & C & D). split; [eapply split_node_ok; eauto|eapply split_partition; eauto].
    + split; [eapply merge_node_ok; eauto|eapply merge_partition; eauto].
Qed.

Lemma tree_progress t o : tree_ok t -> tree_allowed o t -> exists t', tree_step o t = Ok t'.
Proof.
  intros Inv Ha. destruct o as [pid b|id|id]; cbn [tree_allowed tree_step] in *.
  - eauto.
  - destruct Ha as (A & B & C & D). destruct (proj1 (ok_leaf _ Inv id) A) as (n & Hn & _).
    destruct (split_node_spec t id n Inv A Hn) as (t' & E & _); [unfold u64_max in C; lia|]. eauto.
  - destruct (proj1 (ok_ponly _ Inv id) Ha) as (n & Hn & _).
    destruct (merge_node_spec t id n Inv Ha Hn) as (t' & only & E & _). eauto.
Qed.
