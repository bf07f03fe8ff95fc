(** The leaf of a particle, and why the walks miss no neighbour. *)
Require Import Reals Lra.
From Verif Require Import Base Par Karras Karras_spec Traverse Traverse_spec Traverse_proofs Reduction Bitonic Scan Scan_spec SortSearch BVH BVH_spec BVH_main BVH_proofs BVH_prop P_Traverse P_BVH Dtt Dtt_spec Dtt_tree Dtt_ref Dtt_segs Dtt_scan Dtt_sep P_Dtt Interleave Sgfmm Sgfmm_passes Sgfmm_util Sgfmm_tree Sgfmm_down Sgfmm_spec P_Sgfmm
  Ncache Ncache_spec Ncache_field Ncache_walk.
From Coq Require Import ZifyBool ZifyNat.
Local Open Scope nat_scope.

Lemma rleb_iff x y : rleb x y = true <-> (x <= y)%R.
Proof. unfold rleb. destruct (Rle_dec x y); split; auto; discriminate. Qed.
Lemma Rleb_iff x y : Rleb x y = true <-> (x <= y)%R.
Proof. exact (rleb_iff x y). Qed.
Lemma rgtb_iff x y : rgtb x y = true <-> (x > y)%R.
Proof. unfold rgtb. destruct (Rgt_dec x y); split; auto; discriminate. Qed.

Definition ordered_siblings (xyz : list (vec R)) (objs : nat -> list nat) (t : tree) : Prop :=
  forall i x y, In (Node i x y) (subtrees t) -> exists a, In a (@coords R) /\
    forall o o', In o (below objs x) -> In o' (below objs y) -> Rleb (a (pos_of xyz o')) (a (pos_of xyz o)) = true -> False.

Lemma nc_setup (b : N) (code : vec R -> N) (xyz : list (vec R)) (B : @bvh R) : built Rleb b code xyz xyz (length xyz) B ->
  exists t objs, represents Rleb (pos_of xyz) (pos_of xyz) (length xyz) B t objs /\
    (Z.of_nat (b_leafs B) <= 2 ^ 24 + 1)%Z /\ height t <= N.to_nat b /\ 0 < length xyz /\
    (forall nb, grid_code Rleb nb code -> ordered_siblings xyz objs t).
Proof.
  intros (w & err & vtop & vbot & level & env & HI & HE & E).
  destruct (rebuild_full Rleb w b code err vtop vbot xyz xyz (length xyz) level env (0, 0, 0)%R HI HE) as (B' & t & objs & order & old & E' & RP & P & S1 & S2 & S3 & S4 & S5 & S6 & S7 & S8 & S9).
  rewrite E in E'. injection E' as <-. exists t, objs. split; [exact RP|]. split; [auto|]. split; [|split].
  - pose proof RP as [R1 R2 R3 R4 R5 R6 R7 R8 R9]. set (off := length (b_cells B)) in *.
    destruct (Nat.eq_dec (b_leafs B) 1) as [L1|L1].
    + assert (off = 0) by lia. rewrite H in R1. simpl in R1. inversion R1; subst. simpl. lia.
    + apply (height_bits w b (b_codes B) order old (b_cells B)); auto; try (rewrite S3; lia); try (rewrite S3; auto).
      { apply (bi_bits _ _ _ _ _ _ _ _ _ _ HI). }
      rewrite (proj2 (Nat.eqb_neq off 0)) in R1 by lia. exact R1.
  - apply (bi_pos _ _ _ _ _ _ _ _ _ _ HI).
  - intros nb G i x y HN. apply (sibling_axis Rleb (fun o => nth o xyz (0, 0, 0)%R) (length xyz) B t objs code nb) with (i := i); auto.
Qed.

Section Own.
  Context (B : @bvh R) (xyz : list (vec R)) (t : tree) (objs : nat -> list nat).
  Hypothesis RP : represents Rleb (pos_of xyz) (pos_of xyz) (length xyz) B t objs.
  Notation off := (length (b_cells B)).
  Notation nid := (node_id (length (b_cells B))).
  Notation n := (length xyz).
  Notation below := (below objs).

  (** a stored box contains exactly the coordinates between those of the particles below *)
  Lemma box_of u : In u (subtrees t) -> exists bx, box_at B (nid u) = Some bx /\ forall c, In c (@coords R) ->
    (forall o, In o (below u) -> c (fst bx) <= c (pos_of xyz o) <= c (snd bx))%R /\
    (exists o, In o (below u) /\ c (fst bx) = c (pos_of xyz o)) /\ (exists o, In o (below u) /\ c (snd bx) = c (pos_of xyz o)).
  Proof.
    intros Hu. destruct (rp_box _ _ _ _ _ _ _ RP u Hu) as (bx & E & TB). exists bx. split; auto. intros c Hc. destruct (TB c Hc) as (T1 & T2 & T3). split; auto.
    intros o Ho. destruct (T1 o Ho) as [X Y]. apply Rleb_iff in X, Y. auto.
  Qed.
  (** the leaf that has particle o *)
  Lemma own_leaf o : o < n -> exists k, In k (leaves t) /\ In o (objs k).
  Proof.
    intros Ho. assert (H : In o (flat_map objs (leaves t))) by (apply (Permutation_in _ (Permutation_sym (rp_partition _ _ _ _ _ _ _ RP))), in_seq; lia).
    apply in_flat_map in H. destruct H as (k & H1 & H2). eauto.
  Qed.
  Lemma nd_below ks : NoDup ks -> incl ks (leaves t) -> NoDup (flat_map objs ks).
  Proof.
    intros ND HI. assert (N0 : NoDup (flat_map objs (leaves t))) by (eapply Permutation_NoDup; [symmetry; apply (rp_partition _ _ _ _ _ _ _ RP)|apply seq_NoDup]).
    assert (NL : forall k, In k (leaves t) -> NoDup (objs k)).
    { clear ND HI. revert N0. induction (leaves t) as [|a l IH]; [intros _ k []|]. cbn [flat_map]. intros N1 k [->|Hk]; [eapply NoDup_app_l; eauto|]. apply IH; auto. eapply NoDup_app_r; eauto. }
    induction ks as [|k ks IH]; [constructor|]. cbn [flat_map]. inversion ND as [|? ? NI ND']; subst.
    assert (IK : incl ks (leaves t)) by (intros x Hx; apply HI; now right). specialize (IH ND' IK).
    assert (G : forall a b : list nat, NoDup a -> NoDup b -> (forall x, In x a -> ~ In x b) -> NoDup (a ++ b)).
    { induction a as [|x a IHa]; intros b Na Nb D; auto. inversion Na; subst. cbn [app]. constructor; [|apply IHa; auto; intros y Hy; apply D; now right].
      intros X. apply in_app_or in X. destruct X as [X|X]; auto. eapply D; [now left|exact X]. }
    apply G; auto; [apply NL, HI; now left|]. intros x Hx Hx'. apply in_flat_map in Hx'. destruct Hx' as (k' & Hk' & Hx').
    apply NI. replace k with k'; auto. apply (obj_unique Rleb (pos_of xyz) (pos_of xyz) n B t objs RP k' k x); auto. apply HI; now left.
  Qed.

  Definition inside (p : vec R) (bx : vec R * vec R) : bool := is_coord_in_range_incl_max p (fst bx) (snd bx).
  Lemma inside_iff p bx : inside p bx = true <-> forall c, In c (@coords R) -> (c (fst bx) <= c p <= c (snd bx))%R.
  Proof.
    destruct p as [[x y] z], bx as [[[lx ly] lz] [[hx hy] hz]]. unfold inside, is_coord_in_range_incl_max. cbn [fst snd]. rewrite !andb_true_iff, !rleb_iff. split.
    - intros H c [<-|[<-|[<-|[]]]]; cbn; tauto.
    - intros H. pose proof (H cx ltac:(simpl; auto)) as H1. pose proof (H cy ltac:(simpl; auto)) as H2. pose proof (H cz ltac:(simpl; auto)) as H3. cbn in *. tauto.
  Qed.
  Hypothesis AX : ordered_siblings xyz objs t.
  Lemma inside_own o k u : In u (subtrees t) -> In o (below u) -> In k (leaves u) ->
    (forall v, In v (subtrees u) -> In k (leaves v) -> node_cond B (fun _ bx => inside (pos_of xyz o) bx) (nid v) = true) -> In o (objs k).
  Proof.
    revert k. induction u as [j|i x IHx y IHy]; intros k Hu Ho Hk HC.
    - destruct Hk as [<-|[]]. now rewrite leaf_below in Ho.
    - assert (Hx : In x (subtrees t)) by (eapply sub_trans; [|exact Hu]; auto with dtt). assert (Hy : In y (subtrees t)) by (eapply sub_trans; [|exact Hu]; auto with dtt).
      assert (Bi : In o (below x) \/ In o (below y)) by (unfold Sgfmm_tree.below in *; cbn [leaves] in Ho; rewrite flat_map_app in Ho; now apply in_app_or in Ho).
      assert (SX : forall v, In v (subtrees x) -> In v (subtrees (Node i x y))) by (intros; right; apply in_or_app; auto).
      assert (SY : forall v, In v (subtrees y) -> In v (subtrees (Node i x y))) by (intros; right; apply in_or_app; auto).
      cbn [leaves] in Hk. apply in_app_or in Hk. destruct (AX i x y Hu) as (c & Hc & SEP).
      destruct Bi as [Bo|Bo], Hk as [Hk|Hk]; [apply IHx; auto| | |apply IHy; auto]; exfalso.
      + destruct (box_of y Hy) as (bx & E & T). pose proof (HC y (SY y (self_sub y)) Hk) as X. unfold node_cond in X. rewrite E in X. rewrite inside_iff in X.
        destruct (T c Hc) as (_ & (o' & O' & E') & _). apply (SEP o o'); auto. rewrite <- E'. apply Rleb_iff. apply X; auto.
      + destruct (box_of x Hx) as (bx & E & T). pose proof (HC x (SX x (self_sub x)) Hk) as X. unfold node_cond in X. rewrite E in X. rewrite inside_iff in X.
        destruct (T c Hc) as (_ & _ & (o' & O' & E')). apply (SEP o' o); auto. rewrite <- E'. apply Rleb_iff. apply X; auto.
  Qed.
  Lemma nd_single (l : list nat) k : NoDup l -> (forall x, In x l <-> x = k) -> l = [k].
  Proof.
    intros ND H. destruct l as [|a l]; [exfalso; apply (H k); auto|]. assert (a = k) by (apply H; now left). subst a. f_equal. destruct l as [|b l]; auto.
    exfalso. assert (b = k) by (apply H; right; now left). subst b. inversion ND; subst. apply H2. now left.
  Qed.
  Lemma own_hits o k : In k (leaves t) -> In o (objs k) -> hits off (node_cond B (fun _ bx => inside (pos_of xyz o) bx)) t = [k].
  Proof.
    intros Hk Ho. assert (ND : NoDup (leaves t)) by (rewrite (rp_leaves _ _ _ _ _ _ _ RP); apply seq_NoDup).
    apply nd_single; [now apply hits_nd|]. intros k'. rewrite hits_iff by auto. split.
    - intros [H1 H2]. apply (obj_unique Rleb (pos_of xyz) (pos_of xyz) n B t objs RP k' k o); auto. apply (inside_own o k' t); auto using self_sub. apply in_flat_map; eauto.
    - intros ->. split; auto. intros u Hu Ku. destruct (box_of u Hu) as (bx & E & T). unfold node_cond. rewrite E. apply inside_iff. intros c Hc. apply (T c Hc). apply in_flat_map. eauto.
  Qed.
End Own.
