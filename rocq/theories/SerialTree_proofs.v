(** Structure of the serial patch tree. *)
From Verif Require Import Base Par Patch Patch_spec Patch_proofs PatchTree PatchTree_spec Domain SerialTree.
From Coq Require Import ZifyBool ZifyNat.
Local Open Scope Z_scope.

(** * Descendants *)
Inductive desc (t : ptree) : Z -> Z -> Prop :=
| desc_refl x : desc t x x
| desc_step x y c n : desc t x y -> t_map t y = Some n -> n_leaf n = false -> In c (n_childs n) -> desc t x c.

Lemma NoDup_app_i2 {A} (l r : list A) : NoDup l -> NoDup r -> (forall x, In x l -> In x r -> False) -> NoDup (l ++ r).
Proof.
  induction l as [|a l IH]; intros N1 N2 H; simpl; auto. inversion N1; subst. constructor.
  - rewrite in_app_iff. intros [F|F]; [contradiction|]. apply (H a); auto. left; auto.
  - apply IH; auto. intros x Hx. apply H. right; auto.
Qed.

Section T.
Variable t : ptree.
Hypothesis I : tree_ok t.

Lemma child_facts y n c : t_map t y = Some n -> n_leaf n = false -> In c (n_childs n) ->
  exists m, t_map t c = Some m /\ n_parent m = y /\ y < c.
Proof.
  intros Hn Hl Hc. apply In_nth_error in Hc. destruct Hc as (k & Hk).
  destruct (ok_children _ I y n Hn Hl) as (_ & Ch). destruct (Ch k c Hk) as (m & Hm & Hp & _).
  exists m. split; auto. split; auto. pose proof (ok_ids _ I _ _ Hn). pose proof (ok_next _ I).
  destruct (ok_parent _ I c m Hm) as (H1 & _); [rewrite Hp; lia|]. now rewrite Hp in H1.
Qed.
Lemma desc_le x y : desc t x y -> x <= y.
Proof. induction 1 as [|x y c n D IH Hn Hl Hc]; [lia|]. destruct (child_facts _ _ _ Hn Hl Hc) as (? & _ & _ & ?). lia. Qed.
Lemma desc_mapped x y n : desc t x y -> t_map t x = Some n -> exists m, t_map t y = Some m.
Proof.
  intros D. revert n. induction D as [|x y c n D IH Hn Hl Hc]; intros k Hk; eauto.
  destruct (child_facts _ _ _ Hn Hl Hc) as (m & Hm & _). eauto.
Qed.
Lemma desc_trans x y z : desc t x y -> desc t y z -> desc t x z.
Proof. intros D1 D2. induction D2 as [|a y c n D2 IH Hn Hl Hc]; auto. exact (desc_step t x y c n (IH D1) Hn Hl Hc). Qed.
Lemma desc_linear x1 x2 y : desc t x1 y -> desc t x2 y -> desc t x1 x2 \/ desc t x2 x1.
Proof.
  intros D1. revert x2. induction D1 as [x|x y c n D IH Hn Hl Hc]; intros x2 D2; auto.
  inversion D2 as [|? y' ? n' D' Hn' Hl' Hc']; subst.
  - left. exact (desc_step t x y _ n D Hn Hl Hc).
  - destruct (child_facts _ _ _ Hn Hl Hc) as (m & Hm & P1 & _). destruct (child_facts _ _ _ Hn' Hl' Hc') as (m' & Hm' & P2 & _).
    assert (E : y = y') by congruence. apply IH. rewrite E. exact D'.
Qed.
Lemma siblings_disjoint x n a b y : t_map t x = Some n -> n_leaf n = false -> In a (n_childs n) -> In b (n_childs n) ->
  desc t a y -> desc t b y -> a = b.
Proof.
  intros Hn Hl.
  assert (W : forall a b, In a (n_childs n) -> In b (n_childs n) -> desc t a b -> a = b).
  { clear a b. intros a b Ha Hb D. inversion D as [|? y' ? n' D' Hn' Hl' Hc']; subst; auto. exfalso.
    destruct (child_facts _ _ _ Hn Hl Ha) as (ma & _ & _ & La). destruct (child_facts _ _ _ Hn Hl Hb) as (mb & Hmb & Pb & Lb).
    destruct (child_facts _ _ _ Hn' Hl' Hc') as (mb' & Hmb' & Pb' & _). assert (y' = x) by congruence. subst y'.
    apply desc_le in D'. lia. }
  intros Ha Hb Da Db. destruct (desc_linear _ _ _ Da Db) as [D|D]; [auto|symmetry; auto].
Qed.
Lemma roots_disjoint a b y : In a (t_roots t) -> In b (t_roots t) -> desc t a y -> desc t b y -> a = b.
Proof.
  assert (W : forall a b, In b (t_roots t) -> desc t a b -> a = b).
  { clear a b. intros a b Hb D. inversion D as [|? y' ? n' D' Hn' Hl' Hc']; subst; auto. exfalso.
    apply (ok_roots _ I) in Hb. destruct Hb as (m & Hm & Pm).
    destruct (child_facts _ _ _ Hn' Hl' Hc') as (m' & Hm' & Pm' & _).
    pose proof (ok_ids _ I _ _ Hn'). pose proof (ok_next _ I). assert (m' = m) by congruence. subst m'. lia. }
  intros Ha Hb Da Db. destruct (desc_linear _ _ _ Da Db) as [D|D]; [auto|symmetry; auto].
Qed.

(** * Boxes shrink *)
Definition side (b : pcoord) : Z := vx (cmax b) - vx (cmin b).
Lemma split_side b c : splittable b -> In c (get_split b) -> 2 * side c <= side b.
Proof.
  destruct b as [[x0 y0 z0] [x1 y1 z1]]. unfold splittable; cbn [cmin cmax vx vy vz].
  intros (HX & HY & HZ). unfold get_split, get_split_coord; cbn [cmin cmax vx vy vz].
  destruct (split_axis_ok _ _ HX) as (X0 & X1 & X2).
  intros Hc. cbn [In] in Hc. rewrite X2 in Hc. pose proof (Z.div_mod (x1 - x0 + 1) 2 ltac:(lia)).
  pose proof (Z.mod_pos_bound (x1 - x0 + 1) 2 ltac:(lia)).
  repeat destruct Hc as [<-|Hc]; try contradiction; unfold side; cbn [cmin cmax vx vy vz]; clear - X0 H H0; lia.
Qed.
Lemma child_side x n c m : t_map t x = Some n -> n_leaf n = false -> In c (n_childs n) -> t_map t c = Some m ->
  2 * side (n_box m) <= side (n_box n) /\ 1 <= side (n_box n) < 2 ^ 64 /\ 0 <= side (n_box m) /\ n_level m = w32 (n_level n + 1).
Proof.
  intros Hn Hl Hc Hm. pose proof (ok_splittable _ I _ _ Hn Hl) as Sp. pose proof (ok_wf _ I _ _ Hm) as Wf.
  apply In_nth_error in Hc. destruct Hc as (k & Hk). destruct (proj2 (ok_children _ I x n Hn Hl) k c Hk) as (m' & Hm' & _ & Hb & Hlev).
  assert (m' = m) by congruence. subst m'. apply nth_error_In in Hb. split; [now apply split_side|].
  unfold splittable, side_ok, wf_box, side in *. split; [lia|]. split; [lia|]. exact Hlev.
Qed.

(** The recursion of get_serial_tree needs at most 65 nested calls. *)
Inductive hle : nat -> Z -> Prop :=
| hle_leaf f x n : t_map t x = Some n -> n_leaf n = true -> hle (S f) x
| hle_node f x n : t_map t x = Some n -> n_leaf n = false -> (forall c, In c (n_childs n) -> hle f c) -> hle (S f) x.
Lemma hle_side f : forall x n, t_map t x = Some n -> side (n_box n) < 2 ^ Z.of_nat f -> hle (S f) x.
Proof.
  induction f as [|f IH]; intros x n Hn Hs; destruct (n_leaf n) eqn:Hl; try (eapply hle_leaf; eauto; fail);
    eapply hle_node; eauto; intros c Hc; destruct (child_facts _ _ _ Hn Hl Hc) as (m & Hm & _);
    destruct (child_side _ _ _ _ Hn Hl Hc Hm) as (A & B & B' & _).
  - cbn in Hs. lia.
  - eapply IH; eauto. rewrite Nat2Z.inj_succ, Z.pow_succ_r in Hs by lia. lia.
Qed.
Lemma hle_mono f x : hle f x -> forall f', (f <= f')%nat -> hle f' x.
Proof.
  induction 1 as [f x n Hn Hl|f x n Hn Hl Hc IH]; intros [|f'] Hf; try lia.
  - eapply hle_leaf; eauto.
  - eapply hle_node; eauto. intros c Hin. apply IH; auto. lia.
Qed.
Lemma hle_all x n f : t_map t x = Some n -> (65 <= f)%nat -> hle f x.
Proof.
  intros Hn Hf. apply (hle_mono 65); auto. apply (hle_side 64 x n); auto.
  pose proof (ok_wf _ I _ _ Hn) as Wf. unfold wf_box, side in *. change (Z.of_nat 64) with 64. lia.
Qed.

(** Levels: at most 64, and they count the ancestors. *)
Definition roots_level0 : Prop := forall x n, t_map t x = Some n -> n_parent n = u64_max -> n_level n = 0.

Lemma level_bound (Hroot : roots_level0) r y n : In r (t_roots t) -> desc t r y -> t_map t y = Some n ->
  0 <= n_level n <= 64 /\ side (n_box n) * 2 ^ n_level n < 2 ^ 64.
Proof.
  intros Hr D. revert n. induction D as [r|r y c k D IH Hk Hl Hc]; intros n Hn.
  - apply (ok_roots _ I) in Hr. destruct Hr as (m & Hm & Hp). assert (m = n) by congruence. subst m.
    rewrite (Hroot _ _ Hn Hp). pose proof (ok_wf _ I _ _ Hn) as Wf. unfold wf_box, side in *. rewrite Z.pow_0_r. lia.
  - destruct (IH Hr k Hk) as (A & B). destruct (child_side _ _ _ _ Hk Hl Hc Hn) as (S1 & S2 & S3 & L).
    assert (H63 : n_level k < 64).
    { destruct (Z.eq_dec (n_level k) 64) as [E|]; [|lia]. rewrite E in B. exfalso.
      assert (1 * 2 ^ 64 <= side (n_box k) * 2 ^ 64) by (apply Z.mul_le_mono_nonneg_r; lia). lia. }
    rewrite L. unfold w32, wrapZ. rewrite Z.mod_small by lia. split; [lia|].
    rewrite Z.pow_add_r by lia. change (2 ^ 1) with 2.
    eapply Z.le_lt_trans; [|exact B]. replace (side (n_box n) * (2 ^ n_level k * 2)) with ((2 * side (n_box n)) * 2 ^ n_level k) by lia.
    apply Z.mul_le_mono_nonneg_r; [lia|exact S1].
Qed.
Lemma child_level (Hroot : roots_level0) r y n c m : In r (t_roots t) -> desc t r y -> t_map t y = Some n -> n_leaf n = false -> In c (n_childs n) ->
  t_map t c = Some m -> n_level m = n_level n + 1.
Proof.
  intros Hr D Hn Hl Hc Hm. destruct (level_bound Hroot _ _ _ Hr D Hn). destruct (child_side _ _ _ _ Hn Hl Hc Hm) as (_ & _ & _ & L).
  rewrite L. unfold w32, wrapZ. apply Z.mod_small. lia.
Qed.

(** Every node is below a root. *)
Lemma below_root x n : t_map t x = Some n -> exists r, In r (t_roots t) /\ desc t r x.
Proof.
  assert (W : forall k x n, (Z.to_nat x < k)%nat -> t_map t x = Some n -> exists r, In r (t_roots t) /\ desc t r x).
  { induction k as [|k IH]; [lia|]. intros y m Hy Hm. destruct (Z.eq_dec (n_parent m) u64_max) as [E|E].
    - exists y. split; [|constructor]. apply (ok_roots _ I). eauto.
    - destruct (ok_parent _ I y m Hm E) as (Lt & p & Hp & Hpl & Hin). pose proof (ok_ids _ I _ _ Hp).
      destruct (IH (n_parent m) p) as (r & Hr & D); auto; [lia|]. exists r. split; auto. exact (desc_step t r _ _ p D Hp Hpl Hin). }
  intros Hn. eapply (W (S (Z.to_nat x))); eauto.
Qed.

(** * Preorder *)
Fixpoint pre (f : nat) (x : Z) : list Z :=
  match f with
  | O => []
  | S f' => match t_map t x with
            | None => []
            | Some n => x :: if n_leaf n then [] else flat_map (pre f') (n_childs n)
            end
  end.
Lemma pre_desc f : forall x y, In y (pre f x) -> desc t x y.
Proof.
  induction f as [|f IH]; intros x y H; [contradiction|]. cbn [pre] in H. destruct (t_map t x) as [n|] eqn:Hn; [|contradiction].
  destruct H as [<-|H]; [constructor|]. destruct (n_leaf n) eqn:Hl; [contradiction|].
  apply in_flat_map in H. destruct H as (c & Hc & Hy). apply IH in Hy. eapply desc_trans; [|exact Hy].
  exact (desc_step t x x c n (desc_refl t x) Hn Hl Hc).
Qed.
Lemma pre_complete f x : hle f x -> forall y, desc t x y -> In y (pre f x).
Proof.
  intros H. assert (W : forall f x, hle f x -> In x (pre f x) /\
     forall y n c, In y (pre f x) -> t_map t y = Some n -> n_leaf n = false -> In c (n_childs n) -> In c (pre f x)).
  { clear f x H. intros f x H. induction H as [f x n Hn Hl|f x n Hn Hl Hc IH]; cbn [pre]; rewrite Hn, Hl; (split; [left; auto|]).
    - intros y m c [<-|[]] Hm Hml Hcin. congruence.
    - intros y m c [<-|Hy] Hm Hml Hcin; right; apply in_flat_map.
      + assert (m = n) by congruence. subst m. exists c. split; auto. apply IH; auto.
      + apply in_flat_map in Hy. destruct Hy as (d & Hd & Hy). exists d. split; auto. eapply (proj2 (IH d Hd)); eauto. }
  intros y D. induction D as [x|x y c n D IHD Hn Hl Hc]; [apply W; auto|]. eapply (proj2 (W f x H)); eauto.
Qed.
Lemma NoDup_flat_map {A B} (g : A -> list B) l : NoDup l -> (forall a, In a l -> NoDup (g a)) ->
  (forall a b y, In a l -> In b l -> In y (g a) -> In y (g b) -> a = b) -> NoDup (flat_map g l).
Proof.
  induction l as [|a l IH]; intros N G D; cbn [flat_map]; [constructor|]. inversion N as [|? ? N1 N2]; subst.
  apply NoDup_app_i2; [apply G; left; auto|apply IH; auto|].
  - intros b Hb. apply G. right; auto.
  - intros b c y Hb Hc. apply D; right; auto.
  - intros y Hy Hy'. apply in_flat_map in Hy'. destruct Hy' as (b & Hb & Hyb).
    assert (a = b) by (eapply D; eauto; [left|right]; auto). subst b. contradiction.
Qed.
Lemma pre_NoDup f : forall x, NoDup (pre f x).
Proof.
  induction f as [|f IH]; intros x; cbn [pre]; [constructor|]. destruct (t_map t x) as [n|] eqn:Hn; [|constructor].
  destruct (n_leaf n) eqn:Hl; [constructor; [tauto|constructor]|]. constructor.
  - intros H. apply in_flat_map in H. destruct H as (c & Hc & Hx). apply pre_desc in Hx. apply desc_le in Hx.
    destruct (child_facts _ _ _ Hn Hl Hc) as (_ & _ & _ & L). lia.
  - apply NoDup_flat_map; auto; [apply (ok_children _ I x n Hn Hl)|].
    intros a b y Ha Hb Hya Hyb. apply pre_desc in Hya, Hyb. eapply siblings_disjoint; eauto.
Qed.
Definition pre_all (f : nat) : list Z := flat_map (pre f) (t_roots t).
Lemma pre_all_NoDup f : NoDup (pre_all f).
Proof.
  apply NoDup_flat_map; [apply (ok_nodup _ I)|intros; apply pre_NoDup|].
  intros a b y Ha Hb Hya Hyb. apply pre_desc in Hya, Hyb. eapply roots_disjoint; eauto.
Qed.
Lemma pre_all_mapped f y : In y (pre_all f) -> exists n r, t_map t y = Some n /\ In r (t_roots t) /\ desc t r y.
Proof.
  intros H. apply in_flat_map in H. destruct H as (r & Hr & Hy). apply pre_desc in Hy.
  destruct (proj1 (ok_roots _ I r) Hr) as (m & Hm & _). destruct (desc_mapped _ _ _ Hy Hm) as (n & Hn). eauto.
Qed.
Lemma pre_all_complete f y n : (65 <= f)%nat -> t_map t y = Some n -> In y (pre_all f).
Proof.
  intros Hf Hn. destruct (below_root y n Hn) as (r & Hr & D). apply in_flat_map. exists r. split; auto.
  destruct (proj1 (ok_roots _ I r) Hr) as (m & Hm & _). apply pre_complete; auto. eapply hle_all; eauto.
Qed.
Lemma pre_all_length f : Z.of_nat (length (pre_all f)) <= t_next t.
Proof.
  pose proof (ok_next _ I).
  assert (L : (length (pre_all f) <= length (map Z.of_nat (seq 0 (Z.to_nat (t_next t)))))%nat).
  { apply NoDup_incl_length; [apply pre_all_NoDup|]. intros y Hy. destruct (pre_all_mapped f y Hy) as (n & _ & Hn & _).
    apply (ok_ids _ I) in Hn. apply in_map_iff. exists (Z.to_nat y). split; [lia|]. apply in_seq. lia. }
  rewrite map_length, seq_length in L. lia.
Qed.
End T.
