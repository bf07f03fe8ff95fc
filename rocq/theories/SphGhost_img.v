(** The offsets cover all the images that can meet a patch and its margin. *)
From Verif Require Import Base Par Patch Patch_spec PatchTree Sched Sched_spec Domain Domain_spec SerialTree SphGhost SphGhost_spec SphGhost_geo.
From Coq Require Import Reals Lra ZifyBool.
From Flocq Require Import Core.
Local Open Scope Z_scope.

Lemma in_pm n z : 0 <= n -> In z (pm n) <-> - n <= z <= n.
Proof.
  intros Hn. unfold pm. rewrite in_map_iff. split.
  - intros (k & <- & Hk). apply in_seq in Hk. lia.
  - intros H. exists (Z.to_nat (z + n)). split; [lia|]. apply in_seq. lia.
Qed.
Lemma pm_NoDup n : NoDup (pm n).
Proof. unfold pm. apply FinFun.Injective_map_NoDup; [intros a b E; lia|apply seq_NoDup]. Qed.
Lemma in_idx_box nx ny nz i : 0 <= nx -> 0 <= ny -> 0 <= nz ->
  In i (idx_box nx ny nz) <-> (- nx <= vx i <= nx /\ - ny <= vy i <= ny /\ - nz <= vz i <= nz).
Proof.
  intros Hx Hy Hz. unfold idx_box. rewrite in_flat_map. split.
  - intros (x & X & H). apply in_flat_map in H. destruct H as (y & Y & H). apply in_map_iff in H. destruct H as (z & <- & Z).
    apply in_pm in X, Y, Z; auto.
  - intros (X & Y & Z). exists (vx i). split; [apply in_pm; auto|]. apply in_flat_map. exists (vy i). split; [apply in_pm; auto|].
    apply in_map_iff. exists (vz i). split; [now destruct i|]. apply in_pm; auto.
Qed.
Lemma NoDup_flat {A B} (h : A -> list B) (key : B -> A) l : NoDup l -> (forall a, In a l -> NoDup (h a)) -> (forall a b, In a l -> In b (h a) -> key b = a) -> NoDup (flat_map h l).
Proof.
  induction l as [|a l IH]; intros ND H1 H2; cbn [flat_map]; [constructor|]. inversion ND as [|? ? NI ND']; subst.
  assert (App : forall l1 l2 : list B, NoDup l1 -> NoDup l2 -> (forall x, In x l1 -> ~ In x l2) -> NoDup (l1 ++ l2)).
  { clear. induction l1 as [|x l1 IH]; intros l2 N1 N2 D; auto. cbn [app]. inversion N1; subst. constructor.
    - rewrite in_app_iff. intros [X|X]; [contradiction|]. apply (D x); [left; auto|auto].
    - apply IH; auto. intros y Hy. apply D. right; auto. }
  apply App.
  - apply H1. left; auto.
  - apply IH; auto; intros; [apply H1|apply H2]; auto; right; auto.
  - intros x Hx Hx'. apply in_flat_map in Hx'. destruct Hx' as (a' & Ha' & Hx'). apply H2 in Hx; [|left; auto]. apply H2 in Hx'; [|right; auto]. congruence.
Qed.
Lemma idx_box_NoDup nx ny nz : NoDup (idx_box nx ny nz).
Proof.
  unfold idx_box. apply NoDup_flat with (key := vx); [apply pm_NoDup| |].
  - intros x _. apply NoDup_flat with (key := vy); [apply pm_NoDup| |].
    + intros y _. apply FinFun.Injective_map_NoDup; [intros a b E; congruence|apply pm_NoDup].
    + intros y i _ H. apply in_map_iff in H. destruct H as (z & <- & _). reflexivity.
  - intros x i _ H. apply in_flat_map in H. destruct H as (y & _ & H). apply in_map_iff in H. destruct H as (z & <- & _). reflexivity.
Qed.

(** One axis: a position of [lo, hi) shifted by [d] reaches a sub-range with a margin [r] <= hi - lo only if
    |d| < 2 (hi - lo). *)
Lemma reach lo hi a b r x d : (lo <= a)%R -> (b <= hi)%R -> (r <= hi - lo)%R -> (lo <= x < hi)%R -> (a - r <= x + d < b + r)%R ->
  (- (2 * (hi - lo)) < d < 2 * (hi - lo))%R.
Proof. lra. Qed.
Lemma mult_bound n L : (0 < L)%R -> (- (2 * L) < IZR n * L < 2 * L)%R -> - 1 <= n <= 1.
Proof.
  intros HL (H1 & H2). assert (A : (- 2 < IZR n)%R) by nra. assert (B : (IZR n < 2)%R) by nra. apply lt_IZR in A, B. lia.
Qed.

(** ** Periodic box *)
Lemma periodic_shift L n : In (periodic_offset L n) (map (periodic_offset L) (idx_box 1 1 1)) <-> (- 1 <= vx n <= 1 /\ - 1 <= vy n <= 1 /\ - 1 <= vz n <= 1).
Proof.
  rewrite in_map_iff. split.
  - intros (i & E & Hi). assert (i = n) by (unfold periodic_offset in E; congruence). subst i. apply in_idx_box in Hi; lia.
  - intros H. exists n. split; auto. apply in_idx_box; lia.
Qed.
Lemma periodic_reach box PB r x n : rbox_ok box ->
  (wx (fst box) <= wx (fst PB) /\ wy (fst box) <= wy (fst PB) /\ wz (fst box) <= wz (fst PB))%R ->
  (wx (snd PB) <= wx (snd box) /\ wy (snd PB) <= wy (snd box) /\ wz (snd PB) <= wz (snd box))%R ->
  (r <= wx (bsize box) /\ r <= wy (bsize box) /\ r <= wz (bsize box))%R -> in_range box x ->
  in_range (margin PB r) (vadd x (o_shift (periodic_offset (bsize box) n))) -> In (periodic_offset (bsize box) n) (map (periodic_offset (bsize box)) (idx_box 1 1 1)).
Proof.
  intros (B1 & B2 & B3) (L1 & L2 & L3) (U1 & U2 & U3) (R1 & R2 & R3) (X1 & X2 & X3) (M1 & M2 & M3). apply periodic_shift.
  unfold bsize, vsub, margin, vadd, periodic_offset in *. cbn [fst snd wx wy wz o_shift] in *.
  split; [|split].
  - apply (mult_bound _ _ (Rlt_Rminus _ _ B1)). eapply reach; eauto.
  - apply (mult_bound _ _ (Rlt_Rminus _ _ B2)). eapply reach; eauto.
  - apply (mult_bound _ _ (Rlt_Rminus _ _ B3)). eapply reach; eauto.
Qed.

(** ** Shearing box *)
Lemma rflat_F2 {A B} (f : A -> res (list B)) : forall l r, (forall a x, f a = Ok x -> exists b, x = [b]) -> rflat f l = Ok r -> Forall2 (fun a b => f a = Ok [b]) l r.
Proof.
  induction l as [|a l IH]; intros r Hs H; cbn [rflat] in H; [injection H as <-; constructor|].
  destruct (f a) as [x| |] eqn:E; try discriminate. cbn [rbind] in H. destruct (rflat f l) as [xs| |]; try discriminate. cbn [rbind] in H. injection H as <-.
  destruct (Hs a x E) as (b & ->). constructor; auto.
Qed.
Lemma rflat_Ok {A B} (f : A -> res (list B)) l : (forall a, In a l -> exists x, f a = Ok x) -> exists r, rflat f l = Ok r.
Proof.
  induction l as [|a l IH]; intros H; cbn [rflat]; [eauto|]. destruct (H a (or_introl eq_refl)) as (x & ->). destruct IH as (r & ->); [intros; apply H; right; auto|].
  cbn [rbind]. eauto.
Qed.
Definition along (L : vec3 R) (dir : v3) : R := (wx L * IZR (vx dir) + wy L * IZR (vy dir) + wz L * IZR (vz dir))%R.
Definition shifted (base dir : v3) (value : R) (L : vec3 R) (i : v3) : v3 :=
  let k := Ztrunc (IZR (idot i base) * value / along L dir) in
  V3 (vx i + vx dir * - k) (vy i + vy dir * - k) (vz i + vz dir * - k).
Definition reps (dir : v3) : list v3 := idx_box (1 + Z.abs (vx dir)) (1 + Z.abs (vy dir)) (1 + Z.abs (vz dir)).
Lemma shear_list base dir value speed L offs : for_each_patch_shift base dir value speed L = Ok offs ->
  offs = map (fun i => compute_shift_infos (shifted base dir value L i) base dir value speed L) (reps dir).
Proof.
  intros H. unfold for_each_patch_shift in H. apply rflat_F2 in H.
  - fold (reps dir) in H. induction H as [|i o is os Hio F IH]; [reflexivity|]. cbn [map]. rewrite <- IH. f_equal.
    destruct (Req_bool _ _); [discriminate|]. unfold to_int in Hio. destruct (_ && _); [|discriminate]. cbn [rbind] in Hio. injection Hio as <-. reflexivity.
  - intros i x E. destruct (Req_bool _ _); [discriminate|]. destruct (to_int _); cbn [rbind] in E; try discriminate. injection E as <-. eauto.
Qed.
Lemma shear_Ok base dir value speed L : along L dir <> 0%R ->
  (forall i, In i (reps dir) -> (Rabs (IZR (idot i base) * value / along L dir) < IZR (2 ^ 31))%R) ->
  exists offs, for_each_patch_shift base dir value speed L = Ok offs.
Proof.
  intros Hz Hb. apply rflat_Ok. intros i Hi. specialize (Hb i Hi). fold (along L dir). rewrite Req_bool_false by auto. unfold to_int.
  assert (A : Z.abs (Ztrunc (IZR (idot i base) * value / along L dir)) < 2 ^ 31).
  { rewrite <- Ztrunc_abs. apply lt_IZR. eapply Rle_lt_trans; [|exact Hb]. rewrite Ztrunc_floor by apply Rabs_pos. apply Zfloor_lb. }
  replace ((- 2 ^ 31 <=? _) && (_ <? 2 ^ 31)) with true by (symmetry; apply andb_true_iff; lia). cbn [rbind]. eauto.
Qed.
Lemma trunc_frac q : (-1 < q - IZR (Ztrunc q) < 1)%R.
Proof.
  unfold Ztrunc. destruct (Rlt_bool_spec q 0) as [H|H].
  - pose proof (Zceil_ub q). pose proof (Zceil_lb q). lra.
  - pose proof (Zfloor_lb q). pose proof (Zfloor_ub q). lra.
Qed.
(** Along the shear: n is within 2 of minus the truncated shear. *)
Lemma shear_bound n q L : (0 < L)%R -> (- (2 * L) < q * L + L * IZR n < 2 * L)%R -> - 2 <= n + Ztrunc q <= 2.
Proof.
  intros HL (H1 & H2). pose proof (trunc_frac q) as F. assert (A : (-2 < q + IZR n)%R) by nra. assert (B : (q + IZR n < 2)%R) by nra.
  assert (A' : (-3 < IZR (n + Ztrunc q))%R) by (rewrite plus_IZR; lra). assert (B' : (IZR (n + Ztrunc q) < 3)%R) by (rewrite plus_IZR; lra).
  apply lt_IZR in A', B'. lia.
Qed.
Lemma mult_bound' n L : (0 < L)%R -> (- (2 * L) < 0 * 0 + L * IZR n < 2 * L)%R -> - 1 <= n <= 1.
Proof. intros HL H. apply (mult_bound n L HL). lra. Qed.

Section Shear.
Variables (base dir : v3) (value speed : R) (box : range R) (offs : list offset).
Hypothesis Hax : shear_axis base dir.
Hypothesis HB : rbox_ok box.
Notation L := (bsize box).
Notation sh n := (compute_shift_infos n base dir value speed L).
Hypothesis HO : for_each_patch_shift base dir value speed L = Ok offs.
Lemma shifted_idot i : idot (shifted base dir value L i) base = idot i base.
Proof. unfold shifted. generalize (Ztrunc (IZR (idot i base) * value / along L dir)). intros k. destruct Hax; unfold idot; cbn [vx vy vz]; ring. Qed.
Lemma shifted_inj i j : shifted base dir value L i = shifted base dir value L j -> i = j.
Proof.
  intros E. assert (D : idot i base = idot j base) by (rewrite <- (shifted_idot i), <- (shifted_idot j), E; reflexivity).
  unfold shifted in E. rewrite D in E. revert E. generalize (Ztrunc (IZR (idot j base) * value / along L dir)). intros k E. injection E as E1 E2 E3.
  destruct i as [a1 a2 a3], j as [b1 b2 b3]. cbn [vx vy vz] in *. f_equal; lia.
Qed.
Lemma shear_idx_NoDup : NoDup (map o_idx offs).
Proof.
  rewrite (shear_list _ _ _ _ _ _ HO), map_map. unfold compute_shift_infos. cbn [o_idx]. apply FinFun.Injective_map_NoDup; [intros i j; apply shifted_inj|apply idx_box_NoDup].
Qed.
Lemma shear_reach PB r x n :
  (wx (fst box) <= wx (fst PB) /\ wy (fst box) <= wy (fst PB) /\ wz (fst box) <= wz (fst PB))%R ->
  (wx (snd PB) <= wx (snd box) /\ wy (snd PB) <= wy (snd box) /\ wz (snd PB) <= wz (snd box))%R ->
  (r <= wx L /\ r <= wy L /\ r <= wz L)%R -> in_range box x ->
  in_range (margin PB r) (vadd x (o_shift (sh n))) -> In (sh n) offs.
Proof.
  intros (L1 & L2 & L3) (U1 & U2 & U3) (R1 & R2 & R3) (X1 & X2 & X3) (M1 & M2 & M3).
  rewrite (shear_list _ _ _ _ _ _ HO). apply in_map_iff.
  set (k := Ztrunc (IZR (idot n base) * value / along L dir)).
  exists (V3 (vx n + vx dir * k) (vy n + vy dir * k) (vz n + vz dir * k)).
  assert (D : idot (V3 (vx n + vx dir * k) (vy n + vy dir * k) (vz n + vz dir * k)) base = idot n base).
  { destruct Hax; unfold idot; cbn [vx vy vz]; ring. }
  split.
  - f_equal. unfold shifted. rewrite D. fold k. destruct n as [n1 n2 n3]. cbn [vx vy vz]. f_equal; ring.
  - unfold reps. apply in_idx_box; try lia. cbn [vx vy vz].
    destruct HB as (B1 & B2 & B3).
    pose proof (reach _ _ _ _ _ _ _ L1 U1 R1 X1 M1) as Q1. pose proof (reach _ _ _ _ _ _ _ L2 U2 R2 X2 M2) as Q2. pose proof (reach _ _ _ _ _ _ _ L3 U3 R3 X3 M3) as Q3.
    clear L1 L2 L3 U1 U2 U3 R1 R2 R3 X1 X2 X3 M1 M2 M3 PB x. revert Q1 Q2 Q3. subst k. clear D HO. revert B1 B2 B3.
    unfold bsize, compute_shift_infos, along, vsub. cbn [o_shift wx wy wz].
    destruct Hax; cbn [vx vy vz Z.abs]; rewrite ?Z.mul_0_r, ?Z.mul_1_r, ?Rmult_0_r, ?Rmult_1_r, ?Rplus_0_l, ?Rplus_0_r; intros B1 B2 B3 Q1 Q2 Q3.
    all: repeat match goal with
      | H : (- (2 * (?a - ?b)) < (?a - ?b) * IZR ?m < _)%R |- _ => assert (- 1 <= m <= 1) by (apply (mult_bound m (a - b)); [lra|lra]); clear H
      | H : (- (2 * (?a - ?b)) < 0 * _ + (?a - ?b) * IZR ?m < _)%R |- _ => assert (- 1 <= m <= 1) by (apply (mult_bound m (a - b)); [lra|lra]); clear H
      | H : (- (2 * (?a - ?b)) < ?e + (?a - ?b) * IZR ?m < _)%R |- _ =>
          assert (- 2 <= m + Ztrunc (e / (a - b)) <= 2) by (apply (shear_bound m (e / (a - b)) (a - b)); [lra|];
            replace (e / (a - b) * (a - b))%R with e by (field; lra); lra); clear H
      end; lia.
Qed.
End Shear.
