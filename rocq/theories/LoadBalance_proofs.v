(** Correctness of the load balancing strategies. *)
From Coq Require Import Reals Psatz.
From Flocq Require Import Core BinarySingleNaN.
From Verif Require Import Base F64 LoadBalance Reduction_lists.
From Coq Require Import ZifyBool ZifyNat.
Local Open Scope Z_scope.

(** * Owner of one tile *)
Section Owner.
Local Open Scope R_scope.
Variables (w L : Z).
Hypothesis Hw : (1 <= w < 2 ^ 31)%Z.
Hypothesis HL : (0 <= L < 2 ^ 64)%Z.
Definition tgt : f64 := f_div (f_of_Z L) (f_of_Z w).
Definition tR : R := RN (RN (IZR L) / IZR w).
Definition quo (a : Z) : R := RN (RN (IZR a) / tR).
Definition owner (a : Z) : Z := if (L =? 0)%Z then 0%Z else Z.min (Zfloor (quo a)) (w - 1).

Lemma IZR_w : 1 <= IZR w <= bpow radix2 31.
Proof. split; [apply (IZR_le 1)|change (bpow radix2 31) with (IZR (2 ^ 31)); apply IZR_le]; lia. Qed.
Lemma w_val : fval (f_of_Z w) = IZR w /\ is_finite (f_of_Z w) = true.
Proof.
  destruct (of_Z_ok w) as [E F]. { change (2 ^ 1000)%Z with (2 ^ 31 * 2 ^ 969)%Z. nia. } split; auto. rewrite E. apply RN_id, format_Z. lia.
Qed.
Lemma a_val a : (0 <= a <= L)%Z -> fval (f_of_Z a) = RN (IZR a) /\ is_finite (f_of_Z a) = true /\ 0 <= RN (IZR a) <= bpow radix2 64.
Proof.
  intros Ha. destruct (of_Z_ok a) as [E F]. { change (2 ^ 1000)%Z with (2 ^ 64 * 2 ^ 936)%Z. nia. } split; auto. split; auto. split.
  - apply RN_pos, (IZR_le 0). lia.
  - eapply Rle_trans; [apply Rle_abs|]. apply RN_bound; [lia|]. rewrite <- abs_IZR. change (bpow radix2 64) with (IZR (2 ^ 64)). apply IZR_le. lia.
Qed.
Lemma tgt_val : fval tgt = tR /\ is_finite tgt = true.
Proof.
  destruct w_val as [Ew Fw]. destruct (a_val L) as (El & Fl & B1 & B2); [lia|]. pose proof IZR_w as [W1 W2].
  unfold tgt. destruct (div_ok (f_of_Z L) (f_of_Z w) 64) as [E F]; auto; rewrite ?Ew, ?El; try lra; try lia.
  - rewrite Rabs_pos_eq.
    + apply Rle_trans with (RN (IZR L) / 1); [|lra]. unfold Rdiv. apply Rmult_le_compat_l; auto. apply Rinv_le; lra.
    + apply Rmult_le_pos; auto. apply Rlt_le, Rinv_0_lt_compat. lra.
  - rewrite E, Ew, El. auto.
Qed.
Lemma tR_zero : (L = 0)%Z -> tR = 0.
Proof. intros E. unfold tR. rewrite E, RN_0. unfold Rdiv. rewrite Rmult_0_l. apply RN_0. Qed.
Lemma RNL_ge1 : (L <> 0)%Z -> 1 <= RN (IZR L).
Proof.
  intros H. rewrite <- (RN_id 1) by (apply (format_Z 1); simpl; lia). apply RN_le. apply (IZR_le 1). lia.
Qed.
(** target within one rounding of L / w *)
Lemma tR_bounds : (L <> 0)%Z -> 0 < tR /\ RN (IZR L) * (1 - bpow radix2 (-53)) <= tR * IZR w <= RN (IZR L) * (1 + bpow radix2 (-53)).
Proof.
  intros H. pose proof (RNL_ge1 H) as H1. pose proof IZR_w as [W1 W2]. set (l := RN (IZR L)) in *. set (W := IZR w) in *.
  assert (Q : bpow radix2 (-31) <= l / W).
  { unfold Rdiv. apply Rle_trans with (1 * / W); [|apply Rmult_le_compat_r; [apply Rlt_le, Rinv_0_lt_compat; lra|lra]].
    rewrite Rmult_1_l. change (-31)%Z with (- (31))%Z. rewrite bpow_opp. apply Rinv_le; lra. }
  assert (P : 0 < l / W) by (pose proof (bpow_gt_0 radix2 (-31)); lra).
  pose proof (RN_rel (l / W)) as R. rewrite (Rabs_pos_eq (l / W)) in R by lra.
  assert (bpow radix2 (-1000) <= l / W). { eapply Rle_trans; [|exact Q]. apply bpow_le. lia. }
  specialize (R H0). change (RN (l / W)) with tR in R. apply Rabs_le_inv in R.
  assert (E : l / W * W = l) by (field; lra). set (q := l / W) in *. set (u := bpow radix2 (-53)) in *.
  assert (U : 0 < u < 1 / 2). { unfold u. split; [apply bpow_gt_0|]. change (-53)%Z with (- (53))%Z. rewrite bpow_opp. simpl. lra. }
  split; [nra|]. rewrite <- E. split; nra.
Qed.
Lemma quo_mono a b : (L <> 0)%Z -> (a <= b)%Z -> quo a <= quo b.
Proof.
  intros H Hab. destruct (tR_bounds H) as [T _]. apply RN_le. unfold Rdiv. apply Rmult_le_compat_r; [apply Rlt_le, Rinv_0_lt_compat; auto|].
  apply RN_le, IZR_le, Hab.
Qed.
Lemma quo_bounds a : (L <> 0)%Z -> (0 <= a <= L)%Z -> 0 <= quo a <= IZR w + / 2.
Proof.
  intros H Ha. destruct (tR_bounds H) as [T [T1 T2]]. pose proof (RNL_ge1 H) as L1. pose proof IZR_w as [W1 W2]. split.
  - apply RN_pos. apply Rmult_le_pos; [apply a_val; lia|apply Rlt_le, Rinv_0_lt_compat; auto].
  - eapply Rle_trans; [apply (quo_mono a L H); lia|]. unfold quo.
    rewrite <- (RN_id (IZR w + / 2)).
    + apply RN_le. apply (Rmult_le_reg_r tR); auto. unfold Rdiv. rewrite Rmult_assoc, Rinv_l, Rmult_1_r by lra.
      set (l := RN (IZR L)) in *. set (W := IZR w) in *. set (u := bpow radix2 (-53)) in *.
      assert (U : u * bpow radix2 31 <= / 8). { unfold u. rewrite <- bpow_plus. simpl. lra. }
      assert (0 < u) by apply bpow_gt_0.
      (* l (1-u) <= t W and t W <= l (1+u);  want l <= t W + t/2 *)
      assert (l * u <= tR / 2); [|nra].
      assert (u <= / 8). { assert (1 <= bpow radix2 31) by (simpl; lra). nra. }
      assert (l <= 2 * (tR * W)) by nra.
      assert (l <= 2 * tR * bpow radix2 31). { eapply Rle_trans; [exact H2|]. assert (tR * W <= tR * bpow radix2 31) by (apply Rmult_le_compat_l; lra). lra. }
      nra.
    + replace (IZR w + / 2) with (IZR (2 * w + 1) * bpow radix2 (-1)) by (rewrite plus_IZR, mult_IZR; simpl; lra). apply format_scaled; lia.
Qed.
Lemma floor_quo a : (L <> 0)%Z -> (0 <= a <= L)%Z -> (0 <= Zfloor (quo a) <= w)%Z.
Proof.
  intros H Ha. destruct (quo_bounds a H Ha) as [Q1 Q2]. split.
  - apply Zfloor_lub. exact Q1.
  - assert (IZR (Zfloor (quo a)) < IZR (w + 1)); [|apply lt_IZR in H0; lia]. rewrite plus_IZR.
    pose proof (Zfloor_lb (quo a)). lra.
Qed.
Lemma tile_owner_ok a : (0 <= a <= L)%Z -> tile_owner tgt w a = Ok (owner a).
Proof.
  intros Ha. unfold tile_owner, owner. destruct tgt_val as [Et Ft]. rewrite (eqb_zero _ Ft), Et.
  destruct (Z.eqb_spec L 0) as [E0|NE].
  - now rewrite (Req_bool_true _ _ (tR_zero E0)).
  - destruct (tR_bounds NE) as [T _]. rewrite Req_bool_false by lra.
    destruct (a_val a Ha) as (Ea & Fa & A1 & A2).
    assert (TL : bpow radix2 (-32) <= tR).
    { destruct (tR_bounds NE) as [_ [T1 _]]. pose proof (RNL_ge1 NE). pose proof IZR_w as [W1 W2].
      assert (bpow radix2 (-53) <= / 2). { change (/2) with (bpow radix2 (-1)). apply bpow_le. lia. }
      assert (/ 2 <= tR * IZR w) by nra.
      assert (/ 2 <= tR * bpow radix2 31). { eapply Rle_trans; [exact H1|]. apply Rmult_le_compat_l; lra. }
      apply (Rmult_le_reg_r (bpow radix2 31)); [apply bpow_gt_0|]. rewrite <- bpow_plus. exact H2. }
    destruct (div_ok (f_of_Z a) tgt 100) as [Ed Fd]; auto; rewrite ?Et, ?Ea; try lra; try lia.
    { rewrite Rabs_pos_eq by (apply Rmult_le_pos; [auto|apply Rlt_le, Rinv_0_lt_compat; auto]).
      apply (Rmult_le_reg_r tR); auto. unfold Rdiv. rewrite Rmult_assoc, Rinv_l, Rmult_1_r by lra.
      eapply Rle_trans; [exact A2|]. eapply Rle_trans; [|apply Rmult_le_compat_l; [apply bpow_ge_0|exact TL]]. rewrite <- bpow_plus. apply bpow_le. lia. }
    rewrite Et, Ea in Ed. fold (quo a) in Ed. unfold f_to_i32. rewrite Fd. rewrite trunc_ok; rewrite Ed; [|apply quo_bounds; auto].
    destruct (floor_quo a NE Ha) as [F1 F2].
    replace ((- 2 ^ 31 <=? Zfloor (quo a)) && (Zfloor (quo a) <? 2 ^ 31))%Z with true by lia. cbn [rbind]. unfold clamp.
    replace (w - 1 <? 0)%Z with false by lia. f_equal. lia.
Qed.
Lemma owner_range a : (0 <= a <= L)%Z -> (0 <= owner a < w)%Z.
Proof.
  intros Ha. unfold owner. destruct (Z.eqb_spec L 0); [lia|]. destruct (floor_quo a) as [F1 F2]; auto. lia.
Qed.
Lemma owner_mono a b : (a <= b)%Z -> (owner a <= owner b)%Z.
Proof.
  intros H. unfold owner. destruct (Z.eqb_spec L 0); [lia|]. assert (Zfloor (quo a) <= Zfloor (quo b))%Z; [|lia].
  apply Zfloor_le, quo_mono; auto.
Qed.
End Owner.

(** * The loops *)
Section Loops.
Context {O : Type}.
Fixpoint isum (inc : lbtile O -> Z) (l : list (lbtile O)) : Z := match l with [] => 0 | t :: l' => inc t + isum inc l' end.

Lemma isum_nonneg inc l : (forall t, In t l -> 0 <= inc t) -> 0 <= isum inc l.
Proof. induction l as [|t l IH]; simpl; intros H; [lia|]. pose proof (H t (or_introl eq_refl)). specialize (IH (fun x Hx => H x (or_intror Hx))). lia. Qed.
Lemma isum_perm inc l l' : Permutation l l' -> isum inc l = isum inc l'.
Proof. induction 1; simpl; lia. Qed.
Lemma isum_app inc l l' : isum inc (l ++ l') = isum inc l + isum inc l'.
Proof. induction l; simpl; lia. Qed.

(** k-th accumulated value = sum of the increments before it *)
Definition with_acc (t : lbtile O) (a : Z) : lbtile O := LBTile (b_order t) (b_load t) a (b_index t) (b_owner t).
Lemma accumulate_split inc : forall l acc l1 t l2, l = l1 ++ t :: l2 -> (forall t, In t l -> 0 <= inc t) -> 0 <= acc -> acc + isum inc l < 2 ^ 64 ->
  exists r1 r2, accumulate inc acc l = r1 ++ with_acc t (acc + isum inc l1) :: r2 /\ length r1 = length l1 /\ length r2 = length l2.
Proof.
  induction l as [|x l IH]; intros acc l1 t l2 E HN HA HB; [destruct l1; discriminate|].
  assert (LEN : forall inc a (l : list (lbtile O)), length (accumulate inc a l) = length l) by (clear; intros inc a l; revert a; induction l; intros; simpl; auto).
  destruct l1 as [|y l1]; simpl in E; inversion E; subst.
  - exists [], (accumulate inc (w64 (acc + inc t)) l2). simpl. rewrite Z.add_0_r. repeat split; auto.
  - simpl in HB. assert (0 <= inc y) by (apply HN; simpl; auto).
    assert (0 <= isum inc (l1 ++ t :: l2)) by (apply isum_nonneg; intros; apply HN; simpl; auto).
    assert (EW : w64 (acc + inc y) = acc + inc y) by (apply Z.mod_small; lia).
    destruct (IH (acc + inc y) l1 t l2 eq_refl) as (r1 & r2 & E1 & L1 & L2); try lia.
    { intros; apply HN; simpl; auto. }
    simpl. rewrite EW, E1. exists (with_acc y acc :: r1), r2. simpl. rewrite L1, Z.add_assoc. auto.
Qed.
Lemma accumulate_length inc : forall (l : list (lbtile O)) a, length (accumulate inc a l) = length l.
Proof. induction l; intros; simpl; auto. Qed.
Lemma accumulate_index inc : forall (l : list (lbtile O)) a, map b_index (accumulate inc a l) = map b_index l.
Proof. induction l; intros; simpl; f_equal; auto. Qed.

Lemma rmapl_ok {A B} (f : A -> res B) (g : A -> B) l : (forall a, In a l -> f a = Ok (g a)) -> rmapl f l = Ok (map g l).
Proof. induction l as [|a l IH]; intros H; simpl; auto. rewrite (H a (or_introl eq_refl)). cbn [rbind]. rewrite IH by (intros; apply H; simpl; auto). reflexivity. Qed.

Lemma scatter_ok : forall (l : list (nat * Z)) out, NoDup (map fst l) -> (forall p, In p l -> (fst p < length out)%nat) ->
  exists out', rfold (fun '(i, o) out => aset out i o) l out = Ok out' /\ length out' = length out /\
    (forall i o, In (i, o) l -> nth_error out' i = Some o) /\ (forall i, ~ In i (map fst l) -> nth_error out' i = nth_error out i).
Proof.
  induction l as [|[i o] l IH]; intros out ND HB; simpl.
  - exists out. repeat split; auto; tauto.
  - inversion ND as [|? ? NI ND']; subst. assert (i < length out)%nat by (apply (HB (i, o)); simpl; auto).
    rewrite aset_lt by auto. cbn [rbind].
    destruct (IH (upd out i o) ND') as (out' & E & L & A1 & A2).
    { intros p Hp. rewrite length_upd. apply HB. simpl; auto. }
    exists out'. rewrite E, L, length_upd. repeat split; auto.
    + intros j oj [X|X]; [|auto]. inversion X; subst. rewrite A2 by auto. now apply nth_error_upd_eq.
    + intros j Hj. rewrite A2 by tauto. apply nth_error_upd_neq. tauto.
Qed.

Lemma init_index (v : list (tile O)) : map b_index (init_tiles v) = seq 0 (length v).
Proof.
  unfold init_tiles. rewrite map_map. generalize 0%nat. induction v as [|t v IH]; intros n; simpl; f_equal; auto.
Qed.
Lemma init_nth (v : list (tile O)) i t : nth_error v i = Some t -> In (mk_lbtile O t i) (init_tiles v).
Proof.
  intros H. unfold init_tiles. apply in_map_iff. exists (t, i). split; auto.
  assert (G : forall s, nth_error v i = Some t -> In (t, (s + i)%nat) (combine v (seq s (length v)))).
  { clear H. revert i. induction v as [|x v IH]; intros i s H; [destruct i; discriminate|]. destruct i as [|i]; simpl in *.
    - inversion H; subst. rewrite Nat.add_0_r. auto.
    - right. replace (s + S i)%nat with (S s + i)%nat by lia. auto. }
  now apply (G 0%nat).
Qed.
Lemma init_in (v : list (tile O)) b : In b (init_tiles v) -> exists t, nth_error v (b_index b) = Some t /\ b = mk_lbtile O t (b_index b).
Proof.
  unfold init_tiles. intros H. apply in_map_iff in H. destruct H as ((t & i) & <- & H). exists t. simpl. split; auto.
  assert (G : forall s, In (t, i) (combine v (seq s (length v))) -> (s <= i)%nat /\ nth_error v (i - s) = Some t).
  { clear H. revert i. induction v as [|x v IH]; intros i s H; simpl in *; [tauto|]. destruct H as [H|H].
    - inversion H; subst. rewrite Nat.sub_diag. auto.
    - destruct (IH i (S s) H) as [A B]. split; [lia|]. replace (i - s)%nat with (S (i - S s)) by lia. exact B. }
  apply G in H. now rewrite Nat.sub_0_r in H.
Qed.
Lemma init_isum_load (v : list (tile O)) : isum b_load (init_tiles v) = fold_right Z.add 0 (map load_value v).
Proof. unfold init_tiles. generalize 0%nat. induction v as [|t v IH]; intros n; simpl; auto. now rewrite IH. Qed.
Lemma init_isum_one (v : list (tile O)) : isum (fun _ => 1) (init_tiles v) = Z.of_nat (length v).
Proof. unfold init_tiles. generalize 0%nat. induction v as [|t v IH]; intros n; simpl length; auto. cbn [combine seq map isum]. rewrite IH. lia. Qed.

(** * One strategy *)
Section Strategy.
Variables (lt : O -> O -> bool) (srt : list (lbtile O) -> list (lbtile O)) (inc : lbtile O -> Z) (v : list (tile O)) (w : Z).
Hypothesis Hperm : Permutation (srt (init_tiles v)) (init_tiles v).
Hypothesis Hsort : StronglySorted (fun a b => lt (b_order b) (b_order a) = false) (srt (init_tiles v)).
Hypothesis Hw : 1 <= w < 2 ^ 31.
Hypothesis Hv : v <> [].
Hypothesis Hinc : forall t, In t (init_tiles v) -> 0 <= inc t.
Hypothesis Hsum : isum inc (init_tiles v) < 2 ^ 64.
Notation s := (srt (init_tiles v)).

(** accumulated value of the last tile *)
Definition Lacc : Z := isum inc (removelast s).
Lemma s_nonempty : s <> [].
Proof.
  intros E. assert (L : length s = length v).
  { rewrite (Permutation_length Hperm). unfold init_tiles. rewrite map_length, combine_length, seq_length. lia. }
  rewrite E in L. destruct v; [congruence|discriminate].
Qed.
Lemma s_nonneg t : In t s -> 0 <= inc t.
Proof. intros H. apply Hinc. now apply (Permutation_in _ Hperm). Qed.
Lemma s_sum : isum inc s < 2 ^ 64.
Proof. now rewrite (isum_perm inc _ _ Hperm). Qed.
Lemma prefix_le l1 t l2 : s = l1 ++ t :: l2 -> 0 <= isum inc l1 <= Lacc.
Proof.
  intros E. assert (N : forall x, In x (l1 ++ t :: l2) -> 0 <= inc x) by (rewrite <- E; apply s_nonneg). split.
  - apply isum_nonneg. intros; apply N, in_or_app; auto.
  - unfold Lacc. rewrite E. rewrite removelast_app by discriminate. rewrite isum_app.
    assert (0 <= isum inc (removelast (t :: l2))); [|lia]. apply isum_nonneg. intros x Hx. apply N, in_or_app. right.
    assert (NE : t :: l2 <> []) by discriminate. rewrite (app_removelast_last t NE). apply in_or_app. auto.
Qed.
Lemma Lacc_range : 0 <= Lacc < 2 ^ 64.
Proof.
  destruct (exists_last s_nonempty) as (l & t & E). pose proof (prefix_le _ _ _ E) as [A _]. pose proof s_sum as S. rewrite E, isum_app in S. simpl in S.
  assert (0 <= inc t) by (apply s_nonneg; rewrite E; apply in_elt).
  unfold Lacc. rewrite E, removelast_last. lia.
Qed.

Lemma strategy_ok : exists owners, lb_strategy srt inc v w = Ok owners /\ length owners = length v /\
  forall l1 t l2, s = l1 ++ t :: l2 -> nth_error owners (b_index t) = Some (owner w Lacc (isum inc l1)).
Proof.
  unfold lb_strategy. set (r := accumulate inc 0 s).
  assert (Lr : length r = length v).
  { unfold r. rewrite accumulate_length, (Permutation_length Hperm). unfold init_tiles. rewrite map_length, combine_length, seq_length. lia. }
  assert (L0 : (length r =? 0)%nat = false). { rewrite Lr. destruct v; [congruence|reflexivity]. }
  rewrite L0.
  assert (ACC : forall l1 t l2, s = l1 ++ t :: l2 -> exists r1 r2, r = r1 ++ with_acc t (isum inc l1) :: r2 /\ length r1 = length l1 /\ length r2 = length l2).
  { intros l1 t l2 E. unfold r. rewrite <- (Z.add_0_l (isum inc l1)). apply accumulate_split; auto; try lia.
    - apply s_nonneg. - pose proof s_sum. lia. }
  destruct (exists_last s_nonempty) as (ll & tl & El). destruct (ACC _ _ _ El) as (r1 & r2 & Er & Lr1 & Lr2). destruct r2; [|discriminate].
  assert (EL : aget r (length r - 1) = Ok (with_acc tl Lacc)).
  { apply aget_ok. rewrite Er, app_length. simpl. rewrite nth_error_app2 by lia. replace (length r1 + 1 - 1 - length r1)%nat with 0%nat by lia.
    simpl. f_equal. f_equal. unfold Lacc. now rewrite El, removelast_last. }
  rewrite EL. cbn [rbind with_acc b_accum]. change (f_div (f_of_Z Lacc) (f_of_Z w)) with (tgt w Lacc).
  assert (INR : forall b, In b r -> exists l1 t l2, s = l1 ++ t :: l2 /\ b = with_acc t (isum inc l1)).
  { intros b Hb. apply in_split in Hb. destruct Hb as (q1 & q2 & Eq).
    assert (K : (length q1 < length s)%nat). { unfold r in Eq. rewrite <- (accumulate_length inc s 0), Eq, app_length. simpl. lia. }
    destruct (nth_error s (length q1)) as [t|] eqn:En; [|apply nth_error_None in En; lia].
    apply nth_error_split in En. destruct En as (l1 & l2 & E1 & E2). exists l1, t, l2. split; auto.
    destruct (ACC _ _ _ E1) as (p1 & p2 & Ep & Lp & _). rewrite Eq in Ep.
    assert (X : nth_error (q1 ++ b :: q2) (length q1) = Some b) by (rewrite nth_error_app2, Nat.sub_diag by lia; reflexivity).
    rewrite Ep in X. rewrite nth_error_app2 in X by lia. replace (length q1 - length p1)%nat with 0%nat in X by lia. simpl in X. congruence. }
  rewrite (rmapl_ok _ (fun t => (b_index t, owner w Lacc (b_accum t)))).
  2: { intros b Hb. destruct (INR b Hb) as (l1 & t & l2 & E & ->). cbn [with_acc b_accum b_index].
       rewrite tile_owner_ok; auto; [apply Lacc_range|eapply prefix_le; eauto]. }
  cbn [rbind].
  destruct (scatter_ok (map (fun t => (b_index t, owner w Lacc (b_accum t))) r) (repeat 0 (length r))) as (out & E & L & A1 & _).
  - rewrite map_map. cbn [fst]. unfold r. rewrite accumulate_index. eapply Permutation_NoDup; [apply Permutation_map, Permutation_sym, Hperm|].
    rewrite init_index. apply seq_NoDup.
  - intros p Hp. apply in_map_iff in Hp. destruct Hp as (b & <- & Hb). cbn [fst]. rewrite repeat_length, Lr.
    assert (In (b_index b) (seq 0 (length v))); [|apply in_seq in H; lia]. rewrite <- init_index.
    apply (Permutation_in _ (Permutation_map b_index Hperm)). rewrite <- (accumulate_index inc s 0). now apply in_map.
  - exists out. rewrite E, L, repeat_length. repeat split; auto. intros l1 t l2 Es. destruct (ACC _ _ _ Es) as (q1 & q2 & Eq & _).
    apply A1. apply in_map_iff. exists (with_acc t (isum inc l1)). split; auto. rewrite Eq. apply in_elt.
Qed.

Lemma strategy_spec : exists owners, lb_strategy srt inc v w = Ok owners /\ length owners = length v /\
  (forall o, In o owners -> 0 <= o < w) /\
  (forall i j ti tj oi oj, nth_error v i = Some ti -> nth_error v j = Some tj -> nth_error owners i = Some oi -> nth_error owners j = Some oj ->
     lt (ordering_val ti) (ordering_val tj) = true -> oi <= oj).
Proof.
  destruct strategy_ok as (owners & E & L & A). exists owners. split; auto. split; auto.
  assert (POS : forall i t, nth_error v i = Some t -> exists l1 l2, s = l1 ++ mk_lbtile O t i :: l2 /\ nth_error owners i = Some (owner w Lacc (isum inc l1))).
  { intros i t H. apply init_nth in H. apply (Permutation_in _ (Permutation_sym Hperm)) in H. apply in_split in H. destruct H as (l1 & l2 & Es).
    exists l1, l2. split; auto. apply (A _ _ _ Es). }
  split.
  - intros o Ho. apply In_nth_error in Ho. destruct Ho as (i & Hi).
    destruct (nth_error v i) as [t|] eqn:Et; [|apply nth_error_None in Et; assert (i < length owners)%nat by (apply nth_error_Some; congruence); lia].
    destruct (POS i t Et) as (l1 & l2 & Es & Eo). rewrite Eo in Hi. inversion Hi; subst. apply owner_range; auto; [apply Lacc_range|eapply prefix_le; eauto].
  - intros i j ti tj oi oj Hi Hj Ho1 Ho2 HL. destruct (POS i ti Hi) as (l1 & l2 & E1 & O1). destruct (POS j tj Hj) as (k1 & k2 & E2 & O2).
    rewrite O1 in Ho1. rewrite O2 in Ho2. inversion Ho1; inversion Ho2; subst. apply owner_mono; auto; [apply Lacc_range|].
    (* position of i is not after that of j *)
    destruct (Nat.le_gt_cases (length l1) (length k1)) as [C|C].
    + assert (P : exists m, k1 = l1 ++ m).
      { exists (skipn (length l1) k1). assert (X : firstn (length l1) (l1 ++ mk_lbtile O ti i :: l2) = firstn (length l1) (k1 ++ mk_lbtile O tj j :: k2)) by congruence.
        rewrite !firstn_app, Nat.sub_diag in X. rewrite firstn_all in X. simpl in X. rewrite app_nil_r in X.
        replace (length l1 - length k1)%nat with 0%nat in X by lia. simpl in X. rewrite app_nil_r in X.
        rewrite X at 1. now rewrite firstn_skipn. }
      destruct P as (m & ->). rewrite isum_app. assert (0 <= isum inc m); [|lia].
      apply isum_nonneg. intros x Hx. apply s_nonneg. rewrite E2. apply in_or_app. left. apply in_or_app. auto.
    + exfalso. assert (X : nth_error s (length k1) = Some (mk_lbtile O tj j)) by (rewrite E2, nth_error_app2, Nat.sub_diag by lia; reflexivity).
      rewrite E1, nth_error_app1 in X by auto. apply nth_error_In in X.
      pose proof Hsort as HS. rewrite E1 in HS. apply sorted_app_inv in HS. destruct HS as (_ & _ & HS).
      specialize (HS _ _ X (or_introl eq_refl)). simpl in HS. congruence.
Qed.
End Strategy.

(** * The metric never fails *)
Lemma load_per_node_ok (v : list (tile O)) owners w : length owners = length v -> (forall o, In o owners -> 0 <= o < w) ->
  exists loads, load_per_node v owners w = Ok loads /\ length loads = Z.to_nat w.
Proof.
  intros HL HR. unfold load_per_node.
  assert (G : forall l loads, (forall i (t : tile O), In (i, t) l -> (i < length owners)%nat) -> length loads = Z.to_nat w ->
    exists loads', rfold (fun '((i, t) : nat * tile O) loads => o <- aget owners i ;; if o <? 0 then UB else
           x <- aget loads (Z.to_nat o) ;; aset loads (Z.to_nat o) (w64 (x + load_value t))) l loads = Ok loads' /\ length loads' = Z.to_nat w).
  { induction l as [|[i t] l IH]; intros loads HB HLn; cbn [rfold]; [eauto|].
    assert (Hi : (i < length owners)%nat) by (eapply HB; simpl; eauto). rewrite (aget_lt owners i 0) by auto. cbn [rbind].
    assert (RO : 0 <= nth i owners 0 < w) by (apply HR, nth_In; auto). replace (nth i owners 0 <? 0) with false by lia.
    rewrite (aget_lt loads _ 0) by lia. cbn [rbind]. rewrite aset_lt by lia. cbn [rbind].
    apply IH; [intros; eapply HB; simpl; eauto|]. now rewrite length_upd. }
  apply G; [|apply repeat_length]. intros i t H. apply in_combine_l in H. apply in_seq in H. lia.
Qed.
End Loops.
