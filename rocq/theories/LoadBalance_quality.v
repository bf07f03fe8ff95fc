(** How well the strategies balance. *)
From Coq Require Import Reals Psatz.
From Flocq Require Import Core BinarySingleNaN.
From Verif Require Import Base F64 LoadBalance LoadBalance_spec LoadBalance_proofs.
From Coq Require Import ZifyBool ZifyNat.
Local Open Scope Z_scope.

(** tiles with the same owner are within one share of each other *)
Section Share.
Local Open Scope R_scope.
Variables (w L A B : Z).
Hypothesis Hw : (1 <= w < 2 ^ 31)%Z.
Hypothesis HL : (0 <= L < 2 ^ 53)%Z.
Hypothesis HA : (0 <= A <= L)%Z.
Hypothesis HB : (0 <= B <= L)%Z.
Lemma share r : owner w L A = r -> owner w L B = r -> ((B - A) * w * 2 ^ 20 <= L * (2 ^ 20 + 1))%Z.
Proof.
  intros EA EB. assert (HL' : (0 <= L < 2 ^ 64)%Z) by lia.
  pose proof (owner_range w L Hw HL' A HA) as RR. rewrite EA in RR.
  unfold owner in EA, EB. destruct (Z.eqb_spec L 0) as [|NZ]; [subst; nia|].
  destruct (tR_bounds w L Hw HL' NZ) as [T [T1 T2]]. pose proof (IZR_w w Hw) as [W1 W2].
  assert (EX : forall a, (0 <= a <= L)%Z -> RN (IZR a) = IZR a) by (intros a Ha; apply RN_id, format_Z; lia).
  rewrite (EX L) in T1, T2 by lia. unfold quo in EA, EB. rewrite (EX A) in EA by lia. rewrite (EX B) in EB by lia.
  set (t := tR w L) in *. set (W := IZR w) in *. set (l := IZR L) in *. set (u := bpow radix2 (-53)) in *.
  assert (U : u * bpow radix2 31 = bpow radix2 (-22)) by (unfold u; now rewrite <- bpow_plus).
  set (v := bpow radix2 (-22)) in *.
  assert (V : v * 1048576 = / 4) by (unfold v; simpl; lra).
  assert (U0 : 0 < u) by apply bpow_gt_0. assert (V0 : 0 < v) by apply bpow_gt_0.
  assert (L0 : 0 <= l) by (apply (IZR_le 0); lia).
  assert (A0 : 0 <= IZR A) by (apply (IZR_le 0); lia).
  assert (BL : IZR B <= l) by (apply IZR_le; lia).
  (* upper bound of B *)
  assert (UB_ : IZR B * (1 - u) <= (IZR r + 1) * t).
  { destruct (Z_lt_le_dec r (w - 1)) as [C|C].
    - assert (Q : IZR B / t < IZR r + 1).
      { destruct (Rlt_or_le (IZR B / t) (IZR r + 1)) as [|G]; auto. exfalso.
        assert (F : (r + 1 <= Zfloor (RN (IZR B / t)))%Z); [|lia].
        apply Zfloor_lub. rewrite plus_IZR. rewrite <- (RN_id (IZR r + 1)); [now apply RN_le|].
        rewrite <- plus_IZR. apply format_Z. lia. }
      assert (IZR B < (IZR r + 1) * t).
      { apply (Rmult_lt_compat_r t) in Q; auto. unfold Rdiv in Q. rewrite Rmult_assoc, Rinv_l, Rmult_1_r in Q by lra. exact Q. }
      assert (0 <= IZR B) by (apply (IZR_le 0); lia). nra.
    - assert (IZR r + 1 = W) by (unfold W; replace w with (r + 1)%Z by lia; now rewrite plus_IZR). rewrite H.
      assert (u <= 1). { unfold u. change 1 with (bpow radix2 0). apply bpow_le. lia. } nra. }
  (* lower bound of A *)
  assert (LA : (IZR r - v) * t <= IZR A).
  { destruct (Rlt_or_le (IZR A / t) (IZR r - v)) as [C|C].
    - exfalso. assert (F : RN (IZR A / t) <= IZR r - v).
      { rewrite <- (RN_id (IZR r - v)); [apply RN_le; lra|].
        replace (IZR r - v) with (IZR (r * 2 ^ 22 - 1) * bpow radix2 (-22)); [apply format_scaled; lia|].
        rewrite minus_IZR, mult_IZR. change (IZR (2 ^ 22)) with (bpow radix2 22). rewrite Rmult_minus_distr_r, Rmult_assoc, <- bpow_plus. simpl (bpow radix2 (22 + -22)). unfold v. lra. }
      pose proof (Zfloor_lb (RN (IZR A / t))) as Z0. assert (r <= Zfloor (RN (IZR A / t)))%Z as Z1 by lia. apply IZR_le in Z1. lra.
    - apply (Rmult_le_compat_r t) in C; [|lra]. unfold Rdiv in C. rewrite Rmult_assoc, Rinv_l, Rmult_1_r in C by lra. exact C. }
  assert (D : IZR B - IZR A <= t * (1 + v) + u * l) by nra.
  apply le_IZR. rewrite !mult_IZR, minus_IZR. change (IZR (2 ^ 20 + 1)) with 1048577. change (IZR (2 ^ 20)) with 1048576. fold W l.
  assert (D2 : (IZR B - IZR A) * W <= t * W * (1 + v) + u * W * l) by (apply (Rmult_le_compat_r W) in D; lra).
  assert (D3 : u * W <= v) by (rewrite <- U; apply Rmult_le_compat_l; lra).
  assert (D4 : t * W * (1 + v) <= l * (1 + u) * (1 + v)) by (apply Rmult_le_compat_r; lra).
  assert (D5 : u * W * l <= v * l) by (apply Rmult_le_compat_r; lra).
  assert (UV : u <= v) by (apply bpow_le; lia).
  assert (D6 : (IZR B - IZR A) * W <= l * ((1 + v) * (1 + v) + v)) by nra.
  nra.
Qed.
End Share.

(** * Loads of the ranks *)
Section Loads.
Context {O : Type}.

Lemma outer {X} (f : X -> bool) (l : list X) :
  (forall x, In x l -> f x = false) \/
  exists p mid q a b, l = p ++ mid ++ q /\ (forall x, In x p -> f x = false) /\ (forall x, In x q -> f x = false) /\
     f a = true /\ f b = true /\ (exists m1, mid = a :: m1) /\ (exists m2, mid = m2 ++ [b]).
Proof.
  induction l as [|x l IH]; [left; simpl; tauto|]. destruct (f x) eqn:Fx.
  - right. destruct IH as [IH|(p & mid & q & a & b & -> & H1 & H2 & H3 & H4 & (m1 & ->) & (m2 & E2))].
    + exists [], [x], l, x, x. repeat split; auto; simpl; try tauto; [now exists []|now exists []].
    + exists [], (x :: p ++ a :: m1), q, x, b. simpl. rewrite <- app_assoc. repeat split; auto; try tauto; [eauto|].
      exists (x :: p ++ m2). simpl. rewrite E2. now rewrite app_assoc.
  - destruct IH as [IH|(p & mid & q & a & b & -> & H1 & H2 & H3 & H4 & H5 & H6)].
    + left. intros y [<-|Hy]; auto.
    + right. exists (x :: p), mid, q, a, b. repeat split; auto. intros y [<-|Hy]; auto.
Qed.

Fixpoint bsum (f : lbtile O -> bool) (l : list (lbtile O)) : Z :=
  match l with [] => 0 | t :: l' => (if f t then b_load t else 0) + bsum f l' end.
Lemma bsum_app f l l' : bsum f (l ++ l') = bsum f l + bsum f l'.
Proof. induction l; simpl; lia. Qed.
Lemma bsum_perm f l l' : Permutation l l' -> bsum f l = bsum f l'.
Proof. induction 1; simpl; lia. Qed.
Lemma bsum_false f l : (forall x, In x l -> f x = false) -> bsum f l = 0.
Proof. induction l as [|x l IH]; simpl; intros H; auto. rewrite (H x), IH by auto. reflexivity. Qed.
Lemma bsum_le f l : (forall x, In x l -> 0 <= b_load x) -> bsum f l <= isum b_load l.
Proof. induction l as [|x l IH]; simpl; intros H; [lia|]. pose proof (H x (or_introl eq_refl)). specialize (IH (fun y Hy => H y (or_intror Hy))). destruct (f x); lia. Qed.

Lemma bsum_init (v : list (tile O)) owners r : length owners = length v ->
  bsum (fun t => nth (b_index t) owners (-1) =? r) (init_tiles v) = rank_load v owners r.
Proof.
  intros HL. unfold init_tiles.
  assert (G : forall v os pre, length os = length v ->
     bsum (fun t => nth (b_index t) (pre ++ os) (-1) =? r) (map (fun '(t, i) => mk_lbtile O t i) (combine v (seq (length pre) (length v)))) = rank_load v os r).
  { clear. induction v as [|t v IH]; intros os pre HL; [reflexivity|]. destruct os as [|o os]; [discriminate|].
    cbn [combine seq map length bsum rank_load]. cbn [mk_lbtile b_index b_load]. rewrite app_nth2, Nat.sub_diag by lia. cbn [nth]. f_equal.
    specialize (IH os (pre ++ [o]) ltac:(simpl in HL; lia)). rewrite <- app_assoc in IH. cbn [app] in IH.
    rewrite app_length in IH. cbn [length] in IH. replace (length pre + 1)%nat with (S (length pre)) in IH by lia. exact IH. }
  apply (G v owners []). exact HL.
Qed.

Section Sweep.
Variables (lt : O -> O -> bool) (srt : list (lbtile O) -> list (lbtile O)) (v : list (tile O)) (w M : Z).
Hypothesis Hs : sorts lt srt (init_tiles v).
Hypothesis Hw : 1 <= w < 2 ^ 31.
Hypothesis Hv : v <> [].
Hypothesis Hload : forall t, In t v -> 0 <= load_value t <= M.
Hypothesis Htot : total_load v < 2 ^ 53.

Lemma load_init b : In b (init_tiles v) -> 0 <= b_load b <= M.
Proof. intros H. apply init_in in H. destruct H as (t & H1 & H2). rewrite H2. simpl. apply Hload. eapply nth_error_In; eauto. Qed.

Lemma sweep_quality : exists owners, parallel_sweep srt v w = Ok owners /\ valid_owners lt v w owners /\
  forall r, (rank_load v owners r - M) * w * 2 ^ 20 <= total_load v * (2 ^ 20 + 1).
Proof.
  destruct Hs as [HP HS].
  assert (Hinc : forall t, In t (init_tiles v) -> 0 <= b_load t) by (intros t Ht; apply load_init in Ht; lia).
  assert (Hsum : isum b_load (init_tiles v) < 2 ^ 64) by (rewrite init_isum_load; unfold total_load in Htot; lia).
  destruct (strategy_ok lt srt b_load v w HP HS Hw Hv Hinc Hsum) as (owners & E & L & A).
  destruct (strategy_spec lt srt b_load v w HP HS Hw Hv Hinc Hsum) as (owners' & E' & L' & A1 & A2).
  rewrite E in E'. inversion E'; subst owners'. exists owners. split; [exact E|]. split; [repeat split; auto; apply A1; auto|].
  intros r. rewrite <- (bsum_init v owners r L). rewrite <- (bsum_perm _ _ _ HP). set (f := fun t => nth (b_index t) owners (-1) =? r).
  set (s := srt (init_tiles v)) in *.
  assert (M0 : 0 <= M). { destruct v as [|t v']; [congruence|]. specialize (Hload t (or_introl eq_refl)). lia. }
  assert (T0 : 0 <= total_load v). { unfold total_load. rewrite <- init_isum_load. now apply isum_nonneg. }
  assert (IN : forall x, In x s -> 0 <= b_load x <= M) by (intros x Hx; apply load_init; now apply (Permutation_in _ HP)).
  destruct (outer f s) as [F|(p & mid & q & a & b & Es & F1 & F2 & Fa & Fb & (m1 & E1) & (m2 & E2))].
  - rewrite bsum_false by auto. nia.
  - assert (SUM : bsum f s <= isum b_load m2 + M).
    { rewrite Es, !bsum_app, (bsum_false f p F1), (bsum_false f q F2).
      assert (bsum f mid <= isum b_load mid) by (apply bsum_le; intros x Hx; apply IN; rewrite Es; apply in_or_app; right; apply in_or_app; auto).
      assert (Bb : 0 <= b_load b <= M) by (apply IN; rewrite Es, E2; apply in_or_app; right; apply in_or_app; left; apply in_or_app; simpl; auto).
      rewrite E2, isum_app in H. simpl in H. rewrite E2 in *. lia. }
    assert (Sa : s = p ++ a :: m1 ++ q) by (rewrite Es, E1; reflexivity).
    assert (Sb : s = (p ++ m2) ++ b :: q) by (rewrite Es, E2, <- !app_assoc; reflexivity).
    pose proof (A _ _ _ Sa) as Oa. pose proof (A _ _ _ Sb) as Ob.
    unfold f in Fa, Fb. rewrite (nth_error_nth _ _ _ Oa) in Fa. rewrite (nth_error_nth _ _ _ Ob) in Fb. rewrite isum_app in Fb.
    pose proof (prefix_le srt b_load v HP Hinc _ _ _ Sa) as PA.
    pose proof (prefix_le srt b_load v HP Hinc _ _ _ Sb) as PB. rewrite isum_app in PB.
    set (Lc := Lacc srt b_load v) in *.
    assert (LT : Lc <= total_load v).
    { unfold total_load. rewrite <- init_isum_load. rewrite <- (isum_perm b_load _ _ HP). fold s. unfold Lc, Lacc. fold s.
      assert (NE : s <> []) by (rewrite Sa; now destruct p). destruct (exists_last NE) as (x & y & EX). rewrite EX, removelast_last, isum_app. simpl.
      assert (0 <= b_load y) by (apply IN; rewrite EX; apply in_elt). lia. }
    assert (Q : (isum b_load m2) * w * 2 ^ 20 <= Lc * (2 ^ 20 + 1)).
    { replace (isum b_load m2) with (isum b_load p + isum b_load m2 - isum b_load p) by lia. apply (share w Lc) with r; try lia. }
    nia.
Qed.
End Sweep.

(** * The metric *)
Lemma rank_load_bound (v : list (tile O)) owners r : (forall t, In t v -> 0 <= load_value t) -> 0 <= rank_load v owners r <= total_load v.
Proof.
  revert owners. unfold total_load. induction v as [|t v IH]; intros os H; simpl; [lia|]. destruct os as [|o os].
  - assert (0 <= load_value t) by (apply H; simpl; auto). specialize (IH [] (fun x Hx => H x (or_intror Hx))). destruct v; simpl in *; lia.
  - assert (0 <= load_value t) by (apply H; simpl; auto). specialize (IH os (fun x Hx => H x (or_intror Hx))). destruct (o =? r); lia.
Qed.
Lemma upd_map_seq {A} (f g : nat -> A) n k : (k < n)%nat -> (forall i, i <> k -> f i = g i) ->
  upd (map f (seq 0 n)) k (g k) = map g (seq 0 n).
Proof.
  intros Hk H. apply list_eq_nth_error. intros i. destruct (Nat.eq_dec i k) as [->|NE].
  - rewrite nth_error_upd_eq by (now rewrite map_length, seq_length). rewrite nth_error_map, nth_error_seq by auto. reflexivity.
  - rewrite nth_error_upd_neq by auto. destruct (Nat.lt_ge_cases i n).
    + rewrite !nth_error_map, !nth_error_seq by auto. simpl. now rewrite H.
    + rewrite !(proj2 (nth_error_None _ i)); auto; now rewrite map_length, seq_length.
Qed.
Lemma load_per_node_val (v : list (tile O)) owners w : length owners = length v -> (forall o, In o owners -> 0 <= o < w) ->
  (forall t, In t v -> 0 <= load_value t) -> total_load v < 2 ^ 64 ->
  load_per_node v owners w = Ok (map (fun r => rank_load v owners (Z.of_nat r)) (seq 0 (Z.to_nat w))).
Proof.
  intros HL HR HN HT. unfold load_per_node.
  assert (G : forall vs os pre (acc : nat -> Z), length os = length vs -> owners = pre ++ os ->
     (forall t, In t vs -> 0 <= load_value t) -> (forall r, 0 <= acc r) -> (forall r, acc r + total_load vs < 2 ^ 64) ->
     rfold (fun '((i, t) : nat * tile O) loads => o <- aget owners i ;; if o <? 0 then UB else
           x <- aget loads (Z.to_nat o) ;; aset loads (Z.to_nat o) (w64 (x + load_value t)))
        (combine (seq (length pre) (length vs)) vs) (map acc (seq 0 (Z.to_nat w)))
     = Ok (map (fun r => acc r + rank_load vs os (Z.of_nat r)) (seq 0 (Z.to_nat w)))).
  { induction vs as [|t vs IH]; intros os pre acc L1 E1 N1 A0 A1.
    - simpl. f_equal. apply map_ext. intros r. destruct os; simpl; lia.
    - destruct os as [|o os]; [discriminate|]. cbn [length seq combine rfold].
      assert (Eo : aget owners (length pre) = Ok o).
      { apply aget_ok. rewrite E1, nth_error_app2, Nat.sub_diag by lia. reflexivity. }
      rewrite Eo. cbn [rbind]. assert (RO : 0 <= o < w) by (apply HR; rewrite E1; apply in_elt). replace (o <? 0) with false by lia.
      assert (Ea : aget (map acc (seq 0 (Z.to_nat w))) (Z.to_nat o) = Ok (acc (Z.to_nat o))).
      { apply aget_ok. rewrite nth_error_map, nth_error_seq by lia. reflexivity. }
      rewrite Ea. cbn [rbind]. rewrite aset_lt by (rewrite map_length, seq_length; lia). cbn [rbind].
      assert (LT : 0 <= load_value t) by (apply N1; simpl; auto).
      assert (TV : 0 <= total_load vs). { pose proof (rank_load_bound vs os 0 (fun x Hx => N1 x (or_intror Hx))). lia. }
      assert (TT : total_load (t :: vs) = load_value t + total_load vs) by reflexivity.
      assert (EW : w64 (acc (Z.to_nat o) + load_value t) = acc (Z.to_nat o) + load_value t).
      { apply Z.mod_small. specialize (A0 (Z.to_nat o)). specialize (A1 (Z.to_nat o)). lia. }
      rewrite EW.
      set (acc' := fun r => acc r + (if o =? Z.of_nat r then load_value t else 0)).
      assert (EU : upd (map acc (seq 0 (Z.to_nat w))) (Z.to_nat o) (acc (Z.to_nat o) + load_value t) = map acc' (seq 0 (Z.to_nat w))).
      { replace (acc (Z.to_nat o) + load_value t) with (acc' (Z.to_nat o)).
        - apply upd_map_seq; [lia|]. intros i Hi. unfold acc'. replace (o =? Z.of_nat i) with false by lia. lia.
        - unfold acc'. replace (o =? Z.of_nat (Z.to_nat o)) with true by lia. reflexivity. }
      rewrite EU. specialize (IH os (pre ++ [o]) acc' ltac:(simpl in L1; lia)). rewrite <- app_assoc in IH. cbn [app] in IH.
      rewrite app_length in IH. cbn [length] in IH. replace (length pre + 1)%nat with (S (length pre)) in IH by lia.
      rewrite IH; auto.
      + f_equal. apply map_ext. intros r. unfold acc'. simpl. lia.
      + intros; apply N1; simpl; auto.
      + intros r. unfold acc'. specialize (A0 r). destruct (o =? Z.of_nat r); lia.
      + intros r. unfold acc'. specialize (A1 r). destruct (o =? Z.of_nat r); lia. }
  specialize (G v owners [] (fun _ => 0) HL eq_refl HN ltac:(lia) ltac:(intros; lia)). cbn [length] in G.
  assert (ER : repeat 0 (Z.to_nat w) = map (fun _ => 0) (seq 0 (Z.to_nat w))).
  { generalize (Z.to_nat w) 0%nat. induction n as [|n IH]; intros k; simpl; f_equal; auto. }
  rewrite ER, G. reflexivity.
Qed.

Fixpoint zmax (l : list Z) : Z := match l with [] => 0 | x :: t => Z.max x (zmax t) end.
Lemma zmax_le l x : In x l -> x <= zmax l.
Proof. induction l as [|y l IH]; simpl; [tauto|]. intros [->|H]; [lia|]. specialize (IH H). lia. Qed.
Lemma zmax_in l : (forall x, In x l -> 0 <= x) -> l <> [] -> In (zmax l) l.
Proof.
  induction l as [|y l IH]; intros H NE; [congruence|]. simpl. destruct l as [|z l].
  - left. simpl. specialize (H y (or_introl eq_refl)). lia.
  - destruct (Z.max_spec y (zmax (z :: l))) as [[_ E]|[_ E]]; rewrite E; auto. right. apply IH; [intros; apply H; simpl; auto|discriminate].
Qed.

Lemma fmax_fold l : l <> [] -> (forall x, In x l -> 0 <= x < 2 ^ 53) ->
  let m := fold_left (fun m x => f_max m (f_of_Z x)) l f_ninf in fval m = IZR (zmax l) /\ is_finite m = true.
Proof.
  intros NE HB.
  assert (V : forall x, 0 <= x < 2 ^ 53 -> fval (f_of_Z x) = IZR x /\ is_finite (f_of_Z x) = true).
  { intros x Hx. destruct (of_Z_ok x) as [E F]. { change (2 ^ 1000) with (2 ^ 53 * 2 ^ 947). nia. } split; auto. rewrite E. apply RN_id, format_Z. lia. }
  assert (G : forall l m k, (forall x, In x l -> 0 <= x < 2 ^ 53) -> 0 <= k -> fval m = IZR k -> is_finite m = true ->
     let m' := fold_left (fun m x => f_max m (f_of_Z x)) l m in fval m' = IZR (Z.max k (zmax l)) /\ is_finite m' = true).
  { clear l NE HB. induction l as [|x l IH]; intros m k HB Hk Em Fm; cbv zeta; cbn [fold_left].
    - simpl. rewrite Z.max_l by lia. auto.
    - destruct (V x) as [Ex Fx]; [apply HB; simpl; auto|]. simpl zmax. rewrite Z.max_assoc.
      assert (0 <= x) by (apply HB; simpl; auto).
      apply IH; [intros; apply HB; simpl; auto|lia| |].
      + unfold f_max. rewrite ltb_ok, Em, Ex by auto. destruct (Rlt_bool_spec (IZR k) (IZR x)) as [C|C].
        * apply lt_IZR in C. rewrite Z.max_r by lia. auto.
        * apply le_IZR in C. rewrite Z.max_l by lia. auto.
      + unfold f_max. destruct (f_ltb m (f_of_Z x)); auto. }
  destruct l as [|x l]; [congruence|]. cbv zeta. cbn [fold_left].
  destruct (V x) as [Ex Fx]; [apply HB; simpl; auto|].
  assert (EN : f_max f_ninf (f_of_Z x) = f_of_Z x).
  { unfold f_max, f_ltb, Bltb, SpecFloat.SFltb, f_ninf. revert Fx. destruct (f_of_Z x); simpl; auto; discriminate. }
  rewrite EN. simpl zmax. apply G; auto; [intros; apply HB; simpl; auto|]. apply (HB x). simpl; auto.
Qed.

Lemma metric_max_ok (v : list (tile O)) owners w weight : length owners = length v -> (forall o, In o owners -> 0 <= o < w) -> 1 <= w < 2 ^ 31 ->
  (forall t, In t v -> 0 <= load_value t) -> total_load v < 2 ^ 53 -> (0 <= fval weight <= 1)%R -> is_finite weight = true ->
  exists m, metric_max v owners w weight = Ok m /\ is_finite m = true /\
    let top := zmax (map (fun r => rank_load v owners (Z.of_nat r)) (seq 0 (Z.to_nat w))) in
    0 <= top < 2 ^ 53 /\ fval m = RN (IZR top * fval weight) /\ (forall r, rank_load v owners r <= top).
Proof.
  intros HL HR Hw HN HT HW FW. unfold metric_max. rewrite load_per_node_val by (auto; lia). cbn [rbind].
  set (ls := map (fun r => rank_load v owners (Z.of_nat r)) (seq 0 (Z.to_nat w))).
  assert (NE : ls <> []). { unfold ls. replace (Z.to_nat w) with (S (Z.to_nat w - 1)) by lia. discriminate. }
  assert (HB : forall x, In x ls -> 0 <= x < 2 ^ 53).
  { intros x Hx. apply in_map_iff in Hx. destruct Hx as (r & <- & _). pose proof (rank_load_bound v owners (Z.of_nat r) HN). lia. }
  destruct (fmax_fold ls NE HB) as [E F]. set (m := fold_left _ ls f_ninf) in *.
  assert (TB : 0 <= zmax ls < 2 ^ 53) by (apply HB, zmax_in; auto; intros; now apply HB).
  assert (T1 : (0 <= IZR (zmax ls))%R) by (apply (IZR_le 0); lia).
  assert (T2 : (IZR (zmax ls) <= bpow radix2 53)%R) by (change (bpow radix2 53) with (IZR (2 ^ 53)); apply IZR_le; lia).
  destruct (mul_ok m weight 53) as [E2 F2]; auto; try lia.
  { rewrite E, Rabs_pos_eq by nra. nra. }
  exists (f_mul m weight). split; auto. split; auto. cbv zeta. split; auto. rewrite E in E2. split; auto.
  intros r. destruct (Z_lt_le_dec r 0) as [N|N]; [|destruct (Z_lt_le_dec r w) as [C|C]].
  - assert (rank_load v owners r = 0); [|lia]. clear - HR N. revert owners HR. induction v as [|t v IH]; intros os HR; simpl; auto. destruct os as [|o os]; auto.
    rewrite IH by (intros; apply HR; simpl; auto). specialize (HR o (or_introl eq_refl)). replace (o =? r) with false by lia. lia.
  - apply zmax_le. apply in_map_iff. exists (Z.to_nat r). rewrite Z2Nat.id by lia. split; auto. apply in_seq. lia.
  - assert (rank_load v owners r = 0); [|lia]. clear - HR C. revert owners HR. induction v as [|t v IH]; intros os HR; simpl; auto. destruct os as [|o os]; auto.
    rewrite IH by (intros; apply HR; simpl; auto). specialize (HR o (or_introl eq_refl)). replace (o =? r) with false by lia. lia.
Qed.

Lemma c95 : let c := f_div (f_of_Z 95) (f_of_Z 100) in (945 / 1000 <= fval c <= 1)%R /\ is_finite c = true.
Proof.
  cbv zeta. destruct (of_Z_ok 95) as [E1 F1]; [easy|]. destruct (of_Z_ok 100) as [E2 F2]; [easy|].
  rewrite (RN_id 95) in E1 by (apply (format_Z 95); simpl; lia). rewrite (RN_id 100) in E2 by (apply (format_Z 100); simpl; lia).
  destruct (div_ok (f_of_Z 95) (f_of_Z 100) 0) as [E F]; auto; rewrite ?E1, ?E2; try lra; try lia.
  { rewrite Rabs_pos_eq; simpl; lra. }
  split; auto. rewrite E, E1, E2.
  pose proof (RN_rel (95 / 100)) as R. rewrite (Rabs_pos_eq (95 / 100)) in R by lra.
  assert (B : (bpow radix2 (-1000) <= 95 / 100)%R). { apply Rle_trans with (bpow radix2 (-1)); [apply bpow_le; lia|simpl; lra]. }
  specialize (R B). apply Rabs_le_inv in R.
  assert (U : (bpow radix2 (-53) <= / 256)%R). { apply Rle_trans with (bpow radix2 (-8)); [apply bpow_le; lia|simpl; lra]. }
  pose proof (bpow_gt_0 radix2 (-53)). nra.
Qed.
(** choosing the boosted round robin costs at most a few percent *)
Lemma boost top1 top2 m1 m2 : 0 <= top1 < 2 ^ 53 -> 0 <= top2 < 2 ^ 53 -> is_finite m1 = true -> is_finite m2 = true ->
  fval m1 = RN (IZR top1 * fval (f_of_Z 1)) -> fval m2 = RN (IZR top2 * fval (f_div (f_of_Z 95) (f_of_Z 100))) ->
  f_ltb m2 m1 = true -> 94 * top2 <= 100 * top1.
Proof.
  intros H1 H2 F1 F2 E1 E2 LT. rewrite ltb_ok in LT by auto. 
  assert (LT' : (fval m2 < fval m1)%R) by (revert LT; destruct (Rlt_bool_spec (fval m2) (fval m1)); [auto|discriminate]). clear LT.
  destruct c95 as [[C1 C2] _]. set (c := fval (f_div (f_of_Z 95) (f_of_Z 100))) in *.
  destruct (of_Z_ok 1) as [E0 _]; [easy|]. rewrite (RN_id 1) in E0 by (apply (format_Z 1); simpl; lia).
  rewrite E0, Rmult_1_r, (RN_id (IZR top1)) in E1 by (apply format_Z; lia).
  destruct (Z.eq_dec top2 0) as [->|NZ]; [lia|].
  assert (T2 : (1 <= IZR top2)%R) by (apply (IZR_le 1); lia).
  pose proof (RN_rel (IZR top2 * c)) as R. rewrite Rabs_pos_eq in R by nra.
  assert (B : (bpow radix2 (-1000) <= IZR top2 * c)%R). { apply Rle_trans with (bpow radix2 (-1)); [apply bpow_le; lia|simpl; nra]. }
  specialize (R B). apply Rabs_le_inv in R. rewrite <- E2 in R.
  assert (U : (bpow radix2 (-53) <= / 1024)%R). { apply Rle_trans with (bpow radix2 (-10)); [apply bpow_le; lia|simpl; lra]. }
  assert (IZR (94 * top2) <= IZR (100 * top1))%R; [|now apply le_IZR]. rewrite !mult_IZR.
  set (x := (IZR top2 * c)%R) in *. set (u := bpow radix2 (-53)) in *. rewrite E1 in LT'.
  assert (X1 : (945 / 1000 * IZR top2 <= x)%R) by (unfold x; rewrite (Rmult_comm (IZR top2)); apply Rmult_le_compat_r; lra).
  assert (X2 : (u * x <= / 1024 * x)%R) by (apply Rmult_le_compat_r; lra).
  lra.
Qed.
End Loads.
