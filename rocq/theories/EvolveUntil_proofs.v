From Coq Require Import ZArith List Bool Lia Reals Lra.
From Flocq Require Import Core BinarySingleNaN Sterbenz.
From Verif Require Import Base F64 EvolveUntil EvolveUntil_spec.
Import ListNotations.
Local Open Scope R_scope.

Lemma format_fval x : generic_format radix2 fexp64 (fval x).
Proof. apply generic_format_B2R. Qed.
Lemma ulp64_ge_0 x : 0 <= ulp64 x. Proof. apply ulp_ge_0. Qed.
Lemma bpow_999 : 2 * bpow radix2 999 = bpow radix2 1000.
Proof. change 1000%Z with (1 + 999)%Z. rewrite bpow_plus. simpl (bpow radix2 1). lra. Qed.
Lemma bpow_1000 : 2 * bpow radix2 1000 = bpow radix2 1001.
Proof. change 1001%Z with (1 + 1000)%Z. rewrite bpow_plus. simpl (bpow radix2 1). lra. Qed.
Lemma abs_le a b : 0 <= a <= b -> Rabs a <= b.
Proof. intros. rewrite Rabs_pos_eq; lra. Qed.

Lemma ltb_true x y : is_finite x = true -> is_finite y = true -> f_ltb x y = true -> fval x < fval y.
Proof. intros Hx Hy. rewrite ltb_ok; auto. intros H. destruct (Rlt_bool_spec (fval x) (fval y)); congruence. Qed.
Lemma ltb_false x y : is_finite x = true -> is_finite y = true -> f_ltb x y = false -> fval y <= fval x.
Proof. intros Hx Hy. rewrite ltb_ok; auto. intros H. destruct (Rlt_bool_spec (fval x) (fval y)); congruence. Qed.

(** the rounded sum of t and of a rounded difference T - t *)
Lemma back_le T t : 0 <= t <= T -> 0 < T -> generic_format radix2 fexp64 T -> RN (t + RN (T - t)) <= T + ulp64 T.
Proof.
  intros Ht HT HF.
  assert (F : generic_format radix2 fexp64 (T + ulp64 T)).
  { pose proof (generic_format_succ radix2 fexp64 T HF) as G. rewrite succ_eq_pos in G; [exact G|lra]. }
  rewrite <- (RN_id _ F). apply RN_le.
  pose proof (error_le_half_ulp radix2 fexp64 (fun n => negb (Z.even n)) (T - t)) as E. fold (RN (T - t)) in E.
  assert (U : ulp radix2 fexp64 (T - t) <= ulp64 T).
  { apply ulp_le_pos; auto with typeclass_instances; lra. }
  apply Rabs_le_inv in E. pose proof (ulp64_ge_0 T). lra.
Qed.
Lemma back_ge T t : 0 <= t <= T -> 0 < T -> T - ulp64 T <= t + RN (T - t).
Proof.
  intros Ht HT.
  pose proof (error_le_half_ulp radix2 fexp64 (fun n => negb (Z.even n)) (T - t)) as E. fold (RN (T - t)) in E.
  assert (U : ulp radix2 fexp64 (T - t) <= ulp64 T).
  { apply ulp_le_pos; auto with typeclass_instances; lra. }
  apply Rabs_le_inv in E. pose proof (ulp64_ge_0 T). lra.
Qed.
Lemma back_exact T t : 0 <= t <= T -> T <= 2 * t -> generic_format radix2 fexp64 T -> generic_format radix2 fexp64 t ->
  RN (t + RN (T - t)) = T.
Proof.
  intros Ht H2 HF Hf. rewrite (RN_id (T - t)).
  - replace (t + (T - t)) with T by lra. now apply RN_id.
  - apply sterbenz; auto with typeclass_instances. lra.
Qed.

Lemma step_facts T t dt : sane T -> sane t -> sane dt -> fval t < fval T ->
  let d := clamp_dt T t dt in
  is_finite (f_add t d) = true /\ 0 <= fval d <= fval dt /\ fval t <= fval (f_add t d) <= fval T + ulp64 (fval T) /\
  (fval T <= 2 * fval t -> fval (f_add t d) <= fval T /\ (fval T < RN (fval t + fval dt) -> fval (f_add t d) = fval T)) /\
  (if f_ltb T (f_add t dt) then fval (f_add t d) = RN (fval t + RN (fval T - fval t)) /\ fval T < RN (fval t + fval dt)
   else fval (f_add t d) = RN (fval t + fval dt) /\ RN (fval t + fval dt) <= fval T).
Proof.
  intros [FT BT] [Ft Bt] [Fd Bd] L. cbv zeta.
  pose proof bpow_999 as B9. pose proof bpow_1000 as B10. pose proof (format_fval T) as GT. pose proof (format_fval t) as Gt. pose proof (format_fval dt) as Gd.
  destruct (add_ok t dt 1000) as [A1 A2]; auto; [lia|apply abs_le; lra|].
  pose proof (ulp64_ge_0 (fval T)) as U0.
  assert (M : fval t <= RN (fval t + fval dt)). { rewrite <- (RN_id (fval t)) at 1; auto. apply RN_le. lra. }
  unfold clamp_dt. destruct (f_ltb T (f_add t dt)) eqn:E.
  - apply ltb_true in E; auto. rewrite A1 in E.
    destruct (sub_ok T t 999) as [S1 S2]; auto; [lia|apply abs_le; lra|].
    assert (HD : fval T - fval t <= fval dt).
    { destruct (Rle_lt_dec (fval T - fval t) (fval dt)) as [H|H]; auto. exfalso.
      assert (H' : RN (fval t + fval dt) <= fval T). { rewrite <- (RN_id (fval T)); auto. apply RN_le. lra. } lra. }
    assert (D0 : 0 <= fval (f_sub T t)). { rewrite S1. apply RN_pos. lra. }
    assert (D1 : fval (f_sub T t) <= fval dt). { rewrite S1. rewrite <- (RN_id (fval dt)); auto. now apply RN_le. }
    destruct (add_ok t (f_sub T t) 1000) as [C1 C2]; auto; [lia|apply abs_le; lra|].
    rewrite C1. rewrite S1 in *.
    assert (M2 : fval t <= RN (fval t + RN (fval T - fval t))). { rewrite <- (RN_id (fval t)) at 1; auto. apply RN_le. lra. }
    assert (BL : RN (fval t + RN (fval T - fval t)) <= fval T + ulp64 (fval T)) by (apply back_le; auto; lra).
    assert (BE : fval T <= 2 * fval t -> RN (fval t + RN (fval T - fval t)) = fval T) by (intros; apply back_exact; auto; lra).
    split; [exact C2|]. split; [lra|]. split; [lra|]. split; [|split; [reflexivity|lra]].
    intros H2. specialize (BE H2). split; [lra|auto].
  - apply ltb_false in E; auto. rewrite A1 in *. split; [exact A2|]. split; [lra|]. split; [lra|].
    split; [|split; [reflexivity|lra]]. intros H2. split; [lra|intros; lra].
Qed.

Lemma run_snoc t tr t' d : run t tr t' -> run t (tr ++ [(t', d)]) (f_add t' d).
Proof. intros H. induction H; simpl; [repeat constructor|constructor; auto]. Qed.

Section Inv.
Variable e : ev_env.
Variables t0 dt0 : f64.
Hypothesis HT : sane (e_target e).
Hypothesis Hd0 : sane dt0.
Hypothesis Hcfl : forall k, sane (e_cfl e k).
Hypothesis Ht0 : sane t0.
Let T := e_target e.

Lemma offered_sane k : sane (offered dt0 (e_cfl e) k).
Proof. destruct k; simpl; auto. Qed.

Definition good (k : nat) (p : f64 * f64) : Prop :=
  let '(t, d) := p in
  fval t < fval T /\ 0 <= fval d <= fval (offered dt0 (e_cfl e) k) /\
  fval t <= fval (f_add t d) <= fval T + ulp64 (fval T) /\
  (fval T <= 2 * fval t -> fval (f_add t d) <= fval T /\
     (fval T < RN (fval t + fval (offered dt0 (e_cfl e) k)) -> fval (f_add t d) = fval T)).

Definition Inv (t : f64) (tr : list (f64 * f64)) : Prop :=
  run t0 tr t /\ (forall k p, nth_error tr k = Some p -> good k p) /\ is_finite t = true /\ fval t0 <= fval t /\
  (tr <> [] -> fval t <= fval T + ulp64 (fval T)) /\ (fval T <= 2 * fval t0 -> tr <> [] -> fval t <= fval T).

Lemma Inv0 : Inv t0 [].
Proof.
  destruct Ht0 as [F B]. split; [constructor|]. split; [intros k p H; destruct k; discriminate|].
  split; [exact F|]. split; [lra|]. split; intros; congruence.
Qed.
Lemma Inv_sane t tr : Inv t tr -> f_ltb t T = true -> sane t /\ fval t < fval T.
Proof.
  intros (_ & _ & F & G & _) H. destruct HT as [F1 B1]. destruct Ht0 as [F0 B0]. apply ltb_true in H; auto. repeat split; auto; try lra.
  unfold T in *; lra.
Qed.
Lemma Inv_step t tr : Inv t tr -> f_ltb t T = true ->
  Inv (f_add t (clamp_dt T t (offered dt0 (e_cfl e) (length tr)))) (tr ++ [(t, clamp_dt T t (offered dt0 (e_cfl e) (length tr)))]).
Proof.
  intros HI H. destruct (Inv_sane _ _ HI H) as [St L]. destruct HI as (R & G & F & M & _ & _).
  destruct (step_facts T t _ HT St (offered_sane (length tr)) L) as (S1 & S2 & S3 & S4 & _).
  split; [|split; [|split; [|split; [|split]]]]; auto.
  - now apply run_snoc.
  - intros k p E. destruct (Nat.lt_ge_cases k (length tr)) as [H'|H'].
    + rewrite nth_error_app1 in E; auto.
    + rewrite nth_error_app2 in E; auto. destruct (k - length tr)%nat eqn:Ek; simpl in E; [|destruct n; discriminate].
      assert (k = length tr) by lia. subst k. inversion E; subst p. simpl. auto.
  - lra.
  - intros; lra.
  - intros H2 _. apply S4. lra.
Qed.

Definition flags (r : ev_res) (t : f64) (tr : list (f64 * f64)) : Prop :=
  iter_count r = Z.of_nat (length tr) /\
  ((reach_target_time r = true /\ reach_niter_max r = false /\ reach_max_walltime r = false /\ f_ltb t T = false /\
     (niter_limit_active e = true -> tr = [] \/ (Z.of_nat (length tr) < e_niter_max e)%Z)) \/
   (reach_target_time r = false /\ reach_niter_max r = true /\ reach_max_walltime r = false /\
     niter_limit_active e = true /\ Z.of_nat (length tr) = Z.max 1 (e_niter_max e)) \/
   (reach_target_time r = false /\ reach_niter_max r = false /\ reach_max_walltime r = true /\
     walltime_limit_active e = true /\ tr <> [] /\
     (niter_limit_active e = true -> (Z.of_nat (length tr) < e_niter_max e)%Z) /\
     exists k, (1 <= k)%nat /\ f_leb (e_max_walltime e) (e_wt e k) = true /\
       forall j, (1 <= j < k)%nat -> f_leb (e_max_walltime e) (e_wt e j) = false)).

Definition out_ok (P : f64 -> list (f64 * f64) -> Prop) (o : ev_out) : Prop :=
  match o with
  | Returns r t tr => P t tr /\ flags r t tr
  | Running t tr => P t tr
  | Throws => False
  | Undefined => True
  end.


Lemma loop_ok : forall fuel start t dt iter next rd tr, Inv t tr -> dt = offered dt0 (e_cfl e) (length tr) ->
  iter = Z.of_nat (length tr) -> (1 <= rd)%nat ->
  (niter_limit_active e = true -> tr = [] \/ (iter < e_niter_max e)%Z) ->
  (forall j, (1 <= j < rd)%nat -> f_leb (e_max_walltime e) (e_wt e j) = false) ->
  out_ok Inv (ev_loop fuel e start t dt iter next rd tr).
Proof.
  induction fuel as [|fuel IH]; intros start t dt iter next rd tr HI Hdt Hit Hrd Hn Hw; simpl; [exact HI|].
  fold T. destruct (f_ltb t T) eqn:EL.
  - destruct (Inv_sane _ _ HI EL) as [[F _] L].
    destruct (f_ltb T t) eqn:ET. { apply ltb_true in ET; auto; [lra|apply HT]. }
    subst dt. pose proof (Inv_step _ _ HI EL) as HI'.
    set (d := clamp_dt T t (offered dt0 (e_cfl e) (length tr))) in *.
    assert (LL : Z.of_nat (length (tr ++ [(t, d)])) = (iter + 1)%Z). { rewrite app_length. simpl. lia. }
    assert (NE : tr ++ [(t, d)] <> []) by (destruct tr; discriminate).
    destruct (iter =? i32_max)%Z; [exact I|].
    destruct (niter_limit_active e && (e_niter_max e <=? iter + 1)%Z) eqn:EN.
    { simpl. split; [exact HI'|]. apply andb_true_iff in EN. destruct EN as [EN1 EN2]. apply Z.leb_le in EN2.
      split; [simpl; lia|]. right; left. simpl. rewrite LL. repeat split; auto.
      destruct (Hn EN1) as [->|Hn']; [simpl in *; lia|lia]. }
    assert (Hn' : niter_limit_active e = true -> (iter + 1 < e_niter_max e)%Z).
    { intros A. rewrite A in EN. simpl in EN. apply Z.leb_gt in EN. lia. }
    assert (Hoff : e_cfl e (length tr) = offered dt0 (e_cfl e) (length (tr ++ [(t, d)]))).
    { rewrite app_length, Nat.add_1_r. reflexivity. }
    destruct (walltime_limit_active e && (next <=? iter + 1)%Z) eqn:EW.
    + destruct (f_leb (e_max_walltime e) (e_wt e rd)) eqn:EG.
      * simpl. split; [exact HI'|]. apply andb_true_iff in EW. destruct EW as [EW _]. split; [simpl; lia|].
        right; right. simpl. rewrite LL. repeat split; auto. exists rd. auto.
      * destruct (remaining_iters _ _) as [r| |]; try exact I. destruct (i32_max <? _)%Z; [exact I|].
        apply IH; auto.
        intros j Hj. destruct (Nat.eq_dec j rd); [subst; auto|apply Hw; lia].
    + apply IH; auto.
  - simpl. split; [exact HI|]. split; [simpl; lia|]. left. simpl. rewrite <- Hit. auto.
Qed.
End Inv.

Lemma until_ok e t0 dt0 fuel : sane (e_target e) -> sane t0 -> sane dt0 -> (forall k, sane (e_cfl e k)) ->
  out_ok e (Inv e t0 dt0) (evolve_until fuel e t0 dt0).
Proof.
  intros HT Ht Hd Hc. unfold evolve_until. apply loop_ok; auto.
  - apply Inv0; auto.
  - intros j Hj; lia.
Qed.
