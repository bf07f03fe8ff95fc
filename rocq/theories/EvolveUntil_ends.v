From Coq Require Import ZArith List Bool Lia Reals Lra.
From Flocq Require Import Core BinarySingleNaN Sterbenz.
From Verif Require Import Base F64 EvolveUntil EvolveUntil_spec EvolveUntil_proofs.
Import ListNotations.

Lemma loop_ends e : niter_limit_active e = true -> walltime_limit_active e = false -> (e_niter_max e <= i32_max)%Z ->
  forall fuel start t dt iter next rd tr, (0 <= iter < Z.max 1 (e_niter_max e))%Z ->
  (Z.max 1 (e_niter_max e) - iter <= Z.of_nat fuel)%Z ->
  match ev_loop fuel e start t dt iter next rd tr with Running _ _ | Undefined => False | _ => True end.
Proof.
  intros HN HW HB. induction fuel as [|fuel IH]; intros start t dt iter next rd tr Hi Hf; [simpl in *; lia|].
  cbn [ev_loop]. rewrite HN, HW. simpl.
  destruct (f_ltb t (e_target e)); [|exact I]. destruct (f_ltb (e_target e) t); [exact I|].
  destruct (iter =? i32_max)%Z eqn:E; [apply Z.eqb_eq in E; unfold i32_max in *; lia|].
  destruct (e_niter_max e <=? iter + 1)%Z eqn:E2; [exact I|]. apply Z.leb_gt in E2. apply IH; lia.
Qed.

Lemma loop_no_ub e : walltime_limit_active e = false ->
  forall fuel start t dt iter next rd tr, (0 <= iter)%Z -> (iter + Z.of_nat fuel <= i32_max)%Z ->
  ev_loop fuel e start t dt iter next rd tr <> Undefined.
Proof.
  intros HW. induction fuel as [|fuel IH]; intros start t dt iter next rd tr Hi Hf; [discriminate|].
  cbn [ev_loop]. rewrite HW. simpl.
  destruct (f_ltb t (e_target e)); [|discriminate]. destruct (f_ltb (e_target e) t); [discriminate|].
  destruct (iter =? i32_max)%Z eqn:E; [apply Z.eqb_eq in E; lia|].
  destruct (niter_limit_active e && _); [discriminate|]. apply IH; lia.
Qed.

Local Open Scope R_scope.
Section Ends.
Variable e : ev_env.
Variables t0 dt0 : f64.
Hypothesis HT : sane (e_target e).
Hypothesis Hd0 : sane dt0.
Hypothesis Hcfl : forall k, sane (e_cfl e k).
Hypothesis Ht0 : sane t0.
Hypothesis HN : niter_limit_active e = false.
Hypothesis HW : walltime_limit_active e = false.
Let T := e_target e.
Variable delta : R.
Hypothesis Hbig : bpow radix2 (-1000) <= fval T.
Hypothesis Hdelta : 2 * ulp64 (fval T) <= delta.
Hypothesis Hoff : forall k, delta <= fval (offered dt0 (e_cfl e) k).

Lemma ulp_small : 4 * ulp64 (fval T) <= fval T.
Proof.
  pose proof (bpow_gt_0 radix2 (-1000)) as P.
  assert (U : ulp64 (fval T) <= Rabs (fval T) * bpow radix2 (1 - 53)).
  { apply (ulp_FLT_le radix2 (-1074) 53). eapply Rle_trans; [|apply Rle_abs]. eapply Rle_trans; [|exact Hbig]. apply bpow_le; lia. }
  rewrite Rabs_pos_eq in U by lra.
  assert (B : bpow radix2 (1 - 53) <= / 4). { change (/ 4) with (bpow radix2 (-2)). apply bpow_le; lia. }
  assert (fval T * bpow radix2 (1 - 53) <= fval T * / 4) by (apply Rmult_le_compat_l; lra). lra.
Qed.

Lemma L_done fuel start t dt iter next rd tr : f_ltb t T = false ->
  ev_loop (S fuel) e start t dt iter next rd tr = Returns (EvRes true false false iter) t tr.
Proof. intros H. cbn [ev_loop]. fold T. now rewrite H. Qed.
Lemma L_step fuel start t dt iter next rd tr : is_finite t = true -> f_ltb t T = true -> iter <> i32_max ->
  ev_loop (S fuel) e start t dt iter next rd tr =
  ev_loop fuel e start (f_add t (clamp_dt T t dt)) (e_cfl e (length tr)) (iter + 1) next rd (tr ++ [(t, clamp_dt T t dt)]).
Proof.
  intros F H Hi. cbn [ev_loop]. fold T. rewrite H, HN, HW. simpl.
  destruct (f_ltb T t) eqn:E. { apply ltb_true in E; [|apply HT|auto]. apply ltb_true in H; [|auto|apply HT]. lra. }
  destruct (Z.eqb_spec iter i32_max); [contradiction|reflexivity].
Qed.

Lemma round_err x : RN x <= fval T -> 0 <= RN x -> x - / 2 * ulp64 (fval T) <= RN x.
Proof.
  intros H H0. pose proof (error_le_half_ulp_round radix2 fexp64 (fun n => negb (Z.even n)) x) as E. fold (RN x) in E.
  assert (U : ulp radix2 fexp64 (RN x) <= ulp64 (fval T)) by (apply ulp_le_pos; auto with typeclass_instances).
  apply Rabs_le_inv in E. lra.
Qed.

Definition reached (o : ev_out) (n : Z) : Prop :=
  exists r tf tr, o = Returns r tf tr /\ reach_target_time r = true /\ (iter_count r <= n)%Z.

(** close to the target: at most one more step *)
Lemma ends_near fuel start t dt iter next rd tr : Inv e t0 dt0 t tr -> dt = offered dt0 (e_cfl e) (length tr) ->
  fval T - 2 * ulp64 (fval T) <= fval t -> (2 <= fuel)%nat -> iter <> i32_max ->
  reached (ev_loop fuel e start t dt iter next rd tr) (iter + 1).
Proof.
  intros HI Hdt Hnear Hf Hi. destruct fuel as [|[|fuel]]; try lia.
  assert (Ft : is_finite t = true) by apply HI.
  destruct (f_ltb t T) eqn:E.
  - rewrite L_step; auto. subst dt.
    destruct (Inv_sane e t0 dt0 HT Ht0 _ _ HI E) as [St L].
    pose proof (Inv_step e t0 dt0 HT Hd0 Hcfl Ht0 _ _ HI E) as HI'. fold T in HI'.
    destruct (step_facts T t _ HT St (offered_sane e dt0 Hd0 Hcfl (length tr)) L) as (_ & _ & _ & S4 & S5).
    pose proof ulp_small as US. pose proof (ulp64_ge_0 (fval T)).
    set (d0 := offered dt0 (e_cfl e) (length tr)) in *. pose proof (Hoff (length tr)) as HO. fold d0 in HO.
    fold T in L. assert (G : fval T <= RN (fval t + fval d0)).
    { rewrite <- (RN_id (fval T)) by apply format_fval. apply RN_le. lra. }
    assert (X : fval (f_add t (clamp_dt T t d0)) = fval T).
    { destruct (f_ltb T (f_add t d0)); [apply S4; lra|lra]. }
    rewrite L_done.
    2:{ rewrite ltb_ok; [|apply HI'|apply HT]. apply Rlt_bool_false. lra. }
    eexists _, _, _. split; [reflexivity|]. simpl. split; [reflexivity|lia].
  - rewrite L_done; auto. eexists _, _, _. split; [reflexivity|]. simpl. split; [reflexivity|lia].
Qed.

Lemma ends_far : forall m fuel start t dt iter next rd tr, Inv e t0 dt0 t tr -> dt = offered dt0 (e_cfl e) (length tr) ->
  fval T - fval t <= INR m * (delta / 2) -> (m + 3 <= fuel)%nat -> (0 <= iter)%Z -> (iter + Z.of_nat m + 2 <= i32_max)%Z ->
  reached (ev_loop fuel e start t dt iter next rd tr) (iter + Z.of_nat m + 1).
Proof.
  pose proof ulp_small as US. pose proof (ulp64_ge_0 (fval T)) as U0.
  induction m as [|m IH]; intros fuel start t dt iter next rd tr HI Hdt Hd Hf H0 Hi.
  - simpl in Hd. destruct (ends_near fuel start t dt iter next rd tr) as (r & tf & tr' & A & B & C); auto; try lra; try lia.
    exists r, tf, tr'. repeat split; auto. lia.
  - destruct fuel as [|fuel]; [lia|]. assert (Ft : is_finite t = true) by apply HI.
    destruct (f_ltb t T) eqn:E.
    2:{ rewrite L_done; auto. eexists _, _, _. split; [reflexivity|]. simpl. split; [reflexivity|lia]. }
    rewrite L_step; auto; [|lia]. subst dt.
    destruct (Inv_sane e t0 dt0 HT Ht0 _ _ HI E) as [St L]. fold T in L.
    pose proof (Inv_step e t0 dt0 HT Hd0 Hcfl Ht0 _ _ HI E) as HI'. fold T in HI'.
    destruct (step_facts T t _ HT St (offered_sane e dt0 Hd0 Hcfl (length tr)) L) as (_ & _ & S3 & _ & S5).
    set (d0 := offered dt0 (e_cfl e) (length tr)) in *. pose proof (Hoff (length tr)) as HO. fold d0 in HO.
    set (d := clamp_dt T t d0) in *.
    assert (Hnext : e_cfl e (length tr) = offered dt0 (e_cfl e) (length (tr ++ [(t, d)]))).
    { rewrite app_length, Nat.add_1_r. reflexivity. }
    rewrite S_INR in Hd. destruct St as [_ Bt].
    destruct (f_ltb T (f_add t d0)).
    + destruct S5 as [S5 _].
      destruct (ends_near fuel start (f_add t d) (e_cfl e (length tr)) (iter + 1) next rd (tr ++ [(t, d)]))
        as (r & tf & tr' & A & B & C); auto; try lia.
      * destruct (Rle_lt_dec (fval T) (fval (f_add t d))) as [G|G]; [lra|].
        pose proof (back_ge (fval T) (fval t)) as K. rewrite S5 in *.
        pose proof (round_err (fval t + RN (fval T - fval t))) as K2. lra.
      * exists r, tf, tr'. repeat split; auto. lia.
    + destruct S5 as [S5 S6].
      assert (K2 : fval t + fval d0 - / 2 * ulp64 (fval T) <= RN (fval t + fval d0)) by (apply round_err; lra).
      destruct (IH fuel start (f_add t d) (e_cfl e (length tr)) (iter + 1)%Z next rd (tr ++ [(t, d)]))
        as (r & tf & tr' & A & B & C); auto; try lia; try lra.
      exists r, tf, tr'. repeat split; auto. lia.
Qed.
End Ends.
