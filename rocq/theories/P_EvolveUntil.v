(** C61: evolve_until stops where and why it says, after steps that respect the CFL condition.
    The properties, then their proofs, concrete cases and the cases where a stronger claim is false. *)
From Coq Require Import ZArith List Bool Lia Reals Lra.
From Flocq Require Import Core BinarySingleNaN.
From Verif Require Import Base F64 EvolveUntil EvolveUntil_spec EvolveUntil_proofs EvolveUntil_ends.
Import ListNotations.
Local Open Scope R_scope.

(** The steps done, whether the call has returned or still runs: they follow each other from the time of the call;
    each starts before the target; its time step is nonnegative and never above the one the CFL condition (or the
    caller, for the first) proposed; time does not go back; a step ends at most one double past the target, and not
    past it when it starts in the second half of the way from 0 to the target, in which case, if the step proposed
    would pass the target, it ends exactly there. *)
Theorem C61_steps : forall fuel e t0 dt0 tf tr,
  sane (e_target e) -> sane t0 -> sane dt0 -> (forall k, sane (e_cfl e k)) ->
  (evolve_until fuel e t0 dt0 = Running tf tr \/ exists r, evolve_until fuel e t0 dt0 = Returns r tf tr) ->
  run t0 tr tf /\
  forall k t d, nth_error tr k = Some (t, d) ->
    fval t < fval (e_target e) /\
    0 <= fval d <= fval (offered dt0 (e_cfl e) k) /\
    fval t <= fval (f_add t d) <= fval (e_target e) + ulp64 (fval (e_target e)) /\
    (fval (e_target e) <= 2 * fval t ->
       fval (f_add t d) <= fval (e_target e) /\
       (fval (e_target e) < RN (fval t + fval (offered dt0 (e_cfl e) k)) -> fval (f_add t d) = fval (e_target e))).
Proof.
  intros fuel e t0 dt0 tf tr HT Ht Hd Hc H. pose proof (until_ok e t0 dt0 fuel HT Ht Hd Hc) as O.
  assert (I : Inv e t0 dt0 tf tr). { destruct H as [H|[r H]]; rewrite H in O; [exact O|apply O]. }
  destruct I as (R & G & _). split; [exact R|]. intros k t d E. exact (G k (t, d) E).
Qed.

(** The result: no exception; iter_count is the number of steps done; exactly one reason is given and it is true:
    - the target: the time reached is at least the target, by at most one double if a step was done (exactly the
      target if the run started in the second half of the way), and the limit of iterations was not met;
    - the iterations: exactly niter_max of them were done (one if niter_max is 0);
    - the wall time: a reading of the clock, maximal over the ranks, is at least the limit, and no earlier one was. *)
Theorem C61_result : forall fuel e t0 dt0,
  sane (e_target e) -> sane t0 -> sane dt0 -> (forall k, sane (e_cfl e k)) ->
  evolve_until fuel e t0 dt0 <> Throws /\
  forall r tf tr, evolve_until fuel e t0 dt0 = Returns r tf tr ->
    iter_count r = Z.of_nat (length tr) /\
    ((reach_target_time r = true /\ reach_niter_max r = false /\ reach_max_walltime r = false /\
        fval (e_target e) <= fval tf /\
        (tr <> [] -> fval tf <= fval (e_target e) + ulp64 (fval (e_target e))) /\
        (tr <> [] -> fval (e_target e) <= 2 * fval t0 -> fval tf = fval (e_target e)) /\
        (0 <= e_niter_max e -> tr = [] \/ Z.of_nat (length tr) < e_niter_max e)%Z) \/
     (reach_target_time r = false /\ reach_niter_max r = true /\ reach_max_walltime r = false /\
        (0 <= e_niter_max e)%Z /\ Z.of_nat (length tr) = Z.max 1 (e_niter_max e)) \/
     (reach_target_time r = false /\ reach_niter_max r = false /\ reach_max_walltime r = true /\
        (0 <= e_niter_max e -> Z.of_nat (length tr) < e_niter_max e)%Z /\
        tr <> [] /\ f_leb f_zero (e_max_walltime e) = true /\
        exists k, (1 <= k)%nat /\ f_leb (e_max_walltime e) (e_wt e k) = true /\
          forall j, (1 <= j < k)%nat -> f_leb (e_max_walltime e) (e_wt e j) = false)).
Proof.
  intros fuel e t0 dt0 HT Ht Hd Hc. pose proof (until_ok e t0 dt0 fuel HT Ht Hd Hc) as O.
  split. { intros H. rewrite H in O. exact O. }
  intros r tf tr H. rewrite H in O. destruct O as [I [HI F]]. split; [exact HI|].
  destruct I as (_ & _ & Ff & _ & B1 & B2).
  destruct F as [(A1 & A2 & A3 & A4 & A5)|[(A1 & A2 & A3 & A4 & A5)|(A1 & A2 & A3 & A4 & A5 & A6 & A7)]].
  - left. apply ltb_false in A4; [|auto|apply HT]. repeat split; auto.
    + intros NE H2. specialize (B2 H2 NE). lra.
    + intros N. apply A5. unfold niter_limit_active. now apply Z.leb_le.
  - right; left. apply Z.leb_le in A4. auto.
  - right; right. repeat split; auto. intros N. apply A6. unfold niter_limit_active. now apply Z.leb_le.
Qed.

(** With a limit of iterations and no limit of wall time, the call returns, after at most that many turns. *)
Theorem C61_returns : forall fuel e t0 dt0,
  sane (e_target e) -> sane t0 -> sane dt0 -> (forall k, sane (e_cfl e k)) ->
  (0 <= e_niter_max e < 2 ^ 31)%Z -> f_leb f_zero (e_max_walltime e) = false ->
  (Z.max 1 (e_niter_max e) <= Z.of_nat fuel)%Z ->
  exists r tf tr, evolve_until fuel e t0 dt0 = Returns r tf tr /\ (Z.of_nat (length tr) <= Z.max 1 (e_niter_max e))%Z.
Proof.
  intros fuel e t0 dt0 HT Ht Hd Hc HN HW Hf.
  destruct (C61_result fuel e t0 dt0 HT Ht Hd Hc) as [NT R].
  assert (HN' : niter_limit_active e = true) by (unfold niter_limit_active; apply Z.leb_le; lia).
  assert (E : match evolve_until fuel e t0 dt0 with Running _ _ | Undefined => False | _ => True end).
  { unfold evolve_until. apply loop_ends; auto; unfold i32_max; lia. }
  destruct (evolve_until fuel e t0 dt0) as [r tf tr| | |]; try contradiction; try congruence.
  exists r, tf, tr. split; [reflexivity|].
  destruct (R r tf tr eq_refl) as [_ [(_ & _ & _ & _ & _ & _ & L)|[(_ & _ & _ & _ & L)|(_ & _ & _ & L & _)]]].
  - destruct (L ltac:(lia)) as [->|L']; simpl; lia.
  - lia.
  - specialize (L ltac:(lia)). lia.
Qed.

(** Without any limit, the target is reached as soon as the time steps proposed stay above some delta, itself at least
    two spacings of doubles at the target: after at most m + 1 steps when m halves of delta cover the way (and the
    counter of iterations, an i32, does not overflow). *)
Theorem C61_reaches_target : forall fuel e t0 dt0 delta m,
  sane (e_target e) -> sane t0 -> sane dt0 -> (forall k, sane (e_cfl e k)) ->
  (e_niter_max e < 0)%Z -> f_leb f_zero (e_max_walltime e) = false ->
  bpow radix2 (-1000) <= fval (e_target e) -> 2 * ulp64 (fval (e_target e)) <= delta ->
  (forall k, delta <= fval (offered dt0 (e_cfl e) k)) ->
  fval (e_target e) - fval t0 <= INR m * (delta / 2) -> (m + 3 <= fuel)%nat -> (Z.of_nat m + 2 < 2 ^ 31)%Z ->
  exists r tf tr, evolve_until fuel e t0 dt0 = Returns r tf tr /\ reach_target_time r = true /\ (length tr <= m + 1)%nat.
Proof.
  intros fuel e t0 dt0 delta m HT Ht Hd Hc HN HW HB HD HO Hm Hf Hi.
  assert (HN' : niter_limit_active e = false) by (unfold niter_limit_active; apply Z.leb_gt; lia).
  assert (X : reached (evolve_until fuel e t0 dt0) (0 + Z.of_nat m + 1)).
  { unfold evolve_until. apply (ends_far e t0 dt0 HT Hd Hc Ht HN' HW delta); auto.
    - apply Inv0; auto.
    - lia.
    - unfold i32_max. lia. }
  destruct X as (r & tf & tr & A & B & C). exists r, tf, tr. split; [exact A|]. split; [exact B|].
  destruct (C61_result fuel e t0 dt0 HT Ht Hd Hc) as [_ R]. destruct (R r tf tr A) as [L _]. lia.
Qed.

(** Undefined behaviour needs a limit of wall time or 2^31 - 1 iterations. *)
Theorem C61_defined : forall fuel e t0 dt0, f_leb f_zero (e_max_walltime e) = false -> (Z.of_nat fuel < 2 ^ 31)%Z ->
  evolve_until fuel e t0 dt0 <> Undefined.
Proof. intros. unfold evolve_until. apply loop_no_ub; auto; unfold i32_max; lia. Qed.

(** Nothing is done when the target is not ahead. *)
Theorem C61_nothing_to_do : forall fuel e t0 dt0, is_finite t0 = true -> is_finite (e_target e) = true ->
  fval (e_target e) <= fval t0 -> evolve_until (S fuel) e t0 dt0 = Returns (EvRes true false false 0) t0 [].
Proof.
  intros fuel e t0 dt0 F1 F2 H. unfold evolve_until. cbn [ev_loop]. rewrite ltb_ok; auto. rewrite Rlt_bool_false; auto.
Qed.

(** ---- concrete cases ---- *)
Definition ten_env (niter : Z) : ev_env := EvEnv (f_of_Z 10) niter (f_of_Z (-1)) (fun _ => f_of_Z 3) (fun _ => f_zero).
Lemma sane_of_Z z : (0 <= z < 2 ^ 50)%Z -> sane (f_of_Z z).
Proof.
  intros H. destruct (of_Z_ok z) as [A B]; [lia|]. split; [exact B|]. rewrite A, RN_id by (apply format_Z; lia).
  split; [apply IZR_le; lia|]. eapply Rle_trans; [apply IZR_le; apply Z.lt_le_incl; apply H|].
  change (IZR (2 ^ 50)) with (bpow radix2 50). apply bpow_le; lia.
Qed.
Example C61_sane_case : forall niter, sane (e_target (ten_env niter)) /\ sane f_zero /\ (forall k, sane (e_cfl (ten_env niter) k)).
Proof.
  intros. repeat split; try (intros; apply sane_of_Z; lia); try (intros; apply (sane_of_Z 3); lia); try (apply (sane_of_Z 10); lia); try reflexivity; simpl; try lra.
Qed.
(** the result with the doubles as sign, mantissa and exponent: B2SF *)
Definition shown (o : ev_out) : option (ev_res * SpecFloat.spec_float * list (SpecFloat.spec_float * SpecFloat.spec_float)) :=
  match o with Returns r t tr => Some (r, B2SF t, map (fun p => (B2SF (fst p), B2SF (snd p))) tr) | _ => None end.
Definition sfZ (z : Z) : SpecFloat.spec_float := B2SF (f_of_Z z).
(** dt = 0 at first, then 3, 3, 3 and the last clamped to 1 *)
Example C61_case_target :
  shown (evolve_until 10 (ten_env (-1)) f_zero f_zero) =
  Some (EvRes true false false 5, sfZ 10,
    [(sfZ 0, sfZ 0); (sfZ 0, sfZ 3); (sfZ 3, sfZ 3); (sfZ 6, sfZ 3); (sfZ 9, sfZ 1)]).
Proof. vm_compute. reflexivity. Qed.
Example C61_case_niter :
  shown (evolve_until 10 (ten_env 2) f_zero (f_of_Z 3)) =
  Some (EvRes false true false 2, sfZ 6, [(sfZ 0, sfZ 3); (sfZ 3, sfZ 3)]).
Proof. vm_compute. reflexivity. Qed.
(** a limit of 12 s of wall time, 2 s per step: the clock is read after every step *)
Example C61_case_walltime :
  option_map (fun p => fst (fst p))
    (shown (evolve_until 10 (EvEnv (f_of_Z 100) (-1) (f_of_Z 12) (fun _ => f_of_Z 3) (fun k => f_of_Z (2 * Z.of_nat k))) f_zero (f_of_Z 3)))
  = Some (EvRes false false true 6).
Proof. vm_compute. reflexivity. Qed.

(** ---- stronger claims that are false ---- *)
Definition returned (o : ev_out) : option (ev_res * f64) := match o with Returns r t _ => Some (r, t) | _ => None end.
(** The target can be passed by one double: from 3 * 2^-53 to 1.5 + 2^-52, the call ends at 1.5 + 2^-51. *)
Definition two_m (k : Z) : f64 := f_div (f_of_Z 1) (f_of_Z (2 ^ k)).
Definition T_odd : f64 := f_add (f_div (f_of_Z 3) (f_of_Z 2)) (two_m 52).
Theorem C61_never_past_refuted :
  option_map (fun p => (fst p, f_ltb T_odd (snd p)))
    (returned (evolve_until 10 (EvEnv T_odd (-1) (f_of_Z (-1)) (fun _ => f_of_Z 2) (fun _ => f_zero)) (f_mul (f_of_Z 3) (two_m 53)) (f_of_Z 2)))
  = Some (EvRes true false false 1, true).
Proof. vm_compute. reflexivity. Qed.
(** reach_target_time can be false though the target is reached: by the last iteration allowed. *)
Theorem C61_flag_refuted :
  option_map (fun p => (fst p, f_eqb (snd p) (f_of_Z 6)))
    (returned (evolve_until 10 (EvEnv (f_of_Z 6) 2 (f_of_Z (-1)) (fun _ => f_of_Z 3) (fun _ => f_zero)) f_zero (f_of_Z 3)))
  = Some (EvRes false true false 2, true).
Proof. vm_compute. reflexivity. Qed.
(** niter_max = 0 still does one step. *)
Theorem C61_zero_niter_refuted :
  option_map (fun p => (fst p, f_ltb f_zero (snd p))) (returned (evolve_until 10 (ten_env 0) f_zero (f_of_Z 3)))
  = Some (EvRes false true false 1, true).
Proof. vm_compute. reflexivity. Qed.
(** A generous limit of wall time is undefined behaviour: 10^12 s, 1 s per step; the estimate of the steps left is
    limited to the largest i32, to which the number of the iteration is then added. *)
Theorem C61_walltime_ub_refuted :
  evolve_until 10 (EvEnv (f_of_Z 100) (-1) (f_of_Z (10 ^ 12)) (fun _ => f_of_Z 3) (fun k => f_of_Z (Z.of_nat k))) f_zero (f_of_Z 3) = Undefined.
Proof. vm_compute. reflexivity. Qed.
(** Without limits, time steps too small to change the time are never noticed: the call does not return. *)
Definition stall_env : ev_env := EvEnv (f_of_Z 2) (-1) (f_of_Z (-1)) (fun _ => two_m 60) (fun _ => f_zero).
Theorem C61_stall_refuted : forall fuel, match evolve_until fuel stall_env (f_of_Z 1) (two_m 60) with Returns _ _ _ | Throws => False | _ => True end.
Proof.
  assert (H1 : f_ltb (f_of_Z 1) (f_of_Z 2) = true) by (vm_compute; reflexivity).
  assert (H2 : f_ltb (f_of_Z 2) (f_of_Z 1) = false) by (vm_compute; reflexivity).
  assert (H3 : niter_limit_active stall_env = false) by reflexivity.
  assert (H4 : walltime_limit_active stall_env = false) by (vm_compute; reflexivity).
  assert (H5 : f_add (f_of_Z 1) (two_m 60) = f_of_Z 1) by (apply B2SF_inj; vm_compute; reflexivity).
  assert (H6 : clamp_dt (f_of_Z 2) (f_of_Z 1) (two_m 60) = two_m 60) by (unfold clamp_dt; rewrite H5, H2; reflexivity).
  intros fuel. unfold evolve_until. rewrite H4. generalize (@nil (f64 * f64)). generalize 1%nat.
  generalize i32_max at 1 as next. generalize 0%Z.
  induction fuel as [|fuel IH]; intros it next rd tr; [exact I|]. cbn [ev_loop]. rewrite H3, H4.
  change (e_target stall_env) with (f_of_Z 2). rewrite H1, H2, H6, H5. change (e_cfl stall_env (length tr)) with (two_m 60).
  cbn [andb]. destruct (it =? i32_max)%Z; [exact I|]. apply IH.
Qed.

Print Assumptions C61_steps.
Print Assumptions C61_result.
Print Assumptions C61_returns.
Print Assumptions C61_reaches_target.
Print Assumptions C61_defined.
Print Assumptions C61_nothing_to_do.
Print Assumptions C61_never_past_refuted.
Print Assumptions C61_stall_refuted.
