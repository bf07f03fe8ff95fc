(** Property theorems C50 (see properties.jsonl): the SPH force kernels compute the equations, conserve momentum and energy. *)
Require Import Reals Lra.
From Verif Require Import Fmm_reps Sgfmm_mom.
From Verif Require Import Base Par BVH BVH_spec Fmm_spec Sgfmm_util Dtt_spec P_Dtt Sgfmm_spec P_Sgfmm Ncache Ncache_spec P_Ncache Sphd Sphd_spec Sphd_proofs.
From Coq Require Import ZifyBool ZifyNat.
Local Open Scope nat_scope.

(** C50.  In every mode, for all fields, neighbour lists that cover the current smoothing lengths, and every order of the
    work items: the kernel succeeds, writes for each of its particles the sum over all the particles of equations 34
    (acceleration) and 35 + 42 (internal energy), and nothing else. *)
Theorem C50_equations : forall mode dW Rkern hfact m alpha_u alpha_AV beta f n hold htol obj_cnt c order ax0 du0,
  sph_setup mode dW Rkern hfact m alpha_AV beta f n hold htol obj_cnt c ->
  Permutation order (seq 0 obj_cnt) -> obj_cnt <= length ax0 -> obj_cnt <= length du0 ->
  exists ax du, update_derivs mode dW Rkern hfact m alpha_u alpha_AV beta order f c (ax0, du0) = Ok (ax, du) /\
    length ax = length ax0 /\ length du = length du0 /\
    (forall i, i < obj_cnt ->
       (forall k, In k (@coords R) -> k (vget ax i) = total (fun j => acceleration mode dW hfact m alpha_AV beta (part_at mode f i) (part_at mode f j) k) n) /\
       nth i du 0%R = total (fun j => heating mode dW hfact m alpha_u alpha_AV beta (part_at mode f i) (part_at mode f j)) n) /\
    (forall i, obj_cnt <= i -> nth_error ax i = nth_error ax0 i /\ nth_error du i = nth_error du0 i).
Proof.
  intros mode dW Rkern hfact m alpha_u alpha_AV beta f n hold htol obj_cnt c order ax0 du0 [M0 H0 K0 F SG CP CC ON] HP LA LD.
  pose (v := fun i => match deriv_item mode dW Rkern hfact m alpha_u alpha_AV beta f c i with Ok s => s | _ => (vzero, 0%R) end).
  assert (I : forall i, i < obj_cnt -> deriv_item mode dW Rkern hfact m alpha_u alpha_AV beta f c i = Ok (v i) /\
    (forall k, In k (@coords R) -> k (fst (v i)) = total (fun j => acceleration mode dW hfact m alpha_AV beta (part_at mode f i) (part_at mode f j) k) n) /\
    snd (v i) = total (fun j => heating mode dW hfact m alpha_u alpha_AV beta (part_at mode f i) (part_at mode f j)) n).
  { intros i Hi. destruct (item_ok mode dW Rkern hfact m alpha_u alpha_AV beta f n M0 H0 K0 F SG CP hold htol obj_cnt c CC ON i Hi) as (s & E & A & B). unfold v. rewrite E. auto. }
  assert (IN : forall i, In i order <-> i < obj_cnt) by (intros i; rewrite HP, in_seq; lia).
  destruct (par_write2 (deriv_item mode dW Rkern hfact m alpha_u alpha_AV beta f c) v order) with (o := (ax0, du0)) as ([ax du] & E & L1 & L2 & X1 & X2).
  - eapply Permutation_NoDup; [symmetry; exact HP|apply seq_NoDup].
  - intros i Hi. apply IN in Hi. cbn [fst snd]. split; [now apply I|lia].
  - exists ax, du. cbn [fst snd] in *. split; [exact E|]. do 2 (split; auto). split.
    + intros i Hi. destruct (X1 i (proj2 (IN i) Hi)) as [Y1 Y2]. destruct (I i Hi) as (_ & A & B). unfold vget. rewrite (nth_error_nth _ _ _ Y1), (nth_error_nth _ _ _ Y2). auto.
    + intros i Hi. apply X2. rewrite IN. lia.
Qed.
Print Assumptions C50_equations.

(** The same, with the lists built by the code (C49) from the current smoothing lengths. *)
Theorem C50_with_lists : forall b code B hmin htol two_stage depth sd env mode dW Rkern hfact m alpha_u alpha_AV beta f n obj_cnt order ax0 du0,
  built Rleb b code (f_xyz f) (f_xyz f) n B -> (1 <= htol)%R -> (hmin <= 0)%R ->
  N.to_nat b <= depth -> N.to_nat b + 1 <= sd -> 0 < obj_cnt <= n -> nc_env_ok B obj_cnt env sd ->
  fewer_pairs (fun i j => i < obj_cnt /\ j < n /\ interacts (f_xyz f) (f_h f) htol Rkern i j) (2 ^ 32) ->
  (two_stage = true -> (exists nb, grid_code Rleb nb code) /\ fewer_pairs (near_leafs B (f_h f) htol Rkern) (2 ^ 32)) ->
  (0 < m)%R -> (0 < hfact)%R -> (0 <= Rkern)%R -> fields_ok mode f n -> signals_ok mode f alpha_AV beta n -> compact dW Rkern ->
  Permutation order (seq 0 obj_cnt) -> length ax0 = obj_cnt -> length du0 = obj_cnt ->
  exists c ax du, neighbours B (f_xyz f) (f_h f) hmin htol Rkern two_stage depth sd env obj_cnt = Ok c /\
    update_derivs mode dW Rkern hfact m alpha_u alpha_AV beta order f c (ax0, du0) = Ok (ax, du) /\
    forall i, i < obj_cnt ->
      (forall k, In k (@coords R) -> k (vget ax i) = total (fun j => acceleration mode dW hfact m alpha_AV beta (part_at mode f i) (part_at mode f j) k) n) /\
      nth i du 0%R = total (fun j => heating mode dW hfact m alpha_u alpha_AV beta (part_at mode f i) (part_at mode f j)) n.
Proof.
  intros b code B hmin htol two_stage depth sd env mode dW Rkern hfact m alpha_u alpha_AV beta f n obj_cnt order ax0 du0 HB HT HM HD HS OC EO FP F2 M0 H0 K0 F SG CP HP LA LD.
  assert (LX : length (f_xyz f) = n) by (destruct F; auto). rewrite <- LX in HB, OC, FP.
  destruct (C49_neighbours b code (f_xyz f) B (f_h f) hmin htol Rkern two_stage depth sd env obj_cnt) as (c & E & L); auto; try lra; try lia.
  - destruct F; lia.
  - intros h Hh. destruct F. apply Rlt_le. auto.
  - destruct (C50_equations mode dW Rkern hfact m alpha_u alpha_AV beta f n (f_h f) htol obj_cnt c order ax0 du0) as (ax & du & E2 & _ & _ & RR & _); auto; try lia.
    + constructor; auto; [|lia]. split; auto. intros i Hi. destruct F. unfold h_of. assert (0 < nth i (f_h f) 0)%R by (apply fo_hpos, nth_In; lia).
      rewrite <- (Rmult_1_l (nth i (f_h f) 0%R)) at 1. apply Rmult_le_compat_r; lra.
    + exists c, ax, du. auto.
Qed.
Print Assumptions C50_with_lists.

(** ** Conservation: all the particles are in the patch (no ghosts). *)
Section Conserve.
  Context (mode : av_mode) (dW : R -> R -> R) (Rkern hfact m alpha_u alpha_AV beta : R) (f : fields) (n : nat) (hold : list R) (htol : R) (c : ocache)
    (order : list nat) (ax0 ax : list (vec R)) (du0 du : list R).
  Hypothesis ST : sph_setup mode dW Rkern hfact m alpha_AV beta f n hold htol n c.
  Hypothesis HP : Permutation order (seq 0 n).
  Hypothesis LA : n <= length ax0.
  Hypothesis LD : n <= length du0.
  Hypothesis E : update_derivs mode dW Rkern hfact m alpha_u alpha_AV beta order f c (ax0, du0) = Ok (ax, du).
  Notation P := (part_at mode f).
  Notation acc := (acceleration mode dW hfact m alpha_AV beta).
  Notation heat := (heating mode dW hfact m alpha_u alpha_AV beta).
  Lemma ran i : i < n -> (forall k, In k (@coords R) -> k (vget ax i) = total (fun j => acc (P i) (P j) k) n) /\ nth i du 0%R = total (fun j => heat (P i) (P j)) n.
  Proof.
    destruct (C50_equations mode dW Rkern hfact m alpha_u alpha_AV beta f n hold htol n c order ax0 du0 ST HP LA LD) as (ax' & du' & E' & _ & _ & A & _). rewrite E in E'. injection E' as <- <-. apply A.
  Qed.
  Lemma acc_anti a b k : acc b a k = (- acc a b k)%R.
  Proof. unfold acceleration. rewrite (dist_sym (p_xyz b)), (dir_anti (p_xyz a) (p_xyz b)). cbv zeta. ring. Qed.
End Conserve.

(** No net force *)
Theorem C50_momentum : forall mode dW Rkern hfact m alpha_u alpha_AV beta f n hold htol c order ax0 du0 ax du k,
  sph_setup mode dW Rkern hfact m alpha_AV beta f n hold htol n c -> Permutation order (seq 0 n) -> n <= length ax0 -> n <= length du0 ->
  update_derivs mode dW Rkern hfact m alpha_u alpha_AV beta order f c (ax0, du0) = Ok (ax, du) -> In k (@coords R) ->
  total (fun i => (m * k (vget ax i))%R) n = 0%R.
Proof.
  intros mode dW Rkern hfact m alpha_u alpha_AV beta f n hold htol c order ax0 du0 ax du k ST HP LA LD E Hk.
  unfold total. rewrite Rsum_scal_l. rewrite (Rsum_ext _ _ (fun i => Rsum (fun j => acceleration mode dW hfact m alpha_AV beta (part_at mode f i) (part_at mode f j) k) (seq 0 n))).
  - rewrite antisym_sum; [ring|]. intros. apply acc_anti.
  - intros i Hi. apply in_seq in Hi. apply (ran mode dW Rkern hfact m alpha_u alpha_AV beta f n hold htol c order ax0 ax du0 du ST HP LA LD E i); [lia|auto].
Qed.
Print Assumptions C50_momentum.

Lemma dir_along p q k : In k (@coords R) -> exists t, forall k, In k (@coords R) -> direction p q k = (t * (k p - k q))%R.
Proof.
  intros _. unfold direction. destruct (Rlt_dec _ _).
  - exists 0%R. intros. ring.
  - exists (/ distance p q)%R. intros. unfold Rdiv. ring.
Qed.
(** No net torque, around any point x0 *)
Theorem C50_angular_momentum : forall mode dW Rkern hfact m alpha_u alpha_AV beta f n hold htol c order ax0 du0 ax du x0 k,
  sph_setup mode dW Rkern hfact m alpha_AV beta f n hold htol n c -> Permutation order (seq 0 n) -> n <= length ax0 -> n <= length du0 ->
  update_derivs mode dW Rkern hfact m alpha_u alpha_AV beta order f c (ax0, du0) = Ok (ax, du) ->
  total (fun i => (m * cross (vsub (vget (f_xyz f) i) x0) (vget ax i) k)%R) n = 0%R.
Proof.
  intros mode dW Rkern hfact m alpha_u alpha_AV beta f n hold htol c order ax0 du0 ax du x0 k ST HP LA LD E.
  set (P := part_at mode f). set (a := fun i j c => acceleration mode dW hfact m alpha_AV beta (P i) (P j) c).
  assert (G : forall c1 c2, In c1 (@coords R) -> In c2 (@coords R) ->
    Rsum (fun i => (c1 (vsub (vget (f_xyz f) i) x0) * c2 (vget ax i) - c2 (vsub (vget (f_xyz f) i) x0) * c1 (vget ax i))%R) (seq 0 n) = 0%R).
  { intros c1 c2 H1 H2. rewrite (Rsum_ext _ _ (fun i => Rsum (fun j => (c1 (vsub (vget (f_xyz f) i) x0) * a i j c2 - c2 (vsub (vget (f_xyz f) i) x0) * a i j c1)%R) (seq 0 n))).
    - apply antisym_sum. intros i j _ _. unfold a. rewrite (acc_anti _ _ _ _ _ _ (P j) (P i)), (acc_anti _ _ _ _ _ _ (P j) (P i) c1).
      rewrite !c_vsub by auto. change (vget (f_xyz f) i) with (p_xyz (P i)). change (vget (f_xyz f) j) with (p_xyz (P j)).
      unfold acceleration. cbv zeta. destruct (dir_along (p_xyz (P j)) (p_xyz (P i)) c1 H1) as (t & D). rewrite !D by auto. ring.
    - intros i Hi. apply in_seq in Hi. destruct (ran mode dW Rkern hfact m alpha_u alpha_AV beta f n hold htol c order ax0 ax du0 du ST HP LA LD E i) as [A _]; [lia|]. rewrite !A by auto. unfold total.
      rewrite <- !Rsum_scal_l. match goal with |- (Rsum ?f ?l - Rsum ?g ?l = _)%R => replace (Rsum f l - Rsum g l)%R with (Rsum f l + (-1) * Rsum g l)%R by ring end. rewrite <- Rsum_scal_l, <- Rsum_plus. apply Rsum_ext. intros j _. unfold a, P. ring. }
  unfold total. rewrite Rsum_scal_l. unfold cross. destruct k as [|[|k]]; rewrite G by auto using in_cx, in_cy, in_cz; ring.
Qed.
Print Assumptions C50_angular_momentum.

(** What the gas gains in internal energy it loses in kinetic energy *)
Theorem C50_energy : forall mode dW Rkern hfact m alpha_u alpha_AV beta f n hold htol c order ax0 du0 ax du,
  sph_setup mode dW Rkern hfact m alpha_AV beta f n hold htol n c -> Permutation order (seq 0 n) -> n <= length ax0 -> n <= length du0 ->
  update_derivs mode dW Rkern hfact m alpha_u alpha_AV beta order f c (ax0, du0) = Ok (ax, du) ->
  total (fun i => (m * (over (fun k => k (vget (f_vxyz f) i) * k (vget ax i)) + nth i du 0))%R) n = 0%R.
Proof.
  intros mode dW Rkern hfact m alpha_u alpha_AV beta f n hold htol c order ax0 du0 ax du ST HP LA LD E.
  set (P := part_at mode f). set (a := fun i j c => acceleration mode dW hfact m alpha_AV beta (P i) (P j) c). set (h := fun i j => heating mode dW hfact m alpha_u alpha_AV beta (P i) (P j)).
  unfold total. rewrite Rsum_scal_l. rewrite (Rsum_ext _ _ (fun i => Rsum (fun j => (over (fun k => k (p_vxyz (P i)) * a i j k) + h i j)%R) (seq 0 n))).
  - rewrite antisym_sum; [ring|]. intros i j _ _. unfold a, h, heating. cbv zeta. rewrite (approach_sym (P i) (P j)), (dist_sym (p_xyz (P j))).
    set (r := distance _ _). set (w := approach (P i) (P j)). rewrite (Rabs_minus_sym (p_P (P j))), (Rplus_comm (density hfact m (P j))).
    set (A := ((p_P (P i) + viscous mode hfact m alpha_AV beta (P i) (P j)) / (p_omega (P i) * density hfact m (P i) ^ 2))%R).
    set (B := ((p_P (P j) + viscous mode hfact m alpha_AV beta (P j) (P i)) / (p_omega (P j) * density hfact m (P j) ^ 2))%R).
    set (T := (- m * (A * dW r (p_h (P i)) + B * dW r (p_h (P j))))%R).
    assert (OI : forall v, over (fun k => k v * acceleration mode dW hfact m alpha_AV beta (P i) (P j) k)%R = (T * over (fun k => k v * direction (p_xyz (P i)) (p_xyz (P j)) k))%R).
    { intros v. rewrite <- over_scal. apply over_ext. intros k Hk. unfold acceleration. cbv zeta. fold r A B T. ring. }
    assert (OJ : forall v, over (fun k => k v * acceleration mode dW hfact m alpha_AV beta (P j) (P i) k)%R = (- T * over (fun k => k v * direction (p_xyz (P i)) (p_xyz (P j)) k))%R).
    { intros v. rewrite <- over_scal. apply over_ext. intros k Hk. rewrite (acc_anti _ _ _ _ _ _ (P i) (P j)). unfold acceleration. cbv zeta. fold r A B T. ring. }
    rewrite OI, OJ. assert (W : w = (over (fun k => k (p_vxyz (P i)) * direction (p_xyz (P i)) (p_xyz (P j)) k) - over (fun k => k (p_vxyz (P j)) * direction (p_xyz (P i)) (p_xyz (P j)) k))%R) by (unfold w, approach, over; ring).
    set (oi := over (fun k => k (p_vxyz (P i)) * direction (p_xyz (P i)) (p_xyz (P j)) k)%R) in *. set (oj := over (fun k => k (p_vxyz (P j)) * direction (p_xyz (P i)) (p_xyz (P j)) k)%R) in *. rewrite W. unfold T, Rdiv. ring.
  - intros i Hi. apply in_seq in Hi. destruct (ran mode dW Rkern hfact m alpha_u alpha_AV beta f n hold htol c order ax0 ax du0 du ST HP LA LD E i) as [A B]; [lia|]. rewrite B. unfold over. rewrite !A by auto using in_cx, in_cy, in_cz. unfold total.
    rewrite <- !Rsum_scal_l, <- !Rsum_plus. reflexivity.
Qed.
Print Assumptions C50_energy.

(** Artificial viscosity only heats: compared with a run without viscosity, on the same fields. *)
Theorem C50_viscosity_heats : forall mode dW Rkern hfact m alpha_u alpha_AV beta f n hold htol obj_cnt c order order' ax0 du0 ax du axn dun i,
  sph_setup mode dW Rkern hfact m alpha_AV beta f n hold htol obj_cnt c -> decreasing dW -> (forall o, In o (f_omega f) -> 0 < o)%R ->
  (0 <= beta)%R -> (forall j, j < n -> (0 <= alpha_of mode alpha_AV (part_at mode f j) * p_cs (part_at mode f j))%R) ->
  Permutation order (seq 0 obj_cnt) -> Permutation order' (seq 0 obj_cnt) -> obj_cnt <= length ax0 -> obj_cnt <= length du0 ->
  update_derivs mode dW Rkern hfact m alpha_u alpha_AV beta order f c (ax0, du0) = Ok (ax, du) ->
  update_derivs Constant dW Rkern hfact m alpha_u 0 0 order' f c (ax0, du0) = Ok (axn, dun) ->
  i < obj_cnt -> (nth i dun 0 <= nth i du 0)%R.
Proof.
  intros mode dW Rkern hfact m alpha_u alpha_AV beta f n hold htol obj_cnt c order order' ax0 du0 ax du axn dun i ST DC OM HB HA HP HP' LA LD E E' Hi.
  destruct (C50_equations mode dW Rkern hfact m alpha_u alpha_AV beta f n hold htol obj_cnt c order ax0 du0 ST HP LA LD) as (a1 & d1 & E1 & _ & _ & A1 & _). rewrite E in E1. injection E1 as <- <-.
  assert (ST' : sph_setup Constant dW Rkern hfact m 0 0 f n hold htol obj_cnt c).
  { destruct ST as [M0 H0 K0 F SG CP CC ON]. constructor; auto; [destruct F; constructor; auto; discriminate|]. intros _. split; [lra|]. intros j Hj. cbn. lra. }
  destruct (C50_equations Constant dW Rkern hfact m alpha_u 0 0 f n hold htol obj_cnt c order' ax0 du0 ST' HP' LA LD) as (a2 & d2 & E2 & _ & _ & A2 & _). rewrite E' in E2. injection E2 as <- <-.
  destruct (A1 i Hi) as [_ ->]. destruct (A2 i Hi) as [_ ->]. destruct ST as [M0 H0 K0 F SG CP CC ON]. unfold total.
  assert (MON : forall (g g' : nat -> R) l, (forall j, In j l -> g j <= g' j)%R -> (Rsum g l <= Rsum g' l)%R).
  { intros g g' l. induction l as [|j l IH]; intros H; [cbn; lra|]. rewrite !Rsum_cons. apply Rplus_le_compat; [apply H; simpl; auto|]. apply IH. intros; apply H; simpl; auto. }
  apply MON. intros j Hj. apply in_seq in Hj. set (p := part_at mode f i). set (q := part_at mode f j). set (p' := part_at Constant f i). set (q' := part_at Constant f j).
  assert (PO : part_ok p) by (apply (P_ok mode 0 f n); auto; lia). pose proof (rho_pos hfact m M0 H0 p PO) as RP.
  unfold heating. cbv zeta. change (p_xyz p') with (p_xyz p). change (p_xyz q') with (p_xyz q). change (p_h p') with (p_h p). change (p_h q') with (p_h q).
  change (p_P p') with (p_P p). change (p_P q') with (p_P q). change (p_omega p') with (p_omega p). change (p_omega q') with (p_omega q). change (p_u p') with (p_u p). change (p_u q') with (p_u q).
  change (density hfact m p') with (density hfact m p). change (density hfact m q') with (density hfact m q). change (approach p' q') with (approach p q).
  apply Rplus_le_compat_r. set (w := approach p q). set (r := distance _ _).
  assert (Z : viscous Constant hfact m 0 0 p' q' = 0%R) by (unfold viscous; destruct (Rlt_dec _ _); auto; unfold alpha_of; ring). rewrite Z.
  assert (OP : (0 < p_omega p)%R) by (apply OM; unfold p, part_at; cbn; apply nth_In; destruct F; lia).
  assert (VW : (viscous mode hfact m alpha_AV beta p q * w <= 0)%R).
  { assert (HA' : (0 <= alpha_of mode alpha_AV p * p_cs p)%R) by (apply HA; lia). pose proof (Rabs_pos w) as AW. pose proof (Rmult_le_pos _ _ HB AW) as BW.
    assert (SQ : (0 <= w * w)%R) by apply Rle_0_sqr.
    assert (G : forall s, (0 <= s)%R -> (- (1 / 2) * density hfact m p * s * w * w <= 0)%R).
    { intros s Hs. assert (RS : (0 <= density hfact m p * s)%R) by (apply Rmult_le_pos; lra). pose proof (Rmult_le_pos _ _ RS SQ). replace (- (1 / 2) * density hfact m p * s * w * w)%R with (- (1 / 2) * (density hfact m p * s * (w * w)))%R by ring. lra. }
    assert (G0 : (0 * w <= 0)%R) by lra.
    unfold viscous. cbv zeta. fold w r. destruct mode.
    - destruct (Rlt_dec w 0); auto. apply G. lra.
    - destruct (Rlt_dec w 0); auto. apply G. lra.
    - destruct (Rlt_dec r (1 / 10 ^ 9)) as [L|L]; auto. assert (R0 : (0 < r)%R) by (assert (0 < 1 / 10 ^ 9)%R by (apply Rdiv_lt_0_compat; [lra|apply pow_lt; lra]); lra).
      set (s := (alpha_of Disc alpha_AV p * p_cs p + (if Rlt_dec w 0 then beta * Rabs w else 0))%R). assert (Hs : (0 <= s)%R) by (unfold s; destruct (Rlt_dec w 0); lra).
      assert (HR : (0 <= p_h p / r)%R) by (apply Rlt_le, Rdiv_lt_0_compat; [apply PO|auto]).
      replace (- (1 / 2) * density hfact m p * (p_h p / r) * s * w * w)%R with (- (1 / 2) * density hfact m p * (p_h p / r * s) * w * w)%R by ring. apply G. now apply Rmult_le_pos. }
  assert (D : (dW r (p_h p) <= 0)%R) by (apply DC; [apply dist_pos|apply PO]).
  set (V := viscous mode hfact m alpha_AV beta p q) in *.
  assert (X : (0 < m / (p_omega p * density hfact m p ^ 2))%R) by (apply Rdiv_lt_0_compat; auto; apply Rmult_lt_0_compat; auto; now apply pow_lt).
  assert (Y : (0 <= (V * w) * dW r (p_h p))%R) by (rewrite <- Rmult_opp_opp; apply Rmult_le_pos; lra).
  pose proof (Rmult_le_pos _ _ (Rlt_le _ _ X) Y) as T. unfold Rdiv in *.
  replace (m * ((p_P p + V) * / (p_omega p * density hfact m p ^ 2)) * w * dW r (p_h p))%R with (m * ((p_P p + 0) * / (p_omega p * density hfact m p ^ 2)) * w * dW r (p_h p) + m * / (p_omega p * density hfact m p ^ 2) * (V * w * dW r (p_h p)))%R by ring. lra.
Qed.
Print Assumptions C50_viscosity_heats.

(** Artificial conductivity transports heat from hot to cold: it decreases the sum of u^2, and creates no energy. *)
Theorem C50_conduction : forall mode dW Rkern hfact m alpha_u alpha_AV beta f n hold htol c order order' ax0 du0 ax du axn dun,
  sph_setup mode dW Rkern hfact m alpha_AV beta f n hold htol n c -> decreasing dW -> (forall o, In o (f_omega f) -> 0 < o)%R -> (0 <= alpha_u)%R ->
  Permutation order (seq 0 n) -> Permutation order' (seq 0 n) -> n <= length ax0 -> n <= length du0 ->
  update_derivs mode dW Rkern hfact m alpha_u alpha_AV beta order f c (ax0, du0) = Ok (ax, du) ->
  update_derivs mode dW Rkern hfact m 0 alpha_AV beta order' f c (ax0, du0) = Ok (axn, dun) ->
  total (fun i => (nth i du 0 - nth i dun 0)%R) n = 0%R /\ (total (fun i => nth i (f_u f) 0 * (nth i du 0 - nth i dun 0))%R n <= 0)%R.
Proof.
  intros mode dW Rkern hfact m alpha_u alpha_AV beta f n hold htol c order order' ax0 du0 ax du axn dun ST DC OM HU HP HP' LA LD E E'.
  set (P := part_at mode f).
  pose (K := fun i j => (m * alpha_u * sqrt (Rabs (p_P (P i) - p_P (P j)) / ((density hfact m (P i) + density hfact m (P j)) / 2)) *
      ((dW (distance (p_xyz (P i)) (p_xyz (P j))) (p_h (P i)) / (p_omega (P i) * density hfact m (P i)) + dW (distance (p_xyz (P i)) (p_xyz (P j))) (p_h (P j)) / (p_omega (P j) * density hfact m (P j))) / 2))%R).
  assert (KS : forall i j, K j i = K i j).
  { intros i j. unfold K. rewrite (Rabs_minus_sym (p_P (P j))), (Rplus_comm (density hfact m (P j))), (dist_sym (p_xyz (P j))). f_equal. unfold Rdiv. ring. }
  assert (KN : forall i j, i < n -> j < n -> (K i j <= 0)%R).
  { destruct ST as [M0 H0 K0 F SG CP CC ON]. intros i j Hi Hj. unfold K.
    assert (PI : part_ok (P i)) by (apply (P_ok mode 0 f n); auto). assert (PJ : part_ok (P j)) by (apply (P_ok mode 0 f n); auto).
    pose proof (rho_pos hfact m M0 H0 _ PI) as RI. pose proof (rho_pos hfact m M0 H0 _ PJ) as RJ.
    assert (OI : (0 < p_omega (P i))%R) by (apply OM; cbn; apply nth_In; destruct F; lia). assert (OJ : (0 < p_omega (P j))%R) by (apply OM; cbn; apply nth_In; destruct F; lia).
    assert (W : forall p, In p [P i; P j] -> (dW (distance (p_xyz (P i)) (p_xyz (P j))) (p_h p) / (p_omega p * density hfact m p) <= 0)%R).
    { intros p Hp. assert (X : (0 < p_omega p * density hfact m p)%R) by (destruct Hp as [<-|[<-|[]]]; apply Rmult_lt_0_compat; auto). apply Rinv_0_lt_compat in X.
      assert (D : (dW (distance (p_xyz (P i)) (p_xyz (P j))) (p_h p) <= 0)%R) by (apply DC; [apply dist_pos|]; destruct Hp as [<-|[<-|[]]]; [apply PI|apply PJ]).
      unfold Rdiv. assert (N : (0 <= - dW (distance (p_xyz (P i)) (p_xyz (P j))) (p_h p))%R) by lra. pose proof (Rmult_le_pos _ _ N (Rlt_le _ _ X)). lra. }
    pose proof (W (P i) (or_introl eq_refl)) as W1. pose proof (W (P j) (or_intror (or_introl eq_refl))) as W2.
    assert (S : (0 <= m * alpha_u * sqrt (Rabs (p_P (P i) - p_P (P j)) / ((density hfact m (P i) + density hfact m (P j)) / 2)))%R) by (repeat apply Rmult_le_pos; try lra; apply sqrt_pos).
    set (s := (m * alpha_u * sqrt _)%R) in *. set (d := (_ + _)%R) in |- *. assert (N : (0 <= - (d / 2))%R) by (unfold d; lra). pose proof (Rmult_le_pos _ _ S N). lra. }
  assert (D : forall i, i < n -> (nth i du 0 - nth i dun 0)%R = Rsum (fun j => (K i j * (p_u (P i) - p_u (P j)))%R) (seq 0 n)).
  { intros i Hi. destruct (ran mode dW Rkern hfact m alpha_u alpha_AV beta f n hold htol c order ax0 ax du0 du ST HP LA LD E i Hi) as [_ ->].
    destruct (ran mode dW Rkern hfact m 0 alpha_AV beta f n hold htol c order' ax0 axn du0 dun ST HP' LA LD E' i Hi) as [_ ->]. unfold total.
    match goal with |- (Rsum ?f ?l - Rsum ?g ?l = _)%R => replace (Rsum f l - Rsum g l)%R with (Rsum f l + (-1) * Rsum g l)%R by ring end. rewrite <- Rsum_scal_l, <- Rsum_plus. apply Rsum_ext. intros j _. unfold heating, K. cbv zeta. fold P. unfold Rdiv. ring. }
  unfold total. split.
  - rewrite (Rsum_ext _ _ (fun i => Rsum (fun j => (K i j * (p_u (P i) - p_u (P j)))%R) (seq 0 n))) by (intros i Hi; apply in_seq in Hi; apply D; lia).
    apply antisym_sum. intros i j _ _. rewrite (KS i j). ring.
  - rewrite (Rsum_ext _ _ (fun i => Rsum (fun j => (p_u (P i) * (K i j * (p_u (P i) - p_u (P j))))%R) (seq 0 n))).
    2:{ intros i Hi. apply in_seq in Hi. rewrite Rsum_scal_l. rewrite D by lia. reflexivity. }
    set (S := Rsum _ _). assert (S2 : (S + S = Rsum (fun i => Rsum (fun j => (K i j * ((p_u (P i) - p_u (P j)) * (p_u (P i) - p_u (P j))))%R) (seq 0 n)) (seq 0 n))%R).
    { unfold S at 2. rewrite Rsum_swap. unfold S. rewrite <- Rsum_plus. apply Rsum_ext. intros i _. rewrite <- Rsum_plus. apply Rsum_ext. intros j _. rewrite (KS i j). ring. }
    assert (NEG : forall (g : nat -> R) l, (forall j, In j l -> g j <= 0)%R -> (Rsum g l <= 0)%R).
    { intros g l. induction l as [|j l IH]; intros H; [cbn; lra|]. rewrite Rsum_cons. assert (g j <= 0)%R by (apply H; simpl; auto). assert (Rsum g l <= 0)%R by (apply IH; intros; apply H; simpl; auto). lra. }
    assert ((S + S <= 0)%R); [|lra]. rewrite S2. apply NEG. intros i Hi. apply NEG. intros j Hj. apply in_seq in Hi, Hj. assert (KK : (0 <= - K i j)%R) by (assert (K i j <= 0)%R by (apply KN; lia); lra).
    pose proof (Rmult_le_pos _ _ KK (Rle_0_sqr (p_u (P i) - p_u (P j)))) as Q. unfold Rsqr in Q. lra.
Qed.
Print Assumptions C50_conduction.

(** Galilean invariance *)
Lemma c_move c x p : In c (@coords R) -> c (vadd x p) = (c x + c p)%R.
Proof. apply c_vadd. Qed.
Theorem C50_galilean : forall mode dW Rkern hfact m alpha_u alpha_AV beta f n hold htol obj_cnt c c' order order' ax0 du0 ax du ax' du' x v i,
  sph_setup mode dW Rkern hfact m alpha_AV beta f n hold htol obj_cnt c -> sph_setup mode dW Rkern hfact m alpha_AV beta (moved x v f) n hold htol obj_cnt c' ->
  Permutation order (seq 0 obj_cnt) -> Permutation order' (seq 0 obj_cnt) -> obj_cnt <= length ax0 -> obj_cnt <= length du0 ->
  update_derivs mode dW Rkern hfact m alpha_u alpha_AV beta order f c (ax0, du0) = Ok (ax, du) ->
  update_derivs mode dW Rkern hfact m alpha_u alpha_AV beta order' (moved x v f) c' (ax0, du0) = Ok (ax', du') ->
  i < obj_cnt -> vget ax' i = vget ax i /\ nth i du' 0%R = nth i du 0%R.
Proof.
  intros mode dW Rkern hfact m alpha_u alpha_AV beta f n hold htol obj_cnt c c' order order' ax0 du0 ax du ax' du' x v i ST ST' HP HP' LA LD E E' Hi.
  destruct (C50_equations mode dW Rkern hfact m alpha_u alpha_AV beta f n hold htol obj_cnt c order ax0 du0 ST HP LA LD) as (a1 & d1 & E1 & _ & _ & A1 & _). rewrite E in E1. injection E1 as <- <-.
  destruct (C50_equations mode dW Rkern hfact m alpha_u alpha_AV beta (moved x v f) n hold htol obj_cnt c' order' ax0 du0 ST' HP' LA LD) as (a2 & d2 & E2 & _ & _ & A2 & _). rewrite E' in E2. injection E2 as <- <-.
  destruct (A1 i Hi) as [B1 C1], (A2 i Hi) as [B2 C2]. destruct ST as [M0 H0 K0 F SG CP CC ON].
  set (P := part_at mode f). set (Q := part_at mode (moved x v f)).
  assert (PX : forall j, j < n -> p_xyz (Q j) = vadd x (p_xyz (P j)) /\ p_vxyz (Q j) = vadd v (p_vxyz (P j))).
  { intros j Hj. destruct F. unfold P, Q, part_at, moved. cbn [p_xyz p_vxyz f_xyz f_vxyz]. split.
    - rewrite (nth_indep _ _ (vadd x (0, 0, 0)%R)) by (rewrite map_length; lia). apply map_nth.
    - rewrite (nth_indep _ _ (vadd v (0, 0, 0)%R)) by (rewrite map_length; lia). apply map_nth. }
  assert (DI : forall p q, distance (vadd x p) (vadd x q) = distance p q).
  { intros p q. unfold distance. f_equal. unfold dist2. rewrite !(c_vadd cx), !(c_vadd cy), !(c_vadd cz) by auto using in_cx, in_cy, in_cz. ring. }
  assert (DR : forall p q k, In k (@coords R) -> direction (vadd x p) (vadd x q) k = direction p q k).
  { intros p q k Hk. unfold direction. rewrite DI, !c_vadd by auto. destruct (Rlt_dec _ _); auto. f_equal. ring. }
  assert (AP : forall j l, j < n -> l < n -> approach (Q j) (Q l) = approach (P j) (P l)).
  { intros j l Hj Hl. unfold approach. apply over_ext. intros k Hk. destruct (PX j Hj) as [-> ->], (PX l Hl) as [-> ->]. rewrite DR, !c_vadd by auto. f_equal. ring. }
  assert (VI : forall j l, j < n -> l < n -> viscous mode hfact m alpha_AV beta (Q j) (Q l) = viscous mode hfact m alpha_AV beta (P j) (P l)).
  { intros j l Hj Hl. unfold viscous. cbv zeta. rewrite AP by auto. destruct (PX j Hj) as [-> _], (PX l Hl) as [-> _]. rewrite DI. reflexivity. }
  assert (S : forall j k, j < n -> In k (@coords R) -> acceleration mode dW hfact m alpha_AV beta (Q i) (Q j) k = acceleration mode dW hfact m alpha_AV beta (P i) (P j) k).
  { intros j k Hj Hk. unfold acceleration. cbv zeta. rewrite !VI by (auto; lia). destruct (PX i ltac:(lia)) as [-> _], (PX j Hj) as [-> _]. rewrite DI, DR by auto. reflexivity. }
  assert (H : forall j, j < n -> heating mode dW hfact m alpha_u alpha_AV beta (Q i) (Q j) = heating mode dW hfact m alpha_u alpha_AV beta (P i) (P j)).
  { intros j Hj. unfold heating. cbv zeta. rewrite !VI, AP by (auto; lia). destruct (PX i ltac:(lia)) as [-> _], (PX j Hj) as [-> _]. rewrite DI. reflexivity. }
  assert (C : forall k, In k (@coords R) -> k (vget ax' i) = k (vget ax i)).
  { intros k Hk. rewrite B1, B2 by auto. apply Rsum_ext. intros j Hj. apply in_seq in Hj. apply S; auto. lia. }
  split.
  - pose proof (C cx in_cx) as X. pose proof (C cy in_cy) as Y. pose proof (C cz in_cz) as Z. destruct (vget ax' i) as [[x1 y1] z1], (vget ax i) as [[x2 y2] z2]. cbn in X, Y, Z. now subst.
  - rewrite C1, C2. apply Rsum_ext. intros j Hj. apply in_seq in Hj. apply H. lia.
Qed.
Print Assumptions C50_galilean.

(** sph_pressure_symetric_av (documented as equation 34, not called) pairs each viscous pressure with the pressure of the other particle. *)
Theorem C50_symetric_av_refuted : exists m ra2 rb2 Pa Pb oa ob qa qb ga gb, (0 < m /\ 0 < ra2 /\ 0 < rb2 /\ 0 < oa /\ 0 < ob)%R /\
  cx (sph_pressure_symetric_av m ra2 rb2 Pa Pb oa ob qa qb ga gb) <> (- m * ((Pa + qa) / (ra2 * oa) * cx ga + (Pb + qb) / (rb2 * ob) * cx gb))%R /\
  forall k, In k (@coords R) -> k (sph_pressure_symetric m ra2 rb2 (Pa + qa) (Pb + qb) oa ob ga gb) = (- m * ((Pa + qa) / (ra2 * oa) * k ga + (Pb + qb) / (rb2 * ob) * k gb))%R.
Proof.
  exists 1%R, 1%R, 1%R, 3%R, 5%R, 1%R, 1%R, 0%R, 0%R, (1, 0, 0)%R, (0, 0, 0)%R. split; [lra|].
  assert (I : inv_sat_zero (1 * 1) = 1%R) by (unfold inv_sat_zero; destruct (Req_EM_T _ _); lra). split.
  - unfold sph_pressure_symetric_av, sph_pressure_symetric. cbv zeta. rewrite I. unfold cx, vscal, vadd, vmap2. cbn [fst snd]. lra.
  - intros k Hk. unfold sph_pressure_symetric. cbv zeta. rewrite I. destruct Hk as [<-|[<-|[<-|[]]]]; unfold cx, cy, cz, vscal, vadd, vmap2; cbn [fst snd]; lra.
Qed.
Print Assumptions C50_symetric_av_refuted.

(** Two approaching particles *)
Definition exd_dW (r h : R) : R := if Rle_dec r (2 * h) then (-1)%R else 0%R.
Definition exd_f : fields := mkfields [(0, 0, 0); (1, 0, 0)]%R [(1, 0, 0); (0, 0, 0)]%R [1; 1]%R [1; 1]%R [1; 1]%R [1; 1]%R [1; 1]%R [].
Definition exd_c : ocache := mkoc [2; 2]%Z [0; 2]%Z 4 [0; 1; 1; 0].
Lemma exd_setup : sph_setup Constant exd_dW 2 1 1 1 2 exd_f 2 [1; 1]%R 1 2 exd_c.
Proof.
  constructor; try lra; auto.
  - constructor; try reflexivity; try discriminate; intros x Hx; cbn in Hx; destruct Hx as [<-|[<-|[]]]; lra.
  - intros _. split; [lra|]. intros i Hi. destruct i as [|[|i]]; cbn; try lra; lia.
  - intros r h Hh Hr. unfold exd_dW. destruct (Rle_dec _ _); lra.
  - assert (D : forall a b, a < 2 -> b < 2 -> interacts [(0, 0, 0); (1, 0, 0)]%R [1; 1]%R 1 2 a b).
    { intros a b Ha Hb. unfold interacts. cbv zeta. left. assert (H : (h_of [1; 1] a = 1)%R) by (destruct a as [|[|]]; try reflexivity; lia). rewrite H.
      replace (2 * (1 * 1))%R with (sqrt (2 * 2)) by (rewrite sqrt_square; lra). apply sqrt_le_1_alt.
      destruct a as [|[|a]]; [| |lia]; (destruct b as [|[|b]]; [| |lia]); unfold dist2, pos_of, cx, cy, cz; cbn [nth fst snd]; lra. }
    split.
    + intros a Ha. destruct a as [|[|a]]; [| |lia].
      * exists [0; 1]. split; [reflexivity|]. split; [repeat constructor; simpl; intuition lia|]. intros b. cbn [f_xyz exd_f length]. split.
        -- intros Hb. assert (b < 2) by (simpl in Hb; intuition lia). split; auto.
        -- intros [Hb _]. simpl. lia.
      * exists [1; 0]. split; [reflexivity|]. split; [repeat constructor; simpl; intuition lia|]. intros b. cbn [f_xyz exd_f length]. split.
        -- intros Hb. assert (b < 2) by (simpl in Hb; intuition lia). split; auto.
        -- intros [Hb _]. simpl. lia.
    + intros i Hi. destruct i as [|[|i]]; cbn in *; try lra; lia.
Qed.
Example C50_nonvacuous : exists ax du, update_derivs Constant exd_dW 2 1 1 1 1 2 [1; 0] exd_f exd_c ([(9, 9, 9); (9, 9, 9)]%R, [7; 7]%R) = Ok (ax, du) /\
  cx (vget ax 0) = (-5)%R /\ cx (vget ax 1) = 5%R /\ nth 0 du 0%R = (5 / 2)%R.
Proof.
  destruct (C50_equations Constant exd_dW 2 1 1 1 1 2 exd_f 2 [1; 1]%R 1 2 exd_c [1; 0] [(9, 9, 9); (9, 9, 9)]%R [7; 7]%R exd_setup) as (ax & du & E & _ & _ & A & _); [apply perm_swap|cbn; lia|cbn; lia|].
  exists ax, du. split; auto.
  assert (D1 : distance (0, 0, 0)%R (1, 0, 0)%R = 1%R) by (unfold distance, dist2, cx, cy, cz; cbn [fst snd]; replace ((0 - 1) * (0 - 1) + (0 - 0) * (0 - 0) + (0 - 0) * (0 - 0))%R with (1 * 1)%R by ring; apply sqrt_square; lra).
  assert (D0 : forall p, distance p p = 0%R) by (intros p; unfold distance; replace (dist2 p p) with 0%R by (unfold dist2; ring); apply sqrt_0).
  assert (T : (0 < 1 / 10 ^ 9 < 1)%R) by (split; [apply Rdiv_lt_0_compat; [lra|apply pow_lt; lra]|]; apply Rmult_lt_reg_r with (10 ^ 9)%R; [apply pow_lt; lra|]; unfold Rdiv; rewrite Rmult_assoc, Rinv_l by (apply pow_nonzero; lra); rewrite Rmult_1_r, Rmult_1_l; simpl; lra).
  assert (DD : forall p c, direction p p c = 0%R) by (intros p c; unfold direction; rewrite D0; destruct (Rlt_dec _ _); lra).
  assert (DX : forall c, direction (0, 0, 0)%R (1, 0, 0)%R c = (c (0, 0, 0)%R - c (1, 0, 0)%R)%R) by (intros c; unfold direction; rewrite D1; destruct (Rlt_dec _ _); [lra|]; unfold Rdiv; rewrite Rinv_1; ring).
  set (p := part_at Constant exd_f 0) in *. set (q := part_at Constant exd_f 1) in *.
  assert (AP : approach p q = (-1)%R) by (unfold approach, over, p, q, part_at, exd_f; cbn [p_xyz p_vxyz f_xyz f_vxyz nth]; rewrite !DX; unfold cx, cy, cz; cbn [fst snd]; lra).
  assert (V : viscous Constant 1 1 1 2 p q = (3 / 2)%R) by (unfold viscous; rewrite AP; destruct (Rlt_dec _ _); [|lra]; rewrite Rabs_left by lra; unfold density, alpha_of, p, part_at, exd_f; cbn [p_h p_cs f_h f_cs nth]; field).
  assert (V' : viscous Constant 1 1 1 2 q p = (3 / 2)%R) by (unfold viscous; rewrite approach_sym, AP; destruct (Rlt_dec _ _); [|lra]; rewrite Rabs_left by lra; unfold density, alpha_of, q, part_at, exd_f; cbn [p_h p_cs f_h f_cs nth]; field).
  assert (W1 : exd_dW 1 1 = (-1)%R) by (unfold exd_dW; destruct (Rle_dec _ _); lra).
  assert (AC : acceleration Constant exd_dW 1 1 1 2 p q cx = (-5)%R).
  { unfold acceleration. cbv zeta. rewrite V, V'. unfold density, p, q, part_at, exd_f; cbn [p_xyz p_h p_P p_omega f_xyz f_h f_P f_omega nth]. rewrite D1, DX, W1. unfold cx. cbn [fst snd]. field. }
  assert (A0 : forall x, acceleration Constant exd_dW 1 1 1 2 x x cx = 0%R) by (intros x; unfold acceleration; rewrite DD; ring).
  destruct (A 0) as [X0 Y0]; [lia|]. destruct (A 1) as [X1 Y1]; [lia|]. rewrite (X0 cx in_cx), (X1 cx in_cx), Y0. unfold total, Rsum. cbn [seq map fold_right]. fold p q.
  rewrite (acc_anti _ _ _ _ _ _ p q). rewrite AC, !A0. split; [ring|]. split; [ring|].
  unfold heating. cbv zeta. rewrite V, AP. assert (APP : approach p p = 0%R) by (unfold approach, over; rewrite !DD; ring). rewrite APP. replace (p_u p - p_u p)%R with 0%R by ring. unfold density, p, q, part_at, exd_f; cbn [p_xyz p_h p_P p_omega p_u f_xyz f_h f_P f_omega f_u nth]. rewrite D1, W1. replace (1 - 1)%R with 0%R by ring. field.
Qed.
