(** Uniform states stay; the first-order step keeps densities and pressures positive. *)
Require Import Reals Lra.
From Verif Require Import Base Par Scan Scan_spec Dtt_segs Riemann Riemann_spec Riemann_proofs Riemann_pos Godunov Godunov_spec Godunov_graph Godunov_pure Godunov_cons Godunov_cover.
From Coq Require Import ZifyBool ZifyNat.
Local Open Scope R_scope.

Lemma cons_prim g c : 1 < g -> gas_state c -> physical (cons_to_prim c g) /\ conserved g (cons_to_prim c g) = c.
Proof.
  intros Hg [Hr He]. rewrite <- ptc_conserved. destruct c as [r e [mx my mz]]. unfold dotp in He; cbn in *.
  split.
  - split; cbn; [assumption|]. apply Rmult_lt_0_compat; [lra|].
    unfold rhoekin; cbn.
    replace (/ 2 * r * (mx / r * (mx / r) + my / r * (my / r) + mz / r * (mz / r)))
      with ((mx * mx + my * my + mz * mz) / (2 * r)) by (field; lra). lra.
  - apply cons_ext; cbn; unfold rhoekin; cbn; field; lra.
Qed.
Lemma csum_const {A} (f : A -> R) (c : cons) l : csum (fun x => cscal (f x) c) l = cscal (rsum f l) c.
Proof. induction l; [apply cons_ext; cbn; ring|]. cbn [csum fold_right]. unfold csum in IHl. rewrite IHl. unfold rsum. cbn [fold_right]. apply cons_ext; cbn; ring. Qed.
Lemma euler_cancel g p : csum (fun d => euler_flux g (normal d) p) dirs = czero.
Proof. unfold dirs. cbn [csum fold_right]. apply cons_ext; cbn; unfold dotp; cbn; ring. Qed.
Definition g0 : grad5 := let z := mkrv 0 0 0 in mkgrad z z z z z.
Lemma face_state_0 g t p s : face_state g t p g0 s = p.
Proof. destruct p as [r P [a b c]]. unfold face_state, g0. apply prim_ext; cbn; unfold rdot; cbn; ring. Qed.
Lemma slope_00 mode : slope_function mode 0 0 = 0.
Proof.
  destruct mode; cbn [slope_function]; auto.
  - unfold slope_van_leer_f. ring.
  - unfold van_leer_slope. destruct (Rlt_dec _ _); [lra|reflexivity].
  - unfold van_leer_slope_symetric. cbv zeta. rewrite Rabs_R0. destruct (Rlt_dec _ _); [lra|reflexivity].
  - unfold minmod. ring.
Qed.
Lemma gradL_0 mode a L : (forall d v, In v (L d) -> snd v = snd a) -> gradL mode a L = g0.
Proof.
  intros H. assert (Z : forall d fld, gdirL d fld a (L d) = 0).
  { intros d fld. unfold gdirL. assert (E : rsum (gterm d fld a) (L d) = 0).
    { specialize (H d). induction (L d) as [|v l IH]; [reflexivity|]. cbn [rsum fold_right]. unfold rsum in IH. rewrite IH by (intros; apply H; now right).
      unfold gterm. rewrite (H v) by now left. ring. }
    rewrite E. match goal with |- context [if ?b then _ else _] => destruct b end; [unfold Rdiv; apply Rmult_0_l|reflexivity]. }
  unfold gradL, grad3L. rewrite !Z, !slope_00. reflexivity.
Qed.
Lemma gradL_none a L : gradL SlopeNone a L = g0.
Proof. reflexivity. Qed.
Lemma gas_csum {A} (f : A -> cons) l : l <> [] -> (forall x, In x l -> gas_state (f x)) -> gas_state (csum f l).
Proof.
  induction l as [|x l IH]; intros N H; [congruence|]. destruct l as [|y l].
  - cbn [csum fold_right]. rewrite cadd_comm, cadd_0l. apply H. now left.
  - change (csum f (x :: y :: l)) with (cadd (f x) (csum f (y :: l))). apply gas_add; [apply H; now left|]. apply IH; [discriminate|]. intros; apply H; now right.
Qed.

Section First.
  Variables (bmin bmax : list gvec) (nreal : nat) (env : gd_env) (m : rmode) (mode : slope_mode) (gamma dx dt : R) (pdat ghosts : list cons).
  Hypothesis BO : blocks_ok bmin bmax.
  Hypothesis EO : gd_env_ok bmin bmax nreal env.
  Hypothesis NR : (nreal <= length bmin)%nat.
  Hypothesis LP : length pdat = (nreal * 8)%nat.
  Hypothesis LD : length (pdat ++ ghosts) = (length bmin * 8)%nat.
  Hypothesis G1 : 1 < gamma.
  Hypothesis DX : 0 < dx.
  Hypothesis SU : forall a, (a < nreal * 8)%nat -> surrounded bmin bmax a.
  Hypothesis GS : forall b, (b < length bmin * 8)%nat -> gas_state (nth b (pdat ++ ghosts) czero).
  Notation N := (length bmin * 8)%nat.
  Notation cel := (cell bmin bmax).
  Notation nei := (nbs bmin bmax env).
  Notation U := (pdat ++ ghosts).
  Notation W := (w gamma pdat ghosts).
  Notation Gr := (G bmin bmax env mode gamma dx pdat ghosts).
  Notation SD := (side bmin bmax env mode gamma dx dt pdat ghosts).
  Notation OUT := (outflow bmin bmax env m mode gamma dx dt pdat ghosts).
  Notation NEW := (newU bmin bmax env m mode gamma dx dt pdat ghosts).
  Notation Fl := (F bmin bmax env m mode gamma dx dt pdat ghosts).
  Notation h := (hc bmin bmax dx).
  Lemma h_pos a : (a < N)%nat -> 0 < h a.
  Proof. intros H. unfold hc, hreal. apply Rmult_lt_0_compat; auto. apply (IZR_lt 0). apply (cel_side bmin bmax BO). lia. Qed.
  Lemma nth_pdat a : (a < nreal * 8)%nat -> nth a pdat czero = nth a U czero.
  Proof. intros H. rewrite app_nth1 by lia. reflexivity. Qed.
  (** the outflow in terms of the departures from the cell's own flux *)
  Lemma out_split a : (a < nreal * 8)%nat ->
    OUT a = csum (fun d => csum (fun b => cscal (S bmin bmax dx a b) (csub (Fl d a b) (euler_flux gamma (normal d) (W a)))) (nei d a)) dirs.
  Proof.
    intros Ha. assert (HaN : (a < N)%nat) by lia. unfold outflow.
    set (D := fun d => csum (fun b => cscal (S bmin bmax dx a b) (csub (Fl d a b) (euler_flux gamma (normal d) (W a)))) (nei d a)).
    transitivity (csum (fun d => cadd (D d) (cscal (h a * h a) (euler_flux gamma (normal d) (W a)))) dirs).
    - apply csum_ext. intros d _. rewrite <- (areas bmin bmax nreal env dx BO EO DX a HaN (SU a Ha) d), <- csum_const. unfold D. rewrite <- csum_add.
      apply csum_ext. intros b _. unfold part, S. apply cons_ext; cbn; ring.
    - rewrite csum_add, csum_scal, euler_cancel. apply cons_ext; cbn; ring.
  Qed.
  (** uniform *)
  Lemma uniform u0 : (forall b, (b < N)%nat -> nth b U czero = u0) -> godunov_step env m mode gamma dx dt bmin bmax pdat ghosts nreal = Ok pdat.
  Proof.
    intros UN. rewrite godunov_step_ok by auto. f_equal. apply list_eq_nth_error. intros i. destruct (Nat.lt_ge_cases i (nreal * 8)) as [L|X].
    2: { rewrite !(proj2 (nth_error_None _ i)); auto; rewrite ?map_length, ?seq_length; lia. }
    rewrite nth_error_map, nth_error_seq by auto. cbn [option_map]. rewrite (nth_error_nth' pdat czero) by lia. f_equal.
    assert (HiN : (i < N)%nat) by lia.
    assert (WE : forall b, (b < N)%nat -> W b = W i) by (intros b Hb; unfold w; now rewrite !UN).
    assert (GE : forall b, (b < N)%nat -> Gr b = g0).
    { intros b Hb. unfold G. apply gradL_0. intros d v Hv. apply in_map_iff in Hv. destruct Hv as (c & <- & Hc). cbn [vw snd].
      apply (nei_lt bmin bmax nreal env BO EO) in Hc; auto. now rewrite (WE c), (WE b). }
    assert (SE : forall b c, (b < N)%nat -> SD b c = W i) by (intros b c Hb; unfold side; rewrite GE, face_state_0 by auto; auto).
    assert (OE : OUT i = czero).
    { rewrite out_split by auto. transitivity (csum (fun _ : dirn => czero) dirs); [|apply csum_zero]. apply csum_ext. intros d _.
      transitivity (csum (fun _ : nat => czero) (nei d i)); [|apply csum_zero]. apply csum_ext. intros b Hb. apply (nei_lt bmin bmax nreal env BO EO) in Hb; auto.
      unfold F. rewrite !SE by auto. rewrite flux_consistency; [apply cons_ext; cbn; ring|auto|]. apply cons_prim; auto. }
    rewrite Nat.add_0_l. unfold newU, dts. rewrite OE. apply cons_ext; cbn; ring.
  Qed.
  (** positivity *)
  Lemma positive lam : mode = SlopeNone -> m <> HLLC -> 0 < dt ->
    (forall b d, (b < N)%nat -> Rabs (dotp (p_vel (W b)) (normal d)) + cs gamma (W b) <= lam) ->
    forall a, (a < nreal * 8)%nat -> 6 * (dt * lam) <= h a -> gas_state (NEW a).
  Proof.
    intros EM HM DT LAM a Ha CFL. assert (HaN : (a < N)%nat) by lia. pose proof (h_pos a HaN) as HP.
    assert (SE : forall b c, SD b c = W b) by (intros b c; unfold side, G; rewrite EM; apply face_state_0).
    destruct (cons_prim gamma _ G1 (GS a HaN)) as (PA & CA). change (cons_to_prim (nth a U czero) gamma) with (W a) in PA, CA.
    set (k := dt / V bmin bmax dx a). assert (VP : 0 < V bmin bmax dx a) by (unfold V; apply Rmult_lt_0_compat; [apply Rmult_lt_0_compat|]; exact HP).
    assert (KP : 0 < k) by (unfold k; apply Rdiv_lt_0_compat; auto).
    set (T := fun d b => csub (cscal lam (nth a U czero)) (csub (Fl d a b) (euler_flux gamma (normal d) (W a)))).
    assert (TG : forall d b, In b (nei d a) -> gas_state (T d b)).
    { intros d b Hb. apply (nei_lt bmin bmax nreal env BO EO) in Hb; auto. unfold T, F. rewrite !SE, <- CA.
      apply flux_positivity; auto. apply cons_prim; auto. }
    assert (SP : forall d b, In b (nei d a) -> 0 < S bmin bmax dx a b).
    { intros d b Hb. apply (nbs_in _ _ _ _ BO EO) in Hb; auto. destruct Hb as (Hb & TB). unfold S.
      assert (S1 : (0 < q_side (cel a))%Z) by (apply (cel_side bmin bmax BO a); lia). assert (S2 : (0 < q_side (cel b))%Z) by (apply (cel_side bmin bmax BO b); lia).
      rewrite (surf_area d) by auto. assert (0 < area d (cel a) (cel b))%Z by (unfold area; apply Z.mul_pos_pos; eapply touch_ovl; eauto; apply other_axes; auto).
      apply IZR_lt in H. apply Rmult_lt_0_compat; [apply Rmult_lt_0_compat; auto|exact H]. }
    (* new = sum of shares + rest *)
    assert (EQ : NEW a = cadd (csum (fun d => csum (fun b => cscal (k * S bmin bmax dx a b) (T d b)) (nei d a)) dirs) (cscal (1 - 6 * (k * lam * (h a * h a))) (nth a U czero))).
    { unfold newU, dts. rewrite nth_pdat by auto. rewrite out_split by auto.
      set (D := fun d => csum (fun b => cscal (S bmin bmax dx a b) (csub (Fl d a b) (euler_flux gamma (normal d) (W a)))) (nei d a)).
      assert (E1 : forall d, csum (fun b => cscal (k * S bmin bmax dx a b) (T d b)) (nei d a) = cadd (cscal (k * lam * (h a * h a)) (nth a U czero)) (cscal (- k) (D d))).
      { intros d. rewrite <- (areas bmin bmax nreal env dx BO EO DX a HaN (SU a Ha) d). unfold D. rewrite <- csum_scal.
        transitivity (cadd (csum (fun b => cscal (S bmin bmax dx a b) (cscal (k * lam) (nth a U czero))) (nei d a)) (csum (fun b => cscal (- k) (cscal (S bmin bmax dx a b) (csub (Fl d a b) (euler_flux gamma (normal d) (W a))))) (nei d a))).
        - rewrite <- csum_add. apply csum_ext. intros b _. unfold T. apply cons_ext; cbn; ring.
        - f_equal. rewrite csum_const. apply cons_ext; cbn; unfold S; ring. }
      unfold dirs. cbn [csum fold_right]. fold (@csum nat). rewrite !E1. unfold k. apply cons_ext; cbn; field; lra. }
    rewrite EQ. apply gas_add_scal.
    - assert (K3 : k * lam * (h a * h a) = dt * lam / h a) by (unfold k, V; field; lra). rewrite K3.
      assert (6 * (dt * lam / h a) <= 1); [|lra]. replace (6 * (dt * lam / h a)) with ((6 * (dt * lam)) / h a) by (unfold Rdiv; ring).
      apply (Rmult_le_reg_r (h a)); auto. unfold Rdiv. rewrite Rmult_assoc, Rinv_l by lra. lra.
    - apply gas_csum; [discriminate|]. intros d _. apply gas_csum.
      + intros E. pose proof (areas bmin bmax nreal env dx BO EO DX a HaN (SU a Ha) d) as AR. rewrite E in AR. cbn in AR. assert (0 < h a * h a) by (apply Rmult_lt_0_compat; auto). lra.
      + intros b Hb. apply gas_scal; [apply Rmult_lt_0_compat; eauto|]. auto.
    - auto.
  Qed.
End First.
