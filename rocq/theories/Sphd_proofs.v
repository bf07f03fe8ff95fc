(** The SPH derivatives: sums of pair terms, and their symmetries. *)
Require Import Reals Lra.
From Verif Require Import Base Par BVH BVH_spec Fmm_spec Fmm_reps Sgfmm_util Sgfmm_mom Sgfmm_tree Dtt_spec Ncache Ncache_spec Ncache_own Ncache_main Sphd Sphd_spec.
From Coq Require Import ZifyBool ZifyNat.
Local Open Scope nat_scope.

Lemma c_vsub c u v : In c (@coords R) -> c (vsub u v) = (c u - c v)%R.
Proof. destruct u as [[x y] z], v as [[x' y'] z']. intros [<-|[<-|[<-|[]]]]; reflexivity. Qed.
Lemma c_vadd c u v : In c (@coords R) -> c (vadd u v) = (c u + c v)%R.
Proof. destruct u as [[x y] z], v as [[x' y'] z']. intros [<-|[<-|[<-|[]]]]; reflexivity. Qed.
Lemma c_vscal c k v : In c (@coords R) -> c (vscal k v) = (k * c v)%R.
Proof. destruct v as [[x y] z]. intros [<-|[<-|[<-|[]]]]; reflexivity. Qed.
Lemma in_cx : In (@cx R) coords. Proof. simpl; auto. Qed.
Lemma in_cy : In (@cy R) coords. Proof. simpl; auto. Qed.
Lemma in_cz : In (@cz R) coords. Proof. simpl; auto. Qed.
Lemma vdot_over u v : vdot u v = over (fun c => c u * c v)%R.
Proof. destruct u as [[x y] z], v as [[x' y'] z']. reflexivity. Qed.
Lemma over_ext s s' : (forall c, In c (@coords R) -> s c = s' c) -> over s = over s'.
Proof. intros H. unfold over. rewrite (H cx in_cx), (H cy in_cy), (H cz in_cz). reflexivity. Qed.
Lemma over_scal k s : over (fun c => k * s c)%R = (k * over s)%R.
Proof. unfold over. ring. Qed.
Lemma vdot_dist p q : vdot (vsub p q) (vsub p q) = dist2 p q.
Proof. destruct p as [[x y] z], q as [[x' y'] z']. reflexivity. Qed.
Lemma dist_pos p q : (0 <= distance p q)%R.
Proof. apply sqrt_pos. Qed.
Lemma dist_sym p q : distance p q = distance q p.
Proof. unfold distance. now rewrite dist2_sym. Qed.
Lemma isp_dir p q c : In c (@coords R) -> (inv_sat_positive (distance p q) * (c p - c q) = direction p q c)%R.
Proof.
  intros _. unfold inv_sat_positive, direction. destruct (Rle_dec _ _), (Rlt_dec _ _); try lra; unfold Rdiv; ring.
Qed.
Lemma dir_anti p q c : direction q p c = (- direction p q c)%R.
Proof. unfold direction. rewrite (dist_sym q p). destruct (Rlt_dec _ _); [ring|]. unfold Rdiv. ring. Qed.
Lemma approach_sym a b : approach b a = approach a b.
Proof. unfold approach, over. rewrite !(dir_anti (p_xyz a) (p_xyz b)). ring. Qed.

Section Pair.
  Context (mode : av_mode) (dW : R -> R -> R) (Rkern hfact m alpha_u alpha_AV beta : R).
  Notation addp := (add_pair mode dW hfact m alpha_u alpha_AV beta).
  Notation acc := (acceleration mode dW hfact m alpha_AV beta).
  Notation heat := (heating mode dW hfact m alpha_u alpha_AV beta).
  Notation rho := (density hfact m).
  Hypothesis M0 : (0 < m)%R.
  Hypothesis H0 : (0 < hfact)%R.
  (** what the equations need of a particle *)
  Definition part_ok (p : part) : Prop := (0 < p_h p /\ p_omega p <> 0)%R.
  (** signal velocities are not negative (automatic for q_av_disc) *)
  Definition part_sig (p : part) : Prop := (mode <> Disc -> 0 <= alpha_of mode alpha_AV p * p_cs p)%R.
  Lemma rho_eq p : rho_h m (p_h p) hfact = rho p.
  Proof. unfold rho_h, density. ring. Qed.
  Lemma rho_pos p : part_ok p -> (0 < rho p)%R.
  Proof. intros [H _]. unfold density. apply Rmult_lt_0_compat; auto. apply pow_lt. apply Rdiv_lt_0_compat; auto. Qed.

  Definition q_code (a b : part) (vr rab : R) : R :=
    let al := alpha_of mode alpha_AV a in
    let vsig := (al * p_cs a + beta * Rabs vr)%R in
    match mode with Disc => q_av_disc (rho a) (p_h a) rab al (p_cs a) vsig vr | _ => q_av (rho a) vsig vr end.
  Lemma q_code_eq a b : part_ok a -> part_sig a -> (mode <> Disc -> 0 <= beta)%R -> q_code a b (approach a b) (distance (p_xyz a) (p_xyz b)) = viscous mode hfact m alpha_AV beta a b.
  Proof.
    intros PA PS HB. pose proof (rho_pos a PA) as RA. unfold q_code, viscous. cbv zeta. set (w := approach a b). set (r := distance _ _). assert (Hr : (0 <= r)%R) by apply dist_pos. pose proof (Rabs_pos w) as AW.
    assert (G : mode <> Disc -> q_av (rho a) (alpha_of mode alpha_AV a * p_cs a + beta * Rabs w) w =
      (if Rlt_dec w 0 then - (1 / 2) * rho a * (alpha_of mode alpha_AV a * p_cs a + beta * Rabs w) * w else 0)%R).
    { intros ND. specialize (PS ND). specialize (HB ND). unfold q_av. set (s := (alpha_of mode alpha_AV a * p_cs a + beta * Rabs w)%R). assert (Hs : (0 <= s)%R) by (unfold s; pose proof (Rmult_le_pos _ _ HB AW); lra).
      assert (RS : (0 <= rho a * s)%R) by (apply Rmult_le_pos; lra).
      destruct (Rlt_dec w 0) as [L|L].
      - apply Rmax_left. replace (- (1 / 2) * rho a * s * w)%R with ((1 / 2) * ((rho a * s) * (- w)))%R by ring. assert (NW : (0 <= - w)%R) by lra. pose proof (Rmult_le_pos _ _ RS NW). lra.
      - apply Rmax_right. replace (- (1 / 2) * rho a * s * w)%R with (- ((1 / 2) * ((rho a * s) * w)))%R by ring. assert (NW : (0 <= w)%R) by lra. pose proof (Rmult_le_pos _ _ RS NW). lra. }
    destruct mode eqn:EM; [apply G; discriminate|apply G; discriminate|]. clear G.
    unfold q_av_disc, inv_sat_positive, alpha_of. cbv zeta. destruct (Rle_dec (1 / 10 ^ 9) r) as [L|L], (Rlt_dec r (1 / 10 ^ 9)) as [L'|L']; try lra.
    - assert (R0 : (0 < r)%R) by (assert (0 < 1 / 10 ^ 9)%R by (apply Rdiv_lt_0_compat; [lra|apply pow_lt; lra]); lra).
      rewrite (Rabs_right (1 / r)) by (apply Rle_ge; apply Rlt_le, Rdiv_lt_0_compat; lra). destruct (Rlt_dec w 0); unfold Rdiv; ring.
    - rewrite Rabs_R0. ring.
  Qed.

  Lemma add_pair_eq a b s : part_ok a -> part_ok b -> part_sig a -> part_sig b -> (mode <> Disc -> 0 <= beta)%R ->
    (forall c, In c (@coords R) -> c (fst (addp a b s)) = (c (fst s) + acc a b c)%R) /\ snd (addp a b s) = (snd s + heat a b)%R.
  Proof.
    intros PA PB SA SB HB. destruct s as [dv du].
    pose proof (rho_pos a PA) as RA. pose proof (rho_pos b PB) as RB. destruct PA as [PA OA], PB as [PB OB].
    pose proof (q_code_eq a b (conj PA OA) SA HB) as QA. pose proof (q_code_eq b a (conj PB OB) SB HB) as QB. rewrite (approach_sym a b), (dist_sym (p_xyz b)) in QB. rename QB into QB'.
    assert (VR : vdot (vsub (p_vxyz a) (p_vxyz b)) (vscal (inv_sat_positive (distance (p_xyz a) (p_xyz b))) (vsub (p_xyz a) (p_xyz b))) = approach a b).
    { rewrite vdot_over. unfold approach. apply over_ext. intros c Hc. rewrite c_vscal, !c_vsub by auto. rewrite isp_dir by auto. reflexivity. }
    assert (IZ : forall p, (0 < rho p)%R -> (p_omega p <> 0)%R -> inv_sat_zero (rho p * rho p * p_omega p) = (/ (p_omega p * rho p ^ 2))%R).
    { intros p Hp Ho. unfold inv_sat_zero. destruct (Req_EM_T _ _) as [E|E].
      - exfalso. apply Rmult_integral in E. destruct E as [E|E]; [|auto]. apply Rmult_integral in E. lra.
      - unfold Rdiv. rewrite Rmult_1_l. f_equal. ring. }
    unfold add_pair. cbv zeta. rewrite vdot_dist. change (sqrt (dist2 (p_xyz a) (p_xyz b))) with (distance (p_xyz a) (p_xyz b)). rewrite VR, !rho_eq.
    fold (alpha_of mode alpha_AV a). fold (alpha_of mode alpha_AV b).
    change (match mode with Disc => q_av_disc (rho a) (p_h a) _ _ _ _ _ | _ => _ end) with (q_code a b (approach a b) (distance (p_xyz a) (p_xyz b))).
    change (match mode with Disc => q_av_disc (rho b) (p_h b) _ _ _ _ _ | _ => _ end) with (q_code b a (approach a b) (distance (p_xyz a) (p_xyz b))).
    rewrite QA, QB'. unfold add_to_derivs_sph_artif_visco_cond, sph_pressure_symetric, duint_dt_pressure, lambda_shock_conductivity, vsig_u. cbv zeta. cbn [fst snd].
    rewrite !IZ by auto. set (r := distance (p_xyz a) (p_xyz b)) in *. set (qa := viscous mode hfact m alpha_AV beta a b). set (qb := viscous mode hfact m alpha_AV beta b a). split.
    - intros c Hc. rewrite c_vadd by auto. rewrite c_vscal by auto. rewrite c_vadd by auto. rewrite !c_vscal by auto. rewrite c_vsub by auto. unfold r at 2 4. rewrite isp_dir by auto. unfold acceleration. fold r qa qb. unfold Rdiv. ring.
    - assert (VD : vdot (vsub (p_vxyz a) (p_vxyz b)) (vscal (dW r (p_h a)) (vscal (inv_sat_positive r) (vsub (p_xyz a) (p_xyz b)))) = (dW r (p_h a) * approach a b)%R).
      { rewrite <- VR, !vdot_over. fold r. rewrite <- over_scal. apply over_ext. intros c Hc. rewrite !c_vscal by auto. ring. }
      rewrite VD. unfold heating. fold r qa. unfold Rdiv. replace (/ (p_omega a * rho a ^ 2))%R with (/ (p_omega a * rho a) * / rho a)%R by (field; split; lra).
      replace (rho b * p_omega b)%R with (p_omega b * rho b)%R by ring. replace ((rho a + rho b) * (1 * / 2))%R with ((rho a + rho b) * / 2)%R by ring. ring.
  Qed.
End Pair.

(** ** The sums *)
Lemma too_far_spec Rk p q ha hb : (0 <= Rk)%R -> (0 < ha)%R -> (0 < hb)%R -> too_far Rk p q ha hb = true -> (Rk * ha < distance p q /\ Rk * hb < distance p q)%R.
Proof.
  intros HK HA HB. unfold too_far, rgtb. cbv zeta. rewrite vdot_dist.
  assert (G : forall h, (0 < h)%R -> (dist2 p q > h * h * (Rk * Rk))%R -> (Rk * h < distance p q)%R).
  { intros h Hh X. unfold distance. rewrite <- (sqrt_Rsqr (Rk * h)) by (apply Rmult_le_pos; lra). apply sqrt_lt_1_alt. unfold Rsqr. split; [apply Rle_0_sqr|]. lra. }
  destruct (Rgt_dec _ (ha * ha * _)); [|discriminate]. destruct (Rgt_dec _ (hb * hb * _)); [|discriminate]. intros _. split; apply G; auto.
Qed.

Section Sums.
  Context (mode : av_mode) (dW : R -> R -> R) (Rkern hfact m alpha_u alpha_AV beta : R) (f : fields) (n : nat).
  Notation item := (deriv_item mode dW Rkern hfact m alpha_u alpha_AV beta f).
  Notation acc := (acceleration mode dW hfact m alpha_AV beta).
  Notation heat := (heating mode dW hfact m alpha_u alpha_AV beta).
  Notation P := (part_at mode f).
  Hypothesis M0 : (0 < m)%R.
  Hypothesis H0 : (0 < hfact)%R.
  Hypothesis K0 : (0 <= Rkern)%R.
  Hypothesis F : fields_ok mode f n.
  Hypothesis SG : signals_ok mode f alpha_AV beta n.
  Hypothesis CP : compact dW Rkern.
  Lemma P_ok i : i < n -> part_ok (P i).
  Proof. intros Hi. destruct F. split; [apply fo_hpos|apply fo_onz]; cbn; apply nth_In; lia. Qed.
  Lemma P_sig i : i < n -> part_sig mode alpha_AV (P i).
  Proof. intros Hi ND. now apply SG. Qed.
  Lemma read_ok i : i < n -> read_part mode f i = Ok (P i).
  Proof.
    intros Hi. destruct F. unfold read_part, aget.
    rewrite (nth_error_nth' (f_h f) 0%R), (nth_error_nth' (f_xyz f) (0, 0, 0)%R), (nth_error_nth' (f_vxyz f) (0, 0, 0)%R) by lia. cbn [rbind].
    rewrite (nth_error_nth' (f_P f) 0%R), (nth_error_nth' (f_omega f) 0%R), (nth_error_nth' (f_u f) 0%R), (nth_error_nth' (f_cs f) 0%R) by lia. cbn [rbind].
    unfold part_at. destruct mode; try reflexivity. rewrite (nth_error_nth' _ 0%R) by (rewrite fo_alpha; auto). reflexivity.
  Qed.
  Lemma far_zero i j : i < n -> j < n -> (Rkern * p_h (P i) < distance (p_xyz (P i)) (p_xyz (P j)))%R -> (Rkern * p_h (P j) < distance (p_xyz (P i)) (p_xyz (P j)))%R ->
    (forall c, acc (P i) (P j) c = 0%R) /\ heat (P i) (P j) = 0%R.
  Proof.
    intros Hi Hj A B. destruct (P_ok i Hi) as [HA _], (P_ok j Hj) as [HB _]. pose proof (CP _ _ HA A) as Z1. pose proof (CP _ _ HB B) as Z2. split; [intros c|]; unfold acceleration, heating; cbv zeta; rewrite Z1, Z2; unfold Rdiv; ring.
  Qed.
  Lemma fold_ok i ids : i < n -> (forall j, In j ids -> j < n) -> forall s, exists s', rfold (pair_step mode dW Rkern hfact m alpha_u alpha_AV beta f (P i)) ids s = Ok s' /\
    (forall c, In c (@coords R) -> c (fst s') = (c (fst s) + Rsum (fun j => acc (P i) (P j) c) ids)%R) /\ snd s' = (snd s + Rsum (fun j => heat (P i) (P j)) ids)%R.
  Proof.
    intros Hi. induction ids as [|j ids IH]; intros HJ s.
    - exists s. cbn. split; auto. split; [intros|]; ring.
    - assert (Hj : j < n) by (apply HJ; simpl; auto). cbn [rfold]. unfold pair_step at 1.
      assert (X : aget (f_xyz f) j = Ok (p_xyz (P j)) /\ aget (f_h f) j = Ok (p_h (P j))).
      { unfold aget. rewrite (nth_error_nth' (f_xyz f) (0, 0, 0)%R), (nth_error_nth' (f_h f) 0%R) by (destruct F; lia). auto. }
      destruct X as [-> ->]. cbn [rbind].
      assert (G : exists s1, (if too_far Rkern (p_xyz (P i)) (p_xyz (P j)) (p_h (P i)) (p_h (P j)) then Ok s else b <- read_part mode f j ;; Ok (add_pair mode dW hfact m alpha_u alpha_AV beta (P i) b s)) = Ok s1 /\
        (forall c, In c (@coords R) -> c (fst s1) = (c (fst s) + acc (P i) (P j) c)%R) /\ snd s1 = (snd s + heat (P i) (P j))%R).
      { destruct (too_far _ _ _ _ _) eqn:T.
        - exists s. split; auto. destruct (too_far_spec _ _ _ _ _ K0 (proj1 (P_ok i Hi)) (proj1 (P_ok j Hj)) T) as [A B]. destruct (far_zero i j Hi Hj A B) as [Z1 Z2]. rewrite Z2. split; [intros c Hc; rewrite Z1|]; ring.
        - rewrite read_ok by auto. cbn [rbind]. eexists. split; [reflexivity|]. apply add_pair_eq; auto using P_ok, P_sig. intros ND. now apply SG. }
      destruct G as (s1 & -> & A1 & A2). cbn [rbind]. destruct (IH (fun k Hk => HJ k (or_intror Hk)) s1) as (s2 & -> & B1 & B2). exists s2. split; auto. split.
      + intros c Hc. rewrite B1, A1 by auto. rewrite Rsum_cons. ring.
      + rewrite B2, A2, Rsum_cons. ring.
  Qed.

  Context (hold : list R) (htol : R) (obj_cnt : nat) (c : ocache).
  Hypothesis CC : cache_covers f hold htol Rkern obj_cnt c.
  Hypothesis ON : obj_cnt <= n.
  Lemma item_ok i : i < obj_cnt -> exists s, item c i = Ok s /\ (forall k, In k (@coords R) -> k (fst s) = total (fun j => acc (P i) (P j) k) n) /\ snd s = total (fun j => heat (P i) (P j)) n.
  Proof.
    intros Hi. destruct CC as [CL CH]. assert (LX : length (f_xyz f) = n) by (destruct F; auto). destruct (CL i Hi) as (l & E & ND & IN). rewrite LX in *.
    assert (HL : forall j, In j l -> j < n) by (intros j Hj; now apply IN in Hj).
    destruct (fold_ok i l ltac:(lia) HL (vzero, 0%R)) as (s & E2 & A & B). exists s. unfold deriv_item. rewrite read_ok by lia. cbn [rbind]. rewrite E. cbn [rbind]. split; auto.
    assert (G : forall g, (forall j, j < n -> ~ In j l -> g j = 0%R) -> Rsum g l = total g n).
    { intros g Hg. rewrite (Rsum_subset g l n ND HL). unfold total. apply Rsum_ext. intros j Hj. apply in_seq in Hj. unfold ind. destruct (existsb _ l) eqn:X; auto. rewrite Hg; auto; [lia|].
      intros Y. assert (existsb (Nat.eqb j) l = true); [|congruence]. apply existsb_exists. exists j. split; auto. apply Nat.eqb_refl. }
    assert (FZ : forall j, j < n -> ~ In j l -> (forall c, acc (P i) (P j) c = 0%R) /\ heat (P i) (P j) = 0%R).
    { intros j Hj NI. rewrite IN in NI. assert (NJ : ~ interacts (f_xyz f) hold htol Rkern i j) by tauto. unfold interacts in NJ. cbv zeta in NJ. fold (distance (pos_of (f_xyz f) i) (pos_of (f_xyz f) j)) in NJ.
      change (pos_of (f_xyz f) i) with (p_xyz (P i)) in NJ. change (pos_of (f_xyz f) j) with (p_xyz (P j)) in NJ. set (d := distance _ _) in NJ.
      assert (C1 : (p_h (P i) <= htol * h_of hold i)%R) by (apply CH; lia). assert (C2 : (p_h (P j) <= htol * h_of hold j)%R) by (apply CH; lia).
      pose proof (Rmult_le_compat_l _ _ _ K0 C1). pose proof (Rmult_le_compat_l _ _ _ K0 C2).
      apply far_zero; auto; [lia| |]; fold d; apply Rnot_le_lt; intros Z; apply NJ; [left|right]; lra. }
    split.
    - intros k Hk. rewrite A by auto. rewrite G by (intros; now apply FZ). destruct Hk as [<-|[<-|[<-|[]]]]; unfold vzero; cbn; ring.
    - rewrite B. cbn [snd]. rewrite G by (intros; now apply FZ). ring.
  Qed.
End Sums.

(** work items that write an element of two buffers *)
Lemma par_write2 {A B} (g : nat -> res (A * B)) (v : nat -> A * B) order : NoDup order -> forall (o : list A * list B),
  (forall i, In i order -> g i = Ok (v i) /\ i < length (fst o) /\ i < length (snd o)) ->
  exists r, par_for order (fun i s => x <- g i ;; a <- aset (fst s) i (fst x) ;; b <- aset (snd s) i (snd x) ;; Ok (a, b)) o = Ok r /\
    length (fst r) = length (fst o) /\ length (snd r) = length (snd o) /\
    (forall i, In i order -> nth_error (fst r) i = Some (fst (v i)) /\ nth_error (snd r) i = Some (snd (v i))) /\
    (forall i, ~ In i order -> nth_error (fst r) i = nth_error (fst o) i /\ nth_error (snd r) i = nth_error (snd o) i).
Proof.
  unfold par_for. induction order as [|i order IH]; intros ND o H; cbn [rfold].
  - exists o. repeat split; auto; tauto.
  - inversion ND as [|? ? NI ND']; subst. destruct (H i (or_introl eq_refl)) as (E & L1 & L2). rewrite E. cbn [rbind]. rewrite !aset_lt by auto. cbn [rbind].
    destruct (IH ND' (upd (fst o) i (fst (v i)), upd (snd o) i (snd (v i)))) as (r & E2 & R1 & R2 & P1 & P2).
    { intros j Hj. cbn [fst snd]. rewrite !length_upd. apply H. simpl; auto. }
    exists r. cbn [fst snd] in *. rewrite !length_upd in *. do 3 (split; auto). split.
    + intros j [<-|Hj]; auto. destruct (P2 i NI) as [-> ->]. rewrite !nth_error_upd_eq by auto. auto.
    + intros j Hj. destruct (P2 j) as [-> ->]; [simpl in Hj; tauto|]. rewrite !nth_error_upd_neq by (intros ->; apply Hj; simpl; auto). auto.
Qed.
