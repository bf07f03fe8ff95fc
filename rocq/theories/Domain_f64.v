(** The bounds of patches in double precision are increasing. *)
From Coq Require Import ZArith Lia Reals Psatz.
From Flocq Require Import Core BinarySingleNaN Relative.
From Verif Require Import Base Patch Patch_spec Domain Domain_spec Domain_cell F64.
Local Open Scope R_scope.

Lemma f_leb_trans a b x : is_finite a = true -> is_finite b = true -> fval a <= fval b -> f_leb b x = true -> f_leb a x = true.
Proof.
  intros Ha Hb Hab H. destruct (is_finite x) eqn:Fx.
  - rewrite leb_ok in * by auto. destruct (Rle_bool_spec (fval b) (fval x)); [|discriminate]. apply Rle_bool_true. lra.
  - destruct x as [| [] | |]; try discriminate Fx.
    + destruct b as [[]|[]| |[]]; try discriminate.
    + destruct a as [[]|[]| |[]]; try discriminate; reflexivity.
    + destruct b as [[]|[]| |[]]; discriminate.
Qed.
Lemma f_ltb_neg l c x : is_finite l = true -> is_finite c = true -> f_leb l x = true -> f_ltb x c = negb (f_leb c x).
Proof.
  intros Hl Hc H. destruct (is_finite x) eqn:Fx.
  - rewrite leb_ok, ltb_ok by auto. unfold Rlt_bool, Rle_bool. rewrite (Rcompare_sym (fval x)). destruct (Rcompare (fval c) (fval x)); reflexivity.
  - destruct x as [| [] | |]; try discriminate Fx.
    + destruct l as [[]|[]| |[]]; discriminate.
    + destruct c as [[]|[]| |[]]; try discriminate; reflexivity.
    + destruct l as [[]|[]| |[]]; discriminate.
Qed.

Lemma increasing_vals (F : Z -> f64) lo hi : (lo <= hi)%Z ->
  (forall c, (lo <= c <= hi + 1)%Z -> is_finite (F c) = true) ->
  (forall a b, (lo <= a <= b)%Z -> (b <= hi + 1)%Z -> fval (F a) <= fval (F b)) ->
  increasing f_leb f_ltb F lo hi.
Proof.
  intros Hlh Ff Fm. split.
  - intros a b x Ha Hb. apply f_leb_trans; [apply Ff; lia|apply Ff; lia|apply Fm; auto].
  - intros c x Hc. apply f_ltb_neg; apply Ff; lia.
Qed.

Lemma bpow_split a b : bpow radix2 (a + b) = bpow radix2 a * bpow radix2 b.
Proof. apply bpow_plus. Qed.
Lemma bpow_double e : bpow radix2 (1 + e) = bpow radix2 e + bpow radix2 e.
Proof. rewrite bpow_split. change (bpow radix2 1) with 2. ring. Qed.
Lemma pow900 : IZR (2 ^ 900) = bpow radix2 900.
Proof. reflexivity. Qed.
Lemma RN_IZR_64 d : (0 <= d < 2 ^ 64)%Z -> 0 <= RN (IZR d) <= bpow radix2 64.
Proof.
  intros Hd. split.
  - apply RN_pos. now apply IZR_le.
  - eapply Rle_trans; [apply Rle_abs|]. apply RN_bound; [lia|]. rewrite Rabs_pos_eq by (apply IZR_le; lia).
    change (bpow radix2 64) with (IZR (2 ^ 64)). apply IZR_le. lia.
Qed.
Lemma of_Z_64 d : (0 <= d < 2 ^ 64)%Z -> fval (f_of_Z d) = RN (IZR d) /\ is_finite (f_of_Z d) = true.
Proof.
  intros Hd. apply of_Z_ok. eapply Z.le_trans; [|apply (Z.pow_le_mono_r 2 64 1000); lia]. lia.
Qed.
Lemma RN_1 : RN 1 = 1.
Proof. apply RN_id. apply (format_Z 1). lia. Qed.

(** fact = (hi - lo) / delta *)
Lemma axis_fact_ok slo shi dlo dhi : (0 <= slo < shi)%Z -> (shi < 2 ^ 64)%Z -> bounds_ok dlo dhi ->
  is_finite (axis_fact slo shi dlo dhi) = true /\
  fval (axis_fact slo shi dlo dhi) = RN (RN (fval dhi - fval dlo) / RN (IZR (shi - slo))) /\
  0 <= fval (axis_fact slo shi dlo dhi) <= bpow radix2 901.
Proof.
  intros Hs Hs2 (F1 & F2 & L & B1 & B2). unfold axis_fact. rewrite pow900 in *.
  assert (E : w64 (shi - slo) = (shi - slo)%Z) by (apply Z.mod_small; lia). rewrite E.
  destruct (of_Z_64 (shi - slo) ltac:(lia)) as (D1 & D2).
  assert (G : 1 <= RN (IZR (shi - slo))) by (rewrite <- RN_1; apply RN_le, IZR_le; lia).
  assert (P901 : bpow radix2 901 = bpow radix2 900 + bpow radix2 900) by (apply (bpow_double 900)).
  assert (S : 0 <= fval dhi - fval dlo <= bpow radix2 901).
  { apply Rabs_le_inv in B1, B2. lra. }
  destruct (sub_ok dhi dlo 901) as (S1 & S2); auto; [lia|rewrite Rabs_pos_eq; lra|].
  assert (R1 : 0 <= RN (fval dhi - fval dlo) <= bpow radix2 901).
  { split; [apply RN_pos; lra|]. eapply Rle_trans; [apply Rle_abs|]. apply RN_bound; [lia|]. rewrite Rabs_pos_eq; lra. }
  assert (Q : 0 <= RN (fval dhi - fval dlo) / RN (IZR (shi - slo)) <= bpow radix2 901).
  { split.
    - apply Rmult_le_pos; [lra|]. left. apply Rinv_0_lt_compat. lra.
    - apply Rle_trans with (RN (fval dhi - fval dlo)); [|lra]. apply Rmult_le_reg_r with (RN (IZR (shi - slo))); [lra|].
      unfold Rdiv. rewrite Rmult_assoc, Rinv_l by lra. rewrite Rmult_1_r. rewrite <- (Rmult_1_r (RN (fval dhi - fval dlo))) at 1.
      apply Rmult_le_compat_l; lra. }
  destruct (div_ok (f_sub dhi dlo) (f_of_Z (shi - slo)) 901) as (Q1 & Q2); auto; [rewrite D1; lra|lia|rewrite S1, D1, Rabs_pos_eq; lra|].
  rewrite S1, D1 in Q1. split; auto. split; auto. rewrite Q1. split.
  - apply RN_pos; lra.
  - eapply Rle_trans; [apply Rle_abs|]. apply RN_bound; [lia|]. rewrite Rabs_pos_eq; lra.
Qed.

(** The bounds computed on one axis. *)
Definition axis_val (fma : bool) (fact dmin : R) (d : Z) : R :=
  if fma then RN (RN (IZR d) * fact + dmin) else RN (RN (RN (IZR d) * fact) + dmin).
Lemma crt_axis_ok fma fact dmin smin c : (0 <= smin <= c)%Z -> (c < 2 ^ 64)%Z -> is_finite fact = true -> is_finite dmin = true ->
  0 <= fval fact <= bpow radix2 901 -> Rabs (fval dmin) <= bpow radix2 900 ->
  is_finite (crt_axis fma fact dmin smin c) = true /\
  fval (crt_axis fma fact dmin smin c) = axis_val fma (fval fact) (fval dmin) (c - smin).
Proof.
  intros Hc Hc2 Ff Fd Bf Bd. unfold crt_axis, axis_val.
  assert (E : w64 (c - smin) = (c - smin)%Z) by (apply Z.mod_small; lia). rewrite E.
  destruct (of_Z_64 (c - smin) ltac:(lia)) as (D1 & D2). pose proof (RN_IZR_64 (c - smin) ltac:(lia)) as R64.
  assert (P : 0 <= RN (IZR (c - smin)) * fval fact <= bpow radix2 965).
  { split; [apply Rmult_le_pos; lra|]. change 965%Z with (64 + 901)%Z. rewrite bpow_split. apply Rmult_le_compat; lra. }
  assert (P966 : bpow radix2 966 = bpow radix2 965 + bpow radix2 965) by (apply (bpow_double 965)).
  assert (L : bpow radix2 900 <= bpow radix2 965) by (apply bpow_le; lia).
  apply Rabs_le_inv in Bd.
  destruct fma.
  - destruct (fma_ok (f_of_Z (c - smin)) fact dmin 966) as (E1 & E2); auto; [lia|rewrite D1; apply Rabs_le; lra|]. rewrite D1 in E1. auto.
  - destruct (mul_ok (f_of_Z (c - smin)) fact 965) as (E1 & E2); auto; [lia|rewrite D1, Rabs_pos_eq; lra|]. rewrite D1 in E1.
    assert (R1 : 0 <= RN (RN (IZR (c - smin)) * fval fact) <= bpow radix2 965).
    { split; [apply RN_pos; lra|]. eapply Rle_trans; [apply Rle_abs|]. apply RN_bound; [lia|]. rewrite Rabs_pos_eq; lra. }
    destruct (add_ok (f_mul (f_of_Z (c - smin)) fact) dmin 966) as (A1 & A2); auto; [lia|rewrite E1; apply Rabs_le; lra|].
    rewrite E1 in A1. auto.
Qed.
Lemma axis_val_mono fma fact dmin a b : 0 <= fact -> (a <= b)%Z -> axis_val fma fact dmin a <= axis_val fma fact dmin b.
Proof.
  intros Hf Hab. assert (H : RN (IZR a) * fact <= RN (IZR b) * fact) by (apply Rmult_le_compat_r; auto; apply RN_le, IZR_le; auto).
  unfold axis_val. destruct fma.
  - apply RN_le. lra.
  - apply RN_le. apply Rplus_le_compat_r. now apply RN_le.
Qed.

Lemma axis_increasing fma slo shi dlo dhi : (0 <= slo <= shi)%Z -> (shi + 1 < 2 ^ 64)%Z -> bounds_ok dlo dhi ->
  increasing f_leb f_ltb (crt_axis fma (axis_fact slo (shi + 1) dlo dhi) dlo slo) slo shi.
Proof.
  intros Hs Hs2 B. destruct (axis_fact_ok slo (shi + 1) dlo dhi) as (F & _ & V); auto; [lia|].
  destruct B as (F1 & F2 & L & B1 & B2). rewrite pow900 in *.
  apply increasing_vals; [lia| |].
  - intros c Hc. apply crt_axis_ok; auto; lia.
  - intros a b Ha Hb. rewrite (proj2 (crt_axis_ok fma _ _ slo a ltac:(lia) ltac:(lia) F F1 V B1)),
      (proj2 (crt_axis_ok fma _ _ slo b ltac:(lia) ltac:(lia) F F1 V B1)).
    apply axis_val_mono; [lra|lia].
Qed.

(** ** The transform *)
Definition axis_of (fma : bool) (slo shi : Z) (dlo dhi : f64) : Z -> f64 :=
  crt_axis fma (axis_fact slo (shi + 1) dlo dhi) dlo slo.
Definition f_image (fma : bool) (g : pcoord) (box : range f64) : pcoord -> range f64 :=
  image (axis_of fma (vx (cmin g)) (vx (cmax g)) (wx (fst box)) (wx (snd box)))
        (axis_of fma (vy (cmin g)) (vy (cmax g)) (wy (fst box)) (wy (snd box)))
        (axis_of fma (vz (cmin g)) (vz (cmax g)) (wz (fst box)) (wz (snd box))).
Definition f_cell (fma : bool) (g : pcoord) (box : range f64) : vec3 f64 -> v3 :=
  cell3 f_leb (axis_of fma (vx (cmin g)) (vx (cmax g)) (wx (fst box)) (wx (snd box)))
        (axis_of fma (vy (cmin g)) (vy (cmax g)) (wy (fst box)) (wy (snd box)))
        (axis_of fma (vz (cmin g)) (vz (cmax g)) (wz (fst box)) (wz (snd box))) g.

Lemma f_leb_ge lo hi : bounds_ok lo hi -> f_leb hi lo = false.
Proof. intros (F1 & F2 & L & _). rewrite leb_ok by auto. now apply Rle_bool_false. Qed.
Lemma f_max_val : bpow radix2 1023 <= fval f_max.
Proof.
  assert (E : fval f_max = IZR 9007199254740991 * bpow radix2 971).
  { unfold fval, f_max, Bmax_float. rewrite B2R_SF2B. reflexivity. }
  rewrite E. change 1023%Z with (52 + 971)%Z. rewrite bpow_split. apply Rmult_le_compat_r; [apply bpow_ge_0|].
  change (bpow radix2 52) with (IZR (2 ^ 52)). apply IZR_le. lia.
Qed.
Lemma not_err box : box_ok box -> is_err_range box = false.
Proof.
  intros ((F1 & F2 & L & B1 & B2) & _). unfold is_err_range, vec_eqb. cbn [wx wy wz].
  assert (E : f_eqb f_max (wx (snd box)) = false); [|rewrite E; cbn [andb]; apply andb_false_r].
  unfold f_eqb. rewrite Beqb_correct by (auto; reflexivity). apply Req_bool_false.
  pose proof f_max_val as M. unfold fval in *. rewrite pow900 in *. apply Rabs_le_inv in B2.
  assert (bpow radix2 900 < bpow radix2 1023) by (apply bpow_lt; lia).
  lra.
Qed.
Lemma range_sub hi : (0 <= hi)%Z -> (hi < u64_max)%Z -> w64 (hi + 1) = (hi + 1)%Z.
Proof. intros. apply Z.mod_small. unfold u64_max in *. lia. Qed.

Lemma to_domain_image fma g box b : grid_ok g -> box_ok box -> inside b g ->
  patch_coord_to_domain fma g box b = Ok (f_image fma g box b).
Proof.
  intros (GX & GX' & GY & GY' & GZ & GZ') HB ((X1 & X2 & X3) & (Y1 & Y2 & Y3) & (Z1 & Z2 & Z3)).
  unfold patch_coord_to_domain, get_patch_transform. rewrite not_err by auto.
  unfold make_crt, get_patch_range, check_ranges, to_vec. cbn [fst snd vx vy vz wx wy wz].
  destruct HB as (BX & BY & BZ).
  rewrite !range_sub by lia.
  destruct (Z.geb_spec (vx (cmin g)) (vx (cmax g) + 1)); [lia|].
  destruct (Z.geb_spec (vy (cmin g)) (vy (cmax g) + 1)); [lia|].
  destruct (Z.geb_spec (vz (cmin g)) (vz (cmax g) + 1)); [lia|]. cbn [rbind].
  rewrite (f_leb_ge _ _ BX), (f_leb_ge _ _ BY), (f_leb_ge _ _ BZ). cbn [rbind]. destruct box as (d0 & d1). cbn [rbind fst snd].
  reflexivity.
Qed.

Lemma f_contains_cell fma g box b v : grid_ok g -> box_ok box -> inside b g ->
  (f_contains fma g box b v <-> in_box (f_cell fma g box v) b).
Proof.
  intros HG HB HI. unfold f_contains. rewrite to_domain_image by auto.
  assert (I : (vx (cmin g) <= vx (cmax g) /\ vy (cmin g) <= vy (cmax g) /\ vz (cmin g) <= vz (cmax g))%Z) by (unfold inside in HI; lia).
  destruct HG as (GX & GX' & GY & GY' & GZ & GZ'). destruct HB as (BX & BY & BZ). unfold u64_max in *.
  rewrite <- (in_image f_leb f_ltb _ _ _ g (axis_increasing fma _ _ _ _ GX ltac:(lia) BX) (axis_increasing fma _ _ _ _ GY ltac:(lia) BY)
    (axis_increasing fma _ _ _ _ GZ ltac:(lia) BZ) b v HI).
  split.
  - intros (r & [= <-] & H). exact H.
  - intros H. eexists. split; [reflexivity|exact H].
Qed.
