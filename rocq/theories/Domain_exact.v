(** When the length of the box is exact and the grid has a power of two cells, the whole grid is the whole box. *)
From Coq Require Import ZArith Lia Reals Psatz.
From Flocq Require Import Core BinarySingleNaN Relative Mult_error.
From Verif Require Import Base Patch Patch_spec Domain Domain_spec Domain_cell Domain_f64 F64.
Local Open Scope R_scope.

Lemma f_leb_val a b x : is_finite a = true -> is_finite b = true -> fval a = fval b -> f_leb a x = f_leb b x.
Proof.
  intros Ha Hb E. destruct (f_leb a x) eqn:X, (f_leb b x) eqn:Y; auto.
  - rewrite (f_leb_trans b a x) in Y; auto; lra.
  - rewrite (f_leb_trans a b x) in X; auto; lra.
Qed.
Lemma f_ltb_val a b x : is_finite a = true -> is_finite b = true -> fval a = fval b -> f_ltb x a = f_ltb x b.
Proof.
  intros Ha Hb E. destruct (is_finite x) eqn:Fx.
  - rewrite !ltb_ok by auto. now rewrite E.
  - destruct x as [| [] | |]; try discriminate Fx.
    all: destruct a as [[]|[]| |[]]; try discriminate Ha; destruct b as [[]|[]| |[]]; try discriminate Hb; reflexivity.
Qed.

Lemma format_fval x : is_finite x = true -> generic_format radix2 fexp64 (fval x).
Proof. intros _. apply (generic_format_B2R 53 1024). Qed.

Lemma axis_exact fma slo shi dlo dhi : (0 <= slo <= shi)%Z -> (shi + 1 < 2 ^ 64)%Z -> bounds_ok dlo dhi -> exact_axis slo shi dlo dhi ->
  let F := axis_of fma slo shi dlo dhi in
  is_finite (F slo) = true /\ fval (F slo) = fval dlo /\ is_finite (F (shi + 1)%Z) = true /\ fval (F (shi + 1)%Z) = fval dhi.
Proof.
  intros Hs Hs2 B ((k & Hk & Ek) & Ex & Hl). cbv zeta.
  assert (I900 : / IZR (2 ^ 900) = bpow radix2 (-900)) by reflexivity. rewrite I900 in Hl. unfold axis_of.
  destruct (axis_fact_ok slo (shi + 1) dlo dhi) as (F & V & VB); auto; [lia|].
  pose proof B as (F1 & F2 & L & B1 & B2). rewrite pow900 in *.
  destruct (crt_axis_ok fma _ _ slo slo ltac:(lia) ltac:(lia) F F1 VB B1) as (A1 & A2).
  destruct (crt_axis_ok fma _ _ slo (shi + 1) ltac:(lia) ltac:(lia) F F1 VB B1) as (C1 & C2).
  split; auto. rewrite A2, C2. clear A2 C2.
  assert (Flo : RN (fval dlo) = fval dlo) by (apply RN_id, format_fval; auto).
  assert (Fhi : RN (fval dhi) = fval dhi) by (apply RN_id, format_fval; auto).
  split; [|split; [auto|]].
  - rewrite Z.sub_diag. unfold axis_val. rewrite RN_0. rewrite Rmult_0_l, RN_0, Rplus_0_l. now destruct fma.
  - replace (shi + 1 - slo)%Z with (2 ^ k)%Z in * by lia.
    assert (Bp : IZR (2 ^ k) = bpow radix2 k) by (rewrite (IZR_Zpower radix2) by lia; reflexivity).
    assert (Sub : RN (fval dhi - fval dlo) = fval dhi - fval dlo).
    { destruct (sub_ok dhi dlo 901) as (S1 & S2); auto; [lia| |congruence].
      apply Rabs_le_inv in B1, B2. pose proof (bpow_double 900) as P. change (1 + 900)%Z with 901%Z in P. apply Rabs_le. lra. }
    assert (R2 : RN (IZR (2 ^ k)) = bpow radix2 k) by (rewrite Bp; apply RN_id, format_bpow; lia).
    set (D := fval dhi - fval dlo) in *. assert (Dpos : 0 < D) by (pose proof (bpow_gt_0 radix2 (-900)); lra).
    assert (FD : generic_format radix2 fexp64 D) by (rewrite <- Sub; apply generic_format_round; auto with typeclass_instances).
    assert (Q : D / bpow radix2 k = D * bpow radix2 (- k)) by (unfold Rdiv; now rewrite bpow_opp).
    assert (FQ : generic_format radix2 fexp64 (D * bpow radix2 (- k))).
    { apply (mult_bpow_exact_FLT radix2 (-1074) 53); [exact FD|].
      assert (M : (-900 < mag radix2 D)%Z) by (apply mag_gt_bpow; rewrite Rabs_pos_eq; lra). lia. }
    assert (Vf : fval (axis_fact slo (shi + 1) dlo dhi) = D * bpow radix2 (- k)).
    { rewrite V, Sub, R2, Q. now apply RN_id. }
    assert (Pr : bpow radix2 k * (D * bpow radix2 (- k)) = D).
    { rewrite bpow_opp. field. apply Rgt_not_eq, bpow_gt_0. }
    unfold axis_val. rewrite R2, Vf, Pr, Sub. replace (D + fval dlo) with (fval dhi) by (unfold D; ring). rewrite Fhi. now destruct fma.
Qed.

Lemma grid_exact fma g box v : grid_ok g -> box_ok box -> exact_box g box ->
  (f_contains fma g box g v <-> is_in_patch_converted f_leb f_ltb v (fst box) (snd box) = true).
Proof.
  intros HG HB (EX & EY & EZ). unfold f_contains.
  assert (HI : inside g g) by (unfold grid_ok, inside in *; lia).
  rewrite to_domain_image by auto.
  destruct HG as (GX & GX' & GY & GY' & GZ & GZ'). destruct HB as (BX & BY & BZ). unfold u64_max in *.
  pose proof (axis_exact fma _ _ _ _ GX ltac:(lia) BX EX) as (X1 & X2 & X3 & X4).
  pose proof (axis_exact fma _ _ _ _ GY ltac:(lia) BY EY) as (Y1 & Y2 & Y3 & Y4).
  pose proof (axis_exact fma _ _ _ _ GZ ltac:(lia) BZ EZ) as (Z1 & Z2 & Z3 & Z4).
  assert (E : is_in_patch_converted f_leb f_ltb v (fst (f_image fma g box g)) (snd (f_image fma g box g))
     = is_in_patch_converted f_leb f_ltb v (fst box) (snd box)).
  { unfold is_in_patch_converted, f_image, image. cbn [fst snd wx wy wz].
    destruct BX as (BX1 & BX2 & _), BY as (BY1 & BY2 & _), BZ as (BZ1 & BZ2 & _).
    rewrite (f_leb_val _ _ (wx v) X1 BX1 X2), (f_leb_val _ _ (wy v) Y1 BY1 Y2), (f_leb_val _ _ (wz v) Z1 BZ1 Z2).
    rewrite (f_ltb_val _ _ (wx v) X3 BX2 X4), (f_ltb_val _ _ (wy v) Y3 BY2 Y4), (f_ltb_val _ _ (wz v) Z3 BZ2 Z4). reflexivity. }
  split.
  - intros (r & [= <-] & H). now rewrite <- E.
  - intros H. eexists. split; [reflexivity|]. now rewrite E.
Qed.
