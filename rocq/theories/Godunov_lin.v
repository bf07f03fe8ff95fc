(** Proofs: slopes and face states are exact for affine flows. *)
Require Import Reals Lra.
From Verif Require Import Base Par Scan Scan_spec Dtt_segs Riemann Riemann_spec Riemann_proofs Riemann_pos Godunov Godunov_spec Godunov_graph Godunov_pure Godunov_cons Godunov_cover Godunov_pos Godunov_lin_spec.
From Coq Require Import ZifyBool ZifyNat.
Local Open Scope R_scope.

Lemma slope_ss mode s : mode <> SlopeNone -> slope_function mode s s = s.
Proof.
  intros NM. destruct (Req_dec s 0) as [->|NZ]; [now rewrite slope_00|].
  assert (P : 0 < s * s) by (destruct (Rtotal_order s 0) as [|[|]]; [nra|contradiction|nra]).
  destruct mode; cbn [slope_function]; [congruence| | | |].
  - unfold slope_van_leer_f. cbv zeta. assert (E : s / (s + s) = 1 / 2) by (field; lra). rewrite E. destruct (Rle_dec 0 (1 / 2)); [|lra]. destruct (Rle_dec (1 / 2) 1); [|lra]. field.
  - unfold van_leer_slope. cbv zeta. destruct (Rlt_dec 0 (s * s)); [|lra]. field. lra.
  - unfold van_leer_slope_symetric. cbv zeta. unfold rsign. destruct (Rlt_dec 0 s).
    + rewrite (Rabs_pos_eq s) by lra. destruct (Rlt_dec 0 (s * s)); [|lra]. field. lra.
    + destruct (Rlt_dec s 0); [|exfalso; apply NZ; lra]. rewrite (Rabs_left s) by lra. destruct (Rlt_dec 0 (- s * - s)); [field; lra|exfalso; nra].
  - unfold minmod. cbv zeta. assert (E : s / s = 1) by (field; auto). rewrite E. destruct (Rlt_dec 0 1); [|lra]. destruct (Rlt_dec 1 1); lra.
Qed.
Lemma rsum_const {A} (f : A -> R) k l : (forall x, In x l -> f x = k) -> rsum f l = INR (length l) * k.
Proof.
  induction l as [|x l IH]; intros H; [cbn; ring|]. change (rsum f (x :: l)) with (f x + rsum f l). rewrite IH by (intros; apply H; now right). rewrite H by now left.
  change (length (x :: l)) with (Datatypes.S (length l)). rewrite S_INR. ring.
Qed.
Lemma gdirL_const d fld a L k : L <> [] -> (forall v, In v L -> gterm d fld a v = k) -> gdirL d fld a L = k.
Proof.
  intros NE H. unfold gdirL. assert (P : (0 < length L)%nat) by (destruct L; [congruence|cbn; lia]). rewrite (proj2 (Nat.ltb_lt _ _) P). rewrite (rsum_const _ k) by auto.
  field. apply not_0_INR. lia.
Qed.

Lemma axis_eq_dec' (c c' : axis) : {c = c'} + {c <> c'}.
Proof. decide equality. Defined.

Section Lin.
  Variables (bmin bmax : list gvec) (nreal : nat) (env : gd_env) (mode : slope_mode) (gamma dx dt : R) (pdat ghosts : list cons).
  Hypothesis BO : blocks_ok bmin bmax.
  Hypothesis EO : gd_env_ok bmin bmax nreal env.
  Hypothesis DX : 0 < dx.
  Notation N := (length bmin * 8)%nat.
  Notation cel := (cell bmin bmax).
  Notation nei := (nbs bmin bmax env).
  Notation U := (pdat ++ ghosts).
  Notation W := (w gamma pdat ghosts).
  Notation V := (vw bmin bmax gamma dx pdat ghosts).
  Notation Gr := (G bmin bmax env mode gamma dx pdat ghosts).
  Notation SD := (side bmin bmax env mode gamma dx dt pdat ghosts).

  (** the difference of two centres along one axis *)
  Definition dc (c : axis) (q q' : cube) : R := rc c (centre dx q') - rc c (centre dx q).
  Lemma dc_eq c q q' : dc c q q' = dx * ((IZR (lo c q' + hi c q') - IZR (lo c q + hi c q)) / 2).
  Proof. unfold dc. rewrite !plus_IZR. destruct c; unfold centre; cbn [rc rx ry rz]; field. Qed.
  Lemma side_pos a : (a < N)%nat -> (0 < q_side (cel a))%Z.
  Proof. intros H. apply (cel_side bmin bmax BO a). lia. Qed.

  (** one component of the flow: value f0 + g.x *)
  Section Field.
    Variables (fld : prim -> R) (f0 : R) (g : rv3) (a : nat).
    Hypothesis Ha : (a < N)%nat.
    Hypothesis FA : forall b, (b < N)%nat -> (b = a \/ exists d, touches d (cel a) (cel b)) -> fld (W b) = f0 + dotp g (centre dx (cel b)).

    Lemma term_eq d b : In b (nei d a) ->
      gterm d fld (V a) (V b) = dir_sign d * (1 / ((if Rlt_dec (hreal dx (cel b)) (hreal dx (cel a)) then 3 / 4 else if Rlt_dec (hreal dx (cel a)) (hreal dx (cel b)) then 3 / 2 else 1) * hreal dx (cel a)))
        * (rx g * dc AX (cel a) (cel b) + ry g * dc AY (cel a) (cel b) + rz g * dc AZ (cel a) (cel b)).
    Proof.
      intros Hb. apply (nbs_in _ _ _ _ BO EO) in Hb; auto. destruct Hb as (Hb & T). unfold gterm, vw, hc. cbn [fst snd]. cbv zeta.
      rewrite (FA a), (FA b) by eauto. unfold dc, dotp. cbn [rc].
      replace (f0 + (rx g * rx (centre dx (cel b)) + ry g * ry (centre dx (cel b)) + rz g * rz (centre dx (cel b))) - (f0 + (rx g * rx (centre dx (cel a)) + ry g * ry (centre dx (cel a)) + rz g * rz (centre dx (cel a)))))
        with (rx g * (rx (centre dx (cel b)) - rx (centre dx (cel a))) + ry g * (ry (centre dx (cel b)) - ry (centre dx (cel a))) + rz g * (rz (centre dx (cel b)) - rz (centre dx (cel a)))) by ring.
      reflexivity.
    Qed.
    (** along d: the distance is what the code takes it to be *)
    Lemma hr_lt q q' : hreal dx q < hreal dx q' <-> (q_side q < q_side q')%Z.
    Proof.
      unfold hreal. split; intros H.
      - apply lt_IZR. apply Rmult_lt_reg_r with dx; auto.
      - apply Rmult_lt_compat_r; auto. now apply IZR_lt.
    Qed.
    Lemma dist_eq d b : (b < N)%nat -> touches d (cel a) (cel b) ->
      (q_side (cel b) = q_side (cel a) \/ q_side (cel b) = 2 * q_side (cel a) \/ 2 * q_side (cel b) = q_side (cel a))%Z ->
      dir_sign d * (1 / ((if Rlt_dec (hreal dx (cel b)) (hreal dx (cel a)) then 3 / 4 else if Rlt_dec (hreal dx (cel a)) (hreal dx (cel b)) then 3 / 2 else 1) * hreal dx (cel a)))
        * dc (axis_of d) (cel a) (cel b) = 1.
    Proof.
      intros Hb T GR. pose proof (side_pos a Ha) as PA. pose proof (side_pos b Hb) as PB. destruct T as (T & _).
      rewrite dc_eq. set (q := cel a) in *. set (q' := cel b) in *.
      assert (HP : 0 < IZR (q_side q)) by now apply (IZR_lt 0).
      assert (D : (IZR (lo (axis_of d) q' + hi (axis_of d) q') - IZR (lo (axis_of d) q + hi (axis_of d) q)) / 2 = dir_sign d * ((IZR (q_side q) + IZR (q_side q')) / 2)).
      { rewrite <- minus_IZR, <- plus_IZR. unfold Rdiv. rewrite <- Rmult_assoc. f_equal. unfold hi, lo in *. destruct d; cbn [dir_sign upward axis_of] in *; rewrite ?Rmult_1_l.
        all: try (f_equal; lia). all: rewrite <- mult_IZR; f_equal; lia. }
      rewrite D. assert (SS : dir_sign d * dir_sign d = 1) by (destruct d; cbn; ring).
      replace (dir_sign d * (1 / ((if Rlt_dec (hreal dx q') (hreal dx q) then 3 / 4 else if Rlt_dec (hreal dx q) (hreal dx q') then 3 / 2 else 1) * hreal dx q)) * (dx * (dir_sign d * ((IZR (q_side q) + IZR (q_side q')) / 2))))
        with ((dir_sign d * dir_sign d) * ((1 / ((if Rlt_dec (hreal dx q') (hreal dx q) then 3 / 4 else if Rlt_dec (hreal dx q) (hreal dx q') then 3 / 2 else 1) * hreal dx q)) * (dx * ((IZR (q_side q) + IZR (q_side q')) / 2)))) by ring.
      rewrite SS, Rmult_1_l. destruct (Rlt_dec (hreal dx q') (hreal dx q)) as [L|L]; rewrite hr_lt in L.
      - assert (E : (q_side q = 2 * q_side q')%Z) by lia. unfold hreal. rewrite E, mult_IZR in *. assert (0 < IZR (q_side q')) by (apply (IZR_lt 0); lia). field. lra.
      - destruct (Rlt_dec (hreal dx q) (hreal dx q')) as [L'|L']; rewrite hr_lt in L'.
        + assert (E : (q_side q' = 2 * q_side q)%Z) by lia. unfold hreal. rewrite E, mult_IZR. field. lra.
        + assert (E : (q_side q' = q_side q)%Z) by lia. unfold hreal. rewrite E. field. lra.
    Qed.
    Lemma nonempty_of d : (exists b, (b < N)%nat /\ touches d (cel a) (cel b)) -> map V (nei d a) <> [].
    Proof. intros (b & X). apply (nbs_in bmin bmax nreal env BO EO d a b Ha) in X. intros E. apply map_eq_nil in E. rewrite E in X. exact X. Qed.
    (** flow along the axis of d *)
    Lemma grad_graded d : graded bmin bmax d a -> (forall c, c <> axis_of d -> rc c g = 0) -> gdirL d fld (V a) (map V (nei d a)) = rc (axis_of d) g.
    Proof.
      intros (NE & GR) Z. apply gdirL_const; [now apply nonempty_of|]. intros v Hv. apply in_map_iff in Hv. destruct Hv as (b & <- & Hb).
      rewrite term_eq by auto. apply (nbs_in _ _ _ _ BO EO) in Hb; auto. destruct Hb as (Hb & T). pose proof (dist_eq d b Hb T (GR b Hb T)) as D. cbv zeta in D.
      set (k := dir_sign d * _) in *. clearbody k. pose proof (Z AX). pose proof (Z AY). pose proof (Z AZ).
      destruct d; cbn [axis_of rc] in *; repeat match goal with H : ?x <> ?y -> _ |- _ => assert (x <> y) as X by discriminate; specialize (H X); clear X | H : ?x <> ?x -> _ |- _ => clear H end; cbn [rc] in *;
        repeat match goal with H : _ g = 0 |- _ => rewrite H; clear H end; rewrite !Rmult_0_l, ?Rplus_0_r, ?Rplus_0_l;
        match goal with |- k * (?x * ?y) = _ => replace (k * (x * y)) with (x * (k * y)) by ring; rewrite D; ring end.
    Qed.
    (** a cell of the same size *)
    Lemma same_list d b : (b < N)%nat -> cel b = beside d (cel a) -> nei d a = [b].
    Proof.
      intros Hb E. assert (PA := side_pos a Ha). assert (TB : touches d (cel a) (cel b)).
      { rewrite E. unfold beside. unfold touches. destruct (q_lo (cel a)) as [[x y] z] eqn:Q. unfold lo, hi, translate. cbn [q_lo q_side]. rewrite Q.
        destruct d; cbn [upward axis_of gc gadd gmap2]; (split; [unfold gadd; cbn [gmap2 gc]; lia|intros c Hc; destruct c; try congruence; unfold gadd; cbn [gmap2 gc]; lia]). }
      assert (UN : forall b', In b' (nei d a) -> b' = b).
      { intros b' H'. apply (nbs_in _ _ _ _ BO EO) in H'; auto. destruct H' as (H' & T'). destruct (Nat.eq_dec b' b) as [|NE]; [auto|exfalso].
        destruct (cells_disjoint bmin bmax BO b' b) as (c & D); [lia|lia|auto|]. pose proof (side_pos b' H') as PB'.
        destruct TB as (T1 & T2). destruct T' as (T1' & T2'). assert (SB : q_side (cel b) = q_side (cel a)) by (rewrite E; destruct d; reflexivity).
        assert (TR : forall c, c <> axis_of d -> lo c (cel b) = lo c (cel a)).
        { intros c' Hc'. rewrite E. unfold beside. rewrite lo_tr. destruct d, c'; cbn [axis_of gc] in *; try congruence; lia. }
        destruct (axis_eq_dec' c (axis_of d)) as [->|Hc].
        - unfold hi in *. destruct (upward d); fold (lo (axis_of d) (cel a)) (lo (axis_of d) (cel b)) (lo (axis_of d) (cel b')) in *; lia.
        - specialize (T2' c Hc). specialize (TR c Hc). unfold hi in *. fold (lo c (cel a)) (lo c (cel b)) (lo c (cel b')) in *. lia. }
      assert (IB : In b (nei d a)) by (apply (nbs_in _ _ _ _ BO EO); auto). pose proof (nbs_nd bmin bmax nreal env EO d a Ha) as ND.
      destruct (nei d a) as [|x l]; [destruct IB|]. destruct l as [|y l].
      - rewrite (UN x); [reflexivity|now left].
      - exfalso. inversion ND as [|? ? NI _]; subst. apply NI. left. rewrite (UN x) by now left. apply UN. right. now left.
    Qed.

    (** four cells of half the size *)
    Lemma dot_ax d b : rx g * dc AX (cel a) (cel b) + ry g * dc AY (cel a) (cel b) + rz g * dc AZ (cel a) (cel b) =
      rc (axis_of d) g * dc (axis_of d) (cel a) (cel b) + rc (ax1 d) g * dc (ax1 d) (cel a) (cel b) + rc (ax2 d) g * dc (ax2 d) (cel a) (cel b).
    Proof. destruct d; cbn [axis_of ax1 ax2 rc]; ring. Qed.
    Definition qd (d : dirn) (h i j : Z) : cube :=
      mkcube (pt d (if upward d then hi (axis_of d) (cel a) else lo (axis_of d) (cel a) - h) (lo (ax1 d) (cel a) + i * h) (lo (ax2 d) (cel a) + j * h))%Z h.
    Lemma ax_ne d : ax1 d <> axis_of d /\ ax2 d <> axis_of d /\ ax1 d <> ax2 d.
    Proof. destruct d; cbn; repeat split; discriminate. Qed.
    Lemma qd_ax d h i j : lo (axis_of d) (qd d h i j) = (if upward d then hi (axis_of d) (cel a) else lo (axis_of d) (cel a) - h)%Z.
    Proof. unfold lo at 1, qd. cbn [q_lo]. apply pt_ax. Qed.
    Lemma qd_1 d h i j : lo (ax1 d) (qd d h i j) = (lo (ax1 d) (cel a) + i * h)%Z.
    Proof. unfold lo at 1, qd. cbn [q_lo]. apply pt_1. Qed.
    Lemma qd_2 d h i j : lo (ax2 d) (qd d h i j) = (lo (ax2 d) (cel a) + j * h)%Z.
    Proof. unfold lo at 1, qd. cbn [q_lo]. apply pt_2. Qed.
    Lemma hi_lo c q : hi c q = (lo c q + q_side q)%Z.
    Proof. reflexivity. Qed.
    Lemma ax_cases d c : c = axis_of d \/ c = ax1 d \/ c = ax2 d.
    Proof. destruct d, c; cbn; auto. Qed.
    Lemma beside_lo d c : lo c (beside d (cel a)) = (lo c (cel a) + (if axis_eq_dec' c (axis_of d) then if upward d then q_side (cel a) else - q_side (cel a) else 0))%Z.
    Proof. unfold beside. rewrite lo_tr. destruct d, c; reflexivity. Qed.
    Lemma qd_octant d h i j : (0 < h)%Z -> q_side (cel a) = (2 * h)%Z -> (i = 0 \/ i = 1)%Z -> (j = 0 \/ j = 1)%Z -> octant (beside d (cel a)) (qd d h i j) /\ touches d (cel a) (qd d h i j).
    Proof.
      intros HP S I J. destruct (ax_ne d) as (N1 & N2 & N3). split.
      - split; [unfold beside, translate; cbn [q_side qd]; lia|]. intros c. rewrite beside_lo. cbn [qd q_side]. fold (qd d h i j).
        destruct (ax_cases d c) as [->|[->| ->]]; [rewrite qd_ax, hi_lo|rewrite qd_1|rewrite qd_2]; match goal with |- context [axis_eq_dec' ?x ?y] => destruct (axis_eq_dec' x y); try congruence end.
        + destruct (upward d); lia.
        + destruct I as [->| ->]; lia.
        + destruct J as [->| ->]; lia.
      - split.
        + rewrite !hi_lo, qd_ax, hi_lo. cbn [qd q_side]. destruct (upward d); lia.
        + intros c Hc. rewrite !hi_lo. destruct (ax_cases d c) as [->|[->| ->]]; [congruence|rewrite qd_1|rewrite qd_2]; cbn [qd q_side]; nia.
    Qed.
    Lemma quarter_list d h b00 b01 b10 b11 : (0 < h)%Z -> q_side (cel a) = (2 * h)%Z ->
      (b00 < N)%nat -> (b01 < N)%nat -> (b10 < N)%nat -> (b11 < N)%nat ->
      cel b00 = qd d h 0 0 -> cel b01 = qd d h 0 1 -> cel b10 = qd d h 1 0 -> cel b11 = qd d h 1 1 ->
      Permutation (nei d a) [b00; b01; b10; b11].
    Proof.
      intros HP S H00 H01 H10 H11 E00 E01 E10 E11.
      assert (TO : forall i j, (i = 0 \/ i = 1)%Z -> (j = 0 \/ j = 1)%Z -> touches d (cel a) (qd d h i j)) by (intros i j I J; apply qd_octant; auto).
      apply NoDup_Permutation.
      - apply (nbs_nd bmin bmax nreal env EO d a Ha).
      - assert (D1 : forall i j, lo (ax1 d) (qd d h i j) = (lo (ax1 d) (cel a) + i * h)%Z) by (intros; apply qd_1).
        assert (D2 : forall i j, lo (ax2 d) (qd d h i j) = (lo (ax2 d) (cel a) + j * h)%Z) by (intros; apply qd_2).
        assert (NE : forall b b' i j i' j', cel b = qd d h i j -> cel b' = qd d h i' j' -> (i <> i' \/ j <> j')%Z -> b <> b').
        { intros b b' i j i' j' E E' [X|X] ->; rewrite E in E'.
          - apply (f_equal (lo (ax1 d))) in E'. rewrite !D1 in E'. nia.
          - apply (f_equal (lo (ax2 d))) in E'. rewrite !D2 in E'. nia. }
        repeat constructor; cbn [In]; intuition idtac; match goal with X : ?x = ?y |- _ => revert X; eapply NE; eauto; lia end.
      - intros b'. rewrite (nbs_in bmin bmax nreal env BO EO d a b' Ha). cbn [In]. split.
        2: { intros [<-|[<-|[<-|[<-|[]]]]]; split; auto; [rewrite E00|rewrite E01|rewrite E10|rewrite E11]; apply TO; auto. }
        intros (H' & T'). assert (PB' := side_pos b' H').
        assert (MAIN : forall i j b, (b < N)%nat -> cel b = qd d h i j ->
          (lo (ax1 d) (cel b') < lo (ax1 d) (cel a) + i * h + h /\ lo (ax1 d) (cel a) + i * h < hi (ax1 d) (cel b'))%Z ->
          (lo (ax2 d) (cel b') < lo (ax2 d) (cel a) + j * h + h /\ lo (ax2 d) (cel a) + j * h < hi (ax2 d) (cel b'))%Z -> b = b').
        { intros i j b Hb E I1 I2. destruct (Nat.eq_dec b b') as [|NE]; [auto|exfalso].
          destruct (cells_disjoint bmin bmax BO b b') as (c & D); [lia|lia|auto|]. rewrite !hi_lo, E in D. cbn [qd q_side] in D. fold (qd d h i j) in D. rewrite !hi_lo in *.
          destruct T' as (T1 & _). rewrite !hi_lo in T1.
          destruct (ax_cases d c) as [->|[->| ->]]; [rewrite qd_ax, hi_lo in D; destruct (upward d); lia|rewrite qd_1 in D; lia|rewrite qd_2 in D; lia]. }
        destruct (ax_ne d) as (N1 & N2 & _). destruct T' as (_ & T2). assert (X1 := T2 _ N1). assert (X2 := T2 _ N2). clear T2. rewrite !hi_lo in X1, X2. rewrite S in *.
        destruct (Z_lt_ge_dec (lo (ax1 d) (cel b')) (lo (ax1 d) (cel a) + h)); destruct (Z_lt_ge_dec (lo (ax2 d) (cel b')) (lo (ax2 d) (cel a) + h)).
        + left. apply (MAIN 0%Z 0%Z); auto; rewrite ?hi_lo; lia.
        + right; left. apply (MAIN 0%Z 1%Z); auto; rewrite ?hi_lo; lia.
        + do 2 right; left. apply (MAIN 1%Z 0%Z); auto; rewrite ?hi_lo; lia.
        + do 3 right; left. apply (MAIN 1%Z 1%Z); auto; rewrite ?hi_lo; lia.
    Qed.
    Lemma grad_placed d : well_placed bmin bmax d a -> gdirL d fld (V a) (map V (nei d a)) = rc (axis_of d) g.
    Proof.
      intros [(b & Hb & E)|((h & S) & Q)].
      - assert (L := same_list d b Hb E). assert (IB : In b (nei d a)) by (rewrite L; now left). pose proof IB as IB'. apply (nbs_in _ _ _ _ BO EO) in IB'; auto. destruct IB' as (_ & T).
        assert (SB : q_side (cel b) = q_side (cel a)) by (rewrite E; destruct d; reflexivity).
        apply gdirL_const; [rewrite L; discriminate|]. intros v Hv. rewrite L in Hv. destruct Hv as [<-|[]]. rewrite term_eq by auto. rewrite (dot_ax d).
        assert (Z1 : forall c, c <> axis_of d -> dc c (cel a) (cel b) = 0).
        { intros c Hc. rewrite dc_eq, !hi_lo, SB, E, beside_lo. destruct (axis_eq_dec' c (axis_of d)); [congruence|]. rewrite Z.add_0_r. field. }
        destruct (ax_ne d) as (N1 & N2 & _). rewrite (Z1 _ N1), (Z1 _ N2), !Rmult_0_r, !Rplus_0_r.
        pose proof (dist_eq d b Hb T (or_introl SB)) as D. cbv zeta in D. set (k := dir_sign d * _) in *. clearbody k.
        replace (k * (rc (axis_of d) g * dc (axis_of d) (cel a) (cel b))) with (rc (axis_of d) g * (k * dc (axis_of d) (cel a) (cel b))) by ring. rewrite D. ring.
      - pose proof (side_pos a Ha) as PA. assert (HP : (0 < h)%Z) by lia.
        assert (GET : forall i j, (i = 0 \/ i = 1)%Z -> (j = 0 \/ j = 1)%Z -> exists b, (b < N)%nat /\ cel b = qd d h i j).
        { intros i j I J. destruct (qd_octant d h i j HP S I J). apply Q; auto. }
        destruct (GET 0%Z 0%Z) as (b00 & H00 & E00); auto. destruct (GET 0%Z 1%Z) as (b01 & H01 & E01); auto.
        destruct (GET 1%Z 0%Z) as (b10 & H10 & E10); auto. destruct (GET 1%Z 1%Z) as (b11 & H11 & E11); auto.
        pose proof (quarter_list d h b00 b01 b10 b11 HP S H00 H01 H10 H11 E00 E01 E10 E11) as P.
        rewrite (gdirL_perm _ _ _ _ _ (Permutation_map V P)). cbn [map]. unfold gdirL. cbn [length Nat.ltb Nat.leb rsum fold_right].
        assert (TM : forall b i j, In b [b00; b01; b10; b11] -> (b < N)%nat -> cel b = qd d h i j ->
          gterm d fld (V a) (V b) = rc (axis_of d) g + dir_sign d * (1 / (3 / 4 * hreal dx (cel a))) * (dx * IZR h / 2) * (rc (ax1 d) g * IZR (2 * i - 1) + rc (ax2 d) g * IZR (2 * j - 1))).
        { intros b i j IB Hb E. assert (IB' : In b (nei d a)) by (eapply Permutation_in; [symmetry; exact P|exact IB]). rewrite term_eq by auto. apply (nbs_in _ _ _ _ BO EO) in IB'; auto. destruct IB' as (_ & T).
          assert (SB : (2 * q_side (cel b) = q_side (cel a))%Z) by (rewrite E; cbn [qd q_side]; lia).
          pose proof (dist_eq d b Hb T (or_intror (or_intror SB))) as D. cbv zeta in D.
          destruct (Rlt_dec (hreal dx (cel b)) (hreal dx (cel a))) as [L|L]; [|exfalso; apply L; apply hr_lt; lia].
          rewrite (dot_ax d). rewrite (dc_eq (ax1 d)), (dc_eq (ax2 d)), !hi_lo, E. cbn [qd q_side]. fold (qd d h i j). rewrite qd_1, qd_2, S. rewrite <- E.
          set (k := dir_sign d * _) in *. clearbody k. rewrite Rmult_plus_distr_l, Rmult_plus_distr_l.
          replace (k * (rc (axis_of d) g * dc (axis_of d) (cel a) (cel b))) with (rc (axis_of d) g * (k * dc (axis_of d) (cel a) (cel b))) by ring. rewrite D.
          repeat first [rewrite minus_IZR | rewrite plus_IZR | rewrite mult_IZR]. field. }
        rewrite (TM b00 0%Z 0%Z), (TM b01 0%Z 1%Z), (TM b10 1%Z 0%Z), (TM b11 1%Z 1%Z) by (auto; cbn; auto).
        set (kk := dir_sign d * _ * _). replace (INR 4) with 4 by (cbn; ring). change (2 * 0 - 1)%Z with (-1)%Z. change (2 * 1 - 1)%Z with 1%Z. field.
    Qed.
  End Field.

  Lemma centre_shift q q' : rvadd (centre dx q) (shiftR (rbx dx q) (rbx dx q')) = face_centre dx q q'.
  Proof.
    unfold shiftR, rbx, rintersect, get_center, face_centre, centre, rlo, rhi, rvmap2.
    assert (MX : forall x y, Rmax (IZR x * dx) (IZR y * dx) = IZR (Z.max x y) * dx).
    { intros x y. destruct (Z_le_gt_dec x y).
      - rewrite Z.max_r by lia. apply Rmax_right. apply Rmult_le_compat_r; [lra|now apply IZR_le].
      - rewrite Z.max_l by lia. apply Rmax_left. apply Rmult_le_compat_r; [lra|apply IZR_le; lia]. }
    assert (MN : forall x y, Rmin (IZR x * dx) (IZR y * dx) = IZR (Z.min x y) * dx).
    { intros x y. destruct (Z_le_gt_dec x y).
      - rewrite Z.min_l by lia. apply Rmin_left. apply Rmult_le_compat_r; [lra|now apply IZR_le].
      - rewrite Z.min_r by lia. apply Rmin_right. apply Rmult_le_compat_r; [lra|apply IZR_le; lia]. }
    apply rv_ext; cbn; rewrite MX, MN; field.
  Qed.

  Variables (W0 : prim) (J : grad5).
  Hypothesis G1 : 1 < gamma.
  Hypothesis NM : mode <> SlopeNone.
  Lemma lin_W a : (a < N)%nat -> affine_around bmin bmax gamma dx W0 J U a ->
    forall b, (b < N)%nat -> (b = a \/ exists d, touches d (cel a) (cel b)) -> W b = state_at W0 J (centre dx (cel b)).
  Proof. intros Ha AF b Hb R. destruct (AF b Hb R) as (PH & E). unfold w. rewrite E. now apply c2p_conserved. Qed.
  Lemma lin_grad3 a fld f0 g : (a < N)%nat ->
    (forall b, (b < N)%nat -> (b = a \/ exists d, touches d (cel a) (cel b)) -> fld (W b) = f0 + dotp g (centre dx (cel b))) ->
    (forall d, well_placed bmin bmax d a \/ graded bmin bmax d a /\ forall c, c <> axis_of d -> rc c g = 0) ->
    grad3L mode fld (V a) (fun d => map V (nei d a)) = g.
  Proof.
    intros Ha FA PL.
    assert (E : forall d, gdirL d fld (V a) (map V (nei d a)) = rc (axis_of d) g).
    { intros d. destruct (PL d) as [P|(P & Z)]; [eapply grad_placed; eauto|eapply grad_graded; eauto]. }
    unfold grad3L. rewrite !E. cbn [axis_of rc]. rewrite !slope_ss by auto. now destruct g.
  Qed.
  Lemma lin_grad a : (a < N)%nat -> affine_around bmin bmax gamma dx W0 J U a ->
    (forall d, well_placed bmin bmax d a \/ graded bmin bmax d a /\ varies_only_along (axis_of d) J) -> Gr a = J.
  Proof.
    intros Ha AF PL. pose proof (lin_W a Ha AF) as WE.
    assert (SH : forall fld f0 g, (forall x, fld (state_at W0 J x) = f0 + dotp g x) -> (forall c d, varies_only_along (axis_of d) J -> c <> axis_of d -> rc c g = 0) -> grad3L mode fld (V a) (fun d => map V (nei d a)) = g).
    { intros fld f0 g F Z. apply (lin_grad3 a fld f0); auto.
      - intros b Hb R. rewrite WE by auto. apply F.
      - intros d. destruct (PL d) as [P|(P & VA)]; [now left|right]. split; [exact P|]. intros c Hc. eapply Z; eauto. }
    unfold G, gradL.
    rewrite (SH p_rho (p_rho W0) (g_rho J)), (SH p_press (p_press W0) (g_P J)),
      (SH (fun p => rx (p_vel p)) (rx (p_vel W0)) (mkrv (rx (g_dxv J)) (rx (g_dyv J)) (rx (g_dzv J)))),
      (SH (fun p => ry (p_vel p)) (ry (p_vel W0)) (mkrv (ry (g_dxv J)) (ry (g_dyv J)) (ry (g_dzv J)))),
      (SH (fun p => rz (p_vel p)) (rz (p_vel W0)) (mkrv (rz (g_dxv J)) (rz (g_dyv J)) (rz (g_dzv J)))).
    - cbn [rx ry rz]. destruct J as [? [] [] [] ?]. reflexivity.
    - intros x. unfold dotp; cbn. ring.
    - intros c d VA Hc. destruct (VA c Hc) as (_ & _ & E). destruct c; cbn [rc rx ry rz]; rewrite E; reflexivity.
    - intros x. unfold dotp; cbn. ring.
    - intros c d VA Hc. destruct (VA c Hc) as (_ & _ & E). destruct c; cbn [rc rx ry rz]; rewrite E; reflexivity.
    - intros x. unfold dotp; cbn. ring.
    - intros c d VA Hc. destruct (VA c Hc) as (_ & _ & E). destruct c; cbn [rc rx ry rz]; rewrite E; reflexivity.
    - intros x. reflexivity.
    - intros c d VA Hc. apply (VA c Hc).
    - intros x. reflexivity.
    - intros c d VA Hc. apply (VA c Hc).
  Qed.
  Lemma lin_side a b : (a < N)%nat -> affine_around bmin bmax gamma dx W0 J U a ->
    (forall d, well_placed bmin bmax d a \/ graded bmin bmax d a /\ varies_only_along (axis_of d) J) ->
    SD a b = later (dt / 2) (state_at W0 J (face_centre dx (cel a) (cel b))) (euler_rate gamma (state_at W0 J (centre dx (cel a))) J).
  Proof.
    intros Ha AF PL. unfold side. rewrite (lin_grad a Ha AF PL), (lin_W a Ha AF a Ha (or_introl eq_refl)).
    destruct (AF a Ha (or_introl eq_refl)) as ((PR & _) & _). rewrite <- centre_shift. generalize dependent (centre dx (cel a)). intros x PR. generalize (shiftR (rbx dx (cel a)) (rbx dx (cel b))). intros sh.
    apply prim_ext; cbn; unfold divergence, rdot, dotp; cbn; try (field; lra); try ring.
    all: cbn in PR; unfold dotp in PR; field; lra.
  Qed.
End Lin.
