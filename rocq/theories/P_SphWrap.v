(** C58: the boundary conditions put every particle back in the box, at its image, and change nothing else. *)
From Verif Require Import Base Par Patch Patch_spec PatchTree Sched Sched_spec Domain Domain_spec Domain_cell Domain_main SphGhost SphGhost_spec SphGhost_geo SphWrap SphWrap_spec SphWrap_proofs F64.
From Coq Require Import Reals Lra ZifyBool.
From Flocq Require Import Core.
From Flocq Require Import Div_sqrt_error.
Local Open Scope Z_scope.

Notation pv := (vec3 R * vec3 R)%type.
Notation lattice cfg t := (gen_ghost_config exact cfg t).

(** ** All the particles of a rank, for every order of the work items.  With free boundaries nothing changes. *)
Theorem C58_free : forall rnd t box order ps, apply_position_boundary rnd BC_Free t box order ps = Ok ps.
Proof. intros rnd t box order. induction ps as [|[id l] ps IH]; [reflexivity|]. cbn [apply_position_boundary rbind]. rewrite IH. reflexivity. Qed.
(** Otherwise each particle is replaced, in place, by its image that lies in the box: the same position in the
    lattice of the box at that time (C57 builds the ghosts from the same lattice), with the velocity of the image;
    no other image is in the box. *)
Theorem C58_boundary : forall cfg t box order ps n,
  rbox_ok box -> bc_ok cfg -> cfg <> BC_Free -> 1 <= n -> counts_fit cfg n ->
  (forall id l, In (id, l) ps -> Permutation (order id) (seq 0 (length l)) /\
     forall p, In p l -> within n box (fst p) /\ off_faces cfg box (fst p)) ->
  exists ps', apply_position_boundary exact cfg t box order ps = Ok ps' /\
    Forall2 (fun a b => fst b = fst a /\
      Forall2 (fun p q : pv => in_range box (fst q) /\ is_image (bsize box) (lattice cfg t) p q /\
        forall q', is_image (bsize box) (lattice cfg t) p q' -> in_range box (fst q') -> q' = q) (snd a) (snd b)) ps ps'.
Proof.
  intros cfg t box order ps n HB HC HF Hn HN. induction ps as [|[id l] ps IH]; intros H; cbn [apply_position_boundary].
  - exists []. split; [reflexivity|constructor].
  - destruct (H id l (or_introl eq_refl)) as (HP & Hl).
    destruct (par_update_ok (boundary_item exact cfg t box) (order id) l HP) as (l' & El & F).
    { intros p Hp. destruct (Hl p Hp). eapply item_total; eauto. }
    assert (Em : (match cfg with BC_Free => Ok l | _ => par_update (boundary_item exact cfg t box) (order id) l end) = Ok l') by (destruct cfg; [congruence|exact El|exact El]).
    rewrite Em. cbn [rbind]. destruct IH as (ps' & -> & F2); [intros; apply H; right; auto|]. cbn [rbind]. eexists. split; [reflexivity|].
    constructor; auto. cbn [fst snd]. split; auto. clear El Em HP H.
    induction F as [|p q l l' Epq F IHF]; constructor.
    + destruct (Hl p (or_introl eq_refl)) as (_ & Ho). destruct (item_ok cfg t box p q HB HC HF Ho Epq) as (m & -> & Hq). split; auto. split; [exists m; reflexivity|].
      intros q' (m' & ->) Hq'. f_equal. eapply image_unique; eauto.
    + apply IHF. intros; apply Hl; right; auto.
Qed.
(** So the set of all the images of a particle is the same before and after, and a particle in the box is left as it is. *)
Theorem C58_same_images : forall cfg t box p q, is_image (bsize box) (lattice cfg t) p q ->
  forall x, is_image (bsize box) (lattice cfg t) p x <-> is_image (bsize box) (lattice cfg t) q x.
Proof. intros cfg t box p q (m & ->) x. apply same_images. Qed.
Theorem C58_inside_unchanged : forall cfg t box order ps n,
  rbox_ok box -> bc_ok cfg -> 1 <= n -> counts_fit cfg n ->
  (forall id l, In (id, l) ps -> Permutation (order id) (seq 0 (length l)) /\ forall p, In p l -> in_range box (fst p)) ->
  apply_position_boundary exact cfg t box order ps = Ok ps.
Proof.
  intros cfg t box order ps n HB HC Hn HN H. assert (D : cfg = BC_Free \/ cfg <> BC_Free) by (destruct cfg; auto; right; discriminate).
  destruct D as [->|HF]; [apply C58_free|].
  destruct (C58_boundary cfg t box order ps n HB HC HF Hn HN) as (ps' & E & F).
  { intros id l Hil. destruct (H id l Hil) as (HP & Hl). split; auto. intros p Hp. specialize (Hl p Hp). destruct HB as (B1 & B2 & B3), Hl as (X & Y & Z').
    assert (N1 : (1 <= IZR n)%R) by (apply IZR_le; auto).
    assert (A : forall lo hi x, (lo < hi -> lo <= x < hi -> Rabs (x - lo) < IZR n * (hi - lo))%R).
    { intros lo hi x Hlh Hx. rewrite Rabs_pos_eq by lra. apply Rlt_le_trans with (1 * (hi - lo))%R; [lra|]. apply Rmult_le_compat_r; lra. }
    split; [split; [|split]; apply A; auto|]. destruct cfg as [| |base dir speed]; cbn [off_faces]; auto.
    assert (O : forall lo hi x, (lo < hi -> lo <= x < hi)%R -> ~ ((lo < hi)%R /\ on_lower_face lo hi x)).
    { intros lo hi x Hx (Hlh & k & Hk & Ek). specialize (Hx Hlh). assert (IZR k <= -1)%R by (apply IZR_le; lia). assert (IZR k * (hi - lo) <= -1 * (hi - lo))%R by (apply Rmult_le_compat_r; lra). lra. }
    split; [|split]; right; intros Hf; [apply (O (wx (fst box)) (wx (snd box)) (wx (fst p)))|apply (O (wy (fst box)) (wy (snd box)) (wy (fst p)))|apply (O (wz (fst box)) (wz (snd box)) (wz (fst p)))]; auto. }
  rewrite E. f_equal. clear E. revert H. induction F as [|[id l] [id' l'] ps ps' (E1 & F1) F IH]; intros H; [reflexivity|]. cbn [fst snd] in *. subst id'. f_equal.
  - f_equal. destruct (H id l (or_introl eq_refl)) as (_ & Hl). clear - F1 Hl. induction F1 as [|p q l l' (_ & _ & U) F IH]; [reflexivity|]. f_equal.
    + symmetry. apply U; [exists (V3 0 0 0); symmetry; apply moved_0|]. apply Hl. left; auto.
    + apply IH. intros; apply Hl; right; auto.
  - apply IH. intros; apply H; right; auto.
Qed.

(** ** Every position in the box belongs to exactly one patch, so the reattribution that follows (C44) always finds
    the home of every particle. *)
Section Home.
Variables (obj : Type) (pos : obj -> v3) (W : nat).
Definition r_contains (g : pcoord) (box : range R) (b : pcoord) (v : vec3 R) : Prop := exists r, r_to_box g box b = Ok r /\ in_range r v.
Lemma in_rangeb_spec r v : is_in_patch_converted Rle_bool Rlt_bool v (fst r) (snd r) = true <-> in_range r v.
Proof.
  unfold is_in_patch_converted, in_range. rewrite !andb_true_iff.
  assert (A : forall a b, Rle_bool a b = true <-> (a <= b)%R) by (intros a b; case Rle_bool_spec; split; intros; try discriminate; auto; lra).
  assert (B : forall a b, Rlt_bool a b = true <-> (a < b)%R) by (intros a b; case Rlt_bool_spec; split; intros; try discriminate; auto; lra).
  rewrite !A, !B. tauto.
Qed.
Theorem C58_home : forall bs s g box v, (1 <= W)%nat -> sched_history obj pos W bs s ->
  grid_ok g -> rbox_ok box -> (forall b, In b bs -> inside b g) -> partition_of bs g -> in_range box v ->
  exists P, In P (s_global _ s) /\ valid_patch W P /\ r_contains g box (p_box P) v /\
    forall Q, In Q (s_global _ s) -> valid_patch W Q -> r_contains g box (p_box Q) v -> Q = P.
Proof.
  intros bs s g box v HW Hist HG HB Hin Hpart Hv.
  assert (HC : forall b v, inside b g -> (r_contains g box b v <-> in_box (r_cell g box v) b)).
  { intros b u Hb. destruct (r_conv g box HG HB b Hb) as (r & E & Hr). unfold r_contains. rewrite E. split.
    - intros (r' & Er & Hi). assert (r = r') by congruence. subst r'. apply Hr, in_rangeb_spec, Hi.
    - intros Hi. exists r. split; auto. apply in_rangeb_spec, Hr, Hi. }
  destruct (cell_partition obj pos W (r_contains g box) (r_cell g box) bs s g HW Hist Hin HC) as (U & Ex).
  assert (G : r_contains g box g v).
  { exists (r_image g box g). assert (Ig : inside g g) by (unfold grid_ok, inside in *; lia). split; [apply r_to_box_ok; auto|].
    destruct box as [[lx ly lz] [hx hy hz]]. destruct HB as (B1 & B2 & B3). unfold r_image, image, Fx, Fy, Fz, in_range in *. cbn [fst snd wx wy wz] in *.
    rewrite !r_axis_lo, !r_axis_hi by (auto using gx, gy, gz). exact Hv. }
  apply (roots_grid (r_contains g box) (r_cell g box) bs g v HG Hin Hpart HC) in G. apply Ex in G. destruct G as (P & HP & VP & HcP). exists P. split; auto. split; auto. split; auto.
  intros Q HQ VQ HcQ. eapply U; eauto.
Qed.
End Home.

(** ** In double precision *)
(** The result of fmod on doubles is a double: no rounding is left out. *)
Theorem C58_fmod_exact : forall x d, generic_format radix2 fexp64 x -> generic_format radix2 fexp64 d -> generic_format radix2 fexp64 (fmod x d).
Proof. intros x d Hx Hd. unfold fmod. apply format_REM_ZR; auto with typeclass_instances. Qed.
(** The wrapped coordinate is between the lower bound and the rounded sum of it and of the length of the box ... *)
Theorem C58_double_bounds : forall lo hi x, generic_format radix2 fexp64 lo -> (0 < RN (hi - lo))%R ->
  (lo <= modulo_axis RN lo hi x <= RN (lo + RN (hi - lo)))%R.
Proof. intros lo hi x Hl Hd. apply wrap_rounded; auto using RN_le, RN_0, RN_id. Qed.
Print Assumptions C58_free.
Print Assumptions C58_boundary.
Print Assumptions C58_same_images.
Print Assumptions C58_inside_unchanged.
Print Assumptions C58_home.
Print Assumptions C58_fmod_exact.
Print Assumptions C58_double_bounds.

(** ... which is not always in the box: one ulp below the lower face gives the upper one, which belongs to no patch. *)
Definition f_below1 : f64 := @BinarySingleNaN.B754_finite 53 1024 false 9007199254740991 (-53) eq_refl.
Definition f_one : f64 := @BinarySingleNaN.B754_finite 53 1024 false 4503599627370496 (-52) eq_refl.
Definition f_tiny : f64 := @BinarySingleNaN.B754_finite 53 1024 false 4503599627370496 (-112) eq_refl.
Lemma v_below1 : fval f_below1 = (1 - bpow radix2 (-53))%R.
Proof. unfold fval, f_below1, BinarySingleNaN.B2R, F2R. cbn [Fnum Fexp SpecFloat.cond_Zopp]. replace (bpow radix2 (-53)) with (/ 9007199254740992)%R by reflexivity. lra. Qed.
Lemma v_one : fval f_one = 1%R.
Proof. unfold fval, f_one, BinarySingleNaN.B2R, F2R. cbn [Fnum Fexp SpecFloat.cond_Zopp]. replace (bpow radix2 (-52)) with (/ 4503599627370496)%R by reflexivity. lra. Qed.
Lemma v_tiny : fval f_tiny = bpow radix2 (-60).
Proof. unfold fval, f_tiny, BinarySingleNaN.B2R, F2R. cbn [Fnum Fexp SpecFloat.cond_Zopp]. change (IZR 4503599627370496) with (bpow radix2 52). rewrite <- bpow_plus. reflexivity. Qed.
Lemma b53 : (0 < bpow radix2 (-53) < 1/2)%R.
Proof. split; [apply bpow_gt_0|]. replace (1/2)%R with (bpow radix2 (-1)) by (cbn; lra). apply bpow_lt. lia. Qed.
Lemma b60 : (0 < bpow radix2 (-60) < 1/2)%R.
Proof. split; [apply bpow_gt_0|]. replace (1/2)%R with (bpow radix2 (-1)) by (cbn; lra). apply bpow_lt. lia. Qed.
Lemma rn1 : RN 1 = 1%R. Proof. apply RN_id, (format_Z 1). lia. Qed.
Lemma rn_up : RN (1 - bpow radix2 (-53) + 1) = 2%R.
Proof.
  rewrite <- v_below1, <- v_one at 1. pose proof b53 as B. destruct (add_ok f_below1 f_one 1) as (<- & _); try reflexivity; try lia.
  - rewrite v_below1, v_one. apply Rabs_le. change (bpow radix2 1) with 2%R. lra.
  - replace (f_add f_below1 f_one) with (@BinarySingleNaN.B754_finite 53 1024 false 4503599627370496 (-51) eq_refl : f64) by (apply BinarySingleNaN.B2SF_inj; vm_compute; reflexivity).
    unfold fval, BinarySingleNaN.B2R, F2R. cbn [Fnum Fexp SpecFloat.cond_Zopp]. replace (bpow radix2 (-51)) with (/ 2251799813685248)%R by reflexivity. lra.
Qed.
Lemma rn_lost : RN (bpow radix2 (-60) + 1) = 1%R.
Proof.
  rewrite <- v_tiny, <- v_one at 1. pose proof b60 as B. destruct (add_ok f_tiny f_one 1) as (<- & _); try reflexivity; try lia.
  - rewrite v_tiny, v_one. apply Rabs_le. change (bpow radix2 1) with 2%R. lra.
  - replace (f_add f_tiny f_one) with f_one by (apply BinarySingleNaN.B2SF_inj; vm_compute; reflexivity). apply v_one.
Qed.
Lemma fmod_small x : (-1 < x < 1)%R -> fmod x 1 = x.
Proof.
  intros H. unfold fmod. replace (x / 1)%R with x by field. assert (Ztrunc x = 0) as ->; [|lra].
  destruct (Rle_or_lt 0 x); [rewrite Ztrunc_floor by auto; apply Zfloor_imp; cbn; lra|rewrite Ztrunc_ceil by lra; apply Zceil_imp; cbn; lra].
Qed.
Theorem C58_upper_face_refuted : exists lo hi x, generic_format radix2 fexp64 lo /\ generic_format radix2 fexp64 hi /\ generic_format radix2 fexp64 x /\
  (lo < hi)%R /\ modulo_axis RN lo hi x = hi.
Proof.
  exists 1%R, 2%R, (1 - bpow radix2 (-53))%R. pose proof b53 as B.
  assert (Fx : generic_format radix2 fexp64 (1 - bpow radix2 (-53))%R).
  { replace (1 - bpow radix2 (-53))%R with (IZR (2 ^ 53 - 1) * bpow radix2 (-53))%R; [apply format_scaled; lia|]. replace (bpow radix2 (-53)) with (/ 9007199254740992)%R by reflexivity. cbn [Z.pow Z.pow_pos Pos.iter Z.mul Pos.mul Z.sub Z.add Z.opp Z.pos_sub Pos.pred_double Z.pred_double]. lra. }
  split; [apply (format_Z 1); lia|]. split; [apply (format_Z 2); lia|]. split; [exact Fx|]. split; [lra|].
  unfold modulo_axis, wrap_axis, radd, rsub. cbv zeta. replace (2 - 1)%R with 1%R by ring. rewrite rn1.
  replace (1 - bpow radix2 (-53) - 1)%R with (- bpow radix2 (-53))%R by ring.
  assert (E : RN (- bpow radix2 (-53)) = (- bpow radix2 (-53))%R) by (apply RN_id, generic_format_opp, format_bpow; lia). rewrite E.
  rewrite (fmod_small (- bpow radix2 (-53))) by lra. replace (- bpow radix2 (-53) + 1)%R with (1 - bpow radix2 (-53))%R by ring. rewrite (RN_id _ Fx). rewrite fmod_small by lra. exact rn_up.
Qed.
(** Even a position inside the box is changed: its low bits are lost when the length of the box is added. *)
Theorem C58_inside_rounded_refuted : exists lo hi x, generic_format radix2 fexp64 lo /\ generic_format radix2 fexp64 hi /\ generic_format radix2 fexp64 x /\
  (lo <= x < hi)%R /\ modulo_axis RN lo hi x <> x.
Proof.
  exists 0%R, 1%R, (bpow radix2 (-60)). pose proof b60 as B.
  split; [apply generic_format_0|]. split; [apply (format_Z 1); lia|]. split; [apply format_bpow; lia|]. split; [lra|].
  unfold modulo_axis, wrap_axis, radd, rsub. cbv zeta. rewrite !Rminus_0_r, rn1. rewrite (RN_id (bpow radix2 (-60))) by (apply format_bpow; lia).
  rewrite (fmod_small (bpow radix2 (-60))) by lra. rewrite rn_lost. assert (E : fmod 1 1 = 0%R). { unfold fmod. replace (1 / 1)%R with (IZR 1) by (cbn; field). rewrite Ztrunc_IZR. cbn; ring. }
  rewrite E, Rplus_0_r, RN_0. lra.
Qed.

(** ** Concrete cases *)
Definition ubox : range R := (W3 0 0 0, W3 1 1 1)%R.
Definition ushear := BC_Shear (V3 1 0 0) (V3 0 1 0) 1%R.
Lemma ubox_ok : rbox_ok ubox. Proof. unfold rbox_ok, ubox. cbn [fst snd wx wy wz]. lra. Qed.
Example C58_nonvacuous : apply_position_boundary exact ushear (1/2)%R ubox (fun _ => [0%nat])
    [(0, [(W3 (-1/2) (1/4) (1/4), W3 0 0 0)%R])] = Ok [(0, [(W3 (1/2) (3/4) (1/4), W3 0 1 0)%R])].
Proof.
  destruct (C58_boundary ushear (1/2)%R ubox (fun _ => [0%nat]) [(0, [(W3 (-1/2) (1/4) (1/4), W3 0 0 0)%R])] 2) as (ps' & -> & F); try lia; auto using ubox_ok; try discriminate.
  - unfold bc_ok, ushear, ortho. cbn. lia.
  - unfold counts_fit, ushear. cbn. lia.
  - intros id l [[= <- <-]|[]]. split; [apply Permutation_refl|]. intros p [<-|[]]. unfold within, off_faces, ushear, ubox. cbn [fst snd wx wy wz vx vy vz]. split.
    + split; [|split]; apply Rabs_lt; lra.
    + split; [right|split; left; reflexivity]. intros (k & Hk & E). assert (IZR k <= -1)%R by (apply IZR_le; lia). lra.
  - f_equal. inversion F as [|a b l l' (Ea & Fb) F']; subst. inversion F'; subst. f_equal. destruct b as [id l]. cbn [fst snd] in *. subst id. f_equal.
    inversion Fb as [|p q m m' (_ & _ & U) Fm]; subst. inversion Fm; subst. f_equal. symmetry. apply U.
    + exists (V3 1 0 0). unfold moved_to, vadd, bsize, vsub, ubox, ushear, rmul, exact. cbn [gen_ghost_config image_at image_speed fst snd wx wy wz vx vy vz Z.mul Pos.mul Z.add]. unfold rmul, exact. f_equal; f_equal; lra.
    + unfold in_range, ubox. cbn [fst snd wx wy wz]. lra.
Qed.
(** A position exactly one box below the lower face is counted as two boxes away (cpp:287-289: -1.0 is truncated to -1, then 1 is
    subtracted), and the particle goes to a place, with a velocity, which are not those of any of its images. *)
Theorem C58_lower_face_refuted : exists p q, boundary_item exact ushear (1/2)%R ubox p = Ok q /\ in_range ubox (fst q) /\
  ~ is_image (bsize ubox) (lattice ushear (1/2)%R) p q.
Proof.
  exists (W3 (-1) (1/4) (1/4), W3 0 0 0)%R, (W3 0 (1/4) (1/4), W3 0 2 0)%R.
  assert (CP : forall v k, (IZR k <= v < IZR (k + 1))%R -> (0 <= k < 2 ^ 31 - 1) -> cnt_per v = Ok k).
  { intros v k Hv Hk. unfold cnt_per, to_int. rewrite plus_IZR in Hv. assert (0 <= IZR k)%R by (apply IZR_le; lia). rewrite Ztrunc_floor by lra. rewrite (Zfloor_imp k) by (rewrite plus_IZR; lra).
    replace ((- 2 ^ 31 <=? k) && (k <? 2 ^ 31)) with true by (symmetry; apply andb_true_iff; lia). cbn [rbind]. rewrite Rle_bool_true by lra. reflexivity. }
  assert (CM : cnt_per (-1) = Ok (-2)).
  { unfold cnt_per, to_int. rewrite (Ztrunc_IZR (-1)). cbn [Z.leb Z.ltb Z.compare andb rbind]. rewrite Rle_bool_false by lra. reflexivity. }
  assert (Wr : forall r k, (0 <= r + IZR k < 1)%R -> wrap_axis exact 0 1 r = (r + IZR k)%R).
  { intros r k Hk. destruct (wrap_exact 0 1 r ltac:(lra)) as (j & E & B). rewrite E in *. assert (k - j = 0).
    { apply (rep_unique 0 1 (0 + r + IZR j * 1) (r + IZR k)); rewrite ?minus_IZR; lra. } replace k with j by lia. lra. }
  split; [|split].
  - unfold boundary_item, ushear, sheared_modulo, ubox. cbn [fst snd wx wy wz vx vy vz]. unfold rsub, rdiv, rmul, exact. rewrite !Rminus_0_r.
    replace (-1 / 1)%R with (-1)%R by field. replace (1 / 4 / 1)%R with (1/4)%R by field. rewrite CM. cbn [rbind]. rewrite (CP (1/4)%R 0) by (cbn; lra || lia). cbn [rbind].
    cbn [Z.mul Z.add i32 Z.leb Z.ltb Z.compare andb rbind]. change (i32 (-2)) with (Ok (-2)). cbn [rbind Z.mul Z.add]. change (i32 0) with (Ok 0). cbn [rbind Z.mul Z.add Pos.mul]. change (i32 (-2)) with (Ok (-2)). cbn [rbind Z.mul Z.add Pos.mul].
    change (i32 (-2)) with (Ok (-2)). change (i32 0) with (Ok 0). cbn [rbind Z.mul Z.add Pos.mul]. change (i32 (-2)) with (Ok (-2)). change (i32 0) with (Ok 0). cbn [rbind].
    change (i32 (-2 * 0)) with (Ok 0). change (i32 (-2 * 1)) with (Ok (-2)). cbn [rbind]. change (fun x : R => x) with exact.
    rewrite (Wr (-1 - IZR 0 * (1 * (1 / 2)))%R 1), (Wr (1 / 4 - IZR (-2) * (1 * (1 / 2)))%R (-1)), (Wr (1 / 4 - IZR 0 * (1 * (1 / 2)))%R 0) by lra. f_equal. f_equal; f_equal; lra.
  - unfold in_range, ubox. cbn [fst snd wx wy wz]. lra.
  - intros ([n m k] & E). unfold moved_to, vadd, bsize, vsub, ubox, ushear, rmul, exact in E. cbn [gen_ghost_config image_at image_speed fst snd wx wy wz vx vy vz] in E.
    unfold rmul, exact in E. injection E as E1 E2 E3 E4 E5 E6. rewrite !Z.mul_0_r, !Z.mul_1_r, !Z.add_0_r in *. lra.
Qed.
Print Assumptions C58_upper_face_refuted.
Print Assumptions C58_inside_rounded_refuted.
Print Assumptions C58_lower_face_refuted.
From Verif Require P_SphGhost.
Example C58_home_nonvacuous : forall v, in_range P_SphGhost.exbox v -> exists P, In P [P_SphGhost.exPA; P_SphGhost.exPB] /\ r_contains P_SphGhost.exg P_SphGhost.exbox (p_box P) v.
Proof.
  intros v Hv. destruct (C58_home _ _ 1 _ _ P_SphGhost.exg P_SphGhost.exbox v ltac:(lia) P_SphGhost.ex_h2 P_SphGhost.ex_grid P_SphGhost.ex_rbox P_SphGhost.ex_in) as (P & HP & _ & Hc & _); auto.
  - split.
    + intros p. unfold in_box, P_SphGhost.exg. split.
      * intros H. destruct (Z_le_dec (vx p) (vx (cmax P_SphGhost.exA))) as [L|L]; [exists P_SphGhost.exA|exists P_SphGhost.exB]; (split; [cbn [In]; auto|]);
          unfold P_SphGhost.exA, P_SphGhost.exB in *; cbn [cmin cmax vx vy vz] in *; lia.
      * intros (c & [<-|[<-|[]]] & H); unfold P_SphGhost.exA, P_SphGhost.exB in *; cbn [cmin cmax vx vy vz] in *; lia.
    + intros i j a b Ha Hb Ne pt. destruct i as [|[|i]], j as [|[|j]]; cbn [nth_error] in *; try (now destruct i); try (now destruct j); try congruence;
        injection Ha as <-; injection Hb as <-; unfold in_box, P_SphGhost.exA, P_SphGhost.exB; cbn [cmin cmax vx vy vz]; lia.
  - exists P. split; auto.
Qed.
