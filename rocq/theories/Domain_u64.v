(** Integer positions (AMR): the bounds of patches are increasing and nothing wraps. *)
From Verif Require Import Base Patch Patch_spec Domain Domain_spec Domain_cell.
Local Open Scope Z_scope.

Definition iaxis (mult : bool) (fact dlo slo : Z) : Z -> Z := crt_u64_axis mult fact dlo slo.
(** what the constructor guarantees on one axis *)
Definition iaxis_ok (mult : bool) (fact slo shi dlo dhi : Z) : Prop :=
  0 < fact /\ if mult then dhi - dlo = fact * (shi + 1 - slo) else shi + 1 - slo = fact * (dhi - dlo).

Lemma iaxis_val mult fact slo shi dlo dhi c : 0 <= slo <= shi -> shi < u64_max -> ibounds_ok dlo dhi ->
  iaxis_ok mult fact slo shi dlo dhi -> slo <= c <= shi + 1 ->
  iaxis mult fact dlo slo c = (if mult then (c - slo) * fact else (c - slo) / fact) + dlo /\ dlo <= iaxis mult fact dlo slo c <= dhi.
Proof.
  intros Hs Hs2 (Hd & Hd2) (Hf & He) Hc. unfold iaxis, crt_u64_axis, u64_max in *.
  assert (E : w64 (c - slo) = c - slo) by (apply Z.mod_small; lia). rewrite E. destruct mult.
  - assert (B : 0 <= (c - slo) * fact <= dhi - dlo).
    { split; [apply Z.mul_nonneg_nonneg; lia|]. rewrite He, (Z.mul_comm fact). apply Z.mul_le_mono_nonneg_r; lia. }
    assert (E2 : w64 ((c - slo) * fact) = (c - slo) * fact) by (apply Z.mod_small; lia). rewrite E2.
    assert (E3 : w64 ((c - slo) * fact + dlo) = (c - slo) * fact + dlo) by (apply Z.mod_small; lia). rewrite E3. split; [reflexivity|lia].
  - assert (B : 0 <= (c - slo) / fact <= dhi - dlo).
    { split; [apply Z.div_pos; lia|]. apply Z.div_le_upper_bound; [lia|]. lia. }
    assert (E3 : w64 ((c - slo) / fact + dlo) = (c - slo) / fact + dlo) by (apply Z.mod_small; lia). rewrite E3. split; [reflexivity|lia].
Qed.
Lemma iaxis_increasing mult fact slo shi dlo dhi : 0 <= slo <= shi -> shi < u64_max -> ibounds_ok dlo dhi ->
  iaxis_ok mult fact slo shi dlo dhi -> increasing Z.leb Z.ltb (iaxis mult fact dlo slo) slo shi.
Proof.
  intros Hs Hs2 Hd Ha. split.
  - intros a b x H1 H2. rewrite !Z.leb_le. intros H. eapply Z.le_trans; [|exact H].
    rewrite (proj1 (iaxis_val mult fact slo shi dlo dhi a Hs Hs2 Hd Ha ltac:(lia))).
    rewrite (proj1 (iaxis_val mult fact slo shi dlo dhi b Hs Hs2 Hd Ha ltac:(lia))).
    apply Z.add_le_mono_r. destruct Ha as (Hf & _). destruct mult.
    + apply Z.mul_le_mono_nonneg_r; lia.
    + apply Z.div_le_mono; lia.
  - intros c x _ _. now rewrite Z.ltb_antisym.
Qed.

Definition icrt_ok (t : crt_u64) (g : pcoord) (box : range Z) : Prop :=
  tu_dmin t = fst box /\ tu_smin t = cmin g /\
  iaxis_ok (tu_mult t) (wx (tu_fact t)) (vx (cmin g)) (vx (cmax g)) (wx (fst box)) (wx (snd box)) /\
  iaxis_ok (tu_mult t) (wy (tu_fact t)) (vy (cmin g)) (vy (cmax g)) (wy (fst box)) (wy (snd box)) /\
  iaxis_ok (tu_mult t) (wz (tu_fact t)) (vz (cmin g)) (vz (cmax g)) (wz (fst box)) (wz (snd box)).

Lemma div_exact a b : 0 < b -> b <= a -> a mod b = 0 -> 0 < a / b /\ a = (a / b) * b.
Proof.
  intros Hb Ha H. assert (E : a = b * (a / b)) by (apply Z.div_exact; lia). split; [|lia].
  apply Z.div_str_pos. lia.
Qed.

Lemma make_crt_u64_ok g box t : grid_ok g -> ibox_ok box -> make_crt_u64 (get_patch_range g) box = Ok t -> icrt_ok t g box.
Proof.
  intros (GX & GX' & GY & GY' & GZ & GZ') ((BX & BX') & (BY & BY') & (BZ & BZ')).
  unfold make_crt_u64, get_patch_range, check_ranges, to_vec, u64_max in *. cbn [fst snd vx vy vz wx wy wz].
  repeat match goal with |- context[w64 (?h + 1)] => replace (w64 (h + 1)) with (h + 1) by (symmetry; apply Z.mod_small; lia) end.
  repeat match goal with |- context[if ?a >=? ?b then Throw else _] => destruct (Z.geb_spec a b); [lia|] end.
  cbn [rbind]. unfold vdelt. cbn [wx wy wz].
  set (sx := vx (cmax g) + 1 - vx (cmin g)). set (sy := vy (cmax g) + 1 - vy (cmin g)). set (sz := vz (cmax g) + 1 - vz (cmin g)).
  set (dx := wx (snd box) - wx (fst box)). set (dy := wy (snd box) - wy (fst box)). set (dz := wz (snd box) - wz (fst box)).
  assert (Ex : w64 sx = sx) by (apply Z.mod_small; lia). assert (Ey : w64 sy = sy) by (apply Z.mod_small; lia).
  assert (Ez : w64 sz = sz) by (apply Z.mod_small; lia). assert (Fx : w64 dx = dx) by (apply Z.mod_small; lia).
  assert (Fy : w64 dy = dy) by (apply Z.mod_small; lia). assert (Fz : w64 dz = dz) by (apply Z.mod_small; lia).
  rewrite Ex, Ey, Ez, Fx, Fy, Fz.
  unfold check_divisor, vdiv. cbn [wx wy wz].
  destruct (Z.geb_spec dx sx), (Z.geb_spec dy sy), (Z.geb_spec dz sz); cbn [Bool.eqb andb]; try discriminate.
  - destruct (Z.eqb_spec (dx mod sx) 0), (Z.eqb_spec (dy mod sy) 0), (Z.eqb_spec (dz mod sz) 0); cbn [andb rbind]; try discriminate.
    intros [= <-]. unfold icrt_ok, iaxis_ok. cbn [tu_mult tu_fact tu_dmin tu_smin wx wy wz]. fold sx sy sz dx dy dz.
    split; auto. split; auto. repeat split; apply div_exact; auto; lia.
  - destruct (Z.eqb_spec (sx mod dx) 0), (Z.eqb_spec (sy mod dy) 0), (Z.eqb_spec (sz mod dz) 0); cbn [andb rbind]; try discriminate.
    intros [= <-]. unfold icrt_ok, iaxis_ok. cbn [tu_mult tu_fact tu_dmin tu_smin wx wy wz]. fold sx sy sz dx dy dz.
    split; auto. split; auto. repeat split; apply div_exact; auto; lia.
Qed.

(** When the sides are multiples of one another, all in the same direction, the constructor succeeds. *)
Lemma make_crt_u64_iff g box : grid_ok g -> ibox_ok box ->
  (commensurable g box -> exists t, make_crt_u64 (get_patch_range g) box = Ok t) /\
  (~ commensurable g box -> make_crt_u64 (get_patch_range g) box = Throw).
Proof.
  intros (GX & GX' & GY & GY' & GZ & GZ') ((BX & BX') & (BY & BY') & (BZ & BZ')).
  unfold commensurable. cbv zeta.
  unfold make_crt_u64, get_patch_range, check_ranges, to_vec, u64_max in *. cbn [fst snd vx vy vz wx wy wz].
  repeat match goal with |- context[w64 (?h + 1)] => replace (w64 (h + 1)) with (h + 1) by (symmetry; apply Z.mod_small; lia) end.
  repeat match goal with |- context[if ?a >=? ?b then Throw else _] => destruct (Z.geb_spec a b); [lia|] end.
  cbn [rbind]. unfold vdelt. cbn [wx wy wz].
  set (sx := vx (cmax g) + 1 - vx (cmin g)). set (sy := vy (cmax g) + 1 - vy (cmin g)). set (sz := vz (cmax g) + 1 - vz (cmin g)).
  set (dx := wx (snd box) - wx (fst box)). set (dy := wy (snd box) - wy (fst box)). set (dz := wz (snd box) - wz (fst box)).
  assert (Ex : w64 sx = sx) by (apply Z.mod_small; lia). assert (Ey : w64 sy = sy) by (apply Z.mod_small; lia).
  assert (Ez : w64 sz = sz) by (apply Z.mod_small; lia). assert (Fx : w64 dx = dx) by (apply Z.mod_small; lia).
  assert (Fy : w64 dy = dy) by (apply Z.mod_small; lia). assert (Fz : w64 dz = dz) by (apply Z.mod_small; lia).
  rewrite Ex, Ey, Ez, Fx, Fy, Fz.
  unfold check_divisor, vdiv. cbn [wx wy wz].
  destruct (Z.geb_spec dx sx), (Z.geb_spec dy sy), (Z.geb_spec dz sz); cbn [Bool.eqb andb];
    try (split; [intros [X|X]; exfalso; lia|reflexivity]).
  - destruct (Z.eqb_spec (dx mod sx) 0), (Z.eqb_spec (dy mod sy) 0), (Z.eqb_spec (dz mod sz) 0); cbn [andb rbind];
      (split; [intros [X|X]; try (exfalso; lia); eauto|intros X; try reflexivity; exfalso; apply X; left; auto 10]).
  - destruct (Z.eqb_spec (sx mod dx) 0), (Z.eqb_spec (sy mod dy) 0), (Z.eqb_spec (sz mod dz) 0); cbn [andb rbind];
      (split; [intros [X|X]; try (exfalso; lia); eauto|intros X; try reflexivity; exfalso; apply X; right; auto 10]).
Qed.

Definition i_image (t : crt_u64) (g : pcoord) (box : range Z) : pcoord -> range Z :=
  image (iaxis (tu_mult t) (wx (tu_fact t)) (wx (fst box)) (vx (cmin g)))
        (iaxis (tu_mult t) (wy (tu_fact t)) (wy (fst box)) (vy (cmin g)))
        (iaxis (tu_mult t) (wz (tu_fact t)) (wz (fst box)) (vz (cmin g))).
Definition i_cell (t : crt_u64) (g : pcoord) (box : range Z) : vec3 Z -> v3 :=
  cell3 Z.leb (iaxis (tu_mult t) (wx (tu_fact t)) (wx (fst box)) (vx (cmin g)))
        (iaxis (tu_mult t) (wy (tu_fact t)) (wy (fst box)) (vy (cmin g)))
        (iaxis (tu_mult t) (wz (tu_fact t)) (wz (fst box)) (vz (cmin g))) g.

Lemma to_domain_u64_image g box b t : grid_ok g -> inside b g -> icrt_ok t g box ->
  (let '(p0, p1) := get_patch_range b in (crt_u64_transform t p0, crt_u64_transform t p1)) = i_image t g box b.
Proof.
  intros (GX & GX' & GY & GY' & GZ & GZ') ((X1 & X2 & X3) & (Y1 & Y2 & Y3) & (Z1 & Z2 & Z3)) (D & S & _).
  unfold get_patch_range, crt_u64_transform, i_image, image, iaxis, u64_max in *. rewrite D, S. cbn [vx vy vz].
  repeat match goal with |- context[w64 (?h + 1)] => replace (w64 (h + 1)) with (h + 1) by (symmetry; apply Z.mod_small; lia) end.
  reflexivity.
Qed.
Lemma in_i_image t g box b v : grid_ok g -> ibox_ok box -> inside b g -> icrt_ok t g box ->
  (is_in_patch_converted Z.leb Z.ltb v (fst (i_image t g box b)) (snd (i_image t g box b)) = true <-> in_box (i_cell t g box v) b).
Proof.
  intros HG HB HI (D & S & AX & AY & AZ).
  destruct HG as (GX & GX' & GY & GY' & GZ & GZ'). destruct HB as (BX & BY & BZ).
  apply (in_image Z.leb Z.ltb _ _ _ g); auto; eapply iaxis_increasing; eauto.
Qed.
Definition crt_u64_of (g : pcoord) (box : range Z) : res crt_u64 :=
  if is_err_range_u64 box then Throw else make_crt_u64 (get_patch_range g) box.
Lemma crt_u64_of_cases g box : grid_ok g -> ibox_ok box ->
  crt_u64_of g box = Throw \/ exists t, crt_u64_of g box = Ok t /\ icrt_ok t g box.
Proof.
  intros HG HB. unfold crt_u64_of. destruct (is_err_range_u64 box); auto.
  destruct (make_crt_u64 (get_patch_range g) box) as [t| |] eqn:E; auto.
  - right. exists t. split; auto. now apply make_crt_u64_ok.
  - exfalso. destruct (make_crt_u64_iff g box HG HB) as (P1 & P2). clear P1.
    unfold make_crt_u64, check_ranges, check_divisor in E. destruct box as (b0 & b1). destruct (get_patch_range g) as (s0 & s1). cbn [fst snd] in E.
    repeat match type of E with context[if ?c then _ else _] => destruct c; cbn [rbind] in E; try discriminate end.
Qed.
Lemma i_contains_cell g box b v t : grid_ok g -> ibox_ok box -> inside b g -> crt_u64_of g box = Ok t ->
  (i_contains g box b v <-> in_box (i_cell t g box v) b).
Proof.
  intros HG HB HI E. destruct (crt_u64_of_cases g box HG HB) as [E'|(t' & E' & HT)]; [congruence|]. assert (t' = t) by congruence. subst t'.
  unfold i_contains, patch_coord_to_domain_u64. fold (crt_u64_of g box). rewrite E. cbn [rbind].
  pose proof (to_domain_u64_image g box b t HG HI HT) as Im. destruct (get_patch_range b) as (p0 & p1).
  rewrite <- (in_i_image t g box b v HG HB HI HT). rewrite <- Im. split.
  - intros (r & [= <-] & H). exact H.
  - intros H. eexists. split; [reflexivity|exact H].
Qed.
(** The whole patch grid covers the whole box. *)
Lemma i_contains_grid g box v t : grid_ok g -> ibox_ok box -> crt_u64_of g box = Ok t ->
  (i_contains g box g v <-> is_in_patch_converted Z.leb Z.ltb v (fst box) (snd box) = true).
Proof.
  intros HG HB E. destruct (crt_u64_of_cases g box HG HB) as [E'|(t' & E' & HT)]; [congruence|]. assert (t' = t) by congruence. subst t'.
  assert (HI : inside g g) by (unfold inside, grid_ok in *; lia).
  unfold i_contains, patch_coord_to_domain_u64. fold (crt_u64_of g box). rewrite E. cbn [rbind].
  pose proof (to_domain_u64_image g box g t HG HI HT) as Im. destruct (get_patch_range g) as (p0 & p1). rewrite Im.
  assert (EI : i_image t g box g = box).
  { destruct HT as (D & S & AX & AY & AZ). destruct HG as (GX & GX' & GY & GY' & GZ & GZ'). destruct HB as (BX & BY & BZ).
    unfold i_image, image.
    assert (K : forall m f slo shi dlo dhi, 0 <= slo <= shi -> shi < u64_max -> ibounds_ok dlo dhi -> iaxis_ok m f slo shi dlo dhi ->
      iaxis m f dlo slo slo = dlo /\ iaxis m f dlo slo (shi + 1) = dhi).
    { intros m f slo shi dlo dhi A1 A2 A3 A4.
      rewrite (proj1 (iaxis_val m f slo shi dlo dhi slo A1 A2 A3 A4 ltac:(lia))), (proj1 (iaxis_val m f slo shi dlo dhi (shi + 1) A1 A2 A3 A4 ltac:(lia))).
      destruct A4 as (F & A4). rewrite Z.sub_diag. destruct m.
      - split; [lia|]. rewrite Z.mul_comm, <- A4. lia.
      - split; [now rewrite Z.div_0_l by lia|]. rewrite A4, Z.mul_comm, Z.div_mul by lia. lia. }
    destruct (K _ _ _ _ _ _ GX GX' BX AX) as (-> & ->). destruct (K _ _ _ _ _ _ GY GY' BY AY) as (-> & ->).
    destruct (K _ _ _ _ _ _ GZ GZ' BZ AZ) as (-> & ->). now destruct box as ([] & []). }
  rewrite EI. split.
  - intros (r & [= <-] & H). exact H.
  - intros H. eexists. split; [reflexivity|exact H].
Qed.
