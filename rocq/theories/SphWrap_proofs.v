(** Proofs about the boundary conditions. *)
From Verif Require Import Base Par Patch Patch_spec Domain SphGhost SphGhost_spec SphWrap SphWrap_spec.
From Coq Require Import Reals Lra ZifyBool.
From Flocq Require Import Core.
Local Open Scope Z_scope.

Lemma par_update_gen {A} (f : A -> res A) order : NoDup order -> forall buf,
  (forall i, In i order -> (i < length buf)%nat) ->
  (forall i a, In i order -> nth_error buf i = Some a -> exists b, f a = Ok b) ->
  exists out, par_update f order buf = Ok out /\ length out = length buf /\
    (forall i a, In i order -> nth_error buf i = Some a -> exists b, f a = Ok b /\ nth_error out i = Some b) /\
    (forall i, ~ In i order -> nth_error out i = nth_error buf i).
Proof.
  unfold par_update, par_for. induction order as [|i order IH]; intros ND buf HB HF; cbn [rfold].
  - exists buf. split; auto. split; auto. split; auto. intros i a [].
  - inversion ND as [|? ? NI ND']; subst. assert (L : (i < length buf)%nat) by (apply HB; left; auto).
    destruct (nth_error buf i) as [a|] eqn:Ea; [|apply nth_error_None in Ea; lia].
    destruct (HF i a (or_introl eq_refl) Ea) as (b & Eb). unfold aget. rewrite Ea. cbn [rbind]. rewrite Eb. cbn [rbind]. rewrite aset_lt by auto. cbn [rbind].
    destruct (IH ND' (upd buf i b)) as (out & E2 & L2 & P1 & P2).
    { intros j Hj. rewrite length_upd. apply HB. right; auto. }
    { intros j c Hj. rewrite nth_error_upd_neq by (intros ->; auto). apply HF. right; auto. }
    exists out. split; [exact E2|]. split; [now rewrite L2, length_upd|]. split.
    + intros j c [<-|Hj] Hc.
      * rewrite Ea in Hc. assert (a = c) by congruence. subst c. exists b. split; auto. rewrite P2 by auto. now apply nth_error_upd_eq.
      * apply P1; auto. rewrite nth_error_upd_neq; auto. intros ->; auto.
    + intros j Hj. cbn [In] in Hj. rewrite P2 by tauto. apply nth_error_upd_neq. tauto.
Qed.
Lemma F2_nth {A B} (P : A -> B -> Prop) : forall l l', length l' = length l ->
  (forall i a, nth_error l i = Some a -> exists b, nth_error l' i = Some b /\ P a b) -> Forall2 P l l'.
Proof.
  induction l as [|a l IH]; intros [|b l'] L H; try discriminate; [constructor|]. injection L as L. constructor.
  - destruct (H 0%nat a eq_refl) as (b' & [= <-] & Hp). exact Hp.
  - apply IH; auto. intros i c Hi. exact (H (S i) c Hi).
Qed.
Lemma par_update_ok {A} (f : A -> res A) order buf : Permutation order (seq 0 (length buf)) ->
  (forall a, In a buf -> exists b, f a = Ok b) ->
  exists out, par_update f order buf = Ok out /\ Forall2 (fun a b => f a = Ok b) buf out.
Proof.
  intros HP HF. destruct (par_update_gen f order) with (buf := buf) as (out & E & L & A1 & _).
  - eapply Permutation_NoDup; [symmetry; exact HP|apply seq_NoDup].
  - intros i Hi. apply (Permutation_in _ HP) in Hi. apply in_seq in Hi. lia.
  - intros i a _ Ha. apply HF. eapply nth_error_In; eauto.
  - exists out. split; auto. apply F2_nth; auto. intros i a Ha. destruct (A1 i a) as (b & B1 & B2); eauto.
    apply (Permutation_in _ (Permutation_sym HP)). apply in_seq. assert (nth_error buf i <> None) as Hn by congruence. apply nth_error_Some in Hn. lia.
Qed.

Local Open Scope R_scope.
(** ** fmod *)
Lemma fmod_rem x d : 0 < d -> exists k, fmod x d = x - IZR k * d /\ Rabs (fmod x d) < d /\ (0 <= x -> 0 <= fmod x d) /\ (x <= 0 -> fmod x d <= 0).
Proof.
  intros Hd. exists (Ztrunc (x / d)). split; [reflexivity|]. unfold fmod.
  assert (E : x = x / d * d) by (field; lra). set (q := x / d) in *.
  assert (M : forall a b, a <= b -> a * d <= b * d) by (intros; apply Rmult_le_compat_r; lra).
  assert (M' : forall a b, a < b -> a * d < b * d) by (intros; apply Rmult_lt_compat_r; lra).
  destruct (Rle_or_lt 0 q) as [H|H].
  - rewrite Ztrunc_floor by auto. pose proof (Zfloor_lb q) as L. pose proof (Zfloor_ub q) as U. apply M in L. apply M' in U. rewrite Rmult_plus_distr_r in U.
    assert (0 <= x) by (rewrite E; apply Rmult_le_pos; lra). assert (0 <= IZR (Zfloor q) * d) by (apply Rmult_le_pos; [apply IZR_le, Zfloor_lub; exact H|lra]).
    split; [|split]; intros; try (apply Rabs_lt); lra.
  - rewrite Ztrunc_ceil by lra. pose proof (Zceil_ub q) as U. pose proof (Zceil_lb q) as L. apply M in U. apply M' in L. rewrite Rmult_plus_distr_r in L.
    assert (x < 0) by (rewrite E; replace 0 with (0 * d) by ring; apply M'; lra).
    split; [|split]; intros; try (apply Rabs_lt); lra.
Qed.
(** The wrapped value of the exact computation is the representative in [lo, lo + d). *)
Lemma wrap_exact lo d r : 0 < d -> exists k, wrap_axis exact lo d r = lo + r + IZR k * d /\ lo <= wrap_axis exact lo d r < lo + d.
Proof.
  intros Hd. unfold wrap_axis, radd, exact. cbv zeta.
  destruct (fmod_rem r d Hd) as (k1 & E1 & B1 & _). apply Rabs_def2 in B1.
  destruct (fmod_rem (fmod r d + d) d Hd) as (k2 & E2 & B2 & P2 & _). apply Rabs_def2 in B2. assert (0 <= fmod (fmod r d + d) d) by (apply P2; lra).
  exists (1 - k1 - k2)%Z. rewrite !minus_IZR. split; [|lra]. rewrite E2, E1. simpl (IZR 1). ring.
Qed.
Lemma rep_unique lo d a b k : 0 < d -> lo <= a < lo + d -> lo <= b < lo + d -> b = a + IZR k * d -> k = 0%Z.
Proof.
  intros Hd Ha Hb E. assert (-1 * d < IZR k * d < 1 * d) by lra. destruct H as (H1 & H2). apply Rmult_lt_reg_r in H1, H2; auto. apply lt_IZR in H1, H2. lia.
Qed.
Lemma cnt_floor v k : cnt_per v = Ok k -> (forall j, (j < 0)%Z -> v <> IZR j) -> k = Zfloor v.
Proof.
  unfold cnt_per. destruct (to_int v) as [t| | ] eqn:Et; cbn [rbind]; try discriminate. unfold to_int in Et. destruct (_ && _)%bool in Et; [|discriminate]. injection Et as <-.
  case Rle_bool_spec; intros Hv H Hn.
  - injection H as <-. symmetry. now rewrite Ztrunc_floor.
  - unfold i32 in H. destruct (_ && _)%bool in H; [|discriminate]. injection H as <-. rewrite Ztrunc_ceil by lra.
    rewrite Zceil_floor_neq; [lia|]. intros E. destruct (Z_lt_dec (Zfloor v) 0) as [C|C]; [apply (Hn _ C); auto|]. assert (0 <= IZR (Zfloor v)) by (apply IZR_le; lia). lra.
Qed.
Lemma i32_ok z k : i32 z = Ok k -> k = z.
Proof. unfold i32. destruct (_ && _)%bool; [|discriminate]. now intros [= ->]. Qed.
Lemma i32_fits z : (Z.abs z < 2 ^ 31)%Z -> i32 z = Ok z.
Proof. intros H. unfold i32. replace ((- 2 ^ 31 <=? z) && (z <? 2 ^ 31))%Z%bool with true by (symmetry; apply andb_true_iff; lia). reflexivity. Qed.

(** ** The lattice *)
Lemma moved_0 L cfg p : moved_to L cfg (V3 0 0 0) p = p.
Proof.
  destruct p as [[x y z] [u v w]]. unfold moved_to, vadd. cbn [fst snd wx wy wz].
  destruct cfg; cbn [image_at image_speed vx vy vz wx wy wz Z.mul Z.add]; f_equal; f_equal; ring.
Qed.
Lemma moved_add L cfg n m p : moved_to L cfg m (moved_to L cfg n p) = moved_to L cfg (V3 (vx n + vx m) (vy n + vy m) (vz n + vz m)) p.
Proof.
  destruct p as [[x y z] [u v w]]. unfold moved_to, vadd. cbn [fst snd wx wy wz].
  destruct cfg; cbn [image_at image_speed vx vy vz wx wy wz]; rewrite ?plus_IZR; f_equal; f_equal; rewrite ?plus_IZR, ?mult_IZR, ?plus_IZR; ring.
Qed.
Lemma same_images L cfg n p q : is_image L cfg p q <-> is_image L cfg (moved_to L cfg n p) q.
Proof.
  split; intros (m & ->).
  - exists (V3 (vx m - vx n) (vy m - vy n) (vz m - vz n)). rewrite moved_add. cbn [vx vy vz]. f_equal. destruct m as [m1 m2 m3]; cbn [vx vy vz]; f_equal; lia.
  - eexists. apply moved_add.
Qed.
(** Two images in the box are the same. *)
Lemma image_unique box cfg t n m p : rbox_ok box -> bc_ok cfg -> cfg <> BC_Free ->
  in_range box (fst (moved_to (bsize box) (gen_ghost_config exact cfg t) n p)) ->
  in_range box (fst (moved_to (bsize box) (gen_ghost_config exact cfg t) m p)) -> n = m.
Proof.
  intros (B1 & B2 & B3) HC HF (X1 & Y1 & Z1) (X2 & Y2 & Z2). destruct p as [[x y z] [u v w]]. destruct n as [nx ny nz], m as [mx my mz].
  unfold moved_to, vadd, bsize, vsub in *. cbn [fst snd wx wy wz] in *.
  destruct cfg as [| |base dir speed]; [congruence| |]; cbn [gen_ghost_config image_at vx vy vz wx wy wz] in *.
  - assert (mx - nx = 0)%Z by (apply (rep_unique (wx (fst box)) (wx (snd box) - wx (fst box)) (x + IZR nx * (wx (snd box) - wx (fst box))) (x + IZR mx * (wx (snd box) - wx (fst box)))); rewrite ?minus_IZR; lra).
    assert (my - ny = 0)%Z by (apply (rep_unique (wy (fst box)) (wy (snd box) - wy (fst box)) (y + IZR ny * (wy (snd box) - wy (fst box))) (y + IZR my * (wy (snd box) - wy (fst box)))); rewrite ?minus_IZR; lra).
    assert (mz - nz = 0)%Z by (apply (rep_unique (wz (fst box)) (wz (snd box) - wz (fst box)) (z + IZR nz * (wz (snd box) - wz (fst box))) (z + IZR mz * (wz (snd box) - wz (fst box)))); rewrite ?minus_IZR; lra).
    f_equal; lia.
  - destruct HC as (C1 & C2 & C3). destruct base as [bx by_ bz], dir as [ex ey ez]. cbn [vx vy vz] in *. set (V := rmul exact speed t) in *.
    set (cn := (nx * bx + ny * by_ + nz * bz)%Z) in *. set (cm := (mx * bx + my * by_ + mz * bz)%Z) in *.
    (* first the axes that count for the shear *)
    assert (A : forall lo hi a b n m e, lo < hi -> lo <= a + (IZR n * (hi - lo) + IZR e * (IZR cn * V)) < hi -> lo <= a + (IZR m * (hi - lo) + IZR e * (IZR cm * V)) < hi ->
      (b * e = 0)%Z -> cn = cm \/ (n * b)%Z = (m * b)%Z).
    { intros lo hi a b n m e Hl Hn Hm E. destruct (Z.eq_dec b 0) as [->|Nb]; [right; ring|]. assert (e = 0)%Z by nia. subst e. right. f_equal.
      assert (m - n = 0)%Z; [|lia]. apply (rep_unique lo (hi - lo) (a + IZR n * (hi - lo)) (a + IZR m * (hi - lo))); rewrite ?minus_IZR; try lra. }
    assert (Ec : cn = cm).
    { destruct (A _ _ _ bx _ _ _ B1 X1 X2 C1) as [|Ex]; auto. destruct (A _ _ _ by_ _ _ _ B2 Y1 Y2 C2) as [|Ey]; auto. destruct (A _ _ _ bz _ _ _ B3 Z1 Z2 C3) as [|Ez]; auto.
      unfold cn, cm. lia. }
    clearbody cn cm. subst cm. clear A.
    assert (U : forall lo hi a n m, lo < hi -> lo <= a + (IZR n * (hi - lo)) < hi -> lo <= a + (IZR m * (hi - lo)) < hi -> n = m).
    { intros lo hi a n m Hl Hn Hm. assert (m - n = 0)%Z; [|lia]. apply (rep_unique lo (hi - lo) (a + IZR n * (hi - lo)) (a + IZR m * (hi - lo))); rewrite ?minus_IZR; try lra. }
    f_equal.
    + apply (U (wx (fst box)) (wx (snd box)) (x + IZR ex * (IZR cn * V))); lra.
    + apply (U (wy (fst box)) (wy (snd box)) (y + IZR ey * (IZR cn * V))); lra.
    + apply (U (wz (fst box)) (wz (snd box)) (z + IZR ez * (IZR cn * V))); lra.
Qed.

(** ** One particle *)
Lemma face_off lo hi x : lo < hi -> ~ on_lower_face lo hi x -> forall j, (j < 0)%Z -> (x - lo) / (hi - lo) <> IZR j.
Proof. intros Hl H j Hj E. apply H. exists j. split; auto. rewrite <- E. field. lra. Qed.
Lemma floor_eq lo hi x k : lo < hi -> lo <= x + IZR k * (hi - lo) < hi -> Zfloor ((x - lo) / (hi - lo)) = (- k)%Z.
Proof.
  intros Hl H. apply Zfloor_imp. rewrite opp_IZR, plus_IZR, opp_IZR. simpl (IZR 1). assert (E : (x - lo) = (x - lo) / (hi - lo) * (hi - lo)) by (field; lra).
  set (q := (x - lo) / (hi - lo)) in *. split.
  - apply (Rmult_le_reg_r (hi - lo)); lra.
  - apply (Rmult_lt_reg_r (hi - lo)); lra.
Qed.
Lemma item_ok cfg t box p q : rbox_ok box -> bc_ok cfg -> cfg <> BC_Free -> off_faces cfg box (fst p) ->
  boundary_item exact cfg t box p = Ok q ->
  exists n, q = moved_to (bsize box) (gen_ghost_config exact cfg t) n p /\ in_range box (fst q).
Proof.
  intros HB HC HF HO E. destruct p as [[x y z] [u v w]]. destruct HB as (B1 & B2 & B3).
  destruct cfg as [| |base dir speed]; [congruence| |].
  - cbn [boundary_item] in E. injection E as <-. unfold position_modulo, modulo_axis, rsub. cbn [fst snd wx wy wz].
    destruct (wrap_exact (wx (fst box)) (exact (wx (snd box) - wx (fst box))) (exact (x - wx (fst box))) ltac:(unfold exact; lra)) as (k1 & E1 & R1).
    destruct (wrap_exact (wy (fst box)) (exact (wy (snd box) - wy (fst box))) (exact (y - wy (fst box))) ltac:(unfold exact; lra)) as (k2 & E2 & R2).
    destruct (wrap_exact (wz (fst box)) (exact (wz (snd box) - wz (fst box))) (exact (z - wz (fst box))) ltac:(unfold exact; lra)) as (k3 & E3 & R3).
    exists (V3 k1 k2 k3). split.
    + unfold moved_to, vadd, bsize, vsub. cbn [fst snd gen_ghost_config image_at image_speed vx vy vz wx wy wz]. rewrite E1, E2, E3. unfold exact. f_equal; f_equal; ring.
    + unfold in_range. cbn [fst wx wy wz]. unfold exact in R1, R2, R3 |- *. lra.
  - destruct HC as (C1 & C2 & C3). destruct HO as (O1 & O2 & O3). destruct base as [bx by_ bz], dir as [ex ey ez]. cbn [fst snd wx wy wz vx vy vz] in *.
    cbn [boundary_item] in E. unfold sheared_modulo in E. cbn [fst snd wx wy wz vx vy vz] in E.
    unfold rsub, rdiv in E. set (V := rmul exact speed t) in *.
    destruct (cnt_per (exact (exact (x - wx (fst box)) / exact (wx (snd box) - wx (fst box))))) as [cx| |] eqn:Ecx; try discriminate. cbn [rbind] in E.
    destruct (cnt_per (exact (exact (y - wy (fst box)) / exact (wy (snd box) - wy (fst box))))) as [cy| |] eqn:Ecy; try discriminate. cbn [rbind] in E.
    destruct (cnt_per (exact (exact (z - wz (fst box)) / exact (wz (snd box) - wz (fst box))))) as [cz| |] eqn:Ecz; try discriminate. cbn [rbind] in E.
    destruct (i32 (cx * bx)) as [dx| |] eqn:Edx; try discriminate. cbn [rbind] in E.
    destruct (i32 (cy * by_)) as [dy| |] eqn:Edy; try discriminate. cbn [rbind] in E.
    destruct (i32 (cz * bz)) as [dz| |] eqn:Edz; try discriminate. cbn [rbind] in E.
    destruct (i32 (dx + dy)) as [dxy| |] eqn:Exy; try discriminate. cbn [rbind] in E.
    destruct (i32 (dxy + dz)) as [d| |] eqn:Ed; try discriminate. cbn [rbind] in E.
    destruct (i32 (d * ex)) as [sx| |] eqn:Esx; try discriminate. cbn [rbind] in E.
    destruct (i32 (d * ey)) as [sy| |] eqn:Esy; try discriminate. cbn [rbind] in E.
    destruct (i32 (d * ez)) as [sz| |] eqn:Esz; try discriminate. cbn [rbind] in E. injection E as <-.
    apply i32_ok in Edx, Edy, Edz, Exy, Ed, Esx, Esy, Esz. unfold rmul, exact in *.
    destruct (wrap_exact (wx (fst box)) (wx (snd box) - wx (fst box)) (x - wx (fst box) - IZR sx * V) ltac:(lra)) as (k1 & E1 & R1).
    destruct (wrap_exact (wy (fst box)) (wy (snd box) - wy (fst box)) (y - wy (fst box) - IZR sy * V) ltac:(lra)) as (k2 & E2 & R2).
    destruct (wrap_exact (wz (fst box)) (wz (snd box) - wz (fst box)) (z - wz (fst box) - IZR sz * V) ltac:(lra)) as (k3 & E3 & R3).
    unfold exact in *.
    assert (D : (d = - (k1 * bx + k2 * by_ + k3 * bz))%Z).
    { assert (A : forall lo hi a b e c k s W', lo < hi -> (b * e = 0)%Z -> (b = 0%Z \/ ~ on_lower_face lo hi a) -> cnt_per ((a - lo) / (hi - lo)) = Ok c -> s = (d * e)%Z ->
        W' = lo + (a - lo - IZR s * V) + IZR k * (hi - lo) -> lo <= W' < lo + (hi - lo) -> (c * b = - (k * b))%Z).
      { intros lo hi a b e c k s W' Hl Hbe Hoff Hc Hs HW' HR. destruct (Z.eq_dec b 0) as [->|Nb]; [ring|]. assert (e = 0)%Z by nia. subst e. rewrite Z.mul_0_r in Hs. subst s.
        destruct Hoff as [|Hoff]; [congruence|]. apply cnt_floor in Hc; [|apply face_off; auto]. rewrite (floor_eq lo hi a k) in Hc by (auto; lra). subst c. ring. }
      pose proof (A _ _ _ _ _ _ _ _ _ B1 C1 O1 Ecx Esx E1 R1). pose proof (A _ _ _ _ _ _ _ _ _ B2 C2 O2 Ecy Esy E2 R2). pose proof (A _ _ _ _ _ _ _ _ _ B3 C3 O3 Ecz Esz E3 R3). lia. }
    exists (V3 k1 k2 k3). split.
    + unfold moved_to, vadd, bsize, vsub. cbn [fst snd gen_ghost_config image_at image_speed vx vy vz wx wy wz]. rewrite E1, E2, E3. unfold rmul, exact. fold V.
      replace (k1 * bx + k2 * by_ + k3 * bz)%Z with (- d)%Z by lia. subst sx sy sz. rewrite opp_IZR, !mult_IZR. f_equal; f_equal; ring.
    + unfold in_range. cbn [fst wx wy wz]. lra.
Qed.
(** ** No failure *)
Lemma cnt_fits n v : (1 <= n)%Z -> (n + 1 < 2 ^ 31)%Z -> Rabs v < IZR n -> exists k, cnt_per v = Ok k /\ (Z.abs k <= n + 1)%Z.
Proof.
  intros Hn1 Hn Hv. unfold cnt_per, to_int.
  assert (A : (Z.abs (Ztrunc v) <= n)%Z).
  { rewrite <- Ztrunc_abs. apply le_IZR. apply Rle_trans with (2 := Rlt_le _ _ Hv). rewrite Ztrunc_floor by apply Rabs_pos. apply Zfloor_lb. }
  replace ((- 2 ^ 31 <=? Ztrunc v) && (Ztrunc v <? 2 ^ 31))%Z%bool with true by (symmetry; apply andb_true_iff; lia). cbn [rbind].
  destruct (Rle_bool 0 v); [eexists; split; [reflexivity|lia]|]. rewrite i32_fits by lia. eexists; split; [reflexivity|lia].
Qed.
Lemma sum3_fits (p q r A B C M : Z) : (Z.abs p <= A -> Z.abs q <= B -> Z.abs r <= C -> A + B + C < M ->
  Z.abs p < M /\ Z.abs q < M /\ Z.abs r < M /\ Z.abs (p + q) < M /\ Z.abs (p + q + r) <= A + B + C)%Z.
Proof. lia. Qed.
Lemma item_total cfg t box n p : rbox_ok box -> (1 <= n)%Z -> counts_fit cfg n -> within n box (fst p) -> exists q, boundary_item exact cfg t box p = Ok q.
Proof.
  intros (B1 & B2 & B3) Hn HC (W1 & W2 & W3). destruct p as [[x y z] v]. destruct cfg as [| |base dir speed]; cbn [boundary_item]; [eauto|eauto|].
  destruct HC as (N1 & N2). destruct base as [bx by_ bz], dir as [ex ey ez]. cbn [fst snd wx wy wz vx vy vz] in *.
  assert (Q : forall lo hi a, lo < hi -> Rabs (a - lo) < IZR n * (hi - lo) -> Rabs ((a - lo) / (hi - lo)) < IZR n).
  { intros lo hi a Hl Ha. unfold Rdiv. rewrite Rabs_mult, (Rabs_pos_eq (/ _)) by (apply Rlt_le, Rinv_0_lt_compat; lra). apply (Rmult_lt_reg_r (hi - lo)); [lra|]. rewrite Rmult_assoc, Rinv_l by lra. lra. }
  unfold sheared_modulo. cbn [fst snd wx wy wz vx vy vz]. unfold rsub, rdiv, exact.
  destruct (cnt_fits n _ Hn N1 (Q _ _ _ B1 W1)) as (cx & -> & X1). destruct (cnt_fits n _ Hn N1 (Q _ _ _ B2 W2)) as (cy & -> & Y1). destruct (cnt_fits n _ Hn N1 (Q _ _ _ B3 W3)) as (cz & -> & Z1). cbn [rbind].
  assert (M : forall c b, (Z.abs c <= n + 1)%Z -> (Z.abs (c * b) <= (n + 1) * Z.abs b)%Z) by (intros c b Hc; rewrite Z.abs_mul; apply Z.mul_le_mono_nonneg_r; [apply Z.abs_nonneg|exact Hc]).
  pose proof (M cx bx X1) as M1. pose proof (M cy by_ Y1) as M2. pose proof (M cz bz Z1) as M3.
  set (Sb := (Z.abs bx + Z.abs by_ + Z.abs bz)%Z) in *. set (De := (1 + Z.abs ex + Z.abs ey + Z.abs ez)%Z) in *.
  assert (Hs : (0 <= Sb)%Z) by (unfold Sb; clear; lia). assert (Hd : (1 <= De)%Z) by (unfold De; clear; lia).
  assert (Hp : (0 <= (n + 1) * Sb)%Z) by (apply Z.mul_nonneg_nonneg; [clear - Hn; lia|exact Hs]).
  assert (S0 : ((n + 1) * Sb < 2 ^ 31)%Z).
  { eapply Z.le_lt_trans; [|exact N2]. rewrite <- (Z.mul_1_r ((n + 1) * _)) at 1. apply Z.mul_le_mono_nonneg_l; auto. }
  assert (S1 : ((n + 1) * Z.abs bx + (n + 1) * Z.abs by_ + (n + 1) * Z.abs bz = (n + 1) * Sb)%Z) by (unfold Sb; ring).
  destruct (sum3_fits _ _ _ _ _ _ (2 ^ 31) M1 M2 M3) as (F1 & F2 & F3 & F4 & Dd); [rewrite S1; exact S0|]. rewrite S1 in Dd.
  rewrite (i32_fits (cx * bx)) by exact F1. cbn [rbind]. rewrite (i32_fits (cy * by_)) by exact F2. cbn [rbind]. rewrite (i32_fits (cz * bz)) by exact F3. cbn [rbind].
  rewrite (i32_fits (cx * bx + cy * by_)) by exact F4. cbn [rbind]. rewrite (i32_fits (cx * bx + cy * by_ + cz * bz)) by (eapply Z.le_lt_trans; [exact Dd|exact S0]). cbn [rbind].
  set (d := (cx * bx + cy * by_ + cz * bz)%Z) in *.
  assert (G : forall e, (Z.abs e <= De)%Z -> (Z.abs (d * e) < 2 ^ 31)%Z).
  { intros e He. rewrite Z.abs_mul. eapply Z.le_lt_trans; [|exact N2]. apply Z.mul_le_mono_nonneg; auto using Z.abs_nonneg. }
  rewrite (i32_fits (d * ex)) by (apply G; unfold De; clear; lia). cbn [rbind]. rewrite (i32_fits (d * ey)) by (apply G; unfold De; clear; lia). cbn [rbind]. rewrite (i32_fits (d * ez)) by (apply G; unfold De; clear; lia). cbn [rbind]. eauto.
Qed.

(** ** Binary64: any rounding that is monotone and keeps the lower bound *)
Lemma wrap_rounded rnd lo d r : (forall a b, a <= b -> rnd a <= rnd b) -> rnd 0 = 0 -> rnd lo = lo -> 0 < d ->
  lo <= wrap_axis rnd lo d r <= rnd (lo + d).
Proof.
  intros Hm H0 Hl Hd. unfold wrap_axis, radd. cbv zeta.
  destruct (fmod_rem r d Hd) as (k1 & _ & B1 & _). apply Rabs_def2 in B1.
  assert (P : 0 <= rnd (fmod r d + d)) by (rewrite <- H0; apply Hm; lra).
  destruct (fmod_rem (rnd (fmod r d + d)) d Hd) as (k2 & _ & B2 & P2 & _). apply Rabs_def2 in B2. specialize (P2 P).
  split; [rewrite <- Hl at 1|]; apply Hm; lra.
Qed.
