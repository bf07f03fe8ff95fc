(** C57: the ghost particles of the SPH solver. *)
From Verif Require Import Base Par Patch Patch_spec PatchTree PatchTree_spec Sched Sched_spec Sched_hist_proofs Domain Domain_spec SerialTree SerialTree_spec SerialTree_main
  SphGhost SphGhost_spec SphGhost_geo SphGhost_main SphGhost_img.
From Verif Require Domain_main.
From Coq Require Import Reals Lra ZifyBool.
From Flocq Require Import Core.
Local Open Scope Z_scope.

Lemma max_in {X} (h : X -> R) l : forall m0, exists m, fold_left (fun m x => Rmax m (h x)) l m0 = m /\ (m = m0 \/ exists x, In x l /\ m = h x) /\ (m0 <= m)%R /\ forall x, In x l -> (h x <= m)%R.
Proof.
  induction l as [|a l IH]; intros m0; cbn [fold_left].
  - exists m0. split; auto. split; auto. split; [lra|]. intros ? [].
  - destruct (IH (Rmax m0 (h a))) as (m & E & H1 & H2 & H3). exists m. split; auto. split; [|split].
    + destruct H1 as [->|(x & Hx & ->)]; [|right; exists x; split; [right|]; auto]. unfold Rmax. destruct (Rle_dec m0 (h a)); [right; exists a; split; [left|]; auto|left; auto].
    + pose proof (Rmax_l m0 (h a)). lra.
    + intros x [<-|Hx]; auto. pose proof (Rmax_r m0 (h a)). lra.
Qed.
Lemma sq_le a d : (0 <= d)%R -> (a² <= d²)%R -> (- d <= a <= d)%R.
Proof. intros Hd H. apply Rsqr_le_abs_0 in H. rewrite (Rabs_pos_eq d) in H by auto. apply Rabs_le_inv in H. lra. Qed.

Section P.
Variable obj : Type.
Variables (xyz : obj -> vec3 R) (hpart : obj -> R).
Variable W : nat.
Notation objs s p := (patch_objs obj (s_data _ s) p).

(** ** The ghosts received by each patch.
    In every reachable state of the scheduler, for every execution of the parallel kernels and every order of arrival
    of the messages, the cache is built and the merged fields of a patch without particle do not exist; those of any
    other patch are its own particles followed by its ghosts.  The ghosts are, each once and in some order which is
    the same for all the fields, the images of the particles of all the patches that lie in the box of the patch with a
    margin r, r being the largest hpart of the patch times h_evol_max times Rkern. *)
Theorem C57_ghosts : forall bs s g box h_evol_max Rkern cfg offs fuel rs orders ord,
  (1 <= W)%nat -> Z.of_nat W <= u32_max -> sched_history obj (fun x => r_cell g box (xyz x)) W bs s ->
  grid_ok g -> rbox_ok box -> (forall b, In b bs -> inside b g) -> t_next (s_tree _ s) <= 2 ^ 32 ->
  Permutation rs (t_roots (s_tree _ s)) -> (65 <= fuel)%nat ->
  (forall n l, level_execution n (orders n l)) -> (forall rk n, Permutation (ord rk n) (seq 0 n)) ->
  offsets cfg (bsize box) = Ok offs ->
  exists tables, build_ghost_cache xyz hpart W s g box h_evol_max Rkern cfg fuel rs orders ord = Ok tables /\
  forall net, (forall n, Permutation (net n) (seq 0 n)) ->
  forall P, In P (s_global _ s) -> valid_patch W P ->
    (objs s P = [] -> forall G ghost own, @build_comm_merge obj s G ghost own tables net P = Ok None) /\
    (objs s P <> [] -> exists x r PB L,
       In x (objs s P) /\ (forall y, In y (objs s P) -> (hpart y <= hpart x)%R) /\ r = (hpart x * h_evol_max * Rkern)%R /\
       r_to_box g box (p_box P) = Ok PB /\ Permutation L (expected obj xyz W s offs P PB r) /\
       forall G ghost own, @build_comm_merge obj s G ghost own tables net P =
         Ok (Some (map own (objs s P) ++ map (fun c => ghost (fst c) (snd c)) L))).
Proof.
  intros bs s g box he Rk cfg offs fuel rs orders ord HW HWu Hist HG HB Hin Hn HP Hf HE Ho Hoffs.
  pose proof (r_conv g box HG HB) as Hconv.
  destruct (built obj _ W Rle_bool Rlt_bool _ _ g Hconv bs s rs fuel HW Hist Hin Hn HP Hf) as (st & roots & Eb).
  destruct (field_main obj _ W Rle_bool Rlt_bool _ _ g Hconv bs s rs fuel HW Hist Hin Hn HP Hf st roots Eb (Some 0%R) None omax
    (range_get obj hpart s he Rk) (orders (length (ss_tree st))) omax_assoc omax_l omax_r) as (acc & Ea & _ & _); auto.
  { intros p Hp Vp. eexists. eapply range_get_ok; eauto. }
  assert (Hb : built_from (r_to_box g box) fuel (s_tree _ s) rs st roots) by (split; auto).
  eexists. split.
  - unfold build_ghost_cache. rewrite Eb. cbn [rbind]. unfold interactR_mpi_tree. rewrite Ea. cbn [rbind]. change (vsub (snd box) (fst box)) with (bsize box). rewrite Hoffs. cbn [rbind].
    eapply tables_ok with (fuel' := S (length (ss_tree st))) (orders := orders (length (ss_tree st))); eauto; lia.
  - intros net Hnet P HPg VP.
    destruct (merge_ok obj xyz hpart W bs s g box he Rk rs fuel st roots (orders (length (ss_tree st))) acc (S (length (ss_tree st)))
      HW HWu Hist HG HB Hin Hn Hf Hb (fun l _ => HE _ l) Ea ltac:(lia) offs ord Ho net Hnet P HPg VP) as (A & B).
    split; [exact A|]. intros Hne. destruct (B Hne) as (r & L & Er & HL & HM).
    unfold interact_range in Er. destruct (objs s P) as [|o l] eqn:EO; [congruence|]. injection Er as Er. unfold compute_max in Er.
    destruct (max_in hpart l (hpart o)) as (m & Em & H1 & H2 & H3). rewrite Em in Er.
    assert (X : exists x, In x (o :: l) /\ m = hpart x) by (destruct H1 as [->|(x & Hx & ->)]; [exists o; split; [left|]; auto|exists x; split; [right|]; auto]).
    destruct X as (x & Hx & ->). exists x, r, (r_image g box (p_box P)), L. split; auto. split; [intros y [<-|Hy]; auto|]. split; [auto|].
    split; [apply r_to_box_ok; auto; eapply Domain_main.patch_inside; eauto; eapply (proj1 (history_ok _ _ _ _ _ HW Hist))|]. split; auto.
Qed.

(** ** No image is duplicated. *)
Theorem C57_offsets_distinct : forall cfg box offs, config_ok cfg -> rbox_ok box -> offsets cfg (bsize box) = Ok offs -> NoDup (map o_shift offs).
Proof.
  intros cfg box offs HC HB HO. destruct HB as (B1 & B2 & B3).
  assert (Inj : forall l (a b : R), (0 < l)%R -> forall n m, (a + IZR n * l = b + IZR m * l)%R -> a = b -> n = m).
  { intros l a b Hl n m E ->. apply eq_IZR. apply (Rmult_eq_reg_r l); lra. }
  destruct cfg as [| |base dir value speed]; cbn [offsets config_ok] in *.
  - injection HO as <-. cbn [map]. constructor; [intros []|constructor].
  - assert (EO : offs = map (periodic_offset (bsize box)) (idx_box 1 1 1)) by congruence. clear HO. subst offs. rewrite map_map. apply FinFun.Injective_map_NoDup; [|apply idx_box_NoDup]. intros [a1 a2 a3] [b1 b2 b3] E. unfold periodic_offset, bsize, vsub in E. cbn [o_shift vx vy vz wx wy wz] in E.
    injection E as E1 E2 E3. f_equal; eapply (Inj _ 0%R 0%R); try reflexivity; try (apply Rplus_eq_compat_l; eassumption); lra.
  - pose proof (shear_idx_NoDup _ _ _ _ _ _ HC HO) as ND. rewrite (shear_list _ _ _ _ _ _ HO) in ND |- *. rewrite map_map in ND |- *. unfold compute_shift_infos in *. cbn [o_idx o_shift] in *.
    revert ND. generalize (reps dir). intros l ND. rewrite <- (map_map (shifted base dir value (bsize box))
      (fun i => W3 (IZR (idot i base * vx dir) * value + wx (bsize box) * IZR (vx i))%R (IZR (idot i base * vy dir) * value + wy (bsize box) * IZR (vy i))%R (IZR (idot i base * vz dir) * value + wz (bsize box) * IZR (vz i))%R)).
    apply FinFun.Injective_map_NoDup; auto. clear ND l HO. intros [a1 a2 a3] [b1 b2 b3] E. unfold bsize, vsub, idot in E. injection E as E1 E2 E3.
    inversion HC as [b2' b3' Eb Ed|b2' b3' Eb Ed|b2' b3' Eb Ed]; subst base dir; cbn [vx vy vz wx wy wz] in *; rewrite ?Z.mul_0_r, ?Z.mul_1_r, ?Rmult_0_l, ?Rplus_0_l, ?Z.add_0_r, ?Z.add_0_l in *.
    + assert (a2 = b2) by (apply eq_IZR; apply (Rmult_eq_reg_l (wy (snd box) - wy (fst box))); lra). assert (a3 = b3) by (apply eq_IZR; apply (Rmult_eq_reg_l (wz (snd box) - wz (fst box))); lra). subst.
      f_equal. apply eq_IZR; apply (Rmult_eq_reg_l (wx (snd box) - wx (fst box))); lra.
    + assert (a1 = b1) by (apply eq_IZR; apply (Rmult_eq_reg_l (wx (snd box) - wx (fst box))); lra). assert (a3 = b3) by (apply eq_IZR; apply (Rmult_eq_reg_l (wz (snd box) - wz (fst box))); lra). subst.
      f_equal. apply eq_IZR; apply (Rmult_eq_reg_l (wy (snd box) - wy (fst box))); lra.
    + assert (a2 = b2) by (apply eq_IZR; apply (Rmult_eq_reg_l (wy (snd box) - wy (fst box))); lra). assert (a1 = b1) by (apply eq_IZR; apply (Rmult_eq_reg_l (wx (snd box) - wx (fst box))); lra). subst.
      f_equal. apply eq_IZR; apply (Rmult_eq_reg_l (wz (snd box) - wz (fst box))); lra.
Qed.

(** Each offset is one image of the lattice, and its speed is the one of that image. *)
Theorem C57_offsets_images : forall cfg L offs, offsets cfg L = Ok offs ->
  forall o, In o offs -> o_shift o = image_at L cfg (o_idx o) /\ o_speed o = image_speed cfg (o_idx o) /\ image_shift L cfg (o_shift o).
Proof.
  intros cfg L offs HO o Ho.
  assert (H : o_shift o = image_at L cfg (o_idx o) /\ o_speed o = image_speed cfg (o_idx o) /\ (cfg = Free -> o_idx o = V3 0 0 0)).
  { destruct cfg as [| |base dir value speed]; cbn [offsets] in HO.
    - assert (E : offs = [Offset (V3 0 0 0) vzero vzero]) by congruence. subst offs. destruct Ho as [<-|[]]. cbn. split; [|auto]. unfold vzero. f_equal; ring.
    - assert (E : offs = map (periodic_offset L) (idx_box 1 1 1)) by congruence. subst offs. apply in_map_iff in Ho. destruct Ho as (i & <- & _). split; [reflexivity|]. split; [reflexivity|discriminate].
    - rewrite (shear_list _ _ _ _ _ _ HO) in Ho. apply in_map_iff in Ho. destruct Ho as (i & <- & _). generalize (shifted base dir value L i). intros n.
      unfold compute_shift_infos, image_at, image_speed, idot. cbn [o_idx o_shift o_speed]. cbv zeta. split; [|split; [|discriminate]]; f_equal; rewrite mult_IZR; ring. }
  destruct H as (A & B & C). split; auto. split; auto. rewrite A. destruct cfg as [| |base dir value speed]; cbn [image_shift image_at].
  - rewrite (C eq_refl). cbn [vx vy vz]. f_equal; ring.
  - exists (o_idx o). reflexivity.
  - exists (o_idx o). reflexivity.
Qed.

(** ** Every neighbour is there.  When the range of the patch is at most the length of the box on every axis, the
    merged positions of the patch contain every image, of any particle of the simulation, that is within
    hpart * h_evol_max * Rkern of one of its particles. *)
Theorem C57_neighbours : forall bs s g box h_evol_max Rkern cfg offs fuel rs orders ord net,
  (1 <= W)%nat -> Z.of_nat W <= u32_max -> sched_history obj (fun x => r_cell g box (xyz x)) W bs s ->
  grid_ok g -> rbox_ok box -> (forall b, In b bs -> inside b g) -> t_next (s_tree _ s) <= 2 ^ 32 ->
  Permutation rs (t_roots (s_tree _ s)) -> (65 <= fuel)%nat ->
  (forall n l, level_execution n (orders n l)) -> (forall rk n, Permutation (ord rk n) (seq 0 n)) -> (forall n, Permutation (net n) (seq 0 n)) ->
  config_ok cfg -> offsets cfg (bsize box) = Ok offs -> (0 <= h_evol_max * Rkern)%R ->
  exists tables, build_ghost_cache xyz hpart W s g box h_evol_max Rkern cfg fuel rs orders ord = Ok tables /\
  forall P S a b d, In P (s_global _ s) -> valid_patch W P -> In S (s_global _ s) -> valid_patch W S ->
    In a (objs s P) -> In b (objs s S) -> image_shift (bsize box) cfg d ->
    (forall x, In x (objs s P) -> (0 <= hpart x /\ hpart x * h_evol_max * Rkern <= wx (bsize box) /\
       hpart x * h_evol_max * Rkern <= wy (bsize box) /\ hpart x * h_evol_max * Rkern <= wz (bsize box))%R) ->
    (dist2 (xyz a) (vadd (xyz b) d) <= (hpart a * h_evol_max * Rkern)²)%R ->
    exists merged, build_comm_merge obj s (ghost_xyzh obj xyz hpart) (own_xyzh obj xyz hpart) tables net P = Ok (Some merged) /\
      In (vadd (xyz b) d, hpart b) merged.
Proof.
  intros bs s g box he Rk cfg offs fuel rs orders ord net HW HWu Hist HG HB Hin Hn HP Hf HE Ho Hnet HC Hoffs Hpos.
  destruct (C57_ghosts bs s g box he Rk cfg offs fuel rs orders ord HW HWu Hist HG HB Hin Hn HP Hf HE Ho Hoffs) as (tables & Et & HM).
  exists tables. split; auto. intros P S a b d HPg VP HS VS Ha Hb Hd Hr Hdist.
  destruct (HM net Hnet P HPg VP) as (_ & M). destruct M as (x & r & PB & L & Hx & Hmax & -> & EPB & HL & M); [destruct (objs s P); [contradiction|discriminate]|].
  eexists. split; [apply M|].
  pose proof (proj1 (history_ok _ _ _ _ _ HW Hist)) as I0.
  assert (IP : inside (p_box P) g) by (eapply Domain_main.patch_inside; eauto). assert (IS : inside (p_box S) g) by (eapply Domain_main.patch_inside; eauto).
  rewrite (r_to_box_ok g box HG HB _ IP) in EPB. assert (EPB' : r_image g box (p_box P) = PB) by congruence. clear EPB. subst PB.
  assert (Within : forall b, inside b g -> box_within b g) by (intros c Hc q; unfold inside, in_box in *; lia).
  assert (Ig : inside g g) by (unfold inside, grid_ok in *; lia).
  pose proof (image_mono g box HG HB _ _ IP Ig (Within _ IP)) as MP. pose proof (image_mono g box HG HB _ _ IS Ig (Within _ IS)) as MS. rewrite (image_whole g box HG HB) in MP, MS.
  pose proof (objs_in obj xyz W bs s g box HW Hist HG HB Hin P a HPg VP Ha) as RA. pose proof (objs_in obj xyz W bs s g box HW Hist HG HB Hin S b HS VS Hb) as RB.
  assert (RBox : in_range box (xyz b)) by (destruct RB as (? & ? & ?); unfold in_range; lra).
  destruct (Hr x Hx) as (Hx0 & Hx1 & Hx2 & Hx3). destruct (Hr a Ha) as (Ha0 & _).
  assert (Hle : (0 <= hpart a * he * Rk <= hpart x * he * Rk)%R).
  { specialize (Hmax a Ha). rewrite !Rmult_assoc. split; [apply Rmult_le_pos; auto|apply Rmult_le_compat_r; auto]. }
  assert (Near : in_range (margin (r_image g box (p_box P)) (hpart x * he * Rk)) (vadd (xyz b) d)).
  { revert Hdist Hle RA. generalize (hpart a * he * Rk)%R (hpart x * he * Rk)%R (r_image g box (p_box P)). intros e r B Hdist Hle (A1 & A2 & A3).
    unfold dist2 in Hdist. pose proof (Rle_0_sqr (wx (xyz a) - wx (vadd (xyz b) d))). pose proof (Rle_0_sqr (wy (xyz a) - wy (vadd (xyz b) d))). pose proof (Rle_0_sqr (wz (xyz a) - wz (vadd (xyz b) d))).
    pose proof (sq_le (wx (xyz a) - wx (vadd (xyz b) d)) e ltac:(lra) ltac:(lra)). pose proof (sq_le (wy (xyz a) - wy (vadd (xyz b) d)) e ltac:(lra) ltac:(lra)).
    pose proof (sq_le (wz (xyz a) - wz (vadd (xyz b) d)) e ltac:(lra) ltac:(lra)). unfold in_range, margin. cbn [fst snd wx wy wz]. lra. }
  (* an offset with this displacement is in the list *)
  assert (O : exists o, In o offs /\ o_shift o = d /\ (idx_zero (o_idx o) = true -> d = vzero)).
  { assert (MP' : ((wx (fst box) <= wx (fst (r_image g box (p_box P))) /\ wy (fst box) <= wy (fst (r_image g box (p_box P))) /\ wz (fst box) <= wz (fst (r_image g box (p_box P)))) /\
      (wx (snd (r_image g box (p_box P))) <= wx (snd box) /\ wy (snd (r_image g box (p_box P))) <= wy (snd box) /\ wz (snd (r_image g box (p_box P))) <= wz (snd box)))%R) by lra.
    destruct MP' as (MP1 & MP2).
    destruct cfg as [| |base dir value speed]; cbn [image_shift offsets config_ok] in *.
    - injection Hoffs as <-. subst d. eexists. split; [left; reflexivity|]. split; reflexivity.
    - assert (EO : offs = map (periodic_offset (bsize box)) (idx_box 1 1 1)) by congruence. clear Hoffs. subst offs. destruct Hd as (n & ->). exists (periodic_offset (bsize box) n). split; [|split; [reflexivity|]].
      + eapply periodic_reach; eauto.
      + cbn [o_idx periodic_offset]. unfold idx_zero, vzero. intros Ez. replace (vx n) with 0 by lia. replace (vy n) with 0 by lia. replace (vz n) with 0 by lia. f_equal; ring.
    - destruct Hd as (n & Ed). cbv zeta in Ed.
      assert (Es : o_shift (compute_shift_infos n base dir value speed (bsize box)) = d).
      { subst d. unfold compute_shift_infos, idot. cbn [o_shift]. rewrite !mult_IZR. f_equal; ring. }
      exists (compute_shift_infos n base dir value speed (bsize box)). split; [|split; [exact Es|]].
      + eapply shear_reach; eauto. rewrite Es. exact Near.
      + cbn [o_idx compute_shift_infos]. unfold idx_zero. intros Ez. rewrite <- Es. unfold compute_shift_infos, idot, vzero. cbn [o_shift].
        replace (vx n) with 0 by lia. replace (vy n) with 0 by lia. replace (vz n) with 0 by lia. cbn [Z.mul Z.add]. f_equal; ring. }
  destruct O as (o & Hoin & Eo & Hz). apply in_or_app.
  destruct ((p_id S =? p_id P) && idx_zero (o_idx o)) eqn:Es.
  - left. apply andb_true_iff in Es. destruct Es as (Ei & Ez). apply Z.eqb_eq in Ei. specialize (Hz Ez).
    assert (S = P) by (eapply id_inj; eauto). subst S. apply in_map_iff. exists b. split; auto. unfold own_xyzh. rewrite Hz. f_equal. unfold vadd, vzero. cbn [wx wy wz].
    destruct (xyz b) as [b1 b2 b3]. cbn [wx wy wz]. f_equal; ring.
  - right. apply in_map_iff. exists (o, b). cbn [fst snd]. split; [unfold ghost_xyzh; now rewrite Eo|].
    eapply Permutation_in; [apply Permutation_sym, HL|]. unfold expected. apply in_flat_map. exists o. split; auto. apply in_flat_map. exists S. split.
    + apply filter_In. split; auto. unfold validb, valid_patch in *. lia.
    + rewrite Es. apply in_map. apply filter_In. split; auto. apply in_rangeb_ok. rewrite Eo. exact Near.
Qed.
End P.
Print Assumptions C57_ghosts.
Print Assumptions C57_offsets_distinct.
Print Assumptions C57_offsets_images.
Print Assumptions C57_neighbours.

(** ** A concrete case: two patches [0,1) x [0,1)^2 and [1,2) x [0,1)^2, one particle in each: a at x = 1/2 with
    h = 1/10, b at x = 7/5 with h = 1. *)
Definition exo : Type := vec3 R * R.
Definition exA : pcoord := PC (V3 0 0 0) (V3 0 0 0).
Definition exB : pcoord := PC (V3 1 0 0) (V3 1 0 0).
Definition exg : pcoord := PC (V3 0 0 0) (V3 1 0 0).
Definition exbox : range R := (W3 0 0 0, W3 2 1 1)%R.
Definition ex_a : exo := (W3 (1/2) (1/2) (1/2), 1/10)%R.
Definition ex_b : exo := (W3 (7/5) (1/2) (1/2), 1)%R.
Definition ex_pos (x : exo) : v3 := r_cell exg exbox (fst x).
Definition ex_roots : sched exo := match add_root_patches exo [exA; exB] (empty_sched exo) with Ok s => s | _ => empty_sched exo end.
Definition ex_data (r id : Z) : option (list exo) := if r =? 0 then (if id =? 0 then Some [ex_a] else if id =? 1 then Some [ex_b] else None) else None.
Definition ex_state : sched exo := Sched exo (s_tree _ ex_roots) (s_global _ ex_roots) (s_next _ ex_roots) (s_idx _ ex_roots) ex_data.
Definition exPA : patch := Patch 0 u64_max 0 exA 0.
Definition exPB : patch := Patch 1 u64_max 0 exB 0.
Lemma ex_global : s_global _ ex_state = [exPA; exPB]. Proof. reflexivity. Qed.
Lemma ex_grid : grid_ok exg. Proof. unfold grid_ok, exg, u64_max. cbn [cmin cmax vx vy vz]. lia. Qed.
Lemma ex_rbox : rbox_ok exbox. Proof. unfold rbox_ok, exbox. cbn [fst snd wx wy wz]. lra. Qed.
Lemma ex_inA : inside exA exg. Proof. unfold inside, exA, exg. cbn [cmin cmax vx vy vz]. lia. Qed.
Lemma ex_inB : inside exB exg. Proof. unfold inside, exB, exg. cbn [cmin cmax vx vy vz]. lia. Qed.
Lemma ex_imgA : r_image exg exbox exA = (W3 0 0 0, W3 1 1 1)%R.
Proof.
  unfold r_image, Domain_cell.image, Fx, Fy, Fz, exg, exA, exbox. cbn [cmin cmax vx vy vz fst snd wx wy wz Z.add].
  rewrite !r_axis_eq by lia. cbn [Z.sub Z.add Z.opp Z.pos_sub Pos.add Pos.succ]. f_equal; f_equal; field.
Qed.
Lemma ex_imgB : r_image exg exbox exB = (W3 1 0 0, W3 2 1 1)%R.
Proof.
  unfold r_image, Domain_cell.image, Fx, Fy, Fz, exg, exB, exbox. cbn [cmin cmax vx vy vz fst snd wx wy wz Z.add Pos.add].
  rewrite !r_axis_eq by lia. cbn [Z.sub Z.add Z.opp Z.pos_sub Pos.add Pos.succ]. f_equal; f_equal; field.
Qed.
Lemma ex_cell b x : inside b exg -> in_range (r_image exg exbox b) (fst x) -> in_box (ex_pos x) b.
Proof.
  intros Hb H. destruct (r_conv exg exbox ex_grid ex_rbox b Hb) as (r & E & Hr). rewrite (r_to_box_ok _ _ ex_grid ex_rbox b Hb) in E. injection E as <-.
  apply Hr. apply in_rangeb_ok in H. exact H.
Qed.
Lemma ex_h1 : sched_history exo ex_pos 1 [exA; exB] ex_roots.
Proof.
  apply (SH_root exo ex_pos 1 [] (empty_sched exo) [exA; exB] ex_roots).
  - constructor.
  - split; [|split; [|split; [|split]]].
    + intros i j a b Ha Hb Ne pt. destruct i as [|[|i]], j as [|[|j]]; cbn [nth_error] in *; try (now destruct i); try (now destruct j); try congruence;
        injection Ha as <-; injection Hb as <-; unfold in_box, exA, exB; cbn [cmin cmax vx vy vz]; lia.
    + intros a [<-|[<-|[]]]; unfold wf_box, exA, exB; cbn [cmin cmax vx vy vz]; lia.
    + intros a _ pt _ (p & [] & _).
    + cbn [s_next empty_sched length]. lia.
    + cbn [s_tree t_next empty_sched empty_ptree length]. unfold u64_max. lia.
  - reflexivity.
Qed.
Lemma ex_h2 : sched_history exo ex_pos 1 [exA; exB] ex_state.
Proof.
  apply SH_data; [exact ex_h1|]. split.
  - intros r id Hr. assert (r = 0) by lia. subst r. unfold ex_data. cbn [Z.eqb].
    unfold ex_roots, add_root_patches, rfold, add_root_patch. cbn. unfold d_set, dd_set. cbn.
    destruct (id =? 0) eqn:E0, (id =? 1) eqn:E1; split; intros H; try discriminate; try congruence.
  - intros p o Hp _ Ho. destruct Hp as [<-|[<-|[]]]; destruct Ho as [<-|[]]; apply ex_cell.
    + exact ex_inA.
    + cbn [p_box]. rewrite ex_imgA. unfold in_range, ex_a. cbn [fst snd wx wy wz]. lra.
    + exact ex_inB.
    + cbn [p_box]. rewrite ex_imgB. unfold in_range, ex_b. cbn [fst snd wx wy wz]. lra.
Qed.
(** The kernels of the tree field, item after item. *)
Lemma ex_acts n : level_execution n (all_acts n).
Proof.
  split; [apply Permutation_refl|]. unfold all_acts. generalize (seq 0 n) as l. intros l. induction l as [|a l IH]; intros p q i E k Hk; cbn [flat_map] in E.
  - destruct p; discriminate.
  - rewrite <- app_assoc in E. cbn [app] in E.
    assert (G : forall ks p, map (Rd a) ks ++ Wr a :: flat_map (fun i => map (Rd i) (seq 0 8) ++ [Wr i]) l = p ++ Wr i :: q -> (forall j, In j ks -> In (Rd a j) p) /\ (i = a \/ exists p', p = map (Rd a) ks ++ Wr a :: p')).
    { induction ks as [|j ks IK]; intros p0 E0; cbn [map app] in E0.
      - destruct p0 as [|c p0]; [injection E0 as <- _; split; [intros ? []|auto]|]. injection E0 as <- _. split; [intros ? []|]. right. exists p0. reflexivity.
      - destruct p0 as [|c p0]; [discriminate|]. injection E0 as <- E0. destruct (IK p0 E0) as (A & B). split; [intros j' [<-|Hj]; [left|right]; auto|].
        destruct B as [B|(p' & ->)]; auto. right. exists p'. reflexivity. }
    destruct (G _ _ E) as (A & [->|(p' & ->)]).
    + apply A. apply in_seq. lia.
    + rewrite <- app_assoc in E. apply app_inv_head in E. cbn [app] in E. injection E as E. apply in_or_app. right. right. exact (IH p' q i E k Hk).
Qed.
Definition ex_ord (n : nat) : list nat := rev (seq 0 n).
Lemma ex_ord_ok n : Permutation (ex_ord n) (seq 0 n). Proof. symmetry. apply Permutation_rev. Qed.
Lemma ex_in b : In b [exA; exB] -> inside b exg. Proof. intros [<-|[<-|[]]]; [exact ex_inA|exact ex_inB]. Qed.
Lemma ex_next : t_next (s_tree _ ex_state) <= 2 ^ 32. Proof. vm_compute. discriminate. Qed.
Lemma ex_W : Z.of_nat 1 <= u32_max. Proof. vm_compute. discriminate. Qed.
Notation ex_cache he cfg := (build_ghost_cache fst snd 1 ex_state exg exbox he 1 cfg 65 (t_roots (s_tree _ ex_state)) (fun n _ => all_acts n) (fun _ => ex_ord)).
Notation ex_merge tables net P := (build_comm_merge exo ex_state (ghost_xyzh exo fst snd) (own_xyzh exo fst snd) tables net P).
Definition ex_range (P : patch) (he : R) : R := (match p_id P with 0 => 1/10 | _ => 1 end * he * 1)%R.
Definition ex_img (P : patch) : range R := match p_id P with 0 => (W3 0 0 0, W3 1 1 1)%R | _ => (W3 1 0 0, W3 2 1 1)%R end.
Lemma ex_run he cfg offs : offsets cfg (bsize exbox) = Ok offs -> exists tables, ex_cache he cfg = Ok tables /\
  forall net, (forall n, Permutation (net n) (seq 0 n)) -> forall P, In P [exPA; exPB] ->
  exists L, Permutation L (expected exo fst 1 ex_state offs P (ex_img P) (ex_range P he)) /\
    ex_merge tables net P = Ok (Some (map (own_xyzh exo fst snd) (patch_objs exo ex_data P) ++ map (fun c => ghost_xyzh exo fst snd (fst c) (snd c)) L)).
Proof.
  intros HO.
  destruct (C57_ghosts exo fst snd 1 [exA; exB] ex_state exg exbox he 1 cfg offs 65 (t_roots (s_tree _ ex_state)) (fun n _ => all_acts n) (fun _ => ex_ord)
    ltac:(lia) ex_W ex_h2 ex_grid ex_rbox ex_in ex_next (Permutation_refl _) ltac:(lia) (fun n _ => ex_acts n) (fun _ => ex_ord_ok) HO) as (tables & E & H).
  exists tables. split; auto. intros net Hnet P HP.
  destruct (H net Hnet P HP) as (_ & M); [destruct HP as [<-|[<-|[]]]; unfold valid_patch; cbn [p_owner exPA exPB]; lia|].
  destruct M as (x & r & PB & L & Hx & _ & -> & EPB & HL & HM); [destruct HP as [<-|[<-|[]]]; discriminate|].
  exists L. split; [|apply HM].
  assert (EP : PB = ex_img P).
  { assert (Ii : inside (p_box P) exg) by (destruct HP as [<-|[<-|[]]]; [exact ex_inA|exact ex_inB]). rewrite (r_to_box_ok _ _ ex_grid ex_rbox _ Ii) in EPB.
    assert (r_image exg exbox (p_box P) = PB) by congruence. subst PB. destruct HP as [<-|[<-|[]]]; [exact ex_imgA|exact ex_imgB]. }
  assert (ER : (snd x * he * 1)%R = ex_range P he) by (destruct HP as [<-|[<-|[]]]; destruct Hx as [<-|[]]; reflexivity).
  rewrite EP, ER in HL. exact HL.
Qed.
Ltac decR := unfold in_rangeb, is_in_patch_converted, margin, vadd, ex_img, ex_range; cbn [p_id exPA exPB fst snd wx wy wz ex_a ex_b o_shift vzero].
Ltac bools := repeat (first [rewrite Rle_bool_true by lra | rewrite Rlt_bool_true by lra | rewrite Rle_bool_false by lra | rewrite Rlt_bool_false by lra]); cbn [andb].
Notation ex_free := (Offset (V3 0 0 0) vzero vzero).
Lemma ex_free_A : expected exo fst 1 ex_state [ex_free] exPA (ex_img exPA) (ex_range exPA 1) = [].
Proof.
  unfold expected. rewrite ex_global. cbn [filter flat_map validb exPA exPB p_owner p_id Z.leb Z.ltb Z.compare andb Z.eqb idx_zero o_idx vx vy vz Z.of_nat Pos.of_succ_nat app].
  change (patch_objs exo (s_data exo ex_state) exPB) with [ex_b]. cbn [filter]. decR. unfold ex_b; cbn [fst snd wx wy wz]. bools. reflexivity.
Qed.
Lemma ex_free_B : expected exo fst 1 ex_state [ex_free] exPB (ex_img exPB) (ex_range exPB 1) = [(ex_free, ex_a)].
Proof.
  unfold expected. rewrite ex_global. cbn [filter flat_map validb exPA exPB p_owner p_id Z.leb Z.ltb Z.compare andb Z.eqb idx_zero o_idx vx vy vz Z.of_nat Pos.of_succ_nat app].
  change (patch_objs exo (s_data exo ex_state) exPA) with [ex_a]. cbn [filter]. decR. unfold ex_a; cbn [fst snd wx wy wz]. bools. reflexivity.
Qed.
Example C57_nonvacuous : sched_history exo ex_pos 1 [exA; exB] ex_state /\
  exists tables, ex_cache 1%R Free = Ok tables /\ forall net, (forall n, Permutation (net n) (seq 0 n)) ->
    ex_merge tables net exPB = Ok (Some [(W3 (7/5) (1/2) (1/2), 1); (W3 (1/2 + 0) (1/2 + 0) (1/2 + 0), 1/10)])%R.
Proof.
  split; [exact ex_h2|]. destruct (ex_run 1 Free [ex_free] eq_refl) as (tables & E & H). exists tables. split; auto. intros net Hnet.
  destruct (H net Hnet exPB ltac:(right; left; reflexivity)) as (L & HL & HM). rewrite ex_free_B in HL. apply Permutation_sym, Permutation_length_1_inv in HL. subst L. exact HM.
Qed.

(** ** What does not hold *)
(** The margin is the range of the receiver only: a particle whose own range reaches a particle of another patch may
    be missing from the ghosts of that patch, although it receives the other one as a ghost.  The pair is then seen
    from one side only.  Here b reaches a, but a patch of a does not get b. *)
Theorem C57_scatter_refuted : exists tables, ex_cache 1%R Free = Ok tables /\
  (dist2 (fst ex_a) (fst ex_b) <= (snd ex_b * 1 * 1)²)%R /\
  forall net, (forall n, Permutation (net n) (seq 0 n)) ->
    ex_merge tables net exPA = Ok (Some [(fst ex_a, snd ex_a)]) /\
    exists merged, ex_merge tables net exPB = Ok (Some merged) /\ In (vadd (fst ex_a) vzero, snd ex_a) merged.
Proof.
  destruct (ex_run 1 Free [ex_free] eq_refl) as (tables & E & H). exists tables. split; auto. split.
  { unfold dist2, ex_a, ex_b, Rsqr. cbn [fst snd wx wy wz]. lra. }
  intros net Hnet. split.
  - destruct (H net Hnet exPA ltac:(left; reflexivity)) as (L & HL & HM). rewrite ex_free_A in HL. apply Permutation_sym, Permutation_nil in HL. subst L. exact HM.
  - destruct (H net Hnet exPB ltac:(right; left; reflexivity)) as (L & HL & HM). rewrite ex_free_B in HL. apply Permutation_sym, Permutation_length_1_inv in HL. subst L.
    eexists. split; [exact HM|]. right. left. reflexivity.
Qed.
(** The elements of a merged list. *)
Lemma ex_elems he offs P L o x : Permutation L (expected exo fst 1 ex_state offs P (ex_img P) (ex_range P he)) -> In (o, x) L -> In o offs /\ (x = ex_a \/ x = ex_b).
Proof.
  intros HL Hx. eapply Permutation_in in Hx; [|exact HL]. unfold expected in Hx. apply in_flat_map in Hx. destruct Hx as (o' & Ho & Hx). apply in_flat_map in Hx. destruct Hx as (S & HS & Hx).
  destruct (_ && _) in Hx; [contradiction|]. apply in_map_iff in Hx. destruct Hx as (x' & [= <- <-] & Hx). apply filter_In in Hx. destruct Hx as (Hx & _). split; auto.
  apply filter_In in HS. destruct HS as (HS & _). rewrite ex_global in HS. destruct HS as [<-|[<-|[]]]; destruct Hx as [<-|[]]; auto.
Qed.
(** The images are limited to one box on each side: when the range is larger than the box some neighbours are
    missing.  Here the image of b two boxes away along y is within the range of b. *)
Theorem C57_small_box_refuted : exists tables, ex_cache 3%R Periodic = Ok tables /\
  image_shift (bsize exbox) Periodic (W3 0 2 0)%R /\
  (dist2 (fst ex_b) (vadd (fst ex_b) (W3 0 2 0)) <= (snd ex_b * 3 * 1)²)%R /\
  forall net, (forall n, Permutation (net n) (seq 0 n)) ->
    exists merged, ex_merge tables net exPB = Ok (Some merged) /\ ~ In (vadd (fst ex_b) (W3 0 2 0)%R, snd ex_b) merged.
Proof.
  destruct (ex_run 3 Periodic _ eq_refl) as (tables & E & H). exists tables. split; auto. split; [|split].
  - exists (V3 0 2 0). unfold bsize, exbox, vsub. cbn [vx vy vz fst snd wx wy wz]. f_equal; ring.
  - unfold dist2, vadd, ex_b, Rsqr. cbn [fst snd wx wy wz]. lra.
  - intros net Hnet. destruct (H net Hnet exPB ltac:(right; left; reflexivity)) as (L & HL & HM). eexists. split; [exact HM|].
    intros Hin. apply in_app_or in Hin. destruct Hin as [Hin|Hin].
    + change (patch_objs exo ex_data exPB) with [ex_b] in Hin. destruct Hin as [Hin|[]]. unfold own_xyzh, vadd, ex_b in Hin. cbn [fst snd wx wy wz] in Hin. injection Hin as _ Hy _. lra.
    + apply in_map_iff in Hin. destruct Hin as ([o x] & Ex & Hc). destruct (ex_elems _ _ _ _ _ _ HL Hc) as (Ho & Hx). apply in_map_iff in Ho. destruct Ho as (i & <- & Hi).
      apply in_idx_box in Hi; try lia. destruct Hi as (_ & (_ & Hi) & _). apply IZR_le in Hi. unfold ghost_xyzh, periodic_offset, vadd, ex_b, bsize, vsub, exbox in Ex. cbn [fst snd o_shift wx wy wz] in Ex.
      injection Ex as _ Hy _ _. destruct Hx as [->| ->]; unfold ex_a, ex_b in Hy; cbn [fst wx wy wz] in Hy; lra.
Qed.
(** With a negative shear_dir the truncated shear is added instead of subtracted (cpp:217-221: the sign of shear_dir is
    both in sz and in off_d): once the shear exceeds a box length the images along shear_base are misplaced by
    several boxes and the neighbours across that boundary are all missing.  Here the range of a is the length of the box,
    and the image of b at distance 1 is not sent. *)
Theorem C57_negative_shear_refuted : exists offs tables,
  let cfg := ShearingPeriodic (V3 0 1 0) (V3 (-1) 0 0) (49/10) 1 in
  let d := (W3 (- (9/10)) 1 0)%R in
  offsets cfg (bsize exbox) = Ok offs /\ ex_cache 10%R cfg = Ok tables /\ image_shift (bsize exbox) cfg d /\
  (dist2 (fst ex_a) (vadd (fst ex_b) d) <= (snd ex_a * 10 * 1)²)%R /\
  (snd ex_a * 10 * 1 <= wx (bsize exbox) /\ snd ex_a * 10 * 1 <= wy (bsize exbox) /\ snd ex_a * 10 * 1 <= wz (bsize exbox))%R /\
  forall net, (forall n, Permutation (net n) (seq 0 n)) ->
    exists merged, ex_merge tables net exPA = Ok (Some merged) /\ ~ In (vadd (fst ex_b) d, snd ex_b) merged.
Proof.
  assert (EL : bsize exbox = (W3 2 1 1)%R) by (unfold bsize, vsub, exbox; cbn [fst snd wx wy wz]; f_equal; ring).
  assert (Al : along (bsize exbox) (V3 (-1) 0 0) = (-2)%R) by (rewrite EL; unfold along; cbn [wx wy wz vx vy vz]; ring).
  destruct (shear_Ok (V3 0 1 0) (V3 (-1) 0 0) (49/10) 1 (bsize exbox)) as (offs & HO).
  { rewrite Al. lra. }
  { intros i Hi. unfold reps in Hi. apply in_idx_box in Hi; try (cbn [vx vy vz Z.abs]; lia). cbn [vx vy vz Z.abs Z.add Pos.add] in Hi. destruct Hi as (_ & (Y1 & Y2) & _). rewrite Al.
    unfold idot. cbn [vx vy vz]. replace (vx i * 0 + vy i * 1 + vz i * 0) with (vy i) by ring. apply IZR_le in Y1, Y2. apply Rabs_lt. cbn [Z.pow Z.pow_pos Pos.iter Z.mul Pos.mul]. change (IZR (- (1))) with (-1)%R in Y1. replace (IZR (vy i) * (49 / 10) / -2)%R with (- (IZR (vy i) * (49/20)))%R by field. lra. }
  destruct (ex_run 10 (ShearingPeriodic (V3 0 1 0) (V3 (-1) 0 0) (49/10) 1) offs HO) as (tables & E & H).
  exists offs, tables. cbv zeta. split; auto. split; auto. split; [|split; [|split]].
  - exists (V3 2 1 0). cbv zeta. rewrite EL. cbn [vx vy vz wx wy wz Z.mul Z.add Pos.mul]. f_equal; field.
  - unfold dist2, vadd, ex_a, ex_b, Rsqr. cbn [fst snd wx wy wz]. lra.
  - rewrite EL. unfold ex_a. cbn [snd wx wy wz]. lra.
  - intros net Hnet. destruct (H net Hnet exPA ltac:(left; reflexivity)) as (L & HL & HM). eexists. split; [exact HM|].
    intros Hin. apply in_app_or in Hin. destruct Hin as [Hin|Hin].
    + change (patch_objs exo ex_data exPA) with [ex_a] in Hin. destruct Hin as [Hin|[]]. unfold own_xyzh, vadd, ex_b, ex_a in Hin. cbn [fst snd wx wy wz] in Hin. injection Hin as _ Hy _. lra.
    + apply in_map_iff in Hin. destruct Hin as ([o x] & Ex & Hc). destruct (ex_elems _ _ _ _ _ _ HL Hc) as (Ho & Hx).
      rewrite (shear_list _ _ _ _ _ _ HO) in Ho. apply in_map_iff in Ho. destruct Ho as (i & <- & Hi). apply in_idx_box in Hi; try (cbn [vx vy vz Z.abs]; lia).
      cbn [vx vy vz Z.abs Z.add Pos.add] in Hi. destruct Hi as ((_ & X2) & _ & _).
      unfold ghost_xyzh, shifted in Ex. rewrite Al in Ex. rewrite EL in Ex. unfold compute_shift_infos, idot, vadd in Ex. cbn [fst snd o_shift wx wy wz vx vy vz] in Ex.
      replace (vx i * 0 + vy i * 1 + vz i * 0) with (vy i) in Ex by ring. rewrite ?Z.mul_0_l, ?Z.mul_0_r, ?Z.mul_1_r, ?Z.add_0_l, ?Z.add_0_r in Ex. injection Ex as Hx0 Hy _ _.
      assert (Y : vy i = 1). { apply eq_IZR. destruct Hx as [->| ->]; unfold ex_a, ex_b in Hy; cbn [fst wx wy wz] in Hy; lra. }
      rewrite Y in Hx0. assert (T : Ztrunc (1 * (49 / 10) / -2) = -2).
      { replace (1 * (49 / 10) / -2)%R with (- (49/20))%R by field. rewrite Ztrunc_opp. rewrite Ztrunc_floor by lra. rewrite (Zfloor_imp 2); [reflexivity|]. cbn. lra. }
      rewrite T in Hx0. cbn [Z.opp] in Hx0. assert (Q : (IZR (vx i + -2) <= 0)%R) by (apply IZR_le; lia).
      destruct Hx as [->| ->]; unfold ex_a, ex_b in Hx0; cbn [fst wx wy wz] in Hx0; change (1 * -1) with (-1) in Hx0; lra.
Qed.
Print Assumptions C57_scatter_refuted.
Print Assumptions C57_small_box_refuted.
Print Assumptions C57_negative_shear_refuted.
