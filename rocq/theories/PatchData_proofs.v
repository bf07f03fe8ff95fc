(** Splitting and merging the data of patches. *)
From Verif Require Import Base Par Scan Scan_spec Reduction Layer Layer_spec Layer_proofs Layer_fields Layer_main Layer_extra
  Patch Patch_spec Patch_proofs PatchTree Sched Sched_spec Sched_proofs Domain Domain_spec Domain_cell PatchData PatchData_spec PatchData_layer.
From Coq Require Import ZifyBool ZifyNat.
Local Open Scope Z_scope.

Lemma rmapm_ok {X Y} (f : X -> res Y) (h : X -> Y) l : (forall x, In x l -> f x = Ok (h x)) -> rmapm f l = Ok (map h l).
Proof.
  induction l as [|x l IH]; intros H; [reflexivity|]. cbn [rmapm map]. rewrite H by (now left). cbn [rbind].
  rewrite IH by (intros; apply H; now right). reflexivity.
Qed.

Section Axis.
Context {C : Type}.
Variables (leb ltb : C -> C -> bool) (F : Z -> C) (lo hi : Z).
Hypothesis Hinc : increasing leb ltb F lo hi.
Hypothesis Hlh : lo <= hi.
Hypothesis Hrefl : forall c, lo <= c <= hi + 1 -> leb (F c) (F c) = true.
Hypothesis Htrans : forall a b c, leb a b = true -> leb b c = true -> leb a c = true.
Notation cell := (cell leb F lo hi).

Lemma ltb_leb a b : lo <= a <= hi + 1 -> lo <= b <= hi + 1 -> ltb (F b) (F a) = negb (leb (F a) (F b)).
Proof.
  intros Ha Hb. apply (proj2 Hinc); auto. apply (proj1 Hinc) with (b := b); auto; try lia.
Qed.
Lemma not_leb a b : lo <= a <= hi + 1 -> lo <= b <= hi + 1 -> leb (F a) (F b) = false -> b < a.
Proof.
  intros Ha Hb E. destruct (Z_lt_ge_dec b a) as [|G]; auto. exfalso.
  assert (T : leb (F a) (F b) = true) by (apply (proj1 Hinc a b (F b)); try lia; apply Hrefl; lia). congruence.
Qed.
Lemma min_image a b : lo <= a <= hi + 1 -> lo <= b <= hi + 1 ->
  exists c, lo <= c <= hi + 1 /\ mn ltb (F a) (F b) = F c /\ forall x, leb (F c) x = (Z.min a b <=? cell x).
Proof.
  intros Ha Hb. unfold mn. rewrite ltb_leb by auto. destruct (leb (F a) (F b)) eqn:E; cbn [negb].
  - exists a. split; [auto|]. split; auto. intros x.
    assert (Q : leb (F a) x = (leb (F a) x || leb (F b) x)%bool).
    { destruct (leb (F b) x) eqn:Eb; [|now rewrite orb_false_r]. rewrite (Htrans _ _ _ E Eb). reflexivity. }
    rewrite Q, !(cell_spec leb ltb F lo hi Hinc) by lia. lia.
  - pose proof (not_leb a b Ha Hb E). exists b. split; [auto|]. split; auto. intros x.
    rewrite (cell_spec leb ltb F lo hi Hinc) by lia. lia.
Qed.
Lemma max_image a b : lo <= a <= hi + 1 -> lo <= b <= hi + 1 ->
  exists c, lo <= c <= hi + 1 /\ mx ltb (F a) (F b) = F c /\ forall x, leb (F c) x = (Z.max a b <=? cell x).
Proof.
  intros Ha Hb. unfold mx. rewrite ltb_leb by auto. destruct (leb (F b) (F a)) eqn:E; cbn [negb].
  - exists a. split; [auto|]. split; auto. intros x.
    assert (Q : leb (F a) x = (leb (F a) x && leb (F b) x)%bool).
    { destruct (leb (F a) x) eqn:Eb; [|reflexivity]. now rewrite (Htrans _ _ _ E Eb). }
    rewrite Q, !(cell_spec leb ltb F lo hi Hinc) by lia. lia.
  - pose proof (not_leb b a Hb Ha E). exists b. split; [auto|]. split; auto. intros x.
    rewrite (cell_spec leb ltb F lo hi Hinc) by lia. lia.
Qed.
Lemma fold_image (m : C -> C -> C) (k : Z -> Z -> Z) :
  (forall a b, lo <= a <= hi + 1 -> lo <= b <= hi + 1 -> lo <= k a b <= hi + 1) ->
  (forall a b c x, (a <=? x) = (c <=? x) -> (k a b <=? x) = (k c b <=? x)) ->
  (forall a b, lo <= a <= hi + 1 -> lo <= b <= hi + 1 ->
    exists c, lo <= c <= hi + 1 /\ m (F a) (F b) = F c /\ forall x, leb (F c) x = (k a b <=? cell x)) ->
  forall cs c0, lo <= c0 <= hi + 1 -> Forall (fun c => lo <= c <= hi + 1) cs ->
  exists c, lo <= c <= hi + 1 /\ fold_left m (map F cs) (F c0) = F c /\ forall x, leb (F c) x = (fold_left k cs c0 <=? cell x).
Proof.
  intros Hk Hc Hm cs. induction cs as [|b cs IH]; intros c0 H0 H.
  - exists c0. split; auto. split; auto. intros x. now apply cell_spec with (ltb := ltb).
  - inversion H as [|? ? Hb Hcs]; subst. cbn [map fold_left]. destruct (Hm c0 b H0 Hb) as (c & Rc & Ec & Ex). rewrite Ec.
    destruct (IH c Rc Hcs) as (c' & Rc' & Ec' & Ex'). exists c'. split; auto. split; auto. intros x. rewrite Ex'.
    assert (Q : (c <=? cell x) = (k c0 b <=? cell x)) by (rewrite <- Ex; symmetry; now apply cell_spec with (ltb := ltb)).
    clear -Hc Q. revert c Q. generalize (k c0 b) as y. induction cs as [|d cs IH]; intros y c Q; [exact Q|].
    cbn [fold_left]. apply IH. now apply Hc.
Qed.
Lemma axis_bounds a b l u : lo <= a <= hi + 1 -> lo <= b <= hi -> 
  (forall x, leb l x = (a <=? cell x)) -> (exists c, lo <= c <= hi + 1 /\ u = F c) -> (forall x, leb u x = (b + 1 <=? cell x)) ->
  forall x, (leb l x && ltb x u)%bool = true <-> a <= cell x <= b.
Proof.
  intros Ha Hb Hl (c & Rc & ->) Hu x. rewrite andb_true_iff, Hl, Z.leb_le. split; intros (H1 & H2); split; auto.
  - assert (L : leb (F lo) x = true) by (rewrite (cell_spec leb ltb F lo hi Hinc) by lia; apply Z.leb_le; lia).
    rewrite (proj2 Hinc) in H2 by auto. rewrite Hu in H2. lia.
  - assert (L : leb (F lo) x = true) by (rewrite (cell_spec leb ltb F lo hi Hinc) by lia; apply Z.leb_le; lia).
    rewrite (proj2 Hinc) by auto. rewrite Hu. lia.
Qed.
End Axis.

Lemma fold_vec {C} (m : C -> C -> C) l : forall v, fold_left (vec_map2 m) l v =
  W3 (fold_left m (map wx l) (wx v)) (fold_left m (map wy l) (wy v)) (fold_left m (map wz l) (wz v)).
Proof. induction l as [|u l IH]; intros v; cbn [fold_left map]; [now destruct v|]. rewrite IH. reflexivity. Qed.

Lemma child_inside b g c : splittable b -> inside b g -> In c (get_split b) -> inside c g.
Proof.
  intros HS HI HC. pose proof (split_wf b c HS HC) as W.
  assert (D : forall p, in_box p c -> in_box p b) by (apply (get_split_not_split_child b c HS HC)).
  pose proof (D (cmin c)) as D1. pose proof (D (cmax c)) as D2. unfold wf_box, in_box, inside in *. lia.
Qed.

Section G.
Context {A C : Type}.
Variables (leb ltb : C -> C -> bool) (posv : A -> vec3 C) (conv : pcoord -> res (range C)) (lay : layout).
Variables (Fx Fy Fz : Z -> C) (g : pcoord).
Hypothesis Hg : grid_ok g.
Hypothesis Hx : increasing leb ltb Fx (vx (cmin g)) (vx (cmax g)).
Hypothesis Hy : increasing leb ltb Fy (vy (cmin g)) (vy (cmax g)).
Hypothesis Hz : increasing leb ltb Fz (vz (cmin g)) (vz (cmax g)).
Hypothesis Rx : forall c, vx (cmin g) <= c <= vx (cmax g) + 1 -> leb (Fx c) (Fx c) = true.
Hypothesis Ry : forall c, vy (cmin g) <= c <= vy (cmax g) + 1 -> leb (Fy c) (Fy c) = true.
Hypothesis Rz : forall c, vz (cmin g) <= c <= vz (cmax g) + 1 -> leb (Fz c) (Fz c) = true.
Hypothesis Htrans : forall a b c, leb a b = true -> leb b c = true -> leb a c = true.
Notation img := (image Fx Fy Fz).
Hypothesis Hconv : forall b, inside b g -> conv b = Ok (img b).
Notation cellof := (cell3 leb Fx Fy Fz g).

Lemma fold_min_axis (F : Z -> C) lo hi cs c0 : lo <= hi -> increasing leb ltb F lo hi ->
  (forall c, lo <= c <= hi + 1 -> leb (F c) (F c) = true) -> lo <= c0 <= hi + 1 -> Forall (fun c => lo <= c <= hi + 1) cs ->
  exists c, lo <= c <= hi + 1 /\ fold_left (mn ltb) (map F cs) (F c0) = F c /\
    forall x, leb (F c) x = (fold_left Z.min cs c0 <=? cell leb F lo hi x).
Proof. intros L I R. apply fold_image with (ltb := ltb); auto; try lia. intros. apply min_image; auto. Qed.
Lemma fold_max_axis (F : Z -> C) lo hi cs c0 : lo <= hi -> increasing leb ltb F lo hi ->
  (forall c, lo <= c <= hi + 1 -> leb (F c) (F c) = true) -> lo <= c0 <= hi + 1 -> Forall (fun c => lo <= c <= hi + 1) cs ->
  exists c, lo <= c <= hi + 1 /\ fold_left (mx ltb) (map F cs) (F c0) = F c /\
    forall x, leb (F c) x = (fold_left Z.max cs c0 <=? cell leb F lo hi x).
Proof. intros L I R. apply fold_image with (ltb := ltb); auto; try lia. intros. apply max_image; auto. Qed.

Lemma axis_total (F : Z -> C) lo hi c0 cs d0 ds a b : lo <= hi -> increasing leb ltb F lo hi ->
  (forall c, lo <= c <= hi + 1 -> leb (F c) (F c) = true) ->
  Forall (fun c => lo <= c <= hi + 1) (c0 :: cs) -> Forall (fun c => lo <= c <= hi + 1) (d0 :: ds) ->
  fold_left Z.min cs c0 = a -> fold_left Z.max ds d0 = b + 1 -> lo <= a -> a <= b -> b <= hi ->
  forall x, (leb (fold_left (mn ltb) (map F cs) (F c0)) x && ltb x (fold_left (mx ltb) (map F ds) (F d0)))%bool = true <->
    a <= cell leb F lo hi x <= b.
Proof.
  intros L I R H1 H2 E1 E2 B1 B2 B3 x. inversion H1; inversion H2; subst.
  destruct (fold_min_axis F lo hi cs c0) as (c & Rc & Ec & Ex); auto.
  destruct (fold_max_axis F lo hi ds d0) as (d & Rd & Ed & Ex'); auto.
  rewrite Ec, Ed. apply (axis_bounds leb ltb F lo hi I); auto; try lia.
  all: try (exists d; auto; fail).
  all: intros y; rewrite Ex'; lia.
Qed.

Lemma bounds_image b : splittable b -> inside b g ->
  exists vmin vmax, fold1 (vec_map2 (mn ltb)) (map fst (map img (get_split b))) = Ok vmin /\
    fold1 (vec_map2 (mx ltb)) (map snd (map img (get_split b))) = Ok vmax /\
    forall v, is_in_patch_converted leb ltb v vmin vmax = true <-> in_box (cellof v) b.
Proof.
  intros HS HI. assert (CI : Forall (fun c => inside c g) (get_split b)) by (apply Forall_forall; intros c Hc; eapply child_inside; eauto).
  unfold grid_ok in Hg. destruct b as [[x0 y0 z0] [x1 y1 z1]]. unfold splittable in HS; cbn [cmin cmax vx vy vz] in HS. destruct HS as (SX & SY & SZ).
  unfold get_split, get_split_coord in *; cbn [cmin cmax vx vy vz] in *.
  destruct (split_axis_ok _ _ SX) as (_ & X1 & X2). destruct (split_axis_ok _ _ SY) as (_ & Y1 & Y2). destruct (split_axis_ok _ _ SZ) as (_ & Z1 & Z2).
  rewrite X2, Y2, Z2 in *. set (sx := split_axis x0 x1) in *. set (sy := split_axis y0 y1) in *. set (sz := split_axis z0 z1) in *.
  unfold image. cbn [map fst snd cmin cmax vx vy vz]. unfold fold1. rewrite !fold_vec. cbn [map wx wy wz].
  eexists _, _. split; [reflexivity|]. split; [reflexivity|]. intros v.
  unfold is_in_patch_converted, in_box, cell3. cbn [vx vy vz wx wy wz cmin cmax].
  unfold inside in HI. cbn [cmin cmax vx vy vz] in HI.
  pose proof (axis_total Fx (vx (cmin g)) (vx (cmax g)) x0 [x0; x0; x0; sx + 1; sx + 1; sx + 1; sx + 1]
     (sx + 1) [sx + 1; sx + 1; sx + 1; x1 + 1; x1 + 1; x1 + 1; x1 + 1] x0 x1 ltac:(lia) Hx Rx
     ltac:(repeat constructor; lia) ltac:(repeat constructor; lia) ltac:(cbn [fold_left]; lia) ltac:(cbn [fold_left]; lia) ltac:(lia) ltac:(lia) ltac:(lia) (wx v)) as AX.
  pose proof (axis_total Fy (vy (cmin g)) (vy (cmax g)) y0 [y0; sy + 1; sy + 1; y0; y0; sy + 1; sy + 1]
     (sy + 1) [sy + 1; y1 + 1; y1 + 1; sy + 1; sy + 1; y1 + 1; y1 + 1] y0 y1 ltac:(lia) Hy Ry
     ltac:(repeat constructor; lia) ltac:(repeat constructor; lia) ltac:(cbn [fold_left]; lia) ltac:(cbn [fold_left]; lia) ltac:(lia) ltac:(lia) ltac:(lia) (wy v)) as AY.
  pose proof (axis_total Fz (vz (cmin g)) (vz (cmax g)) z0 [sz + 1; z0; sz + 1; z0; sz + 1; z0; sz + 1]
     (sz + 1) [z1 + 1; sz + 1; z1 + 1; sz + 1; z1 + 1; sz + 1; z1 + 1] z0 z1 ltac:(lia) Hz Rz
     ltac:(repeat constructor; lia) ltac:(repeat constructor; lia) ltac:(cbn [fold_left]; lia) ltac:(cbn [fold_left]; lia) ltac:(lia) ltac:(lia) ltac:(lia) (wz v)) as AZ.
  cbn [map] in AX, AY, AZ. rewrite andb_true_iff in AX, AY, AZ. rewrite <- AX, <- AY, <- AZ, !andb_true_iff. tauto.
Qed.

(** The cell of an object. *)
Definition objcell (o : object A) : v3 := match o with (v :: _) :: _ => cellof (posv v) | _ => V3 0 0 0 end.
Variable ty0 : nat.
Variable lay' : layout.
Hypothesis Hlay : lay = (ty0, 1%nat) :: lay'.
Lemma main_value (o : object A) : shaped lay o -> exists v o', o = [v] :: o'.
Proof.
  intros H. rewrite Hlay in H. inversion H as [|? r ? o' L]; subst. cbn in L. destruct r as [|v [|]]; try discriminate. eauto.
Qed.
Lemma mainb_cell b (o : object A) : shaped lay o -> inside b g -> mainb (in_range leb ltb posv (img b)) o = in_boxb (objcell o) b.
Proof.
  intros HS HB. destruct (main_value o HS) as (v & o' & ->). cbn [mainb objcell]. unfold in_range.
  apply eq_true_iff_eq. rewrite in_boxb_spec. apply (in_image leb ltb Fx Fy Fz g Hx Hy Hz b (posv v) HB).
Qed.
Lemma rows0_ok (os : list (object A)) : good_layout lay -> fits lay (length os) -> Forall (shaped lay) os -> ok_rows 1 (rows 0 os).
Proof. intros HG HF HS. eapply (rows_ok lay os 0 ty0 1); eauto. rewrite Hlay. reflexivity. Qed.
Lemma main_field (os : list (object A)) L : stores lay os L -> exists L', L = Field ty0 1 (concat (rows 0 os)) :: L'.
Proof. intros (_ & ->). rewrite Hlay. cbn [length seq combine map]. rewrite column_rows. eauto. Qed.

Lemma check_throws (os : list (object A)) r : good_layout lay -> fits lay (length os) -> Forall (shaped lay) os ->
  Exists (fun o => mainb (in_range leb ltb posv r) o = false) os ->
  check_err_range leb ltb posv r (Field ty0 1 (concat (rows 0 os))) = Throw.
Proof.
  intros HG HF HS HX. pose proof (rows0_ok os HG HF HS) as HR. unfold check_err_range. rewrite obj_cnt_ok by auto. cbn [rbind].
  rewrite rows_length. assert (Z.of_nat (length os) <> 0) by (destruct os; [inversion HX|cbn; lia]).
  replace (length os =? 0)%nat with false by (symmetry; apply Nat.eqb_neq; lia).
  cbn [f_nvar Nat.eqb negb]. rewrite val_cnt_ok by auto. cbn [rbind]. rewrite rows_length, Nat.mul_1_r. cbn [f_buf].
  assert (N : forall i o, nth_error os i = Some o -> exists v, aget (concat (rows 0 os)) i = Ok v /\
      mainb (in_range leb ltb posv r) o = in_range leb ltb posv r v).
  { intros i o Ho. assert (So : shaped lay o) by (eapply Forall_forall; [apply HS|eapply nth_error_In; eauto]).
    destruct (main_value o So) as (v & o' & ->). exists v. split; [|reflexivity]. apply aget_ok.
    destruct HR as (_ & HU & _). pose proof (concat_nth 1 (rows 0 os) HU i [v] 0) as Q. rewrite Nat.mul_1_r, Nat.add_0_r in Q.
    rewrite (Q ltac:(clear Q; unfold rows; rewrite nth_error_map; unfold object in *; rewrite Ho; reflexivity)); auto; try lia. }
  assert (G : forall l e, Forall (fun i => (i < length os)%nat) l ->
    rfold (fun i err => v <- aget (concat (rows 0 os)) i ;; Ok (err || negb (in_range leb ltb posv r v))%bool) l e
    = Ok (e || existsb (fun i => match nth_error os i with Some o => negb (mainb (in_range leb ltb posv r) o) | None => false end) l)%bool).
  { induction l as [|i l IH]; intros e Hl; cbn [rfold existsb]; [now rewrite orb_false_r|]. inversion Hl; subst.
    destruct (nth_error os i) as [o|] eqn:Eo; [|apply nth_error_None in Eo; lia].
    destruct (N i o Eo) as (v & Ev & Em). rewrite Ev. cbn [rbind]. rewrite IH by auto. rewrite Em, orb_assoc. reflexivity. }
  rewrite G by (apply Forall_forall; intros i Hi; apply in_seq in Hi; lia). cbn [orb rbind].
  replace (existsb _ _) with true; [reflexivity|]. symmetry. apply existsb_exists.
  apply Exists_exists in HX as (o & Ho & Fo). apply In_nth_error in Ho as (i & Hi). exists i. split.
  - apply in_seq. assert (i < length os)%nat by (apply nth_error_Some; congruence). lia.
  - rewrite Hi, Fo. reflexivity.
Qed.

(** What split computes, in terms of cells. *)
Definition part (os : list (object A)) (b : pcoord) : list (object A) := filter (fun o => in_boxb (objcell o) b) os.
Definition parts (os : list (object A)) (b : pcoord) : list (list (object A)) := map (part os) (get_split b).

Lemma filter_filter {X} (f h : X -> bool) l : (forall x, In x l -> f x = true -> h x = true) -> filter f (filter h l) = filter f l.
Proof.
  induction l as [|x l IH]; intros H; [reflexivity|]. cbn [filter]. specialize (IH (fun y Hy => H y (or_intror Hy))).
  destruct (h x) eqn:Eh; cbn [filter]; rewrite IH; auto. destruct (f x) eqn:Ef; auto. rewrite (H x) in Eh; auto; [discriminate|now left].
Qed.
Lemma parts_perm os b : splittable b -> Permutation (concat (parts os b)) (part os b).
Proof.
  intros HS. pose proof (get_split_partition b HS) as (P1 & P2). unfold parts.
  erewrite map_ext_in; [apply (split_objs (object A) objcell (get_split b) (part os b) P2)|].
  - intros o Ho. apply filter_In in Ho as (_ & Ho). apply in_boxb_spec in Ho. apply P1 in Ho. exact Ho.
  - intros c Hc. cbn. symmetry. apply filter_filter. intros o _ Ho. apply in_boxb_spec. apply in_boxb_spec in Ho. apply P1. eauto.
Qed.
Lemma part_all os b : Forall (fun o => in_box (objcell o) b) os -> part os b = os.
Proof.
  induction 1 as [|o os Ho H IH]; [reflexivity|]. unfold part in *. cbn [filter]. apply in_boxb_spec in Ho. rewrite Ho, IH. reflexivity.
Qed.
Lemma part_short os b : Exists (fun o => ~ in_box (objcell o) b) os -> (length (part os b) < length os)%nat.
Proof.
  unfold part. induction 1 as [o os Ho|o os Ho IH]; cbn [filter length].
  - destruct (in_boxb (objcell o) b) eqn:E; [apply in_boxb_spec in E; tauto|]. pose proof (filter_length_le (fun o => in_boxb (objcell o) b) os). lia.
  - destruct (in_boxb (objcell o) b); cbn [length]; lia.
Qed.
Lemma concat_length_sum {X} (l : list (list X)) : length (concat l) = list_sum (map (@length X) l).
Proof. induction l; [reflexivity|]. cbn [concat map]. rewrite app_length, IHl. reflexivity. Qed.

Lemma l_split_ok E os L b pds : (forall k, good_envs (E k)) -> good_layout lay -> fits lay (length os) -> stores lay os L ->
  splittable b -> inside b g -> length pds = 8%nat -> Forall (stores lay []) pds ->
  (Forall (fun o => in_box (objcell o) b) os /\
   exists r, l_split leb ltb posv E (map img (get_split b)) L pds = Ret r /\ Forall2 (stores lay) (parts os b) r) \/
  (Exists (fun o => ~ in_box (objcell o) b) os /\ l_split leb ltb posv E (map img (get_split b)) L pds = Raise pds).
Proof.
  intros HE HG HF HS Hb Hi Hl Hp. destruct (main_field os L HS) as (L' & EL). subst L. unfold l_split. 
  cbn [l_get_obj_cnt]. pose proof (rows0_ok os HG HF (proj1 HS)) as HR.
  rewrite (rmapm_ok _ (fun r => where_ids (in_range leb ltb posv r) (rows 0 os))).
  2:{ intros r _. unfold box_ids. now apply vec_where_ok. }
  cbn [rbind]. cbn [l_get_obj_cnt]. rewrite obj_cnt_ok by auto. cbn [rbind]. rewrite rows_length.
  set (ids := map (fun r => where_ids (in_range leb ltb posv r) (rows 0 os)) (map img (get_split b))).
  assert (EP : map (pick os) ids = parts os b).
  { unfold ids, parts. rewrite !map_map. apply map_ext_in. intros c Hc. rewrite pick_where. apply filter_ext_in. intros o Ho.
    apply mainb_cell. eapply Forall_forall; [apply HS|auto]. eapply child_inside; eauto. }
  assert (EV : Forall (valid_ids os) ids).
  { apply Forall_forall. intros i Hi'. unfold ids in Hi'. apply in_map_iff in Hi' as (r & <- & _). apply where_valid. }
  assert (ES : list_sum (map (@length nat) ids) = length (part os b)).
  { rewrite <- (Permutation_length (parts_perm os b Hb)), concat_length_sum, <- EP, map_map. f_equal. apply map_ext_in.
    intros i Hi'. symmetry. apply pick_length. eapply Forall_forall in EV; eauto. }
  rewrite ES. pose proof (filter_length_le (fun o => in_boxb (objcell o) b) os) as LE. fold (part os b) in LE.
  rewrite w32n_small by (destruct HF; lia).
  destruct (Forall_Exists_dec (fun o => in_box (objcell o) b)) with (l := os) as [FA|EX].
  { intros o. destruct (in_boxb (objcell o) b) eqn:Eb; [left; now apply in_boxb_spec|right; intros H; apply in_boxb_spec in H; congruence]. }
  - left. split; auto. rewrite (part_all os b FA), Nat.eqb_refl. cbn [rbind]. rewrite <- EP.
    destruct (append_all_ok E lay os _ HE HG HF HS ids 0 pds) as (r & R & R2); auto.
    + unfold ids. rewrite !map_length, Hl. symmetry. apply length_get_split.
    + apply Forall_forall. intros i Hi'. pose proof (proj1 (Forall_forall _ _) EV i Hi') as V. split; auto.
      eapply fits_le; [|apply HF]. rewrite <- (pick_length os i V). 
      unfold ids in Hi'. apply in_map_iff in Hi' as (q & <- & _). rewrite pick_where. apply filter_length_le.
    + exists r. split; auto. clear -R2. induction R2; cbn; constructor; auto.
  - right. split; auto. pose proof (part_short os b EX) as LT.
    replace (length os =? length (part os b))%nat with false by (symmetry; apply Nat.eqb_neq; lia).
    destruct (bounds_image b Hb Hi) as (vmin & vmax & E1 & E2 & EB). rewrite E1, E2. cbn [rbind].
    rewrite check_throws; auto; [apply HS|]. apply Exists_exists in EX as (o & Ho & No). apply Exists_exists. exists o. split; auto.
    destruct (main_value o) as (v & o' & ->); [eapply Forall_forall; [apply HS|auto]|]. cbn [mainb objcell] in *. unfold in_range. cbn [fst snd].
    destruct (is_in_patch_converted _ _ _ _ _) eqn:Ev; auto. apply EB in Ev. tauto.
Qed.

(** The map of a rank. *)
Lemma o_adds_ok (l : list (Z * layer A)) : forall d, NoDup (map fst l) -> (forall k, In k (map fst l) -> d k = None) ->
  exists d', o_adds l d = Ret d' /\ (forall k M, In (k, M) l -> d' k = Some M) /\ (forall k, ~ In k (map fst l) -> d' k = d k).
Proof.
  induction l as [|[k M] l IH]; intros d N H; cbn [o_adds].
  - exists d. split; auto. split; auto. contradiction.
  - cbn [map fst] in N, H. inversion N as [|? ? N1 N2]; subst. rewrite (H k) by (now left).
    destruct (IH (o_set d k (Some M)) N2) as (d' & E & A1 & A2).
    { intros x Hxx. unfold o_set. destruct (x =? k) eqn:Ek; [apply Z.eqb_eq in Ek; congruence|]. apply H. now right. }
    exists d'. split; auto. split.
    + intros x M' [Q|Q]; [injection Q as <- <-|eauto]. rewrite A2 by auto. unfold o_set. now rewrite Z.eqb_refl.
    + intros x Hxx. cbn [map fst] in Hxx. rewrite A2 by (intros QQ; apply Hxx; now right). unfold o_set. destruct (x =? k) eqn:Ek; auto.
      apply Z.eqb_eq in Ek. exfalso. apply Hxx. now left.
Qed.

Notation pds ps := (map (fun _ : patch => fresh (A := A) lay) ps).
Theorem pd_split_ok E key d ps b os L : (forall k, good_envs (E k)) -> good_layout lay -> fits lay (length os) -> stores lay os L ->
  d key = Some L -> replaces d key b ps -> inside b g ->
  (Forall (fun o => in_box (objcell o) b) os /\
   exists d', pd_split leb ltb posv conv lay E key ps d = Ret d' /\
     (forall i p, nth_error ps i = Some p -> exists M, d' (p_id p) = Some M /\ stores lay (part os (p_box p)) M) /\
     (forall k, ~ In k (map p_id ps) -> d' k = if k =? key then None else d k)) \/
  (Exists (fun o => ~ in_box (objcell o) b) os /\ pd_split leb ltb posv conv lay E key ps d = Raise d).
Proof.
  intros HE HG HF HS Hd (Hb & Eb & ND & HN) Hi. unfold pd_split. rewrite Hd.
  rewrite (rmapm_ok _ (fun p => img (p_box p))).
  2:{ intros p Hp. apply Hconv. eapply child_inside; eauto. rewrite <- Eb. now apply in_map. }
  rewrite <- (map_map p_box img), Eb.
  destruct (l_split_ok E os L b (pds ps) HE HG HF HS Hb Hi) as [(FA & r & R & R2)|(EX & R)].
  - rewrite map_length. rewrite <- (map_length p_box ps), Eb. apply length_get_split.
  - apply Forall_forall. intros M HM. apply in_map_iff in HM as (? & <- & _). apply fresh_stores.
  - left. split; auto. rewrite R.
    assert (Lr : length r = length ps).
    { apply Forall2_length in R2. unfold parts in R2. rewrite map_length in R2. rewrite <- R2, <- Eb, map_length. reflexivity. }
    assert (EF : map fst (combine (map p_id ps) r) = map p_id ps).
    { clear -Lr. revert r Lr. induction ps as [|p ps IH]; intros [|x r] Lr; try discriminate; auto. cbn. f_equal. apply IH. cbn in Lr. lia. }
    destruct (o_adds_ok (combine (map p_id ps) r) (o_set d key None)) as (d' & E1 & E2 & E3).
    + rewrite EF. auto.
    + intros k Hk. rewrite EF in Hk. apply in_map_iff in Hk as (p & <- & Hp). unfold o_set.
      destruct (p_id p =? key) eqn:Ek; auto. destruct (HN p Hp) as [Q|Q]; auto. lia.
    + exists d'. split; auto. split.
      * intros i p Hp. unfold parts in R2. rewrite <- Eb, map_map in R2.
        assert (Q : nth_error (map (fun x => part os (p_box x)) ps) i = Some (part os (p_box p))) by (rewrite nth_error_map, Hp; reflexivity).
        destruct (nth_error r i) as [M|] eqn:EM.
        2:{ apply nth_error_None in EM. assert (i < length ps)%nat by (apply nth_error_Some; congruence). lia. }
        exists M. split.
        -- apply E2. apply (nth_error_In _ i). clear -Hp EM. revert ps r Hp EM.
           induction i as [|i IH]; intros [|q ps] [|x r] Hp EM; try discriminate; cbn in *; [congruence|auto].
        -- clear -R2 Q EM. revert i Q EM. induction R2; intros [|i] Q EM; try discriminate; cbn in *; [congruence|eauto].
      * intros k Hk. rewrite E3 by (rewrite EF; auto). reflexivity.
  - right. split; auto. rewrite R. reflexivity.
Qed.

End G.

Theorem pd_merge_ok {A} lay (E : nat -> lenv A) new keys (d : owned (A := A)) (oss : list (list (object A))) : (forall k, good_envs (E k)) -> good_layout lay -> fits lay (length (concat oss)) ->
  Forall2 (fun k os => exists L, d k = Some L /\ stores lay os L) keys oss -> (In new keys \/ d new = None) ->
  exists d' M, pd_merge lay E new keys d = Ret d' /\ d' new = Some M /\ stores lay (concat oss) M /\
    (forall k, k <> new -> d' k = if existsb (Z.eqb k) keys then None else d k).
Proof.
  intros HE HG HF H HN. unfold pd_merge.
  assert (Q : exists Ls, rmapm (fun k => match d k with Some L => Ok L | None => Throw end) keys = Ok Ls /\ Forall2 (stores lay) oss Ls).
  { clear HN HF. induction H as [|k os keys oss (L & E1 & E2) H (Ls & Q1 & Q2)]; [exists []; split; auto; constructor|].
    exists (L :: Ls). cbn [rmapm]. rewrite E1. cbn [rbind]. rewrite Q1. split; auto. }
  destruct Q as (Ls & -> & Q). 
  destruct (insert_all_ok E lay HE HG oss Ls 0 [] (fresh lay) Q (fresh_stores lay) HF) as (M & R & R2). rewrite R. cbn [app] in R2.
  assert (FE : forall ks (dd : owned (A := A)) x, fold_left (fun d k => o_set d k None) ks dd x = if existsb (Z.eqb x) ks then None else dd x).
  { induction ks as [|k ks IH]; intros dd x; [reflexivity|]. cbn [fold_left existsb]. rewrite IH. unfold o_set.
    destruct (x =? k); cbn [orb]; auto. destruct (existsb _ ks); auto. }
  cbn [o_adds]. rewrite FE. replace (if existsb (Z.eqb new) keys then None else d new) with (@None (layer A)).
  2:{ destruct (existsb (Z.eqb new) keys) eqn:Ee; auto. destruct HN as [HI|HI]; auto.
      assert (existsb (Z.eqb new) keys = true) by (apply existsb_exists; exists new; split; auto; apply Z.eqb_refl). congruence. }
  eexists _, M. split; [reflexivity|]. split; [unfold o_set; now rewrite Z.eqb_refl|]. split; auto.
  intros k Hk. unfold o_set at 1. replace (k =? new) with false by lia. apply FE.
Qed.
Theorem pd_merge_missing {A} lay (E : nat -> lenv A) new keys (d : owned (A := A)) : (exists k, In k keys /\ d k = None) -> pd_merge lay E new keys d = Raise d.
Proof.
  intros H. unfold pd_merge. replace (rmapm _ keys) with (@Throw (list (layer A))); [reflexivity|].
  destruct H as (k & Hk & Hd). symmetry. induction keys as [|a keys IH]; [contradiction|]. cbn [rmapm].
  destruct Hk as [->|Hk]; [now rewrite Hd|]. destruct (d a); cbn [rbind]; auto. rewrite IH; auto.
Qed.

(** Ids in use are never overwritten. *)
Lemma o_adds_free {A} (l : list (Z * layer A)) : forall d d', o_adds l d = Ret d' -> forall k, In k (map fst l) -> d k = None.
Proof.
  induction l as [|[k M] l IH]; intros d d' H x Hx; [destruct Hx|]. cbn [o_adds] in H. destruct (d k) eqn:E; [discriminate|].
  destruct Hx as [<-|Hx]; [auto|]. specialize (IH _ _ H x Hx). unfold o_set in IH. destruct (x =? k) eqn:Ek; [|auto].
  apply Z.eqb_eq in Ek. congruence.
Qed.
Lemma append_all_length {A} (E : nat -> lenv A) ids : forall k L' pds r, append_all E k L' ids pds = Ret r -> length r = length pds.
Proof.
  induction ids as [|i ids IH]; intros k L pds r; destruct pds as [|M pds]; cbn [append_all]; try discriminate; [intros H; injection H as <-; auto|].
  destruct (l_append_subset_to (E k) i L M) as [[L' M']|[? M']|]; try discriminate.
  destruct (append_all E (S k) L' ids pds) eqn:F; try discriminate. intros H; injection H as <-. cbn. f_equal. eauto.
Qed.
Lemma pd_split_free {C A} (leb ltb : C -> C -> bool) (posv : A -> vec3 C) conv lay E key ps (d d' : owned (A := A)) p :
  pd_split leb ltb posv conv lay E key ps d = Ret d' -> d key <> None -> In p ps -> p_id p <> key -> d (p_id p) = None.
Proof.
  unfold pd_split. destruct (d key) as [L|]; [|congruence]. intros H _ Hp Hk.
  destruct (rmapm _ ps) as [boxes| |]; try discriminate. unfold l_split in H. destruct L as [|m L]; [discriminate|].
  destruct (rbind _ _) as [ids| |]; try discriminate.
  destruct (append_all E 0 (m :: L) ids (map (fun _ => fresh lay) ps)) as [r|r|] eqn:F; try discriminate.
  apply append_all_length in F. rewrite map_length in F.
  pose proof (o_adds_free _ _ _ H (p_id p)) as G. unfold o_set in G. replace (p_id p =? key) with false in G by lia. apply G.
  clear - F Hp. revert r F Hp. induction ps as [|q ps IH]; intros [|x r] F Hp; cbn in *; try discriminate; [destruct Hp|].
  destruct Hp as [->|Hp]; [left; auto|right; apply IH; auto].
Qed.
Lemma pd_merge_free {A} lay (E : nat -> lenv A) new keys (d d' : owned (A := A)) :
  pd_merge lay E new keys d = Ret d' -> In new keys \/ d new = None.
Proof.
  unfold pd_merge. destruct (rmapm _ keys) as [Ls| |]; try discriminate. destruct (insert_all E 0 (fresh lay) Ls) as [M|M|]; try discriminate.
  intros H. pose proof (o_adds_free _ _ _ H new (or_introl eq_refl)) as G.
  assert (FE : forall ks (dd : owned (A := A)) x, fold_left (fun d k => o_set d k None) ks dd x = if existsb (Z.eqb x) ks then None else dd x).
  { induction ks as [|k ks IH]; intros dd x; [reflexivity|]. cbn [fold_left existsb]. rewrite IH. unfold o_set.
    destruct (x =? k); cbn [orb]; auto. destruct (existsb _ ks); auto. }
  rewrite FE in G. destruct (existsb (Z.eqb new) keys) eqn:X; auto. left. apply existsb_exists in X as (y & Hy & Ey). apply Z.eqb_eq in Ey. congruence.
Qed.
