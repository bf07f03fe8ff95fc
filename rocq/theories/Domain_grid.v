(** The grid of root patches. *)
From Verif Require Import Base Integer Integer_proofs Patch Patch_spec Domain Domain_spec.
From Verif Require Sched_proofs.
Local Open Scope Z_scope.

Lemma NoDup_flat_map {A B} (f : A -> list B) l : NoDup l -> (forall a, In a l -> NoDup (f a)) ->
  (forall a b x, In a l -> In b l -> In x (f a) -> In x (f b) -> a = b) -> NoDup (flat_map f l).
Proof.
  induction l as [|a l IH]; intros H1 H2 H3; [constructor|]. cbn [flat_map]. inversion H1 as [|? ? N1 N2]; subst.
  apply Sched_proofs.NoDup_app_i.
  - apply H2. now left.
  - apply IH; auto; [intros; apply H2; now right|]. intros x y z Hx Hy. apply H3; now right.
  - intros x Hx Hy. apply in_flat_map in Hy. destruct Hy as (b & Hb & Hy).
    rewrite (H3 a b x (or_introl eq_refl) (or_intror Hb) Hx Hy) in N1. contradiction.
Qed.
Lemma zrange_In n x : In x (zrange n) <-> 0 <= x < n.
Proof.
  unfold zrange. rewrite in_map_iff. split.
  - intros (k & <- & H). apply in_seq in H. lia.
  - intros H. exists (Z.to_nat x). split; [lia|]. apply in_seq. lia.
Qed.
Lemma zrange_NoDup n : NoDup (zrange n).
Proof. unfold zrange. apply FinFun.Injective_map_NoDup; [intros a b; lia|apply seq_NoDup]. Qed.
Lemma zrange_length n : 0 <= n -> Z.of_nat (length (zrange n)) = n.
Proof. intros. unfold zrange. rewrite map_length, seq_length. lia. Qed.

Definition triples (nx ny nz : Z) : list (Z * Z * Z) :=
  flat_map (fun x => flat_map (fun y => map (fun z => (x, y, z)) (zrange nz)) (zrange ny)) (zrange nx).
Lemma triples_In nx ny nz x y z : In (x, y, z) (triples nx ny nz) <-> 0 <= x < nx /\ 0 <= y < ny /\ 0 <= z < nz.
Proof.
  unfold triples. rewrite in_flat_map. split.
  - intros (a & Ha & H). apply in_flat_map in H. destruct H as (b & Hb & H). apply in_map_iff in H. destruct H as (c & [= <- <- <-] & Hc).
    apply zrange_In in Ha, Hb, Hc. auto.
  - intros (Hx & Hy & Hz). exists x. split; [now apply zrange_In|]. apply in_flat_map. exists y. split; [now apply zrange_In|].
    apply in_map_iff. exists z. split; auto. now apply zrange_In.
Qed.
Lemma triples_NoDup nx ny nz : NoDup (triples nx ny nz).
Proof.
  unfold triples. apply NoDup_flat_map; [apply zrange_NoDup| |].
  - intros x _. apply NoDup_flat_map; [apply zrange_NoDup| |].
    + intros y _. apply FinFun.Injective_map_NoDup; [intros a b; congruence|apply zrange_NoDup].
    + intros a b t _ _ Ha Hb. apply in_map_iff in Ha, Hb. destruct Ha as (? & <- & _), Hb as (? & E & _). congruence.
  - intros a b t _ _ Ha Hb. apply in_flat_map in Ha, Hb. destruct Ha as (? & _ & Ha), Hb as (? & _ & Hb).
    apply in_map_iff in Ha, Hb. destruct Ha as (? & <- & _), Hb as (? & E & _). congruence.
Qed.
Lemma flat_map_length_c {A B} (f : A -> list B) n l : (forall a, In a l -> length (f a) = n) -> length (flat_map f l) = (length l * n)%nat.
Proof. induction l as [|a l IH]; intros H; auto. cbn [flat_map length]. rewrite app_length, IH, H; [lia|now left|intros; apply H; now right]. Qed.
Lemma triples_length nx ny nz : 0 <= nx -> 0 <= ny -> 0 <= nz -> Z.of_nat (length (triples nx ny nz)) = nx * ny * nz.
Proof.
  intros. unfold triples. rewrite (flat_map_length_c _ (length (zrange ny) * length (zrange nz))).
  - rewrite !Nat2Z.inj_mul, !zrange_length by lia. ring.
  - intros x _. rewrite (flat_map_length_c _ (length (zrange nz))); auto. intros y _. apply map_length.
Qed.
Definition box_of (sz : Z) (t : Z * Z * Z) : pcoord := let '(x, y, z) := t in base_box sz x y z.
Lemma map_flat_map {A B C} (g : B -> C) (f : A -> list B) l : map g (flat_map f l) = flat_map (fun x => map g (f x)) l.
Proof. induction l; cbn; auto. now rewrite map_app, IHl. Qed.
Lemma boxes_eq sz nx ny nz :
  flat_map (fun x => flat_map (fun y => map (fun z => base_box sz x y z) (zrange nz)) (zrange ny)) (zrange nx) =
  map (box_of sz) (triples nx ny nz).
Proof.
  unfold triples. rewrite map_flat_map. apply flat_map_ext. intros x. rewrite map_flat_map. apply flat_map_ext. intros y. now rewrite map_map.
Qed.

(** The side of a root patch. *)
Lemma grid_side m : 1 <= m <= 2 ^ 21 -> exists r, roundup_pow2_clz 32 (Z.to_N m) = Ok r /\ (r <> 0)%N /\
  let sz := axis_len / Z.of_N r in 1 <= sz /\ sz * m <= 2 ^ 21.
Proof.
  intros Hm. destruct (roundup_pow2_clz_spec (Z.to_N m)) as (r & E & (k & Ek & K31) & L & Min).
  - lia.
  - change (2 ^ 31)%N with (Z.to_N (2 ^ 31)). apply Z2N.inj_le; lia.
  - exists r. split; auto. assert (K : (r <= 2 ^ 21)%N). { apply Min. change (2 ^ 21)%N with (Z.to_N (2 ^ 21)). apply Z2N.inj_le; lia. }
    split; [lia|]. cbv zeta. unfold axis_len.
    assert (K21 : (k <= 21)%N). { rewrite Ek in K. now apply N.pow_le_mono_r_iff in K; [|lia]. }
    assert (Er : Z.of_N r = 2 ^ Z.of_N k) by (rewrite Ek, N2Z.inj_pow; reflexivity).
    assert (Lz : m <= Z.of_N r) by lia. rewrite Er in *.
    replace (2 ^ 21) with (2 ^ (21 - Z.of_N k) * 2 ^ Z.of_N k) by (rewrite <- Z.pow_add_r by lia; f_equal; lia).
    pose proof (Z.pow_pos_nonneg 2 (Z.of_N k) ltac:(lia) ltac:(lia)) as P1.
    pose proof (Z.pow_pos_nonneg 2 (21 - Z.of_N k) ltac:(lia) ltac:(lia)) as P2.
    rewrite Z.div_mul by lia. split; [lia|]. apply Z.mul_le_mono_nonneg_l; lia.
Qed.

Lemma base_box_val sz n x y z : 1 <= sz -> sz * n <= 2 ^ 21 -> 0 <= x < n -> 0 <= y < n -> 0 <= z < n ->
  base_box sz x y z = PC (V3 (sz * x) (sz * y) (sz * z)) (V3 (sz * (x + 1) - 1) (sz * (y + 1) - 1) (sz * (z + 1) - 1)).
Proof.
  intros Hs Hn Hx Hy Hz. unfold base_box.
  assert (P : forall a, 0 <= a < n -> w64 (sz * a) = sz * a /\ w64 (w64 (sz * w32 (a + 1)) - 1) = sz * (a + 1) - 1).
  { intros a Ha.
    assert (B : sz * (a + 1) <= 2 ^ 21) by (eapply Z.le_trans; [|exact Hn]; apply Z.mul_le_mono_nonneg_l; lia).
    assert (B2 : a + 1 <= 2 ^ 21). { eapply Z.le_trans; [|exact B]. rewrite <- (Z.mul_1_l (a + 1)) at 1. apply Z.mul_le_mono_nonneg_r; lia. }
    assert (B3 : 0 <= sz * a) by (apply Z.mul_nonneg_nonneg; lia).
    assert (E : sz * (a + 1) = sz * a + sz) by ring.
    assert (E1 : w32 (a + 1) = a + 1) by (apply Z.mod_small; lia). rewrite E1.
    assert (E2 : w64 (sz * (a + 1)) = sz * (a + 1)) by (apply Z.mod_small; lia). rewrite E2.
    split; apply Z.mod_small; lia. }
  destruct (P x Hx) as (-> & ->), (P y Hy) as (-> & ->), (P z Hz) as (-> & ->). reflexivity.
Qed.

Lemma axis_cell sz n a : 1 <= sz -> 0 <= a < sz * n -> 0 <= a / sz < n /\ sz * (a / sz) <= a <= sz * (a / sz + 1) - 1.
Proof.
  intros Hs Ha. pose proof (Z.div_mod a sz ltac:(lia)) as D. pose proof (Z.mod_pos_bound a sz ltac:(lia)) as M.
  assert (0 <= a / sz) by (apply Z.div_pos; lia). split; [split; auto; apply Z.div_lt_upper_bound; lia|].
  replace (sz * (a / sz + 1)) with (sz * (a / sz) + sz) by ring. lia.
Qed.
Lemma axis_cell_unique sz a x : 1 <= sz -> sz * x <= a <= sz * (x + 1) - 1 -> x = a / sz.
Proof. intros Hs H. apply Z.div_unique with (r := a - sz * x); [left|]; lia. Qed.

Lemma base_grid_ok nx ny nz : 1 <= nx <= 2 ^ 21 -> 1 <= ny <= 2 ^ 21 -> 1 <= nz <= 2 ^ 21 ->
  exists g bs, make_patch_base_grid nx ny nz = Ok (g, bs) /\ grid_ok g /\ partition_of bs g /\
    Z.of_nat (length bs) = nx * ny * nz /\ (forall b, In b bs -> inside b g).
Proof.
  intros Hx Hy Hz. unfold make_patch_base_grid. set (m := Z.max (Z.max (Z.max 0 nx) ny) nz).
  destruct (grid_side m) as (r & E & Hr & Hs & Hm); [lia|]. rewrite E. cbn [rbind].
  destruct (N.eqb_spec r 0) as [|_]; [contradiction|]. set (sz := axis_len / Z.of_N r) in *.
  rewrite boxes_eq. eexists _, _. split; [reflexivity|].
  assert (B : forall n, 1 <= n -> n <= m -> 1 <= sz * n <= 2 ^ 21 /\ w64 (w64 (sz * n) - 1) = sz * n - 1).
  { intros n N1 N2. assert (1 <= sz * n <= 2 ^ 21).
    { split; [|eapply Z.le_trans; [|exact Hm]; apply Z.mul_le_mono_nonneg_l; lia].
      pose proof (Z.mul_pos_pos sz n ltac:(lia) ltac:(lia)). lia. }
    split; auto. assert (E2 : w64 (sz * n) = sz * n) by (apply Z.mod_small; lia). rewrite E2. apply Z.mod_small; lia. }
  destruct (B nx) as (BX & ->); [lia|lia|]. destruct (B ny) as (BY & ->); [lia|lia|]. destruct (B nz) as (BZ & ->); [lia|lia|].
  assert (V : forall t, In t (triples nx ny nz) -> let '(x, y, z) := t in (0 <= x < nx /\ 0 <= y < ny /\ 0 <= z < nz) /\
     box_of sz t = PC (V3 (sz * x) (sz * y) (sz * z)) (V3 (sz * (x + 1) - 1) (sz * (y + 1) - 1) (sz * (z + 1) - 1))).
  { intros ((x & y) & z) H. apply triples_In in H. split; auto. apply (base_box_val sz m); auto; lia. }
  assert (Mono : forall a b, a <= b -> sz * a <= sz * b) by (intros; apply Z.mul_le_mono_nonneg_l; lia).
  assert (IN : forall t, In t (triples nx ny nz) -> inside (box_of sz t) (PC (V3 0 0 0) (V3 (sz * nx - 1) (sz * ny - 1) (sz * nz - 1)))).
  { intros t Ht. pose proof (V t Ht) as Vt. destruct t as ((x & y) & z). destruct Vt as ((X & Y & Z0) & ->).
    unfold inside. cbn [cmin cmax vx vy vz].
    pose proof (Mono 0 x ltac:(lia)). pose proof (Mono 0 y ltac:(lia)). pose proof (Mono 0 z ltac:(lia)).
    pose proof (Mono (x + 1) nx ltac:(lia)). pose proof (Mono (y + 1) ny ltac:(lia)). pose proof (Mono (z + 1) nz ltac:(lia)).
    rewrite !Z.mul_add_distr_l, !Z.mul_1_r in *. lia. }
  split; [|split; [|split]].
  - unfold grid_ok, u64_max. cbn [cmin cmax vx vy vz]. lia.
  - split.
    + intros p. split.
      * unfold in_box at 1. cbn [cmin cmax vx vy vz]. intros (PX & PY & PZ).
        destruct (axis_cell sz nx (vx p)) as (X1 & X2); [lia|lia|]. destruct (axis_cell sz ny (vy p)) as (Y1 & Y2); [lia|lia|].
        destruct (axis_cell sz nz (vz p)) as (Z1 & Z2); [lia|lia|].
        assert (T : In (vx p / sz, vy p / sz, vz p / sz) (triples nx ny nz)) by (apply triples_In; auto).
        exists (box_of sz (vx p / sz, vy p / sz, vz p / sz)). split; [now apply in_map|].
        rewrite (proj2 (V _ T)). unfold in_box. cbn [cmin cmax vx vy vz]. lia.
      * intros (c & Hc & Hp). apply in_map_iff in Hc. destruct Hc as (t & <- & Ht). pose proof (IN t Ht) as I.
        unfold inside, in_box in *. cbn [cmin cmax vx vy vz] in *. lia.
    + intros i j a c Hi Hj Hij p (Pa & Pc). rewrite nth_error_map in Hi, Hj.
      destruct (nth_error (triples nx ny nz) i) as [t|] eqn:Ei; [|discriminate]. destruct (nth_error (triples nx ny nz) j) as [u|] eqn:Ej; [|discriminate].
      cbn [option_map] in Hi, Hj. injection Hi as <-. injection Hj as <-.
      assert (t <> u).
      { intros ->. apply Hij. eapply (proj1 (NoDup_nth_error _) (triples_NoDup nx ny nz)); [apply nth_error_Some; congruence|congruence]. }
      pose proof (V t (nth_error_In _ _ Ei)) as Vt. pose proof (V u (nth_error_In _ _ Ej)) as Vu.
      destruct t as ((x & y) & z), u as ((x' & y') & z'). rewrite (proj2 Vt) in Pa. rewrite (proj2 Vu) in Pc.
      unfold in_box in Pa, Pc. cbn [cmin cmax vx vy vz] in Pa, Pc. destruct Pa as (A1 & A2 & A3), Pc as (C1 & C2 & C3).
      apply H. rewrite (axis_cell_unique sz _ _ Hs A1), (axis_cell_unique sz _ _ Hs A2), (axis_cell_unique sz _ _ Hs A3),
        (axis_cell_unique sz _ _ Hs C1), (axis_cell_unique sz _ _ Hs C2), (axis_cell_unique sz _ _ Hs C3). reflexivity.
  - rewrite map_length. apply triples_length; lia.
  - intros b Hb. apply in_map_iff in Hb. destruct Hb as (t & <- & Ht). now apply IN.
Qed.
