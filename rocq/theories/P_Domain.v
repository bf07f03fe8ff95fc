(** C37: the boxes of positions of the patches. *)
From Coq Require Import Reals.
From Flocq Require Import BinarySingleNaN.
From Verif Require Import Base Integer Patch Patch_spec PatchTree PatchTree_spec Sched Sched_spec Sched_hist_proofs F64
  Domain Domain_spec Domain_cell Domain_f64 Domain_u64 Domain_grid Domain_exact.
From Verif Require P_Sched Domain_main.
Local Open Scope Z_scope.

Section P.
Variable obj : Type.
Variable pos : obj -> v3.
Variable W : nat.

(** Double precision positions.  After any history of the scheduler, every valid patch has a box of
    positions; a position (any double, NaN and infinities included) is in at most one of them, and it is
    in one of them iff it is in the box of positions of a root patch.  With or without contraction into
    fused multiply-adds. *)
Theorem C37_float_partition : forall bs s fma g box, (1 <= W)%nat -> sched_history obj pos W bs s ->
  grid_ok g -> box_ok box -> (forall b, In b bs -> inside b g) ->
  (forall p, In p (s_global _ s) -> valid_patch W p -> exists r, patch_coord_to_domain fma g box (p_box p) = Ok r) /\
  (forall v p q, In p (s_global _ s) -> valid_patch W p -> In q (s_global _ s) -> valid_patch W q ->
     f_contains fma g box (p_box p) v -> f_contains fma g box (p_box q) v -> p = q) /\
  (forall v, (exists p, In p (s_global _ s) /\ valid_patch W p /\ f_contains fma g box (p_box p) v) <->
             (exists b, In b bs /\ f_contains fma g box b v)).
Proof. exact (Domain_main.float_partition obj pos W). Qed.

(** Integer positions.  The conversion of every patch fails in the same way, or it succeeds for all of
    them and the same holds. *)
Theorem C37_int_partition : forall bs s g box, (1 <= W)%nat -> sched_history obj pos W bs s ->
  grid_ok g -> ibox_ok box -> (forall b, In b bs -> inside b g) ->
  (forall p, In p (s_global _ s) -> valid_patch W p -> patch_coord_to_domain_u64 g box (p_box p) = Throw) \/
  ((forall p, In p (s_global _ s) -> valid_patch W p -> exists r, patch_coord_to_domain_u64 g box (p_box p) = Ok r) /\
   (forall v p q, In p (s_global _ s) -> valid_patch W p -> In q (s_global _ s) -> valid_patch W q ->
     i_contains g box (p_box p) v -> i_contains g box (p_box q) v -> p = q) /\
   (forall v, (exists p, In p (s_global _ s) /\ valid_patch W p /\ i_contains g box (p_box p) v) <->
              (exists b, In b bs /\ i_contains g box b v))).
Proof. exact (Domain_main.int_partition obj pos W). Qed.

(** When the roots cut the grid, the number of cells per axis is a power of two and the lengths of the
    simulation box are doubles, the patches cover exactly the simulation box. *)
Theorem C37_float_cover : forall bs s fma g box v, (1 <= W)%nat -> sched_history obj pos W bs s ->
  grid_ok g -> box_ok box -> (forall b, In b bs -> inside b g) -> partition_of bs g -> exact_box g box ->
  ((exists p, In p (s_global _ s) /\ valid_patch W p /\ f_contains fma g box (p_box p) v) <->
   is_in_patch_converted f_leb f_ltb v (fst box) (snd box) = true).
Proof. exact (Domain_main.float_cover obj pos W). Qed.

(** With integer positions this needs nothing more than commensurable sides. *)
Theorem C37_int_cover : forall bs s g box v, (1 <= W)%nat -> sched_history obj pos W bs s ->
  grid_ok g -> ibox_ok box -> (forall b, In b bs -> inside b g) -> partition_of bs g ->
  commensurable g box -> is_err_range_u64 box = false ->
  ((exists p, In p (s_global _ s) /\ valid_patch W p /\ i_contains g box (p_box p) v) <->
   is_in_patch_converted Z.leb Z.ltb v (fst box) (snd box) = true).
Proof. exact (Domain_main.int_cover obj pos W). Qed.

(** The grid of root patches: never fails, cuts its bounding box, and may be given to an empty scheduler. *)
Theorem C37_base_grid : forall nx ny nz, 1 <= nx <= 2 ^ 21 -> 1 <= ny <= 2 ^ 21 -> 1 <= nz <= 2 ^ 21 ->
  nx * ny * nz <= 2 ^ 32 ->
  exists g bs, make_patch_base_grid nx ny nz = Ok (g, bs) /\ Z.of_nat (length bs) = nx * ny * nz /\
    grid_ok g /\ partition_of bs g /\ (forall b, In b bs -> inside b g) /\
    roots_allowed obj W bs (empty_sched obj).
Proof. exact (Domain_main.base_grid_allowed obj W). Qed.
End P.
Print Assumptions C37_float_partition.
Print Assumptions C37_int_partition.
Print Assumptions C37_float_cover.
Print Assumptions C37_int_cover.
Print Assumptions C37_base_grid.

(** ** Concrete cases *)
Lemma fz z : Z.abs z <= 2 ^ 53 -> fval (f_of_Z z) = IZR z /\ is_finite (f_of_Z z) = true.
Proof.
  intros H. destruct (of_Z_ok z) as (A & B); [eapply Z.le_trans; [exact H|]; apply Z.pow_le_mono_r; lia|]. split; auto.
  rewrite A. apply RN_id, format_Z, H.
Qed.
Lemma fz_bounds a b : Z.abs a <= 2 ^ 53 -> Z.abs b <= 2 ^ 53 -> a < b -> bounds_ok (f_of_Z a) (f_of_Z b).
Proof.
  intros Ha Hb Hab. destruct (fz a Ha) as (A1 & A2), (fz b Hb) as (B1 & B2). unfold bounds_ok. rewrite A1, B1.
  split; auto. split; auto. split; [now apply IZR_lt|]. rewrite <- !abs_IZR.
  assert (2 ^ 53 <= 2 ^ 900) by (apply Z.pow_le_mono_r; lia). split; apply IZR_le; lia.
Qed.
Definition fcube (a b : f64) : range f64 := (W3 a a a, W3 b b b).
Lemma fcube_ok a b : bounds_ok a b -> box_ok (fcube a b).
Proof. intros H. unfold box_ok; cbn; auto. Qed.
(** The simulation box [-1, 1)^3 and the state of C27_nonvacuous (eight patches on two ranks). *)
Definition ex_fbox : range f64 := fcube (f_of_Z (-1)) (f_of_Z 1).
Example C37_nonvacuous : sched_history v3 (fun x => x) 2 [P_Sched.ex_box] P_Sched.ex_s3 /\
  grid_ok P_Sched.ex_box /\ box_ok ex_fbox /\ exact_box P_Sched.ex_box ex_fbox /\
  (forall b, In b [P_Sched.ex_box] -> inside b P_Sched.ex_box) /\ partition_of [P_Sched.ex_box] P_Sched.ex_box /\
  length (filter (fun p => match patch_coord_to_domain true P_Sched.ex_box ex_fbox (p_box p) with
     | Ok r => is_in_patch_converted f_leb f_ltb (W3 (f_of_Z 0) (f_of_Z 0) (f_of_Z (-1))) (fst r) (snd r)
     | _ => false end) (filter (validb 2) (s_global _ P_Sched.ex_s3))) = 1%nat.
Proof.
  assert (B : bounds_ok (f_of_Z (-1)) (f_of_Z 1)) by (apply fz_bounds; lia).
  split; [exact P_Sched.ex_h3|]. split; [unfold grid_ok, P_Sched.ex_box, u64_max; cbn [cmin cmax vx vy vz]; lia|].
  split; [now apply fcube_ok|]. split.
  - assert (X : exact_axis 0 15 (f_of_Z (-1)) (f_of_Z 1)).
    { destruct (fz (-1) ltac:(lia)) as (A1 & A2), (fz 1 ltac:(lia)) as (C1 & C2).
      split; [exists 4; lia|]. rewrite A1, C1. split.
      - destruct (sub_ok (f_of_Z 1) (f_of_Z (-1)) 1) as (S & _); auto; [lia| |].
        + rewrite A1, C1. rewrite <- minus_IZR, <- abs_IZR. change (Raux.bpow Zaux.radix2 1) with (IZR 2). apply IZR_le. lia.
        + rewrite S, A1, C1, <- minus_IZR. apply RN_id, format_Z. lia.
      - rewrite <- minus_IZR. apply Rle_trans with 1%R; [|apply (IZR_le 1); lia].
        rewrite <- Rinv_1. apply Rinv_le_contravar; [apply Rlt_0_1|apply (IZR_le 1)]. apply (Z.pow_le_mono_r 2 0); lia. }
    split; [exact X|]. split; exact X.
  - split; [intros b [<-|[]]; unfold inside, P_Sched.ex_box; cbn [cmin cmax vx vy vz]; lia|].
    split; [|vm_compute; reflexivity]. split.
    + intros p. split; [intros H; exists P_Sched.ex_box; cbn; auto|]. intros (c & [<-|[]] & H). exact H.
    + intros [|i] [|j] a c Hi Hj Hij; try congruence; [destruct j|destruct i|destruct i]; discriminate.
Qed.
Example C37_int_nonvacuous : exists box, ibox_ok box /\ commensurable P_Sched.ex_box box /\ is_err_range_u64 box = false /\
  length (filter (fun p => match patch_coord_to_domain_u64 P_Sched.ex_box box (p_box p) with
     | Ok r => is_in_patch_converted Z.leb Z.ltb (W3 27 25 60) (fst r) (snd r)
     | _ => false end) (filter (validb 2) (s_global _ P_Sched.ex_s3))) = 1%nat.
Proof.
  exists (W3 10 10 10, W3 42 26 90). split; [unfold ibox_ok, ibounds_ok, u64_max; cbn; lia|].
  split; [left; cbn; repeat split; lia|]. split; vm_compute; reflexivity.
Qed.
Example C37_base_grid_nonvacuous : exists bs, make_patch_base_grid 2 1 3 = Ok (PC (V3 0 0 0) (V3 1048575 524287 1572863), bs) /\ length bs = 6%nat.
Proof. eexists. split; [vm_compute; reflexivity|reflexivity]. Qed.

(** ** What does not hold: the patches may not cover the simulation box. *)
Definition one_patch : pcoord := PC (V3 0 0 0) (V3 (2 ^ 21 - 1) (2 ^ 21 - 1) (2 ^ 21 - 1)).
Definition missed (g : pcoord) (box : range f64) (v : vec3 f64) : bool :=
  is_in_patch_converted f_leb f_ltb v (fst box) (snd box) &&
  forallb (fun fma => match patch_coord_to_domain fma g box g with
    | Ok r => negb (is_in_patch_converted f_leb f_ltb v (fst r) (snd r)) | _ => true end) [true; false].
Lemma missed_spec g box v : missed g box v = true ->
  is_in_patch_converted f_leb f_ltb v (fst box) (snd box) = true /\ forall fma, ~ f_contains fma g box g v.
Proof.
  unfold missed. rewrite andb_true_iff. intros (H1 & H2). split; auto. rewrite forallb_forall in H2. intros fma (r & E & C).
  specialize (H2 fma). rewrite E, C in H2. discriminate H2. destruct fma; cbn; auto.
Qed.
(** One root patch; the length of the box [-1, 2^-60) rounds to 1, so that the last patch ends at 0:
    the position 2^-61 of the simulation box is in no patch. *)
Theorem C37_cover_refuted : exists box v, grid_ok one_patch /\ box_ok box /\
  is_in_patch_converted f_leb f_ltb v (fst box) (snd box) = true /\ forall fma, ~ f_contains fma one_patch box one_patch v.
Proof.
  set (e := f_div (f_of_Z 1) (f_of_Z (2 ^ 60))). set (x := f_div (f_of_Z 1) (f_of_Z (2 ^ 61))).
  exists (fcube (f_of_Z (-1)) e), (W3 x x x).
  split; [unfold grid_ok, one_patch, u64_max; cbn [cmin cmax vx vy vz]; lia|]. split.
  - apply fcube_ok. destruct (fz (-1) ltac:(lia)) as (A1 & A2), (fz 1 ltac:(lia)) as (C1 & C2).
    assert (P : fval (f_of_Z (2 ^ 60)) = IZR (2 ^ 60)).
    { destruct (of_Z_ok (2 ^ 60)) as (O & _); [rewrite Z.abs_eq by lia; apply Z.pow_le_mono_r; lia|]. rewrite O.
      change (IZR (2 ^ 60)) with (Raux.bpow Zaux.radix2 60). apply RN_id, format_bpow. lia. }
    assert (I : (/ IZR (2 ^ 60))%R = Raux.bpow Zaux.radix2 (-60)) by reflexivity.
    assert (Pos : (0 < Raux.bpow Zaux.radix2 (-60) < 1)%R).
    { split; [apply Raux.bpow_gt_0|]. change 1%R with (Raux.bpow Zaux.radix2 0). apply Raux.bpow_lt. lia. }
    destruct (div_ok (f_of_Z 1) (f_of_Z (2 ^ 60)) 0) as (D1 & D2); auto; try lia.
    { rewrite P. apply IZR_neq. lia. }
    { rewrite P, C1. unfold Rdiv. rewrite Rmult_1_l, I, Rabs_pos_eq by (left; apply Pos). left. change (Raux.bpow Zaux.radix2 0) with 1%R. apply Pos. }
    rewrite P, C1 in D1. unfold Rdiv in D1. rewrite Rmult_1_l, I, RN_id in D1 by (apply format_bpow; lia). fold e in D1, D2.
    assert (G : (1 <= IZR (2 ^ 900))%R) by (apply (IZR_le 1); apply (Z.pow_le_mono_r 2 0); lia).
    unfold bounds_ok. rewrite A1, D1. split; auto. split; auto. split; [|split].
    + apply Rlt_trans with 0%R; [apply (IZR_lt (-1)); lia|apply Pos].
    + rewrite <- abs_IZR. exact G.
    + rewrite Rabs_pos_eq by (left; apply Pos). apply Rle_trans with 1%R; [left; apply Pos|exact G].
  - apply missed_spec. vm_compute. reflexivity.
Qed.
(** make_patch_base_grid with 49 patches along x and the box [0, 1)^3: 49 * RN(1/49) < 1, the position
    1 - 2^-53 is in no patch. *)
Theorem C37_cover_49_refuted : exists g bs box v, make_patch_base_grid 49 1 1 = Ok (g, bs) /\ box_ok box /\
  box = fcube (f_of_Z 0) (f_of_Z 1) /\
  is_in_patch_converted f_leb f_ltb v (fst box) (snd box) = true /\
  (forall fma, ~ f_contains fma g box g v) /\ (forall fma b, In b bs -> ~ f_contains fma g box b v).
Proof.
  destruct (base_grid_ok 49 1 1) as (g & bs & E & G & P & _ & I); [lia|lia|lia|].
  assert (Eg : g = PC (V3 0 0 0) (V3 1605631 32767 32767)).
  { assert (X : match make_patch_base_grid 49 1 1 with Ok (a, _) => a | _ => g end = PC (V3 0 0 0) (V3 1605631 32767 32767)) by (vm_compute; reflexivity).
    rewrite E in X. exact X. }
  exists g, bs, (fcube (f_of_Z 0) (f_of_Z 1)), (W3 (f_sub (f_of_Z 1) (f_div (f_of_Z 1) (f_of_Z (2 ^ 53)))) (f_of_Z 0) (f_of_Z 0)).
  assert (B : box_ok (fcube (f_of_Z 0) (f_of_Z 1))) by (apply fcube_ok, fz_bounds; lia).
  split; auto. split; auto. split; auto.
  match goal with |- is_in_patch_converted _ _ ?v _ _ = true /\ _ => assert (M : missed g (fcube (f_of_Z 0) (f_of_Z 1)) v = true) by (rewrite Eg; vm_compute; reflexivity) end.
  apply missed_spec in M. destruct M as (M1 & M2). split; [exact M1|]. split; [exact M2|].
  intros fma b Hb C. apply (M2 fma). apply (Domain_main.roots_grid (f_contains fma g _) (f_cell fma g (fcube (f_of_Z 0) (f_of_Z 1))) bs); eauto.
  intros c x Hc. now apply f_contains_cell.
Qed.
Print Assumptions C37_cover_refuted.
Print Assumptions C37_cover_49_refuted.
