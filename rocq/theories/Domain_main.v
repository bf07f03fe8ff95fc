(** Positions and patches, in the reachable states of the scheduler. *)
From Coq Require Import Reals.
From Flocq Require Import BinarySingleNaN.
From Verif Require Import Base Integer Patch Patch_spec Patch_proofs PatchTree PatchTree_spec Sched Sched_spec Sched_proofs Sched_hist_proofs F64
  Domain Domain_spec Domain_cell Domain_f64 Domain_u64 Domain_grid Domain_exact.
Local Open Scope Z_scope.

Section P.
Variable obj : Type.
Variable pos : obj -> v3.
Variable W : nat.

Lemma wf_corners b : wf_box b -> in_box (cmin b) b /\ in_box (cmax b) b.
Proof. unfold wf_box, in_box. lia. Qed.
Lemma patch_inside bs s g p : (1 <= W)%nat -> sched_history obj pos W bs s -> (forall b, In b bs -> inside b g) ->
  In p (s_global _ s) -> valid_patch W p -> inside (p_box p) g.
Proof.
  intros HW H Hin Hp Vp. destruct (history_ok obj pos W bs s HW H) as (I & _ & C).
  destruct (patch_node obj pos W s p I Hp Vp) as (x & n & _ & A2 & _ & A4).
  pose proof (ok_wf _ (so_tree _ _ _ _ I) x n A2) as Wf. rewrite A4 in Wf.
  destruct (wf_corners _ Wf) as (C1 & C2).
  assert (D : forall x, in_box x (p_box p) -> in_box x g).
  { intros y Hy. destruct (proj1 (C y)) as (b & Hb & Hy'); [exists p; auto|]. apply Hin in Hb. unfold inside, in_box in *. lia. }
  apply D in C1, C2. unfold inside, in_box, wf_box in *. lia.
Qed.

(** The same argument for any way of attributing a cell to positions. *)
Lemma cell_partition {V} (contains : pcoord -> V -> Prop) (cellof : V -> v3) bs s g : (1 <= W)%nat -> sched_history obj pos W bs s ->
  (forall b, In b bs -> inside b g) -> (forall b v, inside b g -> (contains b v <-> in_box (cellof v) b)) ->
  (forall v p q, In p (s_global _ s) -> valid_patch W p -> In q (s_global _ s) -> valid_patch W q ->
     contains (p_box p) v -> contains (p_box q) v -> p = q) /\
  (forall v, (exists p, In p (s_global _ s) /\ valid_patch W p /\ contains (p_box p) v) <->
             (exists b, In b bs /\ contains b v)).
Proof.
  intros HW H Hin Hc. destruct (history_ok obj pos W bs s HW H) as (I & _ & C). split.
  - intros v p q Hp Vp Hq Vq Cp Cq. apply Hc in Cp, Cq; try (eapply patch_inside; eauto).
    destruct (Z.eq_dec (p_id p) (p_id q)) as [E|E].
    + eapply (NoDup_map_inj p_id); eauto. apply (so_nodup _ _ _ _ I).
    + exfalso. apply (patches_disjoint obj pos W s p q I Hp Hq Vp Vq E (cellof v)). auto.
  - intros v. split.
    + intros (p & Hp & Vp & Cp). apply Hc in Cp; [|eapply patch_inside; eauto].
      destruct (proj1 (C (cellof v))) as (b & Hb & Cb); [exists p; auto|]. exists b. split; auto. apply Hc; auto.
    + intros (b & Hb & Cb). apply Hc in Cb; auto. destruct (proj2 (C (cellof v))) as (p & Hp & Vp & Cp); [exists b; auto|].
      exists p. split; auto. split; auto. apply Hc; auto. eapply patch_inside; eauto.
Qed.

Lemma float_partition : forall bs s fma g box, (1 <= W)%nat -> sched_history obj pos W bs s ->
  grid_ok g -> box_ok box -> (forall b, In b bs -> inside b g) ->
  (forall p, In p (s_global _ s) -> valid_patch W p -> exists r, patch_coord_to_domain fma g box (p_box p) = Ok r) /\
  (forall v p q, In p (s_global _ s) -> valid_patch W p -> In q (s_global _ s) -> valid_patch W q ->
     f_contains fma g box (p_box p) v -> f_contains fma g box (p_box q) v -> p = q) /\
  (forall v, (exists p, In p (s_global _ s) /\ valid_patch W p /\ f_contains fma g box (p_box p) v) <->
             (exists b, In b bs /\ f_contains fma g box b v)).
Proof.
  intros bs s fma g box HW H HG HB Hin. split.
  - intros p Hp Vp. eexists. apply to_domain_image; auto. eapply patch_inside; eauto.
  - apply (cell_partition (f_contains fma g box) (f_cell fma g box) bs s g); auto. intros b v Hb. now apply f_contains_cell.
Qed.
Lemma int_partition : forall bs s g box, (1 <= W)%nat -> sched_history obj pos W bs s ->
  grid_ok g -> ibox_ok box -> (forall b, In b bs -> inside b g) ->
  (forall p, In p (s_global _ s) -> valid_patch W p -> patch_coord_to_domain_u64 g box (p_box p) = Throw) \/
  ((forall p, In p (s_global _ s) -> valid_patch W p -> exists r, patch_coord_to_domain_u64 g box (p_box p) = Ok r) /\
   (forall v p q, In p (s_global _ s) -> valid_patch W p -> In q (s_global _ s) -> valid_patch W q ->
     i_contains g box (p_box p) v -> i_contains g box (p_box q) v -> p = q) /\
   (forall v, (exists p, In p (s_global _ s) /\ valid_patch W p /\ i_contains g box (p_box p) v) <->
              (exists b, In b bs /\ i_contains g box b v))).
Proof.
  intros bs s g box HW H HG HB Hin. destruct (crt_u64_of_cases g box HG HB) as [E|(t & E & HT)].
  - left. intros p _ _. unfold patch_coord_to_domain_u64. fold (crt_u64_of g box). now rewrite E.
  - right. split.
    + intros p Hp Vp. unfold patch_coord_to_domain_u64. fold (crt_u64_of g box). rewrite E. cbn [rbind].
      destruct (get_patch_range (p_box p)). eauto.
    + apply (cell_partition (i_contains g box) (i_cell t g box) bs s g); auto. intros b v Hb. now apply i_contains_cell.
Qed.

Lemma roots_grid {V} (contains : pcoord -> V -> Prop) (cellof : V -> v3) bs g v : grid_ok g ->
  (forall b, In b bs -> inside b g) -> partition_of bs g -> (forall b v, inside b g -> (contains b v <-> in_box (cellof v) b)) ->
  ((exists b, In b bs /\ contains b v) <-> contains g v).
Proof.
  intros HG Hin (P & _) Hc. assert (HI : inside g g) by (unfold grid_ok, inside in *; lia).
  rewrite (Hc g v HI), P. split; intros (b & Hb & Cb); exists b; split; auto; apply Hc in Cb || apply Hc; auto.
Qed.
Lemma float_cover : forall bs s fma g box v, (1 <= W)%nat -> sched_history obj pos W bs s ->
  grid_ok g -> box_ok box -> (forall b, In b bs -> inside b g) -> partition_of bs g -> exact_box g box ->
  ((exists p, In p (s_global _ s) /\ valid_patch W p /\ f_contains fma g box (p_box p) v) <->
   is_in_patch_converted f_leb f_ltb v (fst box) (snd box) = true).
Proof.
  intros bs s fma g box v HW H HG HB Hin HP HE. rewrite <- (grid_exact fma g box v HG HB HE).
  rewrite (proj2 (proj2 (float_partition bs s fma g box HW H HG HB Hin)) v).
  apply (roots_grid (f_contains fma g box) (f_cell fma g box)); auto. intros b x Hb. now apply f_contains_cell.
Qed.
Lemma int_cover : forall bs s g box v, (1 <= W)%nat -> sched_history obj pos W bs s ->
  grid_ok g -> ibox_ok box -> (forall b, In b bs -> inside b g) -> partition_of bs g ->
  commensurable g box -> is_err_range_u64 box = false ->
  ((exists p, In p (s_global _ s) /\ valid_patch W p /\ i_contains g box (p_box p) v) <->
   is_in_patch_converted Z.leb Z.ltb v (fst box) (snd box) = true).
Proof.
  intros bs s g box v HW H HG HB Hin HP HC HE.
  destruct (proj1 (make_crt_u64_iff g box HG HB) HC) as (t & Et).
  assert (E : crt_u64_of g box = Ok t) by (unfold crt_u64_of; now rewrite HE).
  assert (HI : forall b x, inside b g -> (i_contains g box b x <-> in_box (i_cell t g box x) b)) by (intros; now apply i_contains_cell).
  rewrite <- (i_contains_grid g box v t HG HB E).
  rewrite (proj2 (cell_partition (i_contains g box) (i_cell t g box) bs s g HW H Hin HI) v).
  apply (roots_grid (i_contains g box) (i_cell t g box)); auto.
Qed.
Lemma base_grid_allowed : forall nx ny nz, 1 <= nx <= 2 ^ 21 -> 1 <= ny <= 2 ^ 21 -> 1 <= nz <= 2 ^ 21 ->
  nx * ny * nz <= 2 ^ 32 ->
  exists g bs, make_patch_base_grid nx ny nz = Ok (g, bs) /\ Z.of_nat (length bs) = nx * ny * nz /\
    grid_ok g /\ partition_of bs g /\ (forall b, In b bs -> inside b g) /\
    roots_allowed obj W bs (empty_sched obj).
Proof.
  intros nx ny nz Hx Hy Hz Hn. destruct (base_grid_ok nx ny nz Hx Hy Hz) as (g & bs & E & G & P & L & I).
  exists g, bs. split; auto. split; auto. split; auto. split; auto. split; auto. split; [|split; [|split]].
  - exact (proj2 P).
  - intros a Ha. apply I in Ha. unfold inside, grid_ok, wf_box, u64_max in *. lia.
  - intros a _ pt _ (p & [] & _).
  - rewrite L. cbn [empty_sched s_next s_tree t_next empty_ptree]. unfold u64_max. lia.
Qed.
End P.
