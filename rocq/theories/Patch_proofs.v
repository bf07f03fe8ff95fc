From Verif Require Import Base Patch Patch_spec.
From Coq Require Import ZifyBool ZifyNat ZifyN.
Local Open Scope Z_scope.

Lemma w64_small x : 0 <= x < 2 ^ 64 -> w64 x = x.
Proof. intros H; unfold w64, wrapZ. apply Z.mod_small; lia. Qed.

Lemma split_axis_ok lo hi : side_ok lo hi ->
  split_axis lo hi = lo + (hi - lo + 1) / 2 - 1 /\ lo <= split_axis lo hi < hi /\
  w64 (split_axis lo hi + 1) = split_axis lo hi + 1.
Proof.
  intros (A & B & C & D). unfold split_axis.
  rewrite (w64_small (hi - lo)) by lia. rewrite (w64_small (hi - lo + 1)) by lia.
  assert (E : 1 <= (hi - lo + 1) / 2 < hi - lo + 1).
  { split; [apply Z.div_le_lower_bound; lia | apply Z.div_lt_upper_bound; lia]. }
  assert (E2 : (hi - lo + 1) / 2 <= hi - lo) by lia.
  rewrite (w64_small ((hi - lo + 1) / 2 - 1)) by lia.
  rewrite (w64_small (_ + lo)) by lia.
  rewrite w64_small by lia. lia.
Qed.

(** The eight boxes as (low or high half) on each axis. *)
Lemma get_split_partition b : splittable b -> partition_of (get_split b) b.
Proof.
  destruct b as [[x0 y0 z0] [x1 y1 z1]]. unfold splittable; cbn [cmin cmax vx vy vz].
  intros (HX & HY & HZ). unfold get_split, get_split_coord; cbn [cmin cmax vx vy vz].
  destruct (split_axis_ok _ _ HX) as (_ & X1 & X2).
  destruct (split_axis_ok _ _ HY) as (_ & Y1 & Y2).
  destruct (split_axis_ok _ _ HZ) as (_ & Z1 & Z2).
  rewrite X2, Y2, Z2. clear HX HY HZ X2 Y2 Z2.
  set (sx := split_axis x0 x1) in *. set (sy := split_axis y0 y1) in *. set (sz := split_axis z0 z1) in *.
  split.
  - intros [px py pz]. unfold in_box; cbn [cmin cmax vx vy vz]. split.
    + intros (A & B & C).
      destruct (Z_le_gt_dec px sx), (Z_le_gt_dec py sy), (Z_le_gt_dec pz sz);
      [ exists (PC (V3 x0 y0 z0) (V3 sx sy sz))
      | exists (PC (V3 x0 y0 (sz + 1)) (V3 sx sy z1))
      | exists (PC (V3 x0 (sy + 1) z0) (V3 sx y1 sz))
      | exists (PC (V3 x0 (sy + 1) (sz + 1)) (V3 sx y1 z1))
      | exists (PC (V3 (sx + 1) y0 z0) (V3 x1 sy sz))
      | exists (PC (V3 (sx + 1) y0 (sz + 1)) (V3 x1 sy z1))
      | exists (PC (V3 (sx + 1) (sy + 1) z0) (V3 x1 y1 sz))
      | exists (PC (V3 (sx + 1) (sy + 1) (sz + 1)) (V3 x1 y1 z1)) ];
      (split; [simpl; auto 10 | cbn [cmin cmax vx vy vz]; lia]).
    + intros (c & Hin & A & B & C). simpl in Hin.
      repeat destruct Hin as [<-|Hin]; try contradiction; cbn [cmin cmax vx vy vz] in *; lia.
  - intros i j a c Ha Hc Hij p (P1 & P2). destruct p as [px py pz]. unfold in_box in *; cbn [vx vy vz] in *.
    do 8 (destruct i as [|i]; [cbn in Ha; injection Ha as <-;
          do 8 (destruct j as [|j]; [cbn in Hc; injection Hc as <-; cbn [cmin cmax vx vy vz] in *; lia|]);
          cbn in Hc; destruct j; discriminate|]).
    cbn in Ha; destruct i; discriminate.
Qed.

Lemma merge_split b : splittable b -> merge8 (get_split b) = Ok b.
Proof.
  destruct b as [[x0 y0 z0] [x1 y1 z1]]. unfold splittable; cbn [cmin cmax vx vy vz].
  intros (HX & HY & HZ). unfold get_split, get_split_coord; cbn [cmin cmax vx vy vz].
  destruct (split_axis_ok _ _ HX) as (_ & X1 & X2).
  destruct (split_axis_ok _ _ HY) as (_ & Y1 & Y2).
  destruct (split_axis_ok _ _ HZ) as (_ & Z1 & Z2).
  rewrite X2, Y2, Z2. unfold merge8, merge2; cbn [cmin cmax vx vy vz].
  f_equal. f_equal; f_equal; lia.
Qed.

Lemma split_cube b k c : splittable b -> 1 <= k -> cube (2 ^ k) b -> In c (get_split b) -> cube (2 ^ (k - 1)) c.
Proof.
  destruct b as [[x0 y0 z0] [x1 y1 z1]]. unfold splittable, cube; cbn [cmin cmax vx vy vz].
  intros (HX & HY & HZ) Hk (CX & CY & CZ). unfold get_split, get_split_coord; cbn [cmin cmax vx vy vz].
  destruct (split_axis_ok _ _ HX) as (X0 & X1 & X2).
  destruct (split_axis_ok _ _ HY) as (Y0 & Y1 & Y2).
  destruct (split_axis_ok _ _ HZ) as (Z0 & Z1 & Z2).
  rewrite X2, Y2, Z2. rewrite CX in X0. rewrite CY in Y0. rewrite CZ in Z0.
  assert (E : 2 ^ k = 2 * 2 ^ (k - 1)).
  { rewrite <- Z.pow_succ_r by lia. f_equal; lia. }
  rewrite E, Z.mul_comm, Z.div_mul in X0, Y0, Z0 by lia.
  intros Hin; simpl in Hin.
  repeat destruct Hin as [<-|Hin]; try contradiction; cbn [cmin cmax vx vy vz]; lia.
Qed.

Lemma length_get_split b : length (get_split b) = 8%nat.
Proof. now destruct b as [[x0 y0 z0] [x1 y1 z1]]. Qed.

Lemma length_patch_split p : length (patch_split p) = 8%nat.
Proof. unfold patch_split; rewrite map_length; apply length_get_split. Qed.

Lemma get_split_not_split_child b c : splittable b -> In c (get_split b) ->
  forall p, in_box p c -> in_box p b.
Proof. intros H Hc p Hp. apply (proj1 (get_split_partition b H)). eauto. Qed.

(** Every piece is a non empty box. *)
Lemma split_wf b c : splittable b -> In c (get_split b) -> wf_box c.
Proof.
  destruct b as [[x0 y0 z0] [x1 y1 z1]]. unfold splittable; cbn [cmin cmax vx vy vz].
  intros (HX & HY & HZ). unfold get_split, get_split_coord; cbn [cmin cmax vx vy vz].
  destruct (split_axis_ok _ _ HX) as (_ & X1 & X2).
  destruct (split_axis_ok _ _ HY) as (_ & Y1 & Y2).
  destruct (split_axis_ok _ _ HZ) as (_ & Z1 & Z2).
  rewrite X2, Y2, Z2. unfold side_ok in *. intros Hin; simpl in Hin. unfold wf_box.
  repeat destruct Hin as [<-|Hin]; try contradiction; cbn [cmin cmax vx vy vz]; lia.
Qed.

Lemma merge_patch_split p : splittable (p_box p) -> 0 <= p_load p < 2 ^ 64 ->
  merge_patch8 (patch_split p) =
    Ok (Patch (p_id p) u64_max (p_load p - p_load p mod 8) (p_box p) (p_owner p)).
Proof.
  intros Hs Hl. unfold patch_split.
  pose proof (merge_split _ Hs) as M.
  pose proof (length_get_split (p_box p)) as L.
  destruct (get_split (p_box p)) as [|a0 [|a1 [|a2 [|a3 [|a4 [|a5 [|a6 [|a7 [|a8 l]]]]]]]]] eqn:E; try discriminate.
  cbn [map]. unfold merge_patch8. cbn [map p_box]. rewrite M. cbn [rbind p_id p_owner p_load fold_left].
  f_equal. f_equal.
  assert (D := Z.div_mod (p_load p) 8 ltac:(lia)).
  assert (Hd : 0 <= p_load p / 8 <= 2 ^ 61).
  { split; [apply Z.div_pos; lia|apply Z.div_le_upper_bound; lia]. }
  assert (B : 0 <= p_load p mod 8 < 8) by (apply Z.mod_pos_bound; lia).
  set (q := p_load p / 8) in *. rewrite !(w64_small) by (rewrite ?w64_small; rewrite ?w64_small; rewrite ?w64_small; rewrite ?w64_small; rewrite ?w64_small; rewrite ?w64_small; lia).
  lia.
Qed.
