(** Geometry of the boxes of the patches in real coordinates, and the stages of the exchange as plain list functions. *)
From Verif Require Import Base Par Patch Patch_spec PatchTree Sched Sched_spec Domain Domain_spec Domain_cell SerialTree SerialTree_spec SphGhost SphGhost_spec.
From Coq Require Import Reals Lra ZifyBool.
From Flocq Require Import Core.
Local Open Scope Z_scope.

Lemma w64_id z : 0 <= z < 2 ^ 64 -> w64 z = z.
Proof. intros H. unfold w64. apply Z.mod_small. exact H. Qed.

Section Axis.
Variables (slo shi : Z) (dlo dhi : R).
Hypothesis Hs : 0 <= slo < shi /\ shi < 2 ^ 64.
Hypothesis Hd : (dlo < dhi)%R.
Lemma r_axis_eq c : slo <= c <= shi -> r_axis slo shi dlo dhi c = (IZR (c - slo) * ((dhi - dlo) / IZR (shi - slo)) + dlo)%R.
Proof. intros Hc. unfold r_axis. rewrite !w64_id by lia. reflexivity. Qed.
Lemma fact_pos : (0 < (dhi - dlo) / IZR (shi - slo))%R.
Proof. apply Rdiv_lt_0_compat; [lra|]. apply IZR_lt. lia. Qed.
Lemma r_axis_mono a b : slo <= a <= b -> b <= shi -> (r_axis slo shi dlo dhi a <= r_axis slo shi dlo dhi b)%R.
Proof.
  intros Ha Hb. rewrite !r_axis_eq by lia. apply Rplus_le_compat_r, Rmult_le_compat_r; [apply Rlt_le, fact_pos|]. apply IZR_le. lia.
Qed.
Lemma r_axis_lt a b : slo <= a < b -> b <= shi -> (r_axis slo shi dlo dhi a < r_axis slo shi dlo dhi b)%R.
Proof.
  intros Ha Hb. rewrite !r_axis_eq by lia. apply Rplus_lt_compat_r, Rmult_lt_compat_r; [apply fact_pos|]. apply IZR_lt. lia.
Qed.
Lemma r_axis_lo : r_axis slo shi dlo dhi slo = dlo.
Proof. rewrite r_axis_eq by lia. rewrite Z.sub_diag. lra. Qed.
Lemma r_axis_hi : r_axis slo shi dlo dhi shi = dhi.
Proof. rewrite r_axis_eq by lia. field. apply IZR_neq. lia. Qed.
Lemma r_increasing hi : hi + 1 = shi -> Domain_cell.increasing Rle_bool Rlt_bool (r_axis slo shi dlo dhi) slo hi.
Proof.
  intros Eh. split.
  - intros a b x Ha Hb L. apply Rle_bool_true. pose proof (r_axis_mono a b Ha ltac:(lia)). revert L. case Rle_bool_spec; [lra|discriminate].
  - intros c x _ _. case Rle_bool_spec; intros H; [apply Rlt_bool_false|apply Rlt_bool_true]; lra.
Qed.
End Axis.

Section Conv.
Variables (g : pcoord) (box : range R).
Hypothesis HG : grid_ok g.
Hypothesis HB : rbox_ok box.
Notation rc b := (vx (cmax b) + 1).
Lemma g_range : get_patch_range g = (cmin g, V3 (vx (cmax g) + 1) (vy (cmax g) + 1) (vz (cmax g) + 1)).
Proof. unfold get_patch_range, grid_ok, u64_max in *. rewrite !w64_id by lia. reflexivity. Qed.
Lemma b_range b : inside b g -> get_patch_range b = (cmin b, V3 (vx (cmax b) + 1) (vy (cmax b) + 1) (vz (cmax b) + 1)).
Proof. unfold inside, get_patch_range, grid_ok, u64_max in *. intros Hb. rewrite !w64_id by lia. reflexivity. Qed.
Definition Fx := r_axis (vx (cmin g)) (vx (cmax g) + 1) (wx (fst box)) (wx (snd box)).
Definition Fy := r_axis (vy (cmin g)) (vy (cmax g) + 1) (wy (fst box)) (wy (snd box)).
Definition Fz := r_axis (vz (cmin g)) (vz (cmax g) + 1) (wz (fst box)) (wz (snd box)).
Definition r_image (b : pcoord) : range R := image Fx Fy Fz b.
Lemma r_to_box_ok b : inside b g -> r_to_box g box b = Ok (r_image b).
Proof.
  intros Hb. unfold r_to_box. rewrite g_range, (b_range b Hb). cbn [fst snd].
  assert (E1 : check_ranges Z.geb (to_vec (cmin g)) (to_vec (V3 (vx (cmax g) + 1) (vy (cmax g) + 1) (vz (cmax g) + 1))) = Ok tt).
  { unfold check_ranges, to_vec, grid_ok in *. cbn [wx wy wz vx vy vz]. repeat match goal with |- context [if ?c then _ else _] => destruct c eqn:?; [lia|] end. reflexivity. }
  assert (E2 : check_ranges (fun a b => Rle_bool b a) (fst box) (snd box) = Ok tt).
  { destruct HB as (H1 & H2 & H3). unfold check_ranges. rewrite !Rle_bool_false by auto. reflexivity. }
  rewrite E1, E2. cbn [rbind]. reflexivity.
Qed.
Lemma gx : 0 <= vx (cmin g) < vx (cmax g) + 1 /\ vx (cmax g) + 1 < 2 ^ 64.
Proof. unfold grid_ok, u64_max in *. lia. Qed.
Lemma gy : 0 <= vy (cmin g) < vy (cmax g) + 1 /\ vy (cmax g) + 1 < 2 ^ 64.
Proof. unfold grid_ok, u64_max in *. lia. Qed.
Lemma gz : 0 <= vz (cmin g) < vz (cmax g) + 1 /\ vz (cmax g) + 1 < 2 ^ 64.
Proof. unfold grid_ok, u64_max in *. lia. Qed.
Lemma r_cell_eq : r_cell g box = cell3 Rle_bool Fx Fy Fz g.
Proof. unfold r_cell. rewrite g_range. reflexivity. Qed.
Lemma r_conv b : inside b g -> exists r, r_to_box g box b = Ok r /\
  forall v, is_in_patch_converted Rle_bool Rlt_bool v (fst r) (snd r) = true <-> in_box (r_cell g box v) b.
Proof.
  intros Hb. exists (r_image b). split; [now apply r_to_box_ok|]. intros v. rewrite r_cell_eq. destruct HB as (H1 & H2 & H3).
  apply (in_image Rle_bool Rlt_bool Fx Fy Fz g); auto.
  - apply r_increasing; auto using gx.
  - apply r_increasing; auto using gy.
  - apply r_increasing; auto using gz.
Qed.
(** The images of nested boxes are nested. *)
Lemma image_mono a b : inside a g -> inside b g -> box_within a b ->
  (wx (fst (r_image b)) <= wx (fst (r_image a)) /\ wx (snd (r_image a)) <= wx (snd (r_image b)) /\
   wy (fst (r_image b)) <= wy (fst (r_image a)) /\ wy (snd (r_image a)) <= wy (snd (r_image b)) /\
   wz (fst (r_image b)) <= wz (fst (r_image a)) /\ wz (snd (r_image a)) <= wz (snd (r_image b)))%R.
Proof.
  intros Ha Hb Hw. destruct HB as (H1 & H2 & H3). unfold inside in Ha, Hb.
  assert (L : in_box (cmin a) b) by (apply Hw; unfold in_box; lia).
  assert (U : in_box (cmax a) b) by (apply Hw; unfold in_box; lia).
  unfold in_box in L, U. unfold r_image, image, Fx, Fy, Fz. cbn [fst snd wx wy wz].
  repeat split; apply r_axis_mono; auto using gx, gy, gz; lia.
Qed.
Lemma image_nonempty a : inside a g -> in_rangeb (r_image a) (fst (r_image a)) = true.
Proof.
  intros Ha. destruct HB as (H1 & H2 & H3). unfold inside in Ha. unfold in_rangeb, is_in_patch_converted, r_image, image, Fx, Fy, Fz. cbn [fst snd wx wy wz].
  rewrite !Rle_bool_true by lra. rewrite !Rlt_bool_true; auto; apply r_axis_lt; auto using gx, gy, gz; lia.
Qed.
Lemma image_whole : r_image g = box.
Proof.
  destruct HB as (H1 & H2 & H3). unfold r_image, image, Fx, Fy, Fz. rewrite !r_axis_lo, !r_axis_hi; auto using gx, gy, gz.
  destruct box as [[? ? ?] [? ? ?]]. reflexivity.
Qed.
End Conv.

Lemma in_rangeb_ok b v : in_rangeb b v = true <-> in_range b v.
Proof.
  unfold in_rangeb, in_range, is_in_patch_converted. rewrite !andb_true_iff.
  assert (L : forall x y, Rle_bool x y = true <-> (x <= y)%R).
  { intros x y. split; [|apply Rle_bool_true]. case Rle_bool_spec; [auto|discriminate]. }
  assert (M : forall x y, Rlt_bool x y = true <-> (x < y)%R).
  { intros x y. split; [|apply Rlt_bool_true]. case Rlt_bool_spec; [auto|discriminate]. }
  rewrite !L, !M. split; intros H; repeat split; apply H.
Qed.

(** ** Lists *)
Lemma rflat_ok {A B} (f : A -> res (list B)) (h : A -> list B) l : (forall a, In a l -> f a = Ok (h a)) -> rflat f l = Ok (flat_map h l).
Proof.
  induction l as [|a l IH]; intros H; cbn [rflat flat_map]; [reflexivity|]. rewrite (H a (or_introl eq_refl)), IH by (intros; apply H; right; auto). reflexivity.
Qed.
Definition ok_or_nil {A} (r : res (list A)) : list A := match r with Ok l => l | _ => [] end.
Lemma reorder_perm {A} (l : list A) : forall ord, Permutation ord (seq 0 (length l)) -> Permutation (reorder ord l) l.
Proof.
  intros ord H. unfold reorder. etransitivity; [apply Permutation_flat_map, H|]. clear.
  assert (G : forall p, flat_map (fun i => match nth_error (p ++ l) i with Some a => [a] | None => [] end) (seq (length p) (length l)) = l).
  { induction l as [|a l IH]; intros p; cbn [length seq flat_map]; [reflexivity|].
    rewrite nth_error_app2, Nat.sub_diag by lia. cbn [nth_error app]. f_equal. specialize (IH (p ++ [a])). rewrite app_length, <- app_assoc in IH. cbn [length app] in IH.
    replace (length p + 1)%nat with (S (length p)) in IH by lia. exact IH. }
  pose proof (G []) as E. cbn [app length] in E. rewrite E. reflexivity.
Qed.
Lemma flat_map_flat_map {A B C} (f : A -> list B) (h : B -> list C) l : flat_map h (flat_map f l) = flat_map (fun a => flat_map h (f a)) l.
Proof. induction l as [|a l IH]; cbn [flat_map]; [reflexivity|]. rewrite flat_map_app, IH. reflexivity. Qed.
Lemma flat_map_swap {A B C} (f : A -> B -> list C) la lb :
  Permutation (flat_map (fun a => flat_map (f a) lb) la) (flat_map (fun b => flat_map (fun a => f a b) la) lb).
Proof.
  induction la as [|a la IH]; cbn [flat_map].
  - induction lb; cbn; auto.
  - etransitivity; [apply Permutation_app_head, IH|]. clear IH. induction lb as [|b lb IH]; cbn [flat_map]; auto.
    rewrite <- IH. rewrite <- !app_assoc. apply Permutation_app_head.
    rewrite !app_assoc. apply Permutation_app_tail, Permutation_app_comm.
Qed.
Lemma perm_flat_map_ext {A B} (f h : A -> list B) l : (forall a, In a l -> Permutation (f a) (h a)) -> Permutation (flat_map f l) (flat_map h l).
Proof. induction l as [|a l IH]; intros H; cbn [flat_map]; auto. apply Permutation_app; [apply H; left; auto|apply IH; intros; apply H; right; auto]. Qed.
(** The selected ids give the selected elements. *)
Lemma subset_where {X} (cond : X -> bool) (l : list X) : subset X l (get_ids_where X cond l) = Ok (filter cond l).
Proof.
  unfold get_ids_where.
  assert (G : forall p, subset X (p ++ l) (filter (fun i => match nth_error (p ++ l) i with Some x => cond x | None => false end) (seq (length p) (length l))) = Ok (filter cond l)).
  { induction l as [|a l IH]; intros p; cbn [length seq filter]; [reflexivity|].
    assert (E : nth_error (p ++ a :: l) (length p) = Some a) by (rewrite nth_error_app2, Nat.sub_diag by lia; reflexivity).
    rewrite E. specialize (IH (p ++ [a])). rewrite app_length, <- app_assoc in IH. cbn [length app] in IH.
    replace (length p + 1)%nat with (S (length p)) in IH by lia.
    destruct (cond a); cbn [subset]; [|exact IH]. unfold aget. rewrite E. cbn [rbind]. rewrite IH. reflexivity. }
  exact (G []).
Qed.
Lemma where_nil {X} (cond : X -> bool) (l : list X) : length (get_ids_where X cond l) = 0%nat <-> filter cond l = [].
Proof.
  pose proof (subset_where cond l) as H. split.
  - intros E. destruct (get_ids_where X cond l); [|discriminate]. cbn [subset] in H. now injection H as <-.
  - intros E. rewrite E in H. destruct (get_ids_where X cond l) as [|i ids]; [reflexivity|]. cbn [subset] in H.
    destruct (aget l i); [|discriminate|discriminate]. cbn [rbind] in H. destruct (subset X l ids); discriminate.
Qed.
