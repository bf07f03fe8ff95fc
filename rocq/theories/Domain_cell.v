(** The cell of a position: from an increasing family of bounds to integer boxes. *)
From Verif Require Import Base Patch Patch_spec Domain Domain_spec.
Local Open Scope Z_scope.

Definition icount (p : Z -> bool) (lo : Z) (n : nat) : nat :=
  length (filter p (map (fun k => (lo + Z.of_nat k)%Z) (seq 0 n))).
Lemma icount_S p lo n : icount p lo (S n) = (icount p lo n + (if p (lo + Z.of_nat n)%Z then 1 else 0))%nat.
Proof.
  unfold icount. rewrite seq_S, map_app, filter_app, app_length. cbn [map filter Nat.add].
  destruct (p (lo + Z.of_nat n)); reflexivity.
Qed.
Lemma icount_le p lo n : (icount p lo n <= n)%nat.
Proof. induction n; [auto|]. rewrite icount_S. destruct (p _); lia. Qed.
Lemma icount_spec p lo : forall n, (forall a b, lo <= a <= b -> b < lo + Z.of_nat n -> p b = true -> p a = true) ->
  forall a, lo <= a < lo + Z.of_nat n -> p a = (a <=? lo - 1 + Z.of_nat (icount p lo n)).
Proof.
  induction n as [|n IH]; intros H a Ha; [lia|].
  assert (H' : forall a b, lo <= a <= b -> b < lo + Z.of_nat n -> p b = true -> p a = true) by (intros x y ? ?; apply H; lia).
  rewrite icount_S. destruct (p (lo + Z.of_nat n)) eqn:E.
  - assert (P : p a = true) by (apply (H a (lo + Z.of_nat n)); auto; lia). rewrite P. symmetry. apply Z.leb_le.
    assert (F : icount p lo n = n); [|lia]. clear IH a Ha P.
    assert (G : forall m, (m <= n)%nat -> icount p lo m = m).
    { induction m as [|m IHm]; intros Hm; [reflexivity|]. rewrite icount_S, IHm by lia.
      rewrite (H (lo + Z.of_nat m) (lo + Z.of_nat n)); auto; lia. }
    now apply G.
  - destruct (Z.eq_dec a (lo + Z.of_nat n)) as [->|Ne].
    + rewrite E. symmetry. apply Z.leb_gt. pose proof (icount_le p lo n). lia.
    + rewrite (IH H' a) by lia. f_equal. lia.
Qed.

Section Cell.
Context {C : Type}.
Variables (leb ltb : C -> C -> bool) (F : Z -> C) (lo hi : Z).
Definition cell (x : C) : Z := lo - 1 + Z.of_nat (icount (fun c => leb (F c) x) lo (Z.to_nat (hi + 2 - lo))).
(** What is needed of the bounds [F lo], ..., [F (hi+1)]. *)
Definition increasing : Prop :=
  (forall a b x, lo <= a <= b -> b <= hi + 1 -> leb (F b) x = true -> leb (F a) x = true) /\
  (forall c x, lo <= c <= hi + 1 -> leb (F lo) x = true -> ltb x (F c) = negb (leb (F c) x)).
Hypothesis Hinc : increasing.
Hypothesis Hlh : lo <= hi.

Lemma cell_spec x a : lo <= a <= hi + 1 -> leb (F a) x = (a <=? cell x).
Proof.
  intros Ha. unfold cell. apply (icount_spec (fun c => leb (F c) x) lo).
  - intros b c Hb Hc. apply (proj1 Hinc); lia.
  - lia.
Qed.
Lemma axis_in x a b : lo <= a <= b -> b <= hi -> (leb (F a) x && ltb x (F (b + 1)))%bool = true <-> a <= cell x <= b.
Proof.
  intros Ha Hb. rewrite andb_true_iff, (cell_spec x a) by lia. rewrite Z.leb_le. split.
  - intros (H1 & H2). split; auto. assert (L : leb (F lo) x = true) by (rewrite (cell_spec x lo) by lia; apply Z.leb_le; lia).
    rewrite (proj2 Hinc) in H2 by (auto; lia). rewrite cell_spec in H2 by lia. apply negb_true_iff, Z.leb_gt in H2. lia.
  - intros (H1 & H2). split; auto. assert (L : leb (F lo) x = true) by (rewrite (cell_spec x lo) by lia; apply Z.leb_le; lia).
    rewrite (proj2 Hinc) by (auto; lia). rewrite cell_spec by lia. apply negb_true_iff, Z.leb_gt. lia.
Qed.
End Cell.

(** Three axes. *)
Section Cell3.
Context {C : Type}.
Variables (leb ltb : C -> C -> bool) (Fx Fy Fz : Z -> C) (g : pcoord).
Definition cell3 (v : vec3 C) : v3 :=
  V3 (cell leb Fx (vx (cmin g)) (vx (cmax g)) (wx v))
     (cell leb Fy (vy (cmin g)) (vy (cmax g)) (wy v))
     (cell leb Fz (vz (cmin g)) (vz (cmax g)) (wz v)).
Definition image (b : pcoord) : range C :=
  (W3 (Fx (vx (cmin b))) (Fy (vy (cmin b))) (Fz (vz (cmin b))),
   W3 (Fx (vx (cmax b) + 1)) (Fy (vy (cmax b) + 1)) (Fz (vz (cmax b) + 1))).
Hypothesis Hx : increasing leb ltb Fx (vx (cmin g)) (vx (cmax g)).
Hypothesis Hy : increasing leb ltb Fy (vy (cmin g)) (vy (cmax g)).
Hypothesis Hz : increasing leb ltb Fz (vz (cmin g)) (vz (cmax g)).

Lemma in_image b v : inside b g ->
  (is_in_patch_converted leb ltb v (fst (image b)) (snd (image b)) = true <-> in_box (cell3 v) b).
Proof.
  intros ((X1 & X2 & X3) & (Y1 & Y2 & Y3) & (Z1 & Z2 & Z3)).
  unfold is_in_patch_converted, image, in_box, cell3. cbn [fst snd wx wy wz vx vy vz].
  pose proof (axis_in leb ltb Fx _ _ Hx ltac:(lia) (wx v) (vx (cmin b)) (vx (cmax b)) ltac:(lia) ltac:(lia)) as AX.
  pose proof (axis_in leb ltb Fy _ _ Hy ltac:(lia) (wy v) (vy (cmin b)) (vy (cmax b)) ltac:(lia) ltac:(lia)) as AY.
  pose proof (axis_in leb ltb Fz _ _ Hz ltac:(lia) (wz v) (vz (cmin b)) (vz (cmax b)) ltac:(lia) ltac:(lia)) as AZ.
  rewrite andb_true_iff in AX, AY, AZ. rewrite <- AX, <- AY, <- AZ, !andb_true_iff. tauto.
Qed.
End Cell3.
