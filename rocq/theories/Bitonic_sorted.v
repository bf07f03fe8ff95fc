(** 0-1 principle and bitonic merge. *)
From Verif Require Import Base SortSearch_spec Bitonic Bitonic_net.
From Coq Require Import ZifyBool ZifyNat.

(** boolean stages: [true] = small *)
Definition bstage (rev : nat -> bool) (b : nat) (f : nat -> bool) (x : nat) : bool :=
  let lo := if bit b x then f (x - 2 ^ b) else f x in
  let hi := if bit b x then f x else f (x + 2 ^ b) in
  if xorb (bit b x) (rev x) then lo || hi else lo && hi.
Fixpoint bgst (s : nat) (rev : nat -> bool) (f : nat -> bool) : nat -> bool :=
  match s with O => f | S s' => bgst s' rev (bstage rev s' f) end.

Lemma bstage_ext rev b f g : (forall x, f x = g x) -> forall x, bstage rev b f x = bstage rev b g x.
Proof. intros H x. unfold bstage. now rewrite !H. Qed.
Lemma bgst_ext rev s : forall f g, (forall x, f x = g x) -> forall x, bgst s rev f x = bgst s rev g x.
Proof. induction s; simpl; intros f g H; auto. apply IHs. now apply bstage_ext. Qed.

Section Lift.
  Context {K V : Type} (ltb : K -> K -> bool) (SW : strict_weak ltb).
  Variable t : K.
  Definition img (F : nat -> K * V) (x : nat) : bool := ltb (fst (F x)) t.
  Lemma order1_img p q r :
    ltb (fst (fst (order1 ltb p q r))) t = (if r then orb else andb) (ltb (fst p) t) (ltb (@fst K V q) t) /\
    ltb (fst (snd (order1 ltb p q r))) t = (if r then andb else orb) (ltb (fst p) t) (ltb (@fst K V q) t).
  Proof.
    destruct SW as [AS TR]. unfold order1.
    pose proof (AS (fst p) (fst q)) as A1.
    pose proof (TR (fst p) (fst q) t) as T1. pose proof (TR (fst q) (fst p) t) as T2.
    pose proof (TR t (fst p) (fst q)) as T3. pose proof (TR t (fst q) (fst p)) as T4.
    pose proof (TR (fst p) t (fst q)) as T5. pose proof (TR (fst q) t (fst p)) as T6.
    pose proof (AS t (fst p)). pose proof (AS t (fst q)). pose proof (AS (fst p) t). pose proof (AS (fst q) t).
    destruct (ltb (fst p) (fst q)) eqn:E, r; simpl;
      destruct (ltb (fst p) t) eqn:E1, (ltb (fst q) t) eqn:E2; simpl; rewrite ?E1, ?E2; auto; intuition congruence.
  Qed.
  Lemma stage_img rev b F x : img (stage ltb rev b F) x = bstage rev b (img F) x.
  Proof.
    unfold img, stage, bstage. destruct (bit b x).
    - destruct (order1_img (F (x - 2 ^ b)) (F x) (rev x)) as [_ ->]. destruct (rev x); auto.
    - destruct (order1_img (F x) (F (x + 2 ^ b)) (rev x)) as [-> _]. destruct (rev x); auto.
  Qed.
  Lemma gst_img rev s : forall F x, img (gst ltb 0 s rev F) x = bgst s rev (img F) x.
  Proof.
    induction s as [|s IH]; intros F x; simpl; auto.
    rewrite IH. apply bgst_ext. intros z. apply stage_img.
  Qed.
End Lift.

(** value of a stage inside a block [B, B + 2h) *)
Lemma bstage_low rev b f q y : y < 2 ^ b ->
  bstage rev b f (q * 2 ^ S b + y) =
    let u := f (q * 2 ^ S b + y) in let v := f (q * 2 ^ S b + 2 ^ b + y) in
    if rev (q * 2 ^ S b + y) then u || v else u && v.
Proof.
  intros H. unfold bstage. pose proof (bit_form b q false y H) as E. rewrite Nat.add_0_r in E. rewrite E.
  replace (q * 2 ^ S b + y + 2 ^ b) with (q * 2 ^ S b + 2 ^ b + y) by lia. destruct (rev _); reflexivity.
Qed.
Lemma bstage_high rev b f q y : y < 2 ^ b ->
  bstage rev b f (q * 2 ^ S b + 2 ^ b + y) =
    let u := f (q * 2 ^ S b + y) in let v := f (q * 2 ^ S b + 2 ^ b + y) in
    if rev (q * 2 ^ S b + 2 ^ b + y) then u && v else u || v.
Proof.
  intros H. unfold bstage. pose proof (bit_form b q true y H) as E. rewrite E.
  replace (q * 2 ^ S b + 2 ^ b + y - 2 ^ b) with (q * 2 ^ S b + y) by lia.
  destruct (rev _); reflexivity.
Qed.

Definition bitonic (n : nat) (f : nat -> bool) (B : nat) : Prop :=
  exists (v : bool) i j, i <= j /\ j <= n /\ forall x, x < n -> f (B + x) = xorb v ((i <=? x) && (x <? j)).
Definition const (n : nat) (f : nat -> bool) (B : nat) (v : bool) : Prop := forall x, x < n -> f (B + x) = v.
(** [r = true]: small (true) values first *)
Definition bsorted (n : nat) (f : nat -> bool) (B : nat) (r : bool) : Prop :=
  exists m, m <= n /\ forall x, x < n -> f (B + x) = xorb (negb r) (x <? m).

Lemma half_cleaner h f B : bitonic (h + h) f B ->
  (exists v i j, i <= j /\ j <= h /\ (forall x, x < h -> f (B + x) || f (B + h + x) = xorb v ((i <=? x) && (x <? j)))) /\
  (exists v i j, i <= j /\ j <= h /\ (forall x, x < h -> f (B + x) && f (B + h + x) = xorb v ((i <=? x) && (x <? j)))) /\
  ((forall x, x < h -> f (B + x) || f (B + h + x) = true) \/ (forall x, x < h -> f (B + x) && f (B + h + x) = false)).
Proof.
  intros (v & i & j & Hij & Hj & H).
  assert (H1 : forall x, x < h -> f (B + x) = xorb v ((i <=? x) && (x <? j))) by (intros; apply H; lia).
  assert (H2 : forall x, x < h -> f (B + h + x) = xorb v ((i <=? h + x) && (h + x <? j)))
    by (intros x Hx; rewrite <- Nat.add_assoc; apply H; lia).
  assert (A : exists v1 i1 j1 v2 i2 j2, i1 <= j1 /\ j1 <= h /\ i2 <= j2 /\ j2 <= h /\
     (forall x, x < h -> f (B + x) || f (B + h + x) = xorb v1 ((i1 <=? x) && (x <? j1))) /\
     (forall x, x < h -> f (B + x) && f (B + h + x) = xorb v2 ((i2 <=? x) && (x <? j2))) /\
     ((v1 = true /\ i1 = j1) \/ (v2 = false /\ i2 = j2))).
  { destruct (Nat.le_gt_cases j h).
    - destruct v.
      + exists true, 0, 0, true, i, j. repeat split; try lia; intros x Hx; rewrite H1, H2 by auto; lia.
      + exists false, i, j, false, 0, 0. repeat split; try lia; intros x Hx; rewrite H1, H2 by auto; lia.
    - destruct (Nat.le_gt_cases h i).
      + destruct v.
        * exists true, 0, 0, true, (i - h), (j - h). repeat split; try lia; intros x Hx; rewrite H1, H2 by auto; lia.
        * exists false, (i - h), (j - h), false, 0, 0. repeat split; try lia; intros x Hx; rewrite H1, H2 by auto; lia.
      + destruct (Nat.le_gt_cases i (j - h)), v.
        * exists true, i, (j - h), false, 0, 0. repeat split; try lia; intros x Hx; rewrite H1, H2 by auto; lia.
        * exists true, 0, 0, false, i, (j - h). repeat split; try lia; intros x Hx; rewrite H1, H2 by auto; lia.
        * exists true, 0, 0, false, (j - h), i. repeat split; try lia; intros x Hx; rewrite H1, H2 by auto; lia.
        * exists true, (j - h), i, false, 0, 0. repeat split; try lia; intros x Hx; rewrite H1, H2 by auto; lia. }
  destruct A as (v1 & i1 & j1 & v2 & i2 & j2 & L1 & L2 & L3 & L4 & E1 & E2 & D).
  split; [exists v1, i1, j1; auto|]. split; [exists v2, i2, j2; auto|].
  destruct D as [[-> ->]|[-> ->]]; [left|right]; intros x Hx; rewrite ?E1, ?E2 by auto; lia.
Qed.

Lemma bgst_const rev v : forall s f q,
  const (2 ^ s) f (q * 2 ^ s) v -> const (2 ^ s) (bgst s rev f) (q * 2 ^ s) v.
Proof.
  induction s as [|s IH]; intros f q H; simpl bgst; auto.
  assert (C : const (2 ^ S s) (bstage rev s f) (q * 2 ^ S s) v).
  { intros x Hx. destruct (Nat.lt_ge_cases x (2 ^ s)).
    - rewrite bstage_low by auto. cbv zeta. rewrite <- Nat.add_assoc. rewrite !H by (rewrite p2S in *; lia). destruct (rev _), v; auto.
    - replace (q * 2 ^ S s + x) with (q * 2 ^ S s + 2 ^ s + (x - 2 ^ s)) by lia.
      rewrite bstage_high by (rewrite p2S in *; lia). cbv zeta. rewrite <- Nat.add_assoc.
      rewrite !H by (rewrite p2S in *; lia). destruct (rev _), v; auto. }
  intros x Hx. rewrite p2S in Hx. destruct (Nat.lt_ge_cases x (2 ^ s)).
  - replace (q * 2 ^ S s + x) with (2 * q * 2 ^ s + x) by (rewrite p2S; lia).
    apply IH; auto. intros y Hy. replace (2 * q * 2 ^ s + y) with (q * 2 ^ S s + y) by (rewrite p2S; lia). apply C. rewrite p2S; lia.
  - replace (q * 2 ^ S s + x) with ((2 * q + 1) * 2 ^ s + (x - 2 ^ s)) by (rewrite p2S; lia).
    apply IH; [|lia]. intros y Hy. replace ((2 * q + 1) * 2 ^ s + y) with (q * 2 ^ S s + (2 ^ s + y)) by (rewrite p2S; lia). apply C. rewrite p2S; lia.
Qed.

Lemma bitonic_merge rev r : forall s f q,
  (forall x, x < 2 ^ s -> rev (q * 2 ^ s + x) = r) ->
  bitonic (2 ^ s) f (q * 2 ^ s) -> bsorted (2 ^ s) (bgst s rev f) (q * 2 ^ s) r.
Proof.
  induction s as [|s IH]; intros f q R HB; simpl bgst.
  - destruct (f (q * 2 ^ 0)) eqn:E, r; [exists 1|exists 0|exists 0|exists 1]; simpl in *; split; auto; intros x Hx;
      replace x with 0 by lia; rewrite Nat.add_0_r, E; reflexivity.
  - pose proof (p2 s) as P.
    set (h := 2 ^ s) in *. set (g := bstage rev s f).
    assert (EB : q * 2 ^ S s = 2 * q * h) by (unfold h; rewrite p2S; lia).
    assert (E2 : 2 ^ S s = h + h) by (unfold h; rewrite p2S; lia).
    assert (G1 : forall x, x < h -> g (2 * q * h + x) = if r then f (2 * q * h + x) || f (2 * q * h + h + x) else f (2 * q * h + x) && f (2 * q * h + h + x)).
    { intros x Hx. unfold g. rewrite <- EB. rewrite bstage_low by auto. cbv zeta. rewrite R by (rewrite E2; lia). reflexivity. }
    assert (G2 : forall x, x < h -> g ((2 * q + 1) * h + x) = if r then f (2 * q * h + x) && f (2 * q * h + h + x) else f (2 * q * h + x) || f (2 * q * h + h + x)).
    { intros x Hx. replace ((2 * q + 1) * h + x) with (q * 2 ^ S s + h + x) by lia. unfold g, h. rewrite bstage_high by auto. cbv zeta.
      rewrite <- (Nat.add_assoc (q * 2 ^ S s)), R by (rewrite E2; unfold h in *; lia). rewrite EB. unfold h. rewrite !Nat.add_assoc. reflexivity. }
    rewrite EB, E2 in HB. apply half_cleaner in HB.
    destruct HB as ((vo & io & jo & Ho1 & Ho2 & Ho) & (va & ia & ja & Ha1 & Ha2 & Ha) & HC).
    assert (B1 : bitonic h g (2 * q * h)).
    { destruct r; [exists vo, io, jo | exists va, ia, ja]; split; auto; split; auto; intros x Hx; rewrite G1 by auto; auto. }
    assert (B2 : bitonic h g ((2 * q + 1) * h)).
    { destruct r; [exists va, ia, ja | exists vo, io, jo]; split; auto; split; auto; intros x Hx; rewrite G2 by auto; auto. }
    assert (R1 : forall x, x < h -> rev (2 * q * h + x) = r) by (intros x Hx; rewrite <- EB; apply R; lia).
    assert (R2 : forall x, x < h -> rev ((2 * q + 1) * h + x) = r).
    { intros x Hx. replace ((2 * q + 1) * h + x) with (q * 2 ^ S s + (h + x)) by lia. apply R; lia. }
    pose proof (IH g (2 * q) R1 B1) as S1. pose proof (IH g (2 * q + 1) R2 B2) as S2.
    destruct S1 as (m1 & Hm1 & S1). destruct S2 as (m2 & Hm2 & S2).
    assert (DC : const h g (2 * q * h) r \/ const h g ((2 * q + 1) * h) (negb r)).
    { destruct r, HC as [HC|HC]; [left|right|right|left]; intros x Hx; rewrite ?G1, ?G2 by auto; simpl; apply HC; auto. }
    fold g. rewrite EB, E2.
    assert (X : forall x, h <= x -> 2 * q * h + x = (2 * q + 1) * h + (x - h)) by (intros; lia).
    destruct DC as [DC|DC].
    + pose proof (bgst_const rev r s g (2 * q) DC) as C1. exists (h + m2). split; [lia|].
      intros x Hx. destruct (Nat.lt_ge_cases x h).
      * rewrite C1 by auto. replace (x <? h + m2) with true by lia. destruct r; auto.
      * rewrite X, S2 by lia. f_equal. lia.
    + pose proof (bgst_const rev (negb r) s g (2 * q + 1) DC) as C1. exists m1. split; [lia|].
      intros x Hx. destruct (Nat.lt_ge_cases x h).
      * now rewrite S1 by auto.
      * rewrite X by lia. rewrite C1 by (unfold h in *; lia). replace (x <? m1) with false by lia. destruct r; auto.
Qed.

Definition phase_rev (a x : nat) : bool := negb (bit (S a) x).
Definition phase_inv (a : nat) (f : nat -> bool) : Prop :=
  forall q, bsorted (2 ^ a) f (q * 2 ^ a) (negb (Nat.odd q)).

Lemma phase_inv_0 f : phase_inv 0 f.
Proof.
  intros q. destruct (f (q * 2 ^ 0)) eqn:E, (Nat.odd q); [exists 0|exists 1|exists 1|exists 0]; simpl in *; split; auto; intros x Hx;
      replace x with 0 by lia; rewrite Nat.add_0_r, E; reflexivity.
Qed.
Lemma bit_block b q x : x < 2 ^ b -> bit b (q * 2 ^ b + x) = Nat.odd q.
Proof. intros H. unfold bit. f_equal. symmetry. apply Nat.div_unique with x; auto. lia. Qed.
Lemma phase_step a f : phase_inv a f -> phase_inv (S a) (bgst (S a) (phase_rev a) f).
Proof.
  intros H q. apply bitonic_merge.
  - intros x Hx. unfold phase_rev. now rewrite bit_block.
  - assert (O1 : Nat.odd (2 * q) = false) by (rewrite Nat.odd_mul; reflexivity).
    assert (O2 : Nat.odd (2 * q + 1) = true) by (rewrite Nat.odd_add, O1; reflexivity).
    pose proof (H (2 * q)) as S1. pose proof (H (2 * q + 1)) as S2. rewrite O1 in S1. rewrite O2 in S2.
    destruct S1 as (m1 & L1 & S1), S2 as (m2 & L2 & S2). simpl negb in *.
    exists true, m1, (2 ^ a + m2). rewrite !p2S. split; [lia|]. split; [lia|]. intros x Hx.
    destruct (Nat.lt_ge_cases x (2 ^ a)).
    + replace (q * (2 * 2 ^ a) + x) with (2 * q * 2 ^ a + x) by lia. rewrite S1 by auto. lia.
    + replace (q * (2 * 2 ^ a) + x) with ((2 * q + 1) * 2 ^ a + (x - 2 ^ a)) by lia. rewrite S2 by lia. lia.
Qed.
