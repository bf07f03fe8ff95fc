(** Proofs about the change of the AMR grid: geometry of one split and of one merge *)
From Verif Require Import Base Par Scan_spec Amr Amr_spec Amr_proofs Amr_lists.
From Coq Require Import ZArith Reals Lra.
Local Open Scope Z_scope.

Lemma quot2 k : Z.quot (k + k) 2 = k.
Proof. replace (k + k) with (k * 2) by lia. apply Z.quot_mul. lia. Qed.

Lemma split_at c k3 i j k : nth (cell_index i j k) (get_split c (plus3 c (dbl k3))) ((0, 0, 0), (0, 0, 0)) =
  (sub_lo c k3 i j k, plus3 (sub_lo c k3 i j k) k3).
Proof.
  destruct c as [[x y] z], k3 as [[a b] d].
  assert (Q : forall m s, Z.quot (m + (s + s) - m) 2 = s) by (intros m s; replace (m + (s + s) - m) with (s + s) by lia; apply quot2).
  destruct i, j, k; cbv - [Z.add Z.sub Z.quot]; rewrite ?Q; repeat apply (f_equal2 pair); lia.
Qed.
Lemma split_length c m : length (get_split c m) = 8%nat.
Proof. reflexivity. Qed.

Lemma good_sides b : good b -> exists k3, 0 < px k3 /\ 0 < py k3 /\ 0 < pz k3 /\ bmax b = plus3 (bmin b) (dbl k3).
Proof.
  intros [H _]. destruct b as [[[x y] z] [[x' y'] z'] cs]. cbn [bmin bmax] in H.
  destruct (H px (or_introl eq_refl)) as [A1 A2]. destruct (H py (or_intror (or_introl eq_refl))) as [B1 B2]. destruct (H pz (or_intror (or_intror eq_refl))) as [C1 C2].
  unfold px, py, pz in *. cbn [fst snd] in *. apply Z.even_spec in A2 as [u A2]. apply Z.even_spec in B2 as [v B2]. apply Z.even_spec in C2 as [w C2].
  exists (u, v, w). cbn [fst snd bmin bmax]. split; [lia|]. split; [lia|]. split; [lia|]. unfold plus3, dbl, zip3, plus3, zip3, px, py, pz. cbn [fst snd]. f_equal; [f_equal|]; lia.
Qed.

Lemma oct_index : map (fun '(i, j, k) => cell_index i j k) oct = seq 0 8.
Proof. reflexivity. Qed.

Definition box_in (lo hi : Z3) (p : Z3) : bool := in_block (mkB lo hi []) p.
Lemma in_block_box b p : in_block b p = box_in (bmin b) (bmax b) p.
Proof. reflexivity. Qed.

Definition iv (lo hi x : Z) : bool := (lo <=? x) && (x <? hi).
Lemma iv_split lo k x : 0 < k ->
  iv lo (lo + (k + k)) x = iv (lo + 0) (lo + 0 + k) x || iv (lo + k) (lo + k + k) x /\ iv (lo + 0) (lo + 0 + k) x && iv (lo + k) (lo + k + k) x = false.
Proof. intros H. unfold iv. split; lia. Qed.

Lemma box_cover c k3 p : 0 < px k3 -> 0 < py k3 -> 0 < pz k3 ->
  length (filter (fun o => let '(i, j, k) := o in box_in (sub_lo c k3 i j k) (plus3 (sub_lo c k3 i j k) k3) p) oct) =
  if box_in c (plus3 c (dbl k3)) p then 1%nat else 0%nat.
Proof.
  destruct c as [[x y] z], k3 as [[a b] d], p as [[u v] w]. intros Ha Hb Hd. change (0 < a) in Ha. change (0 < b) in Hb. change (0 < d) in Hd.
  assert (E : forall x y z x' y' z', box_in (x, y, z) (x', y', z') (u, v, w) = iv x x' u && iv y y' v && iv z z' w).
  { intros. unfold box_in, in_block, iv, px, py, pz. cbn [bmin bmax fst snd]. now rewrite !andb_assoc. }
  destruct (iv_split x a u Ha) as [X1 X2]. destruct (iv_split y b v Hb) as [Y1 Y2]. destruct (iv_split z d w Hd) as [Z1 Z2].
  unfold oct. cbn [filter]. unfold sub_lo, plus3, dbl, plus3, zip3, px, py, pz in *. cbn [fst snd]. rewrite !E, X1, Y1, Z1. clear X1 Y1 Z1 E.
  destruct (iv (x + 0) (x + 0 + a) u), (iv (x + a) (x + a + a) u); try discriminate X2;
  destruct (iv (y + 0) (y + 0 + b) v), (iv (y + b) (y + b + b) v); try discriminate Y2;
  destruct (iv (z + 0) (z + 0 + d) w), (iv (z + d) (z + d + d) w); try discriminate Z2; reflexivity.
Qed.

Lemma seq_oct {B} (f : nat -> B) : map f (seq 0 8) = map (fun '(i, j, k) => f (cell_index i j k)) oct.
Proof. reflexivity. Qed.

Lemma filter_map_len {A B} (f : A -> B) (g : B -> bool) l : length (filter g (map f l)) = length (filter (fun a => g (f a)) l).
Proof. induction l as [|a l IH]; simpl; auto. destruct (g (f a)); simpl; auto. Qed.
Lemma filter_ext_len {A} (f g : A -> bool) l : (forall a, In a l -> f a = g a) -> length (filter f l) = length (filter g l).
Proof.
  induction l as [|a l IH]; intros H; simpl; auto. rewrite (H a) by (simpl; auto). destruct (g a); simpl; rewrite IH; auto; intros; apply H; simpl; auto.
Qed.

Lemma child_cover cur p : good cur -> cover (map (child cur) (seq 0 8)) p = cover [cur] p.
Proof.
  intros G. destruct (good_sides _ G) as (k3 & A & B & C & E). rewrite seq_oct. unfold cover. rewrite filter_map_len. cbn [filter].
  transitivity (if in_block cur p then 1%nat else 0%nat); [|destruct (in_block cur p); reflexivity].
  rewrite in_block_box, E, <- (box_cover (bmin cur) k3 p) by auto. apply filter_ext_len. intros [[i j] k] _.
  rewrite in_block_box. unfold child. rewrite E, split_at. reflexivity.
Qed.

(* totals *)
Definition linear (f : cell -> R) : Prop := (forall a b, f (cadd a b) = f a + f b)%R /\ (forall a, f (cdiv8 a) = f a / 8)%R /\ f czero = 0%R.
Lemma comps_linear f : In f comps -> linear f.
Proof.
  unfold comps. intros H. repeat (destruct H as [<-|H]; [split; [|split]; [intros [[d [[x y] z]] e] [[d' [[x' y'] z']] e']; reflexivity|intros [[d [[x y] z]] e]; reflexivity|reflexivity]|]).
  destruct H.
Qed.
Lemma rsum_app l m : rsum (l ++ m) = (rsum l + rsum m)%R.
Proof. induction l as [|a l IH]; simpl; [lra|rewrite IH; lra]. Qed.
Lemma rsum_perm l m : Permutation l m -> rsum l = rsum m.
Proof. induction 1; simpl; lra. Qed.
Lemma total_app f a b : total f (a ++ b) = (total f a + total f b)%R.
Proof. unfold total. now rewrite map_app, rsum_app. Qed.
Lemma total_perm f a b : Permutation a b -> total f a = total f b.
Proof. intros H. unfold total. apply rsum_perm. now apply Permutation_map. Qed.

Lemma child_total f cur : good cur -> total f (map (child cur) (seq 0 8)) = total f [cur].
Proof.
  intros G. destruct (good_sides _ G) as (k3 & A & B & C & E). destruct G as [_ L].
  rewrite seq_oct. unfold total. rewrite map_map.
  assert (V : forall i j k, cell_volume (child cur (cell_index i j k)) = (IZR (px k3 * py k3 * pz k3) / 8)%R).
  { intros i j k. unfold cell_volume, child. rewrite E, split_at. cbn [bmin bmax fst snd]. f_equal. f_equal.
    unfold plus3, zip3, px, py, pz. cbn [fst snd]. ring. }
  assert (VC : cell_volume cur = (IZR (px k3 * py k3 * pz k3))%R).
  { unfold cell_volume. rewrite E. replace ((px (plus3 (bmin cur) (dbl k3)) - px (bmin cur)) * (py (plus3 (bmin cur) (dbl k3)) - py (bmin cur)) * (pz (plus3 (bmin cur) (dbl k3)) - pz (bmin cur)))
      with (px k3 * py k3 * pz k3 * 8).
    - rewrite mult_IZR. field. - unfold plus3, dbl, plus3, zip3, px, py, pz. cbn [fst snd]. ring. }
  set (K := IZR (px k3 * py k3 * pz k3)) in *. unfold oct. cbn [map]. rewrite !V, VC.
  destruct cur as [lo hi cs]. unfold child. cbn [cells bmin bmax] in *. explode cs L.
  unfold cell_index. cbn [Nat.b2n Nat.add Nat.mul nth repeat map rsum fold_right cells fst snd]. field.
Qed.

(* values *)
Lemma half_split lo k i x : 0 < k ->
  (in_half lo (lo + (k + k)) i x <-> exists i', in_half (lo + (if i then k else 0)) (lo + (if i then k else 0) + k) i' x).
Proof.
  intros H. apply IZR_lt in H. unfold in_half. split.
  - destruct i; rewrite ?plus_IZR; intros [A B].
    + destruct (Rlt_le_dec x (IZR lo + IZR k + IZR k / 2)%R) as [C|C]; [exists false|exists true]; lra.
    + destruct (Rlt_le_dec x (IZR lo + IZR k / 2)%R) as [C|C]; [exists false|exists true]; lra.
  - intros [[|] Hx]; destruct i; rewrite ?plus_IZR in *; lra.
Qed.
Lemma value_app a b p v : value_at (a ++ b) p v <-> value_at a p v \/ value_at b p v.
Proof.
  unfold value_at. split.
  - intros (c & i & j & k & A & B). apply in_app_iff in A as [A|A]; [left|right]; exists c, i, j, k; tauto.
  - intros [(c & i & j & k & A & B)|(c & i & j & k & A & B)]; exists c, i, j, k; rewrite in_app_iff; tauto.
Qed.
Lemma value_perm a b p v : Permutation a b -> value_at a p v -> value_at b p v.
Proof. intros H (c & i & j & k & A & B). exists c, i, j, k. split; auto. eapply Permutation_in; eauto. Qed.

Lemma child_value cur p v : good cur -> (value_at (map (child cur) (seq 0 8)) p v <-> value_at [cur] p v).
Proof.
  intros G. destruct (good_sides _ G) as (k3 & A & B & C & E). destruct G as [_ L].
  assert (CC : forall i j k, bmin (child cur (cell_index i j k)) = sub_lo (bmin cur) k3 i j k /\ bmax (child cur (cell_index i j k)) = plus3 (sub_lo (bmin cur) k3 i j k) k3).
  { intros. unfold child. rewrite E, split_at. auto. }
  assert (IC : forall i j k i' j' k', cell_index i j k = cell_index i' j' k' -> i = i' /\ j = j' /\ k = k').
  { clear. intros [] [] [] [] [] []; cbv; intros; auto; discriminate. }
  assert (LT : forall i j k, (cell_index i j k < 8)%nat) by (clear; intros [] [] []; cbv; lia).
  destruct p as [[x y] z]. rewrite seq_oct. split.
  - intros (b & i' & j' & k' & Hin & (HX & HY & HZ) & N). apply in_map_iff in Hin as ([[i j] k] & <- & _).
    destruct (CC i j k) as [C1 C2]. rewrite C1, C2 in HX, HY, HZ. exists cur, i, j, k. split; [simpl; auto|]. split.
    + unfold in_cell. rewrite E. unfold sub_lo, plus3, dbl, plus3, zip3, px, py, pz in *. cbn [fst snd] in *.
      split; [|split]; apply half_split; eauto.
    + unfold child in N. cbn [cells] in N. apply nth_error_In, repeat_spec in N. rewrite N. apply nth_error_nth'. rewrite L. auto.
  - intros (b & i & j & k & [<-|[]] & (HX & HY & HZ) & N). rewrite E in HX, HY, HZ.
    unfold plus3, dbl, plus3, zip3, px, py, pz in HX, HY, HZ, A, B, C. cbn [fst snd] in *.
    apply half_split in HX as [i' HX]; auto. apply half_split in HY as [j' HY]; auto. apply half_split in HZ as [k' HZ]; auto.
    exists (child cur (cell_index i j k)), i', j', k'. split; [|split].
    + apply in_map_iff. exists (i, j, k). split; auto. clear. unfold oct. destruct i, j, k; simpl; tauto.
    + destruct (CC i j k) as [C1 C2]. unfold in_cell. rewrite C1, C2. unfold sub_lo, plus3, zip3, px, py, pz. cbn [fst snd]. auto.
    + unfold child. cbn [cells]. rewrite (nth_error_nth' _ czero) by (rewrite repeat_length; auto). rewrite nth_rep by auto. f_equal. now apply nth_error_nth.
Qed.

(* ---------- merge ---------- *)
Lemma eqb3_eq a b : eqb3 a b = true -> a = b.
Proof.
  destruct a as [[x y] z], b as [[x' y'] z']. unfold eqb3, px, py, pz. cbn [fst snd]. rewrite !andb_true_iff, !Z.eqb_eq. intros [[-> ->] ->]. reflexivity.
Qed.

Lemma mergeable_octants bs : length bs = 8%nat -> Forall good bs -> are_mergeable (map coords bs) = true ->
  exists c k3, octants bs c k3 /\ get_merge (map coords bs) = (c, plus3 c (dbl k3)).
Proof.
  intros LB G M. unfold are_mergeable in M. rewrite forallb_forall in M.
  set (m := get_merge (map coords bs)) in *. set (d := ((0, 0, 0), (0, 0, 0))) in *.
  assert (EQ : forall i, (i < 8)%nat -> nth i (map coords bs) d = nth i (get_split (fst m) (snd m)) d).
  { intros i Hi. specialize (M i ltac:(apply in_seq; lia)). apply andb_prop in M as [M1 M2]. apply eqb3_eq in M1, M2.
    destruct (nth i (map coords bs) d), (nth i (get_split (fst m) (snd m)) d). cbn [fst snd] in *. congruence. }
  assert (GD : forall i, (i < 8)%nat -> good (nth i bs dflt) /\ nth i (map coords bs) d = coords (nth i bs dflt)).
  { intros i Hi. split; [rewrite Forall_forall in G; apply G, nth_In; lia|]. change d with (coords dflt). apply map_nth. }
  assert (Em : m = (fst m, snd m)) by (destruct m; reflexivity). destruct m as [[[x y] z] [[x' y'] z']]. cbn [fst snd] in *.
  destruct (GD 0%nat ltac:(lia)) as [[G0 _] C0]. destruct (GD 7%nat ltac:(lia)) as [[G7 _] C7].
  rewrite EQ in C0, C7 by lia.
  unfold get_split, get_split_coord, zip3 in C0, C7. cbn [seq map nth get_coord Nat.shiftr Nat.modulo Nat.divmod Nat.div2 Nat.sub] in C0, C7.
  unfold px, py, pz in C0, C7. cbn [fst snd] in C0, C7.
  destruct (nth 0 bs dflt) as [[[a0 b0] c0] [[a0' b0'] c0'] s0]. destruct (nth 7 bs dflt) as [[[a7 b7] c7] [[a7' b7'] c7'] s7].
  unfold coords in C0, C7. cbn [bmin bmax] in *. injection C0 as <- <- <- <- <- <-. injection C7 as <- <- <- <- <- <-.
  pose proof (G0 px (or_introl eq_refl)) as GX0. pose proof (G0 py (or_intror (or_introl eq_refl))) as GY0. pose proof (G0 pz (or_intror (or_intror eq_refl))) as GZ0.
  pose proof (G7 px (or_introl eq_refl)) as GX7. pose proof (G7 py (or_intror (or_introl eq_refl))) as GY7. pose proof (G7 pz (or_intror (or_intror eq_refl))) as GZ7.
  unfold px, py, pz in GX0, GY0, GZ0, GX7, GY7, GZ7. cbn [fst snd] in *. clear G0 G7.
  assert (H1 : forall u u', u < Z.quot (u' - u) 2 + u /\ Z.even (Z.quot (u' - u) 2 + u - u) = true -> Z.quot (u' - u) 2 + u < u' /\ Z.even (u' - (Z.quot (u' - u) 2 + u)) = true ->
            exists s, 0 < s /\ u' = u + (s + s)).
  { clear. intros u u' [A1 A2] [B1 B2]. apply Z.even_spec in A2 as [e A2]. apply Z.even_spec in B2 as [f B2]. exists (Z.quot (u' - u) 2). split; [lia|].
    assert (EV : u' - u = 2 * (e + f)) by lia. rewrite EV in *. replace (2 * (e + f)) with ((e + f) * 2) in * by lia. rewrite Z.quot_mul in * by lia. lia. }
  destruct (H1 x x' GX0 GX7) as (sx & PX & ->). destruct (H1 y y' GY0 GY7) as (sy & PY & ->). destruct (H1 z z' GZ0 GZ7) as (sz & PZ & ->).
  exists (x, y, z), (sx, sy, sz). split; [|reflexivity]. split; [exact PX|]. split; [exact PY|]. split; [exact PZ|].
  rewrite (list_as_map d (map coords bs)), map_length, LB, seq_oct. apply map_ext. intros [[i j] k].
  rewrite EQ by (clear; destruct i, j, k; cbv; lia). exact (split_at (x, y, z) (sx, sy, sz) i j k).
Qed.

Lemma coords_cover bs p : cover bs p = length (filter (fun c => box_in (fst c) (snd c) p) (map coords bs)).
Proof. unfold cover. rewrite filter_map_len. reflexivity. Qed.
Lemma octants_cover bs c k3 b p : octants bs c k3 -> bmin b = c -> bmax b = plus3 c (dbl k3) -> cover bs p = cover [b] p.
Proof.
  intros (A & B & C & E) E1 E2. rewrite !coords_cover, E, filter_map_len. unfold coords. cbn [map filter fst snd]. rewrite E1, E2.
  transitivity (length (filter (fun o => let '(i, j, k) := o in box_in (sub_lo c k3 i j k) (plus3 (sub_lo c k3 i j k) k3) p) oct)).
  - apply filter_ext_len. intros [[i j] k] _. reflexivity.
  - rewrite box_cover by auto. destruct (box_in c (plus3 c (dbl k3)) p); reflexivity.
Qed.
Lemma octants_volume bs c k3 b : octants bs c k3 -> In b bs -> cell_volume b = (IZR (px k3 * py k3 * pz k3) / 8)%R.
Proof.
  intros (_ & _ & _ & E) Hin. apply (in_map coords) in Hin. rewrite E in Hin. apply in_map_iff in Hin as ([[i j] k] & X & _).
  unfold cell_volume. destruct b as [lo hi cs]. unfold coords in X. cbn [bmin bmax] in *. injection X as <- <-. f_equal. f_equal.
  unfold plus3, zip3, px, py, pz. cbn [fst snd]. ring.
Qed.

Lemma octants_total f bs c k3 : linear f -> length bs = 8%nat -> (forall b, In b bs -> length (cells b) = 8%nat) -> octants bs c k3 ->
  total f bs = total f [mkB c (plus3 c (dbl k3)) (mean (map cells bs))].
Proof.
  intros (L1 & L2 & L3) LB LC O. pose proof (octants_volume bs c k3) as V.
  assert (F : Forall (fun b => length (cells b) = 8%nat) bs) by now apply Forall_forall.
  unfold total. set (K := IZR (px k3 * py k3 * pz k3)) in *.
  assert (VC : cell_volume (mkB c (plus3 c (dbl k3)) (mean (map cells bs))) = K).
  { unfold cell_volume, K. cbn [bmin bmax]. replace ((px (plus3 c (dbl k3)) - px c) * (py (plus3 c (dbl k3)) - py c) * (pz (plus3 c (dbl k3)) - pz c))
      with (px k3 * py k3 * pz k3 * 8).
    - rewrite mult_IZR. field. - unfold plus3, dbl, plus3, zip3, px, py, pz. cbn [fst snd]. ring. }
  cbn [map rsum fold_right]. rewrite VC. cbn [cells].
  replace (rsum (map (fun b => (cell_volume b * rsum (map f (cells b)))%R) bs)) with (K / 8 * rsum (map (fun b => rsum (map f (cells b))) bs))%R.
  2: { assert (VV : forall b, In b bs -> cell_volume b = (K / 8)%R) by (intros; apply V; auto). clear - VV. induction bs as [|b bs IH]; simpl; [ring|].
       rewrite (VV b) by (simpl; auto). rewrite <- IH by (intros; apply VV; simpl; auto). ring. }
  clear V VC O LC. unfold mean. rewrite map_map. explode bs LB.
  repeat match goal with H : Forall _ (_ :: _) |- _ => inversion H; clear H; subst end.
  cbn [map fold_left seq]. rewrite !L2, !L1, !L3.
  assert (R8 : forall l : list cell, length l = 8%nat -> rsum (map f l) = (f (nth 0 l czero) + f (nth 1 l czero) + f (nth 2 l czero) + f (nth 3 l czero) + f (nth 4 l czero) + f (nth 5 l czero) + f (nth 6 l czero) + f (nth 7 l czero))%R).
  { clear. intros l H. explode l H. simpl. ring. }
  cbn [rsum fold_right]. rewrite !R8 by assumption. field.
Qed.
