(** The faces of a surrounded cell are covered exactly once by its neighbours; uniform states; positivity. *)
Require Import Reals Lra.
From Verif Require Import Base Par Scan Scan_spec Dtt_segs Riemann Riemann_spec Riemann_proofs Riemann_pos Godunov Godunov_spec Godunov_graph Godunov_pure Godunov_cons.
From Coq Require Import ZifyBool ZifyNat.
Local Open Scope nat_scope.

(** ** Counting *)
Definition zr (k : Z) (n : nat) : list Z := map (fun i => (k + Z.of_nat i)%Z) (seq 0 n).
Definition inb (x y z : Z) : bool := ((x <=? z) && (z <? y))%Z.
Lemma zr_in k n z : In z (zr k n) <-> (k <= z < k + Z.of_nat n)%Z.
Proof.
  unfold zr. rewrite in_map_iff. split.
  - intros (i & <- & H). apply in_seq in H. lia.
  - intros H. exists (Z.to_nat (z - k)). split; [lia|]. apply in_seq. lia.
Qed.
Lemma count_zr k n x y : length (filter (inb x y) (zr k n)) = Z.to_nat (Z.min y (k + Z.of_nat n) - Z.max x k).
Proof.
  induction n as [|n IH]; [cbn; lia|]. unfold zr in *. rewrite seq_S, map_app, filter_app, app_length, IH. cbn [map filter Nat.add].
  destruct (inb x y (k + Z.of_nat n)) eqn:E; unfold inb in E; cbn [length]; lia.
Qed.
Lemma count_prod {A B} (P : A -> bool) (Q : B -> bool) l l' :
  length (filter (fun s => P (fst s) && Q (snd s)) (list_prod l l')) = length (filter P l) * length (filter Q l').
Proof.
  induction l as [|x l IH]; [reflexivity|]. cbn [list_prod]. rewrite filter_app, app_length, IH.
  assert (E : length (filter (fun s => P (fst s) && Q (snd s)) (map (fun y => (x, y)) l')) = if P x then length (filter Q l') else 0).
  { clear. induction l' as [|y l' IH]; cbn [map filter fst snd length]; [now destruct (P x)|]. destruct (P x) eqn:E; cbn [andb]; [|exact IH]. destruct (Q y); cbn [length]; now rewrite IH. }
  rewrite E. cbn [filter]. destruct (P x); cbn [length]; lia.
Qed.
Definition nsum {A} (f : A -> nat) (l : list A) : nat := fold_right (fun x s => f x + s) 0 l.
Lemma nsum_add {A} (f g : A -> nat) l : nsum (fun x => f x + g x) l = nsum f l + nsum g l.
Proof. induction l; cbn [nsum fold_right]; [reflexivity|]. unfold nsum in IHl. rewrite IHl. lia. Qed.
Lemma nsum_zero {A} (l : list A) : nsum (fun _ => 0) l = 0.
Proof. induction l; auto. Qed.
Lemma nsum_b {A} (P : A -> bool) l : nsum (fun x => if P x then 1 else 0) l = length (filter P l).
Proof. induction l as [|x l IH]; [reflexivity|]. cbn [nsum fold_right filter]. unfold nsum in IH. rewrite IH. destruct (P x); cbn [length]; lia. Qed.
Lemma one_filter {A} (P : A -> bool) l x : NoDup l -> In x l -> P x = true -> (forall y, In y l -> P y = true -> y = x) -> length (filter P l) = 1.
Proof.
  induction l as [|z l IH]; intros N I T U; [destruct I|]. inversion N as [|? ? NI N']; subst. cbn [filter]. destruct I as [->|I].
  - rewrite T. cbn [length]. f_equal. assert (E : filter P l = []); [|now rewrite E].
    destruct (filter P l) as [|y t] eqn:E; auto. exfalso. assert (In y (filter P l)) by (rewrite E; now left). apply filter_In in H. destruct H as (H & H'). apply NI. rewrite <- (U y); auto. now right.
  - destruct (P z) eqn:E; [|apply IH; auto; intros; apply U; auto; now right]. exfalso. apply NI. rewrite (U z); auto. now left.
Qed.
(** every square lies in exactly one member *)
Lemma cover_count {A B} (c : B -> A -> bool) (L : list B) (sq : list A) : NoDup L ->
  (forall s, In s sq -> exists b, In b L /\ c b s = true /\ forall b', In b' L -> c b' s = true -> b' = b) ->
  nsum (fun b => length (filter (c b) sq)) L = length sq.
Proof.
  intros N. induction sq as [|s sq IH]; intros H; cbn [length filter]; [apply nsum_zero|].
  transitivity (nsum (fun b => (if c b s then 1 else 0) + length (filter (c b) sq)) L).
  { clear. induction L as [|b L IH]; [reflexivity|]. cbn [nsum fold_right]. unfold nsum in IH. rewrite IH. f_equal. destruct (c b s); reflexivity. }
  rewrite nsum_add, IH by (intros; apply H; now right). rewrite (nsum_b (fun b => c b s)). destruct (H s) as (b & I & T & U); [now left|].
  rewrite (one_filter _ L b); auto.
Qed.

(** ** The two other axes *)
Definition ax1 (d : dirn) : axis := match axis_of d with AX => AY | _ => AX end.
Definition ax2 (d : dirn) : axis := match axis_of d with AZ => AY | _ => AZ end.
Lemma other_axes d c : c <> axis_of d <-> c = ax1 d \/ c = ax2 d.
Proof. destruct d, c; cbn; split; intros H; try congruence; try tauto; try (destruct H; congruence); auto; try (left; reflexivity); try (right; reflexivity). Qed.
Definition pt (d : dirn) (w u v : Z) : gvec := match axis_of d with AX => (w, u, v) | AY => (u, w, v) | AZ => (u, v, w) end.
Lemma pt_ax d w u v : gc (axis_of d) (pt d w u v) = w.
Proof. now destruct d. Qed.
Lemma pt_1 d w u v : gc (ax1 d) (pt d w u v) = u.
Proof. now destruct d. Qed.
Lemma pt_2 d w u v : gc (ax2 d) (pt d w u v) = v.
Proof. now destruct d. Qed.
(** overlap of two cubes along an axis *)
Definition ovl (c : axis) (q q' : cube) : Z := (Z.min (hi c q) (hi c q') - Z.max (lo c q) (lo c q'))%Z.
Definition area (d : dirn) (q q' : cube) : Z := (ovl (ax1 d) q q' * ovl (ax2 d) q q')%Z.
Lemma touch_ovl d q q' c : (0 < q_side q)%Z -> (0 < q_side q')%Z -> touches d q q' -> c <> axis_of d -> (0 < ovl c q q')%Z.
Proof. intros S S' (_ & H) Hc. specialize (H c Hc). unfold ovl. assert (lo c q < hi c q)%Z by (unfold lo, hi; lia). assert (lo c q' < hi c q')%Z by (unfold lo, hi; lia). lia. Qed.
Lemma touch_ovl0 d q q' : (0 < q_side q)%Z -> (0 < q_side q')%Z -> touches d q q' -> ovl (axis_of d) q q' = 0%Z.
Proof. intros S S' (E & _). unfold ovl, lo, hi in *. destruct (upward d); lia. Qed.
Lemma surf_area d dx q q' : (0 < dx)%R -> (0 < q_side q)%Z -> (0 < q_side q')%Z -> touches d q q' -> surfR dx (rbx dx q) (rbx dx q') = (dx * dx * IZR (area d q q'))%R.
Proof.
  intros DX S S' T.
  assert (OV : forall c, (Rmin (IZR (hi c q) * dx) (IZR (hi c q') * dx) - Rmax (IZR (lo c q) * dx) (IZR (lo c q') * dx) = IZR (ovl c q q') * dx)%R).
  { intros c. unfold ovl. rewrite minus_IZR. rewrite Rmult_minus_distr_r. f_equal.
    - unfold Rmin. destruct (Rle_dec _ _) as [L|G].
      + rewrite Z.min_l; [reflexivity|]. apply le_IZR. apply (Rmult_le_reg_r dx); auto.
      + rewrite Z.min_r; [reflexivity|]. apply le_IZR. apply Rnot_le_lt, Rlt_le in G. apply (Rmult_le_reg_r dx); auto.
    - unfold Rmax. destruct (Rle_dec _ _) as [L|G].
      + rewrite Z.max_r; [reflexivity|]. apply le_IZR. apply (Rmult_le_reg_r dx); auto.
      + rewrite Z.max_l; [reflexivity|]. apply le_IZR. apply Rnot_le_lt, Rlt_le in G. apply (Rmult_le_reg_r dx); auto. }
  set (fx := fun z : R => if Rlt_dec z (dx / 2) then 1%R else z).
  assert (ES : surfR dx (rbx dx q) (rbx dx q') = (fx (IZR (ovl AX q q') * dx) * fx (IZR (ovl AY q q') * dx) * fx (IZR (ovl AZ q q') * dx))%R).
  { unfold surfR, fx, rintersect, rvmap2, rbx, rlo, rhi. cbn [fst snd rx ry rz]. rewrite !OV. reflexivity. }
  assert (F0 : fx (IZR (ovl (axis_of d) q q') * dx)%R = 1%R) by (unfold fx; rewrite (touch_ovl0 d q q') by auto; destruct (Rlt_dec _ _); [reflexivity|lra]).
  assert (F1 : forall c, c <> axis_of d -> fx (IZR (ovl c q q') * dx)%R = (IZR (ovl c q q') * dx)%R).
  { intros c Hc. pose proof (touch_ovl d q q' c S S' T Hc) as P. assert (1 <= IZR (ovl c q q'))%R by (apply (IZR_le 1); lia). unfold fx. destruct (Rlt_dec _ _); [nra|reflexivity]. }
  rewrite ES. unfold area. rewrite mult_IZR. destruct d; cbn [axis_of ax1 ax2] in *; rewrite F0, !F1 by discriminate; ring.
Qed.

Section Cover.
  Variables (bmin bmax : list gvec) (nreal : nat) (env : gd_env) (dx : R).
  Hypothesis BO : blocks_ok bmin bmax.
  Hypothesis EO : gd_env_ok bmin bmax nreal env.
  Hypothesis DX : (0 < dx)%R.
  Notation N := (length bmin * 8).
  Notation cel := (cell bmin bmax).
  Notation nei := (nbs bmin bmax env).
  Variable (a : nat).
  Hypothesis Ha : a < N.
  Hypothesis SU : surrounded bmin bmax a.
  Notation sd := (Z.to_nat (q_side (cel a))).
  Lemma side_pos b : b < N -> (0 < q_side (cel b))%Z.
  Proof. intros H. apply (cel_side bmin bmax BO b). lia. Qed.
  Definition wface (d : dirn) : Z := if upward d then hi (axis_of d) (cel a) else (lo (axis_of d) (cel a) - 1)%Z.
  Definition squares (d : dirn) : list (Z * Z) := list_prod (zr (lo (ax1 d) (cel a)) sd) (zr (lo (ax2 d) (cel a)) sd).
  Definition cov (d : dirn) (b : nat) (s : Z * Z) : bool := inb (lo (ax1 d) (cel b)) (hi (ax1 d) (cel b)) (fst s) && inb (lo (ax2 d) (cel b)) (hi (ax2 d) (cel b)) (snd s).
  Lemma cov_count d b : In b (nei d a) -> Z.of_nat (length (filter (cov d b) (squares d))) = area d (cel a) (cel b).
  Proof.
    intros H. apply (nbs_in _ _ _ _ BO EO) in H; auto. destruct H as (Hb & T). pose proof (side_pos a Ha) as SA. pose proof (side_pos b Hb) as SB.
    unfold cov, squares. rewrite (count_prod (inb _ _) (inb _ _)), !count_zr. unfold area.
    pose proof (touch_ovl d _ _ (ax1 d) SA SB T ltac:(apply other_axes; auto)) as O1. pose proof (touch_ovl d _ _ (ax2 d) SA SB T ltac:(apply other_axes; auto)) as O2.
    rewrite Nat2Z.inj_mul. f_equal.
    - unfold ovl in *. unfold hi at 2 in O1. unfold hi at 3. rewrite !Z2Nat.id; unfold hi in *; fold (lo (ax1 d) (cel a)) (lo (ax1 d) (cel b)) in *; lia.
    - unfold ovl in *. rewrite !Z2Nat.id; unfold hi in *; fold (lo (ax2 d) (cel a)) (lo (ax2 d) (cel b)) in *; lia.
  Qed.
  Lemma exactly_one d s : In s (squares d) -> exists b, In b (nei d a) /\ cov d b s = true /\ forall b', In b' (nei d a) -> cov d b' s = true -> b' = b.
  Proof.
    intros Hs. destruct s as [u v]. apply in_prod_iff in Hs. destruct Hs as (Hu & Hv). apply zr_in in Hu, Hv. pose proof (side_pos a Ha) as SA.
    set (p := pt d (wface d) u v).
    assert (PA : gc (axis_of d) p = wface d) by apply pt_ax. assert (P1 : gc (ax1 d) p = u) by apply pt_1. assert (P2 : gc (ax2 d) p = v) by apply pt_2.
    assert (H1 : (lo (ax1 d) (cel a) <= u < hi (ax1 d) (cel a))%Z) by (unfold hi; fold (lo (ax1 d) (cel a)); lia).
    assert (H2 : (lo (ax2 d) (cel a) <= v < hi (ax2 d) (cel a))%Z) by (unfold hi; fold (lo (ax2 d) (cel a)); lia).
    assert (TP : touches d (cel a) (mkcube p 1)).
    { split.
      - unfold hi at 2, lo at 1 2. cbn [q_lo q_side]. rewrite PA. unfold wface. destruct (upward d); [reflexivity|unfold lo; lia].
      - intros c Hc. apply other_axes in Hc. destruct Hc as [->| ->].
        + unfold lo at 2, hi at 1. cbn [q_lo q_side]. rewrite P1. lia.
        + unfold lo at 2, hi at 1. cbn [q_lo q_side]. rewrite P2. lia. }
    assert (ND : forall b b', b < N -> b' < N -> contains (cel b) p -> contains (cel b') p -> b = b').
    { intros b b' Hb Hb' C C'. destruct (Nat.eq_dec b b') as [|D]; auto. exfalso. destruct (cells_disjoint bmin bmax BO b b' ltac:(lia) ltac:(lia) D) as (c & X).
      specialize (C c). specialize (C' c). lia. }
    assert (CI : forall b, In b (nei d a) -> cov d b (u, v) = true -> contains (cel b) p).
    { intros b Hb K. apply (nbs_in _ _ _ _ BO EO) in Hb; auto. destruct Hb as (Hb & (E & _)). pose proof (side_pos b Hb) as SB. unfold cov, inb in K. cbn [fst snd] in K.
      intros c. assert (DC : c = axis_of d \/ c = ax1 d \/ c = ax2 d).
      { destruct (axis_of d) eqn:AD, c; try (left; reflexivity); right; apply other_axes; rewrite AD; discriminate. }
      destruct DC as [->|[->| ->]].
      - rewrite PA. unfold wface. unfold hi, lo in *. destruct (upward d); lia.
      - rewrite P1. lia.
      - rewrite P2. lia. }
    destruct (SU d p TP) as (b & Hb & C). exists b.
    assert (NB : a <> b).
    { intros <-. specialize (C (axis_of d)). rewrite PA in C. unfold wface in C. destruct (upward d); lia. }
    assert (TB : touches d (cel a) (cel b)).
    { destruct (cells_disjoint bmin bmax BO a b ltac:(lia) ltac:(lia) NB) as (c & X).
      pose proof (C (axis_of d)) as CA. pose proof (C (ax1 d)) as C1. pose proof (C (ax2 d)) as C2. rewrite PA in CA. rewrite P1 in C1. rewrite P2 in C2.
      assert (DC : c = axis_of d \/ c = ax1 d \/ c = ax2 d).
      { destruct (axis_of d) eqn:AD, c; try (left; reflexivity); right; apply other_axes; rewrite AD; discriminate. }
      assert (c = axis_of d) by (destruct DC as [DC|[DC|DC]]; [exact DC|exfalso; subst c; lia|exfalso; subst c; lia]).
      subst c. split.
      - unfold wface in CA. destruct (upward d); unfold hi, lo in *; lia.
      - intros c Hc. apply other_axes in Hc. destruct Hc as [->| ->]; lia. }
    split; [apply (nbs_in _ _ _ _ BO EO); auto|]. split.
    - unfold cov, inb. cbn [fst snd]. pose proof (C (ax1 d)) as C1. pose proof (C (ax2 d)) as C2. rewrite P1 in C1. rewrite P2 in C2. lia.
    - intros b' Hb' K. apply ND; auto. apply (nbs_in _ _ _ _ BO EO) in Hb'; tauto.
  Qed.
  Theorem areas d : rsum (fun b => surfR dx (rbx dx (cel a)) (rbx dx (cel b))) (nei d a) = (hc bmin bmax dx a * hc bmin bmax dx a)%R.
  Proof.
    pose proof (side_pos a Ha) as SA.
    assert (C : nsum (fun b => length (filter (cov d b) (squares d))) (nei d a) = sd * sd).
    { rewrite cover_count; [|eapply nbs_nd; eauto|apply exactly_one]. unfold squares. rewrite prod_length. unfold zr. now rewrite !map_length, !seq_length. }
    assert (E : (rsum (fun b => surfR dx (rbx dx (cel a)) (rbx dx (cel b))) (nei d a) = dx * dx * INR (nsum (fun b => length (filter (cov d b) (squares d))) (nei d a)))%R).
    { assert (I : forall b, In b (nei d a) -> In b (nei d a)) by auto. revert I. generalize (nei d a) at 1 3 4. induction l as [|b l IH]; intros I; cbn [rsum nsum fold_right]; [cbn; ring|].
      unfold rsum, nsum in IH. rewrite IH by (intros; apply I; now right). rewrite plus_INR.
      assert (Hb : In b (nei d a)) by (apply I; now left). pose proof (cov_count d b Hb) as CC. apply (nbs_in _ _ _ _ BO EO) in Hb; auto. destruct Hb as (Hb & T).
      rewrite (surf_area d dx _ _ DX SA (side_pos b Hb) T), <- CC, <- INR_IZR_INZ. ring. }
    rewrite E, C, mult_INR. unfold hc, hreal. rewrite INR_IZR_INZ, Z2Nat.id by lia. ring.
  Qed.
End Cover.
