(** What the collections held by the cells of the tree represent, for every expansion order. *)
Require Import Reals List Lia Lra Permutation.
From Verif Require Import Fmm_tensors Fmm_ops Fmm_spec Fmm_proofs1 Fmm_proofs2 Fmm_proofs3 Fmm_green Fmm_orders.
Import ListNotations.
Local Open Scope R_scope.

(** * Finite sums *)
Lemma Rsum_app : forall A (f : A -> R) l m, Rsum f (l ++ m) = Rsum f l + Rsum f m.
Proof. intros A f l m. unfold Rsum. induction l as [|a l IH]; cbn [app fold_right]; [ring|]. rewrite IH. ring. Qed.
Lemma Rsum_ext : forall A (f g : A -> R) l, (forall a, In a l -> f a = g a) -> Rsum f l = Rsum g l.
Proof.
  intros A f g l H. unfold Rsum. induction l as [|a l IH]; cbn [fold_right]; [reflexivity|].
  rewrite (H a) by (left; reflexivity). rewrite IH; [reflexivity|]. intros b Hb. apply H. right. exact Hb.
Qed.
Lemma Rsum_plus : forall A (f g : A -> R) l, Rsum (fun a => f a + g a) l = Rsum f l + Rsum g l.
Proof. intros A f g l. unfold Rsum. induction l as [|a l IH]; cbn [fold_right]; [ring|]. rewrite IH. ring. Qed.
Lemma Rsum_scal : forall A (f : A -> R) k l, Rsum (fun a => f a * k) l = Rsum f l * k.
Proof. intros A f k l. unfold Rsum. induction l as [|a l IH]; cbn [fold_right]; [ring|]. rewrite IH. ring. Qed.
Lemma Rsum_zero : forall A (l : list A), Rsum (fun _ => 0) l = 0.
Proof. intros A l. unfold Rsum. induction l as [|a l IH]; cbn [fold_right]; [ring|]. rewrite IH. ring. Qed.
Lemma Rsum_map : forall A B (f : B -> R) (g : A -> B) l, Rsum f (map g l) = Rsum (fun a => f (g a)) l.
Proof. intros A B f g l. unfold Rsum. induction l as [|a l IH]; cbn [map fold_right]; [reflexivity|]. now rewrite IH. Qed.
Lemma Rsum_perm : forall A (f : A -> R) l m, Permutation l m -> Rsum f l = Rsum f m.
Proof.
  intros A f l m H. unfold Rsum. induction H; cbn [fold_right]; [reflexivity|now rewrite IHPermutation|ring|congruence].
Qed.
Lemma words_length : forall n w, In w (words n) -> length w = n.
Proof.
  induction n as [|n IH]; intros w H; cbn [words] in H.
  - destruct H as [<-|[]]. reflexivity.
  - apply in_flat_map in H. destruct H as [i [_ H]]. apply in_map_iff in H. destruct H as [u [<- H]].
    cbn [length]. now rewrite (IH u H).
Qed.

(** * Moments *)
Lemma shuffle_ext : forall w f g f' g', (forall a, (length a <= length w)%nat -> f a = f' a) -> (forall b, g b = g' b) ->
  shuffle f g w = shuffle f' g' w.
Proof.
  induction w as [|i w IH]; intros f g f' g' Hf Hg; cbn [shuffle].
  - rewrite Hf by (cbn; lia). rewrite Hg. reflexivity.
  - f_equal; apply IH; auto; intros a Ha; apply Hf; cbn [length]; lia.
Qed.
Lemma shuffle_scal : forall w f g k, shuffle (fun a => f a * k) g w = shuffle f g w * k.
Proof. induction w as [|i w IH]; intros f g k; cbn [shuffle]; [ring|]. rewrite !IH. ring. Qed.
Lemma shuffle_scal2 : forall w f g k, shuffle f (fun a => k * g a) w = k * shuffle f g w.
Proof. induction w as [|i w IH]; intros f g k; cbn [shuffle]; [ring|]. rewrite (IH (fun a => f (i :: a))). rewrite (IH f (fun b => g (i :: b))). ring. Qed.
Lemma shuffle_plus : forall w f f' g, shuffle (fun a => f a + f' a) g w = shuffle f g w + shuffle f' g w.
Proof. induction w as [|i w IH]; intros f f' g; cbn [shuffle]; [ring|]. rewrite (IH (fun a => f (i :: a))). rewrite IH. ring. Qed.
Lemma shuffle_zero : forall w g, shuffle (fun _ => 0) g w = 0.
Proof. induction w as [|i w IH]; intros g; cbn [shuffle]; [ring|]. rewrite !IH. ring. Qed.
Lemma shuffle_vprod : forall w x d, shuffle (vprod x) (vprod d) w = vprod (vadd x d) w.
Proof.
  induction w as [|i w IH]; intros x d; [cbn; ring|].
  cbn [shuffle].
  transitivity (shuffle (fun a => vprod x a * comp x i) (vprod d) w + shuffle (vprod x) (fun b => comp d i * vprod d b) w).
  - f_equal.
    apply shuffle_ext; [|reflexivity]. intros a _. cbn [vprod fold_right]. unfold vprod. ring.
  - rewrite shuffle_scal, shuffle_scal2, IH. cbn [vprod fold_right].
    replace (comp (vadd x d) i) with (comp x i + comp d i) by (destruct i; reflexivity).
    unfold vprod. ring.
Qed.


Lemma mass_of_zeros : forall o c, mass_of o (mass_zeros o) [] c.
Proof. intros o c w L. destruct o; cbn [ordn] in L; (etransitivity; [first [apply zeros00_at|apply zeros01_at|apply zeros02_at|apply zeros03_at|apply zeros04_at]; lia|reflexivity]). Qed.
Lemma mass_at_acc : forall o A B w, (length w <= ordn o - 1)%nat -> mass_at o (mass_acc o A B) w = mass_at o A w + mass_at o B w.
Proof. intros o A B w L. destruct o; cbn [ordn] in L; [apply acc00_at|apply acc01_at|apply acc02_at|apply acc03_at|apply acc04_at]; lia. Qed.
Lemma mass_at_scale : forall o A k w, (length w <= ordn o - 1)%nat -> mass_at o (mass_scale o A k) w = mass_at o A w * k.
Proof. intros o A k w L. destruct o; cbn [ordn] in L; [apply scale00_at|apply scale01_at|apply scale02_at|apply scale03_at|apply scale04_at]; lia. Qed.
Lemma mass_at_from_vec : forall o v w, (length w <= ordn o - 1)%nat -> mass_at o (mass_from_vec o v) w = vprod v w.
Proof. intros o v w L. destruct o; cbn [ordn] in L; [apply from_vec00_at|apply from_vec01_at|apply from_vec02_at|apply from_vec03_at|apply from_vec04_at]; lia. Qed.
Lemma mass_at_offset : forall o Q a b w, (length w <= ordn o - 1)%nat ->
  mass_at o (offset_multipole o Q a b) w = shuffle (mass_at o Q) (vprod (vsub a b)) w.
Proof. intros o Q a b w L. destruct o; cbn [ordn] in L;
  [apply (offset_multipole_delta00_at Q (vsub a b))|apply (offset_multipole_delta01_at Q (vsub a b))|apply (offset_multipole_delta02_at Q (vsub a b))
  |apply (offset_multipole_delta03_at Q (vsub a b))|apply (offset_multipole_delta04_at Q (vsub a b))]; lia. Qed.

Lemma mass_of_from_vec : forall o x c, mass_of o (mass_from_vec o (vsub x c)) [(1, x)] c.
Proof. intros o x c w L. rewrite mass_at_from_vec by exact L. cbn [moment Rsum fold_right fst snd]. unfold moment, Rsum. cbn. ring. Qed.
Lemma mass_of_acc : forall o A B P P' c, mass_of o A P c -> mass_of o B P' c -> mass_of o (mass_acc o A B) (P ++ P') c.
Proof. intros o A B P P' c HA HB w L. rewrite mass_at_acc by exact L. rewrite HA, HB by exact L. unfold moment. now rewrite Rsum_app. Qed.
Lemma mass_of_scale : forall o A P c k, mass_of o A P c -> mass_of o (mass_scale o A k) (map (fun mx => (fst mx * k, snd mx)) P) c.
Proof.
  intros o A P c k H w L. rewrite mass_at_scale by exact L. rewrite H by exact L. unfold moment.
  rewrite Rsum_map, <- Rsum_scal. apply Rsum_ext. intros [m x] _. cbn [fst snd]. ring.
Qed.
Lemma mass_of_perm : forall o A P P' c, Permutation P P' -> mass_of o A P c -> mass_of o A P' c.
Proof. intros o A P P' c HP H w L. rewrite (H w L). apply Rsum_perm. exact HP. Qed.
Lemma offset_moment : forall n q P c c', (forall w, (length w <= n)%nat -> q w = moment P c w) ->
  forall w, (length w <= n)%nat -> shuffle q (vprod (vsub c c')) w = moment P c' w.
Proof.
  intros n q P c c' H w L.
  rewrite (shuffle_ext w q _ (moment P c) (vprod (vsub c c'))); [|intros a Ha; apply H; lia|reflexivity].
  clear H L. unfold moment. induction P as [|[m x] P IH].
  - cbn [Rsum fold_right]. apply shuffle_zero.
  - etransitivity; [|unfold Rsum; cbn [fold_right]; apply f_equal2; [reflexivity|exact IH]].
    change (shuffle (fun w0 => m * vprod (vsub x c) w0 + Rsum (fun mx => fst mx * vprod (vsub (snd mx) c) w0) P) (vprod (vsub c c')) w =
      m * vprod (vsub x c') w + shuffle (fun w0 => Rsum (fun mx => fst mx * vprod (vsub (snd mx) c) w0) P) (vprod (vsub c c')) w).
    rewrite shuffle_plus. f_equal.
    transitivity (shuffle (fun w0 => vprod (vsub x c) w0 * m) (vprod (vsub c c')) w); [apply shuffle_ext; [intros; ring|reflexivity]|].
    rewrite shuffle_scal, shuffle_vprod.
    replace (vadd (vsub x c) (vsub c c')) with (vsub x c').
    + ring.
    + destruct x as [x1 x2 x3], c as [c1 c2 c3], c' as [d1 d2 d3]. unfold vadd, vsub. cbn [vx vy vz]. f_equal; ring.
Qed.

Lemma mass_of_offset : forall o Q P c c', mass_of o Q P c -> mass_of o (offset_multipole o Q c c') P c'.
Proof.
  intros o Q P c c' H w L. rewrite mass_at_offset by exact L.
  exact (offset_moment (ordn o - 1) (mass_at o Q) P c c' H w L).
Qed.

(** * Local expansions *)
(** the field, at the point x, of the local expansion [dM] about [c] *)
Definition field_of (o : mmorder) (dM : GravMoments o) (c x : vec3) (i : ix) : R :=
  comp (contract_to_force o (mass_from_vec o (vsub x c)) dM) i.

Definition contract_formula (o : mmorder) (dM : word -> R) (a : word -> R) (i : ix) : R :=
  nsum (ordn o - 1) (fun n => ifact n * csum n (fun w => dM (i :: w) * a w)).
Lemma contract_at : forall o a dM i, comp (contract_to_force o a dM) i = contract_formula o (grav_at o dM) (mass_at o a) i.
Proof. intros o a dM i. destruct o; [apply contract1_at|apply contract2_at|apply contract3_at|apply contract4_at|apply contract5_at]. Qed.
Lemma nsum_ext : forall k f g, (forall n, (n <= k)%nat -> f n = g n) -> nsum k f = nsum k g.
Proof. intros k f g H. unfold nsum. apply Rsum_ext. intros n Hn. apply in_seq in Hn. apply H. lia. Qed.
Lemma csum_ext : forall n f g, (forall w, length w = n -> f w = g w) -> csum n f = csum n g.
Proof. intros n f g H. unfold csum. apply Rsum_ext. intros w Hw. apply H. apply words_length. exact Hw. Qed.
Lemma nsum_plus : forall k f g, nsum k (fun n => f n + g n) = nsum k f + nsum k g.
Proof. intros. apply Rsum_plus. Qed.
Lemma csum_plus : forall k f g, csum k (fun n => f n + g n) = csum k f + csum k g.
Proof. intros. apply Rsum_plus. Qed.
Lemma nsum_scal : forall k f m, nsum k (fun n => f n * m) = nsum k f * m.
Proof. intros. apply Rsum_scal. Qed.
Lemma csum_scal : forall k f m, csum k (fun n => f n * m) = csum k f * m.
Proof. intros. apply Rsum_scal. Qed.
Lemma ordn_pos : forall o, (1 <= ordn o)%nat.
Proof. intros []; cbn; lia. Qed.

Lemma grav_at_acc : forall o A B w, (1 <= length w <= ordn o)%nat -> grav_at o (grav_acc o A B) w = grav_at o A w + grav_at o B w.
Proof. intros o A B w L. destruct o; cbn [ordn] in L; [apply acc11_at|apply acc12_at|apply acc13_at|apply acc14_at|apply acc15_at]; lia. Qed.
Lemma grav_at_zeros : forall o w, (1 <= length w <= ordn o)%nat -> grav_at o (grav_zeros o) w = 0.
Proof. intros o w L. destruct o; cbn [ordn] in L; [apply zeros11_at|apply zeros12_at|apply zeros13_at|apply zeros14_at|apply zeros15_at]; lia. Qed.

Lemma field_of_acc : forall o A B c x i, field_of o (grav_acc o A B) c x i = field_of o A c x i + field_of o B c x i.
Proof.
  intros o A B c x i. unfold field_of. rewrite !contract_at. unfold contract_formula.
  rewrite <- nsum_plus. apply nsum_ext. intros n Hn. rewrite <- Rmult_plus_distr_l. f_equal.
  rewrite <- csum_plus. apply csum_ext. intros w Hw. pose proof (ordn_pos o).
  rewrite grav_at_acc by (cbn [length]; lia). ring.
Qed.
Lemma field_of_zeros : forall o c x i, field_of o (grav_zeros o) c x i = 0.
Proof.
  intros o c x i. unfold field_of. rewrite contract_at. unfold contract_formula. pose proof (ordn_pos o).
  rewrite (nsum_ext _ _ (fun _ => 0)); [apply Rsum_zero|]. intros n Hn.
  rewrite (csum_ext n _ (fun _ => 0)).
  - unfold csum. rewrite Rsum_zero. ring.
  - intros w Hw. rewrite grav_at_zeros by (cbn [length]; lia). ring.
Qed.

(** moving a local expansion does not change its field *)
Lemma field_of_offset : forall o dM c c' x i, field_of o (offset_dM_mat o dM c c') c' x i = field_of o dM c x i.
Proof.
  intros o dM c c' x i. unfold field_of.
  replace (vsub x c) with (vadd (vsub x c') (vsub c' c)).
  - destruct o; [apply translate1|apply translate2|apply translate3|apply translate4|apply translate5].
  - destruct x as [x1 x2 x3], c as [c1 c2 c3], c' as [d1 d2 d3]. unfold vadd, vsub. cbn [vx vy vz]. f_equal; ring.
Qed.

(** the local expansion created by a set of masses *)
Lemma get_dM_at : forall o D Q u, (1 <= length u <= ordn o)%nat ->
  grav_at o (get_dM_mat o D Q) u =
  sgn (length u - 1) * nsum (ordn o - length u) (fun n => ifact n * csum n (fun w => grav_at o D (u ++ w) * mass_at o Q w)).
Proof. intros o D Q u L. destruct o; [apply get_dM_mat0_at|apply get_dM_mat1_at|apply get_dM_mat2_at|apply get_dM_mat3_at|apply get_dM_mat4_at]; exact L. Qed.

Definition m2l_formula (o : mmorder) (D : word -> R) (a : word -> R) (q : word -> R) (i : ix) : R :=
  contract_formula o (fun u => sgn (length u - 1) * nsum (ordn o - length u) (fun n => ifact n * csum n (fun w => D (u ++ w) * q w))) a i.
Lemma m2l_eq : forall o a D Q i,
  comp (contract_to_force o a (get_dM_mat o D Q)) i = m2l_formula o (grav_at o D) (mass_at o a) (mass_at o Q) i.
Proof.
  intros o a D Q i. rewrite contract_at. unfold m2l_formula, contract_formula. pose proof (ordn_pos o).
  apply nsum_ext. intros n Hn. f_equal. apply csum_ext. intros w Hw. f_equal. apply get_dM_at. cbn [length]. lia.
Qed.
Lemma m2l_formula_ext : forall o D a q q' i, (forall w, (length w <= ordn o - 1)%nat -> q w = q' w) ->
  m2l_formula o D a q i = m2l_formula o D a q' i.
Proof.
  intros o D a q q' i H. unfold m2l_formula, contract_formula. pose proof (ordn_pos o).
  apply nsum_ext. intros n Hn. f_equal. apply csum_ext. intros w Hw. f_equal. f_equal.
  apply nsum_ext. intros k Hk. f_equal. apply csum_ext. intros u Hu. f_equal. apply H. cbn [length] in Hk. lia.
Qed.
Lemma m2l_formula_lin : forall o D a q q' m i,
  m2l_formula o D a (fun w => m * q w + q' w) i = m * m2l_formula o D a q i + m2l_formula o D a q' i.
Proof.
  intros o D a q q' m i. unfold m2l_formula, contract_formula.
  rewrite (Rmult_comm m), <- nsum_scal, <- nsum_plus.
  apply nsum_ext. intros n Hn. rewrite Rmult_assoc, <- Rmult_plus_distr_l. f_equal.
  rewrite <- csum_scal, <- csum_plus. apply csum_ext. intros w Hw.
  match goal with |- sgn ?s * ?A * ?c = sgn ?s * ?B * ?c * m + sgn ?s * ?C * ?c => cut (A = B * m + C); [intros ->; ring|] end.
  rewrite <- nsum_scal, <- nsum_plus.
  apply nsum_ext. intros k Hk. rewrite Rmult_assoc, <- Rmult_plus_distr_l. f_equal.
  rewrite <- csum_scal, <- csum_plus. apply csum_ext. intros u Hu. ring.
Qed.
Lemma m2l_formula_zero : forall o D a i, m2l_formula o D a (fun _ => 0) i = 0.
Proof.
  intros o D a i.
  pose proof (m2l_formula_lin o D a (fun _ => 0) (fun _ => 0) 1 i) as H.
  assert (E : m2l_formula o D a (fun _ => 1 * 0 + 0) i = m2l_formula o D a (fun _ => 0) i) by (apply m2l_formula_ext; intros; ring).
  lra.
Qed.
Lemma m2l_single : forall o D a d i,
  m2l_formula o (grav_at o D) (mass_at o (mass_from_vec o a)) (vprod d) i =
  nsum (ordn o - 1) (fun k => ifact k * csum k (fun w => grav_at o D (i :: w) * vprod (vsub d a) w)).
Proof.
  intros o D a d i.
  rewrite (m2l_formula_ext o _ _ (vprod d) (mass_at o (mass_from_vec o d)) i) by (intros w L; symmetry; apply mass_at_from_vec; exact L).
  rewrite <- m2l_eq. destruct o; [apply single1|apply single2|apply single3|apply single4|apply single5].
Qed.

Lemma green_at : forall o r w, (1 <= length w <= ordn o)%nat -> grav_at o (green_der o r) w = at05 (green05 r) w.
Proof. intros o r w L. destruct o; cbn [ordn] in L; [apply green11_at|apply green12_at|apply green13_at|apply green14_at|apply green15_at]; lia. Qed.

Definition Dgrav (r : vec3) (w : word) : R := at05 (green05 r) w.

Lemma field_of_m2l : forall o Q P sA sB x i, mass_of o Q P sB ->
  field_of o (get_dM_mat o (green_der o (vsub sB sA)) Q) sA x i =
  Rsum (fun mx => fst mx * taylor Dgrav (ordn o - 1) (vsub sB sA) (vsub (vsub (snd mx) sB) (vsub x sA)) i) P.
Proof.
  intros o Q P sA sB x i H. unfold field_of. rewrite m2l_eq.
  rewrite (m2l_formula_ext o _ _ _ (moment P sB) i H). clear H Q.
  induction P as [|[m y] P IH].
  - apply m2l_formula_zero.
  - unfold moment. unfold Rsum at 1. cbn [fold_right].
    change (m2l_formula o (grav_at o (green_der o (vsub sB sA))) (mass_at o (mass_from_vec o (vsub x sA)))
      (fun w => m * vprod (vsub y sB) w + moment P sB w) i =
      m * taylor Dgrav (ordn o - 1) (vsub sB sA) (vsub (vsub y sB) (vsub x sA)) i +
      Rsum (fun mx => fst mx * taylor Dgrav (ordn o - 1) (vsub sB sA) (vsub (vsub (snd mx) sB) (vsub x sA)) i) P).
    rewrite m2l_formula_lin, IH. f_equal. f_equal. rewrite m2l_single.
    unfold taylor. pose proof (ordn_pos o). apply nsum_ext. intros n Hn. f_equal. apply csum_ext. intros w Hw. f_equal.
    apply green_at. cbn [length]. lia.
Qed.
