(** C46 - the fast multipole operators: symmetric tensors, multipole moments, local expansions and
    the derivative tensors of the gravitational potential. *)
Require Import Reals List Lia Lra Permutation.
From Verif Require Import Fmm_tensors Fmm_ops Fmm_spec Fmm_proofs1 Fmm_proofs2 Fmm_proofs3 Fmm_green Fmm_store Fmm_orders Fmm_reps.
Import ListNotations.
Local Open Scope R_scope.

(** ** The operator [*] between two symmetric tensors is the contraction over the indices of the one
    of lower rank, whichever side it is written on. *)
Theorem C46_contractions :
  (forall (a : st1) (b : st1), op_11 a b = csum 1 (fun w => at1 a w * at1 b w)) /\
  (forall (a : st2) (b : st2), op_22 a b = csum 2 (fun w => at2 a w * at2 b w)) /\
  (forall (a : st2) (b : st1) u, length u = 1%nat ->
     at1 (op_21 a b) u = csum 1 (fun w => at2 a (u ++ w) * at1 b w) /\
     op_12 b a = op_21 a b) /\
  (forall (a : st3) (b : st3), op_33 a b = csum 3 (fun w => at3 a w * at3 b w)) /\
  (forall (a : st3) (b : st1) u, length u = 2%nat ->
     at2 (op_31 a b) u = csum 1 (fun w => at3 a (u ++ w) * at1 b w) /\
     op_13 b a = op_31 a b) /\
  (forall (a : st3) (b : st2) u, length u = 1%nat ->
     at1 (op_32 a b) u = csum 2 (fun w => at3 a (u ++ w) * at2 b w) /\
     op_23 b a = op_32 a b) /\
  (forall (a : st4) (b : st4), op_44 a b = csum 4 (fun w => at4 a w * at4 b w)) /\
  (forall (a : st4) (b : st1) u, length u = 3%nat ->
     at3 (op_41 a b) u = csum 1 (fun w => at4 a (u ++ w) * at1 b w) /\
     op_14 b a = op_41 a b) /\
  (forall (a : st4) (b : st2) u, length u = 2%nat ->
     at2 (op_42 a b) u = csum 2 (fun w => at4 a (u ++ w) * at2 b w) /\
     op_24 b a = op_42 a b) /\
  (forall (a : st4) (b : st3) u, length u = 1%nat ->
     at1 (op_43 a b) u = csum 3 (fun w => at4 a (u ++ w) * at3 b w) /\
     op_34 b a = op_43 a b) /\
  (forall (a : st5) (b : st5), op_55 a b = csum 5 (fun w => at5 a w * at5 b w)) /\
  (forall (a : st5) (b : st1) u, length u = 4%nat ->
     at4 (op_51 a b) u = csum 1 (fun w => at5 a (u ++ w) * at1 b w) /\
     op_15 b a = op_51 a b) /\
  (forall (a : st5) (b : st2) u, length u = 3%nat ->
     at3 (op_52 a b) u = csum 2 (fun w => at5 a (u ++ w) * at2 b w) /\
     op_25 b a = op_52 a b) /\
  (forall (a : st5) (b : st3) u, length u = 2%nat ->
     at2 (op_53 a b) u = csum 3 (fun w => at5 a (u ++ w) * at3 b w) /\
     op_35 b a = op_53 a b) /\
  (forall (a : st5) (b : st4) u, length u = 1%nat ->
     at1 (op_54 a b) u = csum 4 (fun w => at5 a (u ++ w) * at4 b w) /\
     op_45 b a = op_54 a b).
Proof.
  split; [exact op_11_at|].
  split; [exact op_22_at|].
  split; [exact (fun a b u L => conj (op_21_at a b u L) eq_refl)|].
  split; [exact op_33_at|].
  split; [exact (fun a b u L => conj (op_31_at a b u L) eq_refl)|].
  split; [exact (fun a b u L => conj (op_32_at a b u L) eq_refl)|].
  split; [exact op_44_at|].
  split; [exact (fun a b u L => conj (op_41_at a b u L) eq_refl)|].
  split; [exact (fun a b u L => conj (op_42_at a b u L) eq_refl)|].
  split; [exact (fun a b u L => conj (op_43_at a b u L) eq_refl)|].
  split; [exact op_55_at|].
  split; [exact (fun a b u L => conj (op_51_at a b u L) eq_refl)|].
  split; [exact (fun a b u L => conj (op_52_at a b u L) eq_refl)|].
  split; [exact (fun a b u L => conj (op_53_at a b u L) eq_refl)|].
  exact (fun a b u L => conj (op_54_at a b u L) eq_refl).
Qed.

(** ** Powers, zero, sum, difference and scaling of the collections, component by component *)
Theorem C46_collections :
  (forall (a b : col00) v k w, (0 <= length w <= 0)%nat ->
     at00 (from_vec00 v) w = vprod v w /\ at00 zeros00 w = 0 /\
     at00 (acc00 a b) w = at00 a w + at00 b w /\ at00 (sub00 a b) w = at00 a w - at00 b w /\
     at00 (scale00 a k) w = at00 a w * k) /\
  (forall (a b : col01) v k w, (0 <= length w <= 1)%nat ->
     at01 (from_vec01 v) w = vprod v w /\ at01 zeros01 w = 0 /\
     at01 (acc01 a b) w = at01 a w + at01 b w /\ at01 (sub01 a b) w = at01 a w - at01 b w /\
     at01 (scale01 a k) w = at01 a w * k) /\
  (forall (a b : col02) v k w, (0 <= length w <= 2)%nat ->
     at02 (from_vec02 v) w = vprod v w /\ at02 zeros02 w = 0 /\
     at02 (acc02 a b) w = at02 a w + at02 b w /\ at02 (sub02 a b) w = at02 a w - at02 b w /\
     at02 (scale02 a k) w = at02 a w * k) /\
  (forall (a b : col03) v k w, (0 <= length w <= 3)%nat ->
     at03 (from_vec03 v) w = vprod v w /\ at03 zeros03 w = 0 /\
     at03 (acc03 a b) w = at03 a w + at03 b w /\ at03 (sub03 a b) w = at03 a w - at03 b w /\
     at03 (scale03 a k) w = at03 a w * k) /\
  (forall (a b : col04) v k w, (0 <= length w <= 4)%nat ->
     at04 (from_vec04 v) w = vprod v w /\ at04 zeros04 w = 0 /\
     at04 (acc04 a b) w = at04 a w + at04 b w /\ at04 (sub04 a b) w = at04 a w - at04 b w /\
     at04 (scale04 a k) w = at04 a w * k) /\
  (forall (a b : col05) v k w, (0 <= length w <= 5)%nat ->
     at05 (from_vec05 v) w = vprod v w /\ at05 zeros05 w = 0 /\
     at05 (acc05 a b) w = at05 a w + at05 b w /\ at05 (sub05 a b) w = at05 a w - at05 b w /\
     at05 (scale05 a k) w = at05 a w * k) /\
  (forall (a b : col11) v k w, (1 <= length w <= 1)%nat ->
     at11 (from_vec11 v) w = vprod v w /\ at11 zeros11 w = 0 /\
     at11 (acc11 a b) w = at11 a w + at11 b w /\ at11 (sub11 a b) w = at11 a w - at11 b w /\
     at11 (scale11 a k) w = at11 a w * k) /\
  (forall (a b : col12) v k w, (1 <= length w <= 2)%nat ->
     at12 (from_vec12 v) w = vprod v w /\ at12 zeros12 w = 0 /\
     at12 (acc12 a b) w = at12 a w + at12 b w /\ at12 (sub12 a b) w = at12 a w - at12 b w /\
     at12 (scale12 a k) w = at12 a w * k) /\
  (forall (a b : col13) v k w, (1 <= length w <= 3)%nat ->
     at13 (from_vec13 v) w = vprod v w /\ at13 zeros13 w = 0 /\
     at13 (acc13 a b) w = at13 a w + at13 b w /\ at13 (sub13 a b) w = at13 a w - at13 b w /\
     at13 (scale13 a k) w = at13 a w * k) /\
  (forall (a b : col14) v k w, (1 <= length w <= 4)%nat ->
     at14 (from_vec14 v) w = vprod v w /\ at14 zeros14 w = 0 /\
     at14 (acc14 a b) w = at14 a w + at14 b w /\ at14 (sub14 a b) w = at14 a w - at14 b w /\
     at14 (scale14 a k) w = at14 a w * k) /\
  (forall (a b : col15) v k w, (1 <= length w <= 5)%nat ->
     at15 (from_vec15 v) w = vprod v w /\ at15 zeros15 w = 0 /\
     at15 (acc15 a b) w = at15 a w + at15 b w /\ at15 (sub15 a b) w = at15 a w - at15 b w /\
     at15 (scale15 a k) w = at15 a w * k).
Proof.
  split; [exact (fun a b v k w L => conj (from_vec00_at v w L) (conj (zeros00_at w L) (conj (acc00_at a b w L) (conj (sub00_at a b w L) (scale00_at a k w L)))))|].
  split; [exact (fun a b v k w L => conj (from_vec01_at v w L) (conj (zeros01_at w L) (conj (acc01_at a b w L) (conj (sub01_at a b w L) (scale01_at a k w L)))))|].
  split; [exact (fun a b v k w L => conj (from_vec02_at v w L) (conj (zeros02_at w L) (conj (acc02_at a b w L) (conj (sub02_at a b w L) (scale02_at a k w L)))))|].
  split; [exact (fun a b v k w L => conj (from_vec03_at v w L) (conj (zeros03_at w L) (conj (acc03_at a b w L) (conj (sub03_at a b w L) (scale03_at a k w L)))))|].
  split; [exact (fun a b v k w L => conj (from_vec04_at v w L) (conj (zeros04_at w L) (conj (acc04_at a b w L) (conj (sub04_at a b w L) (scale04_at a k w L)))))|].
  split; [exact (fun a b v k w L => conj (from_vec05_at v w L) (conj (zeros05_at w L) (conj (acc05_at a b w L) (conj (sub05_at a b w L) (scale05_at a k w L)))))|].
  split; [exact (fun a b v k w L => conj (from_vec11_at v w L) (conj (zeros11_at w L) (conj (acc11_at a b w L) (conj (sub11_at a b w L) (scale11_at a k w L)))))|].
  split; [exact (fun a b v k w L => conj (from_vec12_at v w L) (conj (zeros12_at w L) (conj (acc12_at a b w L) (conj (sub12_at a b w L) (scale12_at a k w L)))))|].
  split; [exact (fun a b v k w L => conj (from_vec13_at v w L) (conj (zeros13_at w L) (conj (acc13_at a b w L) (conj (sub13_at a b w L) (scale13_at a k w L)))))|].
  split; [exact (fun a b v k w L => conj (from_vec14_at v w L) (conj (zeros14_at w L) (conj (acc14_at a b w L) (conj (sub14_at a b w L) (scale14_at a k w L)))))|].
  exact (fun a b v k w L => conj (from_vec15_at v w L) (conj (zeros15_at w L) (conj (acc15_at a b w L) (conj (sub15_at a b w L) (scale15_at a k w L))))).
Qed.

(** ** A buffer holding one collection per cell: storing the collection of a cell and loading the
    collection of any cell back *)
Theorem C46_store_load :
  (num_component00 = 1%nat /\ forall (q : col00) buf cell cell',
     load00 (store00 q buf (cell * num_component00)) (cell' * num_component00) =
     if Nat.eqb cell' cell then q else load00 buf (cell' * num_component00)) /\
  (num_component01 = 4%nat /\ forall (q : col01) buf cell cell',
     load01 (store01 q buf (cell * num_component01)) (cell' * num_component01) =
     if Nat.eqb cell' cell then q else load01 buf (cell' * num_component01)) /\
  (num_component02 = 10%nat /\ forall (q : col02) buf cell cell',
     load02 (store02 q buf (cell * num_component02)) (cell' * num_component02) =
     if Nat.eqb cell' cell then q else load02 buf (cell' * num_component02)) /\
  (num_component03 = 20%nat /\ forall (q : col03) buf cell cell',
     load03 (store03 q buf (cell * num_component03)) (cell' * num_component03) =
     if Nat.eqb cell' cell then q else load03 buf (cell' * num_component03)) /\
  (num_component04 = 35%nat /\ forall (q : col04) buf cell cell',
     load04 (store04 q buf (cell * num_component04)) (cell' * num_component04) =
     if Nat.eqb cell' cell then q else load04 buf (cell' * num_component04)) /\
  (num_component05 = 56%nat /\ forall (q : col05) buf cell cell',
     load05 (store05 q buf (cell * num_component05)) (cell' * num_component05) =
     if Nat.eqb cell' cell then q else load05 buf (cell' * num_component05)) /\
  (num_component11 = 3%nat /\ forall (q : col11) buf cell cell',
     load11 (store11 q buf (cell * num_component11)) (cell' * num_component11) =
     if Nat.eqb cell' cell then q else load11 buf (cell' * num_component11)) /\
  (num_component12 = 9%nat /\ forall (q : col12) buf cell cell',
     load12 (store12 q buf (cell * num_component12)) (cell' * num_component12) =
     if Nat.eqb cell' cell then q else load12 buf (cell' * num_component12)) /\
  (num_component13 = 19%nat /\ forall (q : col13) buf cell cell',
     load13 (store13 q buf (cell * num_component13)) (cell' * num_component13) =
     if Nat.eqb cell' cell then q else load13 buf (cell' * num_component13)) /\
  (num_component14 = 34%nat /\ forall (q : col14) buf cell cell',
     load14 (store14 q buf (cell * num_component14)) (cell' * num_component14) =
     if Nat.eqb cell' cell then q else load14 buf (cell' * num_component14)) /\
  (num_component15 = 55%nat /\ forall (q : col15) buf cell cell',
     load15 (store15 q buf (cell * num_component15)) (cell' * num_component15) =
     if Nat.eqb cell' cell then q else load15 buf (cell' * num_component15)).
Proof.
  split; [exact (conj eq_refl buf00)|].
  split; [exact (conj eq_refl buf01)|].
  split; [exact (conj eq_refl buf02)|].
  split; [exact (conj eq_refl buf03)|].
  split; [exact (conj eq_refl buf04)|].
  split; [exact (conj eq_refl buf05)|].
  split; [exact (conj eq_refl buf11)|].
  split; [exact (conj eq_refl buf12)|].
  split; [exact (conj eq_refl buf13)|].
  split; [exact (conj eq_refl buf14)|].
  exact (conj eq_refl buf15).
Qed.

(** ** The tensors returned by the Green function are the partial derivatives of 1/|r|,
    and every variant returns the same ones *)
Theorem C46_green_derivatives : potential_derivatives 5 (fun r w => at05 (green05 r) w).
Proof. exact green05_derivatives. Qed.
Theorem C46_green_variants :
  (forall r w, (0 <= length w <= 0)%nat -> at00 (green00 r) w = at05 (green05 r) w) /\
  (forall r w, (0 <= length w <= 1)%nat -> at01 (green01 r) w = at05 (green05 r) w) /\
  (forall r w, (0 <= length w <= 2)%nat -> at02 (green02 r) w = at05 (green05 r) w) /\
  (forall r w, (0 <= length w <= 3)%nat -> at03 (green03 r) w = at05 (green05 r) w) /\
  (forall r w, (0 <= length w <= 4)%nat -> at04 (green04 r) w = at05 (green05 r) w) /\
  (forall r w, (1 <= length w <= 1)%nat -> at11 (green11 r) w = at05 (green05 r) w) /\
  (forall r w, (1 <= length w <= 2)%nat -> at12 (green12 r) w = at05 (green05 r) w) /\
  (forall r w, (1 <= length w <= 3)%nat -> at13 (green13 r) w = at05 (green05 r) w) /\
  (forall r w, (1 <= length w <= 4)%nat -> at14 (green14 r) w = at05 (green05 r) w) /\
  (forall r w, (1 <= length w <= 5)%nat -> at15 (green15 r) w = at05 (green05 r) w).
Proof.
  split; [exact green00_at|].
  split; [exact green01_at|].
  split; [exact green02_at|].
  split; [exact green03_at|].
  split; [exact green04_at|].
  split; [exact green11_at|].
  split; [exact green12_at|].
  split; [exact green13_at|].
  split; [exact green14_at|].
  exact green15_at.
Qed.

(** ** Moving the centre of the multipole moments, all orders 0 .. 5 *)
Theorem C46_offset_multipole :
  (forall Q P c c', (forall w, (length w <= 0)%nat -> at00 Q w = moment P c w) ->
     forall w, (length w <= 0)%nat -> at00 (offset_multipole00 Q c c') w = moment P c' w) /\
  (forall Q P c c', (forall w, (length w <= 1)%nat -> at01 Q w = moment P c w) ->
     forall w, (length w <= 1)%nat -> at01 (offset_multipole01 Q c c') w = moment P c' w) /\
  (forall Q P c c', (forall w, (length w <= 2)%nat -> at02 Q w = moment P c w) ->
     forall w, (length w <= 2)%nat -> at02 (offset_multipole02 Q c c') w = moment P c' w) /\
  (forall Q P c c', (forall w, (length w <= 3)%nat -> at03 Q w = moment P c w) ->
     forall w, (length w <= 3)%nat -> at03 (offset_multipole03 Q c c') w = moment P c' w) /\
  (forall Q P c c', (forall w, (length w <= 4)%nat -> at04 Q w = moment P c w) ->
     forall w, (length w <= 4)%nat -> at04 (offset_multipole04 Q c c') w = moment P c' w) /\
  (forall Q P c c', (forall w, (length w <= 5)%nat -> at05 Q w = moment P c w) ->
     forall w, (length w <= 5)%nat -> at05 (offset_multipole05 Q c c') w = moment P c' w).
Proof.
  split; [intros Q P c c' H w L; etransitivity; [exact (offset_multipole_delta00_at Q (vsub c c') w L)|];
    apply (offset_moment 0 (at00 Q) P c c' H w L)|].
  split; [intros Q P c c' H w L; etransitivity; [exact (offset_multipole_delta01_at Q (vsub c c') w L)|];
    apply (offset_moment 1 (at01 Q) P c c' H w L)|].
  split; [intros Q P c c' H w L; etransitivity; [exact (offset_multipole_delta02_at Q (vsub c c') w L)|];
    apply (offset_moment 2 (at02 Q) P c c' H w L)|].
  split; [intros Q P c c' H w L; etransitivity; [exact (offset_multipole_delta03_at Q (vsub c c') w L)|];
    apply (offset_moment 3 (at03 Q) P c c' H w L)|].
  split; [intros Q P c c' H w L; etransitivity; [exact (offset_multipole_delta04_at Q (vsub c c') w L)|];
    apply (offset_moment 4 (at04 Q) P c c' H w L)|].
  intros Q P c c' H w L; etransitivity; [exact (offset_multipole_delta05_at Q (vsub c c') w L)|];
    apply (offset_moment 5 (at05 Q) P c c' H w L).
Qed.

(** ** The contraction of the derivative tensors with the moments *)
Theorem C46_M_mat :
  (forall D Q u, (length u <= 0)%nat -> at00 (get_M_mat00 D Q) u =
     sgn (length u) * nsum (0 - length u) (fun n => ifact n * csum n (fun w => at00 D (u ++ w) * at00 Q w))) /\
  (forall D Q u, (length u <= 1)%nat -> at01 (get_M_mat01 D Q) u =
     sgn (length u) * nsum (1 - length u) (fun n => ifact n * csum n (fun w => at01 D (u ++ w) * at01 Q w))) /\
  (forall D Q u, (length u <= 2)%nat -> at02 (get_M_mat02 D Q) u =
     sgn (length u) * nsum (2 - length u) (fun n => ifact n * csum n (fun w => at02 D (u ++ w) * at02 Q w))) /\
  (forall D Q u, (length u <= 3)%nat -> at03 (get_M_mat03 D Q) u =
     sgn (length u) * nsum (3 - length u) (fun n => ifact n * csum n (fun w => at03 D (u ++ w) * at03 Q w))) /\
  (forall D Q u, (length u <= 4)%nat -> at04 (get_M_mat04 D Q) u =
     sgn (length u) * nsum (4 - length u) (fun n => ifact n * csum n (fun w => at04 D (u ++ w) * at04 Q w))) /\
  (forall D Q u, (length u <= 5)%nat -> at05 (get_M_mat05 D Q) u =
     sgn (length u) * nsum (5 - length u) (fun n => ifact n * csum n (fun w => at05 D (u ++ w) * at05 Q w))).
Proof.
  split; [exact get_M_mat00_at|].
  split; [exact get_M_mat01_at|].
  split; [exact get_M_mat02_at|].
  split; [exact get_M_mat03_at|].
  split; [exact get_M_mat04_at|].
  exact get_M_mat05_at.
Qed.
Theorem C46_dM_mat : forall o D Q u, (1 <= length u <= ordn o)%nat ->
  grav_at o (get_dM_mat o D Q) u =
  sgn (length u - 1) *
  nsum (ordn o - length u) (fun n => ifact n * csum n (fun w => grav_at o D (u ++ w) * mass_at o Q w)).
Proof. exact get_dM_at. Qed.
(** translation of the potential expansion 0 .. 5, which the code also offers *)
Theorem C46_offset_M_mat : forall M c c' u, (length u <= 5)%nat ->
  at05 (offset_dM_mat05 M c c') u =
  nsum (5 - length u) (fun n => ifact n * csum n (fun w => at05 M (u ++ w) * vprod (vsub c' c) w)).
Proof. intros M c c' u L. apply (offset_dM_mat_delta05_at M (vsub c' c) u). lia. Qed.

(** ** The moments of a leaf: one [+= from_vec(x - s)] per particle, then [*= mass] *)
Theorem C46_leaf_moments : forall o (xs : list vec3) (m : R) (s : vec3),
  mass_of o
    (mass_scale o (fold_left (fun Q x => mass_acc o Q (mass_from_vec o (v3sub x s))) xs (mass_zeros o)) m)
    (map (fun x => (m, x)) xs) s.
Proof.
  intros o xs m s.
  assert (G : forall l Q P, mass_of o Q P s ->
     mass_of o (fold_left (fun Q x => mass_acc o Q (mass_from_vec o (v3sub x s))) l Q) (P ++ map (fun x => (1, x)) l) s).
  { induction l as [|x l IH]; intros Q P H; cbn [fold_left map].
    - rewrite app_nil_r. exact H.
    - replace (P ++ (1, x) :: map (fun x0 => (1, x0)) l) with ((P ++ [(1, x)]) ++ map (fun x0 => (1, x0)) l)
        by (rewrite <- app_assoc; reflexivity).
      apply IH. apply mass_of_acc; [exact H|]. apply mass_of_from_vec. }
  pose proof (mass_of_scale o _ _ s m (G xs (mass_zeros o) [] (mass_of_zeros o s))) as H.
  cbn [app] in H. rewrite map_map in H. cbn [fst snd] in H.
  rewrite (map_ext (fun x => (1 * m, x)) (fun x => (m, x))) in H by (intros; f_equal; ring). exact H.
Qed.
(** merging the moments of two cells at a new centre *)
Theorem C46_merge_moments : forall o QL QR PL PR cl cr c,
  mass_of o QL PL cl -> mass_of o QR PR cr ->
  mass_of o (mass_acc o (mass_acc o (mass_zeros o) (offset_multipole o QL cl c)) (offset_multipole o QR cr c)) (PL ++ PR) c.
Proof.
  intros o QL QR PL PR cl cr c HL HR.
  apply mass_of_acc; [|apply mass_of_offset; exact HR].
  change PL with ([] ++ PL). apply mass_of_acc; [apply mass_of_zeros | apply mass_of_offset; exact HL].
Qed.

(** ** The local expansion of distant masses, evaluated at a point: the sum over the masses of the
    order-(p-1) Taylor expansion of grad 1/|r| around the separation of the two centres *)
Theorem C46_far_field : forall o Q P sA sB x i,
  mass_of o Q P sB ->
  comp (contract_to_force o (mass_from_vec o (v3sub x sA)) (get_dM_mat o (green_der o (v3sub sB sA)) Q)) i =
  Rsum (fun mx => fst mx * taylor (fun r w => at05 (green05 r) w) (ordn o - 1) (vsub sB sA)
                              (vsub (vsub (snd mx) sB) (vsub x sA)) i) P.
Proof. exact field_of_m2l. Qed.
(** moving a local expansion to another centre leaves the field it describes unchanged, everywhere *)
Theorem C46_local_translation : forall o dM c c' x,
  contract_to_force o (mass_from_vec o (v3sub x c')) (offset_dM_mat o dM c c') =
  contract_to_force o (mass_from_vec o (v3sub x c)) dM.
Proof.
  intros o dM c c' x.
  pose proof (field_of_offset o dM c c' x X0) as H0. pose proof (field_of_offset o dM c c' x X1) as H1.
  pose proof (field_of_offset o dM c c' x X2) as H2. unfold field_of in H0, H1, H2. cbn [comp] in H0, H1, H2.
  change (v3sub x c') with (vsub x c'). change (v3sub x c) with (vsub x c).
  destruct (contract_to_force o (mass_from_vec o (vsub x c')) (offset_dM_mat o dM c c')) as [a0 a1 a2].
  destruct (contract_to_force o (mass_from_vec o (vsub x c)) dM) as [b0 b1 b2]. cbn [vx vy vz] in H0, H1, H2. subst. reflexivity.
Qed.
(** adding local expansions adds their fields *)
Theorem C46_local_sum : forall o A B c x i,
  comp (contract_to_force o (mass_from_vec o (v3sub x c)) (grav_acc o A B)) i =
  comp (contract_to_force o (mass_from_vec o (v3sub x c)) A) i + comp (contract_to_force o (mass_from_vec o (v3sub x c)) B) i.
Proof. exact field_of_acc. Qed.

(** ** A concrete case: one mass 3 at distance 2 on the x axis, order 1: the attraction 3/4 *)
Example C46_nonvacuous :
  let Q := mass_scale M1 (fold_left (fun Q x => mass_acc M1 Q (mass_from_vec M1 (v3sub x (mkv 2 0 0)))) [mkv 2 0 0] (mass_zeros M1)) 3 in
  mass_of M1 Q [(3, mkv 2 0 0)] (mkv 2 0 0) /\
  comp (contract_to_force M1 (mass_from_vec M1 (v3sub (mkv 0 0 0) (mkv 0 0 0)))
     (get_dM_mat M1 (green_der M1 (v3sub (mkv 2 0 0) (mkv 0 0 0))) Q)) X0 = - (3 / 4) /\
  0 < norm2 (mkv 2 0 0).
Proof.
  cbv zeta. split; [exact (C46_leaf_moments M1 [mkv 2 0 0] 3 (mkv 2 0 0))|]. split.
  - assert (E : sqrt ((2 - 0) * (2 - 0) + (0 - 0) * (0 - 0) + (0 - 0) * (0 - 0)) = 2).
    { replace ((2 - 0) * (2 - 0) + (0 - 0) * (0 - 0) + (0 - 0) * (0 - 0)) with (2 * 2) by ring. apply sqrt_square. lra. }
    cbv beta iota zeta delta -[Rplus Rmult Rminus Ropp IZR Rdiv Rinv sqrt]. rewrite E. field.
  - unfold norm2. cbn [vx vy vz]. lra.
Qed.

Print Assumptions C46_contractions.
Print Assumptions C46_collections.
Print Assumptions C46_store_load.
Print Assumptions C46_green_derivatives.
Print Assumptions C46_green_variants.
Print Assumptions C46_offset_multipole.
Print Assumptions C46_M_mat.
Print Assumptions C46_dM_mat.
Print Assumptions C46_offset_M_mat.
Print Assumptions C46_leaf_moments.
Print Assumptions C46_merge_moments.
Print Assumptions C46_far_field.
Print Assumptions C46_local_translation.
Print Assumptions C46_local_sum.
