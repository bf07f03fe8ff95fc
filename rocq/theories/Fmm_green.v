(** The derivative tensors computed by the code are the partial derivatives of 1/|r|. *)
Require Import Reals List Lia Lra.
From Verif Require Import Fmm_tensors Fmm_ops Fmm_spec Fmm_proofs1.
Import ListNotations.
Local Open Scope R_scope.

(** the radial factors g0 .. g5 of the code *)
Definition rsq (r : vec3) : R := vx r * vx r + vy r * vy r + vz r * vz r.
Fixpoint G (n : nat) (r : vec3) : R :=
  match n with
  | O => 1 / sqrt (rsq r)
  | S k => (- (INR (2 * k + 1))) * (1 / rsq r) * G k r
  end.

(** green05 with the radial factors named *)
Definition greenP (r : vec3) : col05 :=
  let r1 := (vx r) in
  let r2 := (vy r) in
  let r3 := (vz r) in
  let r1pow2 := ((vx r) * (vx r)) in
  let r2pow2 := ((vy r) * (vy r)) in
  let r3pow2 := ((vz r) * (vz r)) in
  let r1pow3 := ((vx r) * r1pow2) in
  let r2pow3 := ((vy r) * r2pow2) in
  let r3pow3 := ((vz r) * r3pow2) in
  let r1pow4 := ((vx r) * r1pow3) in
  let r2pow4 := ((vy r) * r2pow3) in
  let r3pow4 := ((vz r) * r3pow3) in
  let r1pow5 := ((vx r) * r1pow4) in
  let r2pow5 := ((vy r) * r2pow4) in
  let r3pow5 := ((vz r) * r3pow4) in
  let rsq := ((r1pow2 + r2pow2) + r3pow2) in
  let rnorm := (sqrt rsq) in
  let rm2 := (1 / rsq) in
  let g0 := G 0%nat r in
  let g1 := G 1%nat r in
  let g2 := G 2%nat r in
  let g3 := G 3%nat r in
  let g4 := G 4%nat r in
  let g5 := G 5%nat r in
  let D5 := (mk5 ((((15 * g3) * r1) + ((10 * g4) * r1pow3)) + (g5 * r1pow5)) ((((3 * g3) + ((6 * g4) * r1pow2)) + (g5 * r1pow4)) * r2) ((((3 * g3) + ((6 * g4) * r1pow2)) + (g5 * r1pow4)) * r3) (((((3 * g3) * r1) + (g4 * r1pow3)) + (((3 * g4) * r1) * r2pow2)) + ((g5 * r1pow3) * r2pow2)) (((((3 * g4) * r1) + (g5 * r1pow3)) * r2) * r3) (((((3 * g3) * r1) + (g4 * r1pow3)) + (((3 * g4) * r1) * r3pow2)) + ((g5 * r1pow3) * r3pow2)) (((((3 * g3) * r2) + (((3 * g4) * r1pow2) * r2)) + (g4 * r2pow3)) + ((g5 * r1pow2) * r2pow3)) ((((g3 + (g4 * r1pow2)) + (g4 * r2pow2)) + ((g5 * r1pow2) * r2pow2)) * r3) (r2 * (((g3 + (g4 * r1pow2)) + (g4 * r3pow2)) + ((g5 * r1pow2) * r3pow2))) (((((3 * g3) * r3) + (((3 * g4) * r1pow2) * r3)) + (g4 * r3pow3)) + ((g5 * r1pow2) * r3pow3)) (r1 * (((3 * g3) + ((6 * g4) * r2pow2)) + (g5 * r2pow4))) ((r1 * (((3 * g4) * r2) + (g5 * r2pow3))) * r3) (r1 * (((g3 + (g4 * r2pow2)) + (g4 * r3pow2)) + ((g5 * r2pow2) * r3pow2))) ((r1 * r2) * (((3 * g4) * r3) + (g5 * r3pow3))) (r1 * (((3 * g3) + ((6 * g4) * r3pow2)) + (g5 * r3pow4))) ((((15 * g3) * r2) + ((10 * g4) * r2pow3)) + (g5 * r2pow5)) ((((3 * g3) + ((6 * g4) * r2pow2)) + (g5 * r2pow4)) * r3) (((((3 * g3) * r2) + (g4 * r2pow3)) + (((3 * g4) * r2) * r3pow2)) + ((g5 * r2pow3) * r3pow2)) (((((3 * g3) * r3) + (((3 * g4) * r2pow2) * r3)) + (g4 * r3pow3)) + ((g5 * r2pow2) * r3pow3)) (r2 * (((3 * g3) + ((6 * g4) * r3pow2)) + (g5 * r3pow4))) ((((15 * g3) * r3) + ((10 * g4) * r3pow3)) + (g5 * r3pow5))) in
  let D4 := (mk4 (((3 * g2) + ((6 * g3) * r1pow2)) + (g4 * r1pow4)) ((((3 * g3) * r1) * r2) + ((g4 * r1pow3) * r2)) ((((3 * g3) * r1) * r3) + ((g4 * r1pow3) * r3)) (((g2 + (g3 * r1pow2)) + (g3 * r2pow2)) + ((g4 * r1pow2) * r2pow2)) (((g3 + (g4 * r1pow2)) * r2) * r3) (((g2 + (g3 * r1pow2)) + (g3 * r3pow2)) + ((g4 * r1pow2) * r3pow2)) ((((3 * g3) * r1) * r2) + ((g4 * r1) * r2pow3)) ((r1 * (g3 + (g4 * r2pow2))) * r3) ((r1 * r2) * (g3 + (g4 * r3pow2))) ((((3 * g3) * r1) * r3) + ((g4 * r1) * r3pow3)) (((3 * g2) + ((6 * g3) * r2pow2)) + (g4 * r2pow4)) ((((3 * g3) * r2) * r3) + ((g4 * r2pow3) * r3)) (((g2 + (g3 * r2pow2)) + (g3 * r3pow2)) + ((g4 * r2pow2) * r3pow2)) ((((3 * g3) * r2) * r3) + ((g4 * r2) * r3pow3)) (((3 * g2) + ((6 * g3) * r3pow2)) + (g4 * r3pow4))) in
  let D3 := (mk3 (((3 * g2) * r1) + (g3 * r1pow3)) ((g2 * r2) + ((g3 * r1pow2) * r2)) ((g2 * r3) + ((g3 * r1pow2) * r3)) ((g2 * r1) + ((g3 * r1) * r2pow2)) (((g3 * r1) * r2) * r3) ((g2 * r1) + ((g3 * r1) * r3pow2)) (((3 * g2) * r2) + (g3 * r2pow3)) ((g2 * r3) + ((g3 * r2pow2) * r3)) ((g2 * r2) + ((g3 * r2) * r3pow2)) (((3 * g2) * r3) + (g3 * r3pow3))) in
  let D2 := (mk2 (g1 + (g2 * r1pow2)) ((g2 * r1) * r2) ((g2 * r1) * r3) (g1 + (g2 * r2pow2)) ((g2 * r2) * r3) (g1 + (g2 * r3pow2))) in
  let D1 := (mk1 (g1 * r1) (g1 * r2) (g1 * r3)) in
  let D0 := g0 in
  (mkc05 D0 D1 D2 D3 D4 D5).

Lemma G1 : forall r, G 1 r = (- 1) * (1 / rsq r) * G 0 r.
Proof. intro r. cbn [G]. replace (INR (2 * 0 + 1)) with 1 by (rewrite INR_IZR_INZ; reflexivity). reflexivity. Qed.
Lemma G2 : forall r, G 2 r = (- 3) * (1 / rsq r) * G 1 r.
Proof. intro r. cbn [G]. replace (INR (2 * 1 + 1)) with 3 by (rewrite INR_IZR_INZ; reflexivity). reflexivity. Qed.
Lemma G3 : forall r, G 3 r = (- 5) * (1 / rsq r) * G 2 r.
Proof. intro r. cbn [G]. replace (INR (2 * 2 + 1)) with 5 by (rewrite INR_IZR_INZ; reflexivity). reflexivity. Qed.
Lemma G4 : forall r, G 4 r = (- 7) * (1 / rsq r) * G 3 r.
Proof. intro r. cbn [G]. replace (INR (2 * 3 + 1)) with 7 by (rewrite INR_IZR_INZ; reflexivity). reflexivity. Qed.
Lemma G5 : forall r, G 5 r = (- 9) * (1 / rsq r) * G 4 r.
Proof. intro r. cbn [G]. replace (INR (2 * 4 + 1)) with 9 by (rewrite INR_IZR_INZ; reflexivity). reflexivity. Qed.

Lemma green05_eq : forall r, green05 r = greenP r.
Proof.
  intro r. unfold greenP. cbv zeta.
  rewrite (G5 r), (G4 r), (G3 r), (G2 r), (G1 r). reflexivity.
Qed.

(** * Differentiation along one axis *)
Lemma dext : forall f x d d', derivable_pt_lim f x d -> d = d' -> derivable_pt_lim f x d'.
Proof. intros; subst; assumption. Qed.
Lemma dconst : forall c x, derivable_pt_lim (fun _ => c) x 0.
Proof. intros. apply (derivable_pt_lim_const c x). Qed.
Lemma did : forall x, derivable_pt_lim (fun t => t) x 1.
Proof. intros. apply (derivable_pt_lim_id x). Qed.
Lemma dplus : forall f g x a b, derivable_pt_lim f x a -> derivable_pt_lim g x b ->
  derivable_pt_lim (fun t => f t + g t) x (a + b).
Proof. intros f g x a b Hf Hg. exact (derivable_pt_lim_plus f g x a b Hf Hg). Qed.
Lemma dmult : forall f g x a b, derivable_pt_lim f x a -> derivable_pt_lim g x b ->
  derivable_pt_lim (fun t => f t * g t) x (a * g x + f x * b).
Proof. intros f g x a b Hf Hg. exact (derivable_pt_lim_mult f g x a b Hf Hg). Qed.
Lemma dinv : forall f x a, derivable_pt_lim f x a -> f x <> 0 ->
  derivable_pt_lim (fun t => 1 / f t) x (- a / (f x * f x)).
Proof.
  intros f x a Hf Hn.
  pose proof (derivable_pt_lim_div (fct_cte 1) f x 0 a (derivable_pt_lim_const 1 x) Hf Hn) as H.
  eapply dext; [exact H|]. unfold fct_cte, Rsqr. field. exact Hn.
Qed.
Lemma dsqrt : forall f x a, derivable_pt_lim f x a -> 0 < f x ->
  derivable_pt_lim (fun t => sqrt (f t)) x (a / (2 * sqrt (f x))).
Proof.
  intros f x a Hf Hp.
  pose proof (derivable_pt_lim_comp f sqrt x a (/ (2 * sqrt (f x))) Hf (derivable_pt_lim_sqrt _ Hp)) as H.
  eapply dext; [exact H|]. unfold Rdiv. ring.
Qed.

Lemma drsq : forall r i, derivable_pt_lim (fun t => rsq (setc r i t)) (comp r i) (2 * comp r i).
Proof.
  intros [x y z] i. destruct i; cbv [rsq setc comp vx vy vz];
  (eapply dext; [repeat (apply dplus || apply dmult || apply did || apply dconst)|]; cbv beta; ring).
Qed.
Lemma setc_id : forall r i, setc r i (comp r i) = r.
Proof. intros [x y z] []; reflexivity. Qed.

Lemma dG : forall n r i, 0 < rsq r ->
  derivable_pt_lim (fun t => G n (setc r i t)) (comp r i) (comp r i * G (S n) r).
Proof.
  intros n r i Hp.
  assert (Hs : 0 < sqrt (rsq r)) by (apply sqrt_lt_R0; exact Hp).
  assert (Hp' : 0 < rsq (setc r i (comp r i))) by (rewrite setc_id; exact Hp).
  assert (Hs' : 0 < sqrt (rsq (setc r i (comp r i)))) by (rewrite setc_id; exact Hs).
  induction n as [|n IH].
  - eapply dext.
    + cbn [G]. apply (dinv (fun t => sqrt (rsq (setc r i t)))); [|lra].
      apply (dsqrt (fun t => rsq (setc r i t))); [apply drsq | exact Hp'].
    + cbv beta. rewrite setc_id. cbn [G]. replace (INR (2 * 0 + 1)) with 1 by (rewrite INR_IZR_INZ; reflexivity).
      replace (rsq r) with (sqrt (rsq r) * sqrt (rsq r)) at 4 by (apply sqrt_sqrt; lra).
      field. lra.
  - eapply dext.
    + apply (dmult (fun t => (- INR (2 * n + 1)) * (1 / rsq (setc r i t))) (fun t => G n (setc r i t))); [|exact IH].
      apply (dmult (fun _ => - INR (2 * n + 1)) (fun t => 1 / rsq (setc r i t))); [apply dconst|]. apply (dinv (fun t => rsq (setc r i t))); [apply drsq | lra].
    + cbv beta. rewrite setc_id. cbn [G].
      replace (INR (2 * S n + 1)) with (INR (2 * n + 1) + 2).
      * field. lra.
      * replace (2 * S n + 1)%nat with ((2 * n + 1) + 2)%nat by lia. rewrite (plus_INR (2 * n + 1) 2). simpl (INR 2). ring.
Qed.
Lemma dG0 : forall n x y z, 0 < rsq (mkv x y z) -> derivable_pt_lim (fun t => G n (mkv t y z)) x (x * G (S n) (mkv x y z)).
Proof. intros n x y z H. exact (dG n (mkv x y z) X0 H). Qed.
Lemma dG1 : forall n x y z, 0 < rsq (mkv x y z) -> derivable_pt_lim (fun t => G n (mkv x t z)) y (y * G (S n) (mkv x y z)).
Proof. intros n x y z H. exact (dG n (mkv x y z) X1 H). Qed.
Lemma dG2 : forall n x y z, 0 < rsq (mkv x y z) -> derivable_pt_lim (fun t => G n (mkv x y t)) z (z * G (S n) (mkv x y z)).
Proof. intros n x y z H. exact (dG n (mkv x y z) X2 H). Qed.

Ltac dstep Hp :=
  lazymatch goal with
  | |- derivable_pt_lim (fun _ => ?c) _ _ => apply (dconst c)
  | |- derivable_pt_lim (fun t => t) _ _ => apply did
  | |- derivable_pt_lim (fun t => G ?n (mkv t ?y ?z)) _ _ => apply (dG0 n _ y z Hp)
  | |- derivable_pt_lim (fun t => G ?n (mkv ?x t ?z)) _ _ => apply (dG1 n x _ z Hp)
  | |- derivable_pt_lim (fun t => G ?n (mkv ?x ?y t)) _ _ => apply (dG2 n x y _ Hp)
  | |- derivable_pt_lim (fun t => @?f t + @?g t) _ _ => apply (dplus f g)
  | |- derivable_pt_lim (fun t => @?f t * @?g t) _ _ => apply (dmult f g)
  end.
Ltac gcrunch := cbv beta iota zeta delta -[Rplus Rmult Rminus Ropp IZR Rdiv Rinv G rsq derivable_pt_lim].

Lemma greenP_der : forall r w i, 0 < rsq r -> (length w <= 4)%nat ->
  derivable_pt_lim (fun t => at05 (greenP (setc r i t)) w) (comp r i) (at05 (greenP r) (i :: w)).
Proof.
  intros [x y z] w i Hp L.
  destruct i; (assert (H : length w = 4%nat \/ length w = 3%nat \/ length w = 2%nat \/ length w = 1%nat \/ length w = 0%nat) by lia;
   clear L; destruct H as [L|[L|[L|[L|L]]]];
   [fin w 4%nat|fin w 3%nat|fin w 2%nat|fin w 1%nat|fin w 0%nat];
   gcrunch; (eapply dext; [repeat dstep Hp | cbv beta; ring])).
Qed.
Lemma green00_at : forall r w, (0 <= length w <= 0)%nat -> at00 (green00 r) w = at05 (green05 r) w.
Proof.
  intros r w L.
  assert (H : length w = 0%nat) by lia. clear L.
  rename H into L; unfold at00, at05; rewrite L; reflexivity.
Qed.
Lemma green01_at : forall r w, (0 <= length w <= 1)%nat -> at01 (green01 r) w = at05 (green05 r) w.
Proof.
  intros r w L.
  assert (H : length w = 0%nat \/ length w = 1%nat) by lia. clear L.
  destruct H as [L|L]; unfold at01, at05; rewrite L; reflexivity.
Qed.
Lemma green02_at : forall r w, (0 <= length w <= 2)%nat -> at02 (green02 r) w = at05 (green05 r) w.
Proof.
  intros r w L.
  assert (H : length w = 0%nat \/ length w = 1%nat \/ length w = 2%nat) by lia. clear L.
  destruct H as [L|[L|L]]; unfold at02, at05; rewrite L; reflexivity.
Qed.
Lemma green03_at : forall r w, (0 <= length w <= 3)%nat -> at03 (green03 r) w = at05 (green05 r) w.
Proof.
  intros r w L.
  assert (H : length w = 0%nat \/ length w = 1%nat \/ length w = 2%nat \/ length w = 3%nat) by lia. clear L.
  destruct H as [L|[L|[L|L]]]; unfold at03, at05; rewrite L; reflexivity.
Qed.
Lemma green04_at : forall r w, (0 <= length w <= 4)%nat -> at04 (green04 r) w = at05 (green05 r) w.
Proof.
  intros r w L.
  assert (H : length w = 0%nat \/ length w = 1%nat \/ length w = 2%nat \/ length w = 3%nat \/ length w = 4%nat) by lia. clear L.
  destruct H as [L|[L|[L|[L|L]]]]; unfold at04, at05; rewrite L; reflexivity.
Qed.
Lemma green11_at : forall r w, (1 <= length w <= 1)%nat -> at11 (green11 r) w = at05 (green05 r) w.
Proof.
  intros r w L.
  assert (H : length w = 1%nat) by lia. clear L.
  rename H into L; unfold at11, at05; rewrite L; reflexivity.
Qed.
Lemma green12_at : forall r w, (1 <= length w <= 2)%nat -> at12 (green12 r) w = at05 (green05 r) w.
Proof.
  intros r w L.
  assert (H : length w = 1%nat \/ length w = 2%nat) by lia. clear L.
  destruct H as [L|L]; unfold at12, at05; rewrite L; reflexivity.
Qed.
Lemma green13_at : forall r w, (1 <= length w <= 3)%nat -> at13 (green13 r) w = at05 (green05 r) w.
Proof.
  intros r w L.
  assert (H : length w = 1%nat \/ length w = 2%nat \/ length w = 3%nat) by lia. clear L.
  destruct H as [L|[L|L]]; unfold at13, at05; rewrite L; reflexivity.
Qed.
Lemma green14_at : forall r w, (1 <= length w <= 4)%nat -> at14 (green14 r) w = at05 (green05 r) w.
Proof.
  intros r w L.
  assert (H : length w = 1%nat \/ length w = 2%nat \/ length w = 3%nat \/ length w = 4%nat) by lia. clear L.
  destruct H as [L|[L|[L|L]]]; unfold at14, at05; rewrite L; reflexivity.
Qed.
Lemma green15_at : forall r w, (1 <= length w <= 5)%nat -> at15 (green15 r) w = at05 (green05 r) w.
Proof.
  intros r w L.
  assert (H : length w = 1%nat \/ length w = 2%nat \/ length w = 3%nat \/ length w = 4%nat \/ length w = 5%nat) by lia. clear L.
  destruct H as [L|[L|[L|[L|L]]]]; unfold at15, at05; rewrite L; reflexivity.
Qed.

Theorem green05_derivatives : potential_derivatives 5 (fun r w => at05 (green05 r) w).
Proof.
  split.
  - intros r Hr. unfold at05. cbn [length]. change (c05_t0 (green05 r)) with (1 / sqrt (rsq r)).
    unfold Rdiv. rewrite Rmult_1_l. reflexivity.
  - intros r w i Hr L. rewrite green05_eq.
    intros e He. destruct (greenP_der r w i Hr ltac:(lia) e He) as [del Hd]. exists del.
    intros h H0 H1. rewrite !green05_eq. exact (Hd h H0 H1).
Qed.
