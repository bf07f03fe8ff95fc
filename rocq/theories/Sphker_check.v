(** A decidable check of a kernel given as piecewise polynomials, and what it implies. *)
Require Import Reals Lra QArith Qreals List Bool.
From Coquelicot Require Import Coquelicot.
From Verif Require Import Pwpoly Sphker.
Import ListNotations.
Local Open Scope R_scope.

(** f, df, ddf; q phi / pi, q^2 phi' / pi; antiderivatives of f and q f from 0; certificates of sign *)
Record kdata := { d_r : Q; d_n1 : Q; d_n2 : Q; d_n3 : Q; d_f : pw; d_df : pw; d_ddf : pw; d_A : pw; d_B : pw; d_K1 : pw; d_K2 : pw;
  d_cf : list (list Q); d_cdf : option (list (list Q)); d_smooth : bool }.
Record kernel_fits (K : kernel) (D : kdata) : Prop := {
  kf_r : Rkern K = Q2R (d_r D); kf_1 : norm_1d K = Q2R (d_n1 D); kf_2 : norm_2d K = Q2R (d_n2 D) / PI; kf_3 : norm_3d K = Q2R (d_n3 D) / PI;
  kf_f : forall q, f K q = pweval (d_f D) q; kf_df : forall q, df K q = pweval (d_df D) q; kf_ddf : forall q, ddf K q = pweval (d_ddf D) q;
  kf_A : forall q, 0 < q -> phi_tilde_3d K q = PI * pweval (d_A D) q / q;
  kf_B : forall q, 0 < q -> phi_tilde_3d_prime K q = PI * pweval (d_B D) q / (q * q) }.
Ltac fits1 :=
  intros; cbv [pweval pweval' peval fst snd Q2R Qnum Qden pow_constexpr];
  repeat match goal with |- context [Rlt_dec ?a ?b] => destruct (Rlt_dec a b) end;
  first [exfalso; lra | field; repeat split; try lra; apply PI_neq0 | lra].
Ltac fits := fits1.

Definition allle (F : pw) (r : Q) : bool := forallb (fun bp : Q * poly => Qle_bool (fst bp) r) (fst F).
Fixpoint pweq' (F G : list (Q * poly)) (tF tG : poly) : bool :=
  match F, G with
  | [], [] => peq tF tG
  | (b, p) :: F', (b', p') :: G' => Qeq_bool b b' && peq p p' && pweq' F' G' tF tG
  | _, _ => false
  end.
Definition pweq (F G : pw) : bool := pweq' (fst F) (fst G) (snd F) (snd G).
Lemma pweq_ok F G x : pweq F G = true -> pweval F x = pweval G x.
Proof.
  destruct F as [F tF], G as [G tG]. unfold pweq, pweval. cbn [fst snd]. revert G. induction F as [|[b p] F IH]; intros [|[b' p'] G] H; cbn [pweq'] in H; try discriminate.
  - now apply peq_ok.
  - rewrite !andb_true_iff in H. destruct H as [[H1 H2] H3]. apply Qeq_bool_iff, Qeq_eqR in H1. cbn [pweval']. rewrite H1. destruct (Rlt_dec _ _); [now apply peq_ok|auto].
Qed.
Definition pw0 (F : pw) (x : Q) : Q := pwq (fst F) (snd F) x.
Lemma pw0_ok F x : Q2R (pw0 F x) = pweval F (Q2R x).
Proof. apply pwq_ok. Qed.
Definition qA (p : poly) : poly := padd (pmul [0%Q; 1%Q] (pderiv p)) (pscale (-1) p).

Definition kernel_check (D : kdata) : bool :=
  check_deriv (d_f D) (d_df D) &&
  (if d_smooth D then check_deriv (d_df D) (d_ddf D) else check_deriv_j (d_df D) (d_ddf D)) &&
  check_pos (d_f D) (d_cf D) &&
  match d_cdf D with Some c => check_pos (pwmap (pscale (-1)) (d_df D)) c | None => true end &&
  (pzero (snd (d_f D)) && pzero (snd (d_df D)) && pzero (snd (d_ddf D))) &&
  (allle (d_f D) (d_r D) && allle (d_df D) (d_r D) && allle (d_ddf D) (d_r D) && allle (d_A D) (d_r D)) &&
  check_deriv (d_A D) (pwmap pderiv (d_A D)) && pweq (d_B D) (pwmap qA (d_A D)) &&
  check_deriv (d_B D) (pwmap (fun p => pscale 4 (pmul [0%Q; 0%Q; 1%Q] p)) (d_f D)) &&
  Qeq_bool (pw0 (d_B D) 0) 0 && peq (snd (d_A D)) [(- / d_n3 D)%Q] &&
  check_deriv (d_K1 D) (d_f D) && check_deriv (d_K2 D) (pwmap (pmul [0%Q; 1%Q]) (d_f D)) &&
  Qeq_bool (pw0 (d_K1 D) 0) 0 && Qeq_bool (pw0 (d_K2 D) 0) 0 &&
  Qeq_bool (2 * d_n1 D * pw0 (d_K1 D) (d_r D)) 1 && Qeq_bool (2 * d_n2 D * pw0 (d_K2 D) (d_r D)) 1 && Qeq_bool (d_n3 D * pw0 (d_B D) (d_r D)) 1 &&
  (qltb 0 (d_n1 D) && qltb 0 (d_n2 D) && qltb 0 (d_n3 D) && qltb 0 (d_r D)).
