(** Piecewise polynomials with rational coefficients: evaluation, and decidable checks (derivative, sign) with their
    soundness.  Only used in proofs: no statement of a property mentions them. *)
Require Import Reals Lra QArith Qreals List Bool.
From Coquelicot Require Import Coquelicot.
Import ListNotations.
Local Open Scope R_scope.

Definition poly := list Q.
Fixpoint peval (p : poly) (x : R) : R := match p with [] => 0 | c :: t => Q2R c + x * peval t x end.
Fixpoint qeval (p : poly) (x : Q) : Q := match p with [] => 0%Q | c :: t => Qred (c + x * qeval t x) end.
Fixpoint padd (p q : poly) : poly :=
  match p, q with
  | [], _ => q
  | _, [] => p
  | a :: p', b :: q' => Qred (a + b) :: padd p' q'
  end.
Definition pscale (k : Q) (p : poly) : poly := map (fun c => Qred (k * c)) p.
Fixpoint pmul (p q : poly) : poly := match p with [] => [] | a :: p' => padd (pscale a q) (0%Q :: pmul p' q) end.
Fixpoint pderiv (p : poly) : poly := match p with [] => [] | _ :: t => padd t (0%Q :: pderiv t) end.
Fixpoint pzero (p : poly) : bool := match p with [] => true | a :: p' => Qeq_bool a 0 && pzero p' end.
Definition peq (p q : poly) : bool := pzero (padd p (pscale (-1) q)).

Lemma Q2R_red a : Q2R (Qred a) = Q2R a.
Proof. apply Qeq_eqR. apply Qred_correct. Qed.
Lemma Q2R_0 : Q2R 0 = 0.
Proof. unfold Q2R. cbn. lra. Qed.
Lemma padd_ok p : forall q x, peval (padd p q) x = peval p x + peval q x.
Proof.
  induction p as [|a p IH]; intros [|b q] x; cbn [padd peval]; try ring. rewrite Q2R_red, Q2R_plus, IH. ring.
Qed.
Lemma pscale_ok k p x : peval (pscale k p) x = Q2R k * peval p x.
Proof. induction p as [|a p IH]; cbn [pscale map peval]; [ring|]. fold (pscale k p). rewrite Q2R_red, Q2R_mult, IH. ring. Qed.
Lemma pmul_ok p : forall q x, peval (pmul p q) x = peval p x * peval q x.
Proof. induction p as [|a p IH]; intros q x; cbn [pmul peval]; [ring|]. rewrite padd_ok, pscale_ok. cbn [peval]. rewrite IH, Q2R_0. ring. Qed.
Lemma pzero_ok p x : pzero p = true -> peval p x = 0.
Proof.
  induction p as [|a p IH]; cbn [pzero peval]; auto. rewrite andb_true_iff. intros [A B]. apply Qeq_bool_iff in A. rewrite (Qeq_eqR _ _ A), Q2R_0, IH by auto. ring.
Qed.
Lemma peq_ok p q x : peq p q = true -> peval p x = peval q x.
Proof.
  intros H. apply (pzero_ok _ x) in H. rewrite padd_ok, pscale_ok in H. assert (E : Q2R (-1) = -1) by (unfold Q2R; cbn; lra). rewrite E in H. lra.
Qed.
Lemma qeval_ok p x : Q2R (qeval p x) = peval p (Q2R x).
Proof. induction p as [|a p IH]; cbn [qeval peval]; [apply Q2R_0|]. rewrite Q2R_red, Q2R_plus, Q2R_mult, IH. reflexivity. Qed.
Lemma pderiv_ok p x : derivable_pt_lim (peval p) x (peval (pderiv p) x).
Proof.
  induction p as [|a p IH]; cbn [pderiv peval].
  - apply derivable_pt_lim_const.
  - rewrite padd_ok. cbn [peval]. rewrite Q2R_0.
    replace (peval p x + (0 + x * peval (pderiv p) x)) with (0 + (1 * peval p x + x * peval (pderiv p) x)) by ring.
    apply (derivable_pt_lim_plus (fct_cte (Q2R a)) (fun x => id x * peval p x)); [apply derivable_pt_lim_const|].
    apply (derivable_pt_lim_mult id (peval p)); [apply derivable_pt_lim_id|apply IH].
Qed.

(** ** Pieces *)
Definition pw := (list (Q * poly) * poly)%type.
Fixpoint pweval' (l : list (Q * poly)) (tl : poly) (x : R) : R :=
  match l with [] => peval tl x | (b, p) :: t => if Rlt_dec x (Q2R b) then peval p x else pweval' t tl x end.
Definition pweval (F : pw) := pweval' (fst F) (snd F).
Definition qltb (a b : Q) : bool := negb (Qle_bool b a).
Fixpoint pwq (l : list (Q * poly)) (tl : poly) (x : Q) : Q :=
  match l with [] => qeval tl x | (b, p) :: t => if qltb x b then qeval p x else pwq t tl x end.
Lemma qltb_ok a b : qltb a b = true <-> Q2R a < Q2R b.
Proof.
  unfold qltb. rewrite negb_true_iff. split.
  - intros H. destruct (Rlt_le_dec (Q2R a) (Q2R b)) as [L|L]; auto. apply Rle_Qle in L. apply Qle_bool_iff in L. congruence.
  - intros H. destruct (Qle_bool b a) eqn:E; auto. apply Qle_bool_iff in E. apply Qle_Rle in E. lra.
Qed.
Lemma pwq_ok l tl x : Q2R (pwq l tl x) = pweval' l tl (Q2R x).
Proof.
  induction l as [|[b p] l IH]; cbn [pwq pweval']; [apply qeval_ok|]. destruct (qltb x b) eqn:E, (Rlt_dec (Q2R x) (Q2R b)) as [L|L].
  - apply qeval_ok. - apply qltb_ok in E. lra. - apply qltb_ok in L. congruence. - apply IH.
Qed.

Lemma glue (b : R) (f g df dg : R -> R) x : (x <= b -> derivable_pt_lim f x (df x)) -> (b <= x -> derivable_pt_lim g x (dg x)) -> f b = g b -> df b = dg b ->
  derivable_pt_lim (fun y => if Rlt_dec y b then f y else g y) x (if Rlt_dec x b then df x else dg x).
Proof.
  intros HF HG E1 E2 eps He. destruct (Rlt_dec x b) as [L|L].
  - destruct (HF (Rlt_le _ _ L) eps He) as (d & Hd). assert (P : 0 < Rmin d (b - x)) by (apply Rmin_glb_lt; [apply d|lra]). exists (mkposreal _ P). cbn [pos]. intros h Hh Hl.
    assert (B1 : Rabs h < d) by (eapply Rlt_le_trans; [exact Hl|apply Rmin_l]). assert (B2 : Rabs h < b - x) by (eapply Rlt_le_trans; [exact Hl|apply Rmin_r]).
    destruct (Rlt_dec (x + h) b) as [L2|L2]; [|exfalso; apply L2; pose proof (Rle_abs h); lra]. now apply Hd.
  - destruct (Req_dec x b) as [->|NE].
    + destruct (HF (Rle_refl _) eps He) as (d & Hd). destruct (HG (Rle_refl _) eps He) as (d' & Hd'). assert (P : 0 < Rmin d d') by (apply Rmin_glb_lt; [apply d|apply d']).
      exists (mkposreal _ P). cbn [pos]. intros h Hh Hl.
      assert (B1 : Rabs h < d) by (eapply Rlt_le_trans; [exact Hl|apply Rmin_l]). assert (B2 : Rabs h < d') by (eapply Rlt_le_trans; [exact Hl|apply Rmin_r]).
      destruct (Rlt_dec (b + h) b) as [L2|L2]; [|now apply Hd']. rewrite <- E1, <- E2. now apply Hd.
    + assert (G : b < x) by lra. destruct (HG (Rlt_le _ _ G) eps He) as (d & Hd). assert (P : 0 < Rmin d (x - b)) by (apply Rmin_glb_lt; [apply d|lra]). exists (mkposreal _ P). cbn [pos]. intros h Hh Hl.
      assert (B1 : Rabs h < d) by (eapply Rlt_le_trans; [exact Hl|apply Rmin_l]). assert (B2 : Rabs h < x - b) by (eapply Rlt_le_trans; [exact Hl|apply Rmin_r]).
      destruct (Rlt_dec (x + h) b) as [L2|L2]; [exfalso; pose proof (Rle_abs (- h)); rewrite Rabs_Ropp in *; lra|]. now apply Hd.
Qed.

(** G is the derivative of F *)
Fixpoint check_deriv' (F : list (Q * poly)) (tF : poly) (G : list (Q * poly)) (tG : poly) : bool :=
  match F, G with
  | [], [] => peq (pderiv tF) tG
  | (b, p) :: F', (b', p') :: G' => Qeq_bool b b' && peq (pderiv p) p' && Qeq_bool (qeval p b) (pwq F' tF b) && Qeq_bool (qeval p' b) (pwq G' tG b) && check_deriv' F' tF G' tG
  | _, _ => false
  end.
Definition check_deriv (F G : pw) : bool := check_deriv' (fst F) (snd F) (fst G) (snd G).
Lemma lim_eq f g x l : (forall y, f y = g y) -> derivable_pt_lim f x l -> derivable_pt_lim g x l.
Proof. intros E H eps He. destruct (H eps He) as (d & Hd). exists d. intros h Hh Hl. rewrite <- !E. now apply Hd. Qed.
Lemma check_deriv'_ok F : forall tF G tG, check_deriv' F tF G tG = true -> forall x, derivable_pt_lim (pweval' F tF) x (pweval' G tG x).
Proof.
  induction F as [|[b p] F IH]; intros tF [|[b' p'] G] tG H x; cbn [check_deriv'] in H; try discriminate.
  - cbn [pweval']. rewrite <- (peq_ok _ _ x H). apply pderiv_ok.
  - rewrite !andb_true_iff in H. destruct H as [[[[H1 H2] H3] H4] H5]. apply Qeq_bool_iff in H1, H3, H4. apply Qeq_eqR in H1, H3, H4.
    rewrite qeval_ok, pwq_ok in H3, H4. cbn [pweval']. rewrite <- H1.
    apply (lim_eq (fun y => if Rlt_dec y (Q2R b) then peval p y else pweval' F tF y)); [reflexivity|].
    apply (glue (Q2R b) (peval p) (pweval' F tF) (peval p') (pweval' G tG)); auto.
    intros _. rewrite <- (peq_ok _ _ x H2). apply pderiv_ok.
Qed.
Lemma check_deriv_ok F G : check_deriv F G = true -> forall x, derivable_pt_lim (pweval F) x (pweval G x).
Proof. apply check_deriv'_ok. Qed.
(** the same, except that G may jump at the break points *)
Fixpoint check_deriv_j' (F : list (Q * poly)) (tF : poly) (G : list (Q * poly)) (tG : poly) : bool :=
  match F, G with
  | [], [] => peq (pderiv tF) tG
  | (b, p) :: F', (b', p') :: G' => Qeq_bool b b' && peq (pderiv p) p' && check_deriv_j' F' tF G' tG
  | _, _ => false
  end.
Definition check_deriv_j (F G : pw) : bool := check_deriv_j' (fst F) (snd F) (fst G) (snd G).
Lemma glue_j (b : R) (f g df dg : R -> R) x : (x < b -> derivable_pt_lim f x (df x)) -> (b < x -> derivable_pt_lim g x (dg x)) -> x <> b ->
  derivable_pt_lim (fun y => if Rlt_dec y b then f y else g y) x (if Rlt_dec x b then df x else dg x).
Proof.
  intros HF HG NE eps He. destruct (Rlt_dec x b) as [L|L].
  - destruct (HF L eps He) as (d & Hd). assert (P : 0 < Rmin d (b - x)) by (apply Rmin_glb_lt; [apply d|lra]). exists (mkposreal _ P). cbn [pos]. intros h Hh Hl.
    assert (B1 : Rabs h < d) by (eapply Rlt_le_trans; [exact Hl|apply Rmin_l]). assert (B2 : Rabs h < b - x) by (eapply Rlt_le_trans; [exact Hl|apply Rmin_r]).
    destruct (Rlt_dec (x + h) b) as [L2|L2]; [|exfalso; apply L2; pose proof (Rle_abs h); lra]. now apply Hd.
  - assert (G : b < x) by lra. destruct (HG G eps He) as (d & Hd). assert (P : 0 < Rmin d (x - b)) by (apply Rmin_glb_lt; [apply d|lra]). exists (mkposreal _ P). cbn [pos]. intros h Hh Hl.
    assert (B1 : Rabs h < d) by (eapply Rlt_le_trans; [exact Hl|apply Rmin_l]). assert (B2 : Rabs h < x - b) by (eapply Rlt_le_trans; [exact Hl|apply Rmin_r]).
    destruct (Rlt_dec (x + h) b) as [L2|L2]; [exfalso; pose proof (Rle_abs (- h)); rewrite Rabs_Ropp in *; lra|]. now apply Hd.
Qed.
Lemma check_deriv_j'_ok F : forall tF G tG, check_deriv_j' F tF G tG = true -> forall x, (forall b, In b (map fst F) -> x <> Q2R b) -> derivable_pt_lim (pweval' F tF) x (pweval' G tG x).
Proof.
  induction F as [|[b p] F IH]; intros tF [|[b' p'] G] tG H x NB; cbn [check_deriv_j'] in H; try discriminate.
  - cbn [pweval']. rewrite <- (peq_ok _ _ x H). apply pderiv_ok.
  - rewrite !andb_true_iff in H. destruct H as [[H1 H2] H5]. apply Qeq_bool_iff in H1. apply Qeq_eqR in H1. cbn [pweval']. rewrite <- H1.
    apply (lim_eq (fun y => if Rlt_dec y (Q2R b) then peval p y else pweval' F tF y)); [reflexivity|].
    apply (glue_j (Q2R b) (peval p) (pweval' F tF) (peval p') (pweval' G tG)).
    + intros _. rewrite <- (peq_ok _ _ x H2). apply pderiv_ok.
    + intros _. apply IH; auto. intros c Hc. apply NB. cbn. auto.
    + apply NB. cbn. auto.
Qed.
Lemma check_deriv_j_ok F G : check_deriv_j F G = true -> forall x, (forall b, In b (map fst (fst F)) -> x <> Q2R b) -> derivable_pt_lim (pweval F) x (pweval G x).
Proof. apply check_deriv_j'_ok. Qed.

(** ** Sign: p = sum of c_i (x - a)^i (b - x)^(n - i) with c_i >= 0 *)
Fixpoint bexp (u v : poly) (c : list Q) : poly :=
  match c with
  | [] => []
  | k :: c' => (* k v^n + u * rest, rest of degree n - 1 *)
      padd (pscale k (fold_right (fun _ r => pmul v r) [1%Q] c')) (pmul u (bexp u v c'))
  end.
Definition pieceok (a b : Q) (p : poly) (c : list Q) : bool :=
  forallb (fun k => Qle_bool 0 k) c && peq p (bexp [(- a)%Q; 1%Q] [b; (-1)%Q] c).
Fixpoint check_pos' (a : Q) (F : list (Q * poly)) (tF : poly) (cs : list (list Q)) : bool :=
  match F, cs with
  | [], [] => pzero tF
  | (b, p) :: F', c :: cs' => Qle_bool a b && pieceok a b p c && check_pos' b F' tF cs'
  | _, _ => false
  end.
Definition check_pos (F : pw) (cs : list (list Q)) : bool := check_pos' 0 (fst F) (snd F) cs.
Lemma Q2R_1 : Q2R 1 = 1. Proof. unfold Q2R. cbn. lra. Qed.
Lemma Q2R_m1 : Q2R (-1) = -1. Proof. unfold Q2R. cbn. lra. Qed.
Lemma bexp_pos u v c x : forallb (fun k => Qle_bool 0 k) c = true -> 0 <= peval u x -> 0 <= peval v x -> 0 <= peval (bexp u v c) x.
Proof.
  intros HC HU HV. induction c as [|k c IH]; cbn [bexp]; [cbn; lra|]. cbn [forallb] in HC. rewrite andb_true_iff in HC. destruct HC as [H1 H2]. apply Qle_bool_iff, Qle_Rle in H1. rewrite Q2R_0 in H1.
  rewrite padd_ok, pscale_ok, pmul_ok. apply Rplus_le_le_0_compat; apply Rmult_le_pos; auto. clear - HV. induction c as [|k c IH]; cbn [fold_right]; [cbn; rewrite Q2R_1; lra|]. rewrite pmul_ok. now apply Rmult_le_pos.
Qed.
Lemma check_pos'_ok F : forall a tF cs, check_pos' a F tF cs = true -> forall x, Q2R a <= x -> 0 <= pweval' F tF x.
Proof.
  induction F as [|[b p] F IH]; intros a tF [|c cs] H x Hx; cbn [check_pos'] in H; try discriminate.
  - cbn [pweval']. rewrite pzero_ok by auto. lra.
  - rewrite !andb_true_iff in H. destruct H as [[H1 H2] H3]. cbn [pweval']. destruct (Rlt_dec x (Q2R b)) as [L|L]; [|apply (IH b tF cs); auto; lra].
    unfold pieceok in H2. rewrite andb_true_iff in H2. destruct H2 as [H2 H4]. rewrite (peq_ok _ _ x H4). apply bexp_pos; auto; cbn [peval]; rewrite ?Q2R_opp, ?Q2R_1, ?Q2R_m1; lra.
Qed.
Lemma check_pos_ok F cs x : check_pos F cs = true -> 0 <= x -> 0 <= pweval F x.
Proof. intros H Hx. eapply check_pos'_ok; [exact H|]. rewrite Q2R_0. auto. Qed.
(** zero from the last break on *)
Lemma check_tail_ok F r x : pzero (snd F) = true -> forallb (fun bp : Q * poly => Qle_bool (fst bp) r) (fst F) = true -> Q2R r <= x -> pweval F x = 0.
Proof.
  destruct F as [F tF]. unfold pweval. cbn [fst snd]. intros HZ HF Hx. induction F as [|[b p] F IH]; cbn [pweval']; [now apply pzero_ok|]. cbn [forallb fst] in HF. rewrite andb_true_iff in HF. destruct HF as [H1 H2].
  apply Qle_bool_iff, Qle_Rle in H1. destruct (Rlt_dec _ _); [lra|auto].
Qed.

(** ** Integrals *)
Lemma cont_of_deriv f x l : derivable_pt_lim f x l -> continuous f x.
Proof. intros H. apply (ex_derive_continuous (K := R_AbsRing) (V := R_NormedModule)). exists l. now apply is_derive_Reals. Qed.
Lemma int_of_deriv F f f' a b : (forall x, derivable_pt_lim F x (f x)) -> (forall x, derivable_pt_lim f x (f' x)) -> is_RInt f a b (F b - F a).
Proof.
  intros H1 H2. apply (is_RInt_derive (V := R_CompleteNormedModule) F f).
  - intros x _. apply is_derive_Reals. apply H1.
  - intros x _. apply (cont_of_deriv _ _ _ (H2 x)).
Qed.
Definition pwmap (g : poly -> poly) (F : pw) : pw := (map (fun bp => (fst bp, g (snd bp))) (fst F), g (snd F)).
Lemma pwmap_ok g F x (phi : R -> R -> R) : (forall p, peval (g p) x = phi x (peval p x)) -> pweval (pwmap g F) x = phi x (pweval F x).
Proof.
  intros H. destruct F as [F tF]. unfold pweval, pwmap. cbn [fst snd]. induction F as [|[b p] F IH]; cbn [pweval' map fst snd]; auto. destruct (Rlt_dec _ _); auto.
Qed.
