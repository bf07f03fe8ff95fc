(** The kernel of the iteration. *)
Require Import Reals Lra.
From Coquelicot Require Import Coquelicot.
From Verif Require Import Fmm_reps Sgfmm_util Sgfmm_mom.
From Verif Require Import Base Par BVH Fmm_spec Ncache Ncache_spec Sphd Sphd_spec Sphd_proofs Sphker P_Sphker Hiter Hiter_spec.
From Coq Require Import ZifyBool ZifyNat.
Local Open Scope R_scope.

Lemma lim_ext (g g' : R -> R) x l : (forall y, g y = g' y) -> derivable_pt_lim g x l -> derivable_pt_lim g' x l.
Proof. apply Pwpoly.lim_eq. Qed.
Lemma rsum_lim {A} (g g' : A -> R -> R) (l : list A) x : (forall a, derivable_pt_lim (g a) x (g' a x)) -> derivable_pt_lim (fun h => Rsum (fun a => g a h) l) x (Rsum (fun a => g' a x) l).
Proof.
  intros H. induction l as [|a l IH]; [apply derivable_pt_lim_const|]. apply (lim_ext (fun h => g a h + Rsum (fun a => g a h) l)); [reflexivity|]. rewrite Rsum_cons. apply derivable_pt_lim_plus; auto.
Qed.
Lemma rsum_all (g : nat -> R) (l : list nat) n : NoDup l -> (forall j, In j l -> (j < n)%nat) -> (forall j, (j < n)%nat -> ~ In j l -> g j = 0) -> Rsum g l = total g n.
Proof.
  intros ND HL Hg. rewrite (Rsum_subset g l n ND HL). unfold total. apply Rsum_ext. intros j Hj. apply in_seq in Hj. unfold ind. destruct (existsb _ l) eqn:X; auto. rewrite Hg; auto; [lia|].
  intros Y. assert (existsb (Nat.eqb j) l = true); [|congruence]. apply existsb_exists. exists j. split; auto. apply Nat.eqb_refl.
Qed.

Lemma nth_err (l : list R) j : nth j l 0 = match nth_error l j with Some x => x | None => 0 end.
Proof. revert j. induction l as [|a l IH]; intros [|j]; cbn; auto. Qed.

Section Step.
  Context (K : kernel) (m htol p : R).
  Hypothesis CO : config_ok K m htol p.
  Notation HK := (co_K _ _ _ _ CO).
  Definition ddensity (r : list (vec R)) (i : nat) (h : R) : R := total (fun j => m * dhW_3d K (separation r i j) h) (length r).
  Lemma hf_pos : 0 < hfactd K.
  Proof. apply (C51_forces K); apply CO. Qed.
  Lemma rk_pos : 0 < Rkern K.
  Proof. apply (C51_forces K); apply CO. Qed.
  Lemma hd_eq h : rho_h m h (hfactd K) = h_density K m h.
  Proof. unfold rho_h, h_density. ring. Qed.
  Lemma hd_pos h : 0 < h -> 0 < h_density K m h.
  Proof. intros H. unfold h_density. apply Rmult_lt_0_compat; [apply CO|]. apply pow_lt. apply Rdiv_lt_0_compat; auto. apply hf_pos. Qed.
  Lemma dens_lim r i h : 0 < h -> derivable_pt_lim (sph_density K m r i) h (ddensity r i h).
  Proof.
    intros Hh. unfold sph_density, ddensity, total. apply (rsum_lim (fun j h => m * W_3d K (separation r i j) h) (fun j h => m * dhW_3d K (separation r i j) h)).
    intros j. apply derivable_pt_lim_scal. apply (C51_derivatives K); auto. apply CO.
  Qed.
  Lemma mis_lim r i h : 0 < h -> derivable_pt_lim (mismatch K m r i) h (ddensity r i h + 3 * h_density K m h / h).
  Proof.
    intros Hh. unfold mismatch. replace (ddensity r i h + 3 * h_density K m h / h) with (ddensity r i h - (- 3 * h_density K m h / h)) by (field; lra).
    apply derivable_pt_lim_minus; [now apply dens_lim|]. unfold h_density. apply is_derive_Reals. auto_derive; [lra|]. field. lra.
  Qed.

  Context (P : hpatch).
  Hypothesis PO : patch_ok htol (Rkern K) P.
  Notation r := (hp_r P).
  Notation hold := (hp_hold P).
  Lemma sep_eq i j : vdot (vsub (pos_of r i) (pos_of r j)) (vsub (pos_of r i) (pos_of r j)) = dist2 (pos_of r i) (pos_of r j).
  Proof. apply vdot_dist. Qed.
  Lemma far i j h : 0 < h -> dist2 (pos_of r i) (pos_of r j) > h * h * Rkern K * Rkern K -> W_3d K (separation r i j) h = 0 /\ dhW_3d K (separation r i j) h = 0.
  Proof.
    intros Hh X. assert (L : Rkern K * h <= separation r i j).
    { unfold separation, distance. rewrite <- (sqrt_Rsqr (Rkern K * h)) by (apply Rmult_le_pos; [apply Rlt_le, rk_pos|lra]). apply sqrt_le_1_alt. unfold Rsqr. lra. }
    destruct (C51_compact K _ h HK Hh L) as (_ & _ & A & _ & _ & B). auto.
  Qed.
  Lemma get_r j : (j < length r)%nat -> aget r j = Ok (pos_of r j).
  Proof. intros Hj. unfold aget, pos_of. now rewrite (nth_error_nth' _ (0, 0, 0)). Qed.
  Lemma get_h (l : list R) j : (j < length l)%nat -> aget l j = Ok (h_of l j).
  Proof. intros Hj. unfold aget, h_of. now rewrite (nth_error_nth' _ 0). Qed.
  Lemma step_fold i h ids : 0 < h -> (forall j, In j ids -> (j < length r)%nat) -> forall s,
    rfold (dens_step K m r (pos_of r i) h) ids s = Ok (fst s + Rsum (fun j => m * W_3d K (separation r i j) h) ids, snd s + Rsum (fun j => m * dhW_3d K (separation r i j) h) ids).
  Proof.
    intros Hh. induction ids as [|j ids IH]; intros HJ s; cbn [rfold].
    - cbn. rewrite !Rplus_0_r. now destruct s.
    - unfold dens_step at 1. rewrite get_r by (apply HJ; simpl; auto). cbn [rbind]. rewrite sep_eq. unfold rgtb. rewrite !Rsum_cons. destruct (Rgt_dec _ _) as [G|G]; cbn [rbind].
      + rewrite IH by (intros; apply HJ; simpl; auto). destruct (far i j h Hh G) as [-> ->]. do 2 f_equal; ring.
      + rewrite IH by (intros; apply HJ; simpl; auto). cbn [fst snd]. fold (distance (pos_of r i) (pos_of r j)). fold (separation r i j). do 2 f_equal; ring.
  Qed.
  Lemma dens_ok i h : (i < length hold)%nat -> 0 < h <= htol * h_of hold i -> dens_sums K m P i h = Ok (sph_density K m r i h, ddensity r i h).
  Proof.
    intros Hi Hh. destruct (po_cov _ _ _ PO i Hi) as (l & E & ND & HL & IN). unfold dens_sums. rewrite get_r by (pose proof (po_len _ _ _ PO); lia). cbn [rbind]. rewrite E. cbn [rbind].
    rewrite step_fold by (auto; lra). cbn [fst snd]. rewrite !Rplus_0_l. unfold sph_density, ddensity.
    assert (G : forall j, (j < length r)%nat -> ~ In j l -> W_3d K (separation r i j) h = 0 /\ dhW_3d K (separation r i j) h = 0).
    { intros j Hj NI. assert (L : Rkern K * h <= separation r i j).
      { apply Rnot_lt_le. intros X. apply NI. apply IN; auto. assert (Rkern K * h <= Rkern K * (htol * h_of hold i)) by (apply Rmult_le_compat_l; [apply Rlt_le, rk_pos|lra]). lra. }
      destruct (C51_compact K _ h HK ltac:(lra) L) as (_ & _ & A & _ & _ & B). auto. }
    rewrite !(rsum_all _ l (length r)) by (auto; intros j Hj NI; destruct (G j Hj NI) as [A B]; rewrite ?A, ?B; ring). reflexivity.
  Qed.

  (** the pair computed by a work item *)
  Definition slope (i : nat) (h : R) : R := ddensity r i h + 3 * h_density K m h / h.
  Definition stepf (i : nat) (h e : R) : R * R :=
    if active e then match wanted (mismatch K m r i h) (slope i h) h p with
      | Some x => if Rlt_dec x (htol * h_of hold i) then (x, Rabs (x - h) / h_of hold i) else (htol * h_of hold i, -1)
      | None => (htol * h_of hold i, -1) end else (h, e).
  Lemma hold_pos i : (i < length hold)%nat -> 0 < h_of hold i.
  Proof. intros Hi. apply (po_pos _ _ _ PO). now apply nth_In. Qed.
  Lemma inv_p : 0 < / p < 1.
  Proof. pose proof (co_p _ _ _ _ CO). split; [apply Rinv_0_lt_compat; lra|]. rewrite <- Rinv_1. apply Rinv_lt_contravar; lra. Qed.
  Lemma hp_bounds h : 0 < h -> 0 < h / p < h /\ h < h * p.
  Proof.
    intros Hh. pose proof inv_p as [A B]. pose proof (co_p _ _ _ _ CO) as C. unfold Rdiv. split; [split|].
    - now apply Rmult_lt_0_compat.
    - rewrite <- (Rmult_1_r h) at 2. now apply Rmult_lt_compat_l.
    - rewrite <- (Rmult_1_r h) at 1. now apply Rmult_lt_compat_l.
  Qed.
  Lemma clamp_ok i h : 0 < h -> clamp p (newton_iterate_new_h (h_density K m h) (sph_density K m r i h) (ddensity r i h) h) h =
    match wanted (mismatch K m r i h) (slope i h) h p with Some x => Fin x | None => NaN end.
  Proof.
    intros Hh. destruct (hp_bounds h Hh) as [[B1 B2] B3]. unfold newton_iterate_new_h, clamp, wanted. fold (mismatch K m r i h). fold (slope i h).
    set (F := mismatch K m r i h). set (d := slope i h). assert (E1 : h * (1 / p) = h / p) by (unfold Rdiv; ring). assert (E2 : 1 / p * h = h / p) by (unfold Rdiv; ring). cbv zeta. rewrite E1, E2, (Rmult_comm p h).
    unfold ediv. destruct (Req_EM_T d 0) as [Z|Z].
    - destruct (Rlt_dec 0 F); [|destruct (Rlt_dec F 0)]; cbn [esub eltb egtb]; [|reflexivity|reflexivity]. destruct (Rlt_dec _ _); [lra|reflexivity].
    - cbn [esub eltb]. destruct (Rlt_dec _ _) as [L|L]; cbn [egtb].
      + destruct (Rlt_dec _ _); [lra|]. rewrite Rmin_right by lra. rewrite Rmax_left by lra. reflexivity.
      + destruct (Rlt_dec _ _).
        * rewrite Rmin_left by lra. rewrite Rmax_right by lra. reflexivity.
        * rewrite Rmin_right by lra. rewrite Rmax_right by lra. reflexivity.
  Qed.
  Lemma accept_ok i h e : active e = true -> 0 < h ->
    accept htol (match wanted (mismatch K m r i h) (slope i h) h p with Some x => Fin x | None => NaN end) h (h_of hold i) = Ok (stepf i h e).
  Proof.
    intros A Hh. unfold accept, stepf. rewrite A. rewrite (Rmult_comm (h_of hold i)). destruct (wanted _ _ _ _); cbn [eltb]; [|reflexivity]. destruct (Rlt_dec _ _); reflexivity.
  Qed.
  Lemma item_ok i s : (i < length hold)%nat -> length (fst s) = length hold -> length (snd s) = length hold -> 0 < h_of (fst s) i <= htol * h_of hold i ->
    h_item K m htol p P i s = Ok (upd (fst s) i (fst (stepf i (h_of (fst s) i) (h_of (snd s) i))), upd (snd s) i (snd (stepf i (h_of (fst s) i) (h_of (snd s) i)))).
  Proof.
    intros Hi L1 L2 Hh. unfold h_item. rewrite (get_h (snd s)) by lia. cbn [rbind]. destruct (active (h_of (snd s) i)) eqn:A; cbn [negb].
    - rewrite (get_h (fst s)) by lia. cbn [rbind]. rewrite dens_ok by auto. cbn [rbind fst snd]. rewrite hd_eq, clamp_ok by lra. rewrite get_h by auto. cbn [rbind].
      rewrite (accept_ok i _ _ A) by lra. cbn [rbind]. rewrite !aset_lt by lia. reflexivity.
    - unfold stepf. rewrite A. cbn [fst snd]. destruct s as [h e]. cbn [fst snd] in *. f_equal. f_equal; symmetry; apply list_eq_nth_error; intros j.
      + destruct (Nat.eq_dec i j) as [<-|N]; [rewrite nth_error_upd_eq by lia; unfold h_of; symmetry; apply nth_error_nth'; lia|now apply nth_error_upd_neq].
      + destruct (Nat.eq_dec i j) as [<-|N]; [rewrite nth_error_upd_eq by lia; unfold h_of; symmetry; apply nth_error_nth'; lia|now apply nth_error_upd_neq].
  Qed.
  Lemma active_spec e : active e = true <-> 1 / 10 ^ 6 < e.
  Proof. unfold active, rgtb. destruct (Rgt_dec _ _); split; intros; auto; try discriminate; lra. Qed.
  Lemma stepf_ok i h e : (i < length hold)%nat -> step_ok (mismatch K m r i h) (slope i h) p htol (h_of hold i) h e (fst (stepf i h e)) (snd (stepf i h e)).
  Proof.
    intros Hi. unfold stepf. destruct (active e) eqn:A.
    - apply active_spec in A. split; [lra|]. intros _. destruct (wanted _ _ _ _) as [x|].
      + destruct (Rlt_dec _ _) as [L|L]; split.
        * intros y [= <-] _. auto.
        * intros H. specialize (H x eq_refl). lra.
        * intros y [= <-]. lra.
        * auto.
      + split; [discriminate|]. auto.
    - split; [auto|]. intros X. apply active_spec in X. congruence.
  Qed.
  (** the invariant of one entry: never out of reach; [k] steps were done *)
  Definition good (k : nat) (i : nat) (h e : R) : Prop :=
    0 < h <= htol * h_of hold i /\
    ((e = 100 /\ h = h_of hold i /\ k = O) \/ (e = -1 /\ h = htol * h_of hold i) \/
     (exists g, h_of hold i * / p ^ (pred k) <= g /\ 0 < g <= htol * h_of hold i /\ wanted (mismatch K m r i g) (slope i g) g p = Some h /\ h < htol * h_of hold i /\ e = Rabs (h - g) / h_of hold i /\ (k <> O) /\ h_of hold i * / p ^ k <= h)).
  Lemma wanted_bounds F d h x : 0 < h -> wanted F d h p = Some x -> h / p <= x <= h * p.
  Proof.
    intros Hh. destruct (hp_bounds h Hh) as [[B1 B2] B3]. unfold wanted. destruct (Req_EM_T d 0).
    - destruct (Rlt_dec 0 F); [intros [= <-]; lra|]. destruct (Rlt_dec F 0); [intros [= <-]; lra|discriminate].
    - intros [= <-]. split; [apply Rmax_l|]. apply Rmax_lub; [lra|apply Rmin_l].
  Qed.
  Lemma pow_p k : 0 < / p ^ k.
  Proof. pose proof (co_p _ _ _ _ CO). apply Rinv_0_lt_compat, pow_lt. lra. Qed.
  Lemma pow_p_le k : / p ^ S k <= / p ^ k.
  Proof. pose proof (co_p _ _ _ _ CO) as C. apply Rinv_le_contravar; [apply pow_lt; lra|]. cbn [pow]. rewrite <- (Rmult_1_l (p ^ k)) at 1. apply Rmult_le_compat_r; [apply pow_le; lra|lra]. Qed.
  Lemma good_step k i h e : (i < length hold)%nat -> good k i h e -> good (S k) i (fst (stepf i h e)) (snd (stepf i h e)).
  Proof.
    intros Hi [Hh G]. pose proof (hold_pos i Hi) as H0. set (o := h_of hold i) in *. pose proof (Rmult_lt_0_compat _ _ (co_t _ _ _ _ CO) H0) as T0. unfold stepf. fold o.
    assert (LB : active e = true -> o * / p ^ k <= h).
    { intros A. apply active_spec in A. destruct G as [(E & -> & ->)|[(-> & _)|(g & _ & _ & _ & _ & _ & _ & X)]]; auto; [cbn; lra|]. exfalso. assert (0 < 1 / 10 ^ 6) by (apply Rdiv_lt_0_compat; [lra|apply pow_lt; lra]). lra. }
    destruct (active e) eqn:A.
    - specialize (LB eq_refl). destruct (wanted _ _ _ _) as [x|] eqn:W.
      + destruct (wanted_bounds _ _ _ _ (proj1 Hh) W) as [X1 X2]. destruct (hp_bounds h (proj1 Hh)) as [[B1 B2] B3]. destruct (Rlt_dec _ _) as [L|L]; cbn [fst snd]; (split; [fold o; lra|]).
        * right; right. exists h. fold o. cbn [pred]. repeat split; auto; try lra; try discriminate.
          apply Rle_trans with (h / p); auto. unfold Rdiv. replace (o * / p ^ S k) with ((o * / p ^ k) * / p) by (cbn [pow]; field; split; [apply pow_nonzero|]; pose proof (co_p _ _ _ _ CO); lra).
          apply Rmult_le_compat_r; [apply Rlt_le, inv_p|]. auto.
        * right; left. auto.
      + cbn [fst snd]. split; [fold o; lra|]. right; left. auto.
    - cbn [fst snd]. split; [exact Hh|]. fold o. destruct G as [(E & _)|[G|(g & G1 & G2 & G3 & G4 & G5 & G6 & G7)]]; auto.
      + exfalso. assert (active e = true); [|congruence]. apply active_spec. rewrite E. assert (1 / 10 ^ 6 <= 1). { apply Rmult_le_reg_r with (10 ^ 6); [apply pow_lt; lra|]. unfold Rdiv. rewrite Rmult_assoc, Rinv_l by (apply pow_nonzero; lra). pose proof (pow_R1_Rle 10 6 ltac:(lra)). lra. } lra.
      + right; right. exists g. repeat split; auto; try lra; try discriminate.
        * cbn [pred]. apply Rle_trans with (o * / p ^ pred k); auto. apply Rmult_le_compat_l; [lra|]. destruct k as [|k]; [congruence|]. cbn [pred]. apply pow_p_le.
        * apply Rle_trans with (o * / p ^ k); auto. apply Rmult_le_compat_l; [lra|]. apply pow_p_le.
  Qed.
  (** the whole kernel *)
  Definition run (s : list R * list R) : list R * list R :=
    (map (fun i => fst (stepf i (h_of (fst s) i) (h_of (snd s) i))) (seq 0 (length hold)), map (fun i => snd (stepf i (h_of (fst s) i) (h_of (snd s) i))) (seq 0 (length hold))).
  Lemma h_of_upd l i j v : (i < length l)%nat -> h_of (upd l i v) j = if Nat.eq_dec i j then v else h_of l j.
  Proof. intros Hi. unfold h_of. destruct (Nat.eq_dec i j) as [<-|N]; [apply nth_error_nth; now apply nth_error_upd_eq|]. rewrite !nth_err, nth_error_upd_neq; auto. Qed.
  Lemma run_partial order : forall s, NoDup order -> (forall i, In i order -> (i < length hold)%nat) -> length (fst s) = length hold -> length (snd s) = length hold ->
    (forall i, In i order -> 0 < h_of (fst s) i <= htol * h_of hold i) ->
    exists s', par_for order (h_item K m htol p P) s = Ok s' /\ length (fst s') = length hold /\ length (snd s') = length hold /\
      (forall i, (i < length hold)%nat -> if in_dec Nat.eq_dec i order then (h_of (fst s') i, h_of (snd s') i) = stepf i (h_of (fst s) i) (h_of (snd s) i)
        else h_of (fst s') i = h_of (fst s) i /\ h_of (snd s') i = h_of (snd s) i).
  Proof.
    unfold par_for. induction order as [|i order IH]; intros s ND HI L1 L2 HR; cbn [rfold].
    - exists s. repeat split; auto. 
    - inversion ND as [|? ? NI ND']; subst. assert (Hi : (i < length hold)%nat) by (apply HI; simpl; auto). rewrite item_ok; auto; [|apply HR; simpl; auto]. cbn [rbind].
      destruct (IH (upd (fst s) i (fst (stepf i (h_of (fst s) i) (h_of (snd s) i))), upd (snd s) i (snd (stepf i (h_of (fst s) i) (h_of (snd s) i))))) as (s' & E & A & B & C).
      + auto.
      + intros j Hj. apply HI. simpl; auto.
      + cbn [fst]. now rewrite length_upd.
      + cbn [snd]. now rewrite length_upd.
      + intros j Hj. cbn [fst]. rewrite h_of_upd by lia. destruct (Nat.eq_dec i j) as [<-|N]; [contradiction|]. apply HR. simpl; auto.
      + exists s'. repeat split; auto. intros j Hj. specialize (C j Hj). cbn [fst snd] in C. rewrite !h_of_upd in C by lia. destruct (in_dec Nat.eq_dec j (i :: order)) as [X|X].
        * destruct (in_dec Nat.eq_dec j order) as [Y|Y].
          -- destruct (Nat.eq_dec i j) as [<-|N]; [contradiction|]. auto.
          -- destruct X as [<-|X]; [|contradiction]. destruct (Nat.eq_dec i i) as [_|N]; [|congruence]. destruct C as [-> ->]. now destruct (stepf _ _ _).
        * destruct (in_dec Nat.eq_dec j order) as [Y|Y]; [elim X; simpl; auto|]. destruct (Nat.eq_dec i j) as [<-|N]; [elim X; simpl; auto|]. auto.
  Qed.
  Lemma nth_map_seq (g : nat -> R) n i : (i < n)%nat -> h_of (map g (seq 0 n)) i = g i.
  Proof. intros Hi. unfold h_of. rewrite (nth_indep _ 0 (g 0%nat)) by (rewrite map_length, seq_length; lia). rewrite map_nth, seq_nth by lia. reflexivity. Qed.
  Lemma run_ok order s : Permutation order (seq 0 (length hold)) -> length (snd s) = length hold -> in_reach htol hold (fst s) -> par_for order (h_item K m htol p P) s = Ok (run s).
  Proof.
    intros HP L2 [L1 HR]. assert (IN : forall i, In i order <-> (i < length hold)%nat) by (intros i; rewrite HP, in_seq; lia).
    destruct (run_partial order s) as (s' & E & A & B & C); auto.
    - eapply Permutation_NoDup; [symmetry; exact HP|apply seq_NoDup].
    - intros i Hi. now apply IN.
    - intros i Hi. apply HR. now apply IN.
    - rewrite E. f_equal. destruct s' as [h' e']. unfold run. cbn [fst snd] in *. f_equal; apply nth_ext with (d := 0) (d' := 0); rewrite ?map_length, ?seq_length; auto; intros j Hj.
      + change (h_of h' j = h_of (map (fun i => fst (stepf i (h_of (fst s) i) (h_of (snd s) i))) (seq 0 (length hold))) j). rewrite nth_map_seq by lia. specialize (C j ltac:(lia)).
        destruct (in_dec Nat.eq_dec j order) as [Y|Y]; [|rewrite IN in Y; lia]. now rewrite <- C.
      + change (h_of e' j = h_of (map (fun i => snd (stepf i (h_of (fst s) i) (h_of (snd s) i))) (seq 0 (length hold))) j). rewrite nth_map_seq by lia. specialize (C j ltac:(lia)).
        destruct (in_dec Nat.eq_dec j order) as [Y|Y]; [|rewrite IN in Y; lia]. now rewrite <- C.
  Qed.
  Definition goods (k : nat) (s : list R * list R) : Prop :=
    length (fst s) = length hold /\ length (snd s) = length hold /\ forall i, (i < length hold)%nat -> good k i (h_of (fst s) i) (h_of (snd s) i).
  Lemma goods_reach k s : goods k s -> in_reach htol hold (fst s).
  Proof. intros (A & B & C). split; auto. intros i Hi. apply (C i Hi). Qed.
  Lemma run_nth s i : (i < length hold)%nat -> (h_of (fst (run s)) i, h_of (snd (run s)) i) = stepf i (h_of (fst s) i) (h_of (snd s) i).
  Proof. intros Hi. unfold run. cbn [fst snd]. rewrite !nth_map_seq by auto. now destruct (stepf _ _ _). Qed.
  Lemma goods_run k s : goods k s -> goods (S k) (run s).
  Proof.
    intros (A & B & C). split; [|split]; try (unfold run; cbn [fst snd]; rewrite map_length, seq_length; reflexivity).
    intros i Hi. pose proof (run_nth s i Hi) as E. pose proof (good_step k i _ _ Hi (C i Hi)) as G. rewrite <- E in G. exact G.
  Qed.
  Lemma goods_start : 1 <= htol -> goods 0 (start hold).
  Proof.
    intros HT. unfold start. split; [|split]; cbn [fst snd]; [reflexivity|apply repeat_length|]. intros i Hi. pose proof (hold_pos i Hi) as H0. split.
    - split; auto. rewrite <- (Rmult_1_l (h_of hold i)) at 1. apply Rmult_le_compat_r; lra.
    - left. repeat split. unfold h_of at 1. rewrite (nth_indep _ 0 100) by (rewrite repeat_length; lia). apply nth_repeat.
  Qed.
  (** converged entries *)
  Lemma good_newton N k i h e eps : (i < length hold)%nat -> (k <= N)%nat -> eps <= (p - 1) / p ^ N -> good k i h e -> 0 <= e < eps -> eps <= 100 -> newton_converged K m r i eps (h_of hold i) h /\ h < htol * h_of hold i.
  Proof.
    intros Hi HN HE [Hh G] He H100. pose proof (hold_pos i Hi) as H0. pose proof (co_p _ _ _ _ CO) as CP. destruct G as [(-> & _)|[(-> & _)|(g & G1 & G2 & G3 & G4 & G5 & G6 & G7)]]; try lra. split; auto.
    set (o := h_of hold i) in *. destruct (hp_bounds g (proj1 G2)) as [[B1 B2] B3].
    assert (M : Rabs (h - g) < eps * o). { rewrite G5 in He. destruct He as [_ He]. apply Rmult_lt_compat_r with (r := o) in He; auto. unfold Rdiv in He. rewrite Rmult_assoc, Rinv_l, Rmult_1_r in He by lra. exact He. }
    assert (HB : eps * o <= g * (1 - / p)).
    { destruct k as [|k]; [congruence|]. cbn [pred] in G1. assert (Q : / p ^ N <= / p ^ S k) by (apply Rinv_le_contravar; [apply pow_lt; lra|apply Rle_pow; lra || lia]).
      apply Rle_trans with ((p - 1) / p ^ S k * o).
      - apply Rmult_le_compat_r; [lra|]. apply Rle_trans with (1 := HE). unfold Rdiv. apply Rmult_le_compat_l; lra.
      - replace ((p - 1) / p ^ S k * o) with (o * / p ^ k * (1 - / p)) by (cbn [pow]; field; split; [apply pow_nonzero|]; lra). apply Rmult_le_compat_r; [pose proof inv_p; lra|]. exact G1. }
    assert (NB : forall x, (x = g / p \/ x = g * p) -> x <> h).
    { intros x HX <-. assert (eps * o <= Rabs (x - g)); [|lra]. apply Rle_trans with (1 := HB). destruct HX as [->| ->].
      - rewrite Rabs_left by lra. unfold Rdiv. lra.
      - rewrite Rabs_right by lra. replace (g * p - g) with ((g * (1 - / p)) * p) by (field; lra). rewrite <- (Rmult_1_r (g * (1 - / p))) at 1. apply Rmult_le_compat_l; [|lra]. apply Rmult_le_pos; [lra|]. pose proof inv_p. lra. }
    unfold wanted in G3. destruct (Req_EM_T (slope i g) 0) as [Z|Z].
    { exfalso. destruct (Rlt_dec 0 _); [injection G3 as G3; now apply (NB (g / p)); auto|]. destruct (Rlt_dec _ 0); [injection G3 as G3; now apply (NB (g * p)); auto|discriminate]. }
    injection G3 as G3. exists g, (slope i g). split; [apply G2|]. split; auto. split; [apply mis_lim; apply G2|]. split; auto.
    rewrite <- G3. unfold Rmax. destruct (Rle_dec _ _) as [L|L].
    - unfold Rmin in *. destruct (Rle_dec (g * p) _) as [L2|L2]; [|reflexivity]. exfalso. unfold Rmax in G3. destruct (Rle_dec (g / p) (g * p)); [|lra]. now apply (NB (g * p)); auto.
    - exfalso. unfold Rmax in G3. destruct (Rle_dec (g / p) _) as [L3|L3]; [|now apply (NB (g / p)); auto]. apply L. exact L3.
  Qed.
End Step.
