(** The variant with a limit on the number of neighbours, and omega. *)
Require Import Reals Lra.
From Coquelicot Require Import Coquelicot.
From Verif Require Import Fmm_reps Sgfmm_util Sgfmm_mom.
From Verif Require Import Base Par BVH Fmm_spec Ncache Ncache_spec Sphd Sphd_spec Sphd_proofs Sphker P_Sphker Hiter Hiter_spec Hiter_proofs.
From Coq Require Import ZifyBool ZifyNat.
Local Open Scope R_scope.

Lemma Rleb_sq a b d : 0 <= d -> dist2 a b <= d * d <-> distance a b <= d.
Proof.
  intros Hd. unfold distance. split; intros H.
  - rewrite <- (sqrt_square d Hd). now apply sqrt_le_1_alt.
  - rewrite <- (sqrt_sqrt (dist2 a b)); [|unfold dist2; repeat apply Rplus_le_le_0_compat; apply Rle_0_sqr]. apply Rmult_le_compat; auto; apply sqrt_pos.
Qed.
(** elements of the list within a distance *)
Definition lcount (r : list (vec R)) (i : nat) (d : R) (l : list nat) : nat := length (filter (fun j => if Rle_dec (separation r i j) d then true else false) l).
Lemma lcount_le r i d l : NoDup l -> (forall j, In j l -> (j < length r)%nat) -> (lcount r i d l <= count_within r i d)%nat.
Proof.
  intros ND HL. unfold lcount, count_within. apply NoDup_incl_length; [now apply NoDup_filter|]. intros j Hj. apply filter_In in Hj as [A B]. apply filter_In. split; auto. apply in_seq. specialize (HL j A). lia.
Qed.
Lemma lcount_eq r i d l : NoDup l -> (forall j, In j l -> (j < length r)%nat) -> (forall j, (j < length r)%nat -> separation r i j <= d -> In j l) -> lcount r i d l = count_within r i d.
Proof.
  intros ND HL HI. apply Nat.le_antisymm; [now apply lcount_le|]. apply NoDup_incl_length; [apply NoDup_filter, seq_NoDup|]. intros j Hj. apply filter_In in Hj as [A B]. apply filter_In. split; auto. apply in_seq in A. destruct (Rle_dec _ _); [|discriminate]. apply HI; auto. lia.
Qed.
Section Lim.
  Context (K : kernel) (m htol p : R) (thr : Z).
  Hypothesis CO : config_ok K m htol p.
  Context (P : hpatch).
  Hypothesis PO : patch_ok htol (Rkern K) P.
  Notation r := (hp_r P).
  Notation hold := (hp_hold P).
  Definition list_of (i : nat) : list nat := match for_each_object (hp_c P) i with Ok l => l | _ => [] end.
  Lemma dint_iff i j h q : 0 < h -> 0 <= q -> (dist2 (pos_of r i) (pos_of r j) <= h * h * Rkern K * Rkern K * q * q <-> separation r i j <= Rkern K * (h * q)).
  Proof.
    intros Hh Hq. unfold separation. rewrite <- Rleb_sq; [|pose proof (rk_pos _ _ _ _ CO); repeat apply Rmult_le_pos; lra]. replace (h * h * Rkern K * Rkern K * q * q) with (Rkern K * (h * q) * (Rkern K * (h * q))) by ring. reflexivity.
  Qed.
  Lemma lim_fold i h ids : 0 < h -> (forall j, In j ids -> (j < length r)%nat) -> forall s,
    rfold (lim_step K m p r (pos_of r i) h) ids s =
      Ok (fst (fst s) + Rsum (fun j => m * W_3d K (separation r i j) h) ids, snd (fst s) + Rsum (fun j => m * dhW_3d K (separation r i j) h) ids,
          ((fst (snd s) + Z.of_nat (lcount r i (Rkern K * h) ids))%Z, (snd (snd s) + Z.of_nat (lcount r i (Rkern K * (h * p)) ids))%Z)).
  Proof.
    intros Hh. pose proof (co_p _ _ _ _ CO) as CP. induction ids as [|j ids IH]; intros HJ [[s1 s2] [c1 c2]]; cbn [rfold].
    - cbn. rewrite !Rplus_0_r, !Z.add_0_r. reflexivity.
    - unfold lim_step at 1. rewrite get_r by (apply HJ; simpl; auto). cbn [rbind]. rewrite sep_eq. cbn [fst snd]. unfold lcount. cbn [filter].
      pose proof (dint_iff i j h p Hh ltac:(lra)) as I1. pose proof (dint_iff i j h 1 Hh ltac:(lra)) as I2. rewrite !Rmult_1_r in I2. unfold rgtb. rewrite !Rsum_cons. 
      destruct (Rle_dec (dist2 _ _) _) as [A|A], (Rle_dec (separation r i j) (Rkern K * (h * p))) as [A'|A']; try tauto;
      destruct (Rgt_dec _ _) as [G|G], (Rle_dec (separation r i j) (Rkern K * h)) as [B|B]; try (exfalso; apply Rgt_lt, Rlt_not_le in G; tauto); try (exfalso; apply Rnot_gt_le in G; tauto);
        cbn [rbind]; rewrite IH by (intros; apply HJ; simpl; auto); cbn [fst snd]; cbn [length]; fold (lcount r i (Rkern K * h) ids); fold (lcount r i (Rkern K * (h * p)) ids);
        try (destruct (far K m htol p CO P i j h Hh G) as [-> ->]); fold (distance (pos_of r i) (pos_of r j)); fold (separation r i j); (apply f_equal, f_equal2; [apply f_equal2; ring|apply f_equal2; lia]).
  Qed.
  Lemma list_ok i : (i < length hold)%nat -> for_each_object (hp_c P) i = Ok (list_of i) /\ NoDup (list_of i) /\ (forall b, In b (list_of i) -> (b < length r)%nat) /\
    (forall b, (b < length r)%nat -> separation r i b <= Rkern K * (htol * h_of hold i) -> In b (list_of i)).
  Proof. intros Hi. destruct (po_cov _ _ _ PO i Hi) as (l & E & H). unfold list_of. rewrite E. auto. Qed.
  Lemma lim_sums_ok i h : (i < length hold)%nat -> 0 < h <= htol * h_of hold i ->
    lim_sums K m p P i h = Ok (sph_density K m r i h, ddensity K m r i h, (Z.of_nat (count_within r i (Rkern K * h)), Z.of_nat (lcount r i (Rkern K * (h * p)) (list_of i)))).
  Proof.
    intros Hi Hh. destruct (list_ok i Hi) as (E & ND & HL & IN). pose proof (dens_ok K m htol p CO P PO i h Hi Hh) as D. unfold dens_sums in D. unfold lim_sums. rewrite get_r in * by (pose proof (po_len _ _ _ PO); lia). cbn [rbind] in *. rewrite E in *. cbn [rbind] in *.
    rewrite lim_fold by (auto; lra). rewrite (step_fold K m htol p CO) in D by (auto; lra). injection D as D1 D2. cbn [fst snd]. rewrite D1, D2, !Z.add_0_l.
    rewrite (lcount_eq r i (Rkern K * h)); auto. intros j Hj HD. apply IN; auto. apply Rle_trans with (1 := HD). apply Rmult_le_compat_l; [apply Rlt_le, (rk_pos _ _ _ _ CO)|lra].
  Qed.
  Definition steplim (i : nat) (h e : R) (w : Z) : R * R * Z :=
    if active e then
      if (thr <? Z.of_nat (count_within r i (Rkern K * h)))%Z then (1 / p * h, 0, 1%Z)
      else if ((thr <? Z.of_nat (lcount r i (Rkern K * (h * p)) (list_of i)))%Z && egtb (newton_iterate_new_h (h_density K m h) (sph_density K m r i h) (ddensity K m r i h) h) h)%bool then (h, 0, 1%Z)
      else (stepf K m htol p P i h e, 0%Z)
    else (h, e, w).
  Lemma upd_same {A} (l : list A) i d : upd l i (nth i l d) = l.
  Proof.
    apply list_eq_nth_error. intros j. destruct (Nat.eq_dec i j) as [<-|N]; [|now apply nth_error_upd_neq]. destruct (Nat.lt_ge_cases i (length l)) as [L|L].
    - rewrite nth_error_upd_eq by auto. symmetry. now apply nth_error_nth'.
    - rewrite (proj2 (nth_error_None l i)) by auto. apply nth_error_None. now rewrite length_upd.
  Qed.
  Definition tri (s : list R * list R * list Z) (i : nat) : R * R * Z := (h_of (fst (fst s)) i, h_of (snd (fst s)) i, nth i (snd s) 0%Z).
  Definition steps (s : list R * list R * list Z) (i : nat) : R * R * Z := steplim i (h_of (fst (fst s)) i) (h_of (snd (fst s)) i) (nth i (snd s) 0%Z).
  Definition put (s : list R * list R * list Z) (i : nat) (t : R * R * Z) : list R * list R * list Z := ((upd (fst (fst s)) i (fst (fst t)), upd (snd (fst s)) i (snd (fst t))), upd (snd s) i (snd t)).
  Definition lens (s : list R * list R * list Z) : Prop := length (fst (fst s)) = length hold /\ length (snd (fst s)) = length hold /\ length (snd s) = length hold.
  Lemma lim_item_ok i s : (i < length hold)%nat -> lens s -> 0 < h_of (fst (fst s)) i <= htol * h_of hold i ->
    lim_item K m htol p thr P i s = Ok (put s i (steps s i)).
  Proof.
    intros Hi (L1 & L2 & L3) Hh. destruct s as [[hn ep] wl]. unfold lim_item, put, steps, steplim. cbn [fst snd] in *. rewrite (get_h ep) by lia. cbn [rbind]. destruct (active (h_of ep i)) eqn:A; cbn [negb].
    - rewrite (get_h hn) by lia. cbn [rbind]. rewrite lim_sums_ok by auto. cbn [rbind fst snd]. rewrite (hd_eq K m). destruct (thr <? _)%Z.
      { rewrite !aset_lt by lia. reflexivity. }
      destruct ((thr <? _)%Z && _)%bool.
      + rewrite !aset_lt by lia. cbn [rbind fst snd]. f_equal. f_equal. f_equal. symmetry. apply upd_same.
      + rewrite (clamp_ok K m htol p CO) by lra. rewrite get_h by auto. cbn [rbind]. rewrite (accept_ok K m htol p P i _ _ A) by lra. cbn [rbind]. rewrite !aset_lt by lia. reflexivity.
    - cbn [fst snd]. unfold h_of. now rewrite !upd_same.
  Qed.
  Lemma tri_put s i j t : lens s -> (i < length hold)%nat -> tri (put s i t) j = if Nat.eq_dec i j then t else tri s j.
  Proof.
    intros (L1 & L2 & L3) Hi. unfold tri, put. cbn [fst snd]. rewrite !(h_of_upd) by lia. destruct (Nat.eq_dec i j) as [<-|N].
    - rewrite (nth_error_nth _ _ 0%Z (nth_error_upd_eq (snd s) i (snd t) (eq_ind_r (fun z => (i < z)%nat) Hi L3))). now destruct t as [[? ?] ?].
    - apply f_equal. destruct (Nat.lt_ge_cases j (length (snd s))) as [L|L].
      + apply nth_error_nth. rewrite nth_error_upd_neq by auto. now apply nth_error_nth'.
      + rewrite !nth_overflow; auto. now rewrite length_upd.
  Qed.
  Lemma lens_put s i t : lens s -> lens (put s i t).
  Proof. intros (A & B & C). unfold lens, put. cbn [fst snd]. now rewrite !length_upd. Qed.
  Lemma lim_run order : forall s, NoDup order -> (forall i, In i order -> (i < length hold)%nat) -> lens s ->
    (forall i, In i order -> 0 < h_of (fst (fst s)) i <= htol * h_of hold i) ->
    exists s', par_for order (lim_item K m htol p thr P) s = Ok s' /\ lens s' /\ forall i, (i < length hold)%nat -> tri s' i = if in_dec Nat.eq_dec i order then steps s i else tri s i.
  Proof.
    unfold par_for. induction order as [|i order IH]; intros s ND HI L HR; cbn [rfold].
    - exists s. auto.
    - inversion ND as [|? ? NI ND']; subst. assert (Hi : (i < length hold)%nat) by (apply HI; simpl; auto). rewrite lim_item_ok; auto; [|apply HR; simpl; auto]. cbn [rbind].
      destruct (IH (put s i (steps s i))) as (s' & E & A & C); auto.
      + intros j Hj. apply HI. simpl; auto.
      + now apply lens_put.
      + intros j Hj. pose proof (tri_put s i j (steps s i) L Hi) as T. destruct (Nat.eq_dec i j) as [<-|N]; [contradiction|]. unfold tri in T. injection T as T _ _. unfold put. cbn [fst snd]. rewrite T. apply HR. simpl; auto.
      + exists s'. split; auto. split; auto. intros j Hj. rewrite (C j Hj). pose proof (tri_put s i j (steps s i) L Hi) as T. unfold steps at 1.
        destruct (in_dec Nat.eq_dec j (i :: order)) as [X|X], (in_dec Nat.eq_dec j order) as [Y|Y].
        * destruct (Nat.eq_dec i j) as [<-|N]; [contradiction|]. unfold tri in T. injection T as T1 T2 T3. unfold put. cbn [fst snd]. now rewrite T1, T2, T3.
        * destruct X as [<-|X]; [|contradiction]. rewrite T. destruct (Nat.eq_dec i i); congruence.
        * elim X; simpl; auto.
        * rewrite T. destruct (Nat.eq_dec i j) as [<-|N]; [elim X; simpl; auto|reflexivity].
  Qed.
  Lemma grows_iff i h : 0 < h -> egtb (newton_iterate_new_h (h_density K m h) (sph_density K m r i h) (ddensity K m r i h) h) h = true <-> grows (mismatch K m r i h) (slope K m P i h) h p.
  Proof.
    intros Hh. destruct (hp_bounds K m htol p CO h Hh) as [[B1 B2] B3]. unfold newton_iterate_new_h. fold (mismatch K m r i h). change (ddensity K m r i h + 3 * h_density K m h / h) with (slope K m P i h).
    set (F := mismatch K m r i h). set (d := slope K m P i h). unfold grows, wanted, ediv. destruct (Req_EM_T d 0).
    - destruct (Rlt_dec 0 F); [|destruct (Rlt_dec F 0)]; cbn [esub egtb].
      + split; [discriminate|]. intros (x & [= <-] & X). lra.
      + split; auto. intros _. exists (h * p). auto.
      + split; [discriminate|]. intros (x & X & _). discriminate.
    - cbn [esub egtb]. destruct (Rlt_dec _ _) as [L|L]; split; auto; try discriminate.
      + intros _. eexists. split; [reflexivity|]. apply Rlt_le_trans with (2 := Rmax_r _ _). now apply Rmin_glb_lt.
      + intros (x & [= <-] & X). exfalso. apply Rmax_Rlt in X || idtac. revert X. unfold Rmax, Rmin. repeat destruct (Rle_dec _ _); lra.
  Qed.
  Lemma steplim_ok i h e w : (i < length hold)%nat -> 0 < h <= htol * h_of hold i -> 
    lim_ok r i (Rkern K) (mismatch K m r i h) (slope K m P i h) p htol thr (h_of hold i) h e w (fst (fst (steplim i h e w))) (snd (fst (steplim i h e w))) (snd (steplim i h e w)).
  Proof.
    intros Hi Hh. destruct (list_ok i Hi) as (E & ND & HL & IN). unfold lim_ok, steplim. destruct (active e) eqn:A.
    - apply active_spec in A. split; [lra|]. intros _. destruct (Z.ltb_spec thr (Z.of_nat (count_within r i (Rkern K * h)))) as [T|T]; cbn [fst snd].
      { split; [intros _; repeat split; unfold Rdiv; ring|lia]. }
      split; [lia|]. intros _. destruct (thr <? Z.of_nat (lcount r i (Rkern K * (h * p)) (list_of i)))%Z eqn:T2.
      + cbn [andb]. destruct (egtb _ _) eqn:G.
        * left. cbn [fst snd]. apply grows_iff in G; [|lra]. split; auto. split; [|auto]. apply Z.ltb_lt in T2. pose proof (lcount_le r i (Rkern K * (h * p)) (list_of i) ND HL). lia.
        * right. cbn [fst snd]. split; [|split; [now apply stepf_ok|reflexivity]]. intros (X & _). apply grows_iff in X; [congruence|lra].
      + cbn [andb]. right. cbn [fst snd]. split; [|split; [now apply stepf_ok|reflexivity]]. intros (_ & X & Y). rewrite <- (lcount_eq r i (Rkern K * (h * p)) (list_of i)) in Y; auto; [lia|].
        intros j Hj HD. apply IN; auto. apply Rle_trans with (1 := HD). apply Rmult_le_compat_l; [apply Rlt_le, (rk_pos _ _ _ _ CO)|lra].
    - split; [auto|]. intros X. apply active_spec in X. congruence.
  Qed.
  Lemma steplim_reach i h e w : (i < length hold)%nat -> 0 < h <= htol * h_of hold i -> 0 < fst (fst (steplim i h e w)) <= htol * h_of hold i.
  Proof.
    intros Hi Hh. destruct (hp_bounds K m htol p CO h (proj1 Hh)) as [[B1 B2] B3]. unfold steplim. destruct (active e) eqn:A; [|exact Hh]. destruct (_ <? _)%Z; [cbn [fst]; replace (1 / p * h) with (h / p) by (unfold Rdiv; ring); lra|].
    destruct (_ && _)%bool; [exact Hh|]. cbn [fst]. unfold stepf. rewrite A. pose proof (hold_pos K htol P PO i Hi). pose proof (Rmult_lt_0_compat _ _ (co_t _ _ _ _ CO) H). destruct (wanted _ _ _ _) as [x|] eqn:W; [|cbn [fst]; lra].
    destruct (wanted_bounds K m htol p CO _ _ _ _ (proj1 Hh) W). destruct (Rlt_dec _ _); cbn [fst]; lra.
  Qed.
End Lim.
