(** Property theorems C52 (see properties.jsonl): the iteration of the smoothing lengths. *)
Require Import Reals Lra.
From Coquelicot Require Import Coquelicot.
From Verif Require Import Fmm_reps Sgfmm_util Sgfmm_mom.
From Verif Require Import Base Par BVH BVH_spec Fmm_spec Ncache Ncache_spec Sphd Sphd_spec Sphd_proofs Sphker P_Sphker Hiter Hiter_spec Hiter_proofs Hiter_loop Hiter_lim.
From Coq Require Import ZifyBool ZifyNat.
Local Open Scope R_scope.

(** C52.  One call of the kernel on a patch, from any state in the reach of the lists: it succeeds, its result does not depend
    on the order of the work items, every particle has made one damped Newton step for its mismatch (summed over all the
    particles, not only over the list), and the smoothing lengths remain positive and in the reach of the lists. *)
Theorem C52_iteration : forall K m htol p P s,
  config_ok K m htol p -> patch_ok htol (Rkern K) P -> in_reach htol (hp_hold P) (fst s) -> length (snd s) = length (hp_hold P) ->
  exists s', (forall order, Permutation order (seq 0 (length (hp_hold P))) -> par_for order (h_item K m htol p P) s = Ok s') /\
    in_reach htol (hp_hold P) (fst s') /\ length (snd s') = length (hp_hold P) /\
    forall i, (i < length (hp_hold P))%nat -> exists d, derivable_pt_lim (mismatch K m (hp_r P) i) (h_of (fst s) i) d /\
      step_ok (mismatch K m (hp_r P) i (h_of (fst s) i)) d p htol (h_of (hp_hold P) i) (h_of (fst s) i) (h_of (snd s) i) (h_of (fst s') i) (h_of (snd s') i).
Proof.
  intros K m htol p P s CO PO IR LE. exists (run K m htol p P s). split; [|split; [|split]].
  - intros order HP. now apply run_ok.
  - destruct IR as [L IR]. split; [unfold run; cbn [fst]; now rewrite map_length, seq_length|]. intros i Hi. pose proof (run_nth K m htol p P s i Hi) as E. specialize (IR i Hi).
    assert (X : 0 < fst (stepf K m htol p P i (h_of (fst s) i) (h_of (snd s) i)) <= htol * h_of (hp_hold P) i).
    { unfold stepf. destruct (active _); [|exact IR]. pose proof (hold_pos K htol P PO i Hi) as H0. pose proof (Rmult_lt_0_compat _ _ (co_t _ _ _ _ CO) H0). destruct (hp_bounds K m htol p CO _ (proj1 IR)) as [[B1 B2] B3].
      destruct (wanted _ _ _ _) as [x|] eqn:W; [|cbn [fst]; lra]. destruct (wanted_bounds K m htol p CO _ _ _ _ (proj1 IR) W). destruct (Rlt_dec _ _); cbn [fst]; lra. }
    rewrite <- E in X. exact X.
  - unfold run. cbn [snd]. now rewrite map_length, seq_length.
  - intros i Hi. exists (slope K m P i (h_of (fst s) i)). split; [apply (mis_lim K m htol p CO), (proj2 IR i Hi)|]. pose proof (run_nth K m htol p P s i Hi) as E.
    pose proof (stepf_ok K m htol p P i (h_of (fst s) i) (h_of (snd s) i) Hi) as X. rewrite <- E in X. exact X.
Qed.
Print Assumptions C52_iteration.

(** The loop over the iterations on all the ranks: for every order of the work items of each call, the same result; it reports
    convergence only if every particle has converged: its smoothing length is the result of a full Newton step that moved it by
    less than epsilon_h, and its support is inside the lists. *)
Theorem C52_loop : forall K m htol p epsilon_h N ranks,
  config_ok K m htol p -> 1 <= htol -> 0 < epsilon_h <= 100 ->
  (forall ps P, In ps ranks -> In P ps -> patch_ok htol (Rkern K) P /\ hp_hold P <> []) ->
  exists sss conv,
    (forall ord, orders_ok (fun _ => ord) (map (map hp_hold) ranks) ->
       loop_ranks snd (h_item K m htol p) epsilon_h N ord 0 ranks (map (map (fun P => start (hp_hold P))) ranks) = Ok (sss, conv)) /\
    Forall2 (Forall2 (fun P s => in_reach htol (hp_hold P) (fst s))) ranks sss /\
    (conv = true <-> ranks = [] \/ N <> O /\ forall ss s e, In ss sss -> In s ss -> In e (snd s) -> 0 <= e < epsilon_h) /\
    (conv = true -> epsilon_h <= (p - 1) / p ^ N -> Forall2 (Forall2 (fun P s => patch_converged K m htol epsilon_h P (fst s))) ranks sss).
Proof.
  intros K m htol p epsilon_h N ranks CO HT EP HP.
  assert (Z : Forall2 (Forall2 (Good K m htol p 0)) ranks (map (map (fun P => start (hp_hold P))) ranks)).
  { induction ranks as [|ps ranks IH]; constructor; [|apply IH; intros; eapply HP; simpl; eauto]. assert (HP' : forall P, In P ps -> patch_ok htol (Rkern K) P /\ hp_hold P <> []) by (intros; eapply HP; simpl; eauto). clear - HP' CO HT.
    induction ps as [|P ps IH]; constructor; [|apply IH; intros; apply HP'; simpl; auto]. destruct (HP' P (or_introl eq_refl)). apply Good_start; auto. }
  destruct (loop_ranks_ok K m htol p epsilon_h CO EP N _ _ Z) as (sss & b & E & G & C). exists sss, b. split; [|split; [|split]].
  - intros ord OK. apply E. intros rk ps HPS j k P HPk. specialize (OK 0%nat rk j k (map hp_hold ps) (hp_hold P)). rewrite Nat.add_0_l. apply OK; [now rewrite nth_error_map, HPS|now rewrite nth_error_map, HPk].
  - clear - G. induction G as [|ps ss ranks sss (k & _ & H) HF IH]; constructor; auto. clear - H. induction H; constructor; auto. eapply Good_reach; eauto.
  - rewrite C. split; (intros [X|[X Y]]; [left; exact X|right; split; [exact X|]]).
    + intros ss s e H1 H2 H3. apply (Y ss H1 (snd s) (in_map snd _ _ H2) e H3).
    + intros ss H1 l Hl e He. apply in_map_iff in Hl as (s & <- & Hs). eapply Y; eauto.
  - intros B HE. destruct (proj1 C B) as [X|[X Y]]; [rewrite X in *; inversion G; constructor|]. clear - G Y CO EP HE. induction G as [|ps ss ranks sss (k & Hk & H) HF IH]; constructor; [|apply IH; intros; apply Y; simpl; auto].
    assert (A : all_eps (kept epsilon_h) ss) by (apply Y; simpl; auto). clear - H A CO EP HE Hk. unfold all_eps in A. induction H as [|P s ps ss G HF IH]; constructor.
    + eapply (Good_converged K m htol p epsilon_h CO EP N k); eauto. intros e He. apply (A (snd s)); simpl; auto.
    + apply IH. intros l Hl. apply A. simpl; auto.
Qed.
Print Assumptions C52_loop.

(** The subcycles of a time step, with lists rebuilt at each of them: if they end with success, every smoothing length is
    converged and inside the lists of the last subcycle, which are those that the rest of the step uses. *)
Theorem C52_prestep : forall K m htol p epsilon_h N rebuild hs0 hstep_max,
  config_ok K m htol p -> 1 <= htol -> 0 < epsilon_h <= 100 -> epsilon_h <= (p - 1) / p ^ N ->
  hs_ok hs0 -> rebuild_ok htol (Rkern K) hs0 rebuild ->
  exists out, (forall ord, orders_ok ord hs0 -> subcycles K m htol p epsilon_h N rebuild ord hstep_max 0 hs0 = Ok out) /\
    forall ranks hs', out = Some (ranks, hs') -> same_shape hs0 hs' /\
      Forall2 (Forall2 (fun P h => patch_ok htol (Rkern K) P /\ patch_converged K m htol epsilon_h P h)) ranks hs'.
Proof. intros K m htol p epsilon_h N rebuild hs0 hstep_max CO HT EP HE HO RB. apply (subcycles_ok K m htol p epsilon_h N CO EP HT HE rebuild hs0 RB); auto. apply same_shape_refl. Qed.
Print Assumptions C52_prestep.

(** omega is 1 + h / (3 rho) d rho / dh, rho being the density summed over all the particles, for every order. *)
Theorem C52_omega : forall K m htol p P h omega0,
  config_ok K m htol p -> patch_ok htol (Rkern K) P -> in_reach htol (hp_hold P) h -> length omega0 = length (hp_hold P) ->
  exists omega, (forall order, Permutation order (seq 0 (length (hp_hold P))) -> compute_omega K m order P h omega0 = Ok omega) /\
    length omega = length (hp_hold P) /\
    forall i, (i < length (hp_hold P))%nat -> exists d,
      derivable_pt_lim (sph_density K m (hp_r P) i) (h_of h i) d /\ nth i omega 0 = 1 + h_of h i / (3 * h_density K m (h_of h i)) * d /\
      derivable_pt_lim (mismatch K m (hp_r P) i) (h_of h i) (nth i omega 0 * (3 * h_density K m (h_of h i) / h_of h i)).
Proof.
  intros K m htol p P h omega0 CO PO [L IR] LO. pose (g := fun i => 1 + h_of h i / (3 * h_density K m (h_of h i)) * ddensity K m (hp_r P) i (h_of h i)).
  exists (map g (seq 0 (length (hp_hold P)))). split; [|split; [now rewrite map_length, seq_length|]].
  - intros order HP. unfold compute_omega. apply par_write_ok; auto. intros i Hi. unfold omega_item. rewrite get_h by lia. cbn [rbind]. rewrite (dens_ok K m htol p CO P PO i _ Hi (IR i Hi)). cbn [rbind snd]. now rewrite hd_eq.
  - intros i Hi. specialize (IR i Hi). exists (ddensity K m (hp_r P) i (h_of h i)). split; [apply (dens_lim K m htol p CO); lra|]. change (nth i (map g (seq 0 (length (hp_hold P)))) 0) with (h_of (map g (seq 0 (length (hp_hold P)))) i). rewrite nth_map_seq by auto. split; [reflexivity|].
    pose proof (hd_pos K m htol p CO _ (proj1 IR)) as HD. unfold g. replace ((1 + _) * _) with (ddensity K m (hp_r P) i (h_of h i) + 3 * h_density K m (h_of h i) / h_of h i) by (field; lra). apply (mis_lim K m htol p CO). lra.
Qed.
Print Assumptions C52_omega.
(** ... and 1 for the particles that the limiter has flagged. *)
Theorem C52_omega_mask : forall val mask omega, length mask = length omega ->
  exists omega', (forall order, Permutation order (seq 0 (length omega)) -> set_when_mask val order mask omega = Ok omega') /\
    length omega' = length omega /\ forall i, (i < length omega)%nat -> nth i omega' 0 = if Z.eq_dec (nth i mask 0%Z) 1 then val else nth i omega 0.
Proof.
  intros val mask omega LM. pose (g := fun i => if Z.eq_dec (nth i mask 0%Z) 1 then val else nth i omega 0). exists (map g (seq 0 (length omega))). split; [|split].
  - intros order HP. assert (IN : forall i, In i order <-> (i < length omega)%nat) by (intros i; rewrite HP, in_seq; lia). assert (ND : NoDup order) by (eapply Permutation_NoDup; [symmetry; exact HP|apply seq_NoDup]).
    assert (X : exists out, set_when_mask val order mask omega = Ok out /\ length out = length omega /\ forall i, nth i out 0 = if in_dec Nat.eq_dec i order then g i else nth i omega 0).
    { assert (H1 : forall i, In i order -> (i < length omega)%nat) by (intros i; apply IN). clear HP IN. unfold set_when_mask, par_for. assert (Y : forall o, length o = length omega -> (forall i, In i order -> nth i o 0 = nth i omega 0) ->
        exists out, rfold (fun i fl => x <- aget mask i ;; if (x =? 1)%Z then aset fl i val else Ok fl) order o = Ok out /\ length out = length omega /\ forall i, nth i out 0 = if in_dec Nat.eq_dec i order then g i else nth i o 0).
      { induction order as [|i order IH]; intros o LO HO; cbn [rfold]; [exists o; auto|]. inversion ND; subst. assert (Hi : (i < length omega)%nat) by (apply H1; simpl; auto).
        assert (EM : aget mask i = Ok (nth i mask 0%Z)) by (unfold aget; now rewrite (nth_error_nth' _ 0%Z) by lia). rewrite EM. cbn [rbind].
        assert (W : exists o', (if (nth i mask 0%Z =? 1)%Z then aset o i val else Ok o) = Ok o' /\ length o' = length omega /\ forall j, nth j o' 0 = if Nat.eq_dec i j then g i else nth j o 0).
        { unfold g. destruct (Z.eqb_spec (nth i mask 0%Z) 1) as [E1|E1], (Z.eq_dec (nth i mask 0%Z) 1); try contradiction.
          - rewrite aset_lt by lia. eexists. split; [reflexivity|]. split; [now rewrite length_upd|]. intros j. change (nth j (upd o i val) 0) with (h_of (upd o i val) j). rewrite h_of_upd by lia. reflexivity.
          - exists o. split; [reflexivity|]. split; auto. intros j. destruct (Nat.eq_dec i j) as [<-|]; auto. apply HO. simpl; auto. }
        destruct W as (o' & -> & LO' & CO'). cbn [rbind]. destruct (IH H3) with (o := o') as (out & E & LL & C); auto.
        - intros j Hj. apply H1. simpl; auto.
        - intros j Hj. rewrite CO'. destruct (Nat.eq_dec i j) as [<-|]; [contradiction|]. apply HO. simpl; auto.
        - exists out. split; auto. split; auto. intros j. rewrite C, CO'. destruct (in_dec Nat.eq_dec j (i :: order)) as [A|A], (in_dec Nat.eq_dec j order) as [B|B], (Nat.eq_dec i j) as [D|D]; subst; auto; try contradiction.
          + destruct A; contradiction.
          + elim A. simpl; auto.
          + elim A. simpl; auto. }
      apply Y; auto. }
    destruct X as (out & -> & LL & C). f_equal. apply nth_ext with (d := 0) (d' := 0); [now rewrite map_length, seq_length|]. intros i Hi. rewrite C. destruct (in_dec Nat.eq_dec i order) as [A|A]; [|elim A; apply IN; lia].
    symmetry. apply (nth_map_seq g). lia.
  - now rewrite map_length, seq_length.
  - intros i Hi. apply (nth_map_seq g). auto.
Qed.
Print Assumptions C52_omega_mask.

(** The kernel with a limit on the number of neighbours. *)
Theorem C52_limiter : forall K m htol p n P h e w,
  config_ok K m htol p -> patch_ok htol (Rkern K) P -> in_reach htol (hp_hold P) h -> length e = length (hp_hold P) -> length w = length (hp_hold P) ->
  exists h' e' w', (forall order, Permutation order (seq 0 (length (hp_hold P))) -> par_for order (lim_item K m htol p n P) ((h, e), w) = Ok ((h', e'), w')) /\
    in_reach htol (hp_hold P) h' /\ length e' = length (hp_hold P) /\ length w' = length (hp_hold P) /\
    forall i, (i < length (hp_hold P))%nat -> exists d, derivable_pt_lim (mismatch K m (hp_r P) i) (h_of h i) d /\
      lim_ok (hp_r P) i (Rkern K) (mismatch K m (hp_r P) i (h_of h i)) d p htol n (h_of (hp_hold P) i) (h_of h i) (h_of e i) (nth i w 0%Z) (h_of h' i) (h_of e' i) (nth i w' 0%Z).
Proof.
  intros K m htol p n P h e w CO PO [L IR] LE LW.
  pose (st := fun i => steplim K m htol p n P i (h_of h i) (h_of e i) (nth i w 0%Z)).
  set (ids := seq 0 (length (hp_hold P))). exists (map (fun i => fst (fst (st i))) ids), (map (fun i => snd (fst (st i))) ids), (map (fun i => snd (st i)) ids).
  assert (NZ : forall i, (i < length (hp_hold P))%nat -> nth i (map (fun i => snd (st i)) ids) 0%Z = snd (st i)).
  { intros i Hi. rewrite (nth_indep _ 0%Z (snd (st 0%nat))) by (unfold ids; rewrite map_length, seq_length; lia). rewrite (map_nth (fun i => snd (st i))). unfold ids. now rewrite seq_nth by lia. }
  split; [|split; [|split; [|split]]].
  - intros order HP. assert (IN : forall i, In i order <-> (i < length (hp_hold P))%nat) by (intros i; rewrite HP; unfold ids; rewrite in_seq; lia).
    destruct (lim_run K m htol p n CO P PO order ((h, e), w)) as ([[h' e'] w'] & E & (A & B & C) & T).
    + eapply Permutation_NoDup; [symmetry; exact HP|apply seq_NoDup].
    + intros i. apply IN.
    + repeat split; auto.
    + intros i Hi. apply IR. now apply IN.
    + rewrite E. cbn [fst snd] in A, B, C.
      assert (T' : forall i, (i < length (hp_hold P))%nat -> (h_of h' i, h_of e' i, nth i w' 0%Z) = st i). { intros i Hi. specialize (T i Hi). destruct (in_dec Nat.eq_dec i order) as [Y|Y]; [exact T|rewrite IN in Y; contradiction]. }
      apply f_equal, f_equal2; [apply f_equal2; apply nth_ext with (d := 0) (d' := 0)|apply nth_ext with (d := 0%Z) (d' := 0%Z)]; unfold ids; rewrite ?map_length, ?seq_length; auto; intros i Hi.
      * change (h_of h' i = h_of (map (fun i => fst (fst (st i))) (seq 0 (length (hp_hold P)))) i). rewrite nth_map_seq by lia. rewrite <- T' by lia. reflexivity.
      * change (h_of e' i = h_of (map (fun i => snd (fst (st i))) (seq 0 (length (hp_hold P)))) i). rewrite nth_map_seq by lia. rewrite <- T' by lia. reflexivity.
      * fold ids. rewrite NZ by lia. rewrite <- T' by lia. reflexivity.
  - split; [unfold ids; now rewrite map_length, seq_length|]. intros i Hi. unfold ids. rewrite nth_map_seq by auto. apply (steplim_reach K m htol p n CO P PO i _ _ _ Hi (IR i Hi)).
  - unfold ids. now rewrite map_length, seq_length.
  - unfold ids. now rewrite map_length, seq_length.
  - intros i Hi. exists (slope K m P i (h_of h i)). split; [apply (mis_lim K m htol p CO), (IR i Hi)|]. rewrite NZ by auto. unfold ids. rewrite !nth_map_seq by auto. apply (steplim_ok K m htol p n CO P PO i _ _ _ Hi (IR i Hi)).
Qed.
Print Assumptions C52_limiter.

(** The lists of C49 satisfy what the iteration asks for ... *)
Theorem C52_lists : forall c r h hold htol Rk, lists_neighbours r h htol Rk (length hold) c -> (length hold <= length r)%nat -> (forall x, In x hold -> 0 < x) ->
  (forall i, (i < length hold)%nat -> h_of h i = h_of hold i) -> patch_ok htol Rk (mkhp c r hold).
Proof.
  intros c r h hold htol Rk LN LL HP HH. constructor; cbn; auto. intros a Ha. cbn [hp_hold hp_c hp_r] in *. destruct (LN a Ha) as (l & E & ND & IN). exists l. split; auto. split; auto. split.
  - intros b Hb. now apply IN.
  - intros b Hb HD. apply IN. split; auto. left. rewrite (HH a Ha). exact HD.
Qed.
Print Assumptions C52_lists.
(** ... and after it the forces of C50 can use the same lists (no ghosts): its hypotheses hold. *)
Theorem C52_forces : forall mode K m htol p alpha beta f c hold n,
  config_ok K m htol p -> lists_neighbours (f_xyz f) hold htol (Rkern K) n c -> length hold = n -> in_reach htol hold (f_h f) ->
  fields_ok mode f n -> signals_ok mode f alpha beta n ->
  sph_setup mode (dW_3d K) (Rkern K) (hfactd K) m alpha beta f n hold htol n c.
Proof.
  intros mode K m htol p alpha beta f c hold n CO LN LH [L IR] FO SG. destruct (proj1 (C51_forces K) (co_K _ _ _ _ CO)) as (A & B & C). constructor; auto; try lra; [apply CO|].
  split; auto. intros i Hi. destruct FO. apply (IR i). lia.
Qed.
Print Assumptions C52_forces.

(** ** A particle with eighteen ghosts at distance 1 *)
Definition exr : list (vec R) := (0, 0, 0) :: repeat (1, 0, 0) 18.
Definition exc : ocache := mkoc [19%Z] [0%Z] 19 (seq 0 19).
Definition exP (x : R) : hpatch := mkhp exc exr [x].
Definition exb (k : nat) (hs : list (list (list R))) : res (list (list (ocache * list (vec R)))) := Ok [[(exc, exr)]].
Lemma ex_list : for_each_object exc 0 = Ok (seq 0 19).
Proof. vm_compute. reflexivity. Qed.
Lemma ex_patch x : 0 < x -> patch_ok 2 (Rkern M4) (exP x).
Proof.
  intros Hx. constructor; cbn [exP hp_hold hp_r hp_c length].
  - intros [|a] Ha; [|cbn in Ha; lia]. exists (seq 0 19). split; [exact ex_list|]. split; [apply seq_NoDup|]. cbn [exP hp_r]. change (length exr) with 19%nat. split; intros b; rewrite in_seq; lia.
  - cbn. lia.
  - intros h [<-|[]]. exact Hx.
Qed.
Lemma ex_rebuild : rebuild_ok 2 (Rkern M4) [[[1]]] exb.
Proof.
  intros k hs SH HO. exists [[(exc, exr)]]. split; [reflexivity|]. inversion SH as [|? y ? l H1 H2]; subst. inversion H2; subst. inversion H1 as [|? z ? l' H3 H4]; subst. inversion H4; subst. destruct z as [|x [|]]; try discriminate.
  constructor; [|constructor]. constructor; [|constructor]. cbn [fst snd]. apply (ex_patch x). apply (HO [[x]] [x]); simpl; auto.
Qed.
Lemma ex_config : config_ok M4 1 2 2.
Proof. constructor; try lra. cbv [kernels bell]. simpl. auto. Qed.
Lemma ex_sep j : (j < 19)%nat -> separation exr 0 j = if Nat.eq_dec j 0 then 0 else 1.
Proof.
  intros Hj. unfold separation, distance, dist2. destruct (Nat.eq_dec j 0) as [->|N].
  - transitivity (sqrt 0); [f_equal|apply sqrt_0]. unfold pos_of, exr, cx, cy, cz. cbn [nth fst snd]. ring.
  - assert (E : pos_of exr j = (1, 0, 0)). { unfold pos_of, exr. destruct j; [congruence|]. cbn [nth]. assert (X : In (nth j (repeat (1, 0, 0) 18) (0, 0, 0)) (repeat (1, 0, 0) 18)) by (apply nth_In; rewrite repeat_length; lia). now apply repeat_spec in X. }
    rewrite E. transitivity (sqrt 1); [f_equal|apply sqrt_1]. unfold pos_of, exr, cx, cy, cz. cbn [nth fst snd]. ring.
Qed.
Lemma ex_total (g : R -> R) : total (fun j => g (separation exr 0 j)) 19 = g 0 + 18 * g 1.
Proof.
  unfold total. transitivity (Rsum (fun j => if Nat.eq_dec j 0 then g 0 else g 1) (seq 0 19)).
  - apply Rsum_ext. intros j Hj. apply in_seq in Hj. rewrite ex_sep by lia. now destruct (Nat.eq_dec j 0).
  - unfold Rsum. cbn [seq map fold_right Nat.eq_dec nat_rec nat_rect]. ring.
Qed.
Lemma ex_F : mismatch M4 1 exr 0 1 = 11 / 2 / PI - 216 / 125.
Proof.
  pose proof PI_RGT_0. unfold mismatch, sph_density, h_density. change (length exr) with 19%nat. rewrite (ex_total (fun d => 1 * W_3d M4 d 1)).
  cbv [W_3d M4 f norm_3d hfactd M4_f M4_norm_3d M4_hfactd Sphker.f Sphker.norm_3d]. replace (0 / 1) with 0 by field. replace (1 / 1) with 1 by field. repeat destruct (Rlt_dec _ _); try lra; field; lra.
Qed.
Lemma ex_d : slope M4 1 (exP 1) 0 1 = 648 / 125 - 3 / PI.
Proof.
  pose proof PI_RGT_0. unfold slope, ddensity, h_density. cbn [exP hp_r]. change (length exr) with 19%nat. rewrite (ex_total (fun d => 1 * dhW_3d M4 d 1)).
  cbv [dhW_3d M4 f df norm_3d hfactd M4_f M4_df M4_norm_3d M4_hfactd Sphker.f Sphker.df Sphker.norm_3d]. replace (0 / 1) with 0 by field. replace (1 / 1) with 1 by field. repeat destruct (Rlt_dec _ _); try lra; field; lra.
Qed.
Lemma ex_step : exists x, stepf M4 1 2 2 (exP 1) 0 1 100 = (x, Rabs (x - 1)) /\ 9 / 10 < x < 11 / 10.
Proof.
  unfold stepf. rewrite (proj2 (active_spec 100)); [|apply Rlt_le_trans with 1; [|lra]; unfold Rdiv; rewrite Rmult_1_l, <- Rinv_1; apply Rinv_lt_contravar; [|pose proof (pow_lt_1_compat (/ 10) 6)]; try (rewrite Rmult_1_l; apply pow_lt; lra); apply Rlt_pow_R1; [lra|lia]].
  unfold wanted. cbn [exP hp_r hp_hold]. fold (exP 1). rewrite ex_d, ex_F. pose proof PI_4. pose proof PI2_3_2. pose proof PI_RGT_0. assert (L : 3 < PI) by (unfold PI2 in *; lra).
  assert (I : 1 / 4 <= / PI < 1 / 3). { split; [replace (1 / 4) with (/ 4) by field; apply Rinv_le_contravar; lra|replace (1 / 3) with (/ 3) by field; apply Rinv_lt_contravar; lra]. }
  assert (D : 4 < 648 / 125 - 3 / PI < 5) by (unfold Rdiv in *; lra). assert (FB : - 4 / 10 < 11 / 2 / PI - 216 / 125 < 4 / 10) by (unfold Rdiv in *; lra).
  set (d := 648 / 125 - 3 / PI) in *. set (F := 11 / 2 / PI - 216 / 125) in *. clearbody d F.
  assert (Q : - 1 / 10 < F / d < 1 / 10).
  { split; apply Rmult_lt_reg_r with d; try lra; replace (F / d * d) with F by (field; lra); lra. }
  destruct (Req_EM_T d 0) as [Z|Z]; [lra|]. rewrite Rmin_right by lra. rewrite Rmax_right by lra. change (h_of [1] 0) with 1. destruct (Rlt_dec _ _); [|lra]. exists (1 - F / d). split; [|lra]. f_equal. field.
Qed.
Example C52_nonvacuous : config_ok M4 1 2 2 /\ rebuild_ok 2 (Rkern M4) [[[1]]] exb /\ hs_ok [[[1]]] /\ orders_ok (fun _ _ _ _ => [0%nat]) [[[1]]] /\
  2 / 5 <= (2 - 1) / 2 ^ 1 /\
  exists x, subcycles M4 1 2 2 (2 / 5) 1 exb (fun _ _ _ _ => [0%nat]) 3 0 [[[1]]] = Ok (Some ([[exP 1]], [[[x]]])) /\ 9 / 10 < x < 11 / 10.
Proof.
  split; [exact ex_config|]. split; [exact ex_rebuild|]. split.
  { intros l h [<-|[]] [<-|[]]. split; [discriminate|]. intros x [<-|[]]. lra. }
  split.
  { intros s rk it k l h A B. destruct rk as [|[|]]; try discriminate. injection A as <-. destruct k as [|[|]]; try discriminate. injection B as <-. apply Permutation_refl. }
  split; [lra|]. destruct ex_step as (x & E & X). exists x. split; [|exact X]. cbn [subcycles exb rbind zip_ranks zip_patches map start length repeat]. cbn [loop_ranks]. unfold loop_rank. cbn [h_loop once]. fold (exP 1).
  rewrite (run_ok M4 1 2 2 ex_config (exP 1) (ex_patch 1 ltac:(lra))); [|apply Permutation_refl|reflexivity|].
  - unfold run, start. cbn [exP hp_hold length seq map fst snd]. fold (exP 1). unfold h_of. cbn [nth fst snd length repeat]. rewrite E. cbn [fst snd rbind map get_rank_max get_rank_min rfold compute_max compute_min fold_left].
    assert (A : Rabs (x - 1) < 2 / 5) by (apply Rabs_def1; lra). pose proof (Rabs_pos (x - 1)). pose proof f64_big. rewrite Rmax_right by lra. destruct (Rlt_dec (Rabs (x - 1)) (2 / 5)); [|contradiction]. cbn [rbind fst snd map get_rank_min rfold compute_min fold_left].
    rewrite Rmin_right by lra. destruct (Rlt_dec _ 0); [lra|]. destruct (Rlt_dec _ (2 / 5)); [|contradiction]. reflexivity.
  - split; [reflexivity|]. intros [|i] Hi; [|cbn in Hi; lia]. cbn. lra.
Qed.
Print Assumptions C52_nonvacuous.
