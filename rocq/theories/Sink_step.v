(** Proofs about the sinks: action and reaction, one time step. *)
Require Import Reals Lra.
From Verif Require Import Base Par Scan Scan_spec Riemann Fmm_spec Fmm_reps Sgfmm_util Sink Sink_spec Sink_proofs Sink_accr Sink_forces Sink_cons.
From Coq Require Import ZifyBool ZifyNat.
Local Open Scope R_scope.

Lemma anti_sum {A} (f : A -> A -> R) l : (forall i j, f i j = - f j i) -> Rsum (fun i => Rsum (f i) l) l = 0.
Proof.
  intros H. assert (E : Rsum (fun i => Rsum (f i) l) l = - Rsum (fun i => Rsum (f i) l) l); [|lra].
  rewrite Rsum_swap at 1. replace (- Rsum (fun i => Rsum (f i) l) l) with (-1 * Rsum (fun i => Rsum (f i) l) l) by ring. rewrite <- Rsum_scal_l. apply Rsum_ext. intros j _.
  rewrite <- Rsum_scal_l. apply Rsum_ext. intros i _. rewrite (H i j). ring.
Qed.
Lemma gas_on f w : gas (on_gas f w) = map f (gas w).
Proof. unfold gas, on_gas. rewrite <- concat_map, <- concat_map. reflexivity. Qed.

(** ** Indexed particles *)
Definition gas_ix (w : world) : list (gpart * (nat * nat * nat)) := concat (concat (gas_imap (fun r p i q => (q, (r, p, i))) w)).
Lemma imap_map {A B C} (g : B -> C) (f : nat -> A -> B) l : forall i, map g (imap f i l) = imap (fun i a => g (f i a)) i l.
Proof. induction l as [|a l IH]; intros i; simpl; auto. now rewrite IH. Qed.
Lemma imap_ext {A B} (f g : nat -> A -> B) l : forall i, (forall i a, f i a = g i a) -> imap f i l = imap g i l.
Proof. induction l as [|a l IH]; intros i H; simpl; auto. now rewrite H, IH. Qed.
Lemma imap_imap {A B C} (g : nat -> B -> C) (f : nat -> A -> B) l : forall i, imap g i (imap f i l) = imap (fun i a => g i (f i a)) i l.
Proof. induction l as [|a l IH]; intros i; simpl; auto. now rewrite IH. Qed.
Lemma imap_const {A} (l : list A) : forall i, imap (fun _ a => a) i l = l.
Proof. induction l as [|a l IH]; intros i; simpl; auto. now rewrite IH. Qed.
Lemma gas_imap_map {B C} (g : B -> C) f w : map (map (map g)) (gas_imap f w) = gas_imap (fun r p i q => g (f r p i q)) w.
Proof.
  unfold gas_imap. rewrite imap_map. apply imap_ext. intros r rd. rewrite imap_map. apply imap_ext. intros p l. apply imap_map.
Qed.
Lemma gas_imap_imap {C} (g : nat -> nat -> nat -> gpart -> C) f w : gas_imap g (gas_imap f w) = gas_imap (fun r p i q => g r p i (f r p i q)) w.
Proof.
  unfold gas_imap. rewrite imap_imap. apply imap_ext. intros r rd. rewrite imap_imap. apply imap_ext. intros p l. apply imap_imap.
Qed.
Lemma gas_imap_ext {C} (f g : nat -> nat -> nat -> gpart -> C) w : (forall r p i q, f r p i q = g r p i q) -> gas_imap f w = gas_imap g w.
Proof. intros H. unfold gas_imap. apply imap_ext. intros r rd. apply imap_ext. intros p l. apply imap_ext. auto. Qed.
Lemma gas_imap_ix {B} (f : nat -> nat -> nat -> gpart -> B) w : concat (concat (gas_imap f w)) = map (fun '(q, (r, p, i)) => f r p i q) (gas_ix w).
Proof.
  unfold gas_ix. rewrite !concat_map. rewrite gas_imap_map. reflexivity.
Qed.
Lemma gas_ix_fst w : map fst (gas_ix w) = gas w.
Proof.
  unfold gas_ix. rewrite !concat_map. rewrite gas_imap_map. unfold gas. f_equal. f_equal. cbn [fst]. unfold gas_imap.
  transitivity (imap (fun (_ : nat) (rd : list (list gpart)) => rd) 0%nat w); [|apply imap_const]. apply imap_ext. intros r rd.
  transitivity (imap (fun (_ : nat) (l : list gpart) => l) 0%nat rd); [|apply imap_const]. apply imap_ext. intros p l. apply imap_const.
Qed.
Lemma Rsum_ix (f : gpart -> R) w : Rsum f (gas w) = Rsum (fun x => f (fst x)) (gas_ix w).
Proof. rewrite <- gas_ix_fst. apply Rsum_map. Qed.
Definition hy (h : forces) (x : gpart * (nat * nat * nat)) : rv3 := let '(_, (r, p, i)) := x in h r p i.
Lemma no_force_ix w h k : no_force w h -> In k comps -> Rsum (fun x => k (hy h x)) (gas_ix w) = 0.
Proof. intros H Hk. specialize (H k Hk). rewrite gas_imap_ix, Rsum_map in H. rewrite <- H. apply Rsum_ext. intros [q [[r p] i]] _. reflexivity. Qed.
Lemma no_torque_ix w h k : no_torque w h -> In k comps -> Rsum (fun x => crossc (gp_x (fst x)) (hy h x) k) (gas_ix w) = 0.
Proof. intros H Hk. specialize (H k Hk). rewrite gas_imap_ix, Rsum_map in H. rewrite <- H. apply Rsum_ext. intros [q [[r p] i]] _. reflexivity. Qed.

(** ** The corrector: only the last turn counts *)
Lemma turn_turn dt h h' w : corrector_turn dt h' (corrector_turn dt h w) = corrector_turn dt h' w.
Proof.
  unfold corrector_turn. rewrite gas_imap_imap. apply gas_imap_ext. intros r p i q. cbn [gp_x gp_v gp_a gp_ext gp_rest]. f_equal. apply rv3_eq; simpl; ring.
Qed.
Lemma turns_last dt turns h w : fold_left (fun w h => corrector_turn dt h w) (turns ++ [h]) w = corrector_turn dt h w.
Proof.
  rewrite fold_left_app. cbn [fold_left]. revert w. induction turns as [|h0 turns IH]; intros w; cbn [fold_left]; auto. rewrite IH. apply turn_turn.
Qed.
Definition turned (dt : R) (h : forces) (x : gpart * (nat * nat * nat)) : gpart :=
  let q := fst x in let a := rvadd (hy h x) (gp_ext q) in
  mkgp (gp_x q) (rvadd (gp_v q) (rvscal (dt / 2) (rvsub a (gp_a q)))) a (gp_ext q) (gp_rest q).
Lemma turn_sum dt h w (f : gpart -> R) : Rsum f (gas (corrector_turn dt h w)) = Rsum (fun x => f (turned dt h x)) (gas_ix w).
Proof. unfold gas, corrector_turn. rewrite gas_imap_ix, Rsum_map. apply Rsum_ext. intros [q [[r p] i]] _. reflexivity. Qed.

(** ** Action and reaction *)
Section Newton.
  Context (G m : R) (sk : sinks).
  Let n := nsinks sk.
  Lemma addFs_vec k q : gp_ext (addFs G sk k q) = rvadd (gp_ext q) (vsum (map (fun t => rvscal (s_m (sink_at sk t)) (rvneg (FF G (sink_at sk t) (gp_x q)))) (seq 0 k))).
  Proof.
    induction k as [|k IH]; [unfold addFs; cbn [seq map vsum fold_right fold_left]; now rewrite rvadd_0_r|].
    assert (E : addFs G sk (S k) q = addF G (sink_at sk k) (addFs G sk k q)) by (unfold addFs; rewrite seq_S, fold_left_app; reflexivity).
    rewrite E. unfold addF at 1. cbn [gp_ext]. rewrite IH, addFs_x, seq_S, map_app, vsum_app. cbn [map vsum fold_right Nat.add]. rewrite rvadd_0_r. now rewrite rvadd_assoc.
  Qed.
  Lemma newton_force w k : In k comps -> (forall q, In q (gas w) -> gp_ext q = rvzero) ->
    Rsum (fun q => m * k (gp_ext (addFs G sk n q))) (gas w) + Rsum (fun t => s_m (sink_at sk t) * k (sph_acc G m sk w t)) (seq 0 n) = 0.
  Proof.
    intros Hk H. unfold sph_acc.
    rewrite (Rsum_ext _ _ (fun q => Rsum (fun t => - (m * s_m (sink_at sk t) * k (FF G (sink_at sk t) (gp_x q)))) (seq 0 n)) (gas w)).
    - rewrite Rsum_swap, <- Rsum_plus. rewrite (Rsum_ext _ _ (fun _ => 0)); [apply Rsum_zero|]. intros t _.
      rewrite k_vsum, Rsum_map, <- Rsum_scal_l, <- Rsum_plus by auto. rewrite (Rsum_ext _ _ (fun _ => 0)); [apply Rsum_zero|]. intros q _. rewrite k_scal by auto. ring.
    - intros q Hq. rewrite addFs_vec, H, rvadd_0_l, k_vsum, Rsum_map, <- Rsum_scal_l by auto. apply Rsum_ext. intros t _. rewrite k_scal, k_neg by auto. ring.
  Qed.
  Lemma FF_torque s x k : In k comps -> crossc x (FF G s x) k = crossc (s_x s) (FF G s x) k.
  Proof.
    intros Hk. unfold FF. destruct (Rlt_dec _ _); [now rewrite !cross_zero_r by auto|]. generalize (dist x (s_x s) * dist x (s_x s) * dist x (s_x s)). intros D.
    unfold crossc, rvcross, rvdiv, rvscal, rvsub, Rdiv. onk Hk; simpl; ring.
  Qed.
  Lemma newton_torque w k : In k comps -> (forall q, In q (gas w) -> gp_ext q = rvzero) ->
    Rsum (fun q => m * crossc (gp_x q) (gp_ext (addFs G sk n q)) k) (gas w) + Rsum (fun t => s_m (sink_at sk t) * crossc (s_x (sink_at sk t)) (sph_acc G m sk w t) k) (seq 0 n) = 0.
  Proof.
    intros Hk H. unfold sph_acc.
    rewrite (Rsum_ext _ _ (fun q => Rsum (fun t => - (m * s_m (sink_at sk t) * crossc (s_x (sink_at sk t)) (FF G (sink_at sk t) (gp_x q)) k)) (seq 0 n)) (gas w)).
    - rewrite Rsum_swap, <- Rsum_plus. rewrite (Rsum_ext _ _ (fun _ => 0)); [apply Rsum_zero|]. intros t _.
      rewrite cross_vsum_r, <- Rsum_scal_l, <- Rsum_plus by auto. rewrite (Rsum_ext _ _ (fun _ => 0)); [apply Rsum_zero|]. intros q _. rewrite cross_scal_r by auto. ring.
    - intros q Hq. rewrite addFs_vec, H, rvadd_0_l, cross_vsum_r, <- Rsum_scal_l by auto. apply Rsum_ext. intros t _. rewrite cross_scal_r, cross_neg_r, FF_torque by auto. ring.
  Qed.
  Lemma dist_sym x y : dist x y = dist y x.
  Proof. unfold dist. f_equal. ring. Qed.
  Lemma ext_force_zero k : In k comps -> Rsum (fun i => s_m (sink_at sk i) * k (ext_acc G sk i)) (seq 0 n) = 0.
  Proof.
    intros Hk. rewrite (Rsum_ext _ _ (fun i => Rsum (fun j => s_m (sink_at sk i) * s_m (sink_at sk j) * soft_pull G (s_x (sink_at sk i)) (s_x (sink_at sk j)) k) (seq 0 n))).
    - apply anti_sum. intros i j. unfold soft_pull. rewrite (dist_sym (s_x (sink_at sk j))). unfold Rdiv. ring.
    - intros i _. rewrite ext_acc_k, <- Rsum_scal_l by auto. apply Rsum_ext. intros j _. ring.
  Qed.
  Lemma ext_torque_zero k : In k comps -> Rsum (fun i => s_m (sink_at sk i) * crossc (s_x (sink_at sk i)) (ext_acc G sk i) k) (seq 0 n) = 0.
  Proof.
    intros Hk. rewrite (Rsum_ext _ _ (fun i => Rsum (fun j => s_m (sink_at sk i) * s_m (sink_at sk j) * (G / (dist (s_x (sink_at sk i)) (s_x (sink_at sk j)) ^ 3 + 1 / 10 ^ 9)) * crossc (s_x (sink_at sk i)) (s_x (sink_at sk j)) k) (seq 0 n))).
    - apply anti_sum. intros i j. rewrite (dist_sym (s_x (sink_at sk j))), (cross_anti (s_x (sink_at sk j))) by auto. ring.
    - intros i _. unfold ext_acc. rewrite cross_vsum_r, <- Rsum_scal_l by auto. apply Rsum_ext. intros j _.
      generalize (dist (s_x (sink_at sk i)) (s_x (sink_at sk j)) ^ 3 + 1 / 10 ^ 9). intros D. unfold crossc, rvcross, rvneg, rvdiv, rvscal, rvsub, Rdiv. onk Hk; cbn [rx ry rz]; ring.
  Qed.
End Newton.

(** ** The functions, sink by sink *)
Definition upto (n : nat) (r : res sinks) (f : nat -> sink) : Prop :=
  exists sk', r = Ok sk' /\ same_size n sk' /\ forall i, (i < n)%nat -> sink_at sk' i = f i.
Section Sinkwise.
  Context (G dt : R) (n : nat) (sk : sinks) (SS : same_size n sk).
  Lemma nsk : nsinks sk = n. Proof. destruct SS; auto. Qed.
  Lemma ss : same_size (nsinks sk) sk. Proof. rewrite nsk. auto. Qed.
  Lemma ext_upto : upto n (compute_ext_forces G sk) (fun i => let s := sink_at sk i in mks (s_x s) (s_v s) (s_asph s) (ext_acc G sk i) (s_m s) (s_l s) (s_r s)).
  Proof.
    unfold upto. rewrite (ext_ok G sk ss), nsk. eexists. split; [reflexivity|]. destruct SS. split; [constructor; cbn; auto; now rewrite map_length, seq_length|].
    intros i Hi. unfold sink_at. cbn. rewrite nth_map_seq by auto. reflexivity.
  Qed.
  Lemma kick_upto : upto n (kick_sinks dt n sk) (fun i => let s := sink_at sk i in mks (s_x s) (rvadd (s_v s) (rvscal (dt / 2) (rvadd (s_asph s) (s_aext s)))) (s_asph s) (s_aext s) (s_m s) (s_l s) (s_r s)).
  Proof.
    unfold upto. pose proof (kick_ok sk ss dt) as K. rewrite nsk in K. rewrite K. eexists. split; [reflexivity|]. destruct SS. split; [constructor; cbn; auto; now rewrite map_length, seq_length|].
    intros i Hi. unfold sink_at. cbn. rewrite nth_map_seq by auto. reflexivity.
  Qed.
  Lemma corrector_upto : upto n (sink_corrector dt sk) (fun i => let s := sink_at sk i in mks (s_x s) (rvadd (s_v s) (rvscal (dt / 2) (rvadd (s_asph s) (s_aext s)))) (s_asph s) (s_aext s) (s_m s) (s_l s) (s_r s)).
  Proof.
    unfold sink_corrector. destruct (Nat.eqb_spec (length (sk_vel sk)) 0) as [Z|Z].
    - exists sk. split; auto. split; auto. intros i Hi. destruct SS. lia.
    - replace (length (sk_vel sk)) with n by (destruct SS; auto). apply kick_upto.
  Qed.
  Lemma drift_upto : upto n (l <- mapi (fun _ i => x <- aget (sk_pos sk) i ;; v <- aget (sk_vel sk) i ;; Ok (rvadd x (rvscal dt v))) 0%nat (seq 0 (length (sk_pos sk))) ;;
      Ok (mksk l (sk_vel sk) (sk_asph sk) (sk_aext sk) (sk_mass sk) (sk_ang sk) (sk_racc sk)))
     (fun i => let s := sink_at sk i in mks (rvadd (s_x s) (rvscal dt (s_v s))) (s_v s) (s_asph s) (s_aext s) (s_m s) (s_l s) (s_r s)).
  Proof.
    unfold upto. destruct SS. rewrite (mapi_ok _ (fun i => rvadd (s_x (sink_at sk i)) (rvscal dt (s_v (sink_at sk i))))).
    - cbn [rbind]. rewrite ss_pos. eexists. split; [reflexivity|]. split; [constructor; cbn; auto; now rewrite map_length, seq_length|].
      intros i Hi. unfold sink_at. cbn. rewrite nth_map_seq by auto. reflexivity.
    - intros _ i Hi. apply in_seq in Hi. rewrite (aget_lt _ i rvzero) by lia. cbn [rbind]. rewrite (aget_lt _ i rvzero) by lia. reflexivity.
  Qed.
End Sinkwise.
Lemma upto_bind n r f (g : sinks -> res sinks) h : upto n r f -> (forall sk', r = Ok sk' -> same_size n sk' -> (forall i, (i < n)%nat -> sink_at sk' i = f i) -> upto n (g sk') h) -> upto n (rbind r g) h.
Proof. intros (sk' & E & SS & F) H. rewrite E. cbn [rbind]. apply H; auto. Qed.
Lemma upto_ext n r f g : upto n r f -> (forall i, (i < n)%nat -> f i = g i) -> upto n r g.
Proof. intros (sk' & E & SS & F) H. exists sk'. split; auto. split; auto. intros i Hi. now rewrite F, H. Qed.
Definition half_v (G dt : R) (sk : sinks) (i : nat) : rv3 :=
  let s := sink_at sk i in rvadd (s_v s) (rvscal (dt / 2) (rvadd (s_asph s) (ext_acc G sk i))).
Lemma predictor_upto G dt n sk : same_size n sk ->
  upto n (sink_predictor G dt sk) (fun i => let s := sink_at sk i in mks (rvadd (s_x s) (rvscal dt (half_v G dt sk i))) (half_v G dt sk i) (s_asph s) (ext_acc G sk i) (s_m s) (s_l s) (s_r s)).
Proof.
  intros SS. unfold sink_predictor. destruct (Nat.eqb_spec (length (sk_pos sk)) 0) as [Z|Z].
  - exists sk. split; auto. split; auto. intros i Hi. destruct SS. lia.
  - eapply upto_bind; [apply ext_upto; auto|]. intros s1 _ S1 F1.
    eapply upto_bind. { replace (length (sk_pos s1)) with n by (destruct S1; auto). apply kick_upto; auto. }
    intros s2 _ S2 F2. eapply upto_ext; [apply drift_upto; auto|]. intros i Hi. cbv beta zeta. rewrite F2 by auto. cbv beta zeta. rewrite F1 by auto. reflexivity.
Qed.
Lemma sph_upto e G m n w sk : senv_ok e -> sinks_ok sk -> nsinks sk = n ->
  exists sk', compute_sph_forces e G m w sk = Ok (on_gas (addFs G sk n) w, sk') /\ same_size n sk' /\
    forall i, (i < n)%nat -> sink_at sk' i = let s := sink_at sk i in mks (s_x s) (s_v s) (sph_acc G m sk w i) (s_aext s) (s_m s) (s_l s) (s_r s).
Proof.
  intros EO SO <-. rewrite (sph_forces_ok e EO G m sk SO). eexists. split; [reflexivity|]. pose proof SO as []. split; [constructor; cbn; auto; now rewrite map_length, seq_length|].
  intros i Hi. unfold sink_at. cbn. rewrite nth_map_seq by auto. reflexivity.
Qed.
(** sizes, masses and radii *)
Lemma ok_of n sk sk' : sinks_ok sk -> nsinks sk = n -> same_size n sk' -> (forall i, (i < n)%nat -> s_m (sink_at sk' i) = s_m (sink_at sk i) /\ s_r (sink_at sk' i) = s_r (sink_at sk i)) -> sinks_ok sk'.
Proof.
  intros SO N [] H. assert (N' : nsinks sk' = n) by auto. pose proof SO as []. constructor; rewrite ?N'; auto; try lia.
  - intros s Hs. unfold all_sinks in Hs. apply in_map_iff in Hs. destruct Hs as (i & <- & Hi). apply in_seq in Hi. rewrite (proj1 (H i ltac:(lia))). apply so_mpos, in_sinks. lia.
  - intros s Hs. unfold all_sinks in Hs. apply in_map_iff in Hs. destruct Hs as (i & <- & Hi). apply in_seq in Hi. rewrite (proj2 (H i ltac:(lia))). apply so_rpos, in_sinks. lia.
Qed.
Lemma ext_acc_same G sk sk' i : nsinks sk = nsinks sk' -> (i < nsinks sk)%nat -> (forall j, (j < nsinks sk)%nat -> s_x (sink_at sk j) = s_x (sink_at sk' j) /\ s_m (sink_at sk j) = s_m (sink_at sk' j)) ->
  ext_acc G sk i = ext_acc G sk' i.
Proof.
  intros N Hi H. unfold ext_acc. rewrite <- N. f_equal. apply map_ext_in. intros j Hj. apply in_seq in Hj. destruct (H j ltac:(lia)) as [-> ->]. destruct (H i Hi) as [-> _]. reflexivity.
Qed.

(** ** One step *)
Section Step.
  Context (e2 : senv) (E2 : senv_ok e2) (G m dt : R) (red : world -> world) (RD : forall w, Permutation (gas (red w)) (gas w)).
  (** after accretion *)
  Context (w : world) (sk : sinks) (SO : sinks_ok sk).
  Let n := nsinks sk.
  Lemma begin_ok : exists w1 sk1 sk2,
    (sk0 <- sink_predictor G dt sk ;; let w0 := gas_predictor dt w in sk0 <- compute_ext_forces G sk0 ;; '(w0, sk0) <- compute_sph_forces e2 G m (reset_ext w0) sk0 ;; Ok (red w0, sk0)) = Ok (w1, sk1) /\
    same_size n sk1 /\ sinks_ok sk1 /\ sinks_ok sk2 /\ nsinks sk2 = n /\
    (forall i, (i < n)%nat -> let s := sink_at sk i in
       s_x (sink_at sk2 i) = rvadd (s_x s) (rvscal dt (half_v G dt sk i)) /\ s_m (sink_at sk2 i) = s_m s /\
       sink_at sk1 i = mks (rvadd (s_x s) (rvscal dt (half_v G dt sk i))) (half_v G dt sk i) (sph_acc G m sk2 (reset_ext (gas_predictor dt w)) i) (ext_acc G sk2 i) (s_m s) (s_l s) (s_r s)) /\
    w1 = red (on_gas (addFs G sk2 n) (reset_ext (gas_predictor dt w))).
  Proof.
    destruct (predictor_upto G dt n sk (ok_same sk SO)) as (a & Ea & Sa & Fa). rewrite Ea. cbn [rbind]. cbv zeta.
    destruct (ext_upto G n a Sa) as (b & Eb & Sb & Fb). rewrite Eb. cbn [rbind].
    assert (Ob : sinks_ok b). { eapply (ok_of n sk b); auto. intros i Hi. rewrite Fb, Fa by auto. auto. }
    assert (Nb : nsinks b = n) by (destruct Sb; auto).
    destruct (sph_upto e2 G m n (reset_ext (gas_predictor dt w)) b E2 Ob Nb) as (c & Ec & Sc & Fc). rewrite Ec. cbn [rbind].
    do 3 eexists. split; [reflexivity|]. split; [exact Sc|]. split. { eapply (ok_of n sk c); auto. intros i Hi. rewrite Fc, Fb, Fa by auto. auto. }
    split; [exact Ob|]. split; [exact Nb|]. split; [|reflexivity]. intros i Hi. rewrite Fc, Fb, Fa by auto. cbv zeta. cbn [s_x s_v s_m s_l s_r s_aext]. split; auto. split; auto.
    f_equal. apply ext_acc_same; [transitivity n; [destruct Sa; auto|auto]|destruct Sa; unfold nsinks; lia|]. intros j Hj. assert (Hj' : (j < n)%nat) by (destruct Sa; unfold nsinks in Hj; lia).
    rewrite Fb by auto. auto.
  Qed.

  (** the gas at the end of the begin phase *)
  Definition begun (sk2 : sinks) (q : gpart) : gpart :=
    addFs G sk2 n (let q := half_kick dt (drift dt (half_kick dt q)) in mkgp (gp_x q) (gp_v q) (gp_a q) rvzero (gp_rest q)).
  Lemma begun_gas sk2 : Permutation (gas (red (on_gas (addFs G sk2 n) (reset_ext (gas_predictor dt w))))) (map (begun sk2) (gas w)).
  Proof. etransitivity; [apply RD|]. unfold reset_ext, gas_predictor. rewrite !gas_on, !map_map. reflexivity. Qed.
  Lemma begun_sum sk2 (f : gpart -> R) : Rsum f (gas (red (on_gas (addFs G sk2 n) (reset_ext (gas_predictor dt w))))) = Rsum (fun q => f (begun sk2 q)) (gas w).
  Proof. rewrite (Rsum_perm _ f _ _ (begun_gas sk2)). apply Rsum_map. Qed.
  Definition vh (q : gpart) : rv3 := rvadd (gp_v q) (rvscal (dt / 2) (gp_a q)).
  Lemma begun_x sk2 q : gp_x (begun sk2 q) = rvadd (gp_x q) (rvscal dt (vh q)).
  Proof. unfold begun. rewrite addFs_x. reflexivity. Qed.
  Lemma begun_v sk2 q : gp_v (begun sk2 q) = rvadd (vh q) (rvscal (dt / 2) (gp_a q)).
  Proof. unfold begun. cbv zeta. rewrite (proj1 (proj2 (addFs_same G sk2 n _))). reflexivity. Qed.
  Lemma begun_a sk2 q : gp_a (begun sk2 q) = gp_a q.
  Proof. unfold begun. cbv zeta. rewrite (proj1 (proj2 (proj2 (addFs_same G sk2 n _)))). reflexivity. Qed.

  Context (sk1 sk2 : sinks) (O2 : sinks_ok sk2) (N2 : nsinks sk2 = n) (S1 : same_size n sk1).
  Context (F : forall i, (i < n)%nat -> let s := sink_at sk i in
       s_x (sink_at sk2 i) = rvadd (s_x s) (rvscal dt (half_v G dt sk i)) /\ s_m (sink_at sk2 i) = s_m s /\
       sink_at sk1 i = mks (rvadd (s_x s) (rvscal dt (half_v G dt sk i))) (half_v G dt sk i) (sph_acc G m sk2 (reset_ext (gas_predictor dt w)) i) (ext_acc G sk2 i) (s_m s) (s_l s) (s_r s)).
  Let w1 : world := red (on_gas (addFs G sk2 n) (reset_ext (gas_predictor dt w))).
  Let wp : world := reset_ext (gas_predictor dt w).
  Lemma wp_zero q : In q (gas wp) -> gp_ext q = rvzero.
  Proof. unfold wp, reset_ext. rewrite gas_on. intros H. apply in_map_iff in H. destruct H as (x & <- & _). reflexivity. Qed.
  Lemma wp_sum (f : gpart -> R) : Rsum (fun q => f (addFs G sk2 n q)) (gas wp) = Rsum (fun q => f (begun sk2 q)) (gas w).
  Proof. unfold wp, reset_ext, gas_predictor. rewrite !gas_on, !Rsum_map. reflexivity. Qed.
  (** Newton, with the sinks where they are at the end *)
  Lemma newtonF k : In k comps ->
    Rsum (fun q => m * k (gp_ext (begun sk2 q))) (gas w) + Rsum (fun i => s_m (sink_at sk i) * k (sph_acc G m sk2 wp i)) (seq 0 n) = 0.
  Proof.
    intros Hk. pose proof (newton_force G m sk2 wp k Hk wp_zero) as H. rewrite N2 in H. rewrite (wp_sum (fun q => m * k (gp_ext q))) in H. etransitivity; [|exact H]. f_equal.
    apply Rsum_ext. intros i Hi. apply in_seq in Hi. destruct (F i) as (_ & -> & _); auto; lia.
  Qed.
  Lemma newtonT k : In k comps ->
    Rsum (fun q => m * crossc (gp_x (begun sk2 q)) (gp_ext (begun sk2 q)) k) (gas w) + Rsum (fun i => s_m (sink_at sk i) * crossc (rvadd (s_x (sink_at sk i)) (rvscal dt (half_v G dt sk i))) (sph_acc G m sk2 wp i) k) (seq 0 n) = 0.
  Proof.
    intros Hk. pose proof (newton_torque G m sk2 wp k Hk wp_zero) as H. rewrite N2 in H. etransitivity; [|exact H]. f_equal.
    - rewrite <- (wp_sum (fun q => m * crossc (gp_x q) (gp_ext q) k)). apply Rsum_ext. intros q _. now rewrite addFs_x.
    - apply Rsum_ext. intros i Hi. apply in_seq in Hi. destruct (F i) as (-> & -> & _); auto; lia.
  Qed.
  Lemma extF k : In k comps -> Rsum (fun i => s_m (sink_at sk i) * k (ext_acc G sk2 i)) (seq 0 n) = 0.
  Proof.
    intros Hk. pose proof (ext_force_zero G sk2 k Hk) as H. rewrite N2 in H. rewrite <- H. apply Rsum_ext. intros i Hi. apply in_seq in Hi. destruct (F i) as (_ & -> & _); auto; lia.
  Qed.
  Lemma extT k : In k comps -> Rsum (fun i => s_m (sink_at sk i) * crossc (rvadd (s_x (sink_at sk i)) (rvscal dt (half_v G dt sk i))) (ext_acc G sk2 i) k) (seq 0 n) = 0.
  Proof.
    intros Hk. pose proof (ext_torque_zero G sk2 k Hk) as H. rewrite N2 in H. rewrite <- H. apply Rsum_ext. intros i Hi. apply in_seq in Hi. destruct (F i) as (-> & -> & _); auto; lia.
  Qed.
  Context (h : forces) (sk3 : sinks) (S3 : same_size n sk3).
  Context (F3 : forall i, (i < n)%nat -> sink_at sk3 i = let s := sink_at sk1 i in mks (s_x s) (rvadd (s_v s) (rvscal (dt / 2) (rvadd (s_asph s) (s_aext s)))) (s_asph s) (s_aext s) (s_m s) (s_l s) (s_r s)).
  Let w3 := corrector_turn dt h w1.
  Lemma sinks3 (f : sink -> R) : Rsum f (all_sinks sk3) = Rsum (fun i => let s := sink_at sk i in
     f (mks (rvadd (s_x s) (rvscal dt (half_v G dt sk i)))
            (rvadd (half_v G dt sk i) (rvscal (dt / 2) (rvadd (sph_acc G m sk2 wp i) (ext_acc G sk2 i))))
            (sph_acc G m sk2 wp i) (ext_acc G sk2 i) (s_m s) (s_l s) (s_r s))) (seq 0 n).
  Proof.
    rewrite all_sinks_sum. assert (N3 : nsinks sk3 = n) by (destruct S3; auto). rewrite N3. apply Rsum_ext. intros i Hi. apply in_seq in Hi.
    rewrite F3 by lia. destruct (F i) as (_ & _ & ->); [lia|]. reflexivity.
  Qed.
  Lemma end_mass : mass_total m w3 sk3 = mass_total m w sk.
  Proof.
    unfold mass_total. rewrite <- !Rsum_len, sinks3. unfold w3. rewrite turn_sum. cbv zeta. cbn [s_m]. rewrite all_sinks_sum. fold n. f_equal.
    rewrite <- (Rsum_ix (fun _ => m)). unfold w1. apply (begun_sum sk2 (fun _ => m)).
  Qed.
  Lemma end_force k : In k comps -> no_force w1 h -> force_total m k w3 sk3 = 0.
  Proof.
    intros Hk NF. unfold force_total. rewrite sinks3. cbv zeta. cbn [s_m s_asph]. unfold w3. rewrite turn_sum. unfold turned. cbv zeta. cbn [gp_a].
    rewrite (Rsum_ext _ _ (fun x => m * k (hy h x) + m * k (gp_ext (fst x)))) by (intros x _; rewrite k_add by auto; ring).
    rewrite Rsum_plus, (Rsum_scal_l _ m (gas_ix w1)), no_force_ix by auto. rewrite <- (Rsum_ix (fun q => m * k (gp_ext q))). unfold w1. rewrite begun_sum.
    pose proof (newtonF k Hk). lra.
  Qed.
  Lemma end_torque k : In k comps -> no_torque w1 h -> torque_total m k w3 sk3 = 0.
  Proof.
    intros Hk NF. unfold torque_total. rewrite sinks3. cbv zeta. cbn [s_m s_x s_asph]. unfold w3. rewrite turn_sum. unfold turned. cbv zeta. cbn [gp_a gp_x].
    rewrite (Rsum_ext _ _ (fun x => m * crossc (gp_x (fst x)) (hy h x) k + m * crossc (gp_x (fst x)) (gp_ext (fst x)) k)) by (intros x _; rewrite cross_add_r by auto; ring).
    rewrite Rsum_plus, (Rsum_scal_l _ m (gas_ix w1)), no_torque_ix by auto. rewrite <- (Rsum_ix (fun q => m * crossc (gp_x q) (gp_ext q) k)). unfold w1. rewrite (begun_sum sk2 (fun q => m * crossc (gp_x q) (gp_ext q) k)).
    pose proof (newtonT k Hk). lra.
  Qed.
  Lemma end_centre k : In k comps -> centre m k w3 sk3 = centre m k w sk + dt * momentum m k w sk + dt * (dt / 2) * force_total m k w sk.
  Proof.
    intros Hk. unfold centre, momentum, force_total. rewrite sinks3, !all_sinks_sum. cbv zeta. cbn [s_m s_x]. unfold w3. rewrite turn_sum. unfold turned. cbv zeta. cbn [gp_x].
    rewrite <- (Rsum_ix (fun q => m * k (gp_x q))). unfold w1. rewrite (begun_sum sk2 (fun q => m * k (gp_x q))). fold n.
    rewrite (Rsum_ext _ _ (fun q => m * k (gp_x q) + (dt * (m * k (gp_v q)) + dt * (dt / 2) * (m * k (gp_a q))))) by (intros q _; rewrite begun_x; unfold vh; rewrite ?k_add, ?k_scal, ?k_add, ?k_scal by auto; ring).
    rewrite (Rsum_ext _ (fun i => s_m (sink_at sk i) * k (rvadd _ _)) (fun i => s_m (sink_at sk i) * k (s_x (sink_at sk i)) + (dt * (s_m (sink_at sk i) * k (s_v (sink_at sk i))) + (dt * (dt / 2) * (s_m (sink_at sk i) * k (s_asph (sink_at sk i))) + dt * (dt / 2) * (s_m (sink_at sk i) * k (ext_acc G sk i))))))
      by (intros i _; unfold half_v; cbv zeta; rewrite ?k_add, ?k_scal, ?k_add, ?k_scal, ?k_add by auto; ring).
    rewrite !Rsum_plus. rewrite (Rsum_scal_l (fun q => m * k (gp_v q)) dt), (Rsum_scal_l (fun q => m * k (gp_a q)) (dt * (dt / 2))).
    rewrite (Rsum_scal_l (fun i => s_m (sink_at sk i) * k (s_v (sink_at sk i))) dt), (Rsum_scal_l (fun i => s_m (sink_at sk i) * k (s_asph (sink_at sk i))) (dt * (dt / 2))), (Rsum_scal_l (fun i => s_m (sink_at sk i) * k (ext_acc G sk i)) (dt * (dt / 2))).
    pose proof (ext_force_zero G sk k Hk) as E. fold n in E. rewrite E. ring.
  Qed.
  Lemma end_momentum k : In k comps -> no_force w1 h -> momentum m k w3 sk3 = momentum m k w sk + dt / 2 * force_total m k w sk.
  Proof.
    intros Hk NF. unfold momentum, force_total. rewrite sinks3, !all_sinks_sum. cbv zeta. cbn [s_m s_v]. unfold w3. rewrite turn_sum. unfold turned. cbv zeta. cbn [gp_v].
    rewrite (Rsum_ext _ _ (fun x => dt / 2 * m * k (hy h x) + m * (k (gp_v (fst x)) + dt / 2 * (k (gp_ext (fst x)) - k (gp_a (fst x)))))) by (intros x _; rewrite k_add, k_scal, k_sub, k_add by auto; ring).
    rewrite Rsum_plus, (Rsum_scal_l _ (dt / 2 * m) (gas_ix w1)), no_force_ix by auto. rewrite <- (Rsum_ix (fun q => m * (k (gp_v q) + dt / 2 * (k (gp_ext q) - k (gp_a q))))). unfold w1.
    rewrite (begun_sum sk2 (fun q => m * (k (gp_v q) + dt / 2 * (k (gp_ext q) - k (gp_a q))))). fold n.
    rewrite (Rsum_ext _ _ (fun q => m * k (gp_v q) + (dt / 2 * (m * k (gp_a q)) + dt / 2 * (m * k (gp_ext (begun sk2 q)))))) by (intros q _; rewrite begun_v, begun_a; unfold vh; rewrite ?k_add, ?k_scal by auto; ring).
    rewrite (Rsum_ext _ (fun i => s_m (sink_at sk i) * k (rvadd _ _)) (fun i => s_m (sink_at sk i) * k (s_v (sink_at sk i)) + (dt / 2 * (s_m (sink_at sk i) * k (s_asph (sink_at sk i))) + (dt / 2 * (s_m (sink_at sk i) * k (ext_acc G sk i))
       + (dt / 2 * (s_m (sink_at sk i) * k (sph_acc G m sk2 wp i)) + dt / 2 * (s_m (sink_at sk i) * k (ext_acc G sk2 i)))))))
      by (intros i _; unfold half_v; cbv zeta; rewrite ?k_add, ?k_scal, ?k_add, ?k_scal, ?k_add by auto; ring).
    rewrite !Rsum_plus. rewrite (Rsum_scal_l (fun q => m * k (gp_a q)) (dt / 2)), (Rsum_scal_l (fun q => m * k (gp_ext (begun sk2 q))) (dt / 2)).
    rewrite (Rsum_scal_l (fun i => s_m (sink_at sk i) * k (s_asph (sink_at sk i))) (dt / 2)), (Rsum_scal_l (fun i => s_m (sink_at sk i) * k (ext_acc G sk i)) (dt / 2)), (Rsum_scal_l (fun i => s_m (sink_at sk i) * k (ext_acc G sk2 i)) (dt / 2)), (Rsum_scal_l (fun i => s_m (sink_at sk i) * k (sph_acc G m sk2 wp i)) (dt / 2)).
    pose proof (ext_force_zero G sk k Hk) as E. fold n in E. rewrite E, (extF k Hk). pose proof (newtonF k Hk) as H. 
    set (A := Rsum (fun q => m * k (gp_ext (begun sk2 q))) (gas w)) in *. set (B := Rsum (fun i => s_m (sink_at sk i) * k (sph_acc G m sk2 wp i)) (seq 0 n)) in *.
    replace B with (- A) by lra. ring.
  Qed.
  Lemma end_angular k : In k comps -> no_torque w1 h -> angular m k w3 sk3 = angular m k w sk + dt / 2 * torque_total m k w sk.
  Proof.
    intros Hk NF. unfold angular, torque_total. rewrite sinks3, !all_sinks_sum. cbv zeta. cbn [s_m s_v s_x s_l]. unfold w3. rewrite turn_sum. unfold turned. cbv zeta. cbn [gp_v gp_x].
    rewrite (Rsum_ext _ _ (fun x => dt / 2 * m * crossc (gp_x (fst x)) (hy h x) k + m * (crossc (gp_x (fst x)) (gp_v (fst x)) k + dt / 2 * (crossc (gp_x (fst x)) (gp_ext (fst x)) k - crossc (gp_x (fst x)) (gp_a (fst x)) k))))
      by (intros x _; unfold crossc, rvcross, rvadd, rvsub, rvscal; clear - Hk; onk Hk; cbn [rx ry rz]; ring).
    rewrite Rsum_plus, (Rsum_scal_l _ (dt / 2 * m) (gas_ix w1)), no_torque_ix by auto.
    rewrite <- (Rsum_ix (fun q => m * (crossc (gp_x q) (gp_v q) k + dt / 2 * (crossc (gp_x q) (gp_ext q) k - crossc (gp_x q) (gp_a q) k)))). unfold w1.
    rewrite (begun_sum sk2 (fun q => m * (crossc (gp_x q) (gp_v q) k + dt / 2 * (crossc (gp_x q) (gp_ext q) k - crossc (gp_x q) (gp_a q) k)))). fold n.
    rewrite (Rsum_ext _ _ (fun q => m * crossc (gp_x q) (gp_v q) k + (dt / 2 * (m * crossc (gp_x q) (gp_a q) k) + dt / 2 * (m * crossc (gp_x (begun sk2 q)) (gp_ext (begun sk2 q)) k)))).
    2: { intros q _. rewrite begun_v, begun_a. generalize (crossc (gp_x (begun sk2 q)) (gp_ext (begun sk2 q)) k). intros T. rewrite begun_x. unfold vh, crossc, rvcross, rvadd, rvsub, rvscal. clear - Hk. onk Hk; cbn [rx ry rz]; ring. }
    rewrite (Rsum_ext _ (fun i => s_m (sink_at sk i) * crossc (rvadd _ _) _ k + _) (fun i => s_m (sink_at sk i) * crossc (s_x (sink_at sk i)) (s_v (sink_at sk i)) k + k (s_l (sink_at sk i)) + (dt / 2 * (s_m (sink_at sk i) * crossc (s_x (sink_at sk i)) (s_asph (sink_at sk i)) k) + (dt / 2 * (s_m (sink_at sk i) * crossc (s_x (sink_at sk i)) (ext_acc G sk i) k)
       + (dt / 2 * (s_m (sink_at sk i) * crossc (rvadd (s_x (sink_at sk i)) (rvscal dt (half_v G dt sk i))) (sph_acc G m sk2 wp i) k) + dt / 2 * (s_m (sink_at sk i) * crossc (rvadd (s_x (sink_at sk i)) (rvscal dt (half_v G dt sk i))) (ext_acc G sk2 i) k)))))).
    2: { intros i _. rewrite cross_add_r, cross_scal_r, (cross_add_r (sph_acc G m sk2 wp i)) by auto.
         generalize (crossc (rvadd (s_x (sink_at sk i)) (rvscal dt (half_v G dt sk i))) (sph_acc G m sk2 wp i) k) (crossc (rvadd (s_x (sink_at sk i)) (rvscal dt (half_v G dt sk i))) (ext_acc G sk2 i) k). intros A B.
         unfold half_v. cbv zeta. generalize (ext_acc G sk i). intros C. unfold crossc, rvcross, rvadd, rvsub, rvscal. clear - Hk. onk Hk; cbn [rx ry rz]; ring. }
    rewrite !Rsum_plus. rewrite (Rsum_scal_l (fun q => m * crossc (gp_x q) (gp_a q) k) (dt / 2)), (Rsum_scal_l (fun q => m * crossc (gp_x (begun sk2 q)) (gp_ext (begun sk2 q)) k) (dt / 2)).
    rewrite (Rsum_scal_l (fun i => s_m (sink_at sk i) * crossc (s_x (sink_at sk i)) (s_asph (sink_at sk i)) k) (dt / 2)), (Rsum_scal_l (fun i => s_m (sink_at sk i) * crossc (s_x (sink_at sk i)) (ext_acc G sk i) k) (dt / 2)),
      (Rsum_scal_l (fun i => s_m (sink_at sk i) * crossc (rvadd (s_x (sink_at sk i)) (rvscal dt (half_v G dt sk i))) (ext_acc G sk2 i) k) (dt / 2)), (Rsum_scal_l (fun i => s_m (sink_at sk i) * crossc (rvadd (s_x (sink_at sk i)) (rvscal dt (half_v G dt sk i))) (sph_acc G m sk2 wp i) k) (dt / 2)).
    pose proof (ext_torque_zero G sk k Hk) as E. fold n in E. rewrite E, (extT k Hk). pose proof (newtonT k Hk) as H.
    set (A := Rsum (fun q => m * crossc (gp_x (begun sk2 q)) (gp_ext (begun sk2 q)) k) (gas w)) in *.
    set (B := Rsum (fun i => s_m (sink_at sk i) * crossc (rvadd (s_x (sink_at sk i)) (rvscal dt (half_v G dt sk i))) (sph_acc G m sk2 wp i) k) (seq 0 n)) in *.
    replace B with (- A) by lra. ring.
  Qed.
End Step.
