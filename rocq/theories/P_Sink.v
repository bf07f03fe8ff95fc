(** C56: sink particles of the SPH solver (capture, conservation, forces, time step). *)
Require Import Reals Lra.
From Verif Require Import Base Par Scan Scan_spec Riemann Fmm_spec Fmm_reps Sgfmm_util Sink Sink_spec Sink_proofs Sink_accr Sink_forces Sink_cons Sink_step Sink_more.
From Coq Require Import ZifyBool ZifyNat.
Local Open Scope R_scope.

(** Every particle gets the number of the first sink whose accretion sphere contains it, or 2^32 - 1. *)
Theorem C56_capture : forall e sk w, senv_ok e -> sinks_ok sk ->
  exists table, flag_accrete_hard e sk w = Ok (map (map (map table)) w) /\
    forall q, (table q = (2 ^ 32 - 1)%Z <-> forall i, (i < nsinks sk)%nat -> ~ within (gp_x q) (sink_at sk i)) /\
      forall i, (i < nsinks sk)%nat -> (table q = Z.of_nat i <-> within (gp_x q) (sink_at sk i) /\ forall j, (j < i)%nat -> ~ within (gp_x q) (sink_at sk j)).
Proof.
  intros e sk w EO SO. exists (flagZ sk). split; [apply flag_ok; auto|]. intros q. unfold flagZ.
  pose proof (so_small sk SO) as SM. change (2 ^ 32)%Z with 4294967296%Z in *.
  assert (FS : forall n k, match find (fun i => if within_dec (gp_x q) (sink_at sk i) then true else false) (seq k n) with
     | Some i => (k <= i < k + n)%nat /\ within (gp_x q) (sink_at sk i) /\ forall j, (k <= j < i)%nat -> ~ within (gp_x q) (sink_at sk j)
     | None => forall j, (k <= j < k + n)%nat -> ~ within (gp_x q) (sink_at sk j) end).
  { induction n as [|n IH]; intros k; cbn [seq find]; [intros; lia|]. destruct (within_dec (gp_x q) (sink_at sk k)) as [W|W].
    - split; [lia|]. split; auto. intros; lia.
    - specialize (IH (S k)). destruct (find _ (seq (S k) n)) as [i|].
      + destruct IH as (A & B & C). split; [lia|]. split; auto. intros j Hj. destruct (Nat.eq_dec j k) as [->|]; auto. apply C. lia.
      + intros j Hj. destruct (Nat.eq_dec j k) as [->|]; auto. apply IH. lia. }
  specialize (FS (nsinks sk) 0%nat). fold (captor sk q) in FS. destruct (captor sk q) as [c|].
  - destruct FS as (A & B & C). split.
    + split; [intros; lia|]. intros H. exfalso. apply (H c); auto; lia.
    + intros i Hi. split.
      * intros E. assert (c = i) as <- by lia. split; auto. intros; apply C; lia.
      * intros (B' & C'). destruct (Nat.lt_trichotomy c i) as [L|[->|L]]; auto; exfalso; [apply (C' c)|apply (C i)]; auto; lia.
  - unfold u32_max. split.
    + split; auto. intros _ i Hi. apply FS. lia.
    + intros i Hi. split; [lia|]. intros (B & _). exfalso. apply (FS i); auto; lia.
Qed.

(** What accretion does: the particles in no sphere stay, unchanged and in order; each sink gets the mass, the centre of mass, the
    momentum and the force of the particles it takes, and their angular momentum relative to it goes to its spin. *)
Theorem C56_accretion : forall e m dt w sk, senv_ok e -> 0 < m -> sinks_ok sk -> world_ok w ->
  exists sk', sink_accretion e m dt w sk = Ok (map (map (filter (is_free sk))) w, sk') /\ sinks_ok sk' /\ nsinks sk' = nsinks sk /\
    forall i, (i < nsinks sk)%nat -> let s := sink_at sk i in let s' := sink_at sk' i in let l := taken sk i w in
      s_m s' = s_m s + m * INR (length l) /\ s_r s' = s_r s /\ s_aext s' = s_aext s /\ (l = [] -> s' = s) /\
      forall k, In k comps ->
        s_m s' * k (s_x s') = s_m s * k (s_x s) + Rsum (fun q => m * k (gp_x q)) l /\
        s_m s' * k (s_v s') = s_m s * k (s_v s) + Rsum (fun q => m * k (gp_v q)) l /\
        s_m s' * k (s_asph s') = s_m s * k (s_asph s) + Rsum (fun q => m * k (gp_a q)) l /\
        k (s_l s') + s_m s' * crossc (rvsub (s_x s') (s_x s)) (rvsub (s_v s') (s_v s)) k =
          k (s_l s) + Rsum (fun q => m * crossc (rvsub (gp_x q) (s_x s)) (rvsub (rvadd (gp_v q) (rvscal (dt / 2) (gp_a q))) (s_v s)) k) l.
Proof.
  intros e m dt w sk EO MP SO WO. destruct (accretion_ok e EO m dt MP w WO sk SO) as (sk' & E & SS & NS). exists sk'. split; auto.
  split; [eapply new_ok; eauto|]. split; [destruct SS; auto|]. intros i Hi. cbv zeta. rewrite NS by auto.
  assert (SP : 0 < s_m (sink_at sk i)) by (apply (so_mpos sk SO), in_sinks; auto).
  split; [apply new_m|]. split; [apply new_r|]. split; [apply new_aext|]. split; [intros ->; reflexivity|]. intros k Hk.
  split; [apply new_x; auto|]. split; [apply new_v; auto|]. split; [apply new_a; auto|]. apply new_l; auto.
Qed.

(** Accretion conserves the mass, the centre of mass and the momentum (and the total force); the angular momentum gets the half-step
    torque of the captured particles around their sink. *)
Theorem C56_accretion_conserves : forall e m dt w sk w' sk', senv_ok e -> 0 < m -> sinks_ok sk -> world_ok w ->
  sink_accretion e m dt w sk = Ok (w', sk') ->
  mass_total m w' sk' = mass_total m w sk /\
  forall k, In k comps ->
    centre m k w' sk' = centre m k w sk /\ momentum m k w' sk' = momentum m k w sk /\ force_total m k w' sk' = force_total m k w sk /\
    angular m k w' sk' = angular m k w sk
      + dt / 2 * Rsum (fun i => Rsum (fun q => m * crossc (rvsub (gp_x q) (s_x (sink_at sk i))) (gp_a q) k) (taken sk i w)) (seq 0 (nsinks sk)) /\
    angular m k w' sk' + dt / 2 * torque_total m k w' sk' = angular m k w sk + dt / 2 * torque_total m k w sk
      + dt / 2 * Rsum (fun i => s_m (sink_at sk' i) * crossc (rvsub (s_x (sink_at sk' i)) (s_x (sink_at sk i))) (s_asph (sink_at sk' i)) k) (seq 0 (nsinks sk)).
Proof.
  intros e m dt w sk w' sk' EO MP SO WO E. destruct (accretion_ok e EO m dt MP w WO sk SO) as (sk1 & E1 & SS & NS). rewrite E1 in E. injection E as <- <-.
  split; [apply (cons_mass m dt w sk sk1 SS NS)|]. intros k Hk.
  split; [eapply cons_centre; eauto|]. split; [eapply cons_momentum; eauto|]. split; [eapply cons_force; eauto|].
  pose proof (cons_angular m dt MP w sk sk1 SO SS NS k Hk) as A. split; [exact A|]. rewrite A.
  rewrite (cons_torque m dt MP w sk sk1 SO SS NS k Hk). unfold shift_torque. ring.
Qed.

(** The forces.  Gas: each sink of mass M pulls it with M G / d^2 towards the sink, from its accretion radius on; the sinks feel the
    gas and each other; action and reaction balance, in force and in torque. *)
Theorem C56_gas_sink_forces : forall e G m w sk, senv_ok e -> sinks_ok sk ->
  exists f sk', compute_sph_forces e G m w sk = Ok (on_gas f w, sk') /\ nsinks sk' = nsinks sk /\
    (forall q, gp_x (f q) = gp_x q /\ gp_v (f q) = gp_v q /\ gp_a (f q) = gp_a q /\ gp_rest (f q) = gp_rest q /\
       forall k, In k comps -> k (gp_ext (f q)) = k (gp_ext q) + Rsum (fun s => s_m s * pull G (gp_x q) s k) (all_sinks sk)) /\
    (forall i, (i < nsinks sk)%nat -> let s := sink_at sk i in let s' := sink_at sk' i in
       s_x s' = s_x s /\ s_v s' = s_v s /\ s_aext s' = s_aext s /\ s_m s' = s_m s /\ s_l s' = s_l s /\ s_r s' = s_r s /\
       forall k, In k comps -> k (s_asph s') = Rsum (fun q => - (m * pull G (gp_x q) s k)) (gas w)) /\
    forall k, In k comps -> (forall q, In q (gas w) -> gp_ext q = rvzero) ->
      Rsum (fun q => m * k (gp_ext q)) (gas (on_gas f w)) + Rsum (fun s => s_m s * k (s_asph s)) (all_sinks sk') = 0 /\
      Rsum (fun q => m * crossc (gp_x q) (gp_ext q) k) (gas (on_gas f w)) + Rsum (fun s => s_m s * crossc (s_x s) (s_asph s) k) (all_sinks sk') = 0.
Proof.
  intros e G m w sk EO SO. destruct (sph_upto e G m (nsinks sk) w sk EO SO eq_refl) as (sk' & E & SS & F). exists (addFs G sk (nsinks sk)), sk'. split; auto.
  assert (N : nsinks sk' = nsinks sk) by (destruct SS; auto). split; auto.
  split; [|split].
  - intros q. destruct (addFs_same G sk (nsinks sk) q) as (A & B & C & D). do 4 (split; auto). intros k Hk. rewrite addFs_k; auto.
    + now rewrite all_sinks_sum.
    + intros t Ht. apply (so_rpos sk SO), in_sinks. auto.
  - intros i Hi. cbv zeta. rewrite F by auto. cbv zeta. cbn [s_x s_v s_aext s_m s_l s_r s_asph]. do 6 (split; auto). intros k Hk. unfold sph_acc. rewrite k_vsum, Rsum_map by auto.
    apply Rsum_ext. intros q _. rewrite k_scal, k_FF; auto. { ring. } apply (so_rpos sk SO), in_sinks. auto.
  - intros k Hk Z. rewrite !gas_on, !Rsum_map, !all_sinks_sum, N.
    rewrite (Rsum_ext _ (fun i => s_m (sink_at sk' i) * k (s_asph (sink_at sk' i))) (fun i => s_m (sink_at sk i) * k (sph_acc G m sk w i))) by (intros i Hi; apply in_seq in Hi; rewrite F by lia; reflexivity).
    rewrite (Rsum_ext _ (fun i => s_m (sink_at sk' i) * crossc (s_x (sink_at sk' i)) (s_asph (sink_at sk' i)) k) (fun i => s_m (sink_at sk i) * crossc (s_x (sink_at sk i)) (sph_acc G m sk w i) k)) by (intros i Hi; apply in_seq in Hi; rewrite F by lia; reflexivity).
    split; [apply newton_force; auto|].
    rewrite (Rsum_ext _ _ (fun q => m * crossc (gp_x q) (gp_ext (addFs G sk (nsinks sk) q)) k)) by (intros q _; now rewrite addFs_x).
    apply newton_torque; auto.
Qed.
Theorem C56_sink_sink_forces : forall G sk, sinks_ok sk ->
  exists sk', compute_ext_forces G sk = Ok sk' /\ nsinks sk' = nsinks sk /\
    (forall i, (i < nsinks sk)%nat -> let s := sink_at sk i in let s' := sink_at sk' i in
       s_x s' = s_x s /\ s_v s' = s_v s /\ s_asph s' = s_asph s /\ s_m s' = s_m s /\ s_l s' = s_l s /\ s_r s' = s_r s /\
       forall k, In k comps -> k (s_aext s') = Rsum (fun t => s_m t * soft_pull G (s_x s) (s_x t) k) (all_sinks sk)) /\
    forall k, In k comps ->
      Rsum (fun s => s_m s * k (s_aext s)) (all_sinks sk') = 0 /\ Rsum (fun s => s_m s * crossc (s_x s) (s_aext s) k) (all_sinks sk') = 0.
Proof.
  intros G sk SO. destruct (ext_upto G (nsinks sk) sk (ok_same sk SO)) as (sk' & E & SS & F). exists sk'. split; auto.
  assert (N : nsinks sk' = nsinks sk) by (destruct SS; auto). split; auto. split.
  - intros i Hi. cbv zeta. rewrite F by auto. cbv zeta. cbn [s_x s_v s_aext s_m s_l s_r s_asph]. do 6 (split; auto). intros k Hk. rewrite ext_acc_k, all_sinks_sum; auto.
  - intros k Hk. rewrite !all_sinks_sum, N.
    rewrite (Rsum_ext _ (fun i => s_m (sink_at sk' i) * k (s_aext (sink_at sk' i))) (fun i => s_m (sink_at sk i) * k (ext_acc G sk i))) by (intros i Hi; apply in_seq in Hi; rewrite F by lia; reflexivity).
    rewrite (Rsum_ext _ (fun i => s_m (sink_at sk' i) * crossc (s_x (sink_at sk' i)) (s_aext (sink_at sk' i)) k) (fun i => s_m (sink_at sk i) * crossc (s_x (sink_at sk i)) (ext_acc G sk i) k)) by (intros i Hi; apply in_seq in Hi; rewrite F by lia; reflexivity).
    split; [apply ext_force_zero; auto|apply ext_torque_zero; auto].
Qed.

(** The integration of the sinks alone is time reversible. *)
Theorem C56_leapfrog_reversible : forall G dt sk, sinks_ok sk -> exists sk1 sk2,
  sinks_leapfrog G dt sk = Ok sk1 /\ sinks_leapfrog G dt (reverse sk1) = Ok sk2 /\
  sk_pos (reverse sk2) = sk_pos sk /\ sk_vel (reverse sk2) = sk_vel sk /\ sk_asph (reverse sk2) = sk_asph sk /\
  sk_mass (reverse sk2) = sk_mass sk /\ sk_ang (reverse sk2) = sk_ang sk /\ sk_racc (reverse sk2) = sk_racc sk.
Proof. intros G dt sk SO. apply reversible. apply ok_same. auto. Qed.

(** Repeating the corrector has no other effect than its last turn. *)
Theorem C56_corrector_idempotent : forall dt turns h w sk, sph_step_end dt (turns ++ [h]) w sk = sph_step_end dt [h] w sk.
Proof. intros. unfold sph_step_end. rewrite turns_last. reflexivity. Qed.

(** One time step never fails; it conserves the mass; with no resultant force at the start it conserves the momentum, moves the centre of
    mass with the mean velocity, and leaves no resultant force; with no torque at the start and from the hydro forces, the angular
    momentum changes only by the term of the sinks that moved when they accreted. *)
Theorem C56_step : forall e1 e2 G m dt red w sk, senv_ok e1 -> senv_ok e2 -> 0 < m -> sinks_ok sk -> world_ok w ->
  (forall v, Permutation (gas (red v)) (gas v)) ->
  exists wa ska w1 sk1, sink_accretion e1 m dt w sk = Ok (wa, ska) /\ sph_step_begin e1 e2 G m dt red w sk = Ok (w1, sk1) /\
  forall turns h, exists w' sk', sph_step_end dt (turns ++ [h]) w1 sk1 = Ok (w', sk') /\ sinks_ok sk' /\ nsinks sk' = nsinks sk /\
    mass_total m w' sk' = mass_total m w sk /\
    forall k, In k comps ->
      centre m k w' sk' = centre m k w sk + dt * momentum m k w sk + dt * (dt / 2) * force_total m k w sk /\
      (no_force w1 h -> force_total m k w' sk' = 0 /\ momentum m k w' sk' = momentum m k w sk + dt / 2 * force_total m k w sk) /\
      (no_torque w1 h -> torque_total m k w' sk' = 0 /\
         angular m k w' sk' = angular m k w sk + dt / 2 * torque_total m k w sk +
           dt / 2 * Rsum (fun i => s_m (sink_at ska i) * crossc (rvsub (s_x (sink_at ska i)) (s_x (sink_at sk i))) (s_asph (sink_at ska i)) k) (seq 0 (nsinks sk))).
Proof.
  intros e1 e2 G m dt red w sk E1 E2 MP SO WO RD.
  destruct (accretion_ok e1 E1 m dt MP w WO sk SO) as (ska & EA & SA & NA). set (wa := map (map (filter (is_free sk))) w) in *.
  assert (OA : sinks_ok ska) by (eapply new_ok; eauto). assert (NN : nsinks ska = nsinks sk) by (destruct SA; auto).
  destruct (begin_ok e2 E2 G m dt red RD wa ska OA) as (w1 & sk1 & sk2 & EB & S1 & O1 & O2 & N2 & F & EW).
  exists wa, ska, w1, sk1. split; auto. split. { unfold sph_step_begin. rewrite EA. cbn [rbind]. exact EB. }
  intros turns h. destruct (corrector_upto dt (nsinks ska) sk1 S1) as (sk3 & E3 & S3 & F3).
  exists (corrector_turn dt h w1), sk3. split. { rewrite C56_corrector_idempotent. unfold sph_step_end. cbn [fold_left]. rewrite E3. reflexivity. }
  split. { eapply (ok_of (nsinks ska) sk1 sk3); auto. { destruct S1; auto. } intros i Hi. rewrite F3 by auto. auto. }
  split. { rewrite <- NN. destruct S3; auto. }
  pose proof (cons_mass m dt w sk ska SA NA) as CM. fold wa in CM.
  split. { rewrite <- CM. subst w1. eapply end_mass; eauto. }
  intros k Hk. pose proof (cons_centre m dt MP w sk ska SO SA NA k Hk) as CC. pose proof (cons_momentum m dt MP w sk ska SO SA NA k Hk) as CP. pose proof (cons_force m dt MP w sk ska SO SA NA k Hk) as CF.
  pose proof (cons_angular m dt MP w sk ska SO SA NA k Hk) as CA. pose proof (cons_torque m dt MP w sk ska SO SA NA k Hk) as CT. fold wa in CC, CP, CF, CA, CT.
  split. { rewrite <- CC, <- CP, <- CF. subst w1. eapply end_centre; eauto. }
  split; intros NF.
  - split; [subst w1; eapply end_force; eauto|]. rewrite <- CP, <- CF. subst w1. eapply end_momentum; eauto.
  - split; [subst w1; eapply end_torque; eauto|]. etransitivity; [subst w1; eapply end_angular; eauto|]. rewrite CA, CT. unfold shift_torque. ring.
Qed.

(** A run of any number of steps: mass and momentum conserved, the centre of mass moves uniformly. *)
Theorem C56_run : forall G m t w sk w' sk', 0 < m -> sinks_ok sk -> (forall k, In k comps -> force_total m k w sk = 0) -> run G m t w sk w' sk' ->
  sinks_ok sk' /\ mass_total m w' sk' = mass_total m w sk /\
  forall k, In k comps -> force_total m k w' sk' = 0 /\ momentum m k w' sk' = momentum m k w sk /\ centre m k w' sk' = centre m k w sk + t * momentum m k w sk.
Proof.
  intros G m t w sk w' sk' MP SO F0 RN. induction RN as [w sk|dt t w sk w1 sk1 w' sk' ST RN IH].
  - split; auto. split; auto. intros k Hk. split; auto. split; auto. ring.
  - destruct ST as [e1 e2 red turns h w sk wb skb w1 sk1 E1 E2 WO RD EB NF EE].
    destruct (C56_step e1 e2 G m dt red w sk E1 E2 MP SO WO RD) as (wa & ska & wb' & skb' & _ & EB' & H). rewrite EB in EB'. injection EB' as <- <-.
    destruct (H turns h) as (w2 & sk2 & EE' & O2 & N2 & M2 & K2). rewrite EE in EE'. injection EE' as <- <-.
    destruct IH as (O3 & M3 & K3); auto. { intros k Hk. destruct (K2 k Hk) as (_ & B & _). apply B; auto. }
    split; auto. split; [congruence|]. intros k Hk. destruct (K3 k Hk) as (A3 & B3 & C3). destruct (K2 k Hk) as (C2 & B2 & _). destruct (B2 NF) as (_ & P2).
    rewrite (F0 k Hk) in *. split; auto. split; [lra|]. rewrite C3, C2, P2. ring.
Qed.

(** Accretion by central objects removes exactly the particles within the accretion radius of the origin, provided that every patch keeps
    a particle. *)
Theorem C56_central : forall e fs w, senv_ok e -> world_ok w ->
  (forall rd l, In rd w -> In l rd -> l <> [] -> exists q, In q l /\ forall f, In f fs -> outside f q = true) ->
  point_mass_accrete_particles e fs w = Ok (map (map (filter (fun q => forallb (fun f => outside f q) fs))) w).
Proof. intros e fs w EO WO H. apply central_all; auto. Qed.
(** A patch all of whose particles are captured is undefined behaviour. *)
Theorem C56_central_whole_patch_refuted : forall e f Ra w rd l, senv_ok e -> world_ok w -> radius f = Some Ra -> In rd w -> In l rd -> l <> [] ->
  (forall q, In q l -> outside f q = false) -> point_mass_accrete_particles e [f] w = UB.
Proof. intros e f Ra w rd l EO WO HR Hrd Hl NE H. eapply central_ub; eauto. Qed.

(** ** Concrete cases *)
Definition env0 : senv := {| sv_order := fun _ _ _ n => seq 0 n; sv_scan := fun flags n => Ok (excl_spec flags n); sv_garb := fun n => repeat 0%nat n |}.
Lemma env0_ok : senv_ok env0.
Proof. split; [intros; reflexivity|]. split; [intros; reflexivity|intros; apply repeat_length]. Qed.
Definition sk0 : sinks := mksk [rvzero] [rvzero] [rvzero] [rvzero] [1] [rvzero] [1].
Definition qin : gpart := mkgp (mkrv (1 / 2) 0 0) rvzero (mkrv 0 1 0) rvzero 0%Z.
Definition qout : gpart := mkgp (mkrv (1 / 2) 5 0) rvzero (mkrv 0 (-1) 0) rvzero 0%Z.
Definition w0 : world := [[[qin]]; [[qout]; []]].
Lemma sk0_ok : sinks_ok sk0.
Proof. constructor; try reflexivity; intros s [<-|[]]; simpl; lra. Qed.
Lemma w0_ok : world_ok w0.
Proof. intros rd l [<-|[<-|[]]]; [intros [<-|[]]|intros [<-|[<-|[]]]]; reflexivity. Qed.
Lemma in_within : within (gp_x qin) (sink_at sk0 0). Proof. unfold within; simpl. lra. Qed.
Lemma out_within : ~ within (gp_x qout) (sink_at sk0 0). Proof. unfold within; simpl. lra. Qed.
Lemma captor_in : captor sk0 qin = Some 0%nat.
Proof. unfold captor. cbn [nsinks sk0 sk_pos length seq find]. destruct (within_dec (gp_x qin) (sink_at sk0 0)) as [|N]; auto. exfalso. apply N, in_within. Qed.
Lemma captor_out : captor sk0 qout = None.
Proof. unfold captor. cbn [nsinks sk0 sk_pos length seq find]. destruct (within_dec (gp_x qout) (sink_at sk0 0)) as [W|]; auto. exfalso. now apply out_within. Qed.
Lemma taken0 : taken sk0 0 w0 = [qin].
Proof. unfold taken, w0, gas. cbn [concat app filter]. unfold taken_by. rewrite captor_in, captor_out. reflexivity. Qed.
(** a particle is captured, another stays *)
Example C56_accretion_example : exists sk', sink_accretion env0 1 2 w0 sk0 = Ok ([[[]]; [[qout]; []]], sk') /\ s_m (sink_at sk' 0) = 2 /\ rx (s_x (sink_at sk' 0)) = 1 / 4 /\ ry (s_asph (sink_at sk' 0)) = 1 / 2.
Proof.
  destruct (C56_accretion env0 1 2 w0 sk0 env0_ok Rlt_0_1 sk0_ok w0_ok) as (sk' & E & _ & _ & H). exists sk'. rewrite E. specialize (H 0%nat ltac:(cbn; lia)). cbv zeta in H. rewrite taken0 in H.
  destruct H as (M & _ & _ & _ & K). destruct (K rx) as (X & _ & _ & _); [simpl; auto|]. destruct (K ry) as (_ & _ & A & _); [simpl; auto|]. clear K E.
  assert (M2 : s_m (sink_at sk' 0) = 2) by (rewrite M; simpl; lra). rewrite M2 in *.
  set (x' := rx (s_x (sink_at sk' 0))) in *. set (a' := ry (s_asph (sink_at sk' 0))) in *. clearbody x' a'.
  cbn [Rsum fold_right sink_at sk0 sk_pos sk_mass sk_asph nth qin gp_x gp_a rx ry rvzero s_m s_x s_asph] in X, A.
  split; [|split; [reflexivity|split; lra]]. f_equal. f_equal. unfold w0. cbn [map filter]. unfold is_free. rewrite captor_in, captor_out. reflexivity.
Qed.
Definition no_hydro : forces := fun _ _ _ => rvzero.
Lemma no_hydro_force w : no_force w no_hydro.
Proof. intros k Hk. rewrite gas_imap_ix, Rsum_map. rewrite (Rsum_ext _ _ (fun _ => 0)); [apply Rsum_zero|]. intros [q [[r p] i]] _. unfold no_hydro. now apply k_zero. Qed.
Lemma no_hydro_torque w : no_torque w no_hydro.
Proof. intros k Hk. rewrite gas_imap_ix, Rsum_map. rewrite (Rsum_ext _ _ (fun _ => 0)); [apply Rsum_zero|]. intros [q [[r p] i]] _. cbn [fst snd]. unfold no_hydro. now apply cross_zero_r. Qed.
Lemma w0_balanced k : In k comps -> force_total 1 k w0 sk0 = 0 /\ torque_total 1 k w0 sk0 = 0.
Proof.
  intros Hk. unfold force_total, torque_total, w0, gas, all_sinks, crossc. cbn [concat app seq map nsinks sk0 sk_pos length]. onk Hk; simpl; split; lra.
Qed.
(** A step that captures a particle can change the total angular momentum, although all the forces balance. *)
Theorem C56_angular_momentum_refuted : exists w' sk' w1 sk1 G, sph_step_begin env0 env0 G 1 2 (fun v => v) w0 sk0 = Ok (w1, sk1) /\ no_force w1 no_hydro /\ no_torque w1 no_hydro /\
  sph_step_end 2 [no_hydro] w1 sk1 = Ok (w', sk') /\ (forall k, In k comps -> force_total 1 k w0 sk0 = 0 /\ torque_total 1 k w0 sk0 = 0) /\
  angular 1 rz w0 sk0 = 0 /\ angular 1 rz w' sk' = 1 / 4.
Proof.
  destruct (C56_step env0 env0 1 1 2 (fun v => v) w0 sk0 env0_ok env0_ok Rlt_0_1 sk0_ok w0_ok ltac:(intros; reflexivity)) as (wa & ska & w1 & sk1 & EA & EB & H).
  destruct (H [] no_hydro) as (w' & sk' & EE & _ & _ & _ & K). exists w', sk', w1, sk1, 1. split; auto. split; [apply no_hydro_force|]. split; [apply no_hydro_torque|]. split; [exact EE|].
  split; [intros k; apply w0_balanced|]. assert (A0 : angular 1 rz w0 sk0 = 0). { unfold angular, w0, gas, all_sinks, crossc. simpl. lra. }
  split; auto. destruct (K rz) as (_ & _ & T); [simpl; auto|]. destruct (T (no_hydro_torque w1)) as (_ & ->). rewrite A0. destruct (w0_balanced rz) as (_ & ->); [simpl; auto|].
  destruct C56_accretion_example as (s & E & M & X & A). rewrite EA in E. injection E as _ <-.
  destruct (C56_accretion env0 1 2 w0 sk0 env0_ok Rlt_0_1 sk0_ok w0_ok) as (s2 & E2 & _ & _ & H2). rewrite EA in E2. injection E2 as _ <-. specialize (H2 0%nat ltac:(cbn; lia)). cbv zeta in H2. rewrite taken0 in H2.
  destruct H2 as (_ & _ & _ & _ & K2). destruct (K2 ry) as (Y & _ & _ & _); [simpl; auto|]. rewrite M in Y.
  assert (Y0 : ry (s_x (sink_at ska 0)) = 0). { clear - Y. set (y' := ry (s_x (sink_at ska 0))) in *. clearbody y'. cbn [Rsum fold_right sink_at sk0 sk_pos sk_mass nth qin gp_x rx ry rvzero s_m s_x] in Y. lra. }
  cbn [nsinks sk0 sk_pos length seq Rsum fold_right]. unfold crossc, rvcross, rvsub. cbn [rz ry rx]. rewrite M, A, X.
  rewrite Y0. simpl. lra.
Qed.
(** PN_PW: the accretion sphere ignores the position of the central object. *)
Example C56_pnpw_centre_refuted : let q0 := mkgp rvzero rvzero rvzero rvzero 0%Z in let c := mkrv 10 0 0 in let q1 := mkgp c rvzero rvzero rvzero 1%Z in
  point_mass_accrete_particles env0 [PN_PW c 1] [[[q0; q1]]] = Ok [[[q1]]].
Proof.
  cbv zeta. rewrite C56_central; auto using env0_ok.
  - cbn [map filter forallb]. unfold outside. cbn [radius gp_x rx ry rz rvzero].
    destruct (Rlt_dec _ _) as [X|X]; [exfalso; lra|]. destruct (Rlt_dec (1 ^ 2) (10 ^ 2 + 0 ^ 2 + 0 ^ 2)) as [Y|Y]; [|exfalso; lra]. reflexivity.
  - intros rd l [<-|[]] [<-|[]]. reflexivity.
  - intros rd l [<-|[]] [<-|[]] _. exists (mkgp (mkrv 10 0 0) rvzero rvzero rvzero 1%Z). split; [simpl; auto|]. intros f [<-|[]]. unfold outside. cbn [radius gp_x rx ry rz].
    destruct (Rlt_dec _ _) as [Y|Y]; auto. exfalso; lra.
Qed.
Example C56_whole_patch_example : point_mass_accrete_particles env0 [PointMass 1] [[[mkgp rvzero rvzero rvzero rvzero 0%Z]]] = UB.
Proof.
  apply (C56_central_whole_patch_refuted env0 (PointMass 1) 1 _ [[mkgp rvzero rvzero rvzero rvzero 0%Z]] [mkgp rvzero rvzero rvzero rvzero 0%Z]); auto using env0_ok; try (simpl; auto; fail); try discriminate.
  - intros rd l [<-|[]] [<-|[]]. reflexivity.
  - intros q [<-|[]]. unfold outside. cbn [radius gp_x rx ry rz rvzero]. destruct (Rlt_dec _ _); auto. exfalso; lra.
Qed.

Print Assumptions C56_capture.
Print Assumptions C56_accretion.
Print Assumptions C56_accretion_conserves.
Print Assumptions C56_gas_sink_forces.
Print Assumptions C56_sink_sink_forces.
Print Assumptions C56_leapfrog_reversible.
Print Assumptions C56_corrector_idempotent.
Print Assumptions C56_step.
Print Assumptions C56_run.
Print Assumptions C56_central.
Print Assumptions C56_central_whole_patch_refuted.
Print Assumptions C56_angular_momentum_refuted.
