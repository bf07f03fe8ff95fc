(** Proofs about the sinks: accretion as a whole. *)
Require Import Reals Lra.
From Verif Require Import Base Par Scan Scan_spec Riemann Fmm_spec Fmm_reps Sgfmm_util Sink Sink_spec Sink_proofs.
From Coq Require Import ZifyBool ZifyNat.
Local Open Scope R_scope.

Record same_size (n : nat) (sk : sinks) : Prop := {
  ss_pos : length (sk_pos sk) = n; ss_vel : length (sk_vel sk) = n; ss_asph : length (sk_asph sk) = n; ss_aext : length (sk_aext sk) = n;
  ss_mass : length (sk_mass sk) = n; ss_ang : length (sk_ang sk) = n; ss_racc : length (sk_racc sk) = n }.
Lemma ok_same sk : sinks_ok sk -> same_size (nsinks sk) sk.
Proof. intros []. constructor; auto. Qed.

Definition new_sink (m dt : R) (l : list gpart) (s : sink) : sink :=
  match l with
  | [] => s
  | _ =>
    let A := ac_of m dt (s_x s) (s_v s) l in
    let M := s_m s + ac_m A in
    let X := rvdiv (rvadd (ac_mr A) (rvscal (s_m s) (s_x s))) M in
    let V := rvdiv (rvadd (ac_p A) (rvscal (s_m s) (s_v s))) M in
    mks X V (rvdiv (rvadd (ac_ma A) (rvscal (s_m s) (s_asph s))) M) (s_aext s) M
      (rvsub (rvadd (s_l s) (ac_l A)) (rvscal M (rvcross (rvsub X (s_x s)) (rvsub V (s_v s))))) (s_r s)
  end.
Lemma nth_upd {A} (l : list A) i j v d : (i < length l)%nat -> nth j (upd l i v) d = if (j =? i)%nat then v else nth j l d.
Proof. intros H. destruct (Nat.eqb_spec j i) as [->|N]; [now apply nth_upd_eq|apply nth_upd_neq; auto]. Qed.

Section Accr.
  Context (e : senv) (EO : senv_ok e) (m dt : R) (MP : 0 < m) (w : world) (WO : world_ok w) (sk : sinks) (SO : sinks_ok sk).
  Let tables := map (map (map (flagZ sk))) w.
  Let n := nsinks sk.

  Lemma accrete_sink_ok i s : same_size n s -> (i < n)%nat -> sink_at s i = sink_at sk i ->
    exists s', accrete_sink e m dt w tables i s = Ok s' /\ same_size n s' /\
      forall j, sink_at s' j = if (j =? i)%nat then new_sink m dt (taken sk i w) (sink_at sk i) else sink_at s j.
  Proof.
    intros SS Hi EQ. unfold accrete_sink. destruct SS.
    rewrite (aget_lt (sk_pos s) i rvzero) by lia. cbn [rbind]. rewrite (aget_lt (sk_vel s) i rvzero) by lia. cbn [rbind].
    unfold tables. rewrite (accrete_ranks_ok e EO); [|apply SO|auto|auto]. cbn [rbind]. cbv zeta.
    pose proof (ac_reduce m dt (nth i (sk_pos s) rvzero) (nth i (sk_vel s) rvzero) (taken_by sk i) w) as RED. cbv zeta in RED.
    set (acs := map (fun rd => ac_of m dt (nth i (sk_pos s) rvzero) (nth i (sk_vel s) rvzero) (filter (taken_by sk i) (concat rd))) w) in *. change (filter (taken_by sk i) (gas w)) with (taken sk i w) in RED.
    assert (PX : nth i (sk_pos s) rvzero = s_x (sink_at sk i)) by (rewrite <- EQ; reflexivity).
    assert (PV : nth i (sk_vel s) rvzero = s_v (sink_at sk i)) by (rewrite <- EQ; reflexivity).
    rewrite PX, PV in RED. set (A := ac_of _ _ _ _ _) in RED.
    assert (E1 : allreduce_sum (map ac_m acs) = ac_m A) by (rewrite <- RED; reflexivity).
    assert (E2 : allreduce_sumv (map ac_mr acs) = ac_mr A) by (rewrite <- RED; reflexivity).
    assert (E3 : allreduce_sumv (map ac_p acs) = ac_p A) by (rewrite <- RED; reflexivity).
    assert (E4 : allreduce_sumv (map ac_ma acs) = ac_ma A) by (rewrite <- RED; reflexivity).
    assert (E5 : allreduce_sumv (map ac_l acs) = ac_l A) by (rewrite <- RED; reflexivity).
    rewrite E1, E2, E3, E4, E5.
    destruct (taken sk i w) as [|q l] eqn:TK.
    - assert (Z : ac_m A = 0) by (unfold A, ac_of; simpl; ring). rewrite Z. destruct (Rle_dec 0 0) as [_|D]; [|lra].
      exists s. split; auto. split; [constructor; auto|]. intros j. destruct (Nat.eqb_spec j i) as [->|]; auto.
    - assert (Z : 0 < ac_m A). { unfold A, ac_of. cbn [Sink.ac_m]. apply Rmult_lt_0_compat; auto. apply lt_0_INR. simpl; lia. }
      destruct (Rle_dec (ac_m A) 0) as [D|_]; [lra|].
      rewrite (aget_lt (sk_mass s) i 0) by lia. cbn [rbind]. rewrite (aget_lt (sk_asph s) i rvzero) by lia. cbn [rbind].
      rewrite (aget_lt (sk_ang s) i rvzero) by lia. cbn [rbind].
      eexists. split; [reflexivity|]. split; [constructor; cbn [Sink.sk_pos Sink.sk_vel Sink.sk_asph Sink.sk_aext Sink.sk_mass Sink.sk_ang Sink.sk_racc]; rewrite ?length_upd; auto|].
      intros j. unfold sink_at at 1. cbn [Sink.sk_pos Sink.sk_vel Sink.sk_asph Sink.sk_aext Sink.sk_mass Sink.sk_ang Sink.sk_racc].
      rewrite !nth_upd by lia. destruct (Nat.eqb_spec j i) as [->|]; auto.
      unfold new_sink. fold A. cbv zeta. rewrite <- EQ. unfold sink_at. cbn [s_x s_v s_asph s_aext s_m s_l s_r]. reflexivity.
  Qed.
  Lemma accrete_loop k : (k <= n)%nat -> exists s', rfold (accrete_sink e m dt w tables) (seq 0 k) sk = Ok s' /\ same_size n s' /\
    forall j, sink_at s' j = if (j <? k)%nat then new_sink m dt (taken sk j w) (sink_at sk j) else sink_at sk j.
  Proof.
    induction k as [|k IH]; intros Hk.
    - exists sk. split; auto. split; [now apply ok_same|]. intros j. reflexivity.
    - destruct IH as (s & E & SS & R); [lia|]. rewrite seq_S, rfold_app, E. cbn [rbind Nat.add rfold].
      destruct (accrete_sink_ok k s SS) as (s' & E' & SS' & R'); [lia| |].
      { rewrite R. destruct (Nat.ltb_spec k k); auto; lia. }
      rewrite E'. cbn [rbind]. exists s'. split; auto. split; auto. intros j. rewrite R', R.
      destruct (Nat.eqb_spec j k) as [X|N]; destruct (Nat.ltb_spec j (S k)); try destruct (Nat.ltb_spec j k); subst; auto; try lia.
  Qed.
  Lemma quantities_ok : exists s', accrete_quantities e m dt w tables sk = Ok s' /\ same_size n s' /\
    forall j, (j < n)%nat -> sink_at s' j = new_sink m dt (taken sk j w) (sink_at sk j).
  Proof.
    unfold accrete_quantities. fold (nsinks sk). fold n. destruct (Z.leb_spec (2 ^ 32) (Z.of_nat n)); [destruct SO; unfold n in *; lia|].
    destruct (accrete_loop n) as (s & E & SS & R); [lia|]. exists s. split; auto. split; auto. intros j Hj. rewrite R.
    destruct (Nat.ltb_spec j n); auto; lia.
  Qed.

  (** ** Eviction *)
  Lemma evict_loop (keep : nat -> bool) tab N : (forall i, (i < N)%nat -> exists t, aget tab i = Ok t /\ (t =? u32_max)%Z = keep i) ->
    forall l k0 f, NoDup l -> (forall i, In i l -> (i < N)%nat) -> length k0 = N ->
    exists k f', par_for l (evict_item tab) (k0, f) = Ok (k, f') /\ length k = N /\
      (forall i, nth_error k i = if in_dec Nat.eq_dec i l then Some (if keep i then 1%Z else 0%Z) else nth_error k0 i) /\
      f' = if forallb keep l then f else Z.lor f 1.
  Proof.
    intros HT. unfold par_for. induction l as [|a l IH]; intros k0 f ND HL LK; cbn [rfold].
    - exists k0, f. simpl. auto.
    - inversion ND as [|? ? NI ND']; subst. destruct (HT a) as (t & E & K); [apply HL; simpl; auto|].
      unfold evict_item at 1. rewrite E. cbn [rbind fst snd]. rewrite K, aset_lt by (apply HL; simpl; auto). cbn [rbind].
      destruct (IH (upd k0 a (if keep a then 1%Z else 0%Z)) (if keep a then f else Z.lor f 1)) as (k & f' & E' & L' & R' & F'); auto.
      { intros; apply HL; simpl; auto. } { now rewrite length_upd. }
      exists k, f'. split; auto. split; auto. split.
      + intros i. rewrite R'. destruct (in_dec _ i l) as [X|X]; destruct (in_dec _ i (a :: l)) as [Y|Y]; auto; try (simpl in Y; tauto).
        * destruct Y as [<-|Y]; [|tauto]. rewrite nth_error_upd_eq; auto. apply HL; simpl; auto.
        * apply nth_error_upd_neq. intros ->. apply Y. simpl; auto.
      + rewrite F'. cbn [forallb]. destruct (keep a); cbn [andb]; auto. destruct (forallb keep l); auto. rewrite <- Z.lor_assoc. reflexivity.
  Qed.
  Lemma evict_patch_ok r p parts : (Z.of_nat (length parts) < 2 ^ 32)%Z -> evict_patch e r p (parts, map (flagZ sk) parts) = Ok (filter (is_free sk) parts).
  Proof.
    intros HL. unfold evict_patch. pose (d := mkgp rvzero rvzero rvzero rvzero 0%Z).
    pose proof (order_ok e EO r p 8%nat (length parts)) as OP.
    destruct (evict_loop (fun i => is_free sk (nth i parts d)) (map (flagZ sk) parts) (length parts)) with (l := sv_order e r p 8%nat (length parts)) (k0 := repeat 0%Z (length parts)) (f := 0%Z) as (k & f & E & LK & R & F).
    - intros i Hi. exists (flagZ sk (nth i parts d)). split; [rewrite (aget_lt _ i (flagZ sk d)) by (rewrite map_length; auto); now rewrite map_nth|]. apply flag_none. apply SO.
    - eapply Permutation_NoDup; [symmetry; exact OP|apply seq_NoDup].
    - intros i Hi. apply (Permutation_in _ OP), in_seq in Hi. lia.
    - apply repeat_length.
    - rewrite E. cbn [rbind].
      assert (KE : k = map (fun q => if is_free sk q then 1%Z else 0%Z) parts).
      { apply list_eq_nth_error. intros i. rewrite R. destruct (in_dec _ _ _) as [X|X].
        - apply (Permutation_in _ OP), in_seq in X. rewrite (map_nth_error _ i parts (d := nth i parts d)); auto. apply nth_error_nth'. lia.
        - destruct (Nat.lt_ge_cases i (length parts)) as [Y|Y]; [exfalso; apply X, (Permutation_in _ (Permutation_sym OP)), in_seq; lia|].
          rewrite (proj2 (nth_error_None _ _)) by (rewrite repeat_length; auto). symmetry. apply nth_error_None. now rewrite map_length. }
      assert (FA : forallb (fun i => is_free sk (nth i parts d)) (sv_order e r p 8 (length parts)) = forallb (is_free sk) parts).
      { apply eq_true_iff_eq. rewrite !forallb_forall. split; intros H.
        - intros q Hq. apply (In_nth _ _ d) in Hq. destruct Hq as (i & Hi & <-). apply H, (Permutation_in _ (Permutation_sym OP)), in_seq. lia.
        - intros i Hi. apply (Permutation_in _ OP), in_seq in Hi. apply H, nth_In. lia. }
      rewrite F, FA. destruct (forallb (is_free sk) parts) eqn:FP; cbn [negb Z.eqb Z.lor].
      + f_equal. symmetry. rewrite forallb_forall in FP. clear - FP. induction parts as [|q l IH]; simpl; auto. rewrite FP by (simpl; auto). f_equal. apply IH. intros; apply FP; simpl; auto.
      + rewrite KE, (compact_ok e EO) by auto. cbn [rbind].
        rewrite (keep_ids_ok _ _ d) by (intros i Hi; eapply selected_lt; exact Hi). f_equal. apply selected_filter.
  Qed.
  Lemma evict_ok : evict_accreted e w tables = Ok (map (map (filter (is_free sk))) w).
  Proof.
    unfold evict_accreted, tables. rewrite combine_map, map_map.
    rewrite (over_patches_ok _ (fun '(parts, _) => filter (is_free sk) parts)).
    - f_equal. rewrite map_map. apply map_ext. intros rd. rewrite combine_map, map_map. reflexivity.
    - intros r p l a Hl Ha. apply in_map_iff in Hl. destruct Hl as (rd & <- & Hrd). rewrite combine_map in Ha. apply in_map_iff in Ha. destruct Ha as (parts & <- & Hp).
      apply evict_patch_ok. eapply WO; eauto.
  Qed.
  Lemma accretion_ok : exists sk', sink_accretion e m dt w sk = Ok (map (map (filter (is_free sk))) w, sk') /\ same_size n sk' /\
    forall j, (j < n)%nat -> sink_at sk' j = new_sink m dt (taken sk j w) (sink_at sk j).
  Proof.
    unfold sink_accretion. rewrite (flag_ok e EO) by auto. cbn [rbind]. destruct quantities_ok as (s & E & SS & R). fold tables. rewrite E. cbn [rbind].
    rewrite evict_ok. cbn [rbind]. exists s. auto.
  Qed.
End Accr.

(** ** What the new sink is *)
Section New.
  Context (m dt : R) (MP : 0 < m) (l : list gpart) (s : sink) (SP : 0 < s_m s).
  Let s' := new_sink m dt l s.
  Lemma mpos : 0 < s_m s + m * INR (length l).
  Proof. pose proof (pos_INR (length l)). pose proof (Rmult_le_pos m (INR (length l)) (Rlt_le _ _ MP) H). lra. Qed.
  Lemma new_m : s_m s' = s_m s + m * INR (length l).
  Proof. unfold s', new_sink. destruct l; [simpl; ring|reflexivity]. Qed.
  Lemma new_r : s_r s' = s_r s.
  Proof. unfold s', new_sink. destruct l; reflexivity. Qed.
  Lemma new_aext : s_aext s' = s_aext s.
  Proof. unfold s', new_sink. destruct l; reflexivity. Qed.
  Lemma k_vsum_map k (g : gpart -> rv3) (L : list gpart) : In k comps -> k (vsum (map g L)) = Rsum (fun q => k (g q)) L.
  Proof. intros. rewrite k_vsum by auto. apply Rsum_map. Qed.
  Lemma avg k (a b : rv3) M : In k comps -> M <> 0 -> M * k (rvdiv (rvadd a b) M) = k a + k b.
  Proof. intros H HM. rewrite k_div, k_add by auto. field. auto. Qed.
  Lemma new_x k : In k comps -> s_m s' * k (s_x s') = s_m s * k (s_x s) + Rsum (fun q => m * k (gp_x q)) l.
  Proof.
    intros Hk. pose proof mpos as P. unfold s', new_sink. destruct l as [|q l0] eqn:EL; [cbn [Rsum fold_right]; ring|]. rewrite <- EL in *. cbv zeta. cbn [s_x s_m].
    rewrite avg by (auto; unfold ac_of; cbn [Sink.ac_m]; lra). unfold ac_of. cbn [Sink.ac_mr]. rewrite k_vsum_map, k_scal by auto.
    rewrite (Rsum_ext _ (fun q => k (rvscal m (gp_x q))) (fun q => m * k (gp_x q))) by (intros; now apply k_scal). ring.
  Qed.
  Lemma new_v k : In k comps -> s_m s' * k (s_v s') = s_m s * k (s_v s) + Rsum (fun q => m * k (gp_v q)) l.
  Proof.
    intros Hk. pose proof mpos as P. unfold s', new_sink. destruct l as [|q l0] eqn:EL; [cbn [Rsum fold_right]; ring|]. rewrite <- EL in *. cbv zeta. cbn [s_v s_m].
    rewrite avg by (auto; unfold ac_of; cbn [Sink.ac_m]; lra). unfold ac_of. cbn [Sink.ac_p]. rewrite k_vsum_map, k_scal by auto.
    rewrite (Rsum_ext _ (fun q => k (rvscal m (gp_v q))) (fun q => m * k (gp_v q))) by (intros; now apply k_scal). ring.
  Qed.
  Lemma new_a k : In k comps -> s_m s' * k (s_asph s') = s_m s * k (s_asph s) + Rsum (fun q => m * k (gp_a q)) l.
  Proof.
    intros Hk. pose proof mpos as P. unfold s', new_sink. destruct l as [|q l0] eqn:EL; [cbn [Rsum fold_right]; ring|]. rewrite <- EL in *. cbv zeta. cbn [s_asph s_m].
    rewrite avg by (auto; unfold ac_of; cbn [Sink.ac_m]; lra). unfold ac_of. cbn [Sink.ac_ma]. rewrite k_vsum_map, k_scal by auto.
    rewrite (Rsum_ext _ (fun q => k (rvscal m (gp_a q))) (fun q => m * k (gp_a q))) by (intros; now apply k_scal). ring.
  Qed.
  (** the spin: relative angular momentum of what fell in, with velocities half a kick later, minus the orbital part of the sink *)
  Lemma new_l k : In k comps ->
    k (s_l s') + s_m s' * crossc (rvsub (s_x s') (s_x s)) (rvsub (s_v s') (s_v s)) k =
    k (s_l s) + Rsum (fun q => m * crossc (rvsub (gp_x q) (s_x s)) (rvsub (rvadd (gp_v q) (rvscal (dt / 2) (gp_a q))) (s_v s)) k) l.
  Proof.
    intros Hk. unfold s', new_sink. destruct l as [|q l0] eqn:EL.
    - cbn [Rsum fold_right]. unfold crossc. by_comps; simpl; ring.
    - rewrite <- EL in *. cbv zeta. cbn [s_x s_v s_m s_l]. rewrite k_sub, k_add, k_scal by auto. unfold crossc.
      set (A := ac_of m dt (s_x s) (s_v s) l). unfold ac_of in A.
      assert (E : k (ac_l A) = Rsum (fun q => m * k (rvcross (rvsub (gp_x q) (s_x s)) (rvsub (rvadd (gp_v q) (rvscal (dt / 2) (gp_a q))) (s_v s)))) l).
      { unfold A. cbn [Sink.ac_l]. rewrite k_vsum_map by auto. apply Rsum_ext. intros a _. rewrite k_scal by auto. f_equal. f_equal. f_equal. f_equal. f_equal.
        apply rv3_eq; simpl; field. }
      rewrite E. ring.
  Qed.
End New.
