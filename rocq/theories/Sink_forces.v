(** Proofs about the sinks: forces and integration. *)
Require Import Reals Lra.
From Verif Require Import Base Par Scan Scan_spec Riemann Fmm_spec Fmm_reps Sgfmm_util Sink Sink_spec Sink_proofs Sink_accr.
From Coq Require Import ZifyBool ZifyNat.
Local Open Scope R_scope.

Lemma rvlen_dist x y : rvlen (rvsub x y) = dist x y.
Proof. unfold rvlen, dist, rvdot, rvsub. simpl. f_equal. ring. Qed.
(** force per unit mass of the sink / of the particle, from the sink to x *)
Definition FF (G : R) (s : sink) (x : rv3) : rv3 :=
  if Rlt_dec (dist x (s_x s)) (s_r s) then rvzero else rvdiv (rvscal G (rvsub x (s_x s))) (dist x (s_x s) * dist x (s_x s) * dist x (s_x s)).
Lemma k_FF G s x k : In k comps -> 0 < s_r s -> k (FF G s x) = - pull G x s k.
Proof.
  intros Hk R. unfold FF, pull. destruct (Rlt_dec _ _) as [D|D]; [rewrite k_zero by auto; ring|].
  rewrite k_div, k_scal, k_sub by auto. field. lra.
Qed.
Definition addF (G : R) (s : sink) (q : gpart) : gpart :=
  mkgp (gp_x q) (gp_v q) (gp_a q) (rvadd (gp_ext q) (rvscal (s_m s) (rvneg (FF G s (gp_x q))))) (gp_rest q).
Lemma force_item_ok G m s q : sph_force_item G m (s_m s) (s_r s) (s_x s) q = (rvscal m (FF G s (gp_x q)), addF G s q).
Proof. unfold sph_force_item, addF, FF. cbv zeta. rewrite rvlen_dist. reflexivity. Qed.

Section Forces.
  Context (e : senv) (EO : senv_ok e) (G m : R).
  Lemma force_loop s (parts : list gpart) d : forall l k1 k2, NoDup l -> (forall i, In i l -> (i < length parts)%nat /\ nth_error k2 i = nth_error parts i) ->
    length k1 = length parts -> length k2 = length parts ->
    exists r1 r2, par_for l (fun id_a s0 => q <- aget (snd s0) id_a ;; let '(f, q') := sph_force_item G m (s_m s) (s_r s) (s_x s) q in
                    s1 <- aset (fst s0) id_a f ;; s2 <- aset (snd s0) id_a q' ;; Ok (s1, s2)) (k1, k2) = Ok (r1, r2) /\ length r1 = length parts /\ length r2 = length parts /\
      (forall i, nth_error r1 i = if in_dec Nat.eq_dec i l then Some (rvscal m (FF G s (gp_x (nth i parts d)))) else nth_error k1 i) /\
      (forall i, nth_error r2 i = if in_dec Nat.eq_dec i l then Some (addF G s (nth i parts d)) else nth_error k2 i).
  Proof.
    unfold par_for. induction l as [|a l IH]; intros k1 k2 ND HL L1 L2; cbn [rfold].
    - exists k1, k2. simpl. auto.
    - inversion ND as [|? ? NI ND']; subst. destruct (HL a) as [LT EA]; [simpl; auto|].
      assert (AG : aget k2 a = Ok (nth a parts d)). { apply aget_ok. rewrite EA. now apply nth_error_nth'. }
      cbn [fst snd]. rewrite AG. cbn [rbind]. rewrite force_item_ok. rewrite aset_lt by lia. cbn [rbind]. rewrite aset_lt by lia. cbn [rbind].
      destruct (IH (upd k1 a (rvscal m (FF G s (gp_x (nth a parts d))))) (upd k2 a (addF G s (nth a parts d)))) as (r1 & r2 & E & A1 & A2 & B1 & B2); auto.
      { intros i Hi. split; [apply HL; simpl; auto|]. rewrite nth_error_upd_neq by (intros ->; auto). apply HL. simpl; auto. }
      { now rewrite length_upd. } { now rewrite length_upd. }
      exists r1, r2. split; auto. do 2 (split; auto). split; intros i; [rewrite B1|rewrite B2];
        (destruct (in_dec _ i l) as [X|X]; destruct (in_dec _ i (a :: l)) as [Y|Y]; auto; try (simpl in Y; tauto);
         [destruct Y as [<-|Y]; [|tauto]; rewrite nth_error_upd_eq; auto; lia | apply nth_error_upd_neq; intros ->; apply Y; simpl; auto]).
  Qed.
  Lemma from_nth {A B} (g : A -> B) (l : list A) d (r r0 : list B) order : Permutation order (seq 0 (length l)) -> length r = length l ->
    (forall i, nth_error r i = if in_dec Nat.eq_dec i order then Some (g (nth i l d)) else nth_error r0 i) -> r = map g l.
  Proof.
    intros OP L H. apply list_eq_nth_error. intros i. destruct (Nat.lt_ge_cases i (length l)) as [Y|Y].
    - rewrite H. destruct (in_dec _ _ _) as [X|X]; [|exfalso; apply X, (Permutation_in _ (Permutation_sym OP)), in_seq; lia].
      symmetry. apply map_nth_error. now apply nth_error_nth'.
    - rewrite (proj2 (nth_error_None r i)) by lia. symmetry. apply nth_error_None. now rewrite map_length.
  Qed.
  Lemma force_patch_ok s t r p parts : sph_force_patch e G m (s_m s) (s_r s) (s_x s) t r p parts = Ok (map (addF G s) parts, vsum (map (fun q => rvscal m (FF G s (gp_x q))) parts)).
  Proof.
    unfold sph_force_patch. cbv zeta. pose (d := mkgp rvzero rvzero rvzero rvzero 0%Z).
    pose proof (order_ok e EO r p (10 + 2 * t)%nat (length parts)) as OP.
    destruct (force_loop s parts d (sv_order e r p (10 + 2 * t)%nat (length parts)) (repeat rvzero (length parts)) parts) as (r1 & r2 & E & A1 & A2 & B1 & B2); auto using repeat_length.
    - eapply Permutation_NoDup; [symmetry; exact OP|apply seq_NoDup].
    - intros i Hi. apply (Permutation_in _ OP), in_seq in Hi. split; auto; lia.
    - rewrite E. cbn [rbind].
      rewrite (from_nth (fun q => rvscal m (FF G s (gp_x q))) parts d r1 _ _ OP A1 B1), (from_nth (addF G s) parts d r2 _ _ OP A2 B2).
      rewrite dev_sum_ok by (rewrite map_length; apply order_ok; auto). reflexivity.
  Qed.
  Lemma force_rank_ok s t r rd : sph_force_rank e G m (s_m s) (s_r s) (s_x s) t r rd = Ok (map (map (addF G s)) rd, vsum (map (fun q => rvscal m (FF G s (gp_x q))) (concat rd))).
  Proof.
    unfold sph_force_rank. rewrite (mapi_ok _ (fun parts => (map (addF G s) parts, vsum (map (fun q => rvscal m (FF G s (gp_x q))) parts)))) by (intros; apply force_patch_ok).
    cbn [rbind]. rewrite !map_map. cbn [fst snd]. f_equal. f_equal. rewrite fold_left_vsum, rvadd_0_l. clear.
    induction rd as [|l rd IH]; cbn [map concat]; auto. rewrite map_app, vsum_app, <- IH. reflexivity.
  Qed.
  Context (sk : sinks) (SO : sinks_ok sk).
  Definition addFs (k : nat) (q : gpart) : gpart := fold_left (fun q t => addF G (sink_at sk t) q) (seq 0 k) q.
  Lemma addFs_x k q : gp_x (addFs k q) = gp_x q.
  Proof. unfold addFs. generalize (seq 0 k). intros l. revert q. induction l as [|t l IH]; intros q; simpl; auto. rewrite IH. reflexivity. Qed.
  Lemma force_all_ok r rd : sph_force_all e G m sk r rd =
    Ok (map (map (addFs (nsinks sk))) rd, map (fun t => vsum (map (fun q => rvscal m (FF G (sink_at sk t) (gp_x q))) (concat rd))) (seq 0 (nsinks sk))).
  Proof.
    unfold sph_force_all. fold (nsinks sk).
    enough (K : forall k, (k <= nsinks sk)%nat -> rfold (fun t '(rd, acc) =>
        x <- aget (sk_pos sk) t ;; mm <- aget (sk_mass sk) t ;; ra <- aget (sk_racc sk) t ;;
        '(rd', f) <- sph_force_rank e G m mm ra x t r rd ;; Ok (rd', acc ++ [f])) (seq 0 k) (rd, []) =
        Ok (map (map (addFs k)) rd, map (fun t => vsum (map (fun q => rvscal m (FF G (sink_at sk t) (gp_x q))) (concat rd))) (seq 0 k))) by (apply K; lia).
    induction k as [|k IH]; intros Hk.
    - change (Ok (rd, @nil rv3) = Ok (map (map (addFs 0)) rd, [])). f_equal. f_equal. symmetry. transitivity (map (fun l : list gpart => l) rd); [|apply map_id]. apply map_ext. intros l. apply map_id.
    - rewrite seq_S, rfold_app, IH by lia. cbn [rbind Nat.add rfold]. destruct SO.
      rewrite (aget_lt (sk_pos sk) k rvzero) by (unfold nsinks in *; lia). cbn [rbind]. rewrite (aget_lt (sk_mass sk) k 0) by lia. cbn [rbind].
      rewrite (aget_lt (sk_racc sk) k 0) by lia. cbn [rbind].
      change (nth k (sk_mass sk) 0) with (s_m (sink_at sk k)). change (nth k (sk_racc sk) 0) with (s_r (sink_at sk k)). change (nth k (sk_pos sk) rvzero) with (s_x (sink_at sk k)).
      rewrite force_rank_ok. cbn [rbind]. rewrite map_app. cbn [map]. f_equal. f_equal.
      + rewrite map_map. apply map_ext. intros l. rewrite map_map. apply map_ext. intros q. unfold addFs. rewrite seq_S, fold_left_app. reflexivity.
      + assert (C : concat (map (map (addFs k)) rd) = map (addFs k) (concat rd)) by (symmetry; apply concat_map). rewrite C, map_map. do 3 f_equal. apply map_ext. intros q. now rewrite addFs_x.
  Qed.
  Lemma aget_concat {A} (ls : list (list A)) ns r i d : (forall l, In l ls -> length l = ns) -> (r < length ls)%nat -> (i < ns)%nat ->
    aget (concat ls) (r * ns + i) = Ok (nth i (nth r ls []) d).
  Proof.
    revert r. induction ls as [|l ls IH]; intros r H Hr Hi; simpl in Hr; [lia|]. cbn [concat].
    assert (L : length l = ns) by (apply H; simpl; auto). unfold aget. destruct r as [|r].
    - simpl. rewrite nth_error_app1 by lia. rewrite (nth_error_nth' _ d) by lia. reflexivity.
    - rewrite nth_error_app2 by lia. replace (S r * ns + i - length l)%nat with (r * ns + i)%nat by lia. apply IH; auto; try lia. intros; apply H; simpl; auto.
  Qed.
  Lemma sum_seq_list {A} (f : nat -> res rv3) (g : A -> rv3) (ls : list A) d : (forall r, (r < length ls)%nat -> f r = Ok (g (nth r ls d))) ->
    rfold (fun rid s => v <- f rid ;; Ok (rvadd s v)) (seq 0 (length ls)) rvzero = Ok (vsum (map g ls)).
  Proof.
    intros H. enough (K : forall k, (k <= length ls)%nat -> rfold (fun rid s => v <- f rid ;; Ok (rvadd s v)) (seq 0 k) rvzero = Ok (vsum (map g (firstn k ls)))).
    { rewrite K by lia. now rewrite firstn_all. }
    induction k as [|k IH]; intros Hk; [reflexivity|]. rewrite seq_S, rfold_app, IH by lia. cbn [rbind Nat.add rfold]. rewrite H by lia. cbn [rbind].
    f_equal. assert (E : firstn (S k) ls = firstn k ls ++ [nth k ls d]).
    { clear - Hk. revert k Hk. induction ls as [|a ls IH]; intros k Hk; simpl in *; [lia|]. destruct k; [reflexivity|]. cbn [firstn nth app]. f_equal. apply IH. lia. }
    rewrite E, map_app, vsum_app. cbn [map vsum fold_right]. now rewrite rvadd_0_r.
  Qed.
  Definition sph_acc (w : world) (t : nat) : rv3 := vsum (map (fun q => rvscal m (FF G (sink_at sk t) (gp_x q))) (gas w)).
  Lemma sph_forces_ok w : compute_sph_forces e G m w sk =
    Ok (on_gas (addFs (nsinks sk)) w, mksk (sk_pos sk) (sk_vel sk) (map (sph_acc w) (seq 0 (nsinks sk))) (sk_aext sk) (sk_mass sk) (sk_ang sk) (sk_racc sk)).
  Proof.
    unfold compute_sph_forces. fold (nsinks sk). destruct (Nat.eqb_spec (nsinks sk) 0) as [Z|Z].
    - rewrite Z. cbn [seq map]. f_equal. f_equal.
      + unfold on_gas. symmetry. transitivity (map (fun l : rankdata => l) w); [|apply map_id]. apply map_ext. intros rd. transitivity (map (fun l : list gpart => l) rd); [|apply map_id]. apply map_ext. intros l. apply map_id.
      + destruct sk as [x v a b mm g ra]. destruct SO. cbn in *. unfold nsinks in *. cbn in *. rewrite Z in *. destruct a; [reflexivity|discriminate].
    - rewrite (mapi_ok _ (fun rd => (map (map (addFs (nsinks sk))) rd, map (fun t => vsum (map (fun q => rvscal m (FF G (sink_at sk t) (gp_x q))) (concat rd))) (seq 0 (nsinks sk))))) by (intros; apply force_all_ok).
      cbn [rbind]. rewrite !map_map. cbn [fst snd]. cbv zeta.
      set (accs := fun rd : list (list gpart) => map (fun t => vsum (map (fun q => rvscal m (FF G (sink_at sk t) (gp_x q))) (concat rd))) (seq 0 (nsinks sk))).
      rewrite (mapi_ok _ (sph_acc w)).
      + cbn [rbind]. reflexivity.
      + intros _ t Ht. apply in_seq in Ht.
        rewrite (sum_seq_list _ (fun rd => vsum (map (fun q => rvscal m (FF G (sink_at sk t) (gp_x q))) (concat rd))) w []).
        * unfold sph_acc, gas. f_equal. clear. induction w as [|rd w IH]; cbn [map concat]; auto. rewrite concat_app, map_app, vsum_app, <- IH. reflexivity.
        * intros r Hr. rewrite (aget_concat _ (nsinks sk) r t rvzero).
          -- f_equal. rewrite (nth_indep _ [] (accs [])) by (rewrite map_length; auto). rewrite map_nth. unfold accs.
             rewrite (nth_indep _ rvzero (vsum (map (fun q => rvscal m (FF G (sink_at sk 0) (gp_x q))) (concat (nth r w []))))) by (rewrite map_length, seq_length; lia).
             rewrite (map_nth (fun t => vsum (map (fun q => rvscal m (FF G (sink_at sk t) (gp_x q))) (concat (nth r w []))))), seq_nth by lia. reflexivity.
          -- intros l Hl. apply in_map_iff in Hl. destruct Hl as (rd & <- & _). unfold accs. now rewrite map_length, seq_length.
          -- now rewrite map_length.
          -- lia.
  Qed.
  Lemma addFs_k k c q : In c comps -> (forall t, (t < k)%nat -> 0 < s_r (sink_at sk t)) ->
    c (gp_ext (addFs k q)) = c (gp_ext q) + Rsum (fun t => s_m (sink_at sk t) * pull G (gp_x q) (sink_at sk t) c) (seq 0 k).
  Proof.
    intros Hc. induction k as [|k IH]; intros H; [unfold addFs; cbn; ring|].
    assert (E : addFs (S k) q = addF G (sink_at sk k) (addFs k q)) by (unfold addFs; rewrite seq_S, fold_left_app; reflexivity).
    rewrite E. unfold addF at 1. cbn [gp_ext]. rewrite k_add, k_scal, k_neg, k_FF by auto. rewrite IH by (intros; apply H; lia). rewrite addFs_x.
    rewrite seq_S, Rsum_app. cbn [Nat.add Rsum fold_right]. ring.
  Qed.
  Lemma addFs_same k q : gp_x (addFs k q) = gp_x q /\ gp_v (addFs k q) = gp_v q /\ gp_a (addFs k q) = gp_a q /\ gp_rest (addFs k q) = gp_rest q.
  Proof. unfold addFs. generalize (seq 0 k). intros l. revert q. induction l as [|t l IH]; intros q; simpl; auto. destruct (IH (addF G (sink_at sk t) q)) as (A & B & C & D). auto. Qed.
End Forces.

(** ** Between sinks *)
Section Ext.
  Context (G : R) (sk : sinks) (SO : same_size (nsinks sk) sk).
  Definition ext_acc (i : nat) : rv3 :=
    vsum (map (fun j => rvneg (rvdiv (rvscal (G * s_m (sink_at sk j)) (rvsub (s_x (sink_at sk i)) (s_x (sink_at sk j)))) (dist (s_x (sink_at sk i)) (s_x (sink_at sk j)) ^ 3 + 1 / 10 ^ 9))) (seq 0 (nsinks sk))).
  Lemma ext_on_ok i : (i < nsinks sk)%nat -> ext_force_on G sk i = Ok (ext_acc i).
  Proof.
    intros Hi. unfold ext_force_on, ext_acc. fold (nsinks sk). destruct SO.
    enough (K : forall k, (k <= nsinks sk)%nat -> rfold (fun j s =>
        xi <- aget (sk_pos sk) i ;; xj <- aget (sk_pos sk) j ;; mj <- aget (sk_mass sk) j ;;
        let rij := rvsub xi xj in let rij_scal := rvlen rij in
        Ok (rvsub s (rvdiv (rvscal (G * mj) rij) (rij_scal * rij_scal * rij_scal + eps_sink)))) (seq 0 k) rvzero =
        Ok (vsum (map (fun j => rvneg (rvdiv (rvscal (G * s_m (sink_at sk j)) (rvsub (s_x (sink_at sk i)) (s_x (sink_at sk j)))) (dist (s_x (sink_at sk i)) (s_x (sink_at sk j)) ^ 3 + 1 / 10 ^ 9))) (seq 0 k)))) by (apply K; lia).
    induction k as [|k IH]; intros Hk; [reflexivity|]. rewrite seq_S, rfold_app, IH by lia. cbn [rbind Nat.add rfold].
    rewrite (aget_lt (sk_pos sk) i rvzero) by lia. cbn [rbind]. rewrite (aget_lt (sk_pos sk) k rvzero) by lia. cbn [rbind]. rewrite (aget_lt (sk_mass sk) k 0) by lia. cbn [rbind].
    cbv zeta. rewrite rvlen_dist. f_equal. rewrite map_app, vsum_app. cbn [map vsum fold_right]. rewrite rvadd_0_r. cbn [sink_at s_x s_m].
    unfold eps_sink. set (D := dist _ _). replace (D * D * D + 1 / 10 ^ 9) with (D ^ 3 + 1 / 10 ^ 9) by ring.
    apply rv3_eq; simpl; ring.
  Qed.
  Lemma ext_ok : compute_ext_forces G sk = Ok (mksk (sk_pos sk) (sk_vel sk) (sk_asph sk) (map ext_acc (seq 0 (nsinks sk))) (sk_mass sk) (sk_ang sk) (sk_racc sk)).
  Proof.
    unfold compute_ext_forces. fold (nsinks sk). destruct (Nat.eqb_spec (nsinks sk) 0) as [Z|Z].
    - f_equal. rewrite Z. cbn [seq map]. destruct sk as [x v a b mm g ra]. destruct SO. cbn in *. unfold nsinks in *. cbn in *. rewrite Z in *. destruct b; [reflexivity|discriminate].
    - rewrite (mapi_ok _ ext_acc); [reflexivity|]. intros _ i Hi. apply in_seq in Hi. apply ext_on_ok. lia.
  Qed.
  Lemma ext_acc_k i k : In k comps -> k (ext_acc i) = Rsum (fun j => s_m (sink_at sk j) * soft_pull G (s_x (sink_at sk i)) (s_x (sink_at sk j)) k) (seq 0 (nsinks sk)).
  Proof.
    intros Hk. unfold ext_acc. rewrite k_vsum, Rsum_map by auto. apply Rsum_ext. intros j _. unfold soft_pull. rewrite k_neg, k_div, k_scal, k_sub by auto. unfold Rdiv. ring.
  Qed.
  Lemma nth_map_seq {A} (f : nat -> A) n i d : (i < n)%nat -> nth i (map f (seq 0 n)) d = f i.
  Proof. intros H. rewrite (nth_indep _ d (f 0%nat)) by (rewrite map_length, seq_length; auto). rewrite map_nth, seq_nth by auto. reflexivity. Qed.
  Lemma kick_ok dt : kick_sinks dt (nsinks sk) sk = Ok (mksk (sk_pos sk) (map (fun i => rvadd (s_v (sink_at sk i)) (rvscal (dt / 2) (rvadd (s_asph (sink_at sk i)) (s_aext (sink_at sk i))))) (seq 0 (nsinks sk))) (sk_asph sk) (sk_aext sk) (sk_mass sk) (sk_ang sk) (sk_racc sk)).
  Proof.
    unfold kick_sinks. rewrite (mapi_ok _ (fun i => rvadd (s_v (sink_at sk i)) (rvscal (dt / 2) (rvadd (s_asph (sink_at sk i)) (s_aext (sink_at sk i)))))); [reflexivity|].
    intros _ i Hi. apply in_seq in Hi. destruct SO. rewrite (aget_lt (sk_vel sk) i rvzero) by lia. cbn [rbind]. rewrite (aget_lt (sk_asph sk) i rvzero) by lia. cbn [rbind].
    rewrite (aget_lt (sk_aext sk) i rvzero) by lia. reflexivity.
  Qed.
End Ext.
