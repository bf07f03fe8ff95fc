(** Proofs about the sinks: the kernels. *)
Require Import Reals Lra.
From Verif Require Import Base Par Scan Scan_spec Scan_proofs Riemann Fmm_spec Fmm_reps Sgfmm_util Sink Sink_spec.
From Coq Require Import ZifyBool ZifyNat.
Local Open Scope R_scope.

Lemma mapi_ok {A B} (f : nat -> A -> res B) (g : A -> B) : forall l i, (forall j a, In a l -> f j a = Ok (g a)) -> mapi f i l = Ok (map g l).
Proof.
  induction l as [|a l IH]; intros i H; simpl; auto. rewrite H by (simpl; auto). cbn [rbind]. rewrite IH by (intros; apply H; simpl; auto). reflexivity.
Qed.
Lemma over_patches_ok {A B} (f : nat -> nat -> A -> res B) (g : A -> B) w :
  (forall r p l a, In l w -> In a l -> f r p a = Ok (g a)) -> over_patches f w = Ok (map (map g) w).
Proof.
  intros H. unfold over_patches. apply mapi_ok. intros r l Hl. apply mapi_ok. intros p a Ha. eauto.
Qed.

Lemma rv3_eq a b : rx a = rx b -> ry a = ry b -> rz a = rz b -> a = b.
Proof. destruct a, b; simpl; intros; subst; auto. Qed.
Lemma rv3_comps a b : (forall k, In k comps -> k a = k b) -> a = b.
Proof. intros H. apply rv3_eq; apply H; simpl; auto. Qed.
Ltac by_comps := match goal with H : In ?k comps |- _ => destruct H as [H|[H|[H|[]]]]; subst k end.
Lemma k_add k a b : In k comps -> k (rvadd a b) = k a + k b.
Proof. intros; by_comps; reflexivity. Qed.
Lemma k_sub k a b : In k comps -> k (rvsub a b) = k a - k b.
Proof. intros; by_comps; reflexivity. Qed.
Lemma k_scal k c a : In k comps -> k (rvscal c a) = c * k a.
Proof. intros; by_comps; reflexivity. Qed.
Lemma k_neg k a : In k comps -> k (rvneg a) = - k a.
Proof. intros; by_comps; reflexivity. Qed.
Lemma k_div k a c : In k comps -> k (rvdiv a c) = k a / c.
Proof. intros; by_comps; reflexivity. Qed.
Lemma k_zero k : In k comps -> k rvzero = 0.
Proof. intros; by_comps; reflexivity. Qed.

(** sums of vectors *)
Definition vsum (l : list rv3) : rv3 := fold_right rvadd rvzero l.
Lemma k_vsum k l : In k comps -> k (vsum l) = Rsum k l.
Proof. intros H. induction l as [|a l IH]; simpl; [now apply k_zero|]. rewrite k_add, IH by auto. reflexivity. Qed.
Lemma rvadd_comm a b : rvadd a b = rvadd b a.
Proof. apply rv3_eq; simpl; ring. Qed.
Lemma rvadd_assoc a b c : rvadd a (rvadd b c) = rvadd (rvadd a b) c.
Proof. apply rv3_eq; simpl; ring. Qed.
Lemma rvadd_0_l a : rvadd rvzero a = a.
Proof. apply rv3_eq; simpl; ring. Qed.
Lemma rvadd_0_r a : rvadd a rvzero = a.
Proof. apply rv3_eq; simpl; ring. Qed.
Lemma vsum_perm l l' : Permutation l l' -> vsum l = vsum l'.
Proof. intros H. apply rv3_comps. intros k Hk. rewrite !k_vsum by auto. now apply Rsum_perm. Qed.
Lemma vsum_app l l' : vsum (l ++ l') = rvadd (vsum l) (vsum l').
Proof. apply rv3_comps. intros k Hk. rewrite k_add, !k_vsum by auto. apply Rsum_app. Qed.
Lemma fold_left_vsum l s : fold_left rvadd l s = rvadd s (vsum l).
Proof. revert s. induction l as [|a l IH]; intros s; simpl; [now rewrite rvadd_0_r|]. rewrite IH. now rewrite rvadd_assoc. Qed.
Lemma fold_left_Rsum l s : fold_left Rplus l s = s + Rsum (fun x => x) l.
Proof. revert s. induction l as [|a l IH]; intros s; simpl; [ring|]. rewrite IH. ring. Qed.
Lemma map_nth_seq {A} (l : list A) d : map (fun i => nth i l d) (seq 0 (length l)) = l.
Proof.
  induction l as [|a l IH]; simpl; auto. f_equal. rewrite <- seq_shift, map_map. apply IH.
Qed.
Lemma dev_sum_ok order buf : Permutation order (seq 0 (length buf)) -> dev_sum order buf = Ok (vsum buf).
Proof.
  intros HP. unfold dev_sum.
  assert (G : forall l s, (forall i, In i l -> (i < length buf)%nat) ->
    rfold (fun i s => v <- aget buf i ;; Ok (rvadd s v)) l s = Ok (rvadd s (vsum (map (fun i => nth i buf rvzero) l)))).
  { induction l as [|i l IH]; intros s H; cbn [rfold map vsum fold_right]; [now rewrite rvadd_0_r|].
    rewrite (aget_lt buf i rvzero) by (apply H; simpl; auto). cbn [rbind]. rewrite IH by (intros; apply H; simpl; auto). unfold vsum. now rewrite rvadd_assoc. }
  rewrite G.
  - rewrite rvadd_0_l. f_equal. transitivity (vsum (map (fun i => nth i buf rvzero) (seq 0 (length buf)))); [|now rewrite map_nth_seq]. apply vsum_perm. now apply Permutation_map.
  - intros i Hi. apply (Permutation_in _ HP), in_seq in Hi. lia.
Qed.

(** ** Flags *)
Section Env.
  Context (e : senv) (EO : senv_ok e).
  Lemma order_ok r p t n : Permutation (sv_order e r p t n) (seq 0 n).
  Proof. apply EO. Qed.

  Lemma within_dot x s : rvdot (rvsub x (s_x s)) (rvsub x (s_x s)) <= s_r s * s_r s <-> within x s.
  Proof. unfold within, rvdot, rvsub; simpl. split; intros; lra. Qed.

  Definition flagZ (sk : sinks) (q : gpart) : Z := match captor sk q with Some i => Z.of_nat i | None => u32_max end.
  Lemma flag_loop_ok sk q : length (sk_racc sk) = nsinks sk -> forall c i, (i + c = nsinks sk)%nat ->
    flag_loop (sk_pos sk) (sk_racc sk) (gp_x q) c i = Ok (match find (fun i => if within_dec (gp_x q) (sink_at sk i) then true else false) (seq i c) with Some i => Z.of_nat i | None => u32_max end).
  Proof.
    intros LR. induction c as [|c IH]; intros i H; cbn [flag_loop seq find]; auto.
    rewrite (aget_lt (sk_racc sk) i 0) by lia. cbn [rbind]. rewrite (aget_lt (sk_pos sk) i rvzero) by (unfold nsinks in H; lia). cbn [rbind].
    pose proof (within_dot (gp_x q) (sink_at sk i)) as W. cbn [sink_at s_x s_r] in W.
    destruct (Rle_dec _ _) as [D|D]; destruct (within_dec _ _) as [D'|D']; auto; try tauto. apply IH. lia.
  Qed.
  Lemma flag_patch_ok sk r p parts : length (sk_racc sk) = nsinks sk -> flag_patch e sk r p parts = Ok (map (flagZ sk) parts).
  Proof.
    intros LR. unfold flag_patch.
    pose (d := mkgp rvzero rvzero rvzero rvzero 0%Z).
    rewrite (par_write_ok _ (fun i => flagZ sk (nth i parts d)) _ (length parts)).
    - f_equal. rewrite <- (map_nth_seq parts d) at 2. now rewrite map_map.
    - apply order_ok.
    - apply repeat_length.
    - intros i Hi. rewrite (aget_lt parts i d) by auto. cbn [rbind]. apply flag_loop_ok; auto.
  Qed.
  Lemma flag_ok sk w : sinks_ok sk -> flag_accrete_hard e sk w = Ok (map (map (map (flagZ sk))) w).
  Proof.
    intros S. unfold flag_accrete_hard. destruct S. fold (nsinks sk). rewrite so_racc, Nat.eqb_refl. cbn [negb].
    destruct (Z.leb_spec (2 ^ 32) (Z.of_nat (nsinks sk))); [lia|].
    apply over_patches_ok. intros. now apply flag_patch_ok.
  Qed.

  (** ** Compaction of flags computed from the rows *)
  Lemma selected_filter (b : gpart -> bool) (parts : list gpart) d :
    map (fun i => nth i parts d) (selected (map (fun q => if b q then 1%Z else 0%Z) parts) (length parts)) = filter b parts.
  Proof.
    unfold selected.
    assert (G : forall l off pre, length pre = off ->
      map (fun i => nth i (pre ++ l) d) (filter (fun i => negb (nth i (map (fun q => if b q then 1%Z else 0%Z) (pre ++ l)) 0 =? 0)%Z) (seq off (length l))) = filter b l).
    { induction l as [|a l IH]; intros off pre HL; cbn [length seq filter map]; auto.
      specialize (IH (S off) (pre ++ [a])). rewrite app_length, <- app_assoc in IH. simpl app in IH. specialize (IH ltac:(simpl; lia)).
      rewrite (nth_indep _ 0%Z (if b d then 1%Z else 0%Z)) by (rewrite map_length, app_length; simpl; lia).
      rewrite (map_nth (fun q => if b q then 1%Z else 0%Z)), app_nth2, HL, Nat.sub_diag by lia. cbn [nth].
      destruct (b a); cbn [Z.eqb negb map]; rewrite IH; auto. f_equal. rewrite app_nth2, HL, Nat.sub_diag by lia. reflexivity. }
    apply (G parts 0%nat []). reflexivity.
  Qed.
  Lemma compact_ok (b : gpart -> bool) parts r p t : (Z.of_nat (length parts) < 2 ^ 32)%Z ->
    stream_compact_excl_scan (sv_scan e) (sv_order e r p t (length parts)) (sv_garb e) (map (fun q => if b q then 1%Z else 0%Z) parts) (length parts)
      = Ok (selected (map (fun q => if b q then 1%Z else 0%Z) parts) (length parts)).
  Proof.
    intros HL. destruct EO as (E1 & E2 & E3). apply compact_scan_ok; auto.
    - intros f Hf. apply in_map_iff in Hf. destruct Hf as (q & <- & _). destruct (b q); auto.
    - rewrite map_length. lia.
    - apply E2. rewrite map_length. lia.
  Qed.
  Lemma selected_lt flags n i : In i (selected flags n) -> (i < n)%nat.
  Proof. unfold selected. rewrite filter_In, in_seq. lia. Qed.
  Lemma keep_ids_ok ids parts d : (forall i, In i ids -> (i < length parts)%nat) -> keep_ids ids parts = Ok (map (fun i => nth i parts d) ids).
  Proof. intros H. unfold keep_ids. apply mapi_ok. intros j i Hi. apply aget_lt. auto. Qed.

  (** ** Accreted quantities *)
  Definition ac_of (m dt : R) (rs vs : rv3) (l : list gpart) : accr :=
    mkac (m * INR (length l)) (vsum (map (fun q => rvscal m (gp_x q)) l)) (vsum (map (fun q => rvscal m (gp_v q)) l)) (vsum (map (fun q => rvscal m (gp_a q)) l))
      (vsum (map (fun q => rvscal m (rvcross (rvsub (gp_x q) rs) (rvsub (rvadd (gp_v q) (rvdiv (rvscal dt (gp_a q)) 2)) vs))) l)).
  Definition ac_add (s t : accr) : accr := mkac (ac_m s + ac_m t) (rvadd (ac_mr s) (ac_mr t)) (rvadd (ac_p s) (ac_p t)) (rvadd (ac_ma s) (ac_ma t)) (rvadd (ac_l s) (ac_l t)).
  Lemma ac_of_app m dt rs vs l l' : ac_of m dt rs vs (l ++ l') = ac_add (ac_of m dt rs vs l) (ac_of m dt rs vs l').
  Proof. unfold ac_of, ac_add. cbn [Sink.ac_m Sink.ac_mr Sink.ac_p Sink.ac_ma Sink.ac_l]. rewrite !map_app, !vsum_app, app_length, plus_INR. f_equal. ring. Qed.
  Lemma ac_add_assoc a b c : ac_add a (ac_add b c) = ac_add (ac_add a b) c.
  Proof. unfold ac_add. cbn [Sink.ac_m Sink.ac_mr Sink.ac_p Sink.ac_ma Sink.ac_l]. f_equal; try apply rvadd_assoc. ring. Qed.
  Lemma ac_add_0_r a : ac_add a ac_zero = a.
  Proof. unfold ac_add. destruct a. cbn [Sink.ac_m Sink.ac_mr Sink.ac_p Sink.ac_ma Sink.ac_l ac_zero]. f_equal; try apply rvadd_0_r. ring. Qed.
  Lemma ac_add_0_l a : ac_add ac_zero a = a.
  Proof. unfold ac_add. destruct a. cbn [Sink.ac_m Sink.ac_mr Sink.ac_p Sink.ac_ma Sink.ac_l ac_zero]. f_equal; try apply rvadd_0_l. ring. Qed.
  Lemma ac_of_nil m dt rs vs : ac_of m dt rs vs [] = ac_zero.
  Proof. unfold ac_of, ac_zero. simpl. f_equal. ring. Qed.

  Lemma captor_lt sk q i : captor sk q = Some i -> (i < nsinks sk)%nat.
  Proof. unfold captor. intros H. apply find_some in H. destruct H as [H _]. apply in_seq in H. lia. Qed.
  Lemma flag_eq sk q i : (Z.of_nat (nsinks sk) < 2 ^ 32)%Z -> (i < nsinks sk)%nat -> (flagZ sk q =? Z.of_nat i)%Z = taken_by sk i q.
  Proof.
    intros H Hi. unfold flagZ, taken_by. change (2 ^ 32)%Z with 4294967296%Z in H. destruct (captor sk q) as [j|] eqn:E.
    - destruct (Z.eqb_spec (Z.of_nat j) (Z.of_nat i)), (Nat.eqb_spec i j); auto; lia.
    - unfold u32_max. destruct (Z.eqb_spec 4294967295 (Z.of_nat i)); auto. lia.
  Qed.
  Lemma flag_none sk q : (Z.of_nat (nsinks sk) < 2 ^ 32)%Z -> (flagZ sk q =? u32_max)%Z = is_free sk q.
  Proof.
    intros H. unfold flagZ, is_free. change (2 ^ 32)%Z with 4294967296%Z in H. destruct (captor sk q) as [j|] eqn:E.
    - apply captor_lt in E. unfold u32_max. destruct (Z.eqb_spec (Z.of_nat j) 4294967295); auto. lia.
    - apply Z.eqb_refl.
  Qed.

  Lemma accrete_patch_ok m dt sk i rs vs r p parts s : (Z.of_nat (nsinks sk) < 2 ^ 32)%Z -> (i < nsinks sk)%nat -> (Z.of_nat (length parts) < 2 ^ 32)%Z ->
    accrete_patch e m dt i rs vs r p parts (map (flagZ sk) parts) s = Ok (ac_add s (ac_of m dt rs vs (filter (taken_by sk i) parts))).
  Proof.
    intros H Hi HL. unfold accrete_patch. cbv zeta. pose (d := mkgp rvzero rvzero rvzero rvzero 0%Z).
    rewrite (par_write_ok _ (fun j => if taken_by sk i (nth j parts d) then 1%Z else 0%Z) _ (length parts)); [|apply order_ok|apply repeat_length|].
    2:{ intros j Hj. rewrite (aget_lt _ j (flagZ sk d)) by (rewrite map_length; auto). cbn [rbind]. rewrite map_nth, flag_eq by auto. reflexivity. }
    cbn [rbind]. rewrite <- (map_map (fun j => nth j parts d) (fun q => if taken_by sk i q then 1%Z else 0%Z)), map_nth_seq.
    rewrite compact_ok by auto. cbn [rbind]. set (ids := selected _ _).
    pose proof (selected_filter (taken_by sk i) parts d) as SF. fold ids in SF.
    assert (LT : forall j, In j ids -> (j < length parts)%nat) by (intros j Hj; eapply selected_lt; exact Hj).
    destruct (Nat.ltb_spec 0 (length ids)) as [NZ|NZ].
    - rewrite (par_write_ok _ (fun k => let q := nth (nth k ids 0%nat) parts d in
          (rvscal m (gp_v q), rvscal m (gp_x q), rvscal m (gp_a q), rvscal m (rvcross (rvsub (gp_x q) rs) (rvsub (rvadd (gp_v q) (rvdiv (rvscal dt (gp_a q)) 2)) vs)))) _ (length ids));
        [|apply order_ok|apply repeat_length|].
      2:{ intros k Hk. unfold accrete_item. rewrite (aget_lt ids k 0%nat) by auto. cbn [rbind]. rewrite (aget_lt parts _ d) by (apply LT, nth_In; auto). reflexivity. }
      cbn [rbind]. rewrite !map_map. cbv zeta beta.
      rewrite !dev_sum_ok by (rewrite map_length, seq_length; apply order_ok). cbn [rbind].
      unfold ac_add, ac_of. cbn [Sink.ac_m Sink.ac_mr Sink.ac_p Sink.ac_ma Sink.ac_l].
      assert (MM : forall (h : gpart -> rv3), map (fun x => h (nth (nth x ids 0%nat) parts d)) (seq 0 (length ids)) = map h (filter (taken_by sk i) parts)).
      { intros h. rewrite <- SF, map_map. rewrite <- (map_map (fun x => nth x ids 0%nat) (fun j => h (nth j parts d))). now rewrite map_nth_seq. }
      rewrite (MM (fun q => rvscal m (gp_v q))), (MM (fun q => rvscal m (gp_x q))), (MM (fun q => rvscal m (gp_a q))),
        (MM (fun q => rvscal m (rvcross (rvsub (gp_x q) rs) (rvsub (rvadd (gp_v q) (rvdiv (rvscal dt (gp_a q)) 2)) vs)))).
      rewrite <- SF, map_length. reflexivity.
    - destruct ids; [|simpl in NZ; lia]. rewrite <- SF. cbn [map]. rewrite ac_of_nil, ac_add_0_r. reflexivity.
  Qed.
  Lemma accrete_patches_ok m dt sk i rs vs r : (Z.of_nat (nsinks sk) < 2 ^ 32)%Z -> (i < nsinks sk)%nat -> forall rd p s,
    (forall l, In l rd -> (Z.of_nat (length l) < 2 ^ 32)%Z) ->
    accrete_patches e m dt i rs vs r p (combine rd (map (map (flagZ sk)) rd)) s = Ok (ac_add s (ac_of m dt rs vs (filter (taken_by sk i) (concat rd)))).
  Proof.
    intros H Hi. induction rd as [|l rd IH]; intros p s HL; cbn [map combine accrete_patches concat].
    - cbn [filter]. now rewrite ac_of_nil, ac_add_0_r.
    - rewrite accrete_patch_ok by (auto; apply HL; simpl; auto). cbn [rbind]. rewrite IH by (intros; apply HL; simpl; auto).
      now rewrite filter_app, ac_of_app, ac_add_assoc.
  Qed.
  Lemma combine_map {A B} (f : A -> B) l : combine l (map f l) = map (fun a => (a, f a)) l.
  Proof. induction l; simpl; congruence. Qed.
  Lemma accrete_ranks_ok m dt sk i rs vs w : (Z.of_nat (nsinks sk) < 2 ^ 32)%Z -> (i < nsinks sk)%nat -> world_ok w ->
    accrete_ranks e m dt i rs vs w (map (map (map (flagZ sk))) w) = Ok (map (fun rd => ac_of m dt rs vs (filter (taken_by sk i) (concat rd))) w).
  Proof.
    intros H Hi HW. unfold accrete_ranks. rewrite combine_map.
    rewrite (mapi_ok _ (fun '(rd, _) => ac_of m dt rs vs (filter (taken_by sk i) (concat rd)))).
    - rewrite map_map. reflexivity.
    - intros r [rd ts] Hin. apply in_map_iff in Hin. destruct Hin as (rd' & E & Hin). inversion E; subst.
      rewrite accrete_patches_ok; auto; [now rewrite ac_add_0_l|]. intros l Hl. eapply HW; eauto.
  Qed.
  Lemma ac_reduce m dt rs vs b w : let acs := map (fun rd => ac_of m dt rs vs (filter b (concat rd))) w in
    mkac (allreduce_sum (map ac_m acs)) (allreduce_sumv (map ac_mr acs)) (allreduce_sumv (map ac_p acs)) (allreduce_sumv (map ac_ma acs)) (allreduce_sumv (map ac_l acs))
      = ac_of m dt rs vs (filter b (gas w)).
  Proof.
    cbv zeta. unfold allreduce_sum, allreduce_sumv. rewrite fold_left_Rsum, !fold_left_vsum, !rvadd_0_l, !map_map.
    unfold gas. induction w as [|rd w IH]; cbn [map concat].
    - cbn [filter]. rewrite ac_of_nil. unfold ac_zero. simpl. f_equal. ring.
    - rewrite concat_app, filter_app, ac_of_app, <- IH. unfold ac_add. cbn [Sink.ac_m Sink.ac_mr Sink.ac_p Sink.ac_ma Sink.ac_l]. unfold vsum at 1 3 5 7. cbn [fold_right]. rewrite Rsum_cons. f_equal. ring.
  Qed.
End Env.
