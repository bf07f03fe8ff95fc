(** Proofs about the sinks: conservation by accretion. *)
Require Import Reals Lra.
From Verif Require Import Base Par Scan Scan_spec Riemann Fmm_spec Fmm_reps Sgfmm_util Sink Sink_spec Sink_proofs Sink_accr Sink_forces.
From Coq Require Import ZifyBool ZifyNat.
Local Open Scope R_scope.

Lemma concat_filter {A} (b : A -> bool) (ll : list (list A)) : concat (map (filter b) ll) = filter b (concat ll).
Proof. induction ll as [|l ll IH]; simpl; auto. rewrite filter_app, IH. reflexivity. Qed.
Lemma gas_filter b (w : world) : gas (map (map (filter b)) w) = filter b (gas w).
Proof. unfold gas. rewrite <- concat_map. apply concat_filter. Qed.
Lemma Rsum_one (n j : nat) (c : R) : (j < n)%nat -> Rsum (fun i => if (i =? j)%nat then c else 0) (seq 0 n) = c.
Proof.
  intros H. replace n with (j + (1 + (n - j - 1)))%nat by lia. rewrite !seq_app, !Rsum_app. cbn [Nat.add].
  rewrite (Rsum_ext _ _ (fun _ => 0) (seq 0 j)), Rsum_zero by (intros i Hi; apply in_seq in Hi; destruct (Nat.eqb_spec i j); auto; lia).
  rewrite (Rsum_ext _ _ (fun _ => 0) (seq (j + 1) _)), Rsum_zero by (intros i Hi; apply in_seq in Hi; destruct (Nat.eqb_spec i j); auto; lia).
  cbn [seq Rsum fold_right]. rewrite Nat.eqb_refl. ring.
Qed.
(** every particle stays or goes to one sink *)
Lemma partition sk (f : gpart -> R) w :
  Rsum f (gas w) = Rsum f (filter (is_free sk) (gas w)) + Rsum (fun i => Rsum f (taken sk i w)) (seq 0 (nsinks sk)).
Proof.
  unfold taken. induction (gas w) as [|q l IH]; [simpl; rewrite Rsum_zero; ring|].
  rewrite Rsum_cons, IH. cbn [filter]. unfold is_free at 2, taken_by at 2. destruct (captor sk q) as [j|] eqn:C.
  - pose proof (captor_lt sk q j C) as L.
    rewrite (Rsum_ext _ (fun i => Rsum f (if (i =? j)%nat then q :: filter (taken_by sk i) l else filter (taken_by sk i) l)) (fun i => (if (i =? j)%nat then f q else 0) + Rsum f (filter (taken_by sk i) l))).
    + rewrite Rsum_plus, Rsum_one by auto. ring.
    + intros i _. destruct (i =? j)%nat; [apply Rsum_cons|ring].
  - rewrite Rsum_cons. ring.
Qed.
Lemma Rsum_len {A} (c : R) (l : list A) : Rsum (fun _ => c) l = c * INR (length l).
Proof. induction l as [|a l IH]; [simpl; ring|]. rewrite Rsum_cons, IH. cbn [length]. rewrite S_INR. ring. Qed.
Lemma all_sinks_eq sk sk' (g : nat -> sink) : same_size (nsinks sk) sk' -> (forall j, (j < nsinks sk)%nat -> sink_at sk' j = g j) ->
  nsinks sk' = nsinks sk /\ all_sinks sk' = map g (seq 0 (nsinks sk)).
Proof.
  intros [] H. unfold nsinks at 1. split; auto. unfold all_sinks. unfold nsinks at 1. rewrite ss_pos. apply map_ext_in. intros j Hj. apply in_seq in Hj. apply H. lia.
Qed.
Lemma all_sinks_sum sk (f : sink -> R) : Rsum f (all_sinks sk) = Rsum (fun i => f (sink_at sk i)) (seq 0 (nsinks sk)).
Proof. unfold all_sinks. apply Rsum_map. Qed.
Lemma in_sinks sk i : (i < nsinks sk)%nat -> In (sink_at sk i) (all_sinks sk).
Proof. intros H. apply in_map, in_seq. lia. Qed.

(** ** Algebra of angular momentum *)
Ltac onk Hk := unfold comps in Hk; simpl in Hk; destruct Hk as [<-|[<-|[<-|[]]]].
Lemma cross_expand m h X V (l : list gpart) k : In k comps ->
  Rsum (fun q => m * crossc (rvsub (gp_x q) X) (rvsub (rvadd (gp_v q) (rvscal h (gp_a q))) V) k) l =
  Rsum (fun q => m * crossc (gp_x q) (gp_v q) k) l + h * Rsum (fun q => m * crossc (rvsub (gp_x q) X) (gp_a q) k) l
  - crossc (vsum (map (fun q => rvscal m (gp_x q)) l)) V k - crossc X (vsum (map (fun q => rvscal m (gp_v q)) l)) k + m * INR (length l) * crossc X V k.
Proof.
  intros Hk. induction l as [|q l IH].
  - unfold crossc, rvcross, vsum, rvzero. cbn [map fold_right Rsum length INR]. onk Hk; cbn [rx ry rz]; unfold rvzero; cbn [rx ry rz]; ring.
  - rewrite !Rsum_cons, IH. cbn [length map]. rewrite S_INR.
    change (vsum (rvscal m (gp_x q) :: map (fun q => rvscal m (gp_x q)) l)) with (rvadd (rvscal m (gp_x q)) (vsum (map (fun q => rvscal m (gp_x q)) l))).
    change (vsum (rvscal m (gp_v q) :: map (fun q => rvscal m (gp_v q)) l)) with (rvadd (rvscal m (gp_v q)) (vsum (map (fun q => rvscal m (gp_v q)) l))).
    clear IH. generalize (vsum (map (fun q => rvscal m (gp_x q)) l)) (vsum (map (fun q => rvscal m (gp_v q)) l)). intros S T.
    unfold crossc, rvcross, rvsub, rvadd, rvscal. onk Hk; cbn [rx ry rz]; ring.
Qed.
Lemma cross_shift M X' V' X V k : In k comps ->
  M * crossc (rvsub X' X) (rvsub V' V) k = M * crossc X' V' k - crossc (rvscal M X') V k - crossc X (rvscal M V') k + M * crossc X V k.
Proof. intros Hk. unfold crossc, rvcross, rvsub, rvscal. onk Hk; simpl; ring. Qed.
Lemma cross_add_l a b c k : In k comps -> crossc (rvadd a b) c k = crossc a c k + crossc b c k.
Proof. intros Hk. unfold crossc, rvcross, rvadd. onk Hk; simpl; ring. Qed.
Lemma cross_add_r a b c k : In k comps -> crossc c (rvadd a b) k = crossc c a k + crossc c b k.
Proof. intros Hk. unfold crossc, rvcross, rvadd. onk Hk; simpl; ring. Qed.
Lemma cross_sub_l a b c k : In k comps -> crossc (rvsub a b) c k = crossc a c k - crossc b c k.
Proof. intros Hk. unfold crossc, rvcross, rvsub. onk Hk; simpl; ring. Qed.
Lemma cross_scal_l a b x k : In k comps -> crossc (rvscal x a) b k = x * crossc a b k.
Proof. intros Hk. unfold crossc, rvcross, rvscal. onk Hk; simpl; ring. Qed.
Lemma cross_scal_r a b x k : In k comps -> crossc a (rvscal x b) k = x * crossc a b k.
Proof. intros Hk. unfold crossc, rvcross, rvscal. onk Hk; simpl; ring. Qed.
Lemma cross_neg_r a b k : In k comps -> crossc a (rvneg b) k = - crossc a b k.
Proof. intros Hk. unfold crossc, rvcross, rvneg. onk Hk; simpl; ring. Qed.
Lemma cross_self a k : In k comps -> crossc a a k = 0.
Proof. intros Hk. unfold crossc, rvcross. onk Hk; simpl; ring. Qed.
Lemma cross_anti a b k : In k comps -> crossc a b k = - crossc b a k.
Proof. intros Hk. unfold crossc, rvcross. onk Hk; simpl; ring. Qed.
Lemma cross_zero_r a k : In k comps -> crossc a rvzero k = 0.
Proof. intros Hk. unfold crossc, rvcross. onk Hk; simpl; ring. Qed.
Lemma cross_vsum_r {A} a (g : A -> rv3) l k : In k comps -> crossc a (vsum (map g l)) k = Rsum (fun b => crossc a (g b) k) l.
Proof. intros Hk. induction l as [|b l IH]; [apply cross_zero_r; auto|]. cbn [map]. change (vsum (g b :: map g l)) with (rvadd (g b) (vsum (map g l))). rewrite cross_add_r, IH, Rsum_cons by auto. reflexivity. Qed.

Section NewL.
  Context (m dt : R) (MP : 0 < m) (l : list gpart) (s : sink) (SP : 0 < s_m s).
  Let s' := new_sink m dt l s.
  Lemma new_X : rvscal (s_m s') (s_x s') = rvadd (rvscal (s_m s) (s_x s)) (vsum (map (fun q => rvscal m (gp_x q)) l)).
  Proof. apply rv3_comps. intros k Hk. rewrite k_scal, k_add, k_scal, k_vsum, Rsum_map by auto. unfold s'. rewrite new_x by auto. f_equal. apply Rsum_ext. intros q _. now rewrite k_scal. Qed.
  Lemma new_V : rvscal (s_m s') (s_v s') = rvadd (rvscal (s_m s) (s_v s)) (vsum (map (fun q => rvscal m (gp_v q)) l)).
  Proof. apply rv3_comps. intros k Hk. rewrite k_scal, k_add, k_scal, k_vsum, Rsum_map by auto. unfold s'. rewrite new_v by auto. f_equal. apply Rsum_ext. intros q _. now rewrite k_scal. Qed.
  Lemma new_A : rvscal (s_m s') (s_asph s') = rvadd (rvscal (s_m s) (s_asph s)) (vsum (map (fun q => rvscal m (gp_a q)) l)).
  Proof. apply rv3_comps. intros k Hk. rewrite k_scal, k_add, k_scal, k_vsum, Rsum_map by auto. unfold s'. rewrite new_a by auto. f_equal. apply Rsum_ext. intros q _. now rewrite k_scal. Qed.
  Lemma new_J k : In k comps ->
    s_m s' * crossc (s_x s') (s_v s') k + k (s_l s') =
    s_m s * crossc (s_x s) (s_v s) k + k (s_l s) + Rsum (fun q => m * crossc (gp_x q) (gp_v q) k) l
    + dt / 2 * Rsum (fun q => m * crossc (rvsub (gp_x q) (s_x s)) (gp_a q) k) l.
  Proof.
    intros Hk. pose proof (new_l m dt l s k Hk) as E. fold s' in E. rewrite cross_expand, cross_shift in E by auto.
    rewrite new_X, new_V in E. rewrite cross_add_l, cross_add_r, cross_scal_l, cross_scal_r in E by auto.
    assert (M : s_m s' = s_m s + m * INR (length l)) by (unfold s'; now apply new_m). assert (Q : s_m s' * crossc (s_x s) (s_v s) k = (s_m s + m * INR (length l)) * crossc (s_x s) (s_v s) k) by (now rewrite M). lra.
  Qed.
  (** torque of the new sink *)
  Lemma new_T k : In k comps ->
    s_m s' * crossc (s_x s') (s_asph s') k =
    s_m s * crossc (s_x s) (s_asph s) k + Rsum (fun q => m * crossc (s_x s) (gp_a q) k) l + s_m s' * crossc (rvsub (s_x s') (s_x s)) (s_asph s') k.
  Proof.
    intros Hk. rewrite cross_sub_l by auto. assert (E : s_m s' * crossc (s_x s) (s_asph s') k = s_m s * crossc (s_x s) (s_asph s) k + Rsum (fun q => m * crossc (s_x s) (gp_a q) k) l).
    { rewrite <- cross_scal_r, new_A, cross_add_r, cross_scal_r, cross_vsum_r by auto. f_equal. apply Rsum_ext. intros q _. now apply cross_scal_r. }
    lra.
  Qed.
End NewL.

Section Cons.
  Context (m dt : R) (MP : 0 < m) (w : world) (sk sk' : sinks) (SO : sinks_ok sk) (SS : same_size (nsinks sk) sk').
  Let n := nsinks sk.
  Context (NS : forall j, (j < nsinks sk)%nat -> sink_at sk' j = new_sink m dt (taken sk j w) (sink_at sk j)).
  Let w' : world := map (map (filter (is_free sk))) w.
  Lemma sp j : (j < nsinks sk)%nat -> 0 < s_m (sink_at sk j).
  Proof. intros H. destruct SO. apply so_mpos, in_sinks. auto. Qed.
  Lemma sinks_new (f : sink -> R) : Rsum f (all_sinks sk') = Rsum (fun j => f (new_sink m dt (taken sk j w) (sink_at sk j))) (seq 0 n).
  Proof. rewrite (proj2 (all_sinks_eq sk sk' _ SS NS)). apply Rsum_map. Qed.
  Lemma new_ok : sinks_ok sk'.
  Proof.
    destruct (all_sinks_eq sk sk' _ SS NS) as [N AS]. pose proof SS as [P1 P2 P3 P4 P5 P6 P7]. pose proof SO as [Q1 Q2 Q3 Q4 Q5 Q6 Q7 Q8 Q9]. constructor; rewrite ?N; auto.
    - intros s Hs. rewrite AS in Hs. apply in_map_iff in Hs. destruct Hs as (j & <- & Hj). apply in_seq in Hj. rewrite new_m. apply mpos; auto. apply sp. lia.
    - intros s Hs. rewrite AS in Hs. apply in_map_iff in Hs. destruct Hs as (j & <- & Hj). apply in_seq in Hj. rewrite new_r. apply Q9, in_sinks. lia.
  Qed.
  Lemma transfer (f : gpart -> R) (g g' : sink -> R) :
    (forall j, (j < n)%nat -> g' (new_sink m dt (taken sk j w) (sink_at sk j)) = g (sink_at sk j) + Rsum f (taken sk j w)) ->
    Rsum f (gas w') + Rsum g' (all_sinks sk') = Rsum f (gas w) + Rsum g (all_sinks sk).
  Proof.
    intros H. rewrite sinks_new. unfold w'. rewrite gas_filter, (partition sk f w), all_sinks_sum.
    rewrite (Rsum_ext _ _ (fun j => g (sink_at sk j) + Rsum f (taken sk j w))) by (intros j Hj; apply in_seq in Hj; apply H; lia).
    rewrite Rsum_plus. fold n. ring.
  Qed.
  Lemma cons_mass : mass_total m w' sk' = mass_total m w sk.
  Proof.
    unfold mass_total. rewrite <- !Rsum_len. apply (transfer (fun _ => m)). intros j Hj. rewrite new_m, Rsum_len. reflexivity.
  Qed.
  Lemma cons_centre k : In k comps -> centre m k w' sk' = centre m k w sk.
  Proof. intros Hk. apply (transfer (fun q => m * k (gp_x q)) (fun s => s_m s * k (s_x s)) (fun s => s_m s * k (s_x s))). intros j Hj. apply new_x; auto. now apply sp. Qed.
  Lemma cons_momentum k : In k comps -> momentum m k w' sk' = momentum m k w sk.
  Proof. intros Hk. apply (transfer (fun q => m * k (gp_v q)) (fun s => s_m s * k (s_v s)) (fun s => s_m s * k (s_v s))). intros j Hj. apply new_v; auto. now apply sp. Qed.
  Lemma cons_force k : In k comps -> force_total m k w' sk' = force_total m k w sk.
  Proof. intros Hk. apply (transfer (fun q => m * k (gp_a q)) (fun s => s_m s * k (s_asph s)) (fun s => s_m s * k (s_asph s))). intros j Hj. apply new_a; auto. now apply sp. Qed.
  Definition capture_torque (k : rv3 -> R) : R :=
    Rsum (fun j => Rsum (fun q => m * crossc (rvsub (gp_x q) (s_x (sink_at sk j))) (gp_a q) k) (taken sk j w)) (seq 0 n).
  Definition shift_torque (k : rv3 -> R) : R :=
    Rsum (fun j => s_m (sink_at sk' j) * crossc (rvsub (s_x (sink_at sk' j)) (s_x (sink_at sk j))) (s_asph (sink_at sk' j)) k) (seq 0 n).
  Lemma cons_angular k : In k comps -> angular m k w' sk' = angular m k w sk + dt / 2 * capture_torque k.
  Proof.
    intros Hk. unfold angular, capture_torque.
    assert (E : forall j, (j < n)%nat -> (fun s => s_m s * crossc (s_x s) (s_v s) k + k (s_l s)) (new_sink m dt (taken sk j w) (sink_at sk j)) =
       (fun s => s_m s * crossc (s_x s) (s_v s) k + k (s_l s)) (sink_at sk j) + Rsum (fun q => m * crossc (gp_x q) (gp_v q) k) (taken sk j w)
       + dt / 2 * Rsum (fun q => m * crossc (rvsub (gp_x q) (s_x (sink_at sk j))) (gp_a q) k) (taken sk j w)).
    { intros j Hj. cbv beta. apply new_J; auto. now apply sp. }
    rewrite sinks_new. unfold w'. rewrite gas_filter, (partition sk (fun q => m * crossc (gp_x q) (gp_v q) k) w), all_sinks_sum.
    rewrite (Rsum_ext _ _ _ (seq 0 n) (fun j Hj => E j (proj2 (proj1 (in_seq n 0 j) Hj)))). cbv beta. rewrite !Rsum_plus, (Rsum_scal_l (A:=nat) _ (dt / 2)). fold n. ring.
  Qed.
  Lemma cons_torque k : In k comps -> torque_total m k w' sk' = torque_total m k w sk - capture_torque k + shift_torque k.
  Proof.
    intros Hk. unfold torque_total, capture_torque, shift_torque.
    assert (E : forall j, (j < n)%nat -> (fun s => s_m s * crossc (s_x s) (s_asph s) k) (new_sink m dt (taken sk j w) (sink_at sk j)) =
       (fun s => s_m s * crossc (s_x s) (s_asph s) k) (sink_at sk j) + Rsum (fun q => m * crossc (gp_x q) (gp_a q) k) (taken sk j w)
       + -1 * Rsum (fun q => m * crossc (rvsub (gp_x q) (s_x (sink_at sk j))) (gp_a q) k) (taken sk j w)
       + s_m (sink_at sk' j) * crossc (rvsub (s_x (sink_at sk' j)) (s_x (sink_at sk j))) (s_asph (sink_at sk' j)) k).
    { intros j Hj. cbv beta. rewrite (NS j Hj). rewrite (new_T m dt MP (taken sk j w) (sink_at sk j) (sp j Hj) k Hk).
      rewrite (Rsum_ext _ (fun q => m * crossc (rvsub (gp_x q) (s_x (sink_at sk j))) (gp_a q) k) (fun q => m * crossc (gp_x q) (gp_a q) k + -1 * (m * crossc (s_x (sink_at sk j)) (gp_a q) k)))
        by (intros q _; rewrite cross_sub_l by auto; ring).
      rewrite Rsum_plus, (Rsum_scal_l _ (-1)). ring. }
    rewrite sinks_new. unfold w'. rewrite gas_filter, (partition sk (fun q => m * crossc (gp_x q) (gp_a q) k) w), all_sinks_sum.
    rewrite (Rsum_ext _ _ _ (seq 0 n) (fun j Hj => E j (proj2 (proj1 (in_seq n 0 j) Hj)))). cbv beta. rewrite !Rsum_plus, (Rsum_scal_l (A:=nat) _ (-1)). fold n. ring.
  Qed.
End Cons.
