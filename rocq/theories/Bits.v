(** Bit level facts on N used by several files (no model here). *)
From Coq Require Import List Arith NArith Lia Bool.
From Coq Require Import ZifyBool ZifyNat ZifyN.
Open Scope N_scope.

Lemma testbit_high a n i : a < 2 ^ n -> n <= i -> N.testbit a i = false.
Proof.
  intros H Hi. destruct (N.eq_dec a 0) as [->|]; [apply N.bits_0|]. apply N.bits_above_log2. apply N.lt_le_trans with n; auto.
  apply N.log2_lt_pow2; lia.
Qed.
Lemma lt_pow2_bits a n : (forall i, n <= i -> N.testbit a i = false) -> a < 2 ^ n.
Proof.
  intros H. destruct (N.lt_ge_cases a (2 ^ n)) as [|X]; auto. exfalso.
  assert (a <> 0) by (pose proof (N.pow_nonzero 2 n); lia).
  assert (n <= N.log2 a) by (apply N.log2_le_pow2; lia). pose proof (N.bit_log2 a H0) as E. rewrite H in E by auto. discriminate.
Qed.
Lemma shiftr_eq_bits a b n : N.shiftr a n = N.shiftr b n <-> forall i, n <= i -> N.testbit a i = N.testbit b i.
Proof.
  split.
  - intros E i Hi. replace i with ((i - n) + n) by lia. rewrite <- !N.shiftr_spec'. now rewrite E.
  - intros H. apply N.bits_inj. intros i. rewrite !N.shiftr_spec'. apply H. lia.
Qed.
Lemma add_disjoint a b : (forall i, N.testbit a i = true -> N.testbit b i = true -> False) -> a + b = N.lor a b.
Proof.
  intros H. assert (E : N.land a b = 0).
  { apply N.bits_inj. intros i. rewrite N.land_spec, N.bits_0. specialize (H i). destruct (N.testbit a i), (N.testbit b i); cbn; auto. destruct H; auto. }
  rewrite N.add_nocarry_lxor by auto. now apply N.lxor_lor.
Qed.
Lemma low_bits_lt a n : a mod 2 ^ n < 2 ^ n.
Proof. apply N.mod_lt. apply N.pow_nonzero. lia. Qed.

(** The order is decided by the highest differing bit. *)
Lemma lt_from_bit a b i : N.testbit a i = false -> N.testbit b i = true -> (forall j, i < j -> N.testbit a j = N.testbit b j) -> a < b.
Proof.
  intros Ha Hb H.
  assert (E : N.shiftr a (N.succ i) = N.shiftr b (N.succ i)) by (apply shiftr_eq_bits; intros; apply H; lia).
  assert (A : a < N.shiftr a (N.succ i) * 2 ^ N.succ i + 2 ^ i).
  { assert (X : N.testbit (a / 2 ^ i) 0 = false) by now rewrite <- N.shiftr_div_pow2, N.shiftr_spec'. 
    rewrite N.shiftr_div_pow2, N.pow_succ_r'. rewrite (N.mul_comm 2), <- N.div_div by (try apply N.pow_nonzero; lia).
    pose proof (N.div_mod a (2 ^ i) ltac:(apply N.pow_nonzero; lia)). pose proof (low_bits_lt a i).
    rewrite N.bit0_odd in X. rewrite <- N.negb_even in X. apply negb_false_iff in X. apply N.even_spec in X. destruct X as (q & Hq). rewrite Hq in *.
    rewrite (N.mul_comm 2 q), N.div_mul by lia. nia. }
  assert (B : N.shiftr b (N.succ i) * 2 ^ N.succ i + 2 ^ i <= b).
  { assert (X : N.testbit (b / 2 ^ i) 0 = true) by now rewrite <- N.shiftr_div_pow2, N.shiftr_spec'. 
    rewrite N.shiftr_div_pow2, N.pow_succ_r'. rewrite (N.mul_comm 2), <- N.div_div by (try apply N.pow_nonzero; lia).
    pose proof (N.div_mod b (2 ^ i) ltac:(apply N.pow_nonzero; lia)).
    rewrite N.bit0_odd in X. apply N.odd_spec in X. destruct X as (q & Hq). rewrite Hq in *.
    replace ((2 * q + 1) / 2) with q by (rewrite N.add_comm, N.mul_comm, N.div_add by lia; reflexivity). nia. }
  rewrite E in A. lia.
Qed.
Lemma highest_diff a b : a <> b -> exists i, N.testbit a i <> N.testbit b i /\ (forall j, i < j -> N.testbit a j = N.testbit b j) /\ i = N.log2 (N.lxor a b).
Proof.
  intros Hne. assert (X : N.lxor a b <> 0) by (intros E; apply N.lxor_eq in E; auto).
  exists (N.log2 (N.lxor a b)). split; [|split; auto].
  - pose proof (N.bit_log2 _ X) as E. rewrite N.lxor_spec in E. intros F. rewrite F, xorb_nilpotent in E. discriminate.
  - intros j Hj. pose proof (N.bits_above_log2 _ _ Hj) as E. rewrite N.lxor_spec in E. now destruct (N.testbit a j), (N.testbit b j).
Qed.
Lemma lt_bit a b : a < b -> exists i, N.testbit a i = false /\ N.testbit b i = true /\ (forall j, i < j -> N.testbit a j = N.testbit b j) /\ i = N.log2 (N.lxor a b).
Proof.
  intros H. destruct (highest_diff a b ltac:(lia)) as (i & D & U & E). exists i.
  destruct (N.testbit a i) eqn:Ea, (N.testbit b i) eqn:Eb; try congruence; auto.
  exfalso. assert (b < a) by (eapply lt_from_bit; eauto; intros; symmetry; auto). lia.
Qed.
Lemma block_iff q x a : (q * 2 ^ a <= x < q * 2 ^ a + 2 ^ a <-> N.shiftr x a = q).
Proof.
  rewrite N.shiftr_div_pow2. assert (P : 2 ^ a <> 0) by (apply N.pow_nonzero; lia).
  pose proof (N.div_mod x (2 ^ a) P). pose proof (low_bits_lt x a). split; intros; nia.
Qed.
