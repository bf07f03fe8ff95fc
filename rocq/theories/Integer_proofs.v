From Verif Require Import Base Integer.
From Coq Require Import ZifyBool ZifyNat ZifyN.
Local Open Scope N_scope.

Lemma pow2_pos w : 0 < 2 ^ w.
Proof. apply N.neq_0_lt_0, N.pow_nonzero; lia. Qed.

Lemma wpred_spec w v : 0 < v -> v < 2 ^ w -> wpred w v = v - 1.
Proof.
  intros H1 H2; unfold wpred.
  replace (v + (2 ^ w - 1)) with ((v - 1) + 1 * 2 ^ w) by (pose proof (pow2_pos w); lia).
  rewrite N.mod_add by (pose proof (pow2_pos w); lia).
  apply N.mod_small; lia.
Qed.

Lemma land_pred_pow2 v : 0 < v -> (N.land v (v - 1) = 0 <-> exists k, v = 2 ^ k).
Proof.
  intros Hv. set (k := N.log2 v).
  destruct (N.log2_spec v Hv) as [Hlo Hhi]. fold k in Hlo, Hhi.
  split.
  - intros H. exists k.
    destruct (N.eq_dec v (2 ^ k)) as [E|E]; auto. exfalso.
    assert (Hb : N.testbit (N.land v (v - 1)) k = true).
    { rewrite N.land_spec. apply andb_true_intro; split.
      - unfold k. apply N.bit_log2. lia.
      - assert (Hl : N.log2 (v - 1) = k).
        { apply N.log2_unique. lia. split; lia. }
        rewrite <- Hl. apply N.bit_log2. lia. }
    rewrite H in Hb. now rewrite N.bits_0 in Hb.
  - intros (j & ->). apply N.bits_inj_0; intros i. rewrite N.land_spec.
    rewrite N.pow2_bits_eqb. destruct (N.eqb_spec j i) as [->|]; auto. simpl.
    replace (2 ^ i - 1) with (N.ones i) by (rewrite N.ones_equiv; lia).
    apply N.ones_spec_high; lia.
Qed.

Lemma is_pow_of_two_spec w v : v < 2 ^ w ->
  (is_pow_of_two w v = true <-> exists k, v = 2 ^ k).
Proof.
  intros Hw. unfold is_pow_of_two.
  destruct (N.eqb_spec v 0) as [->|Hz].
  - simpl. split; [discriminate|]. intros (k & E). pose proof (pow2_pos k); lia.
  - assert (Hv : 0 < v) by lia. simpl. rewrite negb_involutive.
    rewrite wpred_spec by lia. rewrite N.eqb_eq. apply land_pred_pow2; lia.
Qed.

Lemma is_pow_of_two_fast_spec w v : v < 2 ^ w ->
  (is_pow_of_two_fast w v = true <-> (v = 0 \/ exists k, v = 2 ^ k)).
Proof.
  intros Hw. unfold is_pow_of_two_fast. rewrite N.eqb_eq.
  destruct (N.eq_dec v 0) as [->|Hz].
  - rewrite N.land_0_l. tauto.
  - rewrite wpred_spec by lia. rewrite land_pred_pow2 by lia.
    split; [auto|intros [?|?]; [lia|auto]].
Qed.

(* window of [k] bits above i *)
Definition window (m : N) (k : N) (x : N) : Prop :=
  forall i, N.testbit x i = true <-> exists d, d < k /\ N.testbit m (i + d) = true.

Lemma window_1 m : window m 1 m.
Proof.
  intros i; split.
  - intros H; exists 0; rewrite N.add_0_r; split; [lia|auto].
  - intros (d & Hd & H). replace (i + d) with i in H by lia. auto.
Qed.

Lemma window_smear m k x s : s <= k -> window m k x -> window m (k + s) (smear x s).
Proof.
  intros Hs W i. unfold smear. rewrite N.lor_spec, N.shiftr_spec', orb_true_iff.
  rewrite (W i), (W (i + s)). split.
  - intros [(d & Hd & H)|(d & Hd & H)].
    + exists d; split; [lia|auto].
    + exists (s + d); split; [lia|]. now rewrite N.add_assoc.
  - intros (d & Hd & H). destruct (N.lt_ge_cases d k) as [Hk|Hk].
    + left; exists d; auto.
    + right. exists (d - s). split; [lia|]. now replace (i + s + (d - s)) with (i + d) by lia.
Qed.

Lemma window_full m w x : 0 < m -> m < 2 ^ w -> window m w x -> x = 2 ^ (N.log2 m + 1) - 1.
Proof.
  intros Hm Hw W.
  replace (2 ^ (N.log2 m + 1) - 1) with (N.ones (N.log2 m + 1)) by (rewrite N.ones_equiv; lia).
  apply N.bits_inj_iff; intros i. apply eq_true_iff_eq. rewrite (W i).
  assert (Hl : N.log2 m < w) by (apply N.log2_lt_pow2; auto).
  split.
  - intros (d & Hd & H).
    apply N.ones_spec_low.
    destruct (N.lt_ge_cases (N.log2 m) (i + d)) as [Hk|Hk]; [|lia].
    rewrite N.bits_above_log2 in H by auto. discriminate.
  - intros H. apply N.ones_spec_iff in H.
    exists (N.log2 m - i). split; [lia|].
    replace (i + (N.log2 m - i)) with (N.log2 m) by lia.
    apply N.bit_log2; lia.
Qed.

Lemma smear_0 s : smear 0 s = 0.
Proof. unfold smear. rewrite N.shiftr_0_l. reflexivity. Qed.

Lemma next_pow2_least v : 1 < v ->
  v <= 2 ^ (N.log2 (v - 1) + 1) /\ (forall k, v <= 2 ^ k -> 2 ^ (N.log2 (v - 1) + 1) <= 2 ^ k).
Proof.
  intros Hv. destruct (N.log2_spec (v - 1)) as [H1 H2]; [lia|].
  rewrite <- N.add_1_r in H2.
  split; [lia|].
  intros k Hk. apply N.pow_le_mono_r; [lia|].
  destruct (N.lt_ge_cases (N.log2 (v - 1)) k); [lia|].
  exfalso. pose proof (N.pow_le_mono_r 2 k (N.log2 (v-1))). lia.
Qed.

Lemma roundup_pow2_32_spec v : 1 <= v -> v <= 2 ^ 31 ->
  (exists k, roundup_pow2_32 v = 2 ^ k) /\ v <= roundup_pow2_32 v /\
  (forall k, v <= 2 ^ k -> roundup_pow2_32 v <= 2 ^ k).
Proof.
  intros H1 H2. unfold roundup_pow2_32.
  assert (P31 : 2 ^ 31 = 2147483648) by reflexivity.
  assert (P32 : 2 ^ 32 = 4294967296) by reflexivity.
  rewrite wpred_spec by lia.
  destruct (N.eq_dec v 1) as [->|Hne].
  - change (1 - 1) with 0. rewrite !smear_0.
    change (wsucc 32 0) with (2 ^ 0). split; [exists 0; auto|]. split; [reflexivity|].
    intros k _. apply N.pow_le_mono_r; lia.
  - set (m := v - 1).
    assert (W : window m 32 (smear (smear (smear (smear (smear m 1) 2) 4) 8) 16)).
    { change 32 with (1 + 1 + 2 + 4 + 8 + 16).
      repeat (apply window_smear; [lia|]). apply window_1. }
    assert (Hm : m < 2 ^ 31) by lia.
    rewrite (window_full m 32 _ ltac:(lia) ltac:(lia) W).
    assert (Hl : N.log2 m < 31) by (apply N.log2_lt_pow2; lia).
    assert (Hp : 2 ^ (N.log2 m + 1) <= 2 ^ 31) by (apply N.pow_le_mono_r; lia).
    pose proof (pow2_pos (N.log2 m + 1)) as Hpos.
    unfold wsucc. replace (2 ^ (N.log2 m + 1) - 1 + 1) with (2 ^ (N.log2 m + 1)) by lia.
    rewrite N.mod_small by lia.
    split; [eauto|]. apply next_pow2_least; lia.
Qed.

Lemma roundup_pow2_64_spec v : 1 <= v -> v <= 2 ^ 63 ->
  (exists k, roundup_pow2_64 v = 2 ^ k) /\ v <= roundup_pow2_64 v /\
  (forall k, v <= 2 ^ k -> roundup_pow2_64 v <= 2 ^ k).
Proof.
  intros H1 H2. unfold roundup_pow2_64.
  assert (P31 : 2 ^ 63 = 9223372036854775808) by reflexivity.
  assert (P32 : 2 ^ 64 = 18446744073709551616) by reflexivity.
  rewrite wpred_spec by lia.
  destruct (N.eq_dec v 1) as [->|Hne].
  - change (1 - 1) with 0. rewrite !smear_0.
    change (wsucc 64 0) with (2^0). split; [exists 0; auto|]. split; [reflexivity|].
    intros k _. apply N.pow_le_mono_r; lia.
  - set (m := v - 1).
    assert (W : window m 64 (smear (smear (smear (smear (smear (smear m 1) 2) 4) 8) 16) 32)).
    { change 64 with (1 + 1 + 2 + 4 + 8 + 16 + 32).
      repeat (apply window_smear; [lia|]). apply window_1. }
    assert (Hm : m < 2 ^ 63) by lia.
    rewrite (window_full m 64 _ ltac:(lia) ltac:(lia) W).
    assert (Hl : N.log2 m < 63) by (apply N.log2_lt_pow2; lia).
    assert (Hp : 2 ^ (N.log2 m + 1) <= 2 ^ 63) by (apply N.pow_le_mono_r; lia).
    pose proof (pow2_pos (N.log2 m + 1)) as Hpos.
    unfold wsucc. replace (2 ^ (N.log2 m + 1) - 1 + 1) with (2 ^ (N.log2 m + 1)) by lia.
    rewrite N.mod_small by lia.
    split; [eauto|]. apply next_pow2_least; lia.
Qed.

Lemma group_count_spec len g : 0 < g -> len + g - 1 < 2 ^ 32 ->
  exists c, group_count len g = Ok c /\ len <= c * g /\ (forall c', len <= c' * g -> c <= c').
Proof.
  intros Hg Hw. unfold group_count.
  assert (P32 : 2 ^ 32 = 4294967296) by reflexivity.
  destruct (N.eqb_spec g 0); [lia|].
  eexists; split; [reflexivity|].
  replace (len + g + (2 ^ 32 - 1)) with ((len + g - 1) + 1 * 2 ^ 32) by lia.
  rewrite N.mod_add by lia. rewrite N.mod_small by lia.
  set (q := (len + g - 1) / g).
  pose proof (N.div_mod (len + g - 1) g) as Hdm. fold q in Hdm.
  pose proof (N.mod_upper_bound (len + g - 1) g) as Hub.
  assert (Hdm' := Hdm ltac:(lia)). assert (Hub' := Hub ltac:(lia)).
  split; [nia|]. intros c' Hc'.
  destruct (N.lt_ge_cases c' q); [|lia].
  assert (c' + 1 <= q) by lia. nia.
Qed.

Lemma group_count_zero len : group_count len 0 = UB.
Proof. reflexivity. Qed.

Lemma select_bit_spec w v b : b < w -> select_bit w v b = Ok (N.b2n (N.testbit v b)).
Proof.
  intros H; unfold select_bit. destruct (N.ltb_spec b w); [|lia]. f_equal.
  rewrite N.testbit_spec'.
  change 1 with (N.ones 1). rewrite N.land_ones. now rewrite N.shiftr_div_pow2.
Qed.

Lemma is_most_sig_bit_set_spec w x : 0 < w -> x < 2 ^ w ->
  (is_most_sig_bit_set w x = true <-> 2 ^ (w - 1) <= x).
Proof.
  intros Hw Hx. unfold is_most_sig_bit_set, most_sig_bit_mask.
  rewrite N.shiftl_1_l, N.mod_small.
  2:{ apply N.pow_lt_mono_r; lia. }
  rewrite negb_true_iff, N.eqb_neq.
  assert (E : N.land x (2 ^ (w - 1)) = 0 <-> N.testbit x (w - 1) = false).
  { split.
    - intros H. assert (Hb := f_equal (fun n => N.testbit n (w - 1)) H). cbv beta in Hb.
      rewrite N.land_spec, N.pow2_bits_true, N.bits_0, andb_true_r in Hb. auto.
    - intros H. apply N.bits_inj_0; intros i. rewrite N.land_spec, N.pow2_bits_eqb.
      destruct (N.eqb_spec (w - 1) i); subst; [now rewrite H|]. now rewrite andb_false_r. }
  rewrite E, not_false_iff_true. split; intros H.
  - destruct (N.lt_ge_cases x (2 ^ (w - 1))) as [Hlt|]; auto.
    exfalso. destruct (N.eq_dec x 0) as [->|Hz]; [now rewrite N.bits_0 in H|].
    rewrite N.bits_above_log2 in H; [discriminate|].
    apply N.log2_lt_pow2; lia.
  - assert (Hl : N.log2 x = w - 1).
    { apply N.log2_unique; [lia|]. split; [auto|].
      replace (N.succ (w - 1)) with w by lia. auto. }
    rewrite <- Hl. apply N.bit_log2. pose proof (pow2_pos (w - 1)); lia.
Qed.

(** ** pow_constexpr *)
Lemma pow_constexpr_spec f power a :
  (0 <= power < 2 ^ Z.of_nat f)%Z -> pow_constexpr (S f) power a = Ok (a ^ power)%Z.
Proof.
  revert power a; induction f as [|f IH]; intros power a Hp.
  { simpl in Hp. replace power with 0%Z by lia. reflexivity. }
  remember (S f) as sf. cbn [pow_constexpr]. subst sf.
  destruct (Z.eqb_spec power 0) as [->|Hz]; [reflexivity|].
  rewrite Z.rem_mod_nonneg by lia.
  rewrite Nat2Z.inj_succ, Z.pow_succ_r in Hp by lia.
  pose proof (Z.div_mod power 2 ltac:(lia)) as Hdm.
  pose proof (Z.mod_pos_bound power 2 ltac:(lia)) as Hmb.
  destruct (Z.eqb_spec (power mod 2) 0) as [He|He].
  - rewrite Z.quot_div_nonneg by lia. rewrite IH by lia. simpl. f_equal.
    rewrite Hdm at 3. rewrite He, Z.add_0_r.
    replace (2 * (power / 2))%Z with (power / 2 + power / 2)%Z by lia.
    rewrite Z.pow_add_r by lia. reflexivity.
  - destruct (Z.eqb_spec (power mod 2) 1) as [Ho|Ho]; [|lia].
    rewrite Z.quot_div_nonneg by lia.
    replace ((power - 1) / 2)%Z with (power / 2)%Z
      by (apply Z.div_unique with (r := 0%Z); lia).
    rewrite IH by lia. simpl. f_equal.
    rewrite Hdm at 3. rewrite Ho.
    replace (2 * (power / 2) + 1)%Z with (power / 2 + power / 2 + 1)%Z by lia.
    rewrite !Z.pow_add_r by lia. ring.
Qed.

Lemma pow_constexpr_neg f power a : (power < 0)%Z -> pow_constexpr f power a = UB.
Proof.
  revert power a; induction f as [|f IH]; intros power a Hp; [reflexivity|].
  cbn [pow_constexpr]. destruct (Z.eqb_spec power 0); [lia|].
  pose proof (Z.quot_rem power 2 ltac:(lia)) as Hqr.
  pose proof (Z.rem_nonpos power 2 ltac:(lia) ltac:(lia)) as Hb.
  destruct (Z.eqb_spec (Z.rem power 2) 0) as [He|He].
  - rewrite IH by lia. reflexivity.
  - destruct (Z.eqb_spec (Z.rem power 2) 1); [lia|reflexivity].
Qed.

(** ** endian swap *)
Local Open Scope nat_scope.

Lemma xor_swap_cells_spec mem i j :
  i < length mem -> j < length mem -> i <> j ->
  xor_swap_cells mem i j = Ok (upd (upd mem i (nth j mem 0%N)) j (nth i mem 0%N)).
Proof.
  intros Hi Hj Hij. unfold xor_swap_cells.
  rewrite (aget_lt mem i 0%N), (aget_lt mem j 0%N) by auto. cbn [rbind].
  rewrite aset_lt by auto. cbn [rbind].
  rewrite !(aget_lt _ _ 0%N) by (rewrite ?length_upd; auto). cbn [rbind].
  rewrite nth_upd_eq by auto. rewrite nth_upd_neq by auto.
  rewrite aset_lt by (rewrite ?length_upd; auto). cbn [rbind].
  rewrite !(aget_lt _ _ 0%N) by (rewrite ?length_upd; auto). cbn [rbind].
  rewrite (nth_upd_neq _ j i) by auto. rewrite nth_upd_eq by auto.
  rewrite nth_upd_eq by (rewrite ?length_upd; auto).
  rewrite aset_lt by (rewrite ?length_upd; auto). f_equal.
  set (a := nth i mem 0%N). set (b := nth j mem 0%N).
  apply list_eq_nth_error; intros k.
  assert (E1 : N.lxor b (N.lxor a b) = a).
  { rewrite (N.lxor_comm a b), <- N.lxor_assoc, N.lxor_nilpotent. apply N.lxor_0_l. }
  rewrite E1.
  assert (E2 : N.lxor (N.lxor a b) a = b).
  { rewrite (N.lxor_comm a b), N.lxor_assoc, N.lxor_nilpotent. apply N.lxor_0_r. }
  rewrite E2.
  destruct (Nat.eq_dec k i) as [->|Hki].
  - rewrite nth_error_upd_eq by (rewrite ?length_upd; auto).
    rewrite nth_error_upd_neq by auto. rewrite nth_error_upd_eq by auto. auto.
  - rewrite (nth_error_upd_neq _ i k) by auto.
    destruct (Nat.eq_dec k j) as [->|Hkj].
    + rewrite !nth_error_upd_eq by (rewrite ?length_upd; auto). auto.
    + rewrite !(nth_error_upd_neq _ j k) by auto. rewrite !nth_error_upd_neq by auto. auto.
Qed.

Definition partial_rev (bytes : list N) (k : nat) (m : list N) : Prop :=
  length m = length bytes /\
  forall i, i < length bytes ->
    nth i m 0%N =
    (if (i <? k) || (length bytes - 1 - k <? i)
     then nth (length bytes - 1 - i) bytes 0%N else nth i bytes 0%N).

Lemma endian_steps_le sz : 2 * endian_steps sz <= sz /\ sz <= 2 * endian_steps sz + 1.
Proof.
  unfold endian_steps. destruct (Nat.even sz) eqn:E.
  - apply Nat.even_spec in E. destruct E as [k ->].
    assert (E2 : 2 * k / 2 = k) by (rewrite Nat.mul_comm; apply Nat.div_mul; lia). lia.
  - assert (O : Nat.odd sz = true) by (unfold Nat.odd; now rewrite E).
    apply Nat.odd_spec in O. destruct O as [k ->].
    assert (E2 : (2 * k + 1 - 1) / 2 = k) by (replace (2 * k + 1 - 1) with (k * 2) by lia; apply Nat.div_mul; lia). lia.
Qed.

Lemma endian_loop bytes n s m :
  2 * (s + n) <= length bytes -> partial_rev bytes s m ->
  exists m', rfold (fun i mem => xor_swap_cells mem i (length bytes - 1 - i)) (seq s n) m = Ok m'
             /\ partial_rev bytes (s + n) m'.
Proof.
  revert s m; induction n as [|n IH]; intros s m Hn Hm; cbn [seq rfold].
  { exists m; rewrite Nat.add_0_r; auto. }
  destruct Hm as [HL HP].
  rewrite xor_swap_cells_spec by lia. cbn [rbind].
  replace (s + S n) with (S s + n) by lia.
  apply IH; [lia|]. split; [now rewrite !length_upd|].
  intros i Hi. set (L := length bytes) in *.
  pose proof (HP s ltac:(lia)) as Hs. pose proof (HP (L - 1 - s) ltac:(lia)) as Hr.
  replace (s <? s) with false in Hs by (symmetry; apply Nat.ltb_ge; lia).
  replace (L - 1 - s <? s) with false in Hs by (symmetry; apply Nat.ltb_ge; lia).
  cbn [orb] in Hs.
  replace (L - 1 - s <? s) with false in Hr by (symmetry; apply Nat.ltb_ge; lia).
  rewrite Nat.ltb_irrefl in Hr. cbn [orb] in Hr.
  destruct (Nat.eq_dec i (L - 1 - s)) as [->|Hne1].
  - rewrite nth_upd_eq by (rewrite length_upd; lia). rewrite Hs.
    replace (L - 1 - S s <? L - 1 - s) with true by (symmetry; apply Nat.ltb_lt; lia).
    rewrite orb_true_r. f_equal; lia.
  - rewrite nth_upd_neq by auto.
    destruct (Nat.eq_dec i s) as [->|Hne2].
    + rewrite nth_upd_eq by lia. rewrite Hr.
      replace (s <? S s) with true by (symmetry; apply Nat.ltb_lt; lia). auto.
    + rewrite nth_upd_neq by auto. rewrite HP by auto.
      replace (i <? S s) with (i <? s).
      2:{ destruct (Nat.ltb_spec i s), (Nat.ltb_spec i (S s)); auto; lia. }
      replace (L - 1 - S s <? i) with (L - 1 - s <? i); auto.
      destruct (Nat.ltb_spec (L - 1 - s) i), (Nat.ltb_spec (L - 1 - S s) i); auto; lia.
Qed.

Lemma endian_swap_rev bytes : endian_swap bytes = Ok (rev bytes).
Proof.
  unfold endian_swap. pose proof (endian_steps_le (length bytes)) as [H1 H2].
  destruct (endian_loop bytes (endian_steps (length bytes)) 0 bytes) as (m & E & HL & HP).
  { lia. }
  { split; auto. intros i Hi. simpl.
    replace (length bytes - 1 - 0 <? i) with false by (symmetry; apply Nat.ltb_ge; lia). auto. }
  rewrite E. f_equal. apply (list_eq_nth 0%N); [now rewrite rev_length|].
  intros i Hi. rewrite HL in Hi. rewrite HP by auto. rewrite rev_nth by auto.
  replace (length bytes - S i) with (length bytes - 1 - i) by lia.
  simpl. set (e := endian_steps (length bytes)) in *.
  destruct (Nat.ltb_spec i e); auto.
  destruct (Nat.ltb_spec (length bytes - 1 - e) i); auto.
  simpl. f_equal. lia.
Qed.

(** ** narrowing *)
Local Open Scope Z_scope.
Definition in_type (t : itype) (v : Z) : Prop := it_min t <= v <= it_max t.

Lemma pow2_half w : 0 < w -> 2 ^ w = 2 * 2 ^ (w - 1).
Proof. intros; replace w with (Z.succ (w - 1)) at 1 by lia. rewrite Z.pow_succ_r; lia. Qed.

Lemma it_cast_id t v : 0 < it_width t -> in_type t v -> it_cast t v = v.
Proof.
  intros Hw [H1 H2]. unfold it_cast, it_min, it_max in *.
  pose proof (pow2_half _ Hw) as Hp.
  pose proof (Z.pow_pos_nonneg 2 (it_width t - 1) ltac:(lia) ltac:(lia)) as Hpos.
  destruct (it_signed t).
  - destruct (Z.le_gt_cases 0 v).
    + rewrite Z.mod_small by lia. destruct (Z.ltb_spec v (2 ^ (it_width t - 1))); lia.
    + assert (E : v mod 2 ^ it_width t = v + 2 ^ it_width t).
      { symmetry. apply Z.mod_unique with (q := -1); lia. }
      rewrite E. destruct (Z.ltb_spec (v + 2 ^ it_width t) (2 ^ (it_width t - 1))); lia.
  - apply Z.mod_small; lia.
Qed.

Lemma can_narrow_spec U T v : 0 < it_width U -> 0 < it_width T -> in_type T v ->
  (can_narrow U T v = true <-> in_type U v).
Proof.
  intros HU HT [H1 H2]. unfold can_narrow, in_type, it_min, it_max, cast_unsigned in *.
  pose proof (pow2_half _ HU) as HpU. pose proof (pow2_half _ HT) as HpT.
  pose proof (Z.pow_pos_nonneg 2 (it_width U - 1) ltac:(lia) ltac:(lia)) as HposU.
  pose proof (Z.pow_pos_nonneg 2 (it_width T - 1) ltac:(lia) ltac:(lia)) as HposT.
  destruct (it_signed T), (it_signed U).
  - lia.
  - rewrite andb_true_iff, !Z.leb_le. split.
    + intros [Ha Hb]. rewrite Z.mod_small in Hb by lia. lia.
    + intros [Ha Hb]. split; auto. rewrite Z.mod_small by lia. lia.
  - rewrite Z.leb_le. rewrite Z.mod_small by lia. lia.
  - rewrite Z.leb_le. lia.
Qed.

Lemma narrow_or_throw_spec U T v : 0 < it_width U -> 0 < it_width T -> in_type T v ->
  (in_type U v -> narrow_or_throw U T v = Ok v) /\
  (~ in_type U v -> narrow_or_throw U T v = Throw).
Proof.
  intros HU HT HT'. unfold narrow_or_throw. pose proof (can_narrow_spec U T v HU HT HT') as H.
  split; intros Hi.
  - replace (can_narrow U T v) with true by (symmetry; tauto). now rewrite it_cast_id.
  - destruct (can_narrow U T v); [tauto|auto].
Qed.

Local Open Scope N_scope.
Lemma roundup_pow2_clz_spec (v : N) : 1 <= v -> v <= 2 ^ 31 ->
  exists r, roundup_pow2_clz 32 v = Ok r /\ (exists k, r = 2 ^ k /\ k <= 31) /\ v <= r /\ forall k, v <= 2 ^ k -> r <= 2 ^ k.
Proof.
  intros H1 H2. unfold roundup_pow2_clz. change (32 - 1) with 31. destruct (N.ltb_spec (2 ^ 31) v); [lia|].
  assert (Hv : v < 2 ^ 32) by (change (2 ^ 32) with (2 * 2 ^ 31); lia).
  destruct (is_pow_of_two 32 v) eqn:E.
  - apply (is_pow_of_two_spec 32) in E as (k & ->); auto. exists (2 ^ k). split; auto. split; [|split; auto; lia].
    exists k. split; auto. apply N.pow_le_mono_r_iff in H2; lia.
  - assert (HN : forall k, v <> 2 ^ k) by (intros k Ek; assert (is_pow_of_two 32 v = true) by (apply is_pow_of_two_spec; eauto); congruence).
    assert (Hs : N.size v = N.log2 v + 1) by (rewrite N.size_log2; lia).
    assert (Hl : N.log2 v < 31).
    { apply N.log2_lt_pow2; [lia|]. specialize (HN 31). lia. }
    rewrite Hs. replace (32 - (32 - (N.log2 v + 1))) with (N.log2 v + 1) by lia.
    destruct (N.ltb_spec (N.log2 v + 1) 32); [|lia].
    assert (2 ^ (N.log2 v + 1) < 2 ^ 32) by (apply N.pow_lt_mono_r; lia). rewrite N.mod_small by auto.
    exists (2 ^ (N.log2 v + 1)). split; auto. split; [exists (N.log2 v + 1); split; auto; lia|].
    pose proof (N.log2_spec v ltac:(lia)) as (L1 & L2). replace (N.succ (N.log2 v)) with (N.log2 v + 1) in L2 by lia. split; [lia|].
    intros k Hk. apply N.pow_le_mono_r; [lia|]. assert (N.log2 v < k); [|lia].
    specialize (HN k). apply N.log2_lt_pow2; lia.
Qed.
