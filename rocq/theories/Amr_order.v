(** Proofs about the change of the AMR grid: blocks in Morton order are never merged *)
From Verif Require Import Base Par Scan_spec Bits Morton Morton_spec Morton_proofs Amr Amr_spec Amr_proofs Amr_lists Amr_geo.
From Coq Require Import ZArith NArith Lia.
Local Open Scope N_scope.

Lemma expand_lt x : expand_bits_64_2 x < 2 ^ 61.
Proof.
  apply lt_pow2_bits. intros i Hi. rewrite expand_64_2_bits. unfold g_expand. destruct (div3 i) as (E & L).
  destruct (N.eqb_spec (i mod 3) 0) as [A|A]; [|reflexivity]. destruct (N.ltb_spec (i / 3) 21) as [B|B]; [lia|reflexivity].
Qed.
Lemma expand_multiple q j : exists r, expand_bits_64_2 (q * 2 ^ j) = r * 8 ^ j.
Proof.
  exists (N.shiftr (expand_bits_64_2 (q * 2 ^ j)) (3 * j)).
  rewrite <- (N.shiftl_mul_pow2 q j). change 8 with (2 ^ 3). rewrite <- N.pow_mul_r, <- N.shiftl_mul_pow2. apply zero_low.
  intros k Hk. rewrite expand_64_2_bits. unfold g_expand. destruct (div3 k) as (E & L).
  destruct (N.eqb_spec (k mod 3) 0) as [A|A]; [|reflexivity]. destruct (N.ltb_spec (k / 3) 21) as [B|B]; [|reflexivity].
  cbn [andb obit]. apply N.shiftl_spec_low. lia.
Qed.
Lemma key_sum x y z : icoord_to_morton_64 x y z = 4 * expand_bits_64_2 x + 2 * expand_bits_64_2 y + expand_bits_64_2 z.
Proof.
  unfold icoord_to_morton_64. pose proof (expand_lt x) as A. pose proof (expand_lt y) as B. pose proof (expand_lt z) as C.
  revert A B C. generalize (expand_bits_64_2 x) (expand_bits_64_2 y) (expand_bits_64_2 z). intros a b c A B C.
  change (2 ^ 61) with 2305843009213693952 in *. change (2 ^ 64) with 18446744073709551616.
  rewrite (N.mod_small (a * 4)) by lia. rewrite (N.mod_small (b * 2)) by lia. rewrite (N.mod_small (a * 4 + b * 2)) by lia. rewrite N.mod_small by lia. lia.
Qed.

(** an octet in the order x, y, z cannot follow the Morton order z, y, x *)
Lemma not_mergeable scale corner st g : morton_order scale corner st -> Forall good st -> (g + 8 <= length st)%nat ->
  are_mergeable (eight st g) = true -> False.
Proof.
  intros (HS & HA & HO) HG HL M. unfold eight in M.
  set (bs := firstn 8 (skipn g st)) in *.
  assert (LB : length bs = 8%nat) by (unfold bs; rewrite firstn_length, skipn_length; lia).
  destruct (mergeable_octants bs LB) as (c & k3 & (A & B & C & E) & _); auto.
  { apply Forall_forall. intros b Hb. rewrite Forall_forall in HG. apply HG. unfold bs in Hb.
    assert (X : In b (skipn g st)). { rewrite <- (firstn_skipn 8 (skipn g st)). apply in_app_iff. now left. }
    rewrite <- (firstn_skipn g st). apply in_app_iff. now right. }
  assert (NT : forall i, (i < 8)%nat -> nth_error st (g + i) = nth_error bs i).
  { intros i Hi. unfold bs. rewrite <- (firstn_skipn g st) at 1. rewrite nth_error_app2 by (rewrite firstn_length; lia).
    rewrite firstn_length, Nat.min_l by lia. replace (g + i - g)%nat with i by lia. symmetry. rewrite <- (firstn_skipn 8 (skipn g st)) at 2.
    rewrite nth_error_app1; auto. rewrite firstn_length, skipn_length. lia. }
  destruct bs as [|b0 [|b1 bs']]; try discriminate LB. injection E as E0 E0' E1 E1' _. clear LB M.
  destruct (HO g b0 b1) as (j & J & K).
  { rewrite <- (Nat.add_0_r g) at 1. rewrite NT by lia. reflexivity. }
  { replace (S g) with (g + 1)%nat by lia. rewrite NT by lia. reflexivity. }
  destruct c as [[x y] z], k3 as [[a b] d]. unfold px, py, pz in A, B, C. cbn [fst snd] in A, B, C.
  pose proof (J px (or_introl eq_refl)) as JX. clear J HO HA HG NT.
  unfold morton_of in K. rewrite E0, E1 in K. rewrite E0, E0' in JX. clear E0 E0' E1 E1'.
  unfold sub_lo, plus3, zip3, px, py, pz in *. cbn [fst snd] in *. destruct corner as [[cx cy] cz]. cbn [fst snd] in *.
  destruct JX as (S1 & S2 & (q & S3) & S4). rewrite !Z.add_0_r in *. rewrite !key_sum in K.
  replace ((x + a - x) * scale)%Z with (a * scale)%Z in S1 by lia.
  assert (P2 : (0 < 2 ^ Z.of_N j)%Z) by (apply Z.pow_pos_nonneg; lia).
  assert (Q0 : (0 <= q)%Z) by nia.
  assert (G0 : to_grid scale cx x = Z.to_N q * 2 ^ j).
  { unfold to_grid. rewrite S3, Z2N.inj_mul, Z2N.inj_pow by lia. rewrite N2Z.id. reflexivity. }
  assert (G1 : to_grid scale cx (x + a) = (Z.to_N q + 1) * 2 ^ j).
  { unfold to_grid. replace ((x + a - cx) * scale)%Z with ((q + 1) * 2 ^ Z.of_N j)%Z by nia. rewrite Z2N.inj_mul, Z2N.inj_pow by lia. rewrite N2Z.id, Z2N.inj_add by lia. reflexivity. }
  rewrite G0, G1 in K. destruct (expand_multiple (Z.to_N q) j) as (r0 & R0). destruct (expand_multiple (Z.to_N q + 1) j) as (r1 & R1).
  rewrite R0, R1 in K. clear - K. assert (P8 : 0 < 8 ^ j) by (apply N.neq_0_lt_0, N.pow_nonzero; lia). revert K P8. generalize (8 ^ j) as m.
  generalize (expand_bits_64_2 (to_grid scale cy y)) (expand_bits_64_2 (to_grid scale cz z)). intros u v m K P8.
  assert (F : 4 * r1 * m = (4 * r0 + 1) * m) by lia. apply N.mul_cancel_r in F; lia.
Qed.
