From Verif Require Import Base Bits Morton.
From Coq Require Import ZifyBool ZifyNat ZifyN.
Open Scope N_scope.

(** Symbolic evaluation of the bit tricks: bit i of y is the disjunction of the bits f i of x. *)
Definition rep (x y : N) (f : N -> list N) : Prop := forall i, N.testbit y i = existsb (N.testbit x) (f i).

Lemma rep_id x : rep x x (fun i => [i]).
Proof. intros i. cbn. now rewrite orb_false_r. Qed.
Lemma rep_land x y f m : rep x y f -> rep x (N.land y m) (fun i => if N.testbit m i then f i else []).
Proof. intros R i. rewrite N.land_spec, R. destruct (N.testbit m i); cbn; [now rewrite andb_true_r|now rewrite andb_false_r]. Qed.
Lemma rep_shiftr x y f s : rep x y f -> rep x (N.shiftr y s) (fun i => f (i + s)).
Proof. intros R i. now rewrite N.shiftr_spec', R. Qed.
Lemma rep_gather x y f s m : rep x y f -> rep x (gather s m y) (fun i => if N.testbit m i then f i ++ f (i + s) else []).
Proof.
  intros R i. unfold gather. rewrite N.land_spec, N.lor_spec, N.shiftr_spec', !R. destruct (N.testbit m i); cbn.
  - now rewrite existsb_app, andb_true_r.
  - now rewrite andb_false_r.
Qed.
Lemma rep_spread x y f w s m : rep x y f -> m < 2 ^ w ->
  rep x (spread w s m y) (fun i => if N.testbit m i then f i ++ (if s <=? i then f (i - s) else []) else []).
Proof.
  intros R Hm i. unfold spread, shl. rewrite N.land_spec, N.lor_spec. destruct (N.testbit m i) eqn:E; cbn; [|now rewrite andb_false_r].
  assert (i < w). { destruct (N.lt_ge_cases i w) as [|H]; auto. exfalso.
    destruct (N.eq_dec m 0) as [->|]; [now rewrite N.bits_0 in E|]. rewrite N.bits_above_log2 in E; [discriminate|].
    apply N.lt_le_trans with w; auto. apply N.log2_lt_pow2; lia. }
  rewrite N.mod_pow2_bits_low, existsb_app, andb_true_r, R by auto. f_equal. destruct (N.leb_spec s i) as [H1|H1].
  - now rewrite N.shiftl_spec_high', R by auto.
  - now rewrite N.shiftl_spec_low by auto.
Qed.

(** [check n f g]: below n the symbolic bits are the expected ones. *)
Definition checkb (f : N -> list N) (g : N -> option N) (i : N) : bool :=
  match g i with
  | Some j => match f i with [] => false | l => forallb (N.eqb j) l end
  | None => match f i with [] => true | _ => false end
  end.
Definition check (n : nat) f g : bool := forallb (fun i => checkb f g (N.of_nat i)) (seq 0 n).
Definition obit (x : N) (o : option N) : bool := match o with Some j => N.testbit x j | None => false end.
Lemma existsb_same p l (j : N) : l <> [] -> forallb (N.eqb j) l = true -> existsb p l = p j.
Proof.
  intros Hn H. induction l as [|a l IH]; [congruence|]. cbn in *. apply andb_true_iff in H. destruct H as (H & H'). apply N.eqb_eq in H. subst a.
  destruct l as [|b l]; [cbn; apply orb_false_r|]. rewrite IH by (auto; congruence). apply orb_diag.
Qed.
Lemma check_ok n x y f g : rep x y f -> check n f g = true -> forall i, i < N.of_nat n -> N.testbit y i = obit x (g i).
Proof.
  intros R C i Hi. rewrite R. unfold check in C. rewrite forallb_forall in C.
  specialize (C (N.to_nat i)). rewrite N2Nat.id in C. assert (Hin : In (N.to_nat i) (seq 0 n)) by (apply in_seq; lia). apply C in Hin.
  unfold checkb in Hin. destruct (g i) as [j|]; cbn [obit].
  - destruct (f i) as [|a l] eqn:E; [discriminate|]. rewrite <- E in *. apply existsb_same; auto. rewrite E; congruence.
  - destruct (f i); [reflexivity|discriminate].
Qed.
Lemma land_le_r a m : N.land a m <= m.
Proof. 
  assert (H : m = N.lor (N.land a m) (N.ldiff m a)).
  { apply N.bits_inj. intros i. rewrite N.lor_spec, N.land_spec, N.ldiff_spec. destruct (N.testbit a i), (N.testbit m i); reflexivity. }
  rewrite H at 2. rewrite <- N.lxor_lor.
  - rewrite <- N.add_nocarry_lxor; [lia|]. apply N.bits_inj. intros i. rewrite !N.land_spec, N.ldiff_spec, N.bits_0. destruct (N.testbit a i), (N.testbit m i); reflexivity.
  - apply N.bits_inj. intros i. rewrite !N.land_spec, N.ldiff_spec, N.bits_0. destruct (N.testbit a i), (N.testbit m i); reflexivity.
Qed.

Definition g_expand (k n : N) (i : N) : option N := if (i mod k =? 0) && (i / k <? n) then Some (i / k) else None.
Definition g_contract (n k o : N) (i : N) : option N := if i <? n then Some (k * i + o) else None.

Ltac chk := match goal with |- check _ _ _ = true => vm_compute; reflexivity end.
Ltac finish n R := 
  let i := fresh in let H := fresh in
  intros i; destruct (N.lt_ge_cases i (N.of_nat n)) as [H|H]; [refine (check_ok n _ _ _ _ R _ i H); vm_compute; reflexivity|].

Lemma expand_64_2_bits x i : N.testbit (expand_bits_64_2 x) i = obit x (g_expand 3 21 i).
Proof.
  destruct (N.lt_ge_cases i (N.of_nat 64)) as [H|H].
  - unfold expand_bits_64_2. eapply (check_ok 64); [repeat (apply rep_spread; [|reflexivity]); apply rep_land, rep_id|vm_compute; reflexivity|exact H].
  - rewrite (testbit_high _ 64); [|apply N.le_lt_trans with 0x1249249249249249; [apply land_le_r|reflexivity]|exact H].
    unfold g_expand. destruct (N.ltb_spec (i / 3) 21) as [X|X]; [|now rewrite andb_false_r].
    exfalso. apply N.div_lt_upper_bound in X || idtac. pose proof (N.div_mod i 3 ltac:(lia)). pose proof (N.mod_lt i 3 ltac:(lia)). lia.
Qed.
Lemma expand_32_2_bits x i : N.testbit (expand_bits_32_2 x) i = obit x (g_expand 3 10 i).
Proof.
  destruct (N.lt_ge_cases i (N.of_nat 32)) as [H|H].
  - unfold expand_bits_32_2. eapply (check_ok 32); [repeat (apply rep_spread; [|reflexivity]); apply rep_land, rep_id|vm_compute; reflexivity|exact H].
  - rewrite (testbit_high _ 32); [|apply N.le_lt_trans with 0x9249249; [apply land_le_r|reflexivity]|exact H].
    unfold g_expand. destruct (N.ltb_spec (i / 3) 10) as [X|X]; [|now rewrite andb_false_r].
    exfalso. pose proof (N.div_mod i 3 ltac:(lia)). pose proof (N.mod_lt i 3 ltac:(lia)). lia.
Qed.

Lemma contract_64_2_bits m mask o i :
  (mask = 0x4924924924924924 /\ o = 2) \/ (mask = 0x2492492492492492 /\ o = 1) \/ (mask = 0x1249249249249249 /\ o = 0) ->
  N.testbit (contract_bits_64_2 (N.shiftr (N.land m mask) o) mod 2 ^ 32) i = obit m (g_contract 21 3 o i).
Proof.
  intros Hm. destruct (N.lt_ge_cases i (N.of_nat 32)) as [H|H].
  - rewrite N.mod_pow2_bits_low by exact H. unfold contract_bits_64_2. destruct Hm as [(-> & ->)|[(-> & ->)|(-> & ->)]];
      (eapply (check_ok 32); [repeat apply rep_gather; apply rep_shiftr, rep_land, rep_id|vm_compute; reflexivity|exact H]).
  - rewrite N.mod_pow2_bits_high by exact H. unfold g_contract. destruct (N.ltb_spec i 21); [lia|reflexivity].
Qed.
Lemma contract_32_2_bits m mask o i :
  (mask = 0x24924924 /\ o = 2) \/ (mask = 0x12492492 /\ o = 1) \/ (mask = 0x09249249 /\ o = 0) ->
  N.testbit (contract_bits_32_2 (N.shiftr (N.land m mask) o) mod 2 ^ 16) i = obit m (g_contract 10 3 o i).
Proof.
  intros Hm. destruct (N.lt_ge_cases i (N.of_nat 16)) as [H|H].
  - rewrite N.mod_pow2_bits_low by exact H. unfold contract_bits_32_2. destruct Hm as [(-> & ->)|[(-> & ->)|(-> & ->)]];
      (eapply (check_ok 16); [repeat apply rep_gather; apply rep_shiftr, rep_land, rep_id|vm_compute; reflexivity|exact H]).
  - rewrite N.mod_pow2_bits_high by exact H. unfold g_contract. destruct (N.ltb_spec i 10); [lia|reflexivity].
Qed.

(** * Codes as interleavings *)
From Verif Require Import Morton_spec.

Definition coord_bit (p : triple) (r : N) (k : N) : bool :=
  let '(x, y, z) := p in if r =? 2 then N.testbit x k else if r =? 1 then N.testbit y k else N.testbit z k.

Lemma div3 i : i = 3 * (i / 3) + i mod 3 /\ i mod 3 < 3.
Proof. split; [apply N.div_mod; lia|apply N.mod_lt; lia]. Qed.

Section Interleave.
  Variables (B w : N) (ex : N -> N).
  Hypothesis Hw : 3 * B <= w.
  Hypothesis Hex : forall x i, N.testbit (ex x) i = obit x (g_expand 3 B i).

  Let code x y z := (((ex x * 4) mod 2 ^ w + (ex y * 2) mod 2 ^ w) mod 2 ^ w + ex z) mod 2 ^ w.

  Lemma ex_bit x s i : s < 3 -> N.testbit (N.shiftl (ex x) s) i = (i mod 3 =? s) && (i / 3 <? B) && N.testbit x (i / 3).
  Proof.
    intros Hs. destruct (div3 i) as (E & L). destruct (N.lt_ge_cases i s) as [H|H].
    - rewrite N.shiftl_spec_low by auto. assert (i / 3 = 0) by lia. destruct (N.eqb_spec (i mod 3) s) as [X|X]; [lia|reflexivity].
    - rewrite N.shiftl_spec_high', Hex by auto. unfold g_expand.
      destruct (N.eqb_spec (i mod 3) s) as [X|X].
      + assert (E1 : i - s = (i / 3) * 3) by lia. rewrite E1, N.mod_mul, N.div_mul, N.eqb_refl by lia. cbn [andb].
        destruct (i / 3 <? B); reflexivity.
      + destruct (N.eqb_spec ((i - s) mod 3) 0) as [Y|Y]; cbn [andb obit]; auto. destruct (div3 (i - s)) as (F & _).
        exfalso. apply X. rewrite Y in F. replace i with (s + ((i - s) / 3) * 3) by lia. rewrite N.mod_add by lia. apply N.mod_small. auto.
  Qed.
  Lemma ex_small x s : s < 3 -> N.shiftl (ex x) s < 2 ^ (3 * B).
  Proof.
    intros Hs. apply lt_pow2_bits. intros i Hi. rewrite ex_bit by auto. destruct (div3 i) as (E & L).
    destruct (N.ltb_spec (i / 3) B); [lia|]. now rewrite andb_false_r.
  Qed.
  Lemma code_lor x y z : code x y z = N.lor (N.lor (N.shiftl (ex x) 2) (N.shiftl (ex y) 1)) (N.shiftl (ex z) 0).
  Proof.
    assert (P : 2 ^ (3 * B) <= 2 ^ w) by (apply N.pow_le_mono_r; lia).
    assert (Hlor : forall a b, a < 2 ^ (3 * B) -> b < 2 ^ (3 * B) -> N.lor a b < 2 ^ (3 * B)).
    { intros a b Ha Hb. apply lt_pow2_bits. intros i Hi. rewrite N.lor_spec, (testbit_high a _ _ Ha Hi), (testbit_high b _ _ Hb Hi). reflexivity. }
    pose proof (ex_small x 2 ltac:(lia)) as Sx. pose proof (ex_small y 1 ltac:(lia)) as Sy. pose proof (ex_small z 0 ltac:(lia)) as Sz.
    unfold code. replace (ex x * 4) with (N.shiftl (ex x) 2) by (rewrite N.shiftl_mul_pow2; reflexivity).
    replace (ex y * 2) with (N.shiftl (ex y) 1) by (rewrite N.shiftl_mul_pow2; reflexivity).
    replace (ex z) with (N.shiftl (ex z) 0) at 1 by apply N.shiftl_0_r.
    rewrite (N.mod_small (N.shiftl (ex x) 2)), (N.mod_small (N.shiftl (ex y) 1)) by lia.
    rewrite (add_disjoint (N.shiftl (ex x) 2)).
    2:{ intros i H1 H2. rewrite ex_bit in H1, H2 by lia. rewrite !andb_true_iff, !N.eqb_eq in *. destruct H1 as ((H1 & _) & _), H2 as ((H2 & _) & _). congruence. }
    pose proof (Hlor _ _ Sx Sy) as Sxy. rewrite (N.mod_small (N.lor _ _)) by lia.
    rewrite add_disjoint.
    2:{ intros i H1 H2. rewrite N.lor_spec in H1. rewrite !ex_bit in H1 by lia. rewrite ex_bit in H2 by lia.
        rewrite orb_true_iff, !andb_true_iff, !N.eqb_eq in *. destruct H2 as ((H2 & _) & _), H1 as [((H1 & _) & _)|((H1 & _) & _)]; congruence. }
    rewrite N.mod_small; auto. pose proof (Hlor _ _ Sxy Sz). lia.
  Qed.
  Lemma code_bits x y z i : N.testbit (code x y z) i = (i / 3 <? B) && coord_bit (x, y, z) (i mod 3) (i / 3).
  Proof.
    rewrite code_lor, !N.lor_spec, !ex_bit by lia. destruct (div3 i) as (_ & L). unfold coord_bit.
    destruct (N.eqb_spec (i mod 3) 2) as [->|H2]; [cbn; now rewrite !orb_false_r|].
    destruct (N.eqb_spec (i mod 3) 1) as [->|H1]; [cbn; now rewrite !orb_false_r|].
    assert (i mod 3 = 0) as -> by lia. cbn. reflexivity.
  Qed.
  Lemma code_interleaving x y z : interleaving B (code x y z) (x, y, z).
  Proof.
    split.
    - apply lt_pow2_bits. intros i Hi. rewrite code_bits. destruct (div3 i). destruct (N.ltb_spec (i / 3) B); [lia|reflexivity].
    - intros k Hk.
      assert (T : forall r, r < 3 -> (3 * k + r) / 3 = k /\ (3 * k + r) mod 3 = r).
      { intros r Hr. rewrite N.add_comm, N.mul_comm, N.div_add, N.mod_add, N.div_small, N.mod_small by lia. lia. }
      destruct (T 2 ltac:(lia)) as (T1 & T2). destruct (T 1 ltac:(lia)) as (T3 & T4). destruct (T 0 ltac:(lia)) as (T5 & T6). rewrite N.add_0_r in *.
      rewrite !code_bits, T1, T2, T3, T4, T5, T6. destruct (N.ltb_spec k B); [|lia]. cbn. auto.
  Qed.
End Interleave.

(** An interleaving determines the coordinates and conversely. *)
Lemma interleaving_bit B m p : interleaving B m p -> forall i, i < 3 * B -> N.testbit m i = coord_bit p (i mod 3) (i / 3).
Proof.
  destruct p as [[x y] z]. intros (_ & H) i Hi. destruct (div3 i) as (E & L). destruct (H (i / 3) ltac:(lia)) as (H2 & H1 & H0).
  unfold coord_bit. destruct (N.eqb_spec (i mod 3) 2) as [X|X]; [rewrite X in E; rewrite E at 1; auto|].
  destruct (N.eqb_spec (i mod 3) 1) as [Y|Y]; [rewrite Y in E; rewrite E at 1; auto|].
  assert (i mod 3 = 0) as Z by lia. rewrite Z, N.add_0_r in E. rewrite E at 1; auto.
Qed.
Lemma interleaving_code_inj B m m' p : interleaving B m p -> interleaving B m' p -> m = m'.
Proof.
  intros H H'. apply N.bits_inj. intros i. destruct (N.lt_ge_cases i (3 * B)) as [Hi|Hi].
  - rewrite (interleaving_bit B m p H i Hi), (interleaving_bit B m' p H' i Hi). reflexivity.
  - destruct p as [[x y] z], H as (H & _), H' as (H' & _). now rewrite !(testbit_high _ (3 * B)).
Qed.
Lemma interleaving_coord_inj B m p p' : in_grid B p -> in_grid B p' -> interleaving B m p -> interleaving B m p' -> p = p'.
Proof.
  destruct p as [[x y] z], p' as [[x' y'] z']. intros (X & Y & Z) (X' & Y' & Z') (_ & H) (_ & H').
  assert (E : forall a b, a < 2 ^ B -> b < 2 ^ B -> (forall k, k < B -> N.testbit a k = N.testbit b k) -> a = b).
  { intros a b Ha Hb E. apply N.bits_inj. intros i. destruct (N.lt_ge_cases i B); [auto|]. now rewrite !(testbit_high _ B). }
  rewrite (E x x'), (E y y'), (E z z'); auto; intros k Hk; destruct (H k Hk) as (A1 & A2 & A3), (H' k Hk) as (B1 & B2 & B3); congruence.
Qed.
Lemma interleaving_le B m m' p p' : in_grid B p -> in_grid B p' -> interleaving B m p -> interleaving B m' p' -> below p p' -> m <= m'.
Proof.
  intros G G' H H' Hb. destruct (N.le_gt_cases m m') as [|X]; auto. exfalso.
  destruct (lt_bit m' m X) as (i & F & T & U & _).
  assert (Hi : i < 3 * B). { destruct (N.lt_ge_cases i (3 * B)); auto. destruct p as [[? ?] ?], H as (H & _). rewrite (testbit_high m (3 * B)) in T; auto; discriminate. }
  destruct (div3 i) as (E & L).
  assert (A : forall r k, r < 3 -> k < B -> i < 3 * k + r -> coord_bit p' r k = coord_bit p r k).
  { intros r k Hr Hk Hlt. pose proof (U _ Hlt) as V. rewrite (interleaving_bit B m p H), (interleaving_bit B m' p' H') in V by lia.
    assert (T1 : (3 * k + r) / 3 = k) by (rewrite N.add_comm, N.mul_comm, N.div_add, N.div_small by lia; lia).
    assert (T2 : (3 * k + r) mod 3 = r) by (rewrite N.add_comm, N.mul_comm, N.mod_add, N.mod_small by lia; lia).
    now rewrite T1, T2 in V. }
  rewrite (interleaving_bit B m p H) in T by auto. rewrite (interleaving_bit B m' p' H') in F by auto.
  destruct p as [[x y] z], p' as [[x' y'] z']. destruct G as (Gx & Gy & Gz), G' as (Gx' & Gy' & Gz'). destruct Hb as (Bx & By & Bz).
  assert (A' : forall r, r < 3 -> r = i mod 3 -> forall k, i / 3 < k -> coord_bit (x', y', z') r k = coord_bit (x, y, z) r k).
  { intros r Hr Hri k Hk. destruct (N.lt_ge_cases k B) as [Y|Y]; [apply A; lia|].
    unfold coord_bit. destruct (r =? 2); [now rewrite !(testbit_high _ B)|]. destruct (r =? 1); now rewrite !(testbit_high _ B). }
  unfold coord_bit in *. remember (i mod 3) as r. specialize (A' r L eq_refl).
  destruct (r =? 2).
  - assert (x' < x) by (eapply lt_from_bit; [exact F|exact T|intros; apply A'; auto]). lia.
  - destruct (r =? 1).
    + assert (y' < y) by (eapply lt_from_bit; [exact F|exact T|intros; apply A'; auto]). lia.
    + assert (z' < z) by (eapply lt_from_bit; [exact F|exact T|intros; apply A'; auto]). lia.
Qed.

Lemma obit_contract m B o i : obit m (g_contract B 3 o i) = (i <? B) && N.testbit m (3 * i + o).
Proof. unfold g_contract. destruct (i <? B); reflexivity. Qed.

Lemma decode_64 m : in_grid 21 (morton_to_icoord_64 m) /\ (m < 2 ^ 63 -> interleaving 21 m (morton_to_icoord_64 m)).
Proof.
  unfold morton_to_icoord_64.
  set (x := contract_bits_64_2 (N.shiftr (N.land m 0x4924924924924924) 2) mod 2 ^ 32).
  set (y := contract_bits_64_2 (N.shiftr (N.land m 0x2492492492492492) 1) mod 2 ^ 32).
  set (z := contract_bits_64_2 (N.shiftr (N.land m 0x1249249249249249) 0) mod 2 ^ 32).
  assert (X : forall i, N.testbit x i = (i <? 21) && N.testbit m (3 * i + 2)) by (intros i; rewrite <- obit_contract; apply contract_64_2_bits; auto).
  assert (Y : forall i, N.testbit y i = (i <? 21) && N.testbit m (3 * i + 1)) by (intros i; rewrite <- obit_contract; apply contract_64_2_bits; auto).
  assert (Z : forall i, N.testbit z i = (i <? 21) && N.testbit m (3 * i + 0)) by (intros i; rewrite <- obit_contract; apply contract_64_2_bits; auto).
  clearbody x y z. split.
  - split; [|split]; apply lt_pow2_bits; intros i Hi; rewrite ?X, ?Y, ?Z; destruct (N.ltb_spec i 21); auto; lia.
  - intros Hm. split; [exact Hm|]. intros k Hk. rewrite X, Y, Z, N.add_0_r. destruct (N.ltb_spec k 21); [auto|lia].
Qed.
Lemma decode_32 m : in_grid 10 (morton_to_icoord_32 m) /\ (m < 2 ^ 30 -> interleaving 10 m (morton_to_icoord_32 m)).
Proof.
  unfold morton_to_icoord_32.
  set (x := contract_bits_32_2 (N.shiftr (N.land m 0x24924924) 2) mod 2 ^ 16).
  set (y := contract_bits_32_2 (N.shiftr (N.land m 0x12492492) 1) mod 2 ^ 16).
  set (z := contract_bits_32_2 (N.shiftr (N.land m 0x09249249) 0) mod 2 ^ 16).
  assert (X : forall i, N.testbit x i = (i <? 10) && N.testbit m (3 * i + 2)) by (intros i; rewrite <- obit_contract; apply contract_32_2_bits; auto).
  assert (Y : forall i, N.testbit y i = (i <? 10) && N.testbit m (3 * i + 1)) by (intros i; rewrite <- obit_contract; apply contract_32_2_bits; auto).
  assert (Z : forall i, N.testbit z i = (i <? 10) && N.testbit m (3 * i + 0)) by (intros i; rewrite <- obit_contract; apply contract_32_2_bits; auto).
  clearbody x y z. split.
  - split; [|split]; apply lt_pow2_bits; intros i Hi; rewrite ?X, ?Y, ?Z; destruct (N.ltb_spec i 10); auto; lia.
  - intros Hm. split; [exact Hm|]. intros k Hk. rewrite X, Y, Z, N.add_0_r. destruct (N.ltb_spec k 10); [auto|lia].
Qed.
Lemma encode_64 x y z : interleaving 21 (icoord_to_morton_64 x y z) (x, y, z).
Proof. apply (code_interleaving 21 64 expand_bits_64_2); [lia|apply expand_64_2_bits]. Qed.
Lemma encode_32 x y z : interleaving 10 (icoord_to_morton_32 x y z) (x, y, z).
Proof. apply (code_interleaving 10 32 expand_bits_32_2); [lia|apply expand_32_2_bits]. Qed.

(** * Prefixes and boxes *)
Definition box_size (L : N) : triple := (2 ^ (L / 3), 2 ^ ((L + 1) / 3), 2 ^ ((L + 2) / 3)).

Lemma axis_shift L r k : r < 3 -> ((L + (2 - r)) / 3 <= k <-> L <= 3 * k + r).
Proof.
  intros Hr. pose proof (N.div_mod (L + (2 - r)) 3 ltac:(lia)). pose proof (N.mod_lt (L + (2 - r)) 3 ltac:(lia)). lia.
Qed.
Lemma axis_block a x q : N.shiftl q a <= x < N.shiftl q a + 2 ^ a <-> N.shiftr x a = q.
Proof. rewrite N.shiftl_mul_pow2. apply block_iff. Qed.
Lemma zero_low x a : (forall k, k < a -> N.testbit x k = false) -> x = N.shiftl (N.shiftr x a) a.
Proof.
  intros H. apply N.bits_inj. intros i. destruct (N.lt_ge_cases i a) as [Hi|Hi].
  - rewrite N.shiftl_spec_low by auto. auto.
  - rewrite N.shiftl_spec_high', N.shiftr_spec' by auto. f_equal. lia.
Qed.
Lemma in_axis a x q : (forall k, k < a -> N.testbit q k = false) ->
  (q <= x < q + 2 ^ a <-> forall k, a <= k -> N.testbit x k = N.testbit q k).
Proof.
  intros H. rewrite (zero_low q a H). rewrite axis_block, <- shiftr_eq_bits, <- (zero_low q a H). reflexivity.
Qed.

Lemma prefix_box B L c q pc pq : in_grid B pc -> in_grid B pq -> interleaving B c pc -> interleaving B q pq ->
  (forall i, i < L -> N.testbit q i = false) ->
  ((forall i, L <= i -> N.testbit c i = N.testbit q i) <-> in_box pc pq (vplus pq (box_size L))).
Proof.
  destruct pc as [[x y] z], pq as [[u v] t]. intros (Gx & Gy & Gz) (Gu & Gv & Gt) Hc Hq H0.
  assert (Bc : forall k, k < B -> N.testbit c (3 * k + 2) = N.testbit x k /\ N.testbit c (3 * k + 1) = N.testbit y k /\ N.testbit c (3 * k) = N.testbit z k) by apply Hc.
  assert (Bq : forall k, k < B -> N.testbit q (3 * k + 2) = N.testbit u k /\ N.testbit q (3 * k + 1) = N.testbit v k /\ N.testbit q (3 * k) = N.testbit t k) by apply Hq.
  assert (Lc : c < 2 ^ (3 * B)) by apply Hc. assert (Lq : q < 2 ^ (3 * B)) by apply Hq.
  assert (S2 : forall k, L / 3 <= k <-> L <= 3 * k + 2) by (intros k; pose proof (axis_shift L 2 k) as S; rewrite N.add_0_r in S; apply S; reflexivity).
  assert (S1 : forall k, (L + 1) / 3 <= k <-> L <= 3 * k + 1) by (intros k; apply (axis_shift L 1 k); reflexivity).
  assert (S0 : forall k, (L + 2) / 3 <= k <-> L <= 3 * k) by (intros k; pose proof (axis_shift L 0 k) as S; rewrite N.add_0_r in S; apply S; reflexivity).
  assert (T2 : forall k, k < L / 3 -> 3 * k + 2 < L) by (intros k Hk; specialize (S2 k); clear -Hk S2; lia).
  assert (T1 : forall k, k < (L + 1) / 3 -> 3 * k + 1 < L) by (intros k Hk; specialize (S1 k); clear -Hk S1; lia).
  assert (T0 : forall k, k < (L + 2) / 3 -> 3 * k < L) by (intros k Hk; specialize (S0 k); clear -Hk S0; lia).
  cbn [in_box box_size vplus].
  rewrite (in_axis (L / 3) x u), (in_axis ((L + 1) / 3) y v), (in_axis ((L + 2) / 3) z t).
  2:{ intros k Hk. destruct (N.lt_ge_cases k B) as [HB|HB]; [|eapply testbit_high; eauto]. destruct (Bq k HB) as (Q2 & Q1 & Q0). rewrite <- Q0. apply H0, T0, Hk. }
  2:{ intros k Hk. destruct (N.lt_ge_cases k B) as [HB|HB]; [|eapply testbit_high; eauto]. destruct (Bq k HB) as (Q2 & Q1 & Q0). rewrite <- Q1. apply H0, T1, Hk. }
  2:{ intros k Hk. destruct (N.lt_ge_cases k B) as [HB|HB]; [|eapply testbit_high; eauto]. destruct (Bq k HB) as (Q2 & Q1 & Q0). rewrite <- Q2. apply H0, T2, Hk. }
  split.
  - intros H. split; [|split]; intros k Hk; (destruct (N.lt_ge_cases k B) as [HB|HB]; [|rewrite !(testbit_high _ B); auto]);
      destruct (Bq k HB) as (Q2 & Q1 & Q0), (Bc k HB) as (C2 & C1 & C0).
    + rewrite <- Q2, <- C2. apply H, S2, Hk.
    + rewrite <- Q1, <- C1. apply H, S1, Hk.
    + rewrite <- Q0, <- C0. apply H, S0, Hk.
  - intros (A2 & A1 & A0) i Hi. destruct (N.lt_ge_cases i (3 * B)) as [HB|HB]; [|now rewrite !(testbit_high _ (3 * B))].
    rewrite (interleaving_bit B c _ Hc), (interleaving_bit B q _ Hq) by auto. destruct (div3 i) as (E & R). unfold coord_bit.
    destruct (N.eqb_spec (i mod 3) 2) as [X|X]; [apply A2, S2; rewrite X in E; rewrite <- E; exact Hi|].
    destruct (N.eqb_spec (i mod 3) 1) as [Y|Y]; [apply A1, S1; rewrite Y in E; rewrite <- E; exact Hi|].
    apply A0, S0. assert (i mod 3 = 0) as W by (clear -R X Y; lia). rewrite W, N.add_0_r in E. rewrite <- E. exact Hi.
Qed.

Lemma pow2_pos n : 1 <= 2 ^ n.
Proof. pose proof (N.pow_nonzero 2 n ltac:(lia)). lia. Qed.
Lemma split3 j : exists k r, j = 3 * k + r /\ r < 3.
Proof. exists (j / 3), (j mod 3). exact (div3 j). Qed.
Lemma div3_at k r s : r + s < 3 -> (3 * k + r + s) / 3 = k.
Proof. intros H. replace (3 * k + r + s) with ((r + s) + k * 3) by lia. rewrite N.div_add, N.div_small by lia. lia. Qed.
Lemma div3_at' k r s : 3 <= r + s < 6 -> (3 * k + r + s) / 3 = k + 1.
Proof. intros H. replace (3 * k + r + s) with ((r + s - 3) + (k + 1) * 3) by lia. rewrite N.div_add, N.div_small by lia. lia. Qed.

(** The two halves of a box: the axis of bit j. *)
Definition axis_step (j : N) : triple :=
  let k := j / 3 in let r := j mod 3 in
  (if r =? 2 then 2 ^ k else 0, if r =? 1 then 2 ^ k else 0, if r =? 0 then 2 ^ k else 0).
Lemma box_halves j : box_size (j + 1) = vplus (axis_step j) (box_size j).
Proof.
  destruct (split3 j) as (k & r & -> & Hr). unfold box_size, axis_step.
  assert (E1 : (3 * k + r) / 3 = k) by (rewrite <- (div3_at k r 0) at 2 by lia; now rewrite N.add_0_r).
  assert (E2 : (3 * k + r) mod 3 = r) by (rewrite N.add_comm, N.mul_comm, N.mod_add, N.mod_small by lia; reflexivity).
  rewrite E1, E2. rewrite <- !(N.add_assoc (3 * k + r)). cbn [N.add Pos.add Pos.succ Pos.add_carry].
  assert (P : 2 ^ (k + 1) = 2 * 2 ^ k) by (rewrite N.add_1_r, N.pow_succ_r'; reflexivity).
  assert (r = 0 \/ r = 1 \/ r = 2) as [->|[->| ->]] by lia;
    rewrite ?(div3_at k 0 1), ?(div3_at k 0 2), ?(div3_at' k 0 3), ?(div3_at k 1 1), ?(div3_at' k 1 2), ?(div3_at' k 1 3), ?(div3_at' k 2 1), ?(div3_at' k 2 2), ?(div3_at' k 2 3) by lia;
    cbn [N.eqb Pos.eqb vplus]; rewrite ?P; apply pair_equal_spec; (split; [apply pair_equal_spec; split|]); lia.
Qed.

Lemma setbit_add x k : N.testbit x k = false -> x + 2 ^ k = N.setbit x k.
Proof.
  intros H. rewrite N.setbit_spec'. apply add_disjoint. intros i H1 H2. rewrite N.pow2_bits_eqb in H2. apply N.eqb_eq in H2. subst. congruence.
Qed.
Lemma upper_half B q pq j : in_grid B pq -> interleaving B q pq -> N.testbit q j = false -> j < 3 * B ->
  in_grid B (vplus pq (axis_step j)) /\ interleaving B (N.setbit q j) (vplus pq (axis_step j)).
Proof.
  destruct pq as [[x y] z]. intros (Gx & Gy & Gz) Hq Hj HB. pose proof (interleaving_bit B q _ Hq j HB) as Hb. rewrite Hj in Hb.
  destruct Hq as (Lq & Bq). destruct (div3 j) as (E & R). unfold axis_step. remember (j / 3) as k. remember (j mod 3) as r.
  assert (Kb : k < B) by lia.
  assert (Hs : forall a n i, i < n -> a < 2 ^ n -> N.setbit a i < 2 ^ n).
  { intros a n i Hi Ha. apply lt_pow2_bits. intros l Hl. rewrite N.setbit_eqb, (testbit_high a n l Ha Hl). destruct (N.eqb_spec i l); [lia|reflexivity]. }
  assert (LQ : N.setbit q j < 2 ^ (3 * B)) by (apply Hs; auto).
  unfold coord_bit in Hb. cbn [vplus].
  assert (r = 0 \/ r = 1 \/ r = 2) as [X|[X|X]] by (clear -R; lia); rewrite X in *; cbn [N.eqb Pos.eqb] in *; rewrite ?N.add_0_r;
    symmetry in Hb; rewrite (setbit_add _ _ Hb); (split; [split; [|split]; auto|split; [exact LQ|]]);
    intros l Hl; destruct (Bq l Hl) as (B2 & B1 & B0); rewrite !N.setbit_eqb, B2, B1, B0; rewrite E;
    clear; (split; [|split]);
    repeat match goal with |- context [N.eqb ?a ?b] => destruct (N.eqb_spec a b) end; first [reflexivity|exfalso; lia].
Qed.

  Lemma mask_bits w c : 1 <= c <= w -> exists mask, get_mask w c = Ok mask /\ forall i, N.testbit mask i = (w - c <=? i) && (i <? w).
  Proof.
    intros Hc. unfold get_mask. destruct (N.ltb_spec (w - c) w); [|lia]. destruct (N.leb_spec c w); [|lia]. cbn [andb].
    eexists; split; [reflexivity|]. intros i. unfold shl. destruct (N.ltb_spec i w) as [Hi|Hi].
    - rewrite N.mod_pow2_bits_low by auto. destruct (N.leb_spec (w - c) i).
      + rewrite N.shiftl_spec_high' by auto. replace (2 ^ w - 1) with (N.ones w) by (rewrite N.ones_equiv; lia). apply N.ones_spec_low. lia.
      + now rewrite N.shiftl_spec_low by auto.
    - rewrite N.mod_pow2_bits_high by auto. now rewrite andb_false_r.
  Qed.
Section Cells.
  Variables (B w cw : N) (get_offset : N -> res vec3) (decode : N -> vec3).
  Hypothesis HB : 1 <= B.
  Hypothesis Hw : 3 * B < w.
  Hypothesis Hcw : B < cw.
  Hypothesis Hw32 : w < 2 ^ 32 - 1.
  Hypothesis Hoff : forall c, w - 3 * B <= c <= w -> get_offset c = Ok (box_size (w - c)).
  Hypothesis Hdec : forall m, in_grid B (decode m) /\ (m < 2 ^ (3 * B) -> interleaving B m (decode m)).

  Lemma clz_prefix m1 m2 : m1 < m2 -> m2 < 2 ^ (3 * B) ->
    w - 3 * B <= clz_xor w m1 m2 < w /\ N.testbit m1 (w - clz_xor w m1 m2 - 1) = false /\ N.testbit m2 (w - clz_xor w m1 m2 - 1) = true /\
    forall i, w - clz_xor w m1 m2 <= i -> N.testbit m1 i = N.testbit m2 i.
  Proof.
    intros H12 H2. destruct (lt_bit m1 m2 H12) as (i & F & T & U & E).
    assert (Hi : i < 3 * B). { destruct (N.lt_ge_cases i (3 * B)); auto. rewrite (testbit_high m2 (3 * B)) in T; auto. discriminate. }
    assert (Hx : N.lxor m1 m2 <> 0) by (intros X; apply N.lxor_eq in X; lia).
    unfold clz_xor, clz. rewrite N.size_log2, <- E by auto.
    replace (w - (w - N.succ i) - 1) with i by lia. split; [lia|]. split; auto. split; auto. intros j Hj. apply U. lia.
  Qed.

  Lemma vadd_ok a b : in_grid B a -> (forall x y z, b = (x, y, z) -> x <= 2 ^ B /\ y <= 2 ^ B /\ z <= 2 ^ B) -> vadd cw a b = vplus a b /\ vadd cw b a = vplus a b.
  Proof.
    destruct a as [[x y] z], b as [[u v] t]. intros (Gx & Gy & Gz) Hb. destruct (Hb _ _ _ eq_refl) as (Hu & Hv & Ht).
    assert (P : 2 * 2 ^ B <= 2 ^ cw). { rewrite <- N.pow_succ_r'. apply N.pow_le_mono_r; lia. }
    unfold vadd, vplus. rewrite !N.mod_small by (clear -Gx Gy Gz Hu Hv Ht P; lia).
    rewrite (N.add_comm u), (N.add_comm v), (N.add_comm t). auto.
  Qed.
  Lemma box_size_le L : L <= 3 * B -> forall x y z, box_size L = (x, y, z) -> x <= 2 ^ B /\ y <= 2 ^ B /\ z <= 2 ^ B.
  Proof.
    intros HL x y z E. injection E as <- <- <-.
    split; [|split]; apply N.pow_le_mono_r; try lia; apply N.lt_succ_r, N.div_lt_upper_bound; lia.
  Qed.
  Lemma vsub_ok j : j < 3 * B -> vsub cw (box_size (j + 1)) (box_size j) = axis_step j.
  Proof.
    intros Hj. rewrite box_halves. pose proof (box_size_le j ltac:(lia)) as H1. pose proof (box_size_le (j + 1) ltac:(lia)) as H2. rewrite box_halves in H2.
    destruct (axis_step j) as [[a b] c], (box_size j) as [[d e] f]. destruct (H1 _ _ _ eq_refl) as (D & E & F). cbn [vplus] in H2.
    destruct (H2 _ _ _ eq_refl) as (A1 & A2 & A3). assert (P : 2 ^ B < 2 ^ cw) by (apply N.pow_lt_mono_r; lia).
    assert (S : forall u v, u + v <= 2 ^ B -> (u + v + (2 ^ cw - v)) mod 2 ^ cw = u).
    { intros u v Huv. replace (u + v + (2 ^ cw - v)) with (u + 1 * 2 ^ cw) by (clear -Huv P; lia).
      rewrite N.mod_add by (clear -P; lia). apply N.mod_small. clear -Huv P; lia. }
    unfold vsub, vplus. now rewrite !S.
  Qed.

  Lemma cell_boxes_ok m1 m2 : m1 < m2 -> m2 < 2 ^ (3 * B) ->
    exists n lo hi rlo rhi llo lhi, prefix_length w m1 m2 n /\
      cell_boxes w cw get_offset decode m1 m2 = Ok ((lo, hi), (rlo, rhi), (llo, lhi)) /\
      forall c, c < 2 ^ (3 * B) ->
        (in_box (decode c) lo hi <-> same_prefix w n c m1) /\
        (in_box (decode c) rlo rhi <-> same_prefix w (n + 1) c m2) /\
        (in_box (decode c) llo lhi <-> same_prefix w (n + 1) c m1).
  Proof.
    intros H12 H2. destruct (clz_prefix m1 m2 H12 H2) as (Hc & F & T & U). set (n := clz_xor w m1 m2) in *.
    set (j := w - n - 1) in *. assert (Ej : w - n = j + 1) by (unfold j; lia). assert (Hj : j < 3 * B) by (unfold j; lia).
    assert (W : 2 ^ (3 * B) <= 2 ^ w) by (apply N.pow_le_mono_r; lia).
    assert (SP : forall k a b, a < 2 ^ (3 * B) -> b < 2 ^ (3 * B) -> k <= w -> (same_prefix w k a b <-> forall i, w - k <= i -> N.testbit a i = N.testbit b i)).
    { intros k a b Ha Hb Hk. split; intros H i Hi; [|intros; now apply H]. destruct (N.lt_ge_cases i w); [now apply H|].
      rewrite (testbit_high a w), (testbit_high b w); auto; lia. }
    destruct (mask_bits w n ltac:(lia)) as (mask & Em & Mb).
    unfold cell_boxes. fold n. rewrite (Hoff n) by lia. cbn [rbind].
    assert ((n + 1) mod 2 ^ 32 = n + 1) as -> by (apply N.mod_small; lia).
    rewrite (Hoff (n + 1)) by lia. cbn [rbind]. rewrite Em. cbn [rbind]. rewrite Ej. replace (w - (n + 1)) with j by lia.
    set (q := N.land m1 mask). rewrite vsub_ok by auto.
    assert (H1 : m1 < 2 ^ (3 * B)) by lia.
    assert (Qb : forall i, N.testbit q i = N.testbit m1 i && (j + 1 <=? i)).
    { intros i. unfold q. rewrite N.land_spec, Mb, Ej. destruct (N.ltb_spec i w) as [|Hi]; [now rewrite andb_true_r|].
      rewrite (testbit_high m1 (3 * B)) by lia. reflexivity. }
    assert (Lq : q < 2 ^ (3 * B)) by (apply lt_pow2_bits; intros i Hi; rewrite Qb, (testbit_high m1 (3 * B)) by auto; reflexivity).
    destruct (Hdec q) as (Gq & Iq). specialize (Iq Lq).
    assert (Qj : N.testbit q j = false) by (rewrite Qb, F; reflexivity).
    destruct (upper_half B q (decode q) j Gq Iq Qj Hj) as (Gr & Ir).
    pose proof (box_size_le (j + 1) ltac:(lia)) as L1. pose proof (box_size_le j ltac:(lia)) as L0.
    assert (La : forall x y z, axis_step j = (x, y, z) -> x <= 2 ^ B /\ y <= 2 ^ B /\ z <= 2 ^ B).
    { intros x y z E. pose proof (box_halves j) as Hh. rewrite E in Hh. destruct (box_size j) as [[d e] f]. cbn [vplus] in Hh.
      destruct (L1 _ _ _ Hh) as (A1 & A2 & A3). clear -A1 A2 A3; lia. }
    destruct (vadd_ok (decode q) (box_size (j + 1)) Gq L1) as (_ & ->).
    destruct (vadd_ok (decode q) (axis_step j) Gq La) as (-> & _).
    destruct (vadd_ok (decode q) (box_size j) Gq L0) as (_ & ->).
    assert (Er : vadd cw (vplus (decode q) (box_size j)) (axis_step j) = vplus (vplus (decode q) (axis_step j)) (box_size j)).
    { destruct (vadd_ok (vplus (decode q) (axis_step j)) (box_size j) Gr L0) as (E & _). rewrite <- E. clear.
      destruct (decode q) as [[x y] z], (axis_step j) as [[a b] c], (box_size j) as [[d e] f]. unfold vadd, vplus.
      f_equal; [f_equal|]; f_equal; lia. }
    rewrite Er. exists n. do 6 eexists. split; [|split; [reflexivity|]].
    - split; [|split; [|lia]].
      + intros i _ Hi. apply U. exact Hi.
      + replace (w - n - 1) with j by lia. rewrite F, T. discriminate.
    - intros c Hlc. destruct (Hdec c) as (Gc & Ic). specialize (Ic Hlc).
      split; [|split].
      + rewrite <- (prefix_box B (j + 1) c q (decode c) (decode q) Gc Gq Ic Iq) by (intros i Hi; rewrite Qb; destruct (N.leb_spec (j + 1) i); [lia|apply andb_false_r]).
        rewrite SP by (auto; lia). rewrite Ej. split; intros H i Hi; specialize (H i Hi); rewrite Qb in *; destruct (N.leb_spec (j + 1) i); try lia; rewrite ?andb_true_r in *; auto.
      + assert (Sb : forall i, N.testbit (N.setbit q j) i = (j =? i) || N.testbit q i) by (intros; apply N.setbit_eqb).
        rewrite <- (prefix_box B j c (N.setbit q j) (decode c) (vplus (decode q) (axis_step j)) Gc Gr Ic Ir).
        2:{ intros i Hi. rewrite Sb, Qb. destruct (N.eqb_spec j i); [lia|]. destruct (N.leb_spec (j + 1) i); [lia|]. cbn. apply andb_false_r. }
        rewrite SP by (auto; lia). replace (w - (n + 1)) with j by lia.
        assert (K : forall i, j <= i -> N.testbit (N.setbit q j) i = N.testbit m2 i).
        { intros i Hi. rewrite Sb, Qb. destruct (N.eqb_spec j i) as [<-|]; [now rewrite T|]. destruct (N.leb_spec (j + 1) i); [|lia]. cbn. rewrite andb_true_r. apply U. lia. }
        split; intros H i Hi; rewrite (H i Hi), K; auto.
      + rewrite <- (prefix_box B j c q (decode c) (decode q) Gc Gq Ic Iq) by (intros i Hi; rewrite Qb; destruct (N.leb_spec (j + 1) i); [lia|apply andb_false_r]).
        rewrite SP by (auto; lia). replace (w - (n + 1)) with j by lia.
        assert (K : forall i, j <= i -> N.testbit q i = N.testbit m1 i).
        { intros i Hi. rewrite Qb. destruct (N.leb_spec (j + 1) i); [apply andb_true_r|]. replace i with j by lia. now rewrite F. }
        split; intros H i Hi; rewrite (H i Hi), K; auto.
  Qed.
End Cells.

Lemma ok_eq_dec3 (a b : res vec3) : {a = b} + {a <> b}.
Proof. repeat decide equality. Defined.
Lemma offset_64 c : 1 <= c <= 64 -> get_offset_64 c = Ok (box_size (64 - c)).
Proof.
  intros Hc. assert (H : forallb (fun k => if ok_eq_dec3 (get_offset_64 (N.of_nat k)) (Ok (box_size (64 - N.of_nat k))) then true else false) (seq 1 64) = true) by (vm_compute; reflexivity).
  rewrite forallb_forall in H. specialize (H (N.to_nat c)). rewrite N2Nat.id in H.
  destruct (ok_eq_dec3 (get_offset_64 c) (Ok (box_size (64 - c)))); auto. assert (X : In (N.to_nat c) (seq 1 64)) by (apply in_seq; lia). apply H in X. discriminate.
Qed.
Lemma offset_32 c : 2 <= c <= 32 -> get_offset_32 c = Ok (box_size (32 - c)).
Proof.
  intros Hc. assert (H : forallb (fun k => if ok_eq_dec3 (get_offset_32 (N.of_nat k)) (Ok (box_size (32 - N.of_nat k))) then true else false) (seq 2 31) = true) by (vm_compute; reflexivity).
  rewrite forallb_forall in H. specialize (H (N.to_nat c)). rewrite N2Nat.id in H.
  destruct (ok_eq_dec3 (get_offset_32 c) (Ok (box_size (32 - c)))); auto. assert (X : In (N.to_nat c) (seq 2 31)) by (apply in_seq; lia). apply H in X. discriminate.
Qed.

(** * The two dimensional variants *)
Lemma expand_contract_64_1 x : x < 2 ^ 32 -> contract_bits_64_1 (expand_bits_64_1 x) = x.
Proof.
  intros Hx. apply N.bits_inj. intros i. destruct (N.lt_ge_cases i (N.of_nat 32)) as [H|H].
  - transitivity (obit x (g_contract 32 1 0 i)).
    + unfold contract_bits_64_1, expand_bits_64_1. assert (E : x = N.land x 0xffffffff) by (change 0xffffffff with (N.ones 32); rewrite N.land_ones; symmetry; apply N.mod_small, Hx).
      rewrite E at 1. eapply (check_ok 32); [repeat apply rep_gather; repeat (apply rep_spread; [|reflexivity]); apply rep_land, rep_id|vm_compute; reflexivity|exact H].
    + unfold g_contract. destruct (N.ltb_spec i 32); [cbn [obit]; f_equal; lia|lia].
  - rewrite (testbit_high _ 32 i Hx) by exact H. eapply testbit_high; [|exact H]. apply N.le_lt_trans with 0xffffffff; [apply land_le_r|reflexivity].
Qed.
Lemma expand_contract_32_1 x : x < 2 ^ 16 -> contract_bits_32_1 (expand_bits_32_1 x) = x.
Proof.
  intros Hx. apply N.bits_inj. intros i. destruct (N.lt_ge_cases i (N.of_nat 16)) as [H|H].
  - transitivity (obit x (g_contract 16 1 0 i)).
    + unfold contract_bits_32_1, expand_bits_32_1. assert (E : x = N.land x 0xffff) by (change 0xffff with (N.ones 16); rewrite N.land_ones; symmetry; apply N.mod_small, Hx).
      rewrite E at 1. eapply (check_ok 16); [repeat apply rep_gather; repeat (apply rep_spread; [|reflexivity]); apply rep_land, rep_id|vm_compute; reflexivity|exact H].
    + unfold g_contract. destruct (N.ltb_spec i 16); [cbn [obit]; f_equal; lia|lia].
  - rewrite (testbit_high _ 16 i Hx) by exact H. eapply testbit_high; [|exact H]. apply N.le_lt_trans with 0xffff; [apply land_le_r|reflexivity].
Qed.
