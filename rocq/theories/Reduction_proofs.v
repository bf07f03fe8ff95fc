(** Correctness of the leaf compression. *)
From Verif Require Import Base Bits Morton Karras Karras_abs Karras_proofs Scan Scan_spec Scan_proofs Par Reduction Reduction_spec.
From Coq Require Import ZifyBool ZifyNat ZifyN.
Local Open Scope nat_scope.

Definition is_prev (S : nat -> bool) (i j : nat) : Prop := j < i /\ S j = true /\ forall k, j < k -> k < i -> S k = false.
Definition is_next (S : nat -> bool) (n i j : nat) : Prop := i < j /\ j <= n /\ (j < n -> S j = true) /\ forall k, i < k -> k < j -> S k = false.

Lemma prev_ex S i : S 0 = true -> 0 < i -> exists j, is_prev S i j.
Proof.
  intros H0. induction i as [|i IH]; intros Hi; [lia|].
  destruct (S i) eqn:E.
  - exists i. repeat split; intros; auto; lia.
  - destruct i as [|i]; [congruence|]. destruct IH as (j & A & B & C); [lia|]. exists j. repeat split; auto.
    intros k K1 K2. destruct (Nat.eq_dec k (Datatypes.S i)); [now subst|apply C; lia].
Qed.
Lemma next_ex S n i : i < n -> exists j, is_next S n i j.
Proof.
  intros Hi. remember (n - i) as d eqn:Hd. revert i Hi Hd. induction d as [|d IH]; intros i Hi Hd; [lia|].
  destruct (Nat.eq_dec (i + 1) n) as [E|E].
  - exists n. repeat split; intros; lia.
  - destruct (S (i + 1)) eqn:E1.
    + exists (i + 1). repeat split; intros; auto; lia.
    + destruct (IH (i + 1)) as (j & A & B & C & D); try lia. exists j. split; [lia|]. split; [lia|]. split; [auto|].
      intros k K1 K2. destruct (Nat.eq_dec k (i + 1)); [now subst|apply D; lia].
Qed.
Lemma prev_uniq S i j j' : is_prev S i j -> is_prev S i j' -> j = j'.
Proof.
  intros (A & B & C) (A' & B' & C'). destruct (Nat.lt_trichotomy j j') as [H|[H|H]]; auto.
  - rewrite (C j') in B' by lia. discriminate.
  - rewrite (C' j) in B by lia. discriminate.
Qed.
Lemma next_uniq S n i j j' : is_next S n i j -> is_next S n i j' -> j = j'.
Proof.
  intros (A & B & C & D) (A' & B' & C' & D'). destruct (Nat.lt_trichotomy j j') as [H|[H|H]]; auto.
  - rewrite (D' j) in C by lia. specialize (C ltac:(lia)). discriminate.
  - rewrite (D j') in C' by lia. specialize (C' ltac:(lia)). discriminate.
Qed.
Lemma next_prev S n a c : S a = true -> is_next S n a c -> is_prev S c a.
Proof. intros Ha (A & B & C & D). repeat split; auto. Qed.

(** the u32 scans *)
Section Seek.
  Variables (n : nat) (T : list Z).
  Hypothesis HT : length T = n.
  Hypothesis Hn : 0 < n.
  Hypothesis Hn2 : (Z.of_nat n < 2 ^ 31)%Z.
  Let flag (i : nat) : bool := negb (nth i T 0 =? 0)%Z.

  Lemma u32n1 : u32w (Z.of_nat n - 1) = (Z.of_nat n - 1)%Z.
  Proof. apply u32w_id. lia. Qed.
  Lemma seek_out fuel step b : (Z.of_nat n <= b)%Z -> seek fuel (Z.of_nat n) T step b = Ok b.
  Proof. intros H. destruct fuel; cbn [seek]; rewrite u32n1; replace (b <=? Z.of_nat n - 1)%Z with false by lia; reflexivity. Qed.
  Lemma seek_down : forall i fuel j, i <= n -> is_prev flag i j -> i <= S fuel ->
    seek fuel (Z.of_nat n) T (-1) (Z.of_nat i - 1) = Ok (Z.of_nat j).
  Proof.
    induction i as [|i IH]; intros fuel j Hi (A & B & C) HF; [lia|].
    assert (G : forall k, k = fuel -> seek k (Z.of_nat n) T (-1) (Z.of_nat (S i) - 1) = Ok (Z.of_nat j)); [|now apply G].
    intros k ->. replace (Z.of_nat (S i) - 1)%Z with (Z.of_nat i) by lia.
    destruct fuel as [|fuel]; cbn [seek]; rewrite u32n1; replace (Z.of_nat i <=? Z.of_nat n - 1)%Z with true by lia;
      rewrite (aget_lt T _ 0%Z) by lia; cbn [rbind]; rewrite Nat2Z.id.
    - assert (i = 0 /\ j = 0) as [-> ->] by lia. unfold flag in B. destruct (nth 0 T 0 =? 0)%Z; [discriminate|reflexivity].
    - destruct (Nat.eq_dec j i) as [->|NE].
      + unfold flag in B. destruct (nth i T 0 =? 0)%Z; [discriminate|reflexivity].
      + assert (F : flag i = false) by (apply C; lia). unfold flag in F. destruct (nth i T 0 =? 0)%Z; [|discriminate].
        replace (u32w (Z.of_nat i + -1)) with (Z.of_nat i - 1)%Z by (rewrite u32w_id; lia).
        apply IH; try lia; split; [lia|split; [auto|intros; apply C; lia]].
  Qed.
  Lemma seek_up : forall d i fuel j, d = n - i -> i < n -> is_next flag n i j -> d <= fuel ->
    seek fuel (Z.of_nat n) T 1 (Z.of_nat i + 1) = Ok (Z.of_nat j).
  Proof.
    induction d as [|d IH]; intros i fuel j Hd Hi (A & B & C & D) HF; [lia|].
    destruct (Nat.eq_dec (i + 1) n) as [E|E].
    - rewrite seek_out by lia. f_equal. lia.
    - destruct fuel as [|fuel]; [lia|]. cbn [seek]. rewrite u32n1. replace (Z.of_nat i + 1 <=? Z.of_nat n - 1)%Z with true by lia.
      rewrite (aget_lt T _ 0%Z) by lia. cbn [rbind]. replace (Z.to_nat (Z.of_nat i + 1)) with (i + 1) by lia.
      destruct (Nat.eq_dec j (i + 1)) as [->|NE].
      + specialize (C ltac:(lia)). unfold flag in C. destruct (nth (i + 1) T 0 =? 0)%Z; [discriminate|]. f_equal. lia.
      + assert (F : flag (i + 1) = false) by (apply D; lia). unfold flag in F. destruct (nth (i + 1) T 0 =? 0)%Z; [|discriminate].
        rewrite u32w_id by lia. replace (Z.of_nat i + 1 + 1)%Z with (Z.of_nat (i + 1) + 1)%Z by lia.
        apply IH; try lia; split; [lia|split; [lia|split; [auto|intros; apply D; lia]]].
  Qed.
End Seek.

(** shifted prefixes *)
Lemma clz_shift w a b : (a < b -> b < 2 ^ w -> exists q, q < w /\ clz_xor w a b = w - 1 - q /\
   N.shiftr a (q + 1) = N.shiftr b (q + 1) /\ N.shiftr a q <> N.shiftr b q)%N.
Proof.
  intros H1 H2. destruct (clz_xor_lt w a b H1 H2) as (q & E & Hq & A1 & A2 & A3).
  exists q. split; auto. split; auto. split.
  - apply N.bits_inj. intros j. rewrite !N.shiftr_spec by lia. apply A3. lia.
  - intros X. apply (f_equal (fun z => N.testbit z 0)) in X. rewrite !N.shiftr_spec in X by lia. rewrite !N.add_0_l in X. congruence.
Qed.
Lemma shiftr_le a b p : (a <= b -> N.shiftr a p <= N.shiftr b p)%N.
Proof. intros. rewrite !N.shiftr_div_pow2. apply N.div_le_mono; auto. apply N.pow_nonzero. discriminate. Qed.
Lemma shiftr_eq_up a b p q : (p <= q -> N.shiftr a p = N.shiftr b p -> N.shiftr a q = N.shiftr b q)%N.
Proof. intros H E. replace q with (p + (q - p))%N by lia. now rewrite <- !N.shiftr_shiftr, E. Qed.

Section Cells.
  Variables (w : N) (n : nat) (m : nat -> N).
  Hypothesis Hs : forall x y, x <= y -> y < n -> (m x <= m y)%N.
  Hypothesis Hw : forall x, x < n -> (m x < 2 ^ w)%N.

  Definition cell (a c : nat) : Prop :=
    exists p, (forall x, a <= x < c -> N.shiftr (m x) p = N.shiftr (m a) p) /\
              (forall y, y < n -> y < a \/ c <= y -> N.shiftr (m y) p <> N.shiftr (m a) p).
  Definition dlt (x y : nat) : Z := Z.of_N (clz_xor w (m x) (m y)).
  Definition INV (S : nat -> bool) : Prop := S 0 = true /\ forall a c, a < n -> S a = true -> is_next S n a c -> cell a c.
  (** the kernel's test for a kept start i with a start before it *)
  Definition mg (S : nat -> bool) (i : nat) : Prop :=
    exists a c, is_prev S i a /\ is_next S n i c /\ (c < n -> (dlt i c < dlt i a)%Z) /\
      (forall z, is_prev S a z -> (dlt a z < dlt i a)%Z).

  Lemma cell_lt S a c : INV S -> S a = true -> is_next S n a c -> c < n -> (m a < m c)%N.
  Proof.
    intros [H0 HI] Ha HN Hc. pose proof HN as (A & B & C & D). destruct (HI a c) as (p & P1 & P2); auto; try lia.
    specialize (P2 c Hc (or_intror (le_n c))). specialize (Hs a c ltac:(lia) Hc).
    destruct (N.eq_dec (m a) (m c)) as [E|]; [rewrite E in P2; tauto|lia].
  Qed.

  Lemma merge_cells S a b c : INV S -> S a = true -> b < n -> S b = true -> is_next S n a b -> is_next S n b c ->
    (c < n -> (dlt b c < dlt b a)%Z) -> (forall z, is_prev S a z -> (dlt a z < dlt b a)%Z) -> cell a c.
  Proof.
    intros HV Ha Hb Sb Nab Nbc D0 DM. pose proof HV as [H0 HI].
    assert (La : a < b) by apply Nab. assert (Lb : b < c) by apply Nbc. assert (Lc : c <= n) by apply Nbc.
    pose proof (cell_lt S a b HV Ha Nab Hb) as Lab.
    destruct (clz_shift w (m a) (m b) Lab (Hw b Hb)) as (q & Hq & Eq & Q1 & Q2).
    destruct (HI a b) as (pa & A1 & A2); auto; try lia.
    destruct (HI b c) as (pb & B1 & B2); auto.
    assert (Hpa : (pa <= q)%N).
    { destruct (N.le_gt_cases pa q) as [|C]; auto. exfalso. apply (A2 b Hb); [lia|]. symmetry. apply (shiftr_eq_up _ _ (q + 1)); auto. lia. }
    assert (Hpb : (pb <= q)%N).
    { destruct (N.le_gt_cases pb q) as [|C]; auto. exfalso. apply (B2 a ltac:(lia)); [lia|]. apply (shiftr_eq_up _ _ (q + 1)); auto. lia. }
    assert (Edm : dlt b a = Z.of_N (w - 1 - q)) by (unfold dlt; now rewrite clz_xor_comm, Eq).
    exists (q + 1)%N. split.
    - intros x Hx. destruct (Nat.lt_ge_cases x b) as [Hxb|Hxb].
      + apply (shiftr_eq_up _ _ pa); [lia|]. apply A1. lia.
      + transitivity (N.shiftr (m b) (q + 1)); [|auto]. apply (shiftr_eq_up _ _ pb); [lia|]. apply B1. lia.
    - intros y Hy [Hya|Hyc].
      + (* y before a *)
        destruct (prev_ex S a H0) as (z & PZ); [lia|]. specialize (DM z PZ). rewrite Edm in DM.
        assert (Nz : is_next S n z a). { destruct PZ as (Z1 & Z2 & Z3). repeat split; auto; lia. }
        assert (Sz : S z = true) by apply PZ. assert (Lz : z < a) by apply PZ.
        pose proof (cell_lt S z a HV Sz Nz ltac:(lia)) as Lza.
        destruct (clz_shift w (m z) (m a) Lza (Hw a ltac:(lia))) as (q0 & Hq0 & Eq0 & Q01 & Q02).
        unfold dlt in DM. rewrite clz_xor_comm, Eq0 in DM.
        assert (Hqq : (q + 1 <= q0)%N) by lia.
        destruct (HI z a) as (pz & Z1 & Z2); auto; try lia.
        assert (Hpz : (pz <= q0)%N).
        { destruct (N.le_gt_cases pz q0) as [|C]; auto. exfalso. apply (Z2 a ltac:(lia)); [lia|]. symmetry. apply (shiftr_eq_up _ _ (q0 + 1)); auto. lia. }
        intros X. apply (shiftr_eq_up _ _ (q + 1) q0 Hqq) in X.
        assert (YZ : (m y <= m (a - 1))%N) by (apply Hs; lia).
        assert (AZ : N.shiftr (m (a - 1)) q0 = N.shiftr (m z) q0).
        { apply (shiftr_eq_up _ _ pz); auto. apply Z1. lia. }
        pose proof (shiftr_le _ _ q0 YZ). pose proof (shiftr_le (m z) (m a) q0 ltac:(lia)). rewrite AZ in *. lia.
      + assert (Hcn : c < n) by lia. specialize (D0 Hcn). rewrite Edm in D0.
        assert (Sc : S c = true) by (apply Nbc; auto).
        pose proof (cell_lt S b c HV Sb Nbc Hcn) as Lbc.
        destruct (clz_shift w (m b) (m c) Lbc (Hw c Hcn)) as (q0 & Hq0 & Eq0 & Q01 & Q02).
        unfold dlt in D0. rewrite Eq0 in D0.
        assert (Hqq : (q + 1 <= q0)%N) by lia.
        intros X. apply (shiftr_eq_up _ _ (q + 1) q0 Hqq) in X.
        apply (shiftr_eq_up _ _ (q + 1) q0 Hqq) in Q1.
        pose proof (shiftr_le (m c) (m y) q0 (Hs c y Hyc Hy)). pose proof (shiftr_le (m b) (m c) q0 ltac:(lia)).
        rewrite X, Q1 in *. lia.
  Qed.

  Lemma step_INV S S' : INV S -> (forall i, i < n -> S' i = true <-> S i = true /\ ~ mg S i) -> (0 < n)%nat -> INV S'.
  Proof.
    intros HV HS' Hn0. pose proof HV as [H0 HI]. split.
    - apply HS'; auto. split; auto. intros (a & c & (A & _) & _). lia.
    - intros a c' Ha Sa' Nc'. assert (Sa : S a = true) by now apply HS'.
      destruct (next_ex S n a Ha) as (b & Nab). pose proof Nab as (L1 & L2 & L3 & L4).
      destruct (Nat.eq_dec b n) as [En|En].
      + assert (c' = b) as ->.
        { eapply next_uniq; [exact Nc'|]. split; auto. split; auto. split; [lia|]. intros k K1 K2.
          destruct (S' k) eqn:E; auto. apply HS' in E; [|lia]. destruct E as [E _]. rewrite L4 in E by auto. discriminate. }
        now apply HI.
      + assert (Hb : b < n) by lia. assert (Sb : S b = true) by auto.
        destruct (S' b) eqn:Sb'.
        * assert (c' = b) as ->.
          { eapply next_uniq; [exact Nc'|]. split; auto. split; auto. split; [auto|]. intros k K1 K2.
            destruct (S' k) eqn:E; auto. apply HS' in E; [|lia]. destruct E as [E _]. rewrite L4 in E by auto. discriminate. }
          now apply HI.
        * assert (MB : mg S b).
          { destruct (next_ex S n b Hb) as (c & Nbc).
            destruct (Z.ltb_spec (dlt b a) 0) as [|_]; [unfold dlt in *; lia|].
            assert (D : ~ ~ mg S b). { intros Q. assert (S' b = true) by (apply HS'; auto). congruence. }
            (* decidability by cases *)
            assert (Pba : is_prev S b a) by (eapply next_prev; eauto).
            destruct (Nat.eq_dec c n) as [Ec|Ec].
            - destruct (Nat.eq_dec a 0) as [Ea|Ea].
              + exists a, c. repeat split; try apply Pba; try apply Nbc; intros; try lia. destruct H as (X & _). lia.
              + destruct (prev_ex S a H0 ltac:(lia)) as (z & Pz).
                destruct (Z.lt_ge_cases (dlt a z) (dlt b a)) as [Y|Y].
                * exists a, c. repeat split; try apply Pba; try apply Nbc; intros; try lia. now rewrite (prev_uniq _ _ _ _ H Pz).
                * exfalso. apply D. intros (a' & c2 & P1 & _ & _ & P4). rewrite (prev_uniq _ _ _ _ P1 Pba) in *. specialize (P4 z Pz). lia.
            - destruct (Z.lt_ge_cases (dlt b c) (dlt b a)) as [Y0|Y0].
              + destruct (Nat.eq_dec a 0) as [Ea|Ea].
                * exists a, c. repeat split; try apply Pba; try apply Nbc; intros; auto. destruct H as (X & _). lia.
                * destruct (prev_ex S a H0 ltac:(lia)) as (z & Pz).
                  destruct (Z.lt_ge_cases (dlt a z) (dlt b a)) as [Y|Y].
                  -- exists a, c. repeat split; try apply Pba; try apply Nbc; intros; auto. now rewrite (prev_uniq _ _ _ _ H Pz).
                  -- exfalso. apply D. intros (a' & c2 & P1 & _ & _ & P4). rewrite (prev_uniq _ _ _ _ P1 Pba) in *. specialize (P4 z Pz). lia.
              + exfalso. apply D. intros (a' & c2 & P1 & P2 & P3 & _). rewrite (prev_uniq _ _ _ _ P1 Pba) in *.
                rewrite (next_uniq _ _ _ _ _ P2 Nbc) in *. assert (c <= n) by apply Nbc. specialize (P3 ltac:(lia)). lia. }
          destruct MB as (a' & c & Pb & Nbc & D0 & DM).
          assert (a' = a) as -> by (eapply prev_uniq; eauto; eapply next_prev; eauto).
          assert (c' = c) as ->.
          { eapply next_uniq; [exact Nc'|]. pose proof Nbc as (M1 & M2 & M3 & M4). split; [lia|]. split; auto. split.
            - intros Hc. apply HS'; auto. split; auto. intros (b2 & c2 & P1 & _ & _ & P4).
              assert (b2 = b) as -> by (eapply prev_uniq; eauto; eapply next_prev; eauto).
              specialize (P4 a Pb). specialize (D0 Hc).
              assert (E1 : dlt b c = dlt c b) by (unfold dlt; now rewrite clz_xor_comm). lia.
            - intros k K1 K2. destruct (S' k) eqn:E; auto. pose proof E as E0. apply HS' in E; [|lia]. destruct E as [E _].
              destruct (Nat.lt_trichotomy k b) as [K|[K|K]]; [rewrite L4 in E by auto; discriminate|subst; congruence|rewrite M4 in E by auto; discriminate]. }
          eapply merge_cells; eauto.
  Qed.
End Cells.

(** From the kernels to flags *)
Definition flags (T : list Z) (i : nat) : bool := negb (nth i T 0 =? 0)%Z.

Section Item.
  Variables (w : N) (m : list N) (n : nat).
  Hypothesis Hlen : n <= length m.
  Hypothesis Hn2 : (Z.of_nat n < 2 ^ 31)%Z.
  Hypothesis Hn0 : 0 < n.
  Notation mm := (fun i => nth i m 0%N).

  Lemma delta_in x y : x < n -> y < n ->
    karras_delta w (Z.of_nat n) (fun k => nth (Z.to_nat k) m 0%N) (i32w (Z.of_nat x)) (i32w (Z.of_nat y)) = Ok (dlt w mm x y).
  Proof.
    intros Hx Hy. rewrite !i32w_id by lia. unfold karras_delta. rewrite !u32w_id by lia.
    replace ((Z.of_nat y >? Z.of_nat n - 1)%Z || (Z.of_nat y <? 0)%Z) with false by lia.
    replace ((0 <=? Z.of_nat x)%Z && (Z.of_nat x <? Z.of_nat n)%Z && (Z.of_nat y <? Z.of_nat n)%Z) with true by lia.
    unfold dlt. now rewrite !Nat2Z.id.
  Qed.
  Lemma delta_n x : karras_delta w (Z.of_nat n) (fun k => nth (Z.to_nat k) m 0%N) x (i32w (Z.of_nat n)) = Ok (-1)%Z.
  Proof.
    rewrite i32w_id by lia. unfold karras_delta. rewrite !u32w_id by lia.
    replace (Z.of_nat n >? Z.of_nat n - 1)%Z with true by lia. reflexivity.
  Qed.
  Lemma delta_neg x k : (k = 2 ^ 32 - 1 \/ k = 2 ^ 32 - 2)%Z -> karras_delta w (Z.of_nat n) (fun k => nth (Z.to_nat k) m 0%N) x (i32w k) = Ok (-1)%Z.
  Proof.
    intros H. unfold karras_delta. replace (i32w k <? 0)%Z with true; [now rewrite orb_true_r|].
    destruct H as [->| ->]; reflexivity.
  Qed.

  Lemma item_ok T i : length T = n -> flags T 0 = true -> i < n ->
    exists b, reduction_item w n m T i = Ok (if b : bool then 1 else 0)%Z /\ (b = true <-> flags T i = true /\ ~ mg w n mm (flags T) i).
  Proof.
    intros HT H0 Hi. unfold reduction_item.
    destruct (next_ex (flags T) n i Hi) as (c & Nc).
    replace (u32w (Z.of_nat i + 1)) with (Z.of_nat i + 1)%Z by (rewrite u32w_id; lia).
    destruct (Nat.eq_dec i 0) as [->|Ni].
    - change (u32w (Z.of_nat 0 - 1)) with (2 ^ 32 - 1)%Z. rewrite seek_out by (auto; lia). cbn [rbind].
      change (u32w (2 ^ 32 - 1 - 1)) with (2 ^ 32 - 2)%Z. rewrite seek_out by (auto; lia). cbn [rbind].
      rewrite (seek_up n T HT Hn0 Hn2 (n - 0) 0 n c) by (auto; lia). cbn [rbind].
      assert (D0 : exists d, karras_delta w (Z.of_nat n) (fun k => nth (Z.to_nat k) m 0%N) (i32w (Z.of_nat 0)) (i32w (Z.of_nat c)) = Ok d /\ (-1 <= d)%Z).
      { destruct (Nat.eq_dec c n) as [->|E]; [rewrite delta_n; eexists; split; [reflexivity|lia]|].
        assert (c <= n) by apply Nc. rewrite delta_in by lia. eexists; split; [reflexivity|unfold dlt; lia]. }
      destruct D0 as (d & -> & Hd). cbn [rbind]. rewrite delta_neg by auto. cbn [rbind]. rewrite delta_neg by auto. cbn [rbind].
      rewrite (aget_lt T 0 0%Z) by lia. cbn [rbind]. unfold flags in H0. rewrite H0.
      replace (d <? -1)%Z with false by lia. exists true. split; [reflexivity|]. split; auto. intros _. split; auto.
      intros (a & c' & (A & _) & _). lia.
    - destruct (prev_ex (flags T) i H0) as (a & Pa); [lia|]. assert (La : a < i) by apply Pa.
      replace (u32w (Z.of_nat i - 1)) with (Z.of_nat i - 1)%Z by (rewrite u32w_id; lia).
      rewrite (seek_down n T HT Hn0 Hn2 i n a) by (auto; lia). cbn [rbind].
      assert (B2 : exists b2, seek n (Z.of_nat n) T (-1) (u32w (Z.of_nat a - 1)) = Ok b2 /\
                    exists dmm, karras_delta w (Z.of_nat n) (fun k => nth (Z.to_nat k) m 0%N) (i32w (Z.of_nat a)) (i32w b2) = Ok dmm /\
                      forall v, (0 <= v)%Z -> (dmm < v)%Z <-> forall z, is_prev (flags T) a z -> (dlt w mm a z < v)%Z).
      { destruct (Nat.eq_dec a 0) as [->|Na].
        - change (u32w (Z.of_nat 0 - 1)) with (2 ^ 32 - 1)%Z. exists (2 ^ 32 - 1)%Z. rewrite seek_out by (auto; lia). split; auto.
          exists (-1)%Z. rewrite delta_neg by auto. split; auto. intros v Hv. split; [|lia]. intros _ z (A & _). lia.
        - destruct (prev_ex (flags T) a H0) as (z & Pz); [lia|]. assert (z < a) by apply Pz. exists (Z.of_nat z). split.
          + replace (u32w (Z.of_nat a - 1)) with (Z.of_nat a - 1)%Z by (rewrite u32w_id; lia). apply seek_down; auto; lia.
          + exists (dlt w mm a z). rewrite delta_in by lia. split; auto. intros v Hv. split; [|auto].
            intros X z' Pz'. now rewrite (prev_uniq _ _ _ _ Pz' Pz). }
      destruct B2 as (b2 & -> & dmm & Edmm & Hdmm). cbn [rbind].
      rewrite (seek_up n T HT Hn0 Hn2 (n - i) i n c) by (auto; lia). cbn [rbind].
      assert (D0 : exists d, karras_delta w (Z.of_nat n) (fun k => nth (Z.to_nat k) m 0%N) (i32w (Z.of_nat i)) (i32w (Z.of_nat c)) = Ok d /\
                   forall v, (0 <= v)%Z -> (d < v)%Z <-> (c < n -> (dlt w mm i c < v)%Z)).
      { destruct (Nat.eq_dec c n) as [->|E]; [rewrite delta_n; eexists; split; [reflexivity|intros; lia]|].
        assert (c <= n) by apply Nc. rewrite delta_in by lia. eexists; split; [reflexivity|]. intros v Hv. split; [auto|]. intros X. apply X. lia. }
      destruct D0 as (d & -> & Hd). cbn [rbind]. rewrite delta_in by lia. cbn [rbind]. rewrite Edmm. cbn [rbind].
      rewrite (aget_lt T i 0%Z) by lia. cbn [rbind].
      assert (V0 : (0 <= dlt w mm i a)%Z) by (unfold dlt; lia).
      specialize (Hd _ V0). specialize (Hdmm _ V0).
      eexists. split; [reflexivity|].
      rewrite andb_true_iff, negb_true_iff, andb_false_iff.
      change (negb (nth i T 0%Z =? 0)%Z) with (flags T i).
      assert (MG : mg w n mm (flags T) i <-> (d < dlt w mm i a)%Z /\ (dmm < dlt w mm i a)%Z).
      { rewrite Hd, Hdmm. split.
        - intros (a' & c' & P1 & P2 & P3 & P4). rewrite (prev_uniq _ _ _ _ P1 Pa) in *. rewrite (next_uniq _ _ _ _ _ P2 Nc) in *. auto.
        - intros [P3 P4]. exists a, c. auto. }
      rewrite MG. lia.
  Qed.
End Item.

(** the split tables *)
Section Table.
  Variables (w : N) (m : list N) (n : nat).
  Hypothesis Hlen : n <= length m.
  Hypothesis Hn2 : (Z.of_nat n < 2 ^ 31)%Z.
  Hypothesis Hn0 : 0 < n.
  Notation mm := (fun i => nth i m 0%N).
  Hypothesis Hs : forall x y, x <= y -> y < n -> (mm x <= mm y)%N.
  Hypothesis Hw : forall x, x < n -> (mm x < 2 ^ w)%N.

  Definition good (T : list Z) : Prop :=
    length T = n /\ (forall f, In f T -> f = 0%Z \/ f = 1%Z) /\ INV n mm (flags T).
  (** one iteration, as a relation between tables *)
  Definition red_step (T T' : list Z) : Prop :=
    forall i, i < n -> flags T' i = true <-> flags T i = true /\ ~ mg w n mm (flags T) i.

  Lemma iteration_ok order T old : good T -> length old = n -> Permutation order (seq 0 n) ->
    exists T', reduction_iteration w order n m T old = Ok T' /\ good T' /\ red_step T T'.
  Proof.
    intros (L & B & HV) HO HP. unfold reduction_iteration, kernel_call. replace (n =? 0) with false by lia.
    set (g := fun i => match reduction_item w n m T i with Ok v => v | _ => 0%Z end).
    assert (HF : forall i, i < n -> reduction_item w n m T i = Ok (g i)).
    { intros i Hi. unfold g. destruct (item_ok w m n Hlen Hn2 Hn0 T i L (proj1 HV) Hi) as (b & E & _). now rewrite E. }
    pose proof (par_write_ok _ g order n old HP HO HF) as E. unfold par_write in E. rewrite E.
    exists (map g (seq 0 n)). split; auto.
    assert (RS : red_step T (map g (seq 0 n))).
    { intros i Hi. unfold flags at 1. rewrite (nth_indep _ 0%Z (g 0)) by (now rewrite map_length, seq_length).
      rewrite map_nth, seq_nth by auto. cbn [Nat.add]. unfold g.
      destruct (item_ok w m n Hlen Hn2 Hn0 T i L (proj1 HV) Hi) as (b & E1 & E2). rewrite E1, <- E2. destruct b; simpl; intuition congruence. }
    split; auto. split; [now rewrite map_length, seq_length|]. split.
    - intros f Hf. apply in_map_iff in Hf. destruct Hf as (i & <- & Hi). apply in_seq in Hi. unfold g.
      destruct (item_ok w m n Hlen Hn2 Hn0 T i L (proj1 HV)) as (b & E1 & _); [lia|]. rewrite E1. destruct b; auto.
    - eapply step_INV; eauto.
  Qed.

  Lemma generate_ok order old : length old = n -> Permutation order (seq 0 n) ->
    exists T, generate_split_table order n m old = Ok T /\ good T /\
      forall i, i < n -> flags T i = true <-> i = 0 \/ mm (i - 1) <> mm i.
  Proof.
    intros HO HP. unfold generate_split_table, kernel_call. replace (n =? 0) with false by lia.
    set (g := fun i => if (0 <? i) && N.eqb (mm (i - 1)) (mm i) then 0%Z else 1%Z).
    assert (HF : forall i, i < n -> split_item m i = Ok (g i)).
    { intros i Hi. unfold split_item, g. destruct (Nat.ltb_spec 0 i) as [H|H]; auto.
      rewrite (aget_lt m (i - 1) 0%N), (aget_lt m i 0%N) by lia. cbn [rbind andb]. destruct (N.eqb _ _); reflexivity. }
    pose proof (par_write_ok _ g order n old HP HO HF) as E. unfold par_write in E. rewrite E.
    exists (map g (seq 0 n)). split; auto.
    assert (FG : forall i, i < n -> flags (map g (seq 0 n)) i = true <-> i = 0 \/ mm (i - 1) <> mm i).
    { intros i Hi. unfold flags. rewrite (nth_indep _ 0%Z (g 0)) by (now rewrite map_length, seq_length).
      rewrite map_nth, seq_nth by auto. cbn [Nat.add]. unfold g.
      destruct (N.eqb_spec (mm (i - 1)) (mm i)) as [Q|Q].
      - destruct i; simpl; [tauto|]. intuition (try congruence; try lia).
      - rewrite andb_false_r. simpl. tauto. }
    split; auto. split; [now rewrite map_length, seq_length|]. split.
    - intros f Hf. apply in_map_iff in Hf. destruct Hf as (i & <- & Hi). unfold g. destruct (_ && _); auto.
    - split; [apply FG; auto|]. intros a c Ha Fa (C1 & C2 & C3 & C4).
      assert (EQ : forall d, a + d < c -> mm (a + d) = mm a).
      { induction d as [|d IH]; intros Hd; [now rewrite Nat.add_0_r|]. rewrite <- IH by lia.
        assert (F : flags (map g (seq 0 n)) (a + S d) = false) by (apply C4; lia).
        destruct (N.eq_dec (mm (a + d)) (mm (a + S d))) as [|Q]; auto. exfalso.
        assert (flags (map g (seq 0 n)) (a + S d) = true); [|congruence]. apply FG; [lia|]. right.
        replace (a + S d - 1) with (a + d) by lia. auto. }
      exists 0%N. rewrite !N.shiftr_0_r. split.
      + intros x Hx. rewrite N.shiftr_0_r. replace x with (a + (x - a)) by lia. apply EQ. lia.
      + intros y Hy [Hya|Hyc]; rewrite N.shiftr_0_r.
        * apply FG in Fa; auto. destruct Fa as [|Fa]; [lia|].
          assert (mm y <= mm (a - 1)%nat)%N by (apply Hs; lia). assert (mm (a - 1)%nat <= mm a)%N by (apply Hs; lia). lia.
        * specialize (C3 ltac:(lia)). apply FG in C3; [|lia]. destruct C3 as [|C3]; [lia|].
          assert (mm c <= mm y)%N by (apply Hs; lia). assert (mm (c - 1)%nat <= mm c)%N by (apply Hs; lia).
          assert (mm (c - 1) = mm a) by (replace (c - 1) with (a + (c - 1 - a)) by lia; apply EQ; lia). lia.
  Qed.

  (** a chain of k iterations *)
  Inductive chain : nat -> list Z -> list Z -> Prop :=
  | chain_0 T : chain 0 T T
  | chain_S k T T1 T2 : chain k T T1 -> red_step T1 T2 -> good T2 -> chain (S k) T T2.

  Lemma iterate_ok orders T0 : (forall k, Permutation (orders k) (seq 0 n)) -> forall todo iter t1 t2 k,
    length t1 = n -> length t2 = n -> good (if iter mod 2 =? 0 then t2 else t1) ->
    chain k T0 (if iter mod 2 =? 0 then t2 else t1) ->
    exists t1' t2', iterate w orders n m iter todo t1 t2 = Ok (t1', t2') /\
      let T := if (iter + todo) mod 2 =? 0 then t2' else t1' in good T /\ chain (k + todo) T0 T.
  Proof.
    intros HO. induction todo as [|todo IH]; intros iter t1 t2 k L1 L2 G C.
    - exists t1, t2. rewrite !Nat.add_0_r. auto.
    - cbn [iterate].
      assert (Par : (S iter) mod 2 = 1 - iter mod 2).
      { pose proof (Nat.mod_upper_bound iter 2). pose proof (Nat.div_mod iter 2). pose proof (Nat.mod_upper_bound (S iter) 2). pose proof (Nat.div_mod (S iter) 2). lia. }
      pose proof (Nat.mod_upper_bound iter 2 ltac:(lia)) as PB.
      replace (iter + S todo) with (S iter + todo) by lia. replace (k + S todo) with (S k + todo) by lia.
      destruct (Nat.eqb_spec (iter mod 2) 0) as [E|E].
      + destruct (iteration_ok (orders iter) t2 t1 G L1 (HO iter)) as (t' & E1 & G1 & R1). rewrite E1. cbn [rbind].
        apply IH; auto; try apply G1; rewrite Par, E; cbn [Nat.sub Nat.eqb]; auto. econstructor; eauto.
      + destruct (iteration_ok (orders iter) t1 t2 G L2 (HO iter)) as (t' & E1 & G1 & R1). rewrite E1. cbn [rbind].
        assert (E' : iter mod 2 = 1) by lia.
        apply IH; auto; try apply G1; rewrite Par, E'; cbn [Nat.sub Nat.eqb]; auto. econstructor; eauto.
  Qed.

  Lemma split_table_ok orders level g1 g2 : (forall k, Permutation (orders k) (seq 0 n)) -> length g1 = n -> length g2 = n ->
    exists T0 T, split_table w orders n m level g1 g2 = Ok T /\ good T /\ chain level T0 T /\ good T0 /\
      forall i, i < n -> flags T0 i = true <-> i = 0 \/ mm (i - 1) <> mm i.
  Proof.
    intros HO L1 L2. unfold split_table. destruct (generate_ok (orders 0) g1 L1 (HO 0)) as (T0 & E0 & G0 & F0).
    rewrite E0. cbn [rbind].
    destruct (iterate_ok orders T0 HO level 1 T0 g2 0) as (t1 & t2 & E & G & C); auto.
    { apply G0. } { constructor. }
    rewrite E. cbn [rbind fst snd].
    assert (Par : ((1 + level) mod 2 =? 0) = negb (level mod 2 =? 0)).
    { pose proof (Nat.mod_upper_bound level 2). pose proof (Nat.div_mod level 2). pose proof (Nat.mod_upper_bound (1 + level) 2). pose proof (Nat.div_mod (1 + level) 2). lia. }
    rewrite Par in *. exists T0, (if level mod 2 =? 0 then t1 else t2). split; auto.
    destruct (level mod 2 =? 0); cbn [negb] in *; auto.
  Qed.
End Table.
