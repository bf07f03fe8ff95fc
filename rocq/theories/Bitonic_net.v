(** Sorting network theory used for C22: stages on functions, 0-1 principle, bitonic merge. *)
From Verif Require Import Base SortSearch_spec Bitonic.
From Coq Require Import ZifyBool ZifyNat.

Definition bit (b x : nat) : bool := Nat.odd (x / 2 ^ b).

Lemma p2 n : 0 < 2 ^ n.
Proof. induction n; simpl; lia. Qed.
Lemma p2S n : 2 ^ S n = 2 * 2 ^ n.
Proof. simpl; lia. Qed.

Lemma bit_form b q (e : bool) y : y < 2 ^ b -> bit b (q * 2 ^ S b + (if e then 2 ^ b else 0) + y) = e.
Proof.
  intros H. unfold bit. pose proof (p2 b).
  replace ((q * 2 ^ S b + (if e then 2 ^ b else 0) + y) / 2 ^ b) with (2 * q + if e then 1 else 0).
  - destruct e; rewrite ?Nat.add_0_r, ?Nat.odd_add, Nat.odd_mul; reflexivity.
  - apply Nat.div_unique with y; auto. rewrite p2S. destruct e; nia.
Qed.
Lemma bit_decomp b x : exists q e y, y < 2 ^ b /\ x = q * 2 ^ S b + (if e : bool then 2 ^ b else 0) + y.
Proof.
  pose proof (p2 b). exists (x / 2 ^ S b).
  assert (E : x = 2 ^ S b * (x / 2 ^ S b) + x mod 2 ^ S b) by (apply Nat.div_mod; rewrite p2S; lia).
  assert (L : x mod 2 ^ S b < 2 ^ S b) by (apply Nat.mod_upper_bound; rewrite p2S; lia).
  rewrite (Nat.mul_comm (2 ^ S b)) in E. set (r := x mod 2 ^ S b) in *. set (q := x / 2 ^ S b) in *. clearbody r q. rewrite p2S in L. generalize dependent (2 ^ S b). intros.
  destruct (Nat.lt_ge_cases r (2 ^ b)).
  - exists false, r. split; auto. rewrite Nat.add_0_r. exact E.
  - exists true, (r - 2 ^ b). split; [lia|]. rewrite E at 1. lia.
Qed.

Lemma map_add_seq h n : forall a, map (fun x => x + h) (seq a n) = seq (a + h) n.
Proof. induction n as [|n IH]; intros a; simpl; auto. f_equal. now rewrite IH. Qed.

Section Net.
  Context {K V : Type} (ltb : K -> K -> bool).
  Notation o1 := (@order1 K V ltb).

  Definition stage (rev : nat -> bool) (b : nat) (F : nat -> K * V) (x : nat) : K * V :=
    if bit b x then snd (o1 (F (x - 2 ^ b)) (F x) (rev x)) else fst (o1 (F x) (F (x + 2 ^ b)) (rev x)).
  (** bits c+s-1 down to c *)
  Fixpoint gst (c s : nat) (rev : nat -> bool) (F : nat -> K * V) : nat -> K * V :=
    match s with
    | O => F
    | S s' => gst c s' rev (stage rev (c + s') F)
    end.

  Lemma stage_low rev b F q y : y < 2 ^ b ->
    stage rev b F (q * 2 ^ S b + y) = fst (o1 (F (q * 2 ^ S b + y)) (F (q * 2 ^ S b + y + 2 ^ b)) (rev (q * 2 ^ S b + y))).
  Proof. intros H. unfold stage. pose proof (bit_form b q false y H) as B. rewrite Nat.add_0_r in B. now rewrite B. Qed.
  Lemma stage_high rev b F q y : y < 2 ^ b ->
    stage rev b F (q * 2 ^ S b + 2 ^ b + y) = snd (o1 (F (q * 2 ^ S b + y)) (F (q * 2 ^ S b + 2 ^ b + y)) (rev (q * 2 ^ S b + 2 ^ b + y))).
  Proof. intros H. unfold stage. pose proof (bit_form b q true y H) as B. rewrite B.
    replace (q * 2 ^ S b + 2 ^ b + y - 2 ^ b) with (q * 2 ^ S b + y) by lia. reflexivity. Qed.

  (** locality: only the values below 2^n matter *)
  Lemma stage_ext n rev rev' b F G : b < n -> (forall x, x < 2 ^ n -> F x = G x) -> (forall x, x < 2 ^ n -> rev x = rev' x) ->
    forall x, x < 2 ^ n -> stage rev b F x = stage rev' b G x.
  Proof.
    intros Hb H R x Hx. unfold stage.
    destruct (bit_decomp b x) as (q & e & y & Hy & E).
    assert (Hd : exists m, 2 ^ n = m * 2 ^ S b).
    { exists (2 ^ (n - S b)). rewrite <- Nat.pow_add_r. f_equal. lia. }
    destruct Hd as (m & Hm). rewrite p2S in *.
    assert (Hq : q < m) by (destruct e; nia).
    replace (bit b x) with e by (rewrite E, <- p2S; symmetry; now apply bit_form).
    destruct e.
    - rewrite (H (x - 2 ^ b)) by lia. rewrite H, R by lia. reflexivity.
    - rewrite (H (x + 2 ^ b)) by nia. rewrite H, R by lia. reflexivity.
  Qed.
  Lemma gst_ext n rev rev' c s : forall F G, c + s <= n -> (forall x, x < 2 ^ n -> F x = G x) -> (forall x, x < 2 ^ n -> rev x = rev' x) ->
    forall x, x < 2 ^ n -> gst c s rev F x = gst c s rev' G x.
  Proof.
    induction s as [|s IH]; intros F G Hn H R x Hx; simpl; auto.
    apply IH; auto; [lia|]. intros z Hz. apply (stage_ext n); auto. lia.
  Qed.
  Lemma gst_split rev c s : forall F x, gst 0 (c + s) rev F x = gst 0 c rev (gst c s rev F) x.
  Proof.
    induction s as [|s IH]; intros F x; simpl.
    - now rewrite Nat.add_0_r.
    - rewrite Nat.add_succ_r. simpl. apply IH.
  Qed.

  (** A group of positions q*2^(c+s) + low + k*2^c (k < 2^s) evolves on its own. *)
  Lemma gst_group rev r c : forall s F q low, low < 2 ^ c ->
    (forall k, k < 2 ^ s -> rev (q * 2 ^ (c + s) + low + k * 2 ^ c) = r) ->
    forall k, k < 2 ^ s ->
      gst c s rev F (q * 2 ^ (c + s) + low + k * 2 ^ c)
      = gst 0 s (fun _ => r) (fun k => F (q * 2 ^ (c + s) + low + k * 2 ^ c)) k.
  Proof.
    revert rev r c.
    assert (Main : forall s rev r c F q low, low < 2 ^ c ->
      (forall k, k < 2 ^ s -> rev (q * 2 ^ (c + s) + low + k * 2 ^ c) = r) ->
      forall k, k < 2 ^ s ->
      gst c s rev F (q * 2 ^ (c + s) + low + k * 2 ^ c)
      = gst 0 s (fun _ => r) (fun k => F (q * 2 ^ (c + s) + low + k * 2 ^ c)) k).
    { induction s as [|s IH]; intros rev r c F q low Hl R k Hk.
      - simpl. reflexivity.
      - cbn [gst]. rewrite Nat.add_0_l.
        pose proof (p2 c). pose proof (p2 s). rewrite p2S in Hk.
        assert (Ecs : 2 ^ (c + s) = 2 ^ c * 2 ^ s) by apply Nat.pow_add_r.
        assert (EcS : 2 ^ (c + S s) = 2 * (2 ^ c * 2 ^ s)) by (rewrite Nat.pow_add_r, p2S; lia).
        set (f := fun k0 => F (q * 2 ^ (c + S s) + low + k0 * 2 ^ c)).
        assert (EX : exists (e : bool) k', k' < 2 ^ s /\ k = (if e then 2 ^ s else 0) + k').
        { destruct (Nat.lt_ge_cases k (2 ^ s)); [exists false, k | exists true, (k - 2 ^ s)]; split; auto; lia. }
        destruct EX as (e & k' & Hk' & Ek).
        set (q' := 2 * q + if e then 1 else 0).
        assert (E1 : forall z, q * 2 ^ (c + S s) + low + ((if e then 2 ^ s else 0) + z) * 2 ^ c = q' * 2 ^ (c + s) + low + z * 2 ^ c).
        { intros z. unfold q'. rewrite EcS, Ecs. destruct e; ring. }
        rewrite Ek, E1. rewrite (IH rev r c _ q' low); auto.
        2:{ intros z Hz. rewrite <- E1. apply R. rewrite p2S. destruct e; lia. }
        pose proof (IH (fun _ => r) r 0 (stage (fun _ => r) s f) (if e then 1 else 0) 0) as I2.
        cbn [Nat.add] in I2. change (2 ^ 0) with 1 in I2.
        specialize (I2 ltac:(lia) ltac:(auto) k' Hk').
        replace ((if e then 1 else 0) * 2 ^ s + 0 + k' * 1) with ((if e then 2 ^ s else 0) + k') in I2 by (destruct e; lia).
        rewrite I2. apply (gst_ext s); auto.
        intros z Hz.
        replace ((if e then 1 else 0) * 2 ^ s + 0 + z * 1) with ((if e then 2 ^ s else 0) + z) by (destruct e; lia).
        set (y := z * 2 ^ c + low).
        assert (Hy : y < 2 ^ (c + s)) by (unfold y; rewrite Ecs; nia).
        assert (RR : rev (q' * 2 ^ (c + s) + low + z * 2 ^ c) = r) by (rewrite <- E1; apply R; rewrite p2S; destruct e; lia).
        replace (q' * 2 ^ (c + s) + low + z * 2 ^ c) with (q * 2 ^ S (c + s) + (if e then 2 ^ (c + s) else 0) + y) in *
          by (unfold q', y; rewrite p2S; destruct e; lia).
        destruct e.
        + rewrite stage_high by auto. rewrite RR.
          pose proof (stage_high (fun _ => r) s f 0 z Hz) as S2. rewrite Nat.mul_0_l, !Nat.add_0_l in S2.
          rewrite S2. unfold f.
          replace (q * 2 ^ S (c + s) + y) with (q * 2 ^ (c + S s) + low + z * 2 ^ c) by (unfold y; rewrite EcS, p2S, Ecs; ring).
          replace (q * 2 ^ S (c + s) + 2 ^ (c + s) + y) with (q * 2 ^ (c + S s) + low + (2 ^ s + z) * 2 ^ c) by (unfold y; rewrite EcS, p2S, Ecs; ring).
          reflexivity.
        + rewrite Nat.add_0_r in *. rewrite Nat.add_0_l. rewrite stage_low by auto. rewrite RR.
          pose proof (stage_low (fun _ => r) s f 0 z Hz) as S2. rewrite Nat.mul_0_l, !Nat.add_0_l in S2.
          rewrite S2. unfold f.
          replace (q * 2 ^ S (c + s) + y + 2 ^ (c + s)) with (q * 2 ^ (c + S s) + low + (z + 2 ^ s) * 2 ^ c) by (unfold y; rewrite EcS, p2S, Ecs; ring).
          replace (q * 2 ^ S (c + s) + y) with (q * 2 ^ (c + S s) + low + z * 2 ^ c) by (unfold y; rewrite EcS, p2S, Ecs; ring).
          reflexivity. }
    intros rev r c s. apply Main.
  Qed.
  Lemma gst_group_ext rev c s F G q low : low < 2 ^ c ->
    (forall k, k < 2 ^ s -> rev (q * 2 ^ (c + s) + low + k * 2 ^ c) = rev (q * 2 ^ (c + s) + low)) ->
    (forall k, k < 2 ^ s -> F (q * 2 ^ (c + s) + low + k * 2 ^ c) = G (q * 2 ^ (c + s) + low + k * 2 ^ c)) ->
    forall k, k < 2 ^ s -> gst c s rev F (q * 2 ^ (c + s) + low + k * 2 ^ c) = gst c s rev G (q * 2 ^ (c + s) + low + k * 2 ^ c).
  Proof.
    intros Hl R H k Hk. rewrite !(gst_group rev (rev (q * 2 ^ (c + s) + low))); auto.
    apply (gst_ext s); auto.
  Qed.

  (** permutation *)
  Lemma perm_two (f1 f2 g1 g2 : nat -> K * V) l :
    (forall x, In x l -> (g1 x = f1 x /\ g2 x = f2 x) \/ (g1 x = f2 x /\ g2 x = f1 x)) ->
    Permutation (map g1 l ++ map g2 l) (map f1 l ++ map f2 l).
  Proof.
    induction l as [|a l IH]; intros H; simpl; auto.
    specialize (IH (fun x Hx => H x (or_intror Hx))).
    destruct (H a (or_introl eq_refl)) as [[E1 E2]|[E1 E2]]; rewrite E1, E2.
    - apply perm_skip. rewrite <- !Permutation_middle. now apply perm_skip.
    - rewrite <- !Permutation_middle. rewrite perm_swap. now do 2 apply perm_skip.
  Qed.
  Lemma stage_perm rev b F m : (forall q y, y < 2 ^ b -> rev (q * 2 ^ S b + y) = rev (q * 2 ^ S b + 2 ^ b + y)) ->
    Permutation (map (stage rev b F) (seq 0 (m * 2 ^ S b))) (map F (seq 0 (m * 2 ^ S b))).
  Proof.
    intros R. induction m as [|m IH]; [reflexivity|].
    replace (S m * 2 ^ S b) with (m * 2 ^ S b + 2 ^ S b) by lia.
    rewrite seq_app, !map_app. apply Permutation_app; auto. rewrite Nat.add_0_l.
    replace (seq (m * 2 ^ S b) (2 ^ S b)) with (seq (m * 2 ^ S b) (2 ^ b) ++ map (fun x => x + 2 ^ b) (seq (m * 2 ^ S b) (2 ^ b))).
    - rewrite !map_app, !map_map. apply perm_two. intros x Hx. rewrite in_seq in Hx.
      assert (Ex : exists y, y < 2 ^ b /\ x = m * 2 ^ S b + y) by (exists (x - m * 2 ^ S b); lia).
      destruct Ex as (y & Hy & ->). rewrite stage_low by auto.
      replace (m * 2 ^ S b + y + 2 ^ b) with (m * 2 ^ S b + 2 ^ b + y) by lia. rewrite stage_high by auto.
      rewrite <- R by auto. unfold order1. destruct (xorb _ _); simpl; auto.
    - rewrite p2S at 4. replace (2 * 2 ^ b) with (2 ^ b + 2 ^ b) by lia. rewrite seq_app. f_equal.
      apply map_add_seq.
  Qed.
  Lemma gst_perm n rev : forall c s F, c + s <= n ->
    (forall b q y, c <= b < c + s -> y < 2 ^ b -> rev (q * 2 ^ S b + y) = rev (q * 2 ^ S b + 2 ^ b + y)) ->
    Permutation (map (gst c s rev F) (seq 0 (2 ^ n))) (map F (seq 0 (2 ^ n))).
  Proof.
    intros c s. induction s as [|s IH]; intros F Hn R; simpl; auto.
    rewrite IH; [|lia|intros; apply R; auto; lia].
    replace (2 ^ n) with (2 ^ (n - S (c + s)) * 2 ^ S (c + s)) by (rewrite <- Nat.pow_add_r; f_equal; lia).
    apply stage_perm. intros; apply R; auto; lia.
  Qed.
End Net.
