(** The Karras kernel builds the radix tree. *)
From Verif Require Import Base Bits Morton Karras Karras_spec Karras_abs.
From Coq Require Import ZifyBool ZifyNat ZifyN.
Local Open Scope Z_scope.

(** ** delta on sorted codes *)
Lemma clz_xor_lt w a b : (a < b -> b < 2 ^ w -> exists p, clz_xor w a b = w - 1 - p /\ p < w /\
  N.testbit a p = false /\ N.testbit b p = true /\ forall j, p < j -> N.testbit a j = N.testbit b j)%N.
Proof.
  intros H Hb. destruct (lt_bit a b H) as (p & Ba & Bb & U & E). exists p.
  assert (X : N.lxor a b <> 0%N) by (intros X; apply N.lxor_eq in X; lia).
  assert (Pw : (p < w)%N).
  { destruct (N.lt_ge_cases p w); auto. rewrite (testbit_high b w p) in Bb by auto. discriminate. }
  split; [|split; auto]. unfold clz_xor, clz. rewrite N.size_log2, <- E by auto. lia.
Qed.
Lemma clz_xor_unique w a b p : (p < w -> N.testbit a p <> N.testbit b p -> (forall j, p < j -> N.testbit a j = N.testbit b j) ->
  clz_xor w a b = w - 1 - p)%N.
Proof.
  intros Hp D U. unfold clz_xor, clz.
  assert (E : N.log2 (N.lxor a b) = p).
  { apply N.log2_bits_unique.
    - rewrite N.lxor_spec. destruct (N.testbit a p), (N.testbit b p); try reflexivity; congruence.
    - intros j Hj. rewrite N.lxor_spec, U by auto. apply xorb_nilpotent. }
  assert (X : N.lxor a b <> 0%N).
  { intros X. apply N.lxor_eq in X. subst b. now apply D. }
  rewrite N.size_log2, E by auto. lia.
Qed.
Lemma clz_xor_comm w a b : clz_xor w a b = clz_xor w b a.
Proof. unfold clz_xor. now rewrite N.lxor_comm. Qed.
Lemma clz_xor_min w a b c : (a < b -> b < c -> c < 2 ^ w ->
  clz_xor w a c = N.min (clz_xor w a b) (clz_xor w b c) /\ clz_xor w a b <> clz_xor w b c)%N.
Proof.
  intros H1 H2 H3.
  destruct (clz_xor_lt w a b) as (p & Ep & Pp & A1 & A2 & A3); auto; [lia|].
  destruct (clz_xor_lt w b c) as (q & Eq & Pq & B1 & B2 & B3); auto.
  assert (NE : p <> q) by (intros ->; congruence).
  destruct (N.lt_ge_cases p q) as [L|L].
  - rewrite (clz_xor_unique w a c q); auto; [lia| |].
    + rewrite A3 by auto. congruence.
    + intros j Hj. rewrite A3 by lia. apply B3; auto.
  - rewrite (clz_xor_unique w a c p); auto; [lia| |].
    + rewrite <- B3 by lia. congruence.
    + intros j Hj. rewrite A3 by lia. apply B3; lia.
Qed.

Section Cells.
  Variable w : N.
  Variable n : Z.
  Variable m : Z -> N.
  Hypothesis Hn : 2 <= n <= 2 ^ 24 + 1.
  Hypothesis Hm : forall a b, 0 <= a < b -> b < n -> (m a < m b)%N.
  Hypothesis Hw : forall a, 0 <= a < n -> (m a < 2 ^ w)%N.

  Definition dl (x y : Z) : Z := if (0 <=? y) && (y <? n) then Z.of_N (clz_xor w (m x) (m y)) else -1.
  Definition e (k : Z) : Z := if (0 <=? k) && (k <? n - 1) then dl k (k + 1) else -1.

  Lemma dl_in x y : 0 <= y < n -> dl x y = Z.of_N (clz_xor w (m x) (m y)).
  Proof. intros H. unfold dl. replace ((0 <=? y) && (y <? n)) with true by lia. reflexivity. Qed.
  Lemma dl_out x y : y < 0 \/ n <= y -> dl x y = -1.
  Proof. intros H. unfold dl. replace ((0 <=? y) && (y <? n)) with false by lia. reflexivity. Qed.
  Lemma dl_sym x y : 0 <= x < n -> 0 <= y < n -> dl x y = dl y x.
  Proof. intros Hx Hy. rewrite !dl_in by auto. now rewrite clz_xor_comm. Qed.
  Lemma dl_min a b c : 0 <= a < b -> b < c -> c < n -> dl a c = Z.min (dl a b) (dl b c) /\ dl a b <> dl b c.
  Proof.
    intros H1 H2 H3. rewrite !dl_in by lia.
    destruct (clz_xor_min w (m a) (m b) (m c)) as [E N]; try (apply Hm; lia); [apply Hw; lia|]. rewrite E. lia.
  Qed.
  Lemma dl_ge x y : -1 <= dl x y.
  Proof. unfold dl. destruct (_ && _); lia. Qed.
  Lemma e_in k : 0 <= k < n - 1 -> e k = dl k (k + 1).
  Proof. intros H. unfold e. replace ((0 <=? k) && (k <? n - 1)) with true by lia. reflexivity. Qed.
  Lemma e_out k : k < 0 \/ n - 1 <= k -> e k = -1.
  Proof. intros H. unfold e. replace ((0 <=? k) && (k <? n - 1)) with false by lia. reflexivity. Qed.
  Lemma dl_mono_r a b c : 0 <= a < b -> b <= c -> dl a c <= dl a b.
  Proof.
    intros H1 H2. destruct (Z.lt_ge_cases c n); [|rewrite (dl_out a c) by lia; apply dl_ge].
    destruct (Z.eq_dec b c) as [->|]; [lia|]. destruct (dl_min a b c); lia.
  Qed.
  Lemma dl_mono_l a b c : a <= b -> b < c < n -> 0 <= c -> dl c a <= dl c b.
  Proof.
    intros H1 H2 H3. destruct (Z.lt_ge_cases a 0); [rewrite (dl_out c a) by lia; apply dl_ge|].
    destruct (Z.eq_dec a b) as [->|]; [lia|]. rewrite (dl_sym c a), (dl_sym c b) by lia.
    destruct (dl_min a b c); lia.
  Qed.
  Lemma e_ge a b k : 0 <= a <= k -> k < b -> b < n -> dl a b <= e k.
  Proof.
    intros H1 H2 H3. rewrite e_in by lia.
    assert (E1 : dl a b <= dl k b). { destruct (Z.eq_dec a k) as [->|]; [lia|]. destruct (dl_min a k b); lia. }
    assert (E2 : dl k b <= dl k (k + 1)) by (apply dl_mono_r; lia). lia.
  Qed.
  Lemma DELTA_dl x y : 0 <= x < n -> - 2 ^ 31 <= y < 2 ^ 31 -> karras_delta w n m x y = Ok (dl x y).
  Proof.
    intros Hx Hy. unfold karras_delta. rewrite (u32w_id (n - 1)) by lia.
    destruct (Z.lt_ge_cases y 0).
    - replace (y <? 0) with true by lia. rewrite orb_true_r, dl_out by lia. reflexivity.
    - rewrite (u32w_id y) by lia. destruct (Z.lt_ge_cases y n).
      + replace ((y >? n - 1) || (y <? 0)) with false by lia.
        replace ((0 <=? x) && (x <? n) && (y <? n)) with true by lia. rewrite dl_in by lia. reflexivity.
      + replace ((y >? n - 1) || (y <? 0)) with true by lia. rewrite dl_out by lia. reflexivity.
  Qed.

  (** what one work item computes *)
  Record cell_data (i : Z) (c : cell) (lo hi g : Z) : Prop := {
    cd_rng : 0 <= lo /\ lo <= g /\ g < hi /\ hi <= n - 1;
    cd_cell : c = mkcell g (lo =? g) (g + 1) (hi =? g + 1) (lo + hi - i);
    cd_side : (i = lo /\ e lo > e (lo - 1) /\ e (lo - 1) < dl lo hi /\ e hi <= e (lo - 1)) \/
              (i = hi /\ e (hi - 1) > e hi /\ e hi < dl lo hi /\ e (lo - 1) <= e hi);
    cd_left : lo < g -> dl lo g > dl lo hi;
    cd_right : g + 1 < hi -> dl (g + 1) hi > dl lo hi }.

  Lemma karras_cell_ok i : 0 <= i < n - 1 -> exists c lo hi g, karras_cell w n m i = Ok c /\ cell_data i c lo hi g.
  Proof.
    intros Hi. unfold karras_cell.
    rewrite !i32w_id by lia. rewrite !DELTA_dl by lia. cbn [rbind].
    assert (Ea : dl i (i + 1) = e i) by (rewrite e_in by lia; reflexivity).
    assert (Eb : dl i (i - 1) = e (i - 1)).
    { destruct (Z.eq_dec i 0) as [->|]; [rewrite dl_out, e_out by lia; reflexivity|].
      rewrite e_in by lia. replace (i - 1 + 1) with i by lia. apply dl_sym; lia. }
    assert (NE : e i <> e (i - 1)).
    { rewrite <- Ea, <- Eb. destruct (Z.eq_dec i 0) as [->|].
      - rewrite (dl_out 0 (0 - 1)) by lia. rewrite dl_in by lia. lia.
      - destruct (dl_min (i - 1) i (i + 1)) as [_ X]; try lia. rewrite (dl_sym i (i - 1)) by lia. lia. }
    rewrite Ea, Eb. set (d := Z.sgn (e i - e (i - 1))).
    assert (Hd : (d = 1 /\ e i > e (i - 1)) \/ (d = -1 /\ e (i - 1) > e i)) by (unfold d; lia).
    assert (Hd' : d = 1 \/ d = -1) by lia. clearbody d.
    rewrite i32w_id by lia. rewrite DELTA_dl by lia. cbn [rbind].
    set (dmin := dl i (i - d)). set (f := fun x => dl i (i + x * d)).
    assert (Hmono : forall x y, 1 <= x <= y -> f y <= f x).
    { intros x y Hxy. unfold f. destruct Hd' as [->| ->].
      - apply dl_mono_r; lia.
      - apply dl_mono_l; lia. }
    assert (F1 : f 1 > dmin).
    { unfold f, dmin. destruct Hd as [[-> G]|[-> G]].
      - replace (i + 1 * 1) with (i + 1) by lia. rewrite Ea, Eb. exact G.
      - replace (i + 1 * -1) with (i - 1) by lia. replace (i - -1) with (i + 1) by lia. rewrite Ea, Eb. exact G. }
    assert (Dm : -1 <= dmin) by apply dl_ge.
    assert (Hi' : 0 <= i < n) by lia.
    destruct (lmax_loop_ok w n m dl Hn DELTA_dl (fun x y _ => dl_out x y) (fun x y _ => dl_ge x y) i d Hi' Hd' Hmono dmin Dm 40 1) as (K & EK & BK & FK); try lia.
    change (2 ^ 1) with 2 in EK. rewrite EK. cbn [rbind].
    assert (P26 : 2 ^ K <= 2 ^ 26) by (apply Z.pow_le_mono_r; lia).
    destruct (l_loop_ok w n m dl Hn DELTA_dl (fun x y _ => dl_out x y) (fun x y _ => dl_ge x y) i d Hi' Hd' Hmono dmin 40 K 0) as (l & El & Bl & Fl1 & Fl2); try lia; auto.
    rewrite El. cbn [rbind]. fold (f l) in Fl1. fold (f (l + 1)) in Fl2.
    assert (L1 : 1 <= l). { destruct (Z.eq_dec l 0) as [->|]; [|lia]. change (0 + 1) with 1 in Fl2. lia. }
    assert (Fl : f l > dmin) by lia. clear Fl1.
    assert (Hj : 0 <= i + l * d <= n - 1).
    { destruct (Z.lt_ge_cases (i + l * d) 0); [|destruct (Z.lt_ge_cases (i + l * d) n); [lia|]]; unfold f in Fl; rewrite dl_out in Fl by lia; lia. }
    rewrite (u32w_id (i + l * d)) by lia. rewrite i32w_id by lia. rewrite DELTA_dl by lia. cbn [rbind].
    fold (f l). 
    assert (Ll : l <= 2 ^ 24) by (destruct Hd' as [->| ->]; lia).
    destruct (split_loop_ok w n m dl Hn DELTA_dl (fun x y _ => dl_out x y) (fun x y _ => dl_ge x y) i d Hi' Hd' Hmono (f l) l ltac:(lia) (Z.le_refl _) 40 0 1) as (s & Es & S0 & S1 & S2); try lia.
    { change (0 + ceil_half l (1 - 1)) with (ceil_half l 0). replace (ceil_half l 0) with l; [apply Z.le_refl|].
      unfold ceil_half. rewrite fl32_id by lia. change (2 ^ 0) with 1. rewrite Z.div_1_r. lia. }
    rewrite Es. cbn [rbind]. fold (f s) in S1. fold (f (s + 1)) in S2.
    assert (Sl : s < l).
    { destruct S1 as [->|S1]; [lia|]. destruct (Z.lt_ge_cases s l); auto. specialize (Hmono l s). lia. }
    destruct Hd as [[-> G]|[-> G]].
    - (* forward *)
      rewrite Z.mul_1_r in *. replace (s * 1) with s by lia. replace (i + s + Z.min 1 0) with (i + s) by lia.
      rewrite i32w_id by lia. rewrite !u32w_id by lia.
      unfold f, dmin in *. replace (l * 1) with l in * by lia. replace (s * 1) with s in * by lia. replace ((l + 1) * 1) with (l + 1) in * by lia. replace ((s + 1) * 1) with (s + 1) in * by lia. rewrite Eb in *.
      replace (i + (l + 1)) with (i + l + 1) in Fl2 by lia. replace (i + (s + 1)) with (i + s + 1) in S2 by lia.
      exists (mkcell (i + s) (i =? i + s) (i + s + 1) (i + l =? i + s + 1) (i + l)), i, (i + l), (i + s).
      split; [do 2 f_equal; lia|]. split.
      + lia.
      + f_equal; lia.
      + left. split; [reflexivity|]. split; [exact G|]. split; [lia|].
        destruct (Z.lt_ge_cases (i + l) (n - 1)); [|rewrite (e_out (i + l)) by lia; unfold e; destruct (_ && _); [apply dl_ge|lia]].
        rewrite e_in by lia.
        destruct (dl_min i (i + l) (i + l + 1)); lia.
      + intros Hlt. destruct S1 as [->|S1]; [lia|]. exact S1.
      + intros Hlt.
        destruct (dl_min i (i + s + 1) (i + l)); lia.
    - (* backward *)
      replace (Z.min (-1) 0) with (-1) by lia. replace (i + s * -1 + -1) with (i - s - 1) by lia.
      replace (i + l * -1) with (i - l) in * by lia.
      rewrite i32w_id by lia. rewrite !u32w_id by lia.
      unfold f, dmin in *. replace (i - -1) with (i + 1) in * by lia. rewrite Ea in *.
      replace (i + l * -1) with (i - l) in * by lia. replace (i + (l + 1) * -1) with (i - l - 1) in * by lia.
      replace (i + s * -1) with (i - s) in * by lia. replace (i + (s + 1) * -1) with (i - s - 1) in * by lia.
      exists (mkcell (i - s - 1) (i - l =? i - s - 1) (i - s - 1 + 1) (i =? i - s - 1 + 1) (i - l)), (i - l), i, (i - s - 1).
      split; [do 2 f_equal; lia|]. split.
      + lia.
      + f_equal; lia.
      + right. split; [reflexivity|]. split; [lia|]. rewrite (dl_sym i (i - l)) in Fl by lia. split; [lia|].
        destruct (Z.eq_dec (i - l) 0) as [Z0|]; [rewrite (e_out (i - l - 1)) by lia; unfold e; destruct (_ && _); [apply dl_ge|lia]|].
        rewrite (e_in (i - l - 1)) by lia. replace (i - l - 1 + 1) with (i - l) by lia.
        rewrite (dl_sym i (i - l - 1)) in Fl2 by lia. destruct (dl_min (i - l - 1) (i - l) i); lia.
      + intros Hlt. rewrite (dl_sym i (i - s - 1)), (dl_sym i (i - l)) in S2 by lia.
        destruct (dl_min (i - l) (i - s - 1) i); lia.
      + intros Hlt. destruct S1 as [->|S1]; [lia|]. rewrite (dl_sym i (i - s)), (dl_sym i (i - l)) in S1 by lia.
        replace (i - s - 1 + 1) with (i - s) by lia. lia.
  Qed.

  (** the ranges of the children are the two halves of the range of the parent *)
  Lemma split_value i c lo hi g : cell_data i c lo hi g -> e g = dl lo hi /\ e (lo - 1) < dl lo hi /\ e hi < dl lo hi.
  Proof.
    intros [R C S L Rt]. split; [|lia].
    rewrite e_in by lia.
    assert (A : Z.min (dl lo (g + 1)) (if g + 1 <? hi then dl (g + 1) hi else dl lo (g + 1)) = dl lo hi).
    { destruct (Z.ltb_spec (g + 1) hi).
      - destruct (dl_min lo (g + 1) hi); lia.
      - replace hi with (g + 1) by lia. lia. }
    assert (B : Z.min (if lo <? g then dl lo g else dl g (g + 1)) (dl g (g + 1)) = dl lo (g + 1)).
    { destruct (Z.ltb_spec lo g).
      - destruct (dl_min lo g (g + 1)); lia.
      - replace lo with g by lia. lia. }
    destruct (Z.ltb_spec (g + 1) hi), (Z.ltb_spec lo g); try specialize (L ltac:(lia)); try specialize (Rt ltac:(lia)); lia.
  Qed.
  Lemma left_range i c lo hi g c' lo' hi' g' : cell_data i c lo hi g -> lo < g -> cell_data g c' lo' hi' g' -> lo' = lo /\ hi' = g.
  Proof.
    intros D Hlt D'. destruct (split_value _ _ _ _ _ D) as (Eg & E1 & E2).
    destruct D as [R C S L Rt]. destruct D' as [R' C' S' L' Rt']. specialize (L Hlt).
    pose proof (e_ge lo g (g - 1) ltac:(lia) ltac:(lia) ltac:(lia)) as X.
    destruct S' as [(-> & A1 & A2 & A3)|(-> & A1 & A2 & A3)]; [lia|]. split; [|lia].
    destruct (Z.lt_trichotomy lo' lo) as [T|[T|T]]; auto; exfalso.
    - pose proof (e_ge lo' hi' (lo - 1) ltac:(lia) ltac:(lia) ltac:(lia)). lia.
    - pose proof (e_ge lo hi' (lo' - 1) ltac:(lia) ltac:(lia) ltac:(lia)). lia.
  Qed.
  Lemma right_range i c lo hi g c' lo' hi' g' : cell_data i c lo hi g -> g + 1 < hi -> cell_data (g + 1) c' lo' hi' g' -> lo' = g + 1 /\ hi' = hi.
  Proof.
    intros D Hlt D'. destruct (split_value _ _ _ _ _ D) as (Eg & E1 & E2).
    destruct D as [R C S L Rt]. destruct D' as [R' C' S' L' Rt']. specialize (Rt Hlt).
    pose proof (e_ge (g + 1) hi (g + 1) ltac:(lia) ltac:(lia) ltac:(lia)) as X.
    destruct S' as [(E & A1 & A2 & A3)|(E & A1 & A2 & A3)].
    - subst lo'. replace (g + 1 - 1) with g in * by lia. split; [lia|].
      destruct (Z.lt_trichotomy hi' hi) as [T|[T|T]]; auto; exfalso.
      + pose proof (e_ge (g + 1) hi hi' ltac:(lia) ltac:(lia) ltac:(lia)). lia.
      + pose proof (e_ge (g + 1) hi' hi ltac:(lia) ltac:(lia) ltac:(lia)). lia.
    - subst hi'. replace (g + 1 - 1) with g in * by lia. lia.
  Qed.
  Lemma root_range c lo hi g : cell_data 0 c lo hi g -> lo = 0 /\ hi = n - 1.
  Proof.
    intros [R C S L Rt]. destruct S as [(E0 & A1 & A2 & A3)|(E0 & _)]; [|lia]. subst lo. split; auto.
    rewrite (e_out (0 - 1)) in A3 by lia. destruct (Z.eq_dec hi (n - 1)); auto. exfalso.
    rewrite e_in, dl_in in A3 by lia. lia.
  Qed.

  (** ** the tree *)
  Variable cells : list cell.
  Hypothesis Hcells : forall i, 0 <= i < n - 1 -> exists c, karras_cell w n m i = Ok c /\ nth_error cells (Z.to_nat i) = Some c.

  Definition code (k : nat) : N := m (Z.of_nat k).
  Definition good_node (t : tree) : Prop :=
    match t with
    | Leaf _ => True
    | Node i l r => exists c, nth_error cells i = Some c /\
        Z.of_nat (hd O (leaves t)) = Z.min (Z.of_nat i) (endrange c) /\
        Z.of_nat (last (leaves t) O) = Z.max (Z.of_nat i) (endrange c) /\
        radix_split code (leaves l) (leaves r)
    end.

  Lemma split_bits lo g hi : 0 <= lo <= g -> g < hi -> hi <= n - 1 ->
    (lo < g -> dl lo g > dl lo hi) -> (g + 1 < hi -> dl (g + 1) hi > dl lo hi) ->
    radix_split code (seq (Z.to_nat lo) (Z.to_nat (g - lo + 1))) (seq (Z.to_nat (g + 1)) (Z.to_nat (hi - g))).
  Proof.
    intros H1 H2 H3 HL HR.
    destruct (clz_xor_lt w (m lo) (m hi)) as (p & Ep & Pp & A1 & A2 & A3); [apply Hm; lia|apply Hw; lia|].
    rewrite (dl_in lo hi) in * by lia.
    assert (LB : forall a, lo <= a <= g -> forall j, (p <= j)%N -> N.testbit (m a) j = N.testbit (m lo) j).
    { intros a Ha j Hj. destruct (Z.eq_dec a lo) as [->|]; [reflexivity|].
      assert (X : dl lo g <= dl lo a) by (apply dl_mono_r; lia). specialize (HL ltac:(lia)). rewrite (dl_in lo a) in X by lia.
      destruct (clz_xor_lt w (m lo) (m a)) as (q & Eq & Pq & _ & _ & B3); [apply Hm; lia|apply Hw; lia|].
      symmetry. apply B3. lia. }
    assert (RB : forall a, g + 1 <= a <= hi -> forall j, (p <= j)%N -> N.testbit (m a) j = N.testbit (m hi) j).
    { intros a Ha j Hj. destruct (Z.eq_dec a hi) as [->|]; [reflexivity|].
      assert (X : dl hi (g + 1) <= dl hi a) by (apply dl_mono_l; lia). specialize (HR ltac:(lia)).
      rewrite (dl_sym hi (g + 1)) in X by lia. rewrite (dl_sym hi a), (dl_in a hi) in X by lia.
      destruct (clz_xor_lt w (m a) (m hi)) as (q & Eq & Pq & _ & _ & B3); [apply Hm; lia|apply Hw; lia|].
      apply B3. lia. }
    exists p. unfold code. split; [|split].
    - intros a Ha. apply in_seq in Ha. rewrite LB by lia. exact A1.
    - intros a Ha. apply in_seq in Ha. rewrite RB by lia. exact A2.
    - assert (Q : forall a, In a (seq (Z.to_nat lo) (Z.to_nat (g - lo + 1)) ++ seq (Z.to_nat (g + 1)) (Z.to_nat (hi - g))) ->
        forall j, (p < j)%N -> N.testbit (m (Z.of_nat a)) j = N.testbit (m lo) j).
      { intros a Ha j Hj. apply in_app_or in Ha. rewrite !in_seq in Ha. destruct Ha as [Ha|Ha].
        - apply LB; lia.
        - rewrite RB by lia. symmetry. now apply A3. }
      intros a b j Ha Hb Hj. rewrite (Q a Ha j Hj), (Q b Hb j Hj). reflexivity.
  Qed.
  Lemma seq_hd a k : (0 < k)%nat -> hd O (seq a k) = a.
  Proof. destruct k; [lia|reflexivity]. Qed.
  Lemma seq_last a k : (0 < k)%nat -> last (seq a k) O = (a + k - 1)%nat.
  Proof. intros H. destruct k; [lia|]. rewrite seq_S. rewrite last_last. lia. Qed.

  Lemma tree_of_cell : forall k i c lo hi g, (Z.to_nat (hi - lo) < k)%nat -> 0 <= i < n - 1 ->
    nth_error cells (Z.to_nat i) = Some c -> cell_data i c lo hi g ->
    exists t, reads cells false (Z.to_nat i) t /\
      leaves t = seq (Z.to_nat lo) (Z.to_nat (hi - lo + 1)) /\
      Permutation (internals t) (if i =? lo then seq (Z.to_nat lo) (Z.to_nat (hi - lo)) else seq (Z.to_nat (lo + 1)) (Z.to_nat (hi - lo))) /\
      (forall u, In u (subtrees t) -> good_node u) /\
      Z.of_nat (height t) + dl lo hi <= Z.of_N w.
  Proof.
    induction k as [|k IH]; intros i c lo hi g Hk Hi Ec D; [lia|].
    pose proof D as [R C SS L Rt].
    assert (DW : dl lo hi <= Z.of_N w - 1).
    { destruct (clz_xor_lt w (m lo) (m hi)) as (p & Ep & Pp & _); [apply Hm; lia|apply Hw; lia|]. rewrite dl_in by lia. lia. }
    assert (TL : exists t, reads cells (lo =? g) (Z.to_nat g) t /\ leaves t = seq (Z.to_nat lo) (Z.to_nat (g - lo + 1)) /\
       Permutation (internals t) (seq (Z.to_nat (lo + 1)) (Z.to_nat (g - lo))) /\ (forall u, In u (subtrees t) -> good_node u) /\
       Z.of_nat (height t) + dl lo hi + 1 <= Z.of_N w).
    { destruct (Z.eqb_spec lo g) as [E|NE].
      - exists (Leaf (Z.to_nat g)). split; [constructor|]. subst g. replace (lo - lo + 1) with 1 by lia. replace (lo - lo) with 0 by lia.
        simpl. repeat split; auto; [intros u [<-|[]]; exact I|lia].
      - destruct (Hcells g ltac:(lia)) as (c' & Ek & En). destruct (karras_cell_ok g ltac:(lia)) as (c'' & lo' & hi' & g' & Ek' & D').
        rewrite Ek in Ek'. injection Ek' as <-. destruct (left_range _ _ _ _ _ _ _ _ _ D ltac:(lia) D') as [-> ->].
        destruct (IH g c' lo g g' ltac:(lia) ltac:(lia) En D') as (t & T1 & T2 & T3 & T4 & T5).
        exists t. replace (g =? lo) with false in T3 by lia. specialize (L ltac:(lia)). repeat split; auto. lia. }
    assert (TR : exists t, reads cells (hi =? g + 1) (Z.to_nat (g + 1)) t /\ leaves t = seq (Z.to_nat (g + 1)) (Z.to_nat (hi - g)) /\
       Permutation (internals t) (seq (Z.to_nat (g + 1)) (Z.to_nat (hi - (g + 1)))) /\ (forall u, In u (subtrees t) -> good_node u) /\
       Z.of_nat (height t) + dl lo hi + 1 <= Z.of_N w).
    { destruct (Z.eqb_spec hi (g + 1)) as [E|NE].
      - exists (Leaf (Z.to_nat (g + 1))). split; [constructor|]. subst hi. replace (g + 1 - g) with 1 by lia. replace (g + 1 - (g + 1)) with 0 by lia.
        simpl. repeat split; auto; [intros u [<-|[]]; exact I|lia].
      - destruct (Hcells (g + 1) ltac:(lia)) as (c' & Ek & En). destruct (karras_cell_ok (g + 1) ltac:(lia)) as (c'' & lo' & hi' & g' & Ek' & D').
        rewrite Ek in Ek'. injection Ek' as <-. destruct (right_range _ _ _ _ _ _ _ _ _ D ltac:(lia) D') as [-> ->].
        destruct (IH (g + 1) c' (g + 1) hi g' ltac:(lia) ltac:(lia) En D') as (t & T1 & T2 & T3 & T4 & T5).
        exists t. rewrite Z.eqb_refl in T3. specialize (Rt ltac:(lia)).
        replace (hi - (g + 1) + 1) with (hi - g) in T2 by lia. repeat split; auto. lia. }
    destruct TL as (tl & L1 & L2 & L3 & L4 & L5). destruct TR as (tr & R1 & R2 & R3 & R4 & R5).
    exists (Node (Z.to_nat i) tl tr).
    assert (LV : leaves (Node (Z.to_nat i) tl tr) = seq (Z.to_nat lo) (Z.to_nat (hi - lo + 1))).
    { simpl. rewrite L2, R2. replace (Z.to_nat (hi - lo + 1)) with (Z.to_nat (g - lo + 1) + Z.to_nat (hi - g))%nat by lia.
      rewrite seq_app. f_equal. f_equal. lia. }
    split; [|split; [exact LV|split; [|split]]].
    - apply reads_node with c; auto; rewrite C; simpl; auto; lia.
    - assert (P : Permutation (internals tl ++ internals tr) (seq (Z.to_nat (lo + 1)) (Z.to_nat (hi - lo - 1)))).
      { rewrite L3, R3. replace (Z.to_nat (hi - lo - 1)) with (Z.to_nat (g - lo) + Z.to_nat (hi - (g + 1)))%nat by lia.
        rewrite seq_app. apply Permutation_app; auto. replace (Z.to_nat (lo + 1) + Z.to_nat (g - lo))%nat with (Z.to_nat (g + 1)) by lia. reflexivity. }
      cbn [internals]. destruct (Z.eqb_spec i lo) as [->|NE].
      + replace (Z.to_nat (hi - lo)) with (S (Z.to_nat (hi - lo - 1))) by lia. cbn [seq].
        replace (S (Z.to_nat lo)) with (Z.to_nat (lo + 1)) by lia. now apply perm_skip.
      + assert (i = hi) by lia. subst i. replace (Z.to_nat (hi - lo)) with (S (Z.to_nat (hi - lo - 1))) by lia. rewrite seq_S.
        rewrite P. replace (Z.to_nat (lo + 1) + Z.to_nat (hi - lo - 1))%nat with (Z.to_nat hi) by lia. apply Permutation_cons_append.
    - intros u Hu. cbn [subtrees] in Hu. destruct Hu as [<-|Hu]; [|apply in_app_or in Hu; destruct Hu; auto].
      exists c. split; auto. rewrite LV, seq_hd, seq_last by lia. rewrite L2, R2, C. cbn [endrange].
      split; [destruct SS as [(-> & _)|(-> & _)]; lia|]. split; [destruct SS as [(-> & _)|(-> & _)]; lia|].
      apply split_bits; auto; lia.
    - cbn [height]. lia.
  Qed.
End Cells.

(** ** the buffers after all the work items *)
Lemma karras_alg_ok w m order old : (2 <= length m)%nat -> Z.of_nat (length m) <= 2 ^ 24 + 1 -> strictly_sorted m ->
  (forall x, In x m -> (x < 2 ^ w)%N) -> length old = (length m - 1)%nat ->
  Permutation order (seq 0 (length m - 1)) ->
  exists cells, karras_alg w m order old = Ok cells /\ length cells = (length m - 1)%nat /\
    exists t, reads cells false 0 t /\ leaves t = seq 0 (length m) /\ Permutation (internals t) (seq 0 (length m - 1)) /\
      (forall u, In u (subtrees t) -> node_ok m cells u) /\
      Z.of_nat (height t) + Z.of_N (clz_xor w (nth 0 m 0%N) (nth (length m - 1) m 0%N)) <= Z.of_N w.
Proof.
  intros H2 HB HS HW HL HP.
  set (n := Z.of_nat (length m)). set (mm := fun k => nth (Z.to_nat k) m 0%N).
  assert (Hn : 2 <= n <= 2 ^ 24 + 1) by (unfold n; lia).
  assert (Hm : forall a b, 0 <= a < b -> b < n -> (mm a < mm b)%N).
  { intros a b Ha Hb. unfold mm. assert (Hab : (Z.to_nat a < Z.to_nat b)%nat) by lia. assert (Hbl : (Z.to_nat b < length m)%nat) by (unfold n in Hb; lia).
    clear -HS Hab Hbl. revert Hab Hbl. generalize (Z.to_nat a), (Z.to_nat b). induction HS as [|h t HS IH HF]; intros x y Hxy Hy; [simpl in Hy; lia|].
    destruct y as [|y]; [lia|]. simpl in Hy. destruct x as [|x]; simpl.
    - rewrite Forall_forall in HF. apply HF. apply nth_In. lia.
    - apply IH; lia. }
  assert (Hw : forall a, 0 <= a < n -> (mm a < 2 ^ w)%N).
  { intros a Ha. apply HW. apply nth_In. unfold n in Ha. lia. }
  set (cl := fun i => match karras_cell w n mm (Z.of_nat i) with Ok c => c | _ => mkcell 0 false 0 false 0 end).
  assert (Hcl : forall i, (i < length m - 1)%nat -> karras_cell w n mm (Z.of_nat i) = Ok (cl i)).
  { intros i Hi. unfold cl. destruct (karras_cell_ok w n mm Hn Hm Hw (Z.of_nat i)) as (c & lo & hi & g & E & _); [unfold n; lia|]. now rewrite E. }
  assert (PF : forall order done (out : list cell), (forall i, In i order -> (i < length m - 1)%nat) -> length out = (length m - 1)%nat ->
     (forall i, In i done -> (i < length m - 1)%nat -> nth_error out i = Some (cl i)) ->
     exists out', par_for order (fun i out => c <- karras_cell w n mm (Z.of_nat i) ;; aset out i c) out = Ok out' /\
       length out' = (length m - 1)%nat /\ (forall i, In i (done ++ order) -> (i < length m - 1)%nat -> nth_error out' i = Some (cl i))).
  { clear - Hcl. induction order as [|i o IH]; intros done out HI HL HD.
    - exists out. rewrite app_nil_r. auto.
    - unfold par_for. cbn [rfold]. rewrite Hcl by (apply HI; simpl; auto). cbn [rbind].
      rewrite aset_lt by (rewrite HL; apply HI; simpl; auto). cbn [rbind].
      destruct (IH (done ++ [i]) (upd out i (cl i))) as (out' & E & L & N).
      + intros j Hj. apply HI. simpl; auto.
      + now rewrite length_upd.
      + intros j Hj Hjl. destruct (Nat.eq_dec j i) as [->|NE].
        * apply nth_error_upd_eq. now rewrite HL.
        * rewrite nth_error_upd_neq by auto. apply in_app_or in Hj. simpl in Hj. destruct Hj as [Hj|[Hj|[]]]; [auto|congruence].
      + exists out'. split; [exact E|]. split; auto. intros j Hj. apply N. now rewrite <- app_assoc. }
  unfold karras_alg. fold n. fold mm. replace (length m - 1 =? 0)%nat with false by lia.
  destruct (PF order [] old) as (cells & E & L & N); auto.
  { intros i Hi. apply (Permutation_in _ HP) in Hi. apply in_seq in Hi. lia. }
  { intros i []. }
  exists cells. split; [exact E|]. split; auto.
  assert (Hcells : forall i, 0 <= i < n - 1 -> exists c, karras_cell w n mm i = Ok c /\ nth_error cells (Z.to_nat i) = Some c).
  { intros i Hi. exists (cl (Z.to_nat i)). assert (Hi' : (Z.to_nat i < length m - 1)%nat) by (unfold n in Hi; lia). split.
    - rewrite <- (Hcl (Z.to_nat i)) by auto. f_equal. lia.
    - apply N; auto. simpl. apply (Permutation_in _ (Permutation_sym HP)). apply in_seq. lia. }
  destruct (Hcells 0 ltac:(lia)) as (c & Ek & En).
  destruct (karras_cell_ok w n mm Hn Hm Hw 0 ltac:(lia)) as (c' & lo & hi & g & Ek' & D).
  rewrite Ek in Ek'. injection Ek' as <-. destruct (root_range w n mm Hm Hw _ _ _ _ D) as [-> ->].
  destruct (tree_of_cell w n mm Hn Hm Hw cells Hcells (S (Z.to_nat (n - 1 - 0))) 0 c 0 (n - 1) g ltac:(lia) ltac:(lia) En D) as (t & T1 & T2 & T3 & T4 & T5).
  exists t. split; [exact T1|]. split; [rewrite T2; f_equal; unfold n; lia|].
  split; [replace (0 =? 0) with true in T3 by reflexivity; rewrite T3; replace (Z.to_nat (n - 1 - 0)) with (length m - 1)%nat by (unfold n; lia); reflexivity|].
  split.
  { intros u Hu. specialize (T4 u Hu). destruct u as [|i l r]; [exact I|]. destruct T4 as (c0 & C1 & C2 & C3 & p & P1 & P2 & P3).
    exists c0. split; [exact C1|]. split; [exact C2|]. split; [exact C3|]. unfold code, mm in *. exists p. split; [|split].
    - intros a Ha. specialize (P1 a Ha). now rewrite Nat2Z.id in P1.
    - intros a Ha. specialize (P2 a Ha). now rewrite Nat2Z.id in P2.
    - intros a b0 j Ha Hb Hj. specialize (P3 a b0 j Ha Hb Hj). now rewrite !Nat2Z.id in P3. }
  unfold dl in T5. replace ((0 <=? n - 1) && (n - 1 <? n)) with true in T5 by lia. unfold mm in T5. replace (Z.to_nat (n - 1)) with (length m - 1)%nat in T5 by (unfold n; lia). exact T5.
Qed.
