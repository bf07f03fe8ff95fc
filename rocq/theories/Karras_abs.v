(** Abstract analysis of the searches of the Karras kernel. *)
From Verif Require Import Base Bits Morton Karras.
From Coq Require Import ZifyBool ZifyNat ZifyN.
Local Open Scope Z_scope.

(** facts on wrapping *)
Lemma u32w_id x : 0 <= x < 2 ^ 32 -> u32w x = x.
Proof. intros. unfold u32w. now apply Z.mod_small. Qed.
Lemma i32w_id x : - 2 ^ 31 <= x < 2 ^ 31 -> i32w x = x.
Proof. intros. unfold i32w. rewrite Z.mod_small; lia. Qed.
Lemma i32c_id x : - 2 ^ 31 <= x < 2 ^ 31 -> i32c x = Ok x.
Proof. intros. unfold i32c. replace ((- 2 ^ 31 <=? x) && (x <? 2 ^ 31)) with true by lia. reflexivity. Qed.
Lemma fl32_id l : 0 <= l <= 2 ^ 24 -> fl32 l = l.
Proof.
  intros H. unfold fl32. destruct (Z.ltb_spec l (2 ^ 24)); [reflexivity|].
  replace l with (2 ^ 24) by lia. reflexivity.
Qed.

Section Search.
  Variable w : N.
  Variable n : Z.
  Variable m : Z -> N.
  Variable dl : Z -> Z -> Z.
  Hypothesis Hn : 2 <= n <= 2 ^ 24 + 1.
  Notation DELTA := (karras_delta w n m).
  Hypothesis HD : forall x y, 0 <= x < n -> - 2 ^ 31 <= y < 2 ^ 31 -> DELTA x y = Ok (dl x y).
  Hypothesis Hout : forall x y, 0 <= x < n -> y < 0 \/ n <= y -> dl x y = -1.
  Hypothesis Hmin1 : forall x y, 0 <= x < n -> -1 <= dl x y.

  Variable i d : Z.
  Hypothesis Hi : 0 <= i < n.
  Hypothesis Hd : d = 1 \/ d = -1.
  Let f (x : Z) := dl i (i + x * d).
  Hypothesis Hmono : forall x y, 1 <= x <= y -> f y <= f x.

  Lemma probe x : 0 <= x <= 2 ^ 30 -> i32c (x * d) = Ok (x * d) /\ DELTA i (i32w (i + x * d)) = Ok (f x).
  Proof.
    intros Hx. split.
    - apply i32c_id. destruct Hd as [->| ->]; lia.
    - rewrite i32w_id by (destruct Hd as [->| ->]; lia). apply HD; auto. destruct Hd as [->| ->]; lia.
  Qed.
  Lemma f_far x : n <= x -> f x = -1.
  Proof. intros H. unfold f. apply Hout; auto. destruct Hd as [->| ->]; lia. Qed.

  Lemma lmax_loop_ok dmin : -1 <= dmin -> forall fuel K, 1 <= K <= 26 -> (26 - K < Z.of_nat fuel)%Z ->
    exists K', lmax_loop w n m fuel i d dmin (2 ^ K) = Ok (2 ^ K') /\ K <= K' <= 26 /\ f (2 ^ K') <= dmin.
  Proof.
    intros Hdm. induction fuel as [|fuel IH]; intros K HK HF; [lia|].
    cbn [lmax_loop].
    assert (P : 2 ^ 1 <= 2 ^ K <= 2 ^ 26) by (split; apply Z.pow_le_mono_r; lia).
    destruct (probe (2 ^ K)) as [E1 E2]; [lia|]. rewrite E1. cbn [rbind]. rewrite E2. cbn [rbind].
    destruct (Z.gtb_spec (f (2 ^ K)) dmin) as [G|G].
    - assert (KB : K < 25).
      { destruct (Z.lt_ge_cases K 25) as [|C]; auto. exfalso.
        assert (2 ^ 25 <= 2 ^ K) by (apply Z.pow_le_mono_r; lia). rewrite f_far in G by lia. lia. }
      assert (P2 : 2 ^ K * 2 = 2 ^ (K + 1)) by (rewrite Z.pow_add_r by lia; reflexivity).
      rewrite i32c_id by lia. cbn [rbind]. rewrite P2.
      destruct (IH (K + 1)) as (K' & E & B & F); try lia. exists K'. split; auto. split; [lia|auto].
    - exists K. split; auto. split; [lia|lia].
  Qed.

  Lemma l_loop_ok dmin : forall fuel K l, 0 <= K <= 26 -> K < Z.of_nat fuel -> 0 <= l -> l + 2 ^ K <= 2 ^ 26 ->
    (l = 0 \/ f l > dmin) -> f (l + 2 ^ K) <= dmin ->
    exists l', l_loop w n m fuel i d dmin l (2 ^ K / 2) = Ok l' /\ l <= l' < l + 2 ^ K /\ (l' = 0 \/ f l' > dmin) /\ f (l' + 1) <= dmin.
  Proof.
    induction fuel as [|fuel IH]; intros K l HK HF Hl HB H1 H2; [lia|].
    destruct (Z.eq_dec K 0) as [->|NK].
    - change (2 ^ 0 / 2) with 0. exists l. simpl. change (2 ^ 0) with 1 in *. repeat split; auto; lia.
    - assert (E : 2 ^ K = 2 * 2 ^ (K - 1)) by (rewrite <- Z.pow_succ_r by lia; f_equal; lia).
      assert (P : 0 < 2 ^ (K - 1)) by (apply Z.pow_pos_nonneg; lia).
      replace (2 ^ K / 2) with (2 ^ (K - 1)) by (rewrite E, Z.mul_comm, Z.div_mul; lia).
      cbn [l_loop]. replace (2 ^ (K - 1) >? 0) with true by lia.
      destruct (probe (l + 2 ^ (K - 1))) as [E1 E2]; [lia|]. rewrite E1. cbn [rbind]. rewrite E2. cbn [rbind].
      destruct (Z.gtb_spec (f (l + 2 ^ (K - 1))) dmin) as [G|G].
      + destruct (IH (K - 1) (l + 2 ^ (K - 1))) as (l' & El & B & F1 & F2); try lia.
        { rewrite <- H2. apply Z.eq_le_incl. f_equal. lia. }
        exists l'. repeat split; auto; lia.
      + destruct (IH (K - 1) l) as (l' & El & B & F1 & F2); try lia.
        exists l'. repeat split; auto; lia.
  Qed.

  Lemma ceil_half_step l k : 0 <= l <= 2 ^ 24 -> 0 <= k ->
    let u := ceil_half l k in let t := ceil_half l (k + 1) in u <= 2 * t <= u + 1.
  Proof.
    intros Hl Hk. unfold ceil_half. rewrite fl32_id by auto. cbv zeta.
    rewrite (Z.pow_add_r 2 k 1) by lia. change (2 ^ 1) with 2.
    assert (P : 0 < 2 ^ k) by (apply Z.pow_pos_nonneg; lia). generalize dependent (2 ^ k). intros p P.
    pose proof (Z.div_mod (l + p - 1) p ltac:(lia)) as D1. pose proof (Z.mod_pos_bound (l + p - 1) p ltac:(lia)) as B1.
    pose proof (Z.div_mod (l + p * 2 - 1) (p * 2) ltac:(lia)) as D2. pose proof (Z.mod_pos_bound (l + p * 2 - 1) (p * 2) ltac:(lia)) as B2.
    generalize dependent ((l + p - 1) mod p). generalize dependent ((l + p * 2 - 1) mod (p * 2)).
    generalize dependent ((l + p - 1) / p). generalize dependent ((l + p * 2 - 1) / (p * 2)). intros t u r2 D2 B2 r1 D1 B1.
    split; nia.
  Qed.
  Lemma ceil_half_pos l k : 1 <= l <= 2 ^ 24 -> 0 <= k -> 1 <= ceil_half l k.
  Proof.
    intros Hl Hk. unfold ceil_half. rewrite fl32_id by lia. assert (P : 0 < 2 ^ k) by (apply Z.pow_pos_nonneg; lia).
    apply Z.div_le_lower_bound; lia.
  Qed.
  Lemma ceil_half_le l k : 1 <= l <= 2 ^ 24 -> 0 <= k -> ceil_half l k <= l.
  Proof.
    intros Hl Hk. unfold ceil_half. rewrite fl32_id by lia. assert (P : 0 < 2 ^ k) by (apply Z.pow_pos_nonneg; lia).
    apply Z.lt_succ_r. apply Z.div_lt_upper_bound; auto. nia.
  Qed.
  Lemma ceil_half_end l k : 1 <= l <= 2 ^ 24 -> 24 <= k -> ceil_half l k = 1.
  Proof.
    intros Hl Hk. unfold ceil_half. rewrite fl32_id by lia. assert (P : 2 ^ 24 <= 2 ^ k) by (apply Z.pow_le_mono_r; lia).
    symmetry. apply Z.div_unique with (l - 1); lia.
  Qed.

  (** the split search: [ans < s + u] is kept, with u = ceil(l / 2^(k-1)) *)
  Lemma split_loop_ok dnode l : 1 <= l <= 2 ^ 24 -> f l <= dnode -> forall fuel s k, 1 <= k <= 26 -> 26 - k < Z.of_nat fuel ->
    0 <= s -> s <= l -> (s = 0 \/ f s > dnode) -> f (s + ceil_half l (k - 1)) <= dnode ->
    exists s', split_loop w n m fuel i d dnode l s (ceil_half l k) k = Ok s' /\ 0 <= s' /\ (s' = 0 \/ f s' > dnode) /\ f (s' + 1) <= dnode.
  Proof.
    intros Hl Hfl. induction fuel as [|fuel IH]; intros s k Hk HF Hs Hsl H1 H2; [lia|].
    cbn [split_loop].
    pose proof (ceil_half_pos l k Hl ltac:(lia)) as Tp. pose proof (ceil_half_le l k Hl ltac:(lia)) as Tl.
    pose proof (ceil_half_step l (k - 1) ltac:(lia) ltac:(lia)) as Ts. cbv zeta in Ts. replace (k - 1 + 1) with k in Ts by lia.
    set (t := ceil_half l k) in *. set (u := ceil_half l (k - 1)) in *.
    destruct (probe (s + t)) as [E1 E2]; [lia|]. rewrite E1. cbn [rbind]. rewrite E2. cbn [rbind].
    set (s2 := if f (s + t) >? dnode then s + t else s).
    assert (I2 : 0 <= s2 /\ s2 <= l /\ (s2 = 0 \/ f s2 > dnode) /\ f (s2 + t) <= dnode).
    { unfold s2. destruct (Z.gtb_spec (f (s + t)) dnode) as [G|G].
      - assert (s + t < l) by (destruct (Z.lt_ge_cases (s + t) l) as [|C]; auto; specialize (Hmono l (s + t)); lia).
        repeat split; try lia.
        destruct (Z.eq_dec (s + u) (s + t + t)) as [E|NE]; [rewrite <- E; auto|].
        pose proof (Hmono (s + u) (s + t + t)). assert (1 <= u) by lia. lia.
      - repeat split; auto; lia. }
    destruct I2 as (Ia & Ib & Ic & Id).
    destruct (Z.leb_spec t 1) as [T1|T1].
    - exists s2. replace t with 1 in Id by lia. auto.
    - apply IH; auto; try lia.
      + assert (k < 24). { destruct (Z.lt_ge_cases k 24); auto. unfold t in T1. rewrite ceil_half_end in T1 by lia. lia. } lia.
      + replace (k + 1 - 1) with k by lia. exact Id.
  Qed.
End Search.
