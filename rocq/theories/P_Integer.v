(** Property theorems C05, C06, C07 (see properties.jsonl). *)
From Verif Require Import Base Integer Integer_proofs.
Local Open Scope N_scope.

(** C05: for every object, of any size, [endian_swap] succeeds and yields the reversed bytes. *)
Theorem C05_endian_swap_reverses : forall bytes : list N, endian_swap bytes = Ok (rev bytes).
Proof. exact endian_swap_rev. Qed.
Print Assumptions C05_endian_swap_reverses.

Theorem C05_endian_swap_involutive : forall bytes : list N,
  (b <- endian_swap bytes ;; endian_swap b) = Ok bytes.
Proof.
  intros bytes. rewrite endian_swap_rev. simpl. rewrite endian_swap_rev. now rewrite rev_involutive.
Qed.
Print Assumptions C05_endian_swap_involutive.

(** C06 *)
Theorem C06_is_pow_of_two : forall w v : N, v < 2 ^ w ->
  (is_pow_of_two w v = true <-> exists k, v = 2 ^ k).
Proof. exact is_pow_of_two_spec. Qed.
Print Assumptions C06_is_pow_of_two.

Theorem C06_is_pow_of_two_fast : forall w v : N, v < 2 ^ w ->
  (is_pow_of_two_fast w v = true <-> (v = 0 \/ exists k, v = 2 ^ k)).
Proof. exact is_pow_of_two_fast_spec. Qed.
Print Assumptions C06_is_pow_of_two_fast.

(** The result is a power of two, at least [v], and the least such. *)
Theorem C06_roundup_pow2_32 : forall v : N, 1 <= v -> v <= 2 ^ 31 ->
  (exists k, roundup_pow2_32 v = 2 ^ k) /\ v <= roundup_pow2_32 v /\
  (forall k, v <= 2 ^ k -> roundup_pow2_32 v <= 2 ^ k).
Proof. exact roundup_pow2_32_spec. Qed.
Print Assumptions C06_roundup_pow2_32.

Theorem C06_roundup_pow2_64 : forall v : N, 1 <= v -> v <= 2 ^ 63 ->
  (exists k, roundup_pow2_64 v = 2 ^ k) /\ v <= roundup_pow2_64 v /\
  (forall k, v <= 2 ^ k -> roundup_pow2_64 v <= 2 ^ k).
Proof. exact roundup_pow2_64_spec. Qed.
Print Assumptions C06_roundup_pow2_64.

(** The version of shambackends/math.hpp on u32: the same, with 0 rounded up to 1. *)
Theorem C06_roundup_pow2_clz : forall v : N, v <= 2 ^ 31 ->
  exists r, roundup_pow2_clz 32 v = Ok r /\ (exists k, r = 2 ^ k) /\ v <= r /\
    (forall k, v <= 2 ^ k -> r <= 2 ^ k).
Proof.
  intros v Hv. destruct (N.eq_dec v 0) as [->|Hn].
  - exists 1. split; [reflexivity|]. split; [exists 0; reflexivity|]. split; [lia|].
    intros k _. pose proof (N.pow_nonzero 2 k). lia.
  - destruct (roundup_pow2_clz_spec v) as (r & E & (k & Ek & _) & H); [lia|auto|]. exists r. split; auto. split; eauto.
Qed.
Print Assumptions C06_roundup_pow2_clz.
(** On u64 it shifts a 32-bit one: beyond 2^31 the result is undefined (except for powers of two). *)
Theorem C06_roundup_pow2_clz_u64_refuted :
  (exists v, 1 <= v /\ v <= 2 ^ 63 /\ roundup_pow2_clz 64 v = UB) /\ roundup_pow2_clz 64 (2 ^ 40) = Ok (2 ^ 40).
Proof. split; [|vm_compute; reflexivity]. exists (2 ^ 40 + 1). split; [|split]; [lia|lia|]. vm_compute. reflexivity. Qed.
Print Assumptions C06_roundup_pow2_clz_u64_refuted.

(** Outside [1, 2^31] the 32-bit version returns 0, which is not a power of two: the guard above
    is exact (finding, see DESIGN.md). *)
Theorem C06_roundup_pow2_range_refuted :
  roundup_pow2_32 0 = 0 /\ roundup_pow2_32 (2 ^ 31 + 1) = 0.
Proof. split; vm_compute; reflexivity. Qed.
Print Assumptions C06_roundup_pow2_range_refuted.

(** [group_count len g] is the least number of groups of size [g] covering [len]. *)
Theorem C06_group_count : forall len g : N, 0 < g -> len + g - 1 < 2 ^ 32 ->
  exists c, group_count len g = Ok c /\ len <= c * g /\ (forall c', len <= c' * g -> c <= c').
Proof. exact group_count_spec. Qed.
Print Assumptions C06_group_count.

(** When [len + g - 1] wraps, the count is wrong: 2^32-1 items in groups of 2 give 0 groups. *)
Theorem C06_group_count_wrap_refuted :
  exists len g, len < 2 ^ 32 /\ 0 < g < 2 ^ 32 /\ group_count len g = Ok 0 /\ 0 < len.
Proof. exists (2 ^ 32 - 1), 2. repeat split; vm_compute; reflexivity. Qed.
Print Assumptions C06_group_count_wrap_refuted.

Theorem C06_select_bit : forall w v b : N, b < w ->
  select_bit w v b = Ok (if N.testbit v b then 1 else 0).
Proof. intros w v b H. rewrite select_bit_spec by exact H. now destruct (N.testbit v b). Qed.
Print Assumptions C06_select_bit.

Theorem C06_is_most_sig_bit_set : forall w x : N, 0 < w -> x < 2 ^ w ->
  (is_most_sig_bit_set w x = true <-> 2 ^ (w - 1) <= x).
Proof. exact is_most_sig_bit_set_spec. Qed.
Print Assumptions C06_is_most_sig_bit_set.

(** [pow_constexpr<power>] (32 levels of recursion suffice for an i32 exponent). *)
Theorem C06_pow_constexpr : forall power a : Z, (0 <= power < 2 ^ 31)%Z ->
  pow_constexpr 32 power a = Ok (a ^ power)%Z.
Proof. intros power a H. exact (pow_constexpr_spec 31 power a H). Qed.
Print Assumptions C06_pow_constexpr.

Theorem C06_pow_constexpr_negative_is_undefined : forall f power a, (power < 0)%Z ->
  pow_constexpr f power a = UB.
Proof. exact pow_constexpr_neg. Qed.
Print Assumptions C06_pow_constexpr_negative_is_undefined.

Example C06_nonvacuous : roundup_pow2_32 1000 = 1024 /\ is_pow_of_two 32 1024 = true
  /\ group_count 1000 256 = Ok 4 /\ pow_constexpr 32 5 3 = Ok 243%Z.
Proof. vm_compute; auto. Qed.
Example C05_nonvacuous : endian_swap [1; 2; 3; 4; 5] = Ok [5; 4; 3; 2; 1].
Proof. vm_compute; auto. Qed.

(** C07: exactness of narrowing, for every pair of integral types and every value of the source
    type.  [it_min]/[it_max] are the numeric limits. *)
Theorem C07_narrow_exact : forall (U T : itype) (v : Z),
  (0 < it_width U)%Z -> (0 < it_width T)%Z -> (it_min T <= v <= it_max T)%Z ->
  ((it_min U <= v <= it_max U)%Z -> narrow_or_throw U T v = Ok v) /\
  (~ (it_min U <= v <= it_max U)%Z -> narrow_or_throw U T v = Throw).
Proof. exact narrow_or_throw_spec. Qed.
Print Assumptions C07_narrow_exact.

Example C07_nonvacuous :
  narrow_or_throw {| it_signed := false; it_width := 32 |} {| it_signed := true; it_width := 64 |} (-1) = Throw
  /\ narrow_or_throw {| it_signed := true; it_width := 16 |} {| it_signed := false; it_width := 64 |} 32767 = Ok 32767%Z.
Proof. vm_compute; auto. Qed.
