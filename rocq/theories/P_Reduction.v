(** Property theorem C18 (see properties.jsonl): compression of the sorted Morton codes into leaves. *)
From Verif Require Import Base Bits Morton Karras Scan Scan_spec Scan_proofs P_Scan Par Reduction Reduction_spec Reduction_proofs Reduction_lists.
From Coq Require Import ZifyBool ZifyNat ZifyN.
Local Open Scope nat_scope.

(** what the caller provides: [n] sorted codes of [w] bits at the front of the buffer *)
Record codes_ok (w : N) (n : nat) (m : list N) : Prop := {
  co_pos : 0 < n; co_lt : (Z.of_nat n < 2 ^ 31)%Z; co_len : n <= length m;
  co_sorted : sorted_codes (firstn n m); co_bits : forall c, In c (firstn n m) -> (c < 2 ^ w)%N }.

Lemma sorted_nth (R : N -> N -> Prop) d l : StronglySorted R l -> forall x y, x < y -> y < length l -> R (nth x l d) (nth y l d).
Proof.
  induction 1 as [|a l HS IH HF]; intros x y Hxy Hy; simpl in *; [lia|]. rewrite Forall_forall in HF. destruct y as [|y]; [lia|].
  destruct x as [|x]; [apply HF, nth_In; lia|apply IH; lia].
Qed.
Lemma nth_firstn' {A} (d : A) n l i : i < n -> nth i (firstn n l) d = nth i l d.
Proof. revert l i. induction n as [|n IH]; intros l i Hi; [lia|]. destruct l as [|a l]; [reflexivity|]. destruct i as [|i]; [reflexivity|]. simpl. apply IH. lia. Qed.
Lemma codes_sorted w n m : codes_ok w n m -> forall x y, x <= y -> y < n -> (nth x m 0 <= nth y m 0)%N.
Proof.
  intros [P1 P2 P3 P4 P5] x y H1 H2. destruct (Nat.eq_dec x y) as [->|NE]; [lia|].
  rewrite <- (nth_firstn' 0%N n m x), <- (nth_firstn' 0%N n m y) by lia.
  apply sorted_nth; auto; [lia|]. rewrite firstn_length. lia.
Qed.
Lemma codes_bits w n m : codes_ok w n m -> forall x, x < n -> (nth x m 0 < 2 ^ w)%N.
Proof.
  intros [P1 P2 P3 P4 P5] x Hx. rewrite <- (nth_firstn' 0%N n m x) by lia. apply P5, nth_In. rewrite firstn_length. lia.
Qed.

(** C18: for every sorted set of codes, every level, every order of the work items and every content of fresh
    memory, the result is a partition of the objects into consecutive ranges starting at 0 and ending at n;
    each range is the set of objects whose code has one given prefix (so equal codes are never separated);
    the index map is the list of the range starts followed by n and 0; the reduced codes are the codes of the
    first object of each range, and they are strictly increasing. *)
Theorem C18_leaves_partition_into_cells : forall w n m env level, codes_ok w n m -> env_ok n env ->
  exists starts,
    reduce_morton_set w env n m level = Ok (starts ++ [n; 0], length starts, map (code m) starts) /\
    hd_error starts = Some 0 /\ StronglySorted lt (starts ++ [n]) /\
    (forall r, In r (leaf_ranges starts n) -> is_cell m n r) /\
    StronglySorted N.lt (map (code m) starts).
Proof.
  intros w n m env level HC HE. pose proof (codes_sorted _ _ _ HC) as Hs. pose proof (codes_bits _ _ _ HC) as Hw. destruct HC as [P1 P2 P3 P4 P5].
  destruct (set_ok w m n P3 P2 P1 Hs Hw env level HE) as (T0 & T & G & G0 & C & F & E). exists (selected T n).
  split; [exact E|]. destruct (good_starts w m n P3 P2 P1 Hs Hw T G) as [A1 A2]. split; auto. split; auto. split.
  - pose proof (good_cells w m n P3 P1 Hs Hw T G) as X. rewrite Forall_forall in X. exact X.
  - now apply (good_increasing w m n).
Qed.
Print Assumptions C18_leaves_partition_into_cells.

(** Level 0: one leaf per distinct code. *)
Theorem C18_level0_distinct_codes : forall w n m env, codes_ok w n m -> env_ok n env ->
  exists starts,
    reduce_morton_set w env n m 0 = Ok (starts ++ [n; 0], length starts, map (code m) starts) /\
    forall i, In i starts <-> i < n /\ (i = 0 \/ code m (i - 1) <> code m i).
Proof.
  intros w n m env HC HE. pose proof (codes_sorted _ _ _ HC) as Hs. pose proof (codes_bits _ _ _ HC) as Hw. destruct HC as [P1 P2 P3 P4 P5].
  destruct (set_ok w m n P3 P2 P1 Hs Hw env 0 HE) as (T0 & T & G & G0 & C & F & E). exists (selected T n).
  split; [exact E|]. inversion C; subst. intros i. rewrite selected_in. split; intros [Hi X]; split; auto; now apply F.
Qed.
Print Assumptions C18_level0_distinct_codes.

(** Every further level removes exactly the starts of the leaves that merge with the leaf before them: those
    closer to it than both are to their other neighbours. *)
Theorem C18_level_step : forall w n m env1 env2 level, codes_ok w n m -> env_ok n env1 -> env_ok n env2 ->
  exists s1 s2,
    reduce_morton_set w env1 n m level = Ok (s1 ++ [n; 0], length s1, map (code m) s1) /\
    reduce_morton_set w env2 n m (S level) = Ok (s2 ++ [n; 0], length s2, map (code m) s2) /\
    forall i, In i s2 <-> In i s1 /\ ~ merges w m s1 i.
Proof.
  intros w n m env1 env2 level HC HE1 HE2. pose proof (codes_sorted _ _ _ HC) as Hs. pose proof (codes_bits _ _ _ HC) as Hw. destruct HC as [P1 P2 P3 P4 P5].
  destruct (set_ok w m n P3 P2 P1 Hs Hw env1 level HE1) as (T0 & T & G & G0 & C & F & E).
  destruct (set_ok w m n P3 P2 P1 Hs Hw env2 (S level) HE2) as (T0' & T' & G' & G0' & C' & F' & E').
  exists (selected T n), (selected T' n). split; [exact E|]. split; [exact E'|].
  inversion C' as [|k A B D C1 R1 G1]; subst.
  assert (EQ : forall i, i < n -> flags B i = flags T i).
  { eapply chain_det; eauto. intros i Hi. specialize (F i Hi). specialize (F' i Hi). destruct (flags T0 i), (flags T0' i); intuition congruence. }
  rewrite <- (selected_ext B T n EQ). intros i. rewrite !selected_in. split.
  - intros [Hi X]. apply R1 in X; auto. destruct X as [X Y]. split; auto. intros Z. apply Y.
    eapply merges_mg; try exact Z; auto; [apply selected_sorted|intros; apply selected_in].
  - intros [[Hi X] Y]. split; auto. apply R1; auto. split; auto. intros Z. apply Y.
    eapply (merges_mg (flags B) n); auto; [apply selected_sorted|intros; apply selected_in].
Qed.
Print Assumptions C18_level_step.

(** The result does not depend on the schedule nor on the contents of fresh memory. *)
Theorem C18_deterministic : forall w n m env1 env2 level, codes_ok w n m -> env_ok n env1 -> env_ok n env2 ->
  reduce_morton_set w env1 n m level = reduce_morton_set w env2 n m level.
Proof.
  intros w n m env1 env2 level HC HE1 HE2. pose proof (codes_sorted _ _ _ HC) as Hs. pose proof (codes_bits _ _ _ HC) as Hw. destruct HC as [P1 P2 P3 P4 P5].
  destruct (set_ok w m n P3 P2 P1 Hs Hw env1 level HE1) as (T0 & T & G & G0 & C & F & E).
  destruct (set_ok w m n P3 P2 P1 Hs Hw env2 level HE2) as (T0' & T' & G' & G0' & C' & F' & E').
  rewrite E, E'. rewrite (selected_ext T T'); auto. eapply chain_det; eauto.
  intros i Hi. specialize (F i Hi). specialize (F' i Hi). destruct (flags T0 i), (flags T0' i); intuition congruence.
Qed.
Print Assumptions C18_deterministic.

(** An empty set of codes is refused (kernel_call throws on an empty range). *)
Theorem C18_empty_throws : forall w m env level, reduce_morton_set w env 0 m level = Throw.
Proof. reflexivity. Qed.
Print Assumptions C18_empty_throws.

(** A concrete set with duplicates, two levels, odd schedules. *)
Definition ex_env : red_env := {|
  re_orders := fun k => if Nat.even k then rev (seq 0 7) else [3;1;0;6;5;4;2]; re_g1 := repeat 9%Z 7; re_g2 := repeat 8%Z 7;
  re_ce := {| ce_scan := fun l n => Scan.exclusive_sum_fallback (repeat 9%Z n) l n; ce_order := fun n => rev (seq 0 n); ce_garbage := fun k => repeat 5 k |};
  re_order := fun k => rev (seq 0 k); re_garbage := fun k => repeat 4 k; re_old := fun k => repeat 3%N k |}.
Definition ex_codes : list N := [2; 2; 3; 8; 12; 13; 13; 255; 255]%N.
Example C18_nonvacuous : codes_ok 8 7 ex_codes /\ env_ok 7 ex_env /\
  reduce_morton_set 8 ex_env 7 ex_codes 0 = Ok ([0;2;3;4;5;7;0], 5, [2;3;8;12;13]%N) /\
  reduce_morton_set 8 ex_env 7 ex_codes 1 = Ok ([0;3;4;7;0], 3, [2;8;12]%N) /\
  reduce_morton_set 8 ex_env 7 ex_codes 2 = Ok ([0;3;7;0], 2, [2;8]%N) /\
  reduce_morton_set 8 ex_env 7 ex_codes 3 = Ok ([0;7;0], 1, [2]%N).
Proof.
  split; [|split; [|vm_compute; auto]].
  - constructor.
    + lia.
    + simpl. lia.
    + simpl. lia.
    + unfold sorted_codes, ex_codes. simpl. repeat (constructor; [|repeat constructor; discriminate]). constructor.
    + intros c Hc. simpl in Hc. repeat (destruct Hc as [<-|Hc]; [reflexivity|]). destruct Hc.
  - assert (RP : forall k, Permutation (rev (seq 0 k)) (seq 0 k)) by (intros; symmetry; apply Permutation_rev).
    constructor; simpl; intros; try apply repeat_length; try apply RP; auto.
    + destruct (Nat.even k); [exact (RP 7)|]. apply NoDup_Permutation.
      * repeat (constructor; [simpl; intuition discriminate|]). constructor.
      * exact (seq_NoDup 7 0).
      * intros x. simpl. tauto.
    + apply (C19_exclusive_host (repeat 9%Z 7) T 7 H). simpl. lia.
    + exact (RP 7).
Qed.
