(** Property theorem C28 (see properties.jsonl): load balancing along the curve.
    The real numbers of Flocq bring the axioms of Coq's Reals library, listed by Print Assumptions. *)
From Coq Require Import Reals.
From Verif Require Import Base F64 LoadBalance LoadBalance_spec LoadBalance_proofs LoadBalance_quality.
From Coq Require Import ZifyBool ZifyNat.
Local Open Scope Z_scope.

Section C28.
Context {O : Type}.
Variables (lt : O -> O -> bool) (srt : list (lbtile O) -> list (lbtile O)) (v : list (tile O)) (w : Z).

(** one strategy *)
Lemma sweep_valid : sorts lt srt (init_tiles v) -> v <> [] -> 1 <= w < 2 ^ 31 -> (forall t, In t v -> 0 <= load_value t) -> total_load v < 2 ^ 64 ->
  exists owners, parallel_sweep srt v w = Ok owners /\ valid_owners lt v w owners.
Proof.
  intros [HP HS] Hv Hw HN HT.
  destruct (strategy_spec lt srt b_load v w HP HS Hw Hv) as (ow & E & L & A & B).
  - intros t Ht. apply init_in in Ht. destruct Ht as (x & H1 & H2). rewrite H2. simpl. apply HN. eapply nth_error_In; eauto.
  - rewrite init_isum_load. exact HT.
  - exists ow. split; auto. split; auto.
Qed.
Lemma rr_valid : sorts lt srt (init_tiles v) -> v <> [] -> 1 <= w < 2 ^ 31 -> Z.of_nat (length v) < 2 ^ 64 ->
  exists owners, roundrobin srt v w = Ok owners /\ valid_owners lt v w owners.
Proof.
  intros [HP HS] Hv Hw HT.
  destruct (strategy_spec lt srt (fun _ => 1) v w HP HS Hw Hv) as (ow & E & L & A & B).
  - intros; lia.
  - rewrite init_isum_one. exact HT.
  - exists ow. split; auto. split; auto.
Qed.
End C28.

(** C28: for every non empty list of tiles, every number of ranks, every sort and loads whose sum fits 64 bits,
    load_balance returns one valid rank per tile and ranks never decrease along the curve. *)
Theorem C28_valid_and_monotone : forall O (lt : O -> O -> bool) srt v w,
  sorts lt srt (init_tiles v) -> v <> [] -> 1 <= w < 2 ^ 31 ->
  (forall t, In t v -> 0 <= load_value t) -> total_load v < 2 ^ 64 -> Z.of_nat (length v) < 2 ^ 64 ->
  exists owners, load_balance srt v w = Ok owners /\ valid_owners lt v w owners.
Proof.
  intros O lt srt v w HS Hv Hw HN HT HL.
  destruct (sweep_valid lt srt v w HS Hv Hw HN HT) as (o1 & E1 & V1). destruct (rr_valid lt srt v w HS Hv Hw HL) as (o2 & E2 & V2).
  unfold load_balance. rewrite E1. cbn [rbind]. unfold metric_max.
  destruct (load_per_node_ok v o1 w) as (l1 & P1 & _); [apply V1|apply V1|]. rewrite P1. cbn [rbind].
  rewrite E2. cbn [rbind]. destruct (load_per_node_ok v o2 w) as (l2 & P2 & _); [apply V2|apply V2|]. rewrite P2. cbn [rbind].
  eexists. split; [reflexivity|]. destruct (f_ltb _ _); auto.
Qed.
Print Assumptions C28_valid_and_monotone.

(** each rank gets a contiguous piece of the curve *)
Theorem C28_contiguous : forall O (lt : O -> O -> bool) v w owners, valid_owners lt v w owners ->
  forall i j k ti tj tk o, nth_error v i = Some ti -> nth_error v j = Some tj -> nth_error v k = Some tk ->
    lt (ordering_val ti) (ordering_val tj) = true -> lt (ordering_val tj) (ordering_val tk) = true ->
    nth_error owners i = Some o -> nth_error owners k = Some o -> nth_error owners j = Some o.
Proof.
  intros O lt v w ow (L & R & M) i j k ti tj tk o Hi Hj Hk Lij Ljk Oi Ok_.
  destruct (nth_error ow j) as [oj|] eqn:Ej.
  - pose proof (M i j ti tj o oj Hi Hj Oi Ej Lij). pose proof (M j k tj tk oj o Hj Hk Ej Ok_ Ljk). f_equal. lia.
  - apply nth_error_None in Ej. assert (j < length v)%nat by (apply nth_error_Some; congruence). lia.
Qed.
Print Assumptions C28_contiguous.

(** Quality of the parallel sweep: with [M] the heaviest tile and a total below 2^53, no rank gets more than its
    fair share total/w (up to a relative 2^-20 of rounding) plus one tile. *)
Theorem C28_sweep_balanced : forall O (lt : O -> O -> bool) srt v w M,
  sorts lt srt (init_tiles v) -> v <> [] -> 1 <= w < 2 ^ 31 ->
  (forall t, In t v -> 0 <= load_value t <= M) -> total_load v < 2 ^ 53 ->
  exists owners, parallel_sweep srt v w = Ok owners /\
    forall r, (rank_load v owners r - M) * w * 2 ^ 20 <= total_load v * (2 ^ 20 + 1).
Proof.
  intros. destruct (sweep_quality lt srt v w M) as (ow & E & _ & Q); auto. eauto.
Qed.
Print Assumptions C28_sweep_balanced.

(** and load_balance itself is at most 100/94 worse (it may prefer the round robin within 5%). *)
Theorem C28_balanced : forall O (lt : O -> O -> bool) srt v w M,
  sorts lt srt (init_tiles v) -> v <> [] -> 1 <= w < 2 ^ 31 ->
  (forall t, In t v -> 0 <= load_value t <= M) -> total_load v < 2 ^ 53 -> Z.of_nat (length v) < 2 ^ 64 ->
  exists owners, load_balance srt v w = Ok owners /\
    forall r, (94 * rank_load v owners r - 100 * M) * w * 2 ^ 20 <= 100 * total_load v * (2 ^ 20 + 1).
Proof.
  intros O lt srt v w M HS Hv Hw HM HT HL.
  assert (HN : forall t, In t v -> 0 <= load_value t) by (intros t Ht; specialize (HM t Ht); lia).
  assert (M0 : 0 <= M). { destruct v as [|t v']; [congruence|]. specialize (HM t (or_introl eq_refl)). lia. }
  destruct (sweep_quality lt srt v w M HS Hw Hv HM HT) as (o1 & E1 & V1 & Q1). destruct (rr_valid lt srt v w HS Hv Hw HL) as (o2 & E2 & V2).
  destruct (of_Z_ok 1) as [Eo Fo]; [vm_compute; discriminate|]. rewrite (RN_id 1) in Eo by (apply (format_Z 1); vm_compute; discriminate).
  destruct c95 as [[C1 C2] Fc].
  unfold load_balance. rewrite E1. cbn [rbind].
  destruct (metric_max_ok v o1 w (f_of_Z 1)) as (m1 & P1 & F1 & T1 & X1 & Y1); auto; try apply V1. { rewrite Eo. split; [apply (IZR_le 0 1)|apply Rle_refl]; discriminate. }
  rewrite P1. cbn [rbind]. rewrite E2. cbn [rbind].
  destruct (metric_max_ok v o2 w (f_div (f_of_Z 95) (f_of_Z 100))) as (m2 & P2 & F2 & T2 & X2 & Y2); auto; try apply V2.
  { split; [|exact C2]. eapply Rle_trans; [|exact C1]. unfold Rdiv. apply Rmult_le_pos; [apply (IZR_le 0 945); discriminate|].
    apply Rlt_le, Rinv_0_lt_compat, (IZR_lt 0 1000). reflexivity. }
  rewrite P2. cbn [rbind]. eexists. split; [reflexivity|]. intros r.
  pose proof (rank_load_bound v o1 r HN) as B1. set (top1 := zmax (map _ _)) in T1, X1, Y1.
  assert (TOP : exists r1, top1 = rank_load v o1 r1).
  { assert (In top1 (map (fun r => rank_load v o1 (Z.of_nat r)) (seq 0 (Z.to_nat w)))) as I.
    { apply zmax_in.
      - intros x Hx. apply in_map_iff in Hx. destruct Hx as (k & <- & _). apply rank_load_bound; auto.
      - replace (Z.to_nat w) with (S (Z.to_nat w - 1)) by lia. discriminate. }
    apply in_map_iff in I. destruct I as (k & Ek & _). eauto. }
  destruct TOP as (r1 & Er1). pose proof (Q1 r1) as Q2. rewrite <- Er1 in Q2.
  destruct (f_ltb m2 m1) eqn:LT.
  - set (top2 := zmax (map _ _)) in T2, X2, Y2.
    pose proof (boost top1 top2 m1 m2 T1 T2 F1 F2 X1 X2 LT) as BB. specialize (Y2 r).
    assert (94 * rank_load v o2 r <= 100 * top1) by lia. 
    assert ((94 * rank_load v o2 r - 100 * M) * w * 2 ^ 20 <= (100 * top1 - 100 * M) * w * 2 ^ 20).
    { apply Z.mul_le_mono_nonneg_r; [lia|]. apply Z.mul_le_mono_nonneg_r; lia. }
    replace ((100 * top1 - 100 * M) * w * 2 ^ 20) with (100 * ((top1 - M) * w * 2 ^ 20)) in H0 by ring. lia.
  - specialize (Q1 r). assert ((94 * rank_load v o1 r - 100 * M) * w * 2 ^ 20 <= (100 * rank_load v o1 r - 100 * M) * w * 2 ^ 20).
    { apply Z.mul_le_mono_nonneg_r; [lia|]. apply Z.mul_le_mono_nonneg_r; lia. }
    replace ((100 * rank_load v o1 r - 100 * M) * w * 2 ^ 20) with (100 * ((rank_load v o1 r - M) * w * 2 ^ 20)) in H by ring. lia.
Qed.
Print Assumptions C28_balanced.

(** An empty list is undefined behaviour in the code (reads before the beginning of the vector). *)
Theorem C28_empty_refuted : forall O srt w, srt [] = [] -> load_balance srt ([] : list (tile O)) w = UB.
Proof. intros O srt w H. unfold load_balance, parallel_sweep, lb_strategy. cbn [init_tiles combine seq map length]. now rewrite H. Qed.
Print Assumptions C28_empty_refuted.
(** Loads whose sum does not fit 64 bits are undefined behaviour too (the quotient does not fit an int). *)
Theorem C28_overflow_refuted : parallel_sweep (fun l => l) [Tile 1 (2 ^ 63); Tile 2 (2 ^ 63); Tile 3 5; Tile 4 6] 3 = UB.
Proof. vm_compute. reflexivity. Qed.
Print Assumptions C28_overflow_refuted.

(** A concrete case: five tiles out of order, three ranks. *)
Definition ex_tiles : list (tile Z) := [Tile 5 9; Tile 1 5; Tile 3 100; Tile 2 7; Tile 4 1].
Definition ex_sort (l : list (lbtile Z)) : list (lbtile Z) :=
  match l with [a; b; c; d; e] => [b; d; c; e; a] | _ => l end.
Example C28_nonvacuous :
  sorts Z.ltb ex_sort (init_tiles ex_tiles) /\ total_load ex_tiles = 122 /\
  parallel_sweep ex_sort ex_tiles 3 = Ok [2; 0; 0; 0; 2] /\
  roundrobin ex_sort ex_tiles 3 = Ok [2; 0; 1; 0; 2] /\
  load_balance ex_sort ex_tiles 3 = Ok [2; 0; 1; 0; 2].
Proof.
  split; [|vm_compute; auto]. split.
  - unfold ex_tiles, init_tiles. simpl.
    apply NoDup_Permutation; [repeat (constructor; [simpl; intuition discriminate|]); constructor
                             |repeat (constructor; [simpl; intuition discriminate|]); constructor|].
    intros x. simpl. tauto.
  - unfold ex_tiles, init_tiles. simpl. repeat (constructor; [|repeat (constructor; [reflexivity|]); constructor]). constructor.
Qed.
