(** Property theorem C16 (see properties.jsonl). *)
From Verif Require Import Base Morton Karras Karras_spec Karras_abs Karras_proofs.
From Coq Require Import ZifyBool ZifyNat ZifyN.
Local Open Scope nat_scope.

(** For strictly increasing w-bit codes (2 to 2^24 + 1 of them) and every order of the work items, the
    construction returns; from cell 0 the child indices unfold to a finite binary tree whose leaves,
    left to right, are 0 .. n-1 and whose internal nodes are the n-1 cells, each exactly once; every
    cell covers the contiguous range [min(i,end), max(i,end)], and its children are the two halves
    separated by the highest bit in which the codes of the range differ. *)
Theorem C16_radix_tree : forall (w : N) (m : list N) order old,
  strictly_sorted m -> (forall x, In x m -> (x < 2 ^ w)%N) ->
  2 <= length m -> (Z.of_nat (length m) <= 2 ^ 24 + 1)%Z -> length old = length m - 1 ->
  Permutation order (seq 0 (length m - 1)) ->
  exists cells, karras_alg w m order old = Ok cells /\ length cells = length m - 1 /\
    exists t, reads cells false 0 t /\
      leaves t = seq 0 (length m) /\ Permutation (internals t) (seq 0 (length m - 1)) /\
      (forall u, In u (subtrees t) -> node_ok m cells u) /\
      height t <= N.to_nat w.
Proof.
  intros w m order old HS HW H2 HB HL HP.
  destruct (karras_alg_ok w m order old H2 HB HS HW HL HP) as (cells & E & L & t & T1 & T2 & T3 & T4 & T5).
  exists cells. split; auto. split; auto. exists t. repeat (split; auto). clear - T5. lia.
Qed.
Print Assumptions C16_radix_tree.

(** A single code gives no internal cell: the buffers stay empty. *)
Theorem C16_single_leaf : forall (w : N) x order, karras_alg w [x] order [] = Ok [].
Proof. reflexivity. Qed.

(** The unfolded tree is unique: the buffers encode exactly one tree. *)
Theorem C16_tree_unique : forall cells b i t1 t2, reads cells b i t1 -> reads cells b i t2 -> t1 = t2.
Proof.
  intros cells b i t1 t2 H1. revert t2. induction H1 as [k|i c l r E L0 R0 Hl IHl Hr IHr]; intros t2 H2; inversion H2; subst; auto.
  rewrite E in *. match goal with H : Some _ = Some _ |- _ => injection H as <- end. f_equal; auto.
Qed.
Print Assumptions C16_tree_unique.

(** Beyond that size the property is false: int -> float conversion rounds the range length.  With
    2^24 + 2 codes 0, 1, ..., 2^24, 2^40 the root must split between the last two codes, but the kernel
    stops one cell too early: both children of the root are flagged as internal cells and the right
    one is cell 2^24, so leaf 2^24 + 1 is no longer the right child of the root. *)
Definition big_codes (k : Z) : N := if (k =? 2 ^ 24 + 1)%Z then (2 ^ 40)%N else Z.to_N k.
Theorem C16_more_than_2p24_codes_refuted :
  (forall a b, (0 <= a < b)%Z -> (b < 2 ^ 24 + 2)%Z -> (big_codes a < big_codes b)%N /\ (big_codes b < 2 ^ 64)%N) /\
  (* the highest differing bit separates only the last code *)
  (forall k, (0 <= k < 2 ^ 24 + 1)%Z -> N.testbit (big_codes k) 40 = false) /\ N.testbit (big_codes (2 ^ 24 + 1)) 40 = true /\
  karras_cell 64 (2 ^ 24 + 2) big_codes 0 = Ok (mkcell (2 ^ 24 - 1) false (2 ^ 24) false (2 ^ 24 + 1)).
Proof.
  split; [|split; [|split]].
  - intros a b Ha Hb. unfold big_codes. change (2 ^ 24)%Z with 16777216%Z in *. change (2 ^ 40)%N with 1099511627776%N.
    change (2 ^ 64)%N with 18446744073709551616%N.
    destruct (Z.eqb_spec a (16777216 + 1)), (Z.eqb_spec b (16777216 + 1)); lia.
  - intros k Hk. unfold big_codes. replace (k =? 2 ^ 24 + 1)%Z with false by lia. apply (Bits.testbit_high _ 40); [|lia].
    change (2 ^ 40)%N with 1099511627776%N. change (2 ^ 24)%Z with 16777216%Z in *. lia.
  - vm_compute. reflexivity.
  - vm_compute. reflexivity.
Qed.
Print Assumptions C16_more_than_2p24_codes_refuted.

Example C16_nonvacuous :
  strictly_sorted [1; 2; 4; 5; 19; 24; 25; 30]%N /\
  match karras_alg 64 [1; 2; 4; 5; 19; 24; 25; 30]%N (rev (seq 0 7)) (repeat (mkcell 9 true 9 true 9) 7) with
  | Ok cells => map lchild cells = [3; 0; 2; 1; 4; 6; 5]%Z /\ map endrange cells = [7; 0; 3; 0; 7; 7; 5]%Z
  | _ => False
  end.
Proof.
  split; [repeat (constructor; try lia)|]. vm_compute. auto.
Qed.
