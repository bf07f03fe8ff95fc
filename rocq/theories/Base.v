(** Common vocabulary of the model: outcomes, machine words, checked arrays,
    parallel loops.  This file models no particular source file: it fixes how
    C++ notions are represented everywhere else. *)
From Coq Require Export List Arith ZArith NArith Lia Bool Permutation Sorted.
From Coq Require Import ZifyBool ZifyNat ZifyN.
Export ListNotations.

(** Outcome of a C++ computation.  [Ok]: normal return.  [Throw]: a C++
    exception raised by the code.  [UB]: undefined behaviour: out-of-bounds
    access, failed SHAM_ASSERT (disabled in release builds,
    src/shambase/include/shambase/assert.hpp:40-42), division by zero,
    non-terminating loop. *)
Inductive res (A : Type) : Type :=
| Ok (a : A)
| Throw
| UB.
Arguments Ok {A} a.
Arguments Throw {A}.
Arguments UB {A}.

Definition rbind {A B} (m : res A) (f : A -> res B) : res B :=
  match m with Ok a => f a | Throw => Throw | UB => UB end.
Definition rmap {A B} (f : A -> B) (m : res A) : res B :=
  match m with Ok a => Ok (f a) | Throw => Throw | UB => UB end.
Declare Scope res_scope.
Delimit Scope res_scope with res.
Notation "x <- m ;; k" := (rbind m (fun x => k))
  (at level 61, m at next level, right associativity) : res_scope.
Notation "' p <- m ;; k" := (rbind m (fun x => let 'p := x in k))
  (at level 61, p pattern, m at next level, right associativity) : res_scope.
Open Scope res_scope.

(** Unsigned machine words: values modulo 2^w. *)
Definition wrapN (w : N) (x : N) : N := (x mod 2 ^ w)%N.
Definition wrapZ (w : Z) (x : Z) : Z := (x mod 2 ^ w)%Z.
Definition w32 (x : Z) : Z := wrapZ 32 x.
Definition w64 (x : Z) : Z := wrapZ 64 x.
Definition u32_max : Z := 4294967295%Z.
Definition u64_max : Z := 18446744073709551615%Z.

(** Checked array accesses (a C++ pointer/vector with a known extent). *)
Definition aget {A} (l : list A) (i : nat) : res A :=
  match nth_error l i with Some a => Ok a | None => UB end.
Fixpoint upd {A} (l : list A) (i : nat) (v : A) : list A :=
  match l, i with
  | [], _ => []
  | _ :: t, O => v :: t
  | h :: t, S i' => h :: upd t i' v
  end.
Definition aset {A} (l : list A) (i : nat) (v : A) : res (list A) :=
  if i <? length l then Ok (upd l i v) else UB.

(** Sequential loop [for i in order: s := body i s]. *)
Fixpoint rfold {A S} (body : A -> S -> res S) (order : list A) (s : S) : res S :=
  match order with
  | [] => Ok s
  | i :: t => s' <- body i s ;; rfold body t s'
  end.

(** A SYCL/OpenMP parallel loop over [n] work-items: the work-items are executed
    in some order, which is an argument.  Theorems quantify over every
    [order] with [Permutation order (seq 0 n)]. *)
Definition par_for {S} (order : list nat) (body : nat -> S -> res S) (s : S) : res S :=
  rfold body order s.

(* ------------------------------------------------------------------ *)
(** * Generic lemmas *)

Lemma rbind_ok {A B} (m : res A) (f : A -> res B) b :
  rbind m f = Ok b -> exists a, m = Ok a /\ f a = Ok b.
Proof. destruct m; simpl; intros H; try discriminate; eauto. Qed.

Lemma length_upd {A} (l : list A) i v : length (upd l i v) = length l.
Proof. revert i; induction l as [|h t IH]; intros [|i]; simpl; auto. Qed.

Lemma nth_error_upd_eq {A} (l : list A) i v :
  i < length l -> nth_error (upd l i v) i = Some v.
Proof.
  revert i; induction l as [|h t IH]; intros [|i] H; simpl in *; try lia; auto.
  apply IH; lia.
Qed.

Lemma nth_error_upd_neq {A} (l : list A) i j v :
  i <> j -> nth_error (upd l i v) j = nth_error l j.
Proof.
  revert i j; induction l as [|h t IH]; intros [|i] [|j] H; simpl; auto; try congruence.
Qed.

Lemma nth_upd_eq {A} (l : list A) i v d :
  i < length l -> nth i (upd l i v) d = v.
Proof.
  intros H; apply nth_error_nth. now apply nth_error_upd_eq.
Qed.

Lemma nth_upd_neq {A} (l : list A) i j v d :
  i <> j -> nth j (upd l i v) d = nth j l d.
Proof.
  revert i j; induction l as [|h t IH]; intros [|i] [|j] H; simpl; auto; try congruence.
Qed.

Lemma upd_out {A} (l : list A) i v : length l <= i -> upd l i v = l.
Proof.
  revert i; induction l as [|h t IH]; intros [|i] H; simpl in *; auto; try lia.
  f_equal; apply IH; lia.
Qed.

Lemma aget_ok {A} (l : list A) i a : aget l i = Ok a <-> nth_error l i = Some a.
Proof. unfold aget; destruct (nth_error l i); split; congruence. Qed.

Lemma aget_lt {A} (l : list A) i d : i < length l -> aget l i = Ok (nth i l d).
Proof.
  intros H; unfold aget. rewrite (nth_error_nth' l d H). reflexivity.
Qed.

Lemma aset_lt {A} (l : list A) i v : i < length l -> aset l i v = Ok (upd l i v).
Proof. intros H; unfold aset. apply Nat.ltb_lt in H. now rewrite H. Qed.

Lemma rfold_app {A S} (body : A -> S -> res S) l1 l2 s :
  rfold body (l1 ++ l2) s = (s' <- rfold body l1 s ;; rfold body l2 s').
Proof.
  revert s; induction l1 as [|a t IH]; intros s; simpl; auto.
  destruct (body a s); simpl; auto.
Qed.

(** Invariant rule for loops. *)
Lemma rfold_inv {A S} (P : S -> Prop) (body : A -> S -> res S) l s :
  P s -> (forall a s, In a l -> P s -> exists s', body a s = Ok s' /\ P s') ->
  exists s', rfold body l s = Ok s' /\ P s'.
Proof.
  revert s; induction l as [|a t IH]; intros s Hs Hstep; simpl; eauto.
  destruct (Hstep a s) as (s1 & E & H1); simpl; auto.
  rewrite E; simpl. apply IH; auto. intros b s2 Hb; apply Hstep; simpl; auto.
Qed.

Lemma list_eq_nth_error {A} (l1 l2 : list A) :
  (forall i, nth_error l1 i = nth_error l2 i) -> l1 = l2.
Proof.
  revert l2; induction l1 as [|a t IH]; intros [|b t2] H; auto.
  - specialize (H 0); discriminate.
  - specialize (H 0); discriminate.
  - pose proof (H 0) as H0; simpl in H0; injection H0 as ->. f_equal.
    apply IH; intros i; apply (H (S i)).
Qed.

Lemma list_eq_nth {A} (d : A) (l1 l2 : list A) :
  length l1 = length l2 -> (forall i, i < length l1 -> nth i l1 d = nth i l2 d) -> l1 = l2.
Proof. intros HL H; apply (nth_ext l1 l2 d d HL H). Qed.

Lemma nth_error_seq n s i : i < n -> nth_error (seq s n) i = Some (s + i).
Proof.
  revert s i; induction n as [|n IH]; intros s [|i] H; simpl; try lia.
  - f_equal; lia.
  - rewrite IH by lia. f_equal; lia.
Qed.

Lemma skipn_skipn {A} a b (l : list A) : skipn a (skipn b l) = skipn (a + b) l.
Proof.
  revert b l; induction b as [|b IH]; intros l; simpl.
  - now rewrite Nat.add_0_r.
  - rewrite Nat.add_succ_r; simpl. destruct l; simpl; [now destruct a|apply IH].
Qed.
