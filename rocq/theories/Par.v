(** Pointwise parallel loops: work item i computes one value and stores it at index i. *)
From Verif Require Import Base.
From Coq Require Import ZifyBool ZifyNat.
Local Open Scope nat_scope.

Definition par_write {A} (f : nat -> res A) (order : list nat) (old : list A) : res (list A) :=
  par_for order (fun i out => v <- f i ;; aset out i v) old.

Lemma par_write_gen {A} (f : nat -> res A) (g : nat -> A) order : NoDup order -> forall old,
  (forall i, In i order -> f i = Ok (g i) /\ i < length old) ->
  exists out, par_write f order old = Ok out /\ length out = length old /\
    (forall i, In i order -> nth_error out i = Some (g i)) /\ (forall i, ~ In i order -> nth_error out i = nth_error old i).
Proof.
  unfold par_write, par_for. induction order as [|i order IH]; intros ND old H; simpl.
  - exists old. repeat split; auto. tauto.
  - inversion ND as [|? ? NI ND']; subst. destruct (H i (or_introl eq_refl)) as [E L]. rewrite E. cbn [rbind].
    rewrite aset_lt by auto. cbn [rbind].
    destruct (IH ND' (upd old i (g i))) as (out & E2 & L2 & P1 & P2).
    { intros j Hj. rewrite length_upd. apply H. simpl; auto. }
    exists out. split; auto. split; [now rewrite L2, length_upd|]. split.
    + intros j [<-|Hj]; auto. rewrite P2 by auto. now apply nth_error_upd_eq.
    + intros j Hj. rewrite P2 by tauto. apply nth_error_upd_neq. tauto.
Qed.

Lemma par_write_ok {A} (f : nat -> res A) (g : nat -> A) order n old :
  Permutation order (seq 0 n) -> length old = n -> (forall i, i < n -> f i = Ok (g i)) ->
  par_write f order old = Ok (map g (seq 0 n)).
Proof.
  intros HP HL HF.
  destruct (par_write_gen f g order) with (old := old) as (out & E & L & A1 & A2).
  - eapply Permutation_NoDup; [symmetry; exact HP|]. apply seq_NoDup.
  - intros i Hi. apply (Permutation_in _ HP) in Hi. apply in_seq in Hi. split; [apply HF|]; lia.
  - rewrite E. f_equal. apply list_eq_nth_error. intros i. destruct (Nat.lt_ge_cases i n) as [Hi|Hi].
    + rewrite A1 by (apply (Permutation_in _ (Permutation_sym HP)); apply in_seq; lia).
      rewrite nth_error_map, nth_error_seq by lia. reflexivity.
    + rewrite (proj2 (nth_error_None out i)) by lia. symmetry. apply nth_error_None. rewrite map_length, seq_length. lia.
Qed.
(** only the first n entries of a longer buffer are written *)
Lemma par_write_prefix {A} (f : nat -> res A) (g : nat -> A) order n old :
  Permutation order (seq 0 n) -> n <= length old -> (forall i, i < n -> f i = Ok (g i)) ->
  par_write f order old = Ok (map g (seq 0 n) ++ skipn n old).
Proof.
  intros HP HL HF.
  destruct (par_write_gen f g order) with (old := old) as (out & E & L & A1 & A2).
  - eapply Permutation_NoDup; [symmetry; exact HP|]. apply seq_NoDup.
  - intros i Hi. apply (Permutation_in _ HP) in Hi. apply in_seq in Hi. split; [apply HF|]; lia.
  - rewrite E. f_equal. apply list_eq_nth_error. intros i. destruct (Nat.lt_ge_cases i n) as [Hi|Hi].
    + rewrite A1 by (apply (Permutation_in _ (Permutation_sym HP)); apply in_seq; lia).
      rewrite nth_error_app1 by (rewrite map_length, seq_length; lia).
      rewrite nth_error_map, nth_error_seq by lia. reflexivity.
    + rewrite A2 by (intros X; apply (Permutation_in _ HP) in X; apply in_seq in X; lia).
      rewrite nth_error_app2 by (rewrite map_length, seq_length; lia). rewrite map_length, seq_length.
      rewrite <- (firstn_skipn n old) at 1. rewrite nth_error_app2 by (rewrite firstn_length; lia).
      rewrite firstn_length. f_equal. lia.
Qed.
