(** A smaller stack gives the same result or overflows. *)
From Verif Require Import Base Par Karras Traverse Reduction Scan SortSearch BVH Dtt.
From Coq Require Import ZifyBool ZifyNat.
Local Open Scope nat_scope.

Definition rle {A} (a b : res A) : Prop := a = UB \/ a = b.
Lemma rle_refl {A} (a : res A) : rle a a. Proof. right; auto. Qed.
Lemma rle_bind {A D} (a b : res A) (f g : A -> res D) : rle a b -> (forall x, rle (f x) (g x)) -> rle (rbind a f) (rbind b g).
Proof. intros [->| ->] H; [left; reflexivity|]. destruct b; cbn [rbind]; [apply H|apply rle_refl|apply rle_refl]. Qed.
Lemma rle_fold {A S} (f g : A -> S -> res S) l : (forall a s, rle (f a s) (g a s)) -> forall s, rle (rfold f l s) (rfold g l s).
Proof. intros H. induction l as [|x l IH]; intros s; [apply rle_refl|]. cbn [rfold]. apply rle_bind; auto. Qed.
Lemma rle_push cap cap' c x st : cap <= cap' -> rle (fpush_if cap c x st) (fpush_if cap' c x st).
Proof.
  intros H. unfold fpush_if, fpush. destruct c; [|apply rle_refl]. destruct (length st <? cap) eqn:E; [|left; reflexivity].
  replace (length st <? cap') with true by lia. apply rle_refl.
Qed.

Section Mono.
  Context {C : Type} (leb : C -> C -> bool) (mac : vec C * vec C -> vec C * vec C -> bool) (B : @bvh C) (low : bool) (cap cap' : nat).
  Hypothesis H : cap <= cap'.
  Ltac same := match goal with |- rle ?a ?b => constr_eq a b; apply rle_refl end.
  Ltac step := apply rle_bind; [first [same | apply rle_push; exact H]|intros].
  Lemma loop_mono {S} (emit : bool -> ipair -> S -> res S) i bi fuel : forall st s,
    rle (select_loop leb mac B emit low cap i bi fuel st s) (select_loop leb mac B emit low cap' i bi fuel st s).
  Proof.
    induction fuel as [|f IH]; intros st s; (destruct st as [|[a b] st]; [right; reflexivity|]); [right; reflexivity|].
    cbn [select_loop]. step. destruct x; [|step; apply IH]. destruct low.
    - destruct (is_id_leaf _ a && is_id_leaf _ b); [step; apply IH|]. do 4 step. destruct (_ && negb _); [apply IH|]. do 6 step. apply IH.
    - do 4 step. destruct (_ || _); [step; apply IH|]. do 2 step. destruct (a =? i); [apply IH|]. do 4 step. apply IH.
  Qed.
  Lemma start_mono {S} (emit : bool -> ipair -> S -> res S) i bi fuel s :
    rle (select_start leb mac B emit low cap i bi fuel s) (select_start leb mac B emit low cap' i bi fuel s).
  Proof.
    unfold select_start. destruct (_ && _); [apply rle_refl|].
    apply rle_bind; [exact (rle_push cap cap' true (0, 0) [] H)|]. intros. apply loop_mono.
  Qed.
  Theorem select_mono scan o1 o2 j2 junk :
    rle (dtt_parallel_select leb mac B scan low cap o1 o2 j2 junk) (dtt_parallel_select leb mac B scan low cap' o1 o2 j2 junk).
  Proof.
    unfold dtt_parallel_select. do 2 step.
    apply rle_bind.
    { unfold kernel_call. destruct (_ =? 0); [apply rle_refl|]. apply rle_fold. intros i s. unfold count_item. step. apply rle_bind; [apply start_mono|intros; apply rle_refl]. }
    intros cc. do 4 step. apply rle_bind; [|intros; apply rle_refl].
    unfold kernel_call. destruct (_ =? 0); [apply rle_refl|]. apply rle_fold. intros i s. unfold store_item. do 3 step. apply rle_bind; [apply start_mono|intros; apply rle_refl].
  Qed.
End Mono.
