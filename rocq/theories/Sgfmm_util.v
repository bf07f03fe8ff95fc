(** Loads and stores of whole collections; sums. *)
Require Import Reals Lra.
From Verif Require Import Fmm_tensors Fmm_ops Fmm_spec Fmm_orders Fmm_store Fmm_reps.
From Verif Require Import Base Karras Traverse Reduction Scan SortSearch BVH Dtt Interleave Sgfmm Sgfmm_passes.
From Coq Require Import ZifyBool ZifyNat.
Local Open Scope nat_scope.

Lemma mass_in_out o Q : mass_in o (mass_out o Q) = Q.
Proof.
  assert (N : forall f n k, k < n -> nth k (map f (seq 0 n)) 0%R = f k).
  { intros f n k Hk. rewrite nth_indep with (d' := f 0) by (rewrite map_length, seq_length; auto). rewrite map_nth. f_equal. rewrite seq_nth by auto. reflexivity. }
  unfold mass_in, mass_out. destruct o; cbn [mass_load mass_terms mass_store].
  - rewrite (load00_reads _ (store00 Q (fun _ => 0%R) 0)); [apply load00_store00|]. intros k Hk. apply N; exact Hk.
  - rewrite (load01_reads _ (store01 Q (fun _ => 0%R) 0)); [apply load01_store01|]. intros k Hk. apply N; exact Hk.
  - rewrite (load02_reads _ (store02 Q (fun _ => 0%R) 0)); [apply load02_store02|]. intros k Hk. apply N; exact Hk.
  - rewrite (load03_reads _ (store03 Q (fun _ => 0%R) 0)); [apply load03_store03|]. intros k Hk. apply N; exact Hk.
  - rewrite (load04_reads _ (store04 Q (fun _ => 0%R) 0)); [apply load04_store04|]. intros k Hk. apply N; exact Hk.
Qed.
Lemma grav_in_out o Q : grav_in o (grav_out o Q) = Q.
Proof.
  assert (N : forall f n k, k < n -> nth k (map f (seq 0 n)) 0%R = f k).
  { intros f n k Hk. rewrite nth_indep with (d' := f 0) by (rewrite map_length, seq_length; auto). rewrite map_nth. f_equal. rewrite seq_nth by auto. reflexivity. }
  unfold grav_in, grav_out. destruct o; cbn [grav_load grav_terms grav_store].
  - rewrite (load11_reads _ (store11 Q (fun _ => 0%R) 0)); [apply load11_store11|]. intros k Hk. apply N; exact Hk.
  - rewrite (load12_reads _ (store12 Q (fun _ => 0%R) 0)); [apply load12_store12|]. intros k Hk. apply N; exact Hk.
  - rewrite (load13_reads _ (store13 Q (fun _ => 0%R) 0)); [apply load13_store13|]. intros k Hk. apply N; exact Hk.
  - rewrite (load14_reads _ (store14 Q (fun _ => 0%R) 0)); [apply load14_store14|]. intros k Hk. apply N; exact Hk.
  - rewrite (load15_reads _ (store15 Q (fun _ => 0%R) 0)); [apply load15_store15|]. intros k Hk. apply N; exact Hk.
Qed.
Lemma mass_out_len o Q : length (mass_out o Q) = mass_terms o.
Proof. unfold mass_out. now rewrite map_length, seq_length. Qed.
Lemma grav_out_len o Q : length (grav_out o Q) = grav_terms o.
Proof. unfold grav_out. now rewrite map_length, seq_length. Qed.

Lemma put_ok base vs : forall buf, base + length vs <= length buf ->
  exists buf', put base vs buf = Ok buf' /\ length buf' = length buf /\
    (forall c, c < length vs -> nth_error buf' (base + c) = nth_error vs c) /\
    (forall j, (j < base \/ base + length vs <= j) -> nth_error buf' j = nth_error buf j).
Proof.
  unfold put.
  assert (H : forall (vs : list R) s buf, base + (s + length vs) <= length buf ->
    exists buf', rfold (fun iv b => aset b (base + fst iv) (snd iv)) (combine (seq s (length vs)) vs) buf = Ok buf' /\ length buf' = length buf /\
      (forall c, c < length vs -> nth_error buf' (base + (s + c)) = nth_error vs c) /\
      (forall j, (j < base + s \/ base + (s + length vs) <= j) -> nth_error buf' j = nth_error buf j)).
  { clear vs. induction vs as [|v vs IH]; intros s buf H; cbn [length seq combine rfold].
    - exists buf. split; auto. split; auto. split; [intros; lia|auto].
    - cbn [length] in H. cbn [fst snd]. rewrite aset_lt by lia. cbn [rbind]. destruct (IH (S s) (upd buf (base + s) v)) as (b' & E & Lb & A1 & A2); [rewrite length_upd; lia|].
      exists b'. split; [exact E|]. rewrite length_upd in Lb. split; auto. split.
      + intros c Hc. destruct c as [|c].
        * rewrite A2 by lia. rewrite Nat.add_0_r. cbn [nth_error]. apply nth_error_upd_eq. lia.
        * cbn [nth_error]. rewrite <- (A1 c) by lia. f_equal. lia.
      + intros j Hj. rewrite A2 by lia. apply nth_error_upd_neq. lia. }
  intros buf Hb. destruct (H vs 0 buf) as (b' & E & A1 & A2 & A3); [lia|]. exists b'. split; auto. split; auto. split; auto. intros j Hj. apply A3. lia.
Qed.
Lemma fetch_ok base n buf v : length v = n -> (forall c, c < n -> nth_error buf (base + c) = nth_error v c) -> fetch base n buf = Ok v.
Proof.
  intros Lv H. unfold fetch.
  assert (X : forall m, m <= n -> rfold (fun i acc => x <- aget buf (base + i) ;; Ok (acc ++ [x])) (seq 0 m) [] = Ok (firstn m v)).
  { induction m as [|m IH]; intros Hm; [reflexivity|]. rewrite seq_S, rfold_app, IH by lia. cbn [rbind rfold Nat.add]. unfold aget. rewrite H by lia.
    destruct (nth_error v m) as [w|] eqn:E; [|apply nth_error_None in E; lia]. cbn [rbind]. now rewrite (firstn_snoc _ _ _ E). }
  rewrite X by auto. now rewrite firstn_all2 by lia.
Qed.

(** work item i writes cell f i of K scalars *)
Lemma par_cells K (f : nat -> nat) (val : nat -> list R) (body : nat -> res (list R)) total order : NoDup order ->
  (forall i j, In i order -> In j order -> f i = f j -> i = j) ->
  (forall i, In i order -> f i < total /\ body i = Ok (val i) /\ length (val i) = K) ->
  forall buf, length buf = total * K ->
  exists buf', rfold (fun i buf => v <- body i ;; put (f i * K) v buf) order buf = Ok buf' /\ length buf' = length buf /\
    (forall i, In i order -> cell_is K buf' (f i) (val i)) /\
    (forall id v, (forall i, In i order -> f i <> id) -> cell_is K buf id v -> cell_is K buf' id v).
Proof.
  intros ND. induction order as [|i order IH]; intros INJ H buf LB; cbn [rfold].
  - exists buf. split; auto. split; auto. split; [intros i []|auto].
  - inversion ND as [|? ? NI ND']; subst. destruct (H i (or_introl eq_refl)) as (F1 & F2 & F3). rewrite F2. cbn [rbind].
    assert (BD : f i * K + length (val i) <= length buf) by (rewrite LB, F3; assert (S (f i) * K <= total * K) by (apply Nat.mul_le_mono_r; lia); lia).
    destruct (put_ok (f i * K) (val i) buf BD) as (b1 & E1 & L1 & A1 & A2). rewrite E1. cbn [rbind].
    destruct (IH ND') with (buf := b1) as (b2 & E2 & L2 & A3 & A4).
    + intros x y Hx Hy. apply INJ; simpl; auto.
    + intros x Hx. apply H. simpl; auto.
    + lia.
    + exists b2. split; auto. split; [lia|]. split.
      * intros x [<-|Hx]; auto. apply A4.
        { intros y Hy E. apply NI. rewrite <- (INJ y i); simpl; auto. }
        intros c Hc. apply A1. lia.
      * intros id v Hid Hv. apply A4; [intros y Hy; apply Hid; simpl; auto|]. intros c Hc. rewrite A2; [now apply Hv|]. rewrite F3.
        destruct (Nat.lt_trichotomy (f i) id) as [X|[X|X]].
        { assert (S (f i) * K <= id * K) by (apply Nat.mul_le_mono_r; lia). lia. }
        { destruct (Hid i); simpl; auto. }
        { assert (S id * K <= f i * K) by (apply Nat.mul_le_mono_r; lia). lia. }
Qed.

(** ** Sums *)
Local Open Scope R_scope.
Definition ind (b : bool) (x : R) : R := if b then x else 0.
Lemma Rsum_cons {A} (f : A -> R) a l : Rsum f (a :: l) = f a + Rsum f l.
Proof. reflexivity. Qed.
Lemma Rsum_filter {A} (p : A -> bool) (f : A -> R) l : Rsum f (filter p l) = Rsum (fun a => ind (p a) (f a)) l.
Proof.
  induction l as [|a l IH]; [reflexivity|]. cbn [filter]. rewrite Rsum_cons. unfold ind at 1. destruct (p a); [rewrite Rsum_cons|]; rewrite IH; [reflexivity|ring].
Qed.
Lemma Rsum_swap {A B} (f : A -> B -> R) l l' : Rsum (fun a => Rsum (f a) l') l = Rsum (fun b => Rsum (fun a => f a b) l) l'.
Proof.
  induction l as [|a l IH].
  - cbn. symmetry. apply Rsum_zero.
  - rewrite Rsum_cons, IH, <- Rsum_plus. reflexivity.
Qed.
Lemma Rsum_flat {A B} (f : B -> R) (g : A -> list B) l : Rsum f (flat_map g l) = Rsum (fun a => Rsum f (g a)) l.
Proof. induction l as [|a l IH]; [reflexivity|]. cbn [flat_map]. rewrite Rsum_app, IH. reflexivity. Qed.
Lemma Rsum_scal_l {A} (f : A -> R) k l : Rsum (fun a => k * f a) l = k * Rsum f l.
Proof. induction l as [|a l IH]; [cbn; ring|]. rewrite !Rsum_cons, IH. ring. Qed.
Lemma Rsum_ind {A} (b : bool) (f : A -> R) l : Rsum (fun a => ind b (f a)) l = ind b (Rsum f l).
Proof. unfold ind. destruct b; [reflexivity|apply Rsum_zero]. Qed.
(** sum over a duplicate-free list of indices below n *)
Lemma Rsum_subset (f : nat -> R) l n : NoDup l -> (forall x, In x l -> (x < n)%nat) ->
  Rsum f l = Rsum (fun p => ind (existsb (Nat.eqb p) l) (f p)) (seq 0 n).
Proof.
  intros ND H. rewrite <- Rsum_filter. apply Rsum_perm. apply NoDup_Permutation; auto; [apply NoDup_filter, seq_NoDup|].
  intros x. rewrite filter_In, in_seq, existsb_exists. split.
  - intros Hx. split; [specialize (H x Hx); lia|]. exists x. split; auto. apply Nat.eqb_refl.
  - intros (_ & y & Hy & E). apply Nat.eqb_eq in E. now subst.
Qed.
