(** From split tables to the list of leaf starts. *)
From Verif Require Import Base Bits Morton Karras Karras_abs Karras_proofs Scan Scan_spec Scan_proofs Par Reduction Reduction_spec Reduction_proofs.
From Coq Require Import ZifyBool ZifyNat ZifyN.
Local Open Scope nat_scope.

Lemma sorted_filter {A} (R : A -> A -> Prop) (f : A -> bool) l : StronglySorted R l -> StronglySorted R (filter f l).
Proof.
  induction 1 as [|a l HS IH HF]; simpl; [constructor|]. destruct (f a); auto. constructor; auto.
  rewrite Forall_forall in *. intros x Hx. apply filter_In in Hx. now apply HF.
Qed.
Lemma sorted_seq n : forall a, StronglySorted lt (seq a n).
Proof.
  induction n as [|n IH]; intros a; simpl; constructor; auto. apply Forall_forall. intros x Hx. apply in_seq in Hx. lia.
Qed.
Lemma selected_sorted T n : StronglySorted lt (selected T n).
Proof. apply sorted_filter, sorted_seq. Qed.
Lemma selected_in T n i : In i (selected T n) <-> i < n /\ flags T i = true.
Proof. unfold selected. rewrite filter_In, in_seq. unfold flags. intuition lia. Qed.
Lemma selected_ext T T' n : (forall i, i < n -> flags T i = flags T' i) -> selected T n = selected T' n.
Proof. intros H. unfold selected. apply filter_ext_in. intros i Hi. apply in_seq in Hi. apply H. lia. Qed.
Lemma sorted_app_inv {A} (R : A -> A -> Prop) l1 l2 : StronglySorted R (l1 ++ l2) ->
  StronglySorted R l1 /\ StronglySorted R l2 /\ forall x y, In x l1 -> In y l2 -> R x y.
Proof.
  induction l1 as [|a l1 IH]; simpl; intros H.
  - repeat split; auto; [constructor|tauto].
  - apply StronglySorted_inv in H. destruct H as [H1 H2]. apply IH in H1. destruct H1 as (A1 & A2 & A3). rewrite Forall_forall in H2. repeat split; auto.
    + constructor; auto. apply Forall_forall. intros; apply H2, in_or_app; auto.
    + intros x y [<-|Hx] Hy; auto. apply H2, in_or_app; auto.
Qed.
Lemma sorted_app_mk {A} (R : A -> A -> Prop) l1 l2 : StronglySorted R l1 -> StronglySorted R l2 ->
  (forall x y, In x l1 -> In y l2 -> R x y) -> StronglySorted R (l1 ++ l2).
Proof.
  induction l1 as [|a l1 IH]; simpl; intros H1 H2 H; auto. apply StronglySorted_inv in H1. destruct H1 as [H1 HF]. constructor.
  - apply IH; auto.
  - apply Forall_app. split; auto. apply Forall_forall. auto.
Qed.

Section Decomp.
  Variables (F : nat -> bool) (n : nat) (L : list nat).
  Hypothesis HS : StronglySorted lt L.
  Hypothesis HIn : forall i, In i L <-> i < n /\ F i = true.

  Lemma decomp_next l i r : L = l ++ i :: r -> is_next F n i (hd n r).
  Proof.
    intros E. assert (S2 := HS). rewrite E in S2. apply sorted_app_inv in S2. destruct S2 as (S1 & S2 & S3).
    apply StronglySorted_inv in S2. destruct S2 as [S2 S4]. rewrite Forall_forall in S4.
    assert (Hi : In i L) by (rewrite E; apply in_elt). apply HIn in Hi.
    assert (K : forall k, i < k -> k < hd n r -> F k = false).
    { intros k K1 K2. destruct (F k) eqn:Fk; auto. exfalso.
      assert (Hk : k < n). { destruct r as [|c r]; simpl in K2; auto. assert (In c L) by (rewrite E; apply in_or_app; right; simpl; auto). apply HIn in H. lia. }
      assert (X : In k L) by (apply HIn; auto). rewrite E in X. apply in_app_or in X. destruct X as [X|[X|X]].
      - specialize (S3 k i X (or_introl eq_refl)). lia.
      - lia.
      - destruct r as [|c r]; simpl in *; [tauto|]. apply StronglySorted_inv in S2. destruct S2 as [_ S2]. rewrite Forall_forall in S2.
        destruct X as [X|X]; [lia|]. specialize (S2 k X). lia. }
    destruct r as [|c r]; simpl in *.
    - repeat split; auto; lia.
    - assert (Hc : In c L) by (rewrite E; apply in_or_app; right; simpl; auto). apply HIn in Hc.
      specialize (S4 c (or_introl eq_refl)). repeat split; intros; auto; try lia; tauto.
  Qed.
  Lemma decomp_prev l a i r : L = l ++ a :: i :: r -> is_prev F i a.
  Proof.
    intros E. assert (Ha : In a L) by (rewrite E; apply in_elt). apply HIn in Ha. apply next_prev with n; [tauto|].
    change i with (hd n (i :: r)). now apply decomp_next with l.
  Qed.
  Lemma split_at i : i < n -> F i = true -> exists l r, L = l ++ i :: r.
  Proof. intros H1 H2. apply in_split, HIn. auto. Qed.
  Lemma ranges_decomp a c : In (a, c) (leaf_ranges L n) -> exists l r, L = l ++ a :: r /\ c = hd n r.
  Proof.
    clear HS HIn F. induction L as [|x t IH]; simpl; [tauto|]. intros [E|H].
    - inversion E; subst. exists [], t. split; [auto|now destruct t].
    - destruct (IH H) as (l & r & -> & ->). exists (x :: l), r. auto.
  Qed.
  Lemma merges_mg w (m : list N) i : i < n -> F i = true ->
    merges w m L i <-> mg w n (fun i => nth i m 0%N) F i.
  Proof.
    intros Hi Fi. split.
    - intros (l & a & r & E & H1 & H2). exists a, (hd n r). split; [now apply decomp_prev with l r|]. split.
      + apply decomp_next with (l ++ [a]). now rewrite <- app_assoc.
      + split.
        * intros Hc. destruct r as [|c r]; simpl in *; [lia|]. exact H1.
        * intros z Pz. destruct (rev l) as [|z' l'] eqn:El.
          -- apply (f_equal (@rev nat)) in El. rewrite rev_involutive in El. simpl in El. subst l. simpl in E. destruct Pz as (Z1 & Z2 & Z3).
             assert (X : In z L) by (apply HIn; split; [|auto]; assert (In a L) by (rewrite E; simpl; auto); apply HIn in H; lia).
             rewrite E in X, HS. apply StronglySorted_inv in HS. destruct HS as [_ Hf]. rewrite Forall_forall in Hf.
             destruct X as [X|X]; [lia|]. specialize (Hf z X). lia.
          -- apply (f_equal (@rev nat)) in El. rewrite rev_involutive in El. simpl in El. subst l. rewrite <- !app_assoc in E. simpl in E.
             assert (P' : is_prev F a z') by (now apply decomp_prev with (rev l') (i :: r)).
             rewrite (prev_uniq _ _ _ _ Pz P'). exact H2.
    - intros (a & c & P & N & H1 & H2). destruct (split_at i Hi Fi) as (l & r & E).
      pose proof (decomp_next l i r E) as N'. rewrite (next_uniq _ _ _ _ _ N N') in *. clear N.
      assert (Ha : In a L) by (apply HIn; destruct P as (P1 & P2 & _); split; auto; lia).
      assert (NE : l <> []).
      { intros ->. rewrite E in Ha, HS. simpl in *. apply StronglySorted_inv in HS. destruct HS as [_ Hf]. rewrite Forall_forall in Hf.
        destruct P as (P & _). destruct Ha as [Ha|Ha]; [lia|]. specialize (Hf a Ha). lia. }
      destruct (exists_last NE) as (l0 & a' & ->). rewrite <- app_assoc in E. simpl in E.
      assert (a' = a) as -> by (eapply prev_uniq; [exact (decomp_prev l0 a' i r E)|auto]).
      exists l0, a, r. split; auto. split.
      + destruct r as [|c' r]; auto. apply H1. simpl. assert (In c' L) by (rewrite E; apply in_or_app; right; simpl; auto). now apply HIn in H.
      + destruct (rev l0) as [|z l'] eqn:El; auto. apply H2.
        apply (f_equal (@rev nat)) in El. rewrite rev_involutive in El. simpl in El. subst l0. rewrite <- !app_assoc in E. simpl in E.
        now apply decomp_prev with (rev l') (i :: r).
  Qed.
End Decomp.

(** update_morton_buf *)
Lemma update_morton_buf_ok order starts n old : Permutation order (seq 0 (length starts + 2)) -> length old = length starts + 2 ->
  update_morton_buf order (length starts) n starts old = Ok (starts ++ [n; 0]).
Proof.
  intros HP HL. unfold update_morton_buf, kernel_call. replace (length starts + 2 =? 0) with false by lia.
  set (k := length starts) in *.
  set (g := fun i => if i <? k then nth i starts 0 else if i =? k then n else 0).
  assert (HF : forall i, i < k + 2 -> morton_buf_item k n starts i = Ok (Some (g i))).
  { intros i Hi. unfold morton_buf_item, g. destruct (Nat.ltb_spec i k); [rewrite (aget_lt starts i 0) by auto; reflexivity|].
    destruct (Nat.eqb_spec i k); [reflexivity|]. replace (i =? k + 1) with true by lia. reflexivity. }
  assert (E : forall ord st, (forall i, In i ord -> i < k + 2) ->
    par_for ord (fun i out => o <- morton_buf_item k n starts i ;; match o with Some v => aset out i v | None => Ok out end) st
    = par_write (fun i => Ok (g i)) ord st).
  { induction ord as [|i ord IH]; intros st Hi; [reflexivity|]. unfold par_write, par_for in *. cbn [rfold].
    rewrite HF by (apply Hi; simpl; auto). cbn [rbind]. destruct (aset st i (g i)); cbn [rbind]; auto. apply IH. intros; apply Hi; simpl; auto. }
  rewrite E. 2: { intros i Hi. apply (Permutation_in _ HP) in Hi. apply in_seq in Hi. lia. }
  rewrite (par_write_ok _ g order (k + 2) old HP HL) by auto. f_equal.
  apply (list_eq_nth 0). { rewrite map_length, seq_length, app_length. simpl. lia. }
  intros i. rewrite map_length, seq_length. intros Hi. rewrite (nth_indep _ 0 (g 0)) by (rewrite map_length, seq_length; auto).
  rewrite map_nth, seq_nth by auto. cbn [Nat.add]. unfold g. destruct (Nat.ltb_spec i k).
  - now rewrite app_nth1.
  - rewrite app_nth2 by auto. fold k. destruct (Nat.eqb_spec i k).
    + replace (i - k) with 0 by lia. reflexivity.
    + replace (i - k) with 1 by lia. reflexivity.
Qed.
Lemma morton_remap_ok order starts rest m old : Permutation order (seq 0 (length starts)) -> length old = length starts ->
  starts <> [] -> (forall i, In i starts -> i < length m) ->
  morton_remap order (length starts) (starts ++ rest) m old = Ok (map (code m) starts).
Proof.
  intros HP HL HN HB. unfold morton_remap, kernel_call. destruct starts as [|s0 st]; [congruence|].
  replace (length (s0 :: st) =? 0) with false by reflexivity. set (S := s0 :: st) in *. fold S in HP, HL.
  pose proof (par_write_ok (fun i => k <- aget (S ++ rest) i ;; aget m k) (fun i => code m (nth i S 0)) order (length S) old HP HL) as E.
  unfold par_write in E. rewrite E.
  - f_equal. rewrite <- (map_map (fun i => nth i S 0) (code m)). f_equal.
    apply (list_eq_nth 0). { now rewrite map_length, seq_length. } intros i. rewrite map_length, seq_length. intros Hi.
    rewrite (nth_indep _ 0 (nth 0 S 0)) by (now rewrite map_length, seq_length). rewrite (map_nth (fun i => nth i S 0)). now rewrite seq_nth.
  - intros i Hi. rewrite (aget_lt _ i 0) by (rewrite app_length; lia). cbn [rbind]. rewrite app_nth1 by auto.
    unfold code. apply aget_lt. apply HB, nth_In. auto.
Qed.

(** everything the caller does not control behaves: work items run in some order, fresh buffers have the
    requested size, the exclusive scan is correct (C19, C20) *)
Record env_ok (n : nat) (env : red_env) : Prop := {
  eo_orders : forall k, Permutation (re_orders env k) (seq 0 n);
  eo_g1 : length (re_g1 env) = n;
  eo_g2 : length (re_g2 env) = n;
  eo_scan : forall T, n <= length T -> ce_scan (re_ce env) T n = Ok (excl_spec T n);
  eo_corder : Permutation (ce_order (re_ce env) n) (seq 0 n);
  eo_cgarb : forall k, length (ce_garbage (re_ce env) k) = k;
  eo_order : forall k, Permutation (re_order env k) (seq 0 k);
  eo_garb : forall k, length (re_garbage env k) = k;
  eo_old : forall k, length (re_old env k) = k }.

Section Set_.
  Variables (w : N) (m : list N) (n : nat).
  Hypothesis Hlen : n <= length m.
  Hypothesis Hn2 : (Z.of_nat n < 2 ^ 31)%Z.
  Hypothesis Hn0 : 0 < n.
  Hypothesis Hs : forall x y, x <= y -> y < n -> (nth x m 0 <= nth y m 0)%N.
  Hypothesis Hw : forall x, x < n -> (nth x m 0 < 2 ^ w)%N.

  Lemma set_ok env level : env_ok n env ->
    exists T0 T, good m n T /\ good m n T0 /\ chain w m n level T0 T /\
      (forall i, i < n -> flags T0 i = true <-> i = 0 \/ nth (i - 1) m 0%N <> nth i m 0%N) /\
      let starts := selected T n in
      reduce_morton_set w env n m level = Ok (starts ++ [n; 0], length starts, map (code m) starts).
  Proof.
    intros EO. destruct (split_table_ok w m n Hlen Hn2 Hn0 Hs Hw (re_orders env) level (re_g1 env) (re_g2 env)) as (T0 & T & E & G & C & G0 & F0);
      try apply EO.
    exists T0, T. repeat (split; auto). cbv zeta. unfold reduce_morton_set, reduction_alg. rewrite E. cbn [rbind].
    unfold make_indexmap. pose proof G as (L & B & (S0 & _)).
    rewrite compact_scan_ok; try apply EO; auto; try lia. cbn [rbind].
    rewrite update_morton_buf_ok by apply EO. cbn [rbind].
    assert (NE : selected T n <> []).
    { assert (In 0 (selected T n)) by (apply selected_in; auto). intros X. rewrite X in H. destruct H. }
    destruct (Nat.eqb_spec (length (selected T n)) 0) as [Z0|_]; [apply length_zero_iff_nil in Z0; congruence|].
    rewrite morton_remap_ok; try apply EO; auto.
    intros i Hi. apply selected_in in Hi. lia.
  Qed.

  Lemma chain_det k : forall T0 T T0' T', chain w m n k T0 T -> chain w m n k T0' T' ->
    (forall i, i < n -> flags T0 i = flags T0' i) -> forall i, i < n -> flags T i = flags T' i.
  Proof.
    induction k as [|k IH]; intros T0 T T0' T' C C' E i Hi; inversion C as [|k1 A1 T1 A2 C1 R1 G1]; inversion C' as [|k2 B1 T3 B2 C2 R2 G2]; subst; auto.
    assert (forall i, i < n -> flags T1 i = flags T3 i) as F by (eapply IH; eauto).
    assert (X : mg w n (fun i => nth i m 0%N) (flags T1) i <-> mg w n (fun i => nth i m 0%N) (flags T3) i).
    { assert (forall A B : nat -> bool, (forall i, i < n -> A i = B i) -> mg w n (fun i => nth i m 0%N) A i -> mg w n (fun i => nth i m 0%N) B i) as G.
      { intros A B HAB (a & c & (P1 & P2 & P3) & (N1 & N2 & N3 & N4) & H2 & H3').
        assert (is_prev B i a) by (repeat split; auto; [rewrite <- HAB by lia; auto|intros; rewrite <- HAB by lia; auto]).
        assert (is_next B n i c) by (repeat split; auto; intros; rewrite <- HAB by lia; auto).
        exists a, c. split; auto. split; auto. split; auto. intros z (Z1 & Z2 & Z3). apply H3'.
        repeat split; auto; [rewrite HAB by lia; auto|intros; rewrite HAB by lia; auto]. }
      split; apply G; intros; [|symmetry]; auto. }
    specialize (R1 i Hi). specialize (R2 i Hi).
    rewrite F in * by auto. rewrite X in *. destruct (flags T i), (flags T' i); intuition congruence.
  Qed.

  Lemma good_cells T : good m n T -> Forall (is_cell m n) (leaf_ranges (selected T n) n).
  Proof.
    intros (L & B & (S0 & HV)). apply Forall_forall. intros [a c] H. apply ranges_decomp in H. destruct H as (l & r & E & Ec).
    assert (N : is_next (flags T) n a c).
    { subst c. eapply decomp_next; [apply selected_sorted|intros; apply selected_in|exact E]. }
    assert (Ha : In a (selected T n)) by (rewrite E; apply in_elt). apply selected_in in Ha.
    destruct (HV a c ltac:(lia) ltac:(tauto) N) as (p & P1 & P2). split; [simpl; destruct N as (? & ? & _); lia|].
    exists p, (N.shiftr (nth a m 0%N) p). intros x Hx. simpl. split; [apply P1|].
    intros X. destruct (Nat.lt_ge_cases x a) as [Q|Q]; [exfalso; apply (P2 x Hx); [auto|exact X]|].
    destruct (Nat.lt_ge_cases x c) as [Q'|Q']; [lia|exfalso; apply (P2 x Hx); [auto|exact X]].
  Qed.
  Lemma good_increasing T : good m n T -> StronglySorted N.lt (map (code m) (selected T n)).
  Proof.
    intros (L & B & HV). pose proof HV as (S0 & _).
    assert (K : forall a b, In a (selected T n) -> In b (selected T n) -> a < b -> (code m a < code m b)%N).
    { intros a b Ha Hb Hab. apply selected_in in Ha, Hb. destruct (next_ex (flags T) n a) as (c & Nc); [lia|].
      assert (c <= b). { destruct (Nat.le_gt_cases c b); auto. destruct Nc as (_ & _ & _ & D). rewrite D in Hb by lia. destruct Hb; discriminate. }
      assert (code m a < code m c)%N by (apply (cell_lt w n (fun i => nth i m 0%N) Hs Hw (flags T) a c); try tauto; lia).
      assert (code m c <= code m b)%N by (apply Hs; lia). lia. }
    pose proof (selected_sorted T n) as SS. induction SS as [|a l SS IH HF]; simpl; constructor.
    - apply IH. intros; apply K; simpl; auto.
    - apply Forall_map, Forall_forall. intros x Hx. rewrite Forall_forall in HF. apply K; simpl; auto.
  Qed.
  Lemma good_starts T : good m n T -> hd_error (selected T n) = Some 0 /\ StronglySorted lt (selected T n ++ [n]).
  Proof.
    intros (L & B & (S0 & _)). split.
    - unfold selected. destruct n as [|n']; [lia|]. simpl. unfold flags in S0. now rewrite S0.
    - apply sorted_app_mk; [apply selected_sorted|repeat constructor|]. intros x y Hx [<-|[]]. apply selected_in in Hx. tauto.
  Qed.
End Set_.
