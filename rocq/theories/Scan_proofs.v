(** Proofs about Scan.v *)
From Verif Require Import Base Scan Scan_spec.
From Coq Require Import ZifyBool ZifyNat.
Local Open Scope Z_scope.

Lemma w32_w32_add a b : w32 (w32 a + b) = w32 (a + b).
Proof. unfold w32, wrapZ. now rewrite Zplus_mod_idemp_l. Qed.
Lemma w32_add_w32 a b : w32 (a + w32 b) = w32 (a + b).
Proof. unfold w32, wrapZ. now rewrite Zplus_mod_idemp_r. Qed.
Lemma w32_id a : w32 (w32 a) = w32 a.
Proof. unfold w32, wrapZ. now rewrite Zmod_mod. Qed.
Lemma w32_range a : 0 <= w32 a < 2 ^ 32.
Proof. apply Z.mod_pos_bound. lia. Qed.
Lemma w32_small a : 0 <= a < 2 ^ 32 -> w32 a = a.
Proof. intros; now apply Z.mod_small. Qed.
Lemma zsum_app l1 l2 : zsum (l1 ++ l2) = zsum l1 + zsum l2.
Proof. induction l1; simpl; lia. Qed.
Lemma firstn_S_nth {A} (l : list A) d i : (i < length l)%nat -> firstn (S i) l = firstn i l ++ [nth i l d].
Proof. revert i; induction l as [|a l IH]; intros [|i] H; simpl in *; try lia; auto. f_equal. apply IH. lia. Qed.
Lemma prefix_S l i : (i < length l)%nat -> prefix l (S i) = w32 (prefix l i + nth i l 0).
Proof.
  intros H. unfold prefix. rewrite (firstn_S_nth l 0) by auto. rewrite zsum_app. simpl.
  rewrite w32_w32_add. f_equal; lia.
Qed.
Lemma prefix_0 l : prefix l 0 = 0.
Proof. reflexivity. Qed.
Lemma length_excl_spec l n : length (excl_spec l n) = n.
Proof. unfold excl_spec. now rewrite map_length, seq_length. Qed.
Lemma nth_excl_spec l n i : (i < n)%nat -> nth i (excl_spec l n) 0 = prefix l i.
Proof. intros. unfold excl_spec. rewrite (nth_indep _ 0 (prefix l 0)) by (rewrite map_length, seq_length; lia).
  rewrite map_nth, seq_nth by lia. reflexivity. Qed.
Lemma excl_spec_S l n : excl_spec l (S n) = excl_spec l n ++ [prefix l n].
Proof. unfold excl_spec. rewrite seq_S, map_app. reflexivity. Qed.
Lemma incl_spec_S l n : incl_spec l (S n) = incl_spec l n ++ [prefix l (S n)].
Proof. unfold incl_spec. rewrite seq_S, map_app. reflexivity. Qed.
Lemma length_incl_spec l n : length (incl_spec l n) = n.
Proof. unfold incl_spec. now rewrite map_length, seq_length. Qed.

Lemma upd_app_l {A} (l1 l2 : list A) v : upd (l1 ++ l2) (length l1) v = l1 ++ upd l2 0 v.
Proof. induction l1; simpl; congruence. Qed.
Lemma skipn_upd0 {A} n (l : list A) v : (n < length l)%nat -> upd (skipn n l) 0 v = v :: skipn (S n) l.
Proof. revert l; induction n as [|n IH]; intros [|a l] H; simpl in *; try lia; auto. apply IH; lia. Qed.
Lemma aset_front {A} (l1 l2 : list A) n v : n = length l1 -> (n < length l2)%nat ->
  aset (l1 ++ skipn n l2) n v = Ok ((l1 ++ [v]) ++ skipn (S n) l2).
Proof.
  intros -> H. rewrite aset_lt by (rewrite app_length, skipn_length; lia).
  rewrite upd_app_l, skipn_upd0 by auto. now rewrite <- app_assoc.
Qed.

Lemma excl_loop src g n : (n <= length src)%nat -> (n <= length g)%nat ->
  rfold (excl_step src) (seq 0 n) (0, g) = Ok (prefix src n, excl_spec src n ++ skipn n g).
Proof.
  induction n as [|n IH]; intros H1 H2; [reflexivity|].
  rewrite seq_S, rfold_app, IH by lia. cbn [rbind rfold]. simpl plus. unfold excl_step at 1.
  rewrite aset_front by (rewrite ?length_excl_spec; lia). cbn [rbind].
  rewrite (aget_lt src n 0) by lia. cbn [rbind]. now rewrite prefix_S, excl_spec_S by lia.
Qed.
Lemma incl_loop src g n : (n <= length src)%nat -> (n <= length g)%nat ->
  rfold (incl_step src) (seq 0 n) (0, g) = Ok (prefix src n, incl_spec src n ++ skipn n g).
Proof.
  induction n as [|n IH]; intros H1 H2; [reflexivity|].
  rewrite seq_S, rfold_app, IH by lia. cbn [rbind rfold]. simpl plus. unfold incl_step at 1.
  rewrite (aget_lt src n 0) by lia. cbn [rbind].
  rewrite aset_front by (rewrite ?length_incl_spec; lia). cbn [rbind].
  now rewrite <- prefix_S, incl_spec_S by lia.
Qed.
Lemma aget_tail {A} (l1 l2 : list A) n d : n = length l1 -> (n < length l2)%nat ->
  aget (l1 ++ skipn n l2) n = Ok (nth n l2 d).
Proof.
  intros -> H. rewrite (aget_lt _ _ d) by (rewrite app_length, skipn_length; lia).
  rewrite app_nth2, Nat.sub_diag by lia. f_equal.
  generalize (length l1) H. clear. intros n; revert l2. induction n as [|n IH]; intros [|a l] H; simpl in *; auto; try lia.
  apply IH; lia.
Qed.
Lemma excl_ip_loop src n : (n <= length src)%nat ->
  rfold excl_ip_step (seq 0 n) (0, src) = Ok (prefix src n, excl_spec src n ++ skipn n src).
Proof.
  induction n as [|n IH]; intros H1; [reflexivity|].
  rewrite seq_S, rfold_app, IH by lia. cbn [rbind rfold]. simpl plus. unfold excl_ip_step at 1.
  rewrite (aget_tail _ _ _ 0) by (rewrite ?length_excl_spec; lia). cbn [rbind].
  rewrite aset_front by (rewrite ?length_excl_spec; lia). cbn [rbind].
  now rewrite <- prefix_S, excl_spec_S by lia.
Qed.
Lemma incl_ip_loop src n : (n <= length src)%nat ->
  rfold incl_ip_step (seq 0 n) (0, src) = Ok (prefix src n, incl_spec src n ++ skipn n src).
Proof.
  induction n as [|n IH]; intros H1; [reflexivity|].
  rewrite seq_S, rfold_app, IH by lia. cbn [rbind rfold]. simpl plus. unfold incl_ip_step at 1.
  rewrite (aget_tail _ _ _ 0) by (rewrite ?length_incl_spec; lia). cbn [rbind].
  rewrite aset_front by (rewrite ?length_incl_spec; lia). cbn [rbind].
  now rewrite <- prefix_S, incl_spec_S by lia.
Qed.
Lemma std_scan_spec l acc : std_exclusive_scan acc l = map (fun i => w32 (acc + zsum (firstn i l)))
   (seq 0 (length l)) \/ ~ (0 <= acc < 2 ^ 32).
Proof.
  revert acc. induction l as [|v t IH]; intros acc; [left; reflexivity|].
  destruct (Z_le_dec 0 acc) as [H0|]; [|right; lia]. destruct (Z_lt_dec acc (2 ^ 32)); [|right; lia].
  left. cbn [std_exclusive_scan length seq map firstn zsum]. f_equal.
  - rewrite Z.add_0_r, w32_small; lia.
  - rewrite <- seq_shift, map_map. destruct (IH (w32 (acc + v))) as [E|E]; [|pose proof (w32_range (acc + v)); lia].
    rewrite E. apply map_ext. intros i. cbn [firstn zsum]. rewrite w32_w32_add. f_equal; lia.
Qed.
Lemma std_scan_excl l : std_exclusive_scan 0 l = excl_spec l (length l).
Proof. destruct (std_scan_spec l 0) as [E|E]; [|lia]. rewrite E. apply map_ext. intros. reflexivity. Qed.
Lemma firstn_excl_spec l n m : (n <= m)%nat -> firstn n (excl_spec l m) = excl_spec l n.
Proof. intros H. unfold excl_spec. rewrite firstn_map. f_equal. 
  replace m with (n + (m - n))%nat by lia. rewrite seq_app, firstn_app, seq_length.
  rewrite Nat.sub_diag. simpl. rewrite app_nil_r. rewrite firstn_all2; auto. rewrite seq_length; lia. Qed.
Lemma excl_spec_firstn l n : excl_spec (firstn n l) n = excl_spec l n.
Proof. unfold excl_spec. apply map_ext_in. intros i Hi. apply in_seq in Hi. unfold prefix.
  rewrite firstn_firstn. now rewrite Nat.min_l by lia. Qed.

(* ---------------- compaction ---------------- *)
Lemma selected_S flags n : selected flags (S n) = selected flags n ++ (if nth n flags 0 =? 0 then [] else [n]).
Proof. unfold selected. rewrite seq_S, filter_app. simpl. now destruct (nth n flags 0 =? 0). Qed.
Lemma compact_fallback_ok flags n : (n <= length flags)%nat ->
  stream_compact_fallback flags n = Ok (selected flags n).
Proof.
  unfold stream_compact_fallback. induction n as [|n IH]; intros H; [reflexivity|].
  rewrite seq_S, rfold_app, IH by lia. cbn [rbind rfold]. simpl plus. unfold compact_step.
  rewrite (aget_lt flags n 0) by lia. cbn [rbind]. rewrite selected_S.
  destruct (nth n flags 0 =? 0); rewrite ?app_nil_r; reflexivity.
Qed.

Definition bin_flags (flags : list Z) := forall f, In f flags -> f = 0 \/ f = 1.
Lemma prefix_count flags n : bin_flags flags -> (n <= length flags)%nat -> Z.of_nat n < 2 ^ 32 ->
  prefix flags n = Z.of_nat (length (selected flags n)) /\ (length (selected flags n) <= n)%nat.
Proof.
  intros HB. induction n as [|n IH]; intros H1 H2; [split; [reflexivity|simpl; lia]|].
  destruct IH as [E L]; [lia|lia|]. rewrite prefix_S, selected_S, app_length, E by lia.
  assert (B : nth n flags 0 = 0 \/ nth n flags 0 = 1) by (apply HB, nth_In; lia).
  destruct B as [B|B]; rewrite B; simpl; rewrite w32_small; lia.
Qed.
Lemma selected_lt flags n i : In i (selected flags n) -> (i < n)%nat.
Proof. unfold selected. rewrite filter_In, in_seq. lia. Qed.
(** Position of a selected index in the list of selected indices. *)
Lemma selected_pos flags n i : (i < n)%nat -> nth i flags 0 <> 0 ->
  nth_error (selected flags n) (length (selected flags i)) = Some i.
Proof.
  intros H1 H2. induction n as [|n IH]; [lia|]. rewrite selected_S.
  destruct (Nat.eq_dec i n) as [->|].
  - destruct (Z.eqb_spec (nth n flags 0) 0); [tauto|]. rewrite nth_error_app2, Nat.sub_diag by lia. reflexivity.
  - rewrite nth_error_app1; [apply IH; lia|]. apply nth_error_Some. rewrite IH by lia. discriminate.
Qed.
Lemma selected_surj flags n k : (k < length (selected flags n))%nat ->
  exists i, (i < n)%nat /\ nth i flags 0 <> 0 /\ length (selected flags i) = k.
Proof.
  induction n as [|n IH]; [simpl; lia|]. rewrite selected_S, app_length. intros Hk.
  destruct (Nat.lt_ge_cases k (length (selected flags n))) as [L|L].
  - destruct (IH L) as (i & ? & ? & ?). exists i. repeat split; auto.
  - destruct (Z.eqb_spec (nth n flags 0) 0); simpl in Hk; [lia|]. exists n. repeat split; auto; lia.
Qed.

Lemma compact_scan_ok scan order garbage flags len :
  (forall m, length (garbage m) = m) -> bin_flags flags -> (len <= length flags)%nat -> Z.of_nat len < 2 ^ 32 ->
  scan flags len = Ok (excl_spec flags len) ->
  Permutation order (seq 0 len) ->
  stream_compact_excl_scan scan order garbage flags len = Ok (selected flags len).
Proof.
  intros HG HB HL H32 HS HP. unfold stream_compact_excl_scan.
  destruct (len <? 2)%nat eqn:E2; [now apply compact_fallback_ok|].
  rewrite HS. cbn [rbind]. rewrite (aget_lt _ _ 0) by (rewrite length_excl_spec; lia).
  rewrite nth_excl_spec by lia. cbn [rbind]. rewrite (aget_lt _ _ 0) by lia. cbn [rbind].
  set (lf := nth (len - 1) flags 0).
  assert (NL : (if lf =? 0 then prefix flags (len - 1) else w32 (prefix flags (len - 1) + 1))
               = Z.of_nat (length (selected flags len))).
  { destruct (prefix_count flags len) as [P _]; auto. rewrite <- P.
    replace len with (S (len - 1)) at 3 by lia. rewrite prefix_S by lia. fold lf.
    assert (B : lf = 0 \/ lf = 1) by (apply HB, nth_In; lia).
    destruct B as [-> | ->]; simpl; auto. rewrite Z.add_0_r. unfold prefix. now rewrite w32_id. }
  rewrite NL. rewrite Nat2Z.id. set (m := length (selected flags len)) in *.
  assert (Item : forall idx st, (idx < len)%nat -> length st = m ->
     compact_item (excl_spec flags len) (len - 1) lf idx st =
       Ok (if nth idx flags 0 =? 0 then st else upd st (length (selected flags idx)) idx)).
  { intros idx st Hi HLs. unfold compact_item.
    rewrite (aget_lt _ _ 0) by (rewrite length_excl_spec; lia). rewrite nth_excl_spec by lia. cbn [rbind].
    destruct (prefix_count flags idx) as [P1 _]; auto; try lia.
    assert (B : nth idx flags 0 = 0 \/ nth idx flags 0 = 1) by (apply HB, nth_In; lia).
    assert (SH : (if (idx <? len - 1)%nat
                  then nxt <- aget (excl_spec flags len) (idx + 1);; Ok (prefix flags idx <? nxt)
                  else Ok (negb (lf =? 0))) = Ok (negb (nth idx flags 0 =? 0))).
    { destruct (idx <? len - 1)%nat eqn:Ei.
      - rewrite (aget_lt _ _ 0) by (rewrite length_excl_spec; lia). rewrite nth_excl_spec by lia. cbn [rbind].
        f_equal. replace (idx + 1)%nat with (S idx) by lia.
        destruct (prefix_count flags (S idx)) as [P2 _]; auto; try lia.
        rewrite P1, P2, selected_S, app_length. destruct B as [-> | ->]; simpl; lia.
      - unfold lf. now replace (len - 1)%nat with idx by lia. }
    rewrite SH. cbn [rbind]. destruct B as [B|B]; rewrite B; simpl; auto.
    rewrite P1, Nat2Z.id. apply aset_lt. rewrite HLs. apply nth_error_Some.
    rewrite selected_pos by lia. discriminate. }
  assert (Run : forall ord st, (forall i, In i ord -> (i < len)%nat) -> length st = m ->
    exists st', par_for ord (compact_item (excl_spec flags len) (len - 1) lf) st = Ok st' /\ length st' = m /\
      forall k, nth_error st' k = nth_error (selected flags len) k \/
        (nth_error st' k = nth_error st k /\ forall i, In i ord -> nth i flags 0 <> 0 -> length (selected flags i) <> k)).
  { induction ord as [|a t IH]; intros st Ho HLs.
    - exists st. split; [reflexivity|]. split; auto.
    - unfold par_for in *. cbn [rfold]. rewrite Item by (auto; apply Ho; simpl; auto). cbn [rbind].
      set (st1 := if nth a flags 0 =? 0 then st else upd st (length (selected flags a)) a).
      assert (HL1 : length st1 = m) by (unfold st1; destruct (nth a flags 0 =? 0); rewrite ?length_upd; auto).
      destruct (IH st1) as (st' & E & L & K); auto.
      { intros i Hi; apply Ho; simpl; auto. }
      exists st'. split; auto. split; auto. intros k. destruct (K k) as [K1|[K1 K2]]; auto.
      destruct (Z.eqb_spec (nth a flags 0) 0) as [Za|Za].
      + right. unfold st1 in K1. split; auto. intros i [<-|Hi]; auto.
      + destruct (Nat.eq_dec (length (selected flags a)) k) as [<-|Hk].
        * left. rewrite K1. unfold st1. assert (a < len)%nat by (apply Ho; simpl; auto).
          rewrite selected_pos by auto. apply nth_error_upd_eq. rewrite HLs. apply nth_error_Some.
          rewrite selected_pos by auto. discriminate.
        * right. unfold st1 in K1. rewrite nth_error_upd_neq in K1 by auto. split; auto.
          intros i [<-|Hi]; auto. }
  destruct (0 <? Z.of_nat m) eqn:Em.
  - destruct (Run order (garbage m)) as (st & E & L & K); auto.
    { intros i Hi. apply (Permutation_in _ HP) in Hi. apply in_seq in Hi. lia. }
    rewrite E. f_equal. apply list_eq_nth_error. intros k.
    destruct (Nat.lt_ge_cases k m) as [Hk|Hk].
    + destruct (K k) as [|[_ K2]]; auto. destruct (selected_surj flags len k Hk) as (i & Hi & Hf & Hl).
      exfalso. apply (K2 i); auto. apply (Permutation_in _ (Permutation_sym HP)), in_seq. lia.
    + rewrite (proj2 (nth_error_None st k)) by lia. symmetry. apply nth_error_None. fold m. lia.
  - assert (m = 0%nat) by lia. destruct (selected flags len) eqn:Es; simpl in m; [|lia].
    f_equal. apply length_zero_iff_nil. rewrite HG. auto.
Qed.
