(** Proofs about Serialize.v *)
From Verif Require Import Base Streams Streams_spec Streams_proofs Serialize Serialize_spec.
From Coq Require Import ZifyBool ZifyNat.
Arguments le_bytes : simpl never.

Lemma nw64_small n : (Z.of_nat n < 2 ^ 64)%Z -> nw64 n = n.
Proof. intros. unfold nw64. rewrite w64_small by lia. lia. Qed.
Lemma al8_ge n : n <= al8 n. Proof. unfold al8. pose proof (Nat.div_mod (n + 7) 8). lia. Qed.
Lemma al8_mono a b : a <= b -> al8 a <= al8 b.
Proof. intros. unfold al8. pose proof (Nat.div_le_mono (a + 7) (b + 7) 8). lia. Qed.
Lemma align_repr_al8 n : (Z.of_nat (al8 n) < 2 ^ 64)%Z -> align_repr n = al8 n.
Proof.
  intros H. unfold align_repr, alignment.
  assert (E : if n mod 8 =? 0 then al8 n = n else al8 n = n + (8 - n mod 8)).
  { unfold al8. pose proof (Nat.div_mod n 8). pose proof (Nat.mod_upper_bound n 8).
    pose proof (Nat.div_mod (n + 7) 8). pose proof (Nat.mod_upper_bound (n + 7) 8).
    destruct (Nat.eqb_spec (n mod 8) 0); lia. }
  destruct (n mod 8 =? 0); [auto|]. rewrite <- E. now apply nw64_small.
Qed.
Lemma pre_head_8 : pre_head_length = 8. Proof. reflexivity. Qed.

Lemma write_at_ok pos b l : pos + length b <= length l ->
  exists l', write_at pos b l = Ok l' /\ length l' = length l /\
    (forall q, q < length b -> nth_error l' (pos + q) = nth_error b q) /\
    (forall p, p < pos \/ pos + length b <= p -> nth_error l' p = nth_error l p).
Proof.
  intros H. unfold write_at. replace (_ <=? _) with true by lia. eexists; split; [reflexivity|].
  assert (L1 : length (firstn pos l) = pos) by (rewrite firstn_length; lia).
  split; [rewrite !app_length, skipn_length; lia|]. split.
  - intros q Hq. rewrite nth_error_app2 by lia. rewrite L1. replace (pos + q - pos) with q by lia.
    now rewrite nth_error_app1 by lia.
  - intros p [Hp|Hp].
    + rewrite nth_error_app1 by lia. rewrite <- (firstn_skipn pos l) at 2.
      now rewrite nth_error_app1 by lia.
    + rewrite nth_error_app2 by lia. rewrite nth_error_app2 by lia. rewrite L1.
      rewrite <- (firstn_skipn (pos + length b) l) at 2.
      rewrite (nth_error_app2 (firstn (pos + length b) l)) by (rewrite firstn_length; lia).
      rewrite firstn_length. f_equal. lia.
Qed.

Lemma nth_error_firstn_skipn {A} (l : list A) pos n q : q < n ->
  nth_error (firstn n (skipn pos l)) q = nth_error l (pos + q).
Proof.
  revert l; induction pos as [|p IH]; intros l H; simpl.
  - revert n q H; induction l as [|a t IHl]; intros [|n] [|q] H; simpl; try lia; auto.
    apply IHl; lia.
  - destruct l; simpl; [rewrite firstn_nil; now destruct q|]. apply IH; auto.
Qed.

Lemma read_at_ok pos v l : pos + length v <= length l ->
  (forall q, q < length v -> nth_error l (pos + q) = nth_error v q) ->
  read_at pos (length v) l = Ok v.
Proof.
  intros H E. unfold read_at. replace (_ <=? _) with true by lia. f_equal.
  apply list_eq_nth_error. intros q. destruct (Nat.lt_ge_cases q (length v)).
  - rewrite nth_error_firstn_skipn by auto. now apply E.
  - rewrite !(proj2 (nth_error_None _ _)); auto. rewrite firstn_length; lia.
Qed.

(** Content of a buffer region. *)
Definition holds_buf (st : list Z) (hd sz : nat) (buf : list (list Z)) (len : nat) : Prop :=
  forall i q, i < len -> q < sz -> nth_error st (hd + i * sz + q) = nth_error (nth i buf []) q.

Lemma par_write_ok sz buf hd order : NoDup order -> forall st,
  (forall i, In i order -> i < length buf /\ length (nth i buf []) = sz /\ hd + i * sz + sz <= length st) ->
  exists st', par_for order (fun id st => v <- aget buf id ;; write_at (hd + id * sz) v st) st = Ok st' /\
    length st' = length st /\
    (forall i q, In i order -> q < sz -> nth_error st' (hd + i * sz + q) = nth_error (nth i buf []) q) /\
    (forall p, (forall i, In i order -> p < hd + i * sz \/ hd + i * sz + sz <= p) ->
       nth_error st' p = nth_error st p).
Proof.
  induction 1 as [|i t Hi Hd IH]; intros st HI; unfold par_for; simpl.
  - exists st. repeat split; auto; simpl; tauto.
  - destruct (HI i) as (Hb & Hs & Hr); [simpl; auto|].
    rewrite (aget_lt buf i []) by auto. cbn [rbind].
    destruct (write_at_ok (hd + i * sz) (nth i buf []) st) as (st1 & E & L & W & K); [lia|].
    rewrite E. cbn [rbind]. destruct (IH st1) as (st2 & E2 & L2 & W2 & K2).
    { intros j Hj. destruct (HI j); simpl; auto. rewrite L. auto. }
    exists st2. split; [exact E2|]. split; [lia|]. split.
    + intros j q Hj Hq. destruct Hj as [<-|Hj]; [|auto].
      rewrite K2.
      * apply W. lia.
      * intros j Hj. assert (i <> j) by (intros ->; auto). nia.
    + intros p Hp. rewrite K2.
      * apply K. rewrite Hs. apply Hp; simpl; auto.
      * intros j Hj. apply Hp; simpl; auto.
Qed.

Lemma par_load_ok sz st hd buf order : NoDup order -> forall dst,
  (forall i, In i order -> i < length dst /\ length (nth i buf []) = sz /\ hd + i * sz + sz <= length st /\
     forall q, q < sz -> nth_error st (hd + i * sz + q) = nth_error (nth i buf []) q) ->
  exists d, par_for order (fun id d => v <- read_at (hd + id * sz) sz st ;; aset d id v) dst = Ok d /\
    length d = length dst /\
    (forall i, In i order -> nth i d [] = nth i buf []) /\
    (forall i, ~ In i order -> nth i d [] = nth i dst []).
Proof.
  induction 1 as [|i t Hi Hd IH]; intros dst HI; unfold par_for; simpl.
  - exists dst. repeat split; auto; simpl; tauto.
  - destruct (HI i) as (Hb & Hs & Hr & Hq); [simpl; auto|].
    replace (read_at (hd + i * sz) sz st) with (Ok (nth i buf [])).
    2:{ symmetry. rewrite <- Hs at 2. apply read_at_ok; [rewrite Hs; lia|]. rewrite Hs; auto. }
    cbn [rbind]. rewrite aset_lt by auto. cbn [rbind].
    destruct (IH (upd dst i (nth i buf []))) as (d & E & L & W & K).
    { intros j Hj. rewrite length_upd. apply HI; simpl; auto. }
    exists d. split; [exact E|]. rewrite length_upd in L. split; [auto|]. split.
    + intros j [<-|Hj]; auto. rewrite K by auto. now apply nth_upd_eq.
    + intros j Hj. rewrite K by (simpl in Hj; tauto). apply nth_upd_neq. simpl in Hj; tauto.
Qed.

Lemma perm_seq_nodup order n : Permutation order (seq 0 n) -> NoDup order.
Proof. intros H. apply Permutation_sym in H. eapply Permutation_NoDup; eauto. apply seq_NoDup. Qed.
Lemma perm_seq_in order n i : Permutation order (seq 0 n) -> (In i order <-> i < n).
Proof. intros H. split; intros Hi.
  - apply (Permutation_in _ H) in Hi. apply in_seq in Hi. lia.
  - apply Permutation_sym in H. apply (Permutation_in _ H). apply in_seq. lia. Qed.

(* ------------------------------------------------------------ *)
Definition sbound (s : sh) : Prop :=
  (Z.of_nat (length (s_storage s)) < 2 ^ 64)%Z /\ (Z.of_nat (length (s_header s)) < 2 ^ 64)%Z.

Lemma write_scalar_ok v s : sbound s -> s_head_host s + al8 (length v) <= length (s_header s) ->
  exists s', sh_write v s = Ok s' /\ s_storage s' = s_storage s /\ s_head_device s' = s_head_device s /\
    s_head_host s' = s_head_host s + al8 (length v) /\ length (s_header s') = length (s_header s) /\
    (forall q, q < length v -> nth_error (s_header s') (s_head_host s + q) = nth_error v q) /\
    (forall p, p < s_head_host s -> nth_error (s_header s') p = nth_error (s_header s) p).
Proof.
  intros [B1 B2] H. unfold sh_write, check_host. pose proof (al8_ge (length v)).
  rewrite align_repr_al8 by lia. rewrite nw64_small by lia.
  replace (_ <? _) with false by lia. cbn [rbind].
  destruct (write_at_ok (s_head_host s) v (s_header s)) as (h & E & L & W & K); [lia|].
  rewrite E. cbn [rbind]. eexists; split; [reflexivity|]. simpl.
  rewrite L. repeat split; auto.
Qed.

Lemma load_scalar_ok v s : sbound s -> s_head_host s + al8 (length v) <= length (s_header s) ->
  (forall q, q < length v -> nth_error (s_header s) (s_head_host s + q) = nth_error v q) ->
  sh_load (length v) s = Ok (v, mkSH (s_storage s) (s_header s) (s_head_device s) (s_head_host s + al8 (length v))).
Proof.
  intros [B1 B2] H E. unfold sh_load, check_host. pose proof (al8_ge (length v)).
  rewrite align_repr_al8 by lia. rewrite nw64_small by lia.
  replace (_ <? _) with false by lia. cbn [rbind]. rewrite read_at_ok by (auto; lia). reflexivity.
Qed.

Lemma write_buf_ok order sz buf len s : sbound s -> Permutation order (seq 0 len) ->
  len <= length buf -> (forall i, i < len -> length (nth i buf []) = sz) ->
  s_head_device s + al8 (len * sz) <= length (s_storage s) ->
  exists s', sh_write_buf order sz buf len s = Ok s' /\ s_header s' = s_header s /\ s_head_host s' = s_head_host s /\
    s_head_device s' = s_head_device s + al8 (len * sz) /\ length (s_storage s') = length (s_storage s) /\
    holds_buf (s_storage s') (s_head_device s) sz buf len /\
    (forall p, p < s_head_device s -> nth_error (s_storage s') p = nth_error (s_storage s) p).
Proof.
  intros [B1 B2] HP Hl HF H. unfold sh_write_buf, check_device. pose proof (al8_ge (len * sz)).
  rewrite (nw64_small (len * sz)) by lia. rewrite align_repr_al8 by lia. rewrite nw64_small by lia.
  replace (_ <? _) with false by lia. cbn [rbind].
  destruct (par_write_ok sz buf (s_head_device s) order (perm_seq_nodup _ _ HP) (s_storage s))
    as (st & E & L & W & K).
  { intros i Hi. rewrite (perm_seq_in _ _ _ HP) in Hi. split; [lia|]. split; [auto|]. nia. }
  cbn [rbind] in E. rewrite E. cbn [rbind]. eexists; split; [reflexivity|]. simpl.
  repeat split; auto.
  - intros i q Hi Hq. apply W; auto. now apply (perm_seq_in _ _ _ HP).
  - intros p Hp. apply K. intros; lia.
Qed.

Lemma load_buf_ok order sz buf dst len s : sbound s -> Permutation order (seq 0 len) ->
  len <= length buf -> (forall i, i < len -> length (nth i buf []) = sz) -> len <= length dst ->
  s_head_device s + al8 (len * sz) <= length (s_storage s) ->
  holds_buf (s_storage s) (s_head_device s) sz buf len ->
  sh_load_buf order sz dst len s
   = Ok (firstn len buf ++ skipn len dst,
         mkSH (s_storage s) (s_header s) (s_head_device s + al8 (len * sz)) (s_head_host s)).
Proof.
  intros [B1 B2] HP Hl HF Hd H HH. unfold sh_load_buf, check_device. pose proof (al8_ge (len * sz)).
  rewrite (nw64_small (len * sz)) by lia. rewrite align_repr_al8 by lia. rewrite nw64_small by lia.
  replace (length (s_storage s) <? _) with false by lia.
  cbn [rbind]. replace (length dst <? len) with false by lia.
  destruct (par_load_ok sz (s_storage s) (s_head_device s) buf order (perm_seq_nodup _ _ HP) dst)
    as (d & E & L & W & K).
  { intros i Hi. rewrite (perm_seq_in _ _ _ HP) in Hi. split; [lia|]. split; [auto|]. split; [nia|].
    intros q Hq. now apply HH. }
  cbn [rbind] in E. rewrite E. cbn [rbind]. do 2 f_equal.
  apply (list_eq_nth []).
  - rewrite app_length, firstn_length, skipn_length. lia.
  - intros i Hi. destruct (Nat.lt_ge_cases i len).
    + rewrite W by (now apply (perm_seq_in _ _ _ HP)). rewrite app_nth1 by (rewrite firstn_length; lia).
      rewrite <- (firstn_skipn len buf) at 1. now rewrite app_nth1 by (rewrite firstn_length; lia).
    + rewrite K by (rewrite (perm_seq_in _ _ _ HP); lia). rewrite app_nth2 by (rewrite firstn_length; lia).
      rewrite firstn_length. rewrite <- (firstn_skipn len dst) at 1.
      rewrite app_nth2 by (rewrite firstn_length; lia). rewrite firstn_length. f_equal; lia.
Qed.

(* ------------------------------------------------------------ *)
(** Bytes actually consumed by an item in the header / content region. *)
Definition use_head (i : sitem) : nat :=
  match i with IScalar v => al8 (length v) | IBuf _ _ _ => 0 | IStr _ => 8 end.
Definition use_cont (i : sitem) : nat :=
  match i with IScalar v => 0 | IBuf sz _ len => al8 (len * sz) | IStr str => al8 (length str * 1) end.
Definition uses_head l := list_sum (map use_head l).
Definition uses_cont l := list_sum (map use_cont l).

Definition chars (str : list Z) := map (fun c => [c]) str.
Lemma chars_len str i : i < length str -> length (nth i (chars str) []) = 1.
Proof. intros H. unfold chars. rewrite (nth_indep _ [] [0%Z]) by (rewrite map_length; auto).
  rewrite (map_nth (fun c => [c]) str 0%Z). reflexivity. Qed.

Definition holds_item (hdr st : list Z) (hh hd : nat) (i : sitem) : Prop :=
  match i with
  | IScalar v => forall q, q < length v -> nth_error hdr (hh + q) = nth_error v q
  | IBuf sz buf len => holds_buf st hd sz buf len
  | IStr str =>
      (forall q, q < 4 -> nth_error hdr (hh + q) = nth_error (le_bytes 4 (Z.of_nat (length str))) q) /\
      holds_buf st hd 1 (chars str) (length str)
  end.
Fixpoint holds (hdr st : list Z) (hh hd : nat) (l : list sitem) : Prop :=
  match l with
  | [] => True
  | i :: t => holds_item hdr st hh hd i /\ holds hdr st (hh + use_head i) (hd + use_cont i) t
  end.

Lemma al8_4 : al8 4 = 8. Proof. reflexivity. Qed.

Lemma write_item_ok order i s : sbound s -> item_ok i -> (forall n, Permutation (order n) (seq 0 n)) ->
  s_head_host s + use_head i <= length (s_header s) ->
  s_head_device s + use_cont i <= length (s_storage s) ->
  exists s', sh_write_item order i s = Ok s' /\
    s_head_host s' = s_head_host s + use_head i /\ s_head_device s' = s_head_device s + use_cont i /\
    length (s_header s') = length (s_header s) /\ length (s_storage s') = length (s_storage s) /\
    holds_item (s_header s') (s_storage s') (s_head_host s) (s_head_device s) i /\
    (forall p, p < s_head_host s -> nth_error (s_header s') p = nth_error (s_header s) p) /\
    (forall p, p < s_head_device s -> nth_error (s_storage s') p = nth_error (s_storage s) p).
Proof.
  intros B Ho HP H1 H2. destruct i as [v|sz buf len|str]; simpl in *.
  - destruct (write_scalar_ok v s B H1) as (s' & E & A1 & A2 & A3 & A4 & A5 & A6).
    exists s'. rewrite A1, A2, A3, A4. repeat split; auto.
  - destruct Ho as [Ho1 Ho2]. rewrite Forall_forall in Ho2.
    destruct (write_buf_ok (order len) sz buf len s B (HP len) Ho1) as (s' & E & A1 & A2 & A3 & A4 & A5 & A6); auto.
    { intros i Hi. apply Ho2. apply nth_In. lia. }
    exists s'. rewrite A1, A2, A3, A4. repeat split; auto.
  - unfold sh_write_string.
    destruct (write_scalar_ok (le_bytes 4 (Z.of_nat (length str))) s B) as (s1 & E & A1 & A2 & A3 & A4 & A5 & A6).
    { rewrite le_bytes_length, al8_4. auto. }
    rewrite le_bytes_length, ?al8_4 in *. rewrite E. cbn [rbind].
    destruct (write_buf_ok (order (length str)) 1 (chars str) (length str) s1) as (s' & E' & C1 & C2 & C3 & C4 & C5 & C6).
    + unfold sbound in *. rewrite A1, A4. auto.
    + apply HP.
    + unfold chars; rewrite map_length; auto.
    + intros i Hi; now apply chars_len.
    + rewrite A1, A2. auto.
    + exists s'. rewrite C1, C2, C3, C4, A1, A2, A3, A4. rewrite A1, A2 in *.
      repeat split; auto.
Qed.

Lemma holds_ext hdr st hdr' st' l : forall hh hd,
  (forall p, hh <= p < hh + uses_head l -> nth_error hdr' p = nth_error hdr p) ->
  (forall p, hd <= p < hd + uses_cont l -> nth_error st' p = nth_error st p) ->
  Forall item_ok l -> holds hdr st hh hd l -> holds hdr' st' hh hd l.
Proof.
  unfold uses_head, uses_cont. induction l as [|i t IH]; intros hh hd P1 P2 HF H; simpl in *; auto.
  inversion HF; subst. destruct H as [Hi Ht]. split.
  - destruct i as [v|sz buf len|str]; simpl in *.
    + intros q Hq. pose proof (al8_ge (length v)). rewrite P1 by lia. auto.
    + intros i q Hi' Hq. pose proof (al8_ge (len * sz)). rewrite P2 by nia. auto.
    + destruct Hi as [Q1 Q2]. split.
      * intros q Hq. rewrite P1 by lia. auto.
      * intros i q Hi' Hq. pose proof (al8_ge (length str * 1)). rewrite P2 by nia. auto.
  - apply IH; auto; intros p Hp; [apply P1|apply P2]; lia.
Qed.

Lemma write_items_ok sched l : fair_sched sched -> forall k s, sbound s -> Forall item_ok l ->
  s_head_host s + uses_head l <= length (s_header s) ->
  s_head_device s + uses_cont l <= length (s_storage s) ->
  exists s', sh_write_items sched k l s = Ok s' /\
    length (s_header s') = length (s_header s) /\ length (s_storage s') = length (s_storage s) /\
    holds (s_header s') (s_storage s') (s_head_host s) (s_head_device s) l /\
    (forall p, p < s_head_host s -> nth_error (s_header s') p = nth_error (s_header s) p) /\
    (forall p, p < s_head_device s -> nth_error (s_storage s') p = nth_error (s_storage s) p).
Proof.
  intros HS. unfold uses_head, uses_cont. induction l as [|i t IH]; intros k s B HF H1 H2; simpl in *.
  - exists s. repeat split; auto.
  - inversion HF as [|? ? Hi Ht]; subst.
    destruct (write_item_ok (sched k) i s B Hi (HS k)) as (s1 & E & A1 & A2 & A3 & A4 & A5 & A6 & A7); try lia.
    rewrite E. cbn [rbind].
    destruct (IH (S k) s1) as (s2 & E2 & C1 & C2 & C3 & C4 & C5); auto.
    { unfold sbound in *. rewrite A3, A4. auto. }
    { rewrite A1, A3. lia. }
    { rewrite A2, A4. lia. }
    exists s2. split; auto. split; [lia|]. split; [lia|]. rewrite A1, A2 in C3. split.
    + split; [|exact C3].
      assert (HX : holds (s_header s2) (s_storage s2) (s_head_host s) (s_head_device s) [i]).
      { apply (holds_ext (s_header s1) (s_storage s1)).
        - unfold uses_head; simpl. intros p Hp. apply C4. lia.
        - unfold uses_cont; simpl. intros p Hp. apply C5. lia.
        - auto.
        - simpl; auto. }
      simpl in HX. tauto.
    + split.
      * intros p Hp. rewrite C4 by lia. auto.
      * intros p Hp. rewrite C5 by lia. auto.
Qed.

Lemma load_item_ok order i ld s : sbound s -> item_ok i -> (forall n, Permutation (order n) (seq 0 n)) ->
  load_matches i ld ->
  s_head_host s + use_head i <= length (s_header s) ->
  s_head_device s + use_cont i <= length (s_storage s) ->
  holds_item (s_header s) (s_storage s) (s_head_host s) (s_head_device s) i ->
  sh_load_item order ld s = Ok (load_expected i ld,
     mkSH (s_storage s) (s_header s) (s_head_device s + use_cont i) (s_head_host s + use_head i)).
Proof.
  intros B Ho HP Hm H1 H2 HH.
  destruct i as [v|sz buf len|str], ld as [lsz|lsz dst llen|]; simpl in *; try contradiction.
  - subst lsz. rewrite load_scalar_ok by auto. cbn [rbind]. now rewrite Nat.add_0_r.
  - destruct Hm as (-> & -> & Hd). destruct Ho as [Ho1 Ho2]. rewrite Forall_forall in Ho2.
    rewrite (load_buf_ok _ sz buf) by (auto; intros i Hi; apply Ho2; apply nth_In; lia).
    now rewrite Nat.add_0_r.
  - destruct HH as [Q1 Q2]. unfold sh_load_string.
    pose proof (load_scalar_ok (le_bytes 4 (Z.of_nat (length str))) s B) as L1.
    rewrite le_bytes_length, al8_4 in L1. rewrite L1 by auto. cbn [rbind].
    rewrite le4, w32_small by lia. rewrite Nat2Z.id.
    rewrite (load_buf_ok _ 1 (chars str)); simpl; auto.
    + cbn [rbind]. do 3 f_equal. rewrite skipn_all2 by (rewrite repeat_length; lia). rewrite app_nil_r.
      replace (length str) with (length (chars str)) by (unfold chars; now rewrite map_length).
      rewrite firstn_all. unfold chars. clear. induction str; simpl; congruence.
    + unfold chars; rewrite map_length; auto.
    + intros i Hi; now apply chars_len.
    + rewrite repeat_length; auto.
Qed.

Lemma load_items_ok sched l lds : fair_sched sched -> Forall2 load_matches l lds -> forall k s,
  sbound s -> Forall item_ok l ->
  s_head_host s + uses_head l <= length (s_header s) ->
  s_head_device s + uses_cont l <= length (s_storage s) ->
  holds (s_header s) (s_storage s) (s_head_host s) (s_head_device s) l ->
  exists s', sh_load_items sched k lds s = Ok (map (fun p => load_expected (fst p) (snd p)) (combine l lds), s').
Proof.
  intros HS HM. unfold uses_head, uses_cont. induction HM as [|i ld t lt Hm HM IH]; intros k s B HF H1 H2 HH; simpl in *.
  - eauto.
  - inversion HF as [|? ? Hi Ht]; subst. destruct HH as [HH1 HH2].
    rewrite (load_item_ok (sched k) i ld s B Hi (HS k) Hm) by (auto; lia). cbn [rbind].
    destruct (IH (S k) (mkSH (s_storage s) (s_header s) (s_head_device s + use_cont i) (s_head_host s + use_head i))) as (s' & E); auto; simpl; try lia.
    rewrite E. cbn [rbind]. eauto.
Qed.

(* ------------------------------------------------------------ *)
Definition raw_head (i : sitem) : nat := use_head i.
Definition raw_cont (i : sitem) : nat :=
  match i with IScalar v => 0 | IBuf sz _ len => al8 (len * sz) | IStr str => al8 (4 * length str) end.

Lemma item_size_raw i : (Z.of_nat (item_bytes i) < 2 ^ 64)%Z ->
  item_size i = mkSS (raw_head i) (raw_cont i) /\ item_bytes i = raw_head i + raw_cont i /\ use_cont i <= raw_cont i.
Proof.
  destruct i as [v|sz buf len|str]; cbn [item_size item_bytes raw_head raw_cont use_head use_cont]; intros H.
  - unfold byte_size_scalar. rewrite align_repr_al8 by auto. repeat split; lia.
  - unfold byte_size_buf. pose proof (al8_ge (len * sz)). rewrite nw64_small by lia.
    rewrite align_repr_al8 by auto. repeat split; lia.
  - unfold byte_size_string, ss_add, byte_size_scalar, byte_size_buf. cbn [head_size content_size].
    change (align_repr 4) with 8. rewrite (Nat.mul_comm (length str) 4).
    pose proof (al8_ge (4 * length str)).
    assert (H' : (Z.of_nat (al8 (4 * length str)) < 2 ^ 64)%Z) by lia.
    rewrite (nw64_small (4 * length str)) by lia. rewrite align_repr_al8 by lia.
    rewrite !nw64_small by lia. repeat split; try lia.
    pose proof (al8_mono (length str * 1) (4 * length str)). lia.
Qed.

Lemma items_size_raw l : (Z.of_nat (items_bytes l) < 2 ^ 64)%Z ->
  items_size l = mkSS (list_sum (map raw_head l)) (list_sum (map raw_cont l)) /\
  items_bytes l = list_sum (map raw_head l) + list_sum (map raw_cont l) /\
  uses_cont l <= list_sum (map raw_cont l).
Proof.
  unfold items_size, items_bytes, uses_cont.
  assert (G : forall l a, (Z.of_nat (head_size a + content_size a + list_sum (map item_bytes l)) < 2 ^ 64)%Z ->
    fold_left (fun a i => ss_add a (item_size i)) l a
      = mkSS (head_size a + list_sum (map raw_head l)) (content_size a + list_sum (map raw_cont l)) /\
    list_sum (map item_bytes l) = list_sum (map raw_head l) + list_sum (map raw_cont l) /\
    list_sum (map use_cont l) <= list_sum (map raw_cont l)).
  { clear. induction l as [|i t IH]; intros a H; simpl in *.
    - destruct a; simpl. rewrite !Nat.add_0_r. repeat split; lia.
    - destruct (item_size_raw i) as (E1 & E2 & E3); [lia|]. rewrite E1. unfold ss_add at 2. simpl.
      rewrite !nw64_small by lia.
      destruct (IH (mkSS (head_size a + raw_head i) (content_size a + raw_cont i))) as (F1 & F2 & F3); simpl in *; [lia|].
      rewrite F1. split; [f_equal; lia|]. split; lia. }
  intros H. destruct (G l (mkSS 0 0)) as (F1 & F2 & F3); simpl in *; auto.
Qed.

Definition limit (allow_large : bool) : Z := if allow_large then 2 ^ 64 else 2 ^ 32.

Lemma roundtrip sched1 sched2 junk l lds allow :
  fair_sched sched1 -> fair_sched sched2 -> Forall item_ok l -> Forall2 load_matches l lds ->
  (Z.of_nat (items_bytes l + 8) < limit allow)%Z ->
  exists s0 s1 buf s2 s3,
    sh_allocate junk (items_size l) allow = Ok s0 /\
    sh_write_items sched1 0 l s0 = Ok s1 /\
    sh_finalize s1 = Ok buf /\
    sh_from_buffer buf allow = Ok s2 /\
    sh_load_items sched2 0 lds s2 = Ok (map (fun p => load_expected (fst p) (snd p)) (combine l lds), s3).
Proof.
  intros HS1 HS2 HO HM HB.
  assert (HB64 : (Z.of_nat (items_bytes l + 8) < 2 ^ 64)%Z) by (unfold limit in HB; destruct allow; lia).
  destruct (items_size_raw l) as (F1 & F2 & F3); [lia|].
  set (H := list_sum (map raw_head l)) in *. set (C := list_sum (map raw_cont l)) in *.
  (* allocate *)
  assert (EA : exists st, sh_allocate junk (items_size l) allow = Ok (mkSH st (repeat 0%Z H) (8 + H) 0) /\
     length st = 8 + H + C /\ forall q, q < 8 -> nth_error st q = nth_error (le_bytes 8 (Z.of_nat H)) q).
  { unfold sh_allocate. rewrite F1. cbn [head_size content_size]. rewrite pre_head_8.
    rewrite (nw64_small (H + C)) by lia. rewrite (nw64_small (H + C + 8)) by lia.
    replace (if allow then Ok (H + C + 8) else narrow_u32 (H + C + 8)) with (Ok (H + C + 8)).
    2:{ unfold limit in HB. destruct allow; auto. unfold narrow_u32. replace (_ <? _)%Z with true by lia. auto. }
    cbn [rbind]. unfold write_prehead.
    destruct (write_at_ok 0 (le_bytes 8 (Z.of_nat H)) (map junk (seq 0 (H + C + 8)))) as (st & E & L & W & K).
    { rewrite le_bytes_length, map_length, seq_length. lia. }
    rewrite E. cbn [rbind]. rewrite nw64_small by lia. exists st. split; auto.
    rewrite map_length, seq_length in L. rewrite le_bytes_length in W. split; [lia|auto]. }
  destruct EA as (st & EA & LA & WA).
  set (s0 := mkSH st (repeat 0%Z H) (8 + H) 0) in *.
  assert (LH : length (s_header s0) = H) by (simpl; apply repeat_length).
  assert (Bs0 : sbound s0) by (unfold sbound; rewrite LH; simpl; lia).
  assert (UH : uses_head l = H) by reflexivity.
  destruct (write_items_ok sched1 l HS1 0 s0 Bs0 HO) as (s1 & E1 & A1 & A2 & A3 & A4 & A5).
  { rewrite LH, UH. simpl. lia. }
  { simpl. lia. }
  (* finalize *)
  assert (EF : exists buf, sh_finalize s1 = Ok buf /\ length buf = 8 + H + C /\
    (forall q, q < H -> nth_error buf (8 + q) = nth_error (s_header s1) q) /\
    (forall p, p < 8 \/ 8 + H <= p -> nth_error buf p = nth_error (s_storage s1) p)).
  { unfold sh_finalize, write_header. rewrite A1, LH, pre_head_8. destruct (Nat.eqb_spec H 0).
    - exists (s_storage s1). rewrite A2. simpl. split; auto. split; [simpl; lia|]. split; [lia|auto].
    - destruct (write_at_ok 8 (s_header s1) (s_storage s1)) as (b & Eb & Lb & Wb & Kb).
      { rewrite A1, A2, LH. simpl. lia. }
      rewrite A1, LH in *. exists b. split; auto. split; [rewrite Lb, A2; simpl; lia|]. split; auto. }
  destruct EF as (buf & EF & LB & WB & KB).
  (* from buffer *)
  assert (EH : read_at 0 8 buf = Ok (le_bytes 8 (Z.of_nat H))).
  { pose proof (read_at_ok 0 (le_bytes 8 (Z.of_nat H)) buf) as R. rewrite le_bytes_length in R. apply R; [lia|].
    intros q Hq. simpl. rewrite KB by lia. rewrite A5 by (simpl; lia). simpl. auto. }
  assert (ED : sh_from_buffer buf allow = Ok (mkSH buf (s_header s1) (8 + H) 0)).
  { unfold sh_from_buffer.
    replace (if allow then Ok 0 else narrow_u32 (length buf)) with (Ok (if allow then 0 else length buf)).
    2:{ unfold limit in HB. destruct allow; auto. unfold narrow_u32. rewrite LB. replace (_ <? _)%Z with true by lia. auto. }
    cbn [rbind]. unfold extract_prehead. replace (length buf =? 0) with false by lia. rewrite EH. cbn [rbind].
    rewrite le8, w64_small by lia. rewrite Nat2Z.id. rewrite pre_head_8.
    unfold extract_header. rewrite pre_head_8.
    replace (if H =? 0 then Ok [] else read_at 8 H buf) with (Ok (s_header s1)).
    2:{ destruct (Nat.eqb_spec H 0).
        - rewrite (proj1 (length_zero_iff_nil (s_header s1))); [auto|]. rewrite A1, LH. auto.
        - symmetry. pose proof (read_at_ok 8 (s_header s1) buf) as R. rewrite A1, LH in R. apply R; [lia|auto]. }
    cbn [rbind]. now rewrite nw64_small by lia. }
  set (s2 := mkSH buf (s_header s1) (8 + H) 0) in *.
  destruct (load_items_ok sched2 l lds HS2 HM 0 s2) as (s3 & E3); auto.
  { unfold sbound; simpl. rewrite A1, LH, LB. lia. }
  { simpl. rewrite A1, LH, UH. lia. }
  { simpl. rewrite LB. lia. }
  { simpl. apply (holds_ext (s_header s1) (s_storage s1)); auto.
    - intros p Hp. apply KB; lia. }
  exists s0, s1, buf, s2, s3. auto.
Qed.

(* ---------------- safety ---------------- *)
Lemma small_al8 n : small n -> (Z.of_nat (al8 n) < 2 ^ 63)%Z.
Proof. unfold small, al8. intros. pose proof (Nat.div_mod (n + 7) 8). pose proof (Nat.mod_upper_bound (n + 7) 8). lia. Qed.

Definition ssmall (s : sh) : Prop := small (length (s_storage s)) /\ small (length (s_header s)).
Lemma ssmall_sbound s : ssmall s -> sbound s. Proof. unfold ssmall, sbound, small. lia. Qed.

Lemma write_scalar_cases v s : ssmall s -> sh_inv s -> small (length v) ->
  if s_head_host s + al8 (length v) <=? length (s_header s)
  then exists s', sh_write v s = Ok s' else sh_write v s = Throw.
Proof.
  intros B [I1 I2] Hv. pose proof (small_al8 _ Hv). destruct B as [B1 B2]. unfold small in *.
  destruct (_ <=? _) eqn:E.
  - destruct (write_scalar_ok v s) as (s' & E' & _); [split; lia|lia|eauto].
  - unfold sh_write, check_host. rewrite align_repr_al8 by lia. rewrite nw64_small by lia.
    replace (_ <? _) with true by lia. reflexivity.
Qed.

Lemma load_scalar_cases sz s : ssmall s -> sh_inv s -> small sz ->
  if s_head_host s + al8 sz <=? length (s_header s)
  then sh_load sz s = Ok (firstn sz (skipn (s_head_host s) (s_header s)),
         mkSH (s_storage s) (s_header s) (s_head_device s) (s_head_host s + al8 sz))
  else sh_load sz s = Throw.
Proof.
  intros [B1 B2] [I1 I2] Hv. pose proof (small_al8 _ Hv). pose proof (al8_ge sz). unfold small in *.
  unfold sh_load, check_host. rewrite align_repr_al8 by lia. rewrite nw64_small by lia.
  destruct (_ <=? _) eqn:E.
  - replace (_ <? _) with false by lia. cbn [rbind]. unfold read_at. replace (_ <=? _) with true by lia. reflexivity.
  - replace (_ <? _) with true by lia. reflexivity.
Qed.

Lemma write_buf_cases order sz buf len s : ssmall s -> sh_inv s -> Permutation order (seq 0 len) ->
  small (len * sz) -> item_ok (IBuf sz buf len) ->
  if s_head_device s + al8 (len * sz) <=? length (s_storage s)
  then exists s', sh_write_buf order sz buf len s = Ok s' else sh_write_buf order sz buf len s = Throw.
Proof.
  intros B [I1 I2] HP Hv [Ho1 Ho2]. pose proof (small_al8 _ Hv). pose proof (al8_ge (len * sz)). destruct B as [B1 B2]. unfold small in *.
  destruct (_ <=? _) eqn:E.
  - destruct (write_buf_ok order sz buf len s) as (s' & E' & _); auto; [split; lia| |lia|eauto].
    intros i Hi. rewrite Forall_forall in Ho2. apply Ho2. apply nth_In. lia.
  - unfold sh_write_buf, check_device. rewrite (nw64_small (len * sz)) by lia.
    rewrite align_repr_al8 by lia. rewrite nw64_small by lia.
    replace (_ <? _) with true by lia. reflexivity.
Qed.

Definition slice_items (st : list Z) (hd sz len : nat) : list (list Z) :=
  map (fun i => firstn sz (skipn (hd + i * sz) st)) (seq 0 len).
Lemma slice_nth st hd sz len i : i < len -> nth i (slice_items st hd sz len) [] = firstn sz (skipn (hd + i * sz) st).
Proof. intros H. unfold slice_items. set (f := fun i => firstn sz (skipn (hd + i * sz) st)).
  rewrite (nth_indep _ [] (f 0)) by (rewrite map_length, seq_length; auto).
  rewrite map_nth, seq_nth by auto. reflexivity. Qed.

Lemma load_buf_cases order sz dst len s : ssmall s -> sh_inv s -> Permutation order (seq 0 len) -> small (len * sz) ->
  if (s_head_device s + al8 (len * sz) <=? length (s_storage s)) && (len <=? length dst)
  then exists d, sh_load_buf order sz dst len s = Ok (d,
       mkSH (s_storage s) (s_header s) (s_head_device s + al8 (len * sz)) (s_head_host s))
  else sh_load_buf order sz dst len s = Throw.
Proof.
  intros B [I1 I2] HP Hv. pose proof (small_al8 _ Hv). pose proof (al8_ge (len * sz)). destruct B as [B1 B2]. unfold small in *.
  destruct (s_head_device s + al8 (len * sz) <=? length (s_storage s)) eqn:E; cbn [andb].
  - destruct (len <=? length dst) eqn:D.
    + eexists. apply (load_buf_ok order sz (slice_items (s_storage s) (s_head_device s) sz len)); auto; try lia.
      * split; lia.
      * unfold slice_items. rewrite map_length, seq_length. auto.
      * intros i Hi. rewrite slice_nth by auto. rewrite firstn_length, skipn_length. nia.
      * intros i q Hi Hq. rewrite slice_nth by auto. now rewrite nth_error_firstn_skipn.
    + unfold sh_load_buf, check_device. rewrite (nw64_small (len * sz)) by lia.
      rewrite align_repr_al8 by lia. rewrite nw64_small by lia.
      replace (length (s_storage s) <? _) with false by lia. cbn [rbind].
      replace (length dst <? len) with true by lia. reflexivity.
  - unfold sh_load_buf, check_device. rewrite (nw64_small (len * sz)) by lia.
    rewrite align_repr_al8 by lia. rewrite nw64_small by lia.
    replace (length (s_storage s) <? _) with true by lia. reflexivity.
Qed.

Lemma le_val_bound l : bytes_ok l -> (0 <= le_val l < 256 ^ Z.of_nat (length l))%Z.
Proof. induction 1 as [|b t Hb HF IH]; [simpl; lia|]. cbn [le_val length].
  rewrite Nat2Z.inj_succ, Z.pow_succ_r by lia. lia. Qed.
Lemma bytes_ok_app a b : bytes_ok a -> bytes_ok b -> bytes_ok (a ++ b).
Proof. intros; apply Forall_app; auto. Qed.
Lemma bytes_ok_firstn n l : bytes_ok l -> bytes_ok (firstn n l).
Proof. intros H. rewrite <- (firstn_skipn n l) in H. now apply Forall_app in H. Qed.
Lemma bytes_ok_skipn n l : bytes_ok l -> bytes_ok (skipn n l).
Proof. intros H. rewrite <- (firstn_skipn n l) in H. now apply Forall_app in H. Qed.
Lemma le_bytes_ok n v : bytes_ok (le_bytes n v).
Proof. revert v; induction n; intros v; [constructor|]. constructor; [apply Z.mod_pos_bound; lia|apply IHn]. Qed.

Definition sgood (s : sh) : Prop := sh_inv s /\ ssmall s /\ bytes_ok (s_header s).

Lemma sh_write_shape v s s' : sh_write v s = Ok s' -> bytes_ok v -> bytes_ok (s_header s) -> bytes_ok (s_header s').
Proof.
  unfold sh_write, check_host. destruct (_ <? _); [discriminate|]. cbn [rbind]. unfold write_at.
  destruct (_ <=? _); [|discriminate]. cbn [rbind]. intros E Hv Hh. injection E as <-. simpl.
  repeat apply bytes_ok_app; auto using bytes_ok_firstn, bytes_ok_skipn.
Qed.

Lemma sop_safe order o s : (forall n, Permutation (order n) (seq 0 n)) -> sgood s -> sop_ok o ->
  match sop_run order o s with
  | Ok s' => sgood s' /\ length (s_storage s') = length (s_storage s) /\ length (s_header s') = length (s_header s)
  | Throw => True
  | UB => False
  end.
Proof.
  intros HP (I & S & By) Ho. pose proof (ssmall_sbound s S) as SB.
  assert (WS : forall v s, sgood s -> small (length v) -> bytes_ok v ->
    match sh_write v s with
    | Ok s' => sgood s' /\ s_storage s' = s_storage s /\ length (s_header s') = length (s_header s)
    | Throw => True | UB => False end).
  { clear. intros v s (I & S & By) Hv Hb. pose proof (write_scalar_cases v s S I Hv) as HC.
    destruct (_ <=? _) eqn:E; [|now rewrite HC].
    destruct (write_scalar_ok v s (ssmall_sbound s S)) as (s' & E' & A1 & A2 & A3 & A4 & _); [lia|].
    rewrite E'. unfold sgood, sh_inv, ssmall. rewrite A1, A2, A3, A4. destruct I, S.
    repeat split; auto; try lia. eapply sh_write_shape; eauto. }
  assert (WB : forall sz buf len s, sgood s -> small (len * sz) -> item_ok (IBuf sz buf len) ->
    match sh_write_buf (order len) sz buf len s with
    | Ok s' => sgood s' /\ length (s_storage s') = length (s_storage s) /\ length (s_header s') = length (s_header s)
    | Throw => True | UB => False end).
  { clear -HP. intros sz buf len s (I & S & By) Hv Hb.
    pose proof (write_buf_cases (order len) sz buf len s S I (HP len) Hv Hb) as HC.
    destruct (_ <=? _) eqn:E; [|now rewrite HC]. destruct Hb as [Hb1 Hb2].
    destruct (write_buf_ok (order len) sz buf len s (ssmall_sbound s S) (HP len) Hb1) as (s' & E' & A1 & A2 & A3 & A4 & _).
    { intros i Hi. rewrite Forall_forall in Hb2. apply Hb2. apply nth_In. lia. }
    { lia. }
    rewrite E'. unfold sgood, sh_inv, ssmall. rewrite A1, A2, A3, A4. destruct I, S.
    repeat split; auto; try lia. }
  assert (LB : forall sz dst len s, sgood s -> small (len * sz) ->
    match sh_load_buf (order len) sz dst len s with
    | Ok (_, s') => sgood s' /\ length (s_storage s') = length (s_storage s) /\ length (s_header s') = length (s_header s)
    | Throw => True | UB => False end).
  { clear -HP. intros sz dst len s (I & S & By) Hv.
    pose proof (load_buf_cases (order len) sz dst len s S I (HP len) Hv) as HC.
    destruct (_ && _) eqn:E; [|now rewrite HC]. destruct HC as (d & HC). rewrite HC.
    unfold sgood, sh_inv, ssmall; simpl. destruct I, S. repeat split; auto; try lia. }
  assert (G : sgood s) by (split; [|split]; auto).
  assert (CH : forall str, Forall (fun v : list Z => length v = 1) (map (fun c => [c]) str)).
  { intros str. apply Forall_forall. intros x Hx. apply in_map_iff in Hx as (c & <- & _). reflexivity. }
  destruct o as [[v|sz buf len|str]|[sz|sz dst len|]]; simpl in Ho |- *.
  - destruct Ho as [Ho1 Ho2]. pose proof (WS v s G Ho1 Ho2) as W.
    destruct (sh_write v s) as [s'| |]; auto. destruct W as (A & B & C). rewrite B; auto.
  - destruct Ho as [Ho1 Ho2]. exact (WB sz buf len s G Ho1 Ho2).
  - unfold sh_write_string.
    assert (S4 : small (length (le_bytes 4 (Z.of_nat (length str))))) by (rewrite le_bytes_length; unfold small; lia).
    pose proof (WS (le_bytes 4 (Z.of_nat (length str))) s G S4 (le_bytes_ok _ _)) as W1.
    destruct (sh_write _ s) as [s1| |]; cbn [rbind]; auto.
    destruct W1 as (G1 & E1 & L1).
    assert (S5 : small (length str * 1)) by (unfold small; lia).
    assert (S6 : item_ok (IBuf 1 (map (fun c => [c]) str) (length str))).
    { split; [rewrite map_length; auto|apply CH]. }
    pose proof (WB 1 _ (length str) s1 G1 S5 S6) as W2.
    destruct (sh_write_buf _ _ _ _ _) as [s2| |]; auto. now rewrite <- E1, <- L1.
  - pose proof (load_scalar_cases sz s S I Ho) as HC. destruct (_ <=? _) eqn:E; rewrite HC; cbn [rbind]; auto.
    unfold sgood, sh_inv, ssmall; simpl. destruct I, S. repeat split; auto; lia.
  - pose proof (LB sz dst len s G Ho) as L. destruct (sh_load_buf _ _ _ _ _) as [[d s']| |]; cbn [rbind]; auto.
  - unfold sh_load_string.
    assert (S4 : small 4) by (unfold small; lia).
    pose proof (load_scalar_cases 4 s S I S4) as HC. rewrite al8_4 in HC.
    destruct (_ <=? _) eqn:E; rewrite HC; cbn [rbind]; auto.
    set (b := firstn 4 _). set (s1 := mkSH _ _ _ _).
    assert (G1 : sgood s1).
    { unfold s1, sgood, sh_inv, ssmall; simpl. destruct I, S. repeat split; auto; lia. }
    assert (Hb : bytes_ok b) by (apply bytes_ok_firstn, bytes_ok_skipn; auto).
    assert (Lb : length b = 4).
    { unfold b. rewrite firstn_length, skipn_length. lia. }
    pose proof (le_val_bound b Hb) as Vb. rewrite Lb in Vb. change (256 ^ Z.of_nat 4)%Z with (2 ^ 32)%Z in Vb.
    assert (S5 : small (Z.to_nat (le_val b) * 1)) by (unfold small; lia).
    pose proof (LB 1 (repeat [0%Z] (Z.to_nat (le_val b))) (Z.to_nat (le_val b)) s1 G1 S5) as L.
    destruct (sh_load_buf _ _ _ _ s1) as [[d s']| |]; cbn [rbind]; auto.
Qed.

Lemma sops_safe sched ops : fair_sched sched -> forall k s, sgood s -> Forall sop_ok ops ->
  match sops_run sched k ops s with
  | Ok s' => sgood s' /\ length (s_storage s') = length (s_storage s) /\ length (s_header s') = length (s_header s)
  | Throw => True | UB => False end.
Proof.
  intros HS. induction ops as [|o t IH]; intros k s G HF; simpl.
  - auto.
  - inversion HF; subst. pose proof (sop_safe (sched k) o s (HS k) G H1) as H.
    destruct (sop_run (sched k) o s) as [s1| |]; cbn [rbind]; auto.
    destruct H as (G1 & L1 & L2). specialize (IH (S k) s1 G1 H2).
    destruct (sops_run sched (S k) t s1); auto. destruct IH as (G2 & ? & ?). split; [exact G2|lia].
Qed.

Lemma allocate_good junk sz allow : small (head_size sz + content_size sz + 8) ->
  match sh_allocate junk sz allow with
  | Ok s => sgood s /\ length (s_storage s) = head_size sz + content_size sz + 8 /\ length (s_header s) = head_size sz
  | Throw => allow = false /\ (2 ^ 32 <= Z.of_nat (head_size sz + content_size sz + 8))%Z
  | UB => False
  end.
Proof.
  intros HS. unfold small in HS. unfold sh_allocate. rewrite pre_head_8.
  set (H := head_size sz) in *. set (C := content_size sz) in *.
  rewrite (nw64_small (H + C)) by lia. rewrite (nw64_small (H + C + 8)) by lia.
  assert (G : forall n, n = H + C + 8 ->
    match (st <- write_prehead H (map junk (seq 0 n)) ;; Ok (mkSH st (repeat 0%Z H) (nw64 (8 + H)) 0)) with
    | Ok s => sgood s /\ length (s_storage s) = H + C + 8 /\ length (s_header s) = H
    | Throw => allow = false /\ (2 ^ 32 <= Z.of_nat (H + C + 8))%Z
    | UB => False end).
  { intros n ->. unfold write_prehead.
    destruct (write_at_ok 0 (le_bytes 8 (Z.of_nat H)) (map junk (seq 0 (H + C + 8)))) as (st & E & L & _).
    { rewrite le_bytes_length, map_length, seq_length. lia. }
    rewrite E. cbn [rbind]. rewrite map_length, seq_length in L. rewrite nw64_small by lia.
    unfold sgood, sh_inv, ssmall, small; cbn [s_storage s_header s_head_device s_head_host].
    rewrite L, repeat_length. repeat split; try lia.
    apply Forall_forall. intros x Hx. apply repeat_spec in Hx. lia. }
  destruct allow; [apply G; auto|]. unfold narrow_u32. destruct (_ <? _)%Z eqn:E; cbn [rbind]; [apply G; auto|].
  split; auto; lia.
Qed.

Lemma from_buffer_good buf allow : bytes_ok buf -> small (length buf) -> 8 <= length buf ->
  (le_val (firstn 8 buf) + 8 <= Z.of_nat (length buf))%Z ->
  match sh_from_buffer buf allow with
  | Ok s => sgood s /\ s_storage s = buf
  | Throw => allow = false /\ (2 ^ 32 <= Z.of_nat (length buf))%Z
  | UB => False
  end.
Proof.
  intros Hb Hs H8 Hh. unfold small in Hs. unfold sh_from_buffer.
  assert (G : match (hsz <- extract_prehead buf ;; hdr <- extract_header buf hsz ;;
      Ok (mkSH buf hdr (nw64 (pre_head_length + hsz)) 0)) with
    | Ok s => sgood s /\ s_storage s = buf
    | Throw => allow = false /\ (2 ^ 32 <= Z.of_nat (length buf))%Z
    | UB => False end).
  { unfold extract_prehead. replace (length buf =? 0) with false by lia.
    unfold read_at at 1. replace (_ <=? _) with true by lia. cbn [rbind skipn].
    pose proof (le_val_bound (firstn 8 buf) (bytes_ok_firstn _ _ Hb)) as V.
    set (hsz := Z.to_nat (le_val (firstn 8 buf))).
    assert (Hz : hsz + 8 <= length buf) by lia.
    unfold extract_header. rewrite pre_head_8. rewrite nw64_small by lia.
    destruct (Nat.eqb_spec hsz 0).
    - cbn [rbind]. unfold sgood, sh_inv, ssmall, small; simpl. repeat split; try lia. constructor.
    - unfold read_at. replace (_ <=? _) with true by lia. cbn [rbind].
      assert (LL : length (firstn hsz (skipn 8 buf)) = hsz) by (rewrite firstn_length, skipn_length; lia).
      unfold sgood, sh_inv, ssmall, small; cbn [s_storage s_header s_head_device s_head_host]. rewrite LL.
      repeat split; try lia. auto using bytes_ok_firstn, bytes_ok_skipn. }
  destruct allow; [exact G|]. unfold narrow_u32. destruct (_ <? _)%Z eqn:E; cbn [rbind]; [exact G|].
  split; auto; lia.
Qed.
