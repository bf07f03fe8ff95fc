(** Proofs about the preparation of the messages. *)
From Verif Require Import Base Streams Serialize Serialize_spec Serialize_proofs Containers Containers_spec Containers_proofs SparseXchg SparseXchg_spec SparseXchg_table DDComm DDComm_spec.
From Coq Require Import ZifyBool ZifyNat.

Definition dbytes (d : dtmp) : nat := obj_bytes (d_data d).
Definition chunk_sz (l : list dtmp) : ssize := mkSS (8 + 24 * length l) (list_sum (map (fun d => al8 (length (d_data d))) l)).
Definition chunk_total (l : list dtmp) : nat := 8 + list_sum (map dbytes l).
Definition dsmall (d : dtmp) : Prop := small (length (d_data d)).

Lemma list_sum_cons a l : list_sum (a :: l) = a + list_sum l. Proof. reflexivity. Qed.
Lemma list_sum_1 a : list_sum [a] = a. Proof. cbn. lia. Qed.
Lemma chunk_total_eq l : head_size (chunk_sz l) + content_size (chunk_sz l) = chunk_total l.
Proof. unfold chunk_sz, chunk_total, dbytes, obj_bytes. cbn [head_size content_size]. induction l; cbn [map length] in *; [reflexivity|]. rewrite !list_sum_cons. lia. Qed.

Lemma list_sum_app a b : list_sum (a ++ b) = list_sum a + list_sum b.
Proof. induction a; cbn [app]; auto. rewrite !list_sum_cons. lia. Qed.
Lemma chunk_total_app a b : chunk_total (a ++ b) = chunk_total a + list_sum (map dbytes b).
Proof. unfold chunk_total. rewrite map_app, list_sum_app. lia. Qed.
Lemma chunk_total_in d l : In d l -> 8 + dbytes d <= chunk_total l.
Proof. unfold chunk_total. induction l as [|x l IH]; intros H; [destruct H|]. cbn [map]. rewrite list_sum_cons. destruct H as [->|H]; [lia|]. apply IH in H. lia. Qed.

Lemma ser_sz_ok d : dsmall d -> get_ser_sz d = mkSS 24 (al8 (length (d_data d))).
Proof.
  intros H. pose proof (small_al8 _ H) as S8. unfold dsmall, small in H. unfold get_ser_sz, ss_add, ss_mul, byte_size_scalar, byte_size_buf. cbn [head_size content_size].
  rewrite Nat.mul_1_r, (nw64_small (length (d_data d))) by lia. rewrite (align_repr_al8 (length _)) by lia.
  change (align_repr 8) with 8. change (nw64 (8 * 3)) with 24. change (nw64 (0 * 3)) with 0. rewrite !nw64_small by lia. reflexivity.
Qed.
Lemma dbytes_small d : dsmall d -> (Z.of_nat (dbytes d) < 2 ^ 62 + 32)%Z.
Proof. unfold dsmall, small, dbytes, obj_bytes, al8. intros. pose proof (Nat.div_mod (length (d_data d) + 7) 8). lia. Qed.

Definition csmall (l : list dtmp) : Prop := (Z.of_nat (chunk_total l) < 2 ^ 63 + 100)%Z.
Lemma chunk_add l d : csmall l -> dsmall d -> ss_add (chunk_sz l) (get_ser_sz d) = chunk_sz (l ++ [d]) /\ ss_add (get_ser_sz d) (chunk_sz l) = chunk_sz (l ++ [d]).
Proof.
  intros Hl Hd. rewrite ser_sz_ok by auto. pose proof (chunk_total_eq l) as E. unfold csmall in Hl. pose proof (dbytes_small _ Hd) as SD. unfold dbytes, obj_bytes in SD.
  unfold ss_add. cbn [head_size content_size]. unfold chunk_sz in *. cbn [head_size content_size] in *. rewrite app_length, map_app, list_sum_app. cbn [length map].
  rewrite ?list_sum_1. rewrite !nw64_small by lia. split; f_equal; lia.
Qed.
Lemma chunk_total_size l : csmall l -> total_size (chunk_sz l) = chunk_total l.
Proof. intros H. unfold total_size. rewrite chunk_total_eq. apply nw64_small. unfold csmall in H. lia. Qed.
Lemma chunk_nil : vec_length_sz = chunk_sz []. Proof. reflexivity. Qed.

(** The pieces of one group. *)
Definition piece_ok (max : nat) (key : key2) (p : prep) : Prop :=
  p_snd p = fst key /\ p_rcv p = snd key /\ p_sz p = chunk_sz (p_src p) /\ p_src p <> [] /\ chunk_total (p_src p) <= max.

Lemma add_to_ret_ok max key l ret : (Z.of_nat max < 2 ^ 62)%Z -> csmall l ->
  add_to_ret max key (chunk_sz l) l ret =
    if max <? chunk_total l then Throw else Ok (ret ++ (if length l =? 0 then [] else [Prep (fst key) (snd key) (chunk_sz l) l])).
Proof.
  intros Hm Hl. unfold add_to_ret. rewrite chunk_total_size by auto. destruct (max <? chunk_total l); auto.
  destruct l as [|x l]; cbn [length]; [now rewrite app_nil_r|]. reflexivity.
Qed.

Lemma split_loop_ok max key vect : (Z.of_nat max < 2 ^ 62)%Z -> Forall dsmall vect -> Forall (fun d => 8 + dbytes d <= max) vect ->
  forall sources ret, 8 <= max -> (sources <> [] -> chunk_total sources <= max) ->
  exists ps, split_loop max key vect (chunk_sz sources) sources ret = Ok (ret ++ ps) /\ Forall (piece_ok max key) ps /\
    concat (map p_src ps) = sources ++ vect.
Proof.
  intros Hm HS HF. induction vect as [|d vect IH]; intros sources ret H8 HT; cbn [split_loop].
  - assert (CS : csmall sources). { destruct sources; [unfold csmall, chunk_total; cbn; lia|]. unfold csmall. pose proof (HT ltac:(discriminate)). lia. }
    rewrite add_to_ret_ok by auto. assert (LE : chunk_total sources <= max). { destruct sources; [unfold chunk_total; cbn; lia|]. apply HT. discriminate. }
    destruct (Nat.ltb_spec max (chunk_total sources)); [lia|]. destruct sources as [|x l]; cbn [length Nat.eqb].
    + exists []. rewrite app_nil_r. repeat split; auto.
    + eexists. split; [reflexivity|]. split.
      * constructor; [|constructor]. repeat split; auto. discriminate.
      * cbn. reflexivity.
  - inversion HS as [|? ? S1 S2]. inversion HF as [|? ? F1 F2]. subst.
    assert (LE : chunk_total sources <= max). { destruct sources; [unfold chunk_total; cbn; lia|]. apply HT. discriminate. }
    assert (CS : csmall sources) by (unfold csmall; lia).
    destruct (chunk_add sources d CS S1) as [A1 A2]. rewrite A2. pose proof (dbytes_small d S1).
    assert (CS' : csmall (sources ++ [d])). { unfold csmall. rewrite chunk_total_app. cbn [map]. rewrite ?list_sum_1. lia. }
    rewrite chunk_total_size by auto. destruct (Nat.ltb_spec max (chunk_total (sources ++ [d]))) as [G|G].
    + rewrite add_to_ret_ok by auto. destruct (Nat.ltb_spec max (chunk_total sources)); [lia|]. cbn [rbind]. rewrite chunk_nil.
      assert (CN : csmall []) by (unfold csmall, chunk_total; cbn; lia).
      destruct (chunk_add [] d CN S1) as [B1 _]. rewrite B1. cbn [app].
      destruct (IH S2 F2 [d] (ret ++ (if length sources =? 0 then [] else [Prep (fst key) (snd key) (chunk_sz sources) sources])) H8) as (ps & E & P & C).
      { intros _. unfold chunk_total. cbn [map]. rewrite ?list_sum_1. lia. }
      exists ((if length sources =? 0 then [] else [Prep (fst key) (snd key) (chunk_sz sources) sources]) ++ ps).
      rewrite app_assoc. split; [exact E|]. split.
      * apply Forall_app. split; auto. destruct sources as [|x l]; cbn [length Nat.eqb]; constructor; [|constructor]. repeat split; auto; [discriminate].
      * rewrite map_app, concat_app, C. destruct sources; cbn; rewrite ?app_nil_r; reflexivity.
    + cbn [rbind]. rewrite A1. destruct (IH S2 F2 (sources ++ [d]) ret H8) as (ps & E & P & C); [intros; lia|].
      exists ps. split; [exact E|]. split; auto. rewrite C, <- app_assoc. reflexivity.
Qed.

Lemma split_loop_over max key vect sources ret : (Z.of_nat max < 2 ^ 62)%Z -> Forall dsmall vect -> csmall sources -> max < chunk_total sources ->
  split_loop max key vect (chunk_sz sources) sources ret = Throw.
Proof.
  intros Hm HS CS HO. destruct vect as [|d vect]; cbn [split_loop].
  - rewrite add_to_ret_ok by auto. destruct (Nat.ltb_spec max (chunk_total sources)); [reflexivity|lia].
  - inversion HS as [|? ? S1 S2]; subst.  destruct (chunk_add sources d CS S1) as [A1 A2]. rewrite A2.
    assert (CS' : (Z.of_nat (chunk_total (sources ++ [d])) < 2 ^ 64)%Z).
    { pose proof (dbytes_small d S1). unfold csmall in CS. rewrite chunk_total_app. cbn [map]. rewrite ?list_sum_1. lia. }
    assert (T : total_size (chunk_sz (sources ++ [d])) = chunk_total (sources ++ [d])).
    { unfold total_size. rewrite chunk_total_eq. apply nw64_small. auto. }
    rewrite T. destruct (Nat.ltb_spec max (chunk_total (sources ++ [d]))) as [G|G].
    + rewrite add_to_ret_ok by auto. destruct (Nat.ltb_spec max (chunk_total sources)); [reflexivity|lia].
    + rewrite chunk_total_app in G. lia.
Qed.

Lemma split_loop_throw max key vect : (Z.of_nat max < 2 ^ 62)%Z -> Forall dsmall vect -> Exists (fun d => max < 8 + dbytes d) vect ->
  forall sources ret, csmall sources -> (sources = [] \/ chunk_total sources <= max) ->
  split_loop max key vect (chunk_sz sources) sources ret = Throw.
Proof.
  intros Hm HS HE. induction vect as [|d vect IH]; intros sources ret CS HT; [inversion HE|].
  inversion HS as [|? ? S1 S2]; subst. cbn [split_loop]. destruct (chunk_add sources d CS S1) as [A1 A2]. rewrite A2. pose proof (dbytes_small d S1).
  assert (CD : chunk_total (sources ++ [d]) = chunk_total sources + dbytes d) by (rewrite chunk_total_app; cbn [map]; rewrite ?list_sum_1; lia).
  assert (C8 : 8 <= chunk_total sources) by (unfold chunk_total; lia).
  assert (BD : (Z.of_nat (chunk_total sources) < 2 ^ 62 + 16)%Z). { destruct HT as [->|]; [cbn; lia|lia]. }
  assert (CS' : csmall (sources ++ [d])) by (unfold csmall; lia).
  rewrite chunk_total_size by auto.
  assert (CN : csmall [d]) by (unfold csmall, chunk_total; cbn [map]; rewrite ?list_sum_1; lia).
  assert (CO : csmall []) by (unfold csmall, chunk_total; cbn; lia).
  destruct (chunk_add [] d CO S1) as [B1 _]. cbn [app] in B1.
  assert (CT : chunk_total [d] = 8 + dbytes d) by (unfold chunk_total; cbn [map]; rewrite ?list_sum_1; lia).
  destruct (Nat.ltb_spec max (8 + dbytes d)) as [O|O].
  - destruct (Nat.ltb_spec max (chunk_total (sources ++ [d]))) as [G|G]; [|lia].
    rewrite add_to_ret_ok by auto. destruct (Nat.ltb_spec max (chunk_total sources)); [reflexivity|]. cbn [rbind]. rewrite chunk_nil, B1. cbn [app].
    apply split_loop_over; auto. lia.
  - assert (HE' : Exists (fun d => max < 8 + dbytes d) vect) by (inversion HE; subst; auto; lia).
    destruct (Nat.ltb_spec max (chunk_total (sources ++ [d]))) as [G|G].
    + rewrite add_to_ret_ok by auto. destruct (Nat.ltb_spec max (chunk_total sources)); [reflexivity|]. cbn [rbind]. rewrite chunk_nil, B1. cbn [app].
      apply IH; auto. right. lia.
    + cbn [rbind]. rewrite A1. apply IH; auto.
Qed.
