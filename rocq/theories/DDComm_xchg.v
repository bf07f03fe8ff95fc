(** Proofs: filling the send cache, reading the receive cache. *)
From Verif Require Import Base Streams Streams_proofs Serialize Serialize_spec Serialize_proofs Containers Containers_spec Containers_proofs SparseXchg SparseXchg_spec SparseXchg_table SparseXchg_proofs SparseXchg_main DDComm DDComm_spec DDComm_prep DDComm_group DDComm_ser DDComm_main.
From Coq Require Import ZifyBool ZifyNat.

Lemma filter_sync {A B} (f : A -> bool) (h : B -> bool) : forall (a : list A) (b : list B), map f a = map h b ->
  map fst (filter (fun p => f (fst p)) (combine a b)) = filter f a /\ map snd (filter (fun p => f (fst p)) (combine a b)) = filter h b.
Proof.
  induction a as [|x a IH]; intros [|y b] H; cbn [map] in H; try discriminate; [split; reflexivity|]. injection H as H1 H2.
  destruct (IH b H2) as [I1 I2]. cbn [combine filter fst]. rewrite <- H1. destruct (f x); cbn [map fst snd]; rewrite I1, I2; auto.
Qed.

Lemma nth_error_ext {A} : forall (l l' : list A), (forall q, nth_error l q = nth_error l' q) -> l = l'.
Proof.
  induction l as [|x l IH]; intros [|y l'] H; auto; try (specialize (H 0); discriminate).
  pose proof (H 0) as H0. cbn in H0. injection H0 as ->. f_equal. apply IH. intros q. apply (H (S q)).
Qed.

(** ** Copies *)
Lemma copy_ok src dest o : o + length src <= length dest ->
  exists d, copy_range_offset 0 (length src) src dest o = Ok d /\ write_at o src dest = Ok d.
Proof.
  intros H. unfold copy_range_offset. replace (length src <? 0) with false by lia. rewrite Nat.ltb_irrefl. replace (length dest <? o) with false by lia.
  replace (length dest - o <? length src - 0) with false by lia. unfold read_at. rewrite Nat.sub_0_r. cbn [Nat.add]. rewrite Nat.leb_refl. cbn [rbind skipn]. rewrite firstn_all.
  unfold write_at. replace (o + length src <=? length dest) with true by lia. eauto.
Qed.
Lemma copy_out src n o : o + n <= length src -> copy_range_offset o (o + n) src (repeat 0%Z n) 0 = Ok (firstn n (skipn o src)).
Proof.
  intros H. unfold copy_range_offset. replace (o + n <? o) with false by lia. replace (length src <? o + n) with false by lia. rewrite repeat_length.
  replace (o + n - o) with n by lia. rewrite Nat.sub_0_r, Nat.ltb_irrefl. replace (n <? 0) with false by lia. unfold read_at. replace (o + n <=? length src) with true by lia. cbn [rbind].
  unfold write_at. rewrite repeat_length, firstn_length, skipn_length. replace (0 + Nat.min n (length src - o) <=? n) with true by lia. cbn [firstn app].
  rewrite (skipn_all2 (repeat 0%Z n)) by (rewrite repeat_length; lia). now rewrite app_nil_r.
Qed.

Definition apart (m m' : cmi) : Prop := forall b o b' o', m_soff m = Some (b, o) -> m_soff m' = Some (b', o') -> b = b' -> o + m_size m <= o' \/ o' + m_size m' <= o.

Lemma bytes_at_write bufs b o d c c' : nth_error bufs b = Some c -> write_at o d c = Ok c' ->
  bytes_at (upd bufs b c') (b, o) (length d) = d /\
  forall b2 o2 n, (b2 = b -> o2 + n <= o \/ o + length d <= o2) -> bytes_at (upd bufs b c') (b2, o2) n = bytes_at bufs (b2, o2) n.
Proof.
  intros Hc W. assert (Lb : b < length bufs) by (apply nth_error_Some; congruence).
  assert (OL : o + length d <= length c). { unfold write_at in W. destruct (Nat.leb_spec (o + length d) (length c)); [auto|discriminate]. }
  destruct (write_at_ok o d c OL) as (c2 & W2 & L2 & A2 & B2). assert (c2 = c') by congruence. subst c2.
  assert (NB : forall b2, nth b2 (upd bufs b c') [] = if b2 =? b then c' else nth b2 bufs []).
  { intros b2. destruct (Nat.eqb_spec b2 b) as [->|NE].
    - apply nth_error_nth with (d := []). now rewrite nth_error_upd_eq.
    - destruct (nth_error bufs b2) as [x|] eqn:E.
      + rewrite (nth_error_nth bufs b2 [] E). apply nth_error_nth. now rewrite nth_error_upd_neq by auto.
      + rewrite (nth_overflow bufs) by (now apply nth_error_None). apply nth_overflow. rewrite length_upd. now apply nth_error_None. }
  unfold bytes_at. cbn [fst snd]. split.
  - rewrite NB, Nat.eqb_refl. apply nth_error_ext. intros q. destruct (Nat.ltb_spec q (length d)) as [L|L].
    + rewrite nth_error_firstn_skipn by auto. auto.
    + rewrite (proj2 (nth_error_None d q)) by lia. apply nth_error_None. rewrite firstn_length. lia.
  - intros b2 o2 n HD. rewrite NB. destruct (Nat.eqb_spec b2 b) as [->|NE]; [|reflexivity]. rewrite (nth_error_nth bufs b [] Hc).
    apply nth_error_ext. intros q. destruct (Nat.ltb_spec q n) as [L|L].
    + rewrite !nth_error_firstn_skipn by auto. apply B2. specialize (HD eq_refl). lia.
    + rewrite !(proj2 (nth_error_None _ q)); [reflexivity| |]; rewrite firstn_length; lia.
Qed.

Definition fits (sizes : list nat) (m : cmi) : Prop := exists b o n, m_soff m = Some (b, o) /\ nth_error sizes b = Some n /\ o + m_size m <= n.

Lemma fill_loop_ok (L : list (cmi * list Z)) : forall cache,
  Forall (fun md => length (snd md) = m_size (fst md)) L -> Forall (fun md => fits (map (@length Z) cache) (fst md)) L ->
  ForallOrdPairs (fun x y => apart (fst x) (fst y)) L ->
  exists cache', fill_loop (map fst L) (map snd L) cache = Ok cache' /\ map (@length Z) cache' = map (@length Z) cache /\
    (forall m d o, In (m, d) L -> m_soff m = Some o -> bytes_at cache' o (m_size m) = d) /\
    (forall b o n, (forall m d b' o', In (m, d) L -> m_soff m = Some (b', o') -> b' = b -> o + n <= o' \/ o' + m_size m <= o) -> bytes_at cache' (b, o) n = bytes_at cache (b, o) n).
Proof.
  induction L as [|[m d] L IH]; intros cache HL HF HA.
  - exists cache. split; [reflexivity|]. split; [reflexivity|]. split; [intros ? ? ? []|auto].
  - inversion HL as [|? ? L1 L2]. inversion HF as [|? ? (b & o & n & F1 & F2 & F3) F4]. inversion HA as [|? ? A1 A2]. subst. cbn [fst snd] in *.
    rewrite nth_error_map in F2. destruct (nth_error cache b) as [c|] eqn:Ec; [|discriminate]. cbn in F2. injection F2 as F2.
    destruct (copy_ok d c o) as (c' & E1 & E2); [lia|].
    destruct (bytes_at_write cache b o d c c' Ec E2) as [W1 W2].
    assert (LC : map (@length Z) (upd cache b c') = map (@length Z) cache).
    { apply nth_error_ext. intros q. rewrite !nth_error_map. destruct (Nat.eq_dec q b) as [->|NE].
      - rewrite nth_error_upd_eq by (apply nth_error_Some; congruence). rewrite Ec. cbn. now rewrite (write_at_len _ _ _ _ E2).
      - now rewrite nth_error_upd_neq by auto. }
    destruct (IH (upd cache b c')) as (cache' & E3 & LE & G1 & G2); auto; [now rewrite LC|].
    exists cache'. cbn [map fst snd fill_loop]. rewrite F1. cbn [ref rbind fst snd]. rewrite L1, Nat.eqb_refl. cbn [negb]. rewrite (proj2 (aget_ok _ _ _) Ec). cbn [rbind]. rewrite <- L1, E1. cbn [rbind].
    rewrite aset_lt by (apply nth_error_Some; congruence). cbn [rbind]. split; [exact E3|]. split; [congruence|]. split.
    + intros m0 d0 o0 [H|H] HO.
      * injection H as <- <-. assert (o0 = (b, o)) by congruence. subst o0. rewrite G2; [now rewrite <- L1|].
        intros m1 d1 b1 o1 H1 HS EB. subst b1. rewrite Forall_forall in A1. specialize (A1 _ H1). cbn [fst] in A1. specialize (A1 b o b o1 F1 HS eq_refl). lia.
      * eapply G1; eauto.
    + intros b0 o0 n0 HD. rewrite G2.
      * apply W2. intros ->. specialize (HD m d b o (or_introl eq_refl) F1 eq_refl). lia.
      * intros m1 d1 b1 o1 H1 HS EB. apply (HD m1 d1 b1 o1); auto. right; auto.
Qed.
