(** The exchange table. *)
From Verif Require Import Base Streams Streams_proofs Serialize SparseXchg SparseXchg_spec.
From Verif Require Lookback Lookback_proofs PatchData.
From Coq Require Import ZifyBool ZifyNat.

Lemma rmapm_ok {X Y} (f : X -> res Y) (g : X -> Y) l : (forall x, In x l -> f x = Ok (g x)) -> PatchData.rmapm f l = Ok (map g l).
Proof.
  induction l as [|a l IH]; intros H; cbn [PatchData.rmapm map]; [reflexivity|].
  rewrite H by (left; auto). cbn [rbind]. rewrite IH by (intros; apply H; right; auto). reflexivity.
Qed.
Lemma rmapm_inv {X Y} (f : X -> res Y) l r : PatchData.rmapm f l = Ok r -> Forall2 (fun x y => f x = Ok y) l r.
Proof.
  revert r; induction l as [|a l IH]; cbn [PatchData.rmapm]; intros r H; [injection H as <-; constructor|].
  apply rbind_ok in H as (y & E1 & H). apply rbind_ok in H as (ys & E2 & H). injection H as <-. constructor; auto.
Qed.

Lemma upd_app_last {A} (l : list A) a v : upd (l ++ [a]) (length l) v = l ++ [v].
Proof. induction l; cbn; [reflexivity|]. now f_equal. Qed.

(** ** placing *)
Definition ainv (max : nat) (a : alloc) : Prop :=
  ((a_sizes a = [] /\ a_off a = 0 /\ a_id a = 0) \/
   (a_id a + 1 = length (a_sizes a) /\ nth_error (a_sizes a) (a_id a) = Some (a_off a))) /\
  Forall (fun n => n <= max) (a_sizes a).
Definition bsz (a : alloc) (b : nat) : nat := nth b (a_sizes a) 0.

Lemma place_ok max sz a : ainv max a -> sz <= max ->
  exists b o a', place max sz a = Ok ((b, o), a') /\ ainv max a' /\
    length (a_sizes a) <= length (a_sizes a') /\ (forall c, bsz a c <= bsz a' c) /\
    b < length (a_sizes a') /\ bsz a b <= o /\ o + sz <= bsz a' b.
Proof.
  intros [HI HF] Hs. unfold place. replace (max <? sz) with false by lia.
  assert (D : exists sizes, (if length (a_sizes a) =? 0 then [0] else a_sizes a) = sizes /\
     a_id a + 1 = length sizes /\ nth_error sizes (a_id a) = Some (a_off a) /\ Forall (fun n => n <= max) sizes /\
     length (a_sizes a) <= length sizes /\ (forall c, bsz a c = nth c sizes 0)).
  { destruct HI as [(E1 & E2 & E3)|(E1 & E2)].
    - exists [0]. rewrite E1, E2, E3. split; [reflexivity|]. split; [reflexivity|]. split; [reflexivity|].
      split; [constructor; [lia|constructor]|]. split; [cbn; lia|].
      { intros c. unfold bsz. rewrite E1. now destruct c as [|[|c]]. }
    - exists (a_sizes a). replace (length (a_sizes a) =? 0) with false by lia. repeat split; auto. }
  destruct D as (sizes & -> & L & N & F & LL & B).
  assert (NT : nth (a_id a) sizes 0 = a_off a) by (apply nth_error_nth; auto).
  destruct (max <=? a_off a + sz) eqn:C.
  - unfold vat. rewrite nth_error_app2 by lia. replace (a_id a + 1 - length sizes) with 0 by lia. cbn [nth_error ref rbind].
    rewrite L, upd_app_last. rewrite <- L. eexists _, _, _. split; [reflexivity|]. unfold ainv, bsz in *. cbn [a_sizes a_off a_id].
    rewrite app_length. cbn [length]. split; [split|].
    + right. split; [lia|]. rewrite nth_error_app2 by lia. replace (a_id a + 1 - length sizes) with 0 by lia. reflexivity.
    + apply Forall_app. split; [exact F|]. constructor; [lia|constructor].
    + split; [lia|]. split.
      * intros c. rewrite B. destruct (Nat.lt_ge_cases c (length sizes)) as [H|H].
        { rewrite app_nth1 by lia. lia. } { rewrite (nth_overflow sizes) by lia. lia. }
      * split; [lia|]. split; [rewrite B, nth_overflow by lia; lia|].
        rewrite app_nth2 by lia. replace (a_id a + 1 - length sizes) with 0 by lia. cbn. lia.
  - unfold vat. rewrite N. cbn [ref rbind]. eexists _, _, _. split; [reflexivity|]. unfold ainv, bsz in *. cbn [a_sizes a_off a_id].
    rewrite length_upd. split; [split|].
    + right. split; [lia|]. apply nth_error_upd_eq. lia.
    + apply Forall_forall. intros x Hx. apply In_nth_error in Hx as (c & Hc).
      destruct (Nat.eq_dec (a_id a) c) as [<-|D].
      * rewrite nth_error_upd_eq in Hc by lia. injection Hc as <-. lia.
      * rewrite nth_error_upd_neq in Hc by auto. rewrite Forall_forall in F. apply F. eapply nth_error_In; eauto.
    + split; [lia|]. split.
      * intros c. rewrite B. destruct (Nat.eq_dec (a_id a) c) as [<-|D].
        { rewrite nth_upd_eq by lia. lia. } { rewrite nth_upd_neq by auto. lia. }
      * split; [lia|]. split; [rewrite B; lia|]. rewrite nth_upd_eq by lia. lia.
Qed.
Lemma place_throw max sz a : max < sz -> place max sz a = Throw.
Proof. intros H. unfold place. now replace (max <? sz) with true by lia. Qed.

Definition same (m m' : cmi) : Prop := m_size m' = m_size m /\ m_snd m' = m_snd m /\ m_rcv m' = m_rcv m /\ m_tag m' = m_tag m.
Definition agrow (a a' : alloc) : Prop := length (a_sizes a) <= length (a_sizes a') /\ (forall c, bsz a c <= bsz a' c).
(** all messages of one direction in [l] sit in fresh ranges between a and a' *)
Definition dir_ok (rank : nat) (who : cmi -> Z) (off : cmi -> option (nat * nat)) (a a' : alloc) (l : list cmi) : Prop :=
  (forall i m, nth_error l i = Some m -> who m = Z.of_nat rank ->
     exists b o, off m = Some (b, o) /\ b < length (a_sizes a') /\ bsz a b <= o /\ o + m_size m <= bsz a' b) /\
  (forall i j m m' b o o', i < j -> nth_error l i = Some m -> nth_error l j = Some m' ->
     who m = Z.of_nat rank -> who m' = Z.of_nat rank -> off m = Some (b, o) -> off m' = Some (b, o') ->
     o + m_size m <= o').
Lemma agrow_refl a : agrow a a. Proof. split; auto. Qed.
Lemma agrow_trans a b c : agrow a b -> agrow b c -> agrow a c.
Proof. intros [A1 A2] [B1 B2]. split; [lia|]. intros x. specialize (A2 x); specialize (B2 x). lia. Qed.

Lemma dir_nil rank who off a a' : dir_ok rank who off a a' [].
Proof.
  split.
  - intros i m H. destruct i; discriminate H.
  - intros i j m m' b o o' _ H. destruct i; discriminate H.
Qed.
Lemma dir_cons_none rank who off a a' m l : who m <> Z.of_nat rank -> dir_ok rank who off a a' l -> dir_ok rank who off a a' (m :: l).
Proof.
  intros N [D1 D2]. split.
  - intros [|i] x Hx Hw; cbn in Hx; [injection Hx as <-; congruence|eauto].
  - intros i j x y b o o' Hij Hi Hj Wx Wy. destruct i as [|i]; cbn in Hi; [injection Hi as <-; congruence|].
    destruct j as [|j]; [lia|]. cbn in Hj. apply (D2 i j x y b o o'); auto. lia.
Qed.
Lemma dir_cons_some rank who off a a1 a' m b o l :
  off m = Some (b, o) -> agrow a a1 -> agrow a1 a' -> b < length (a_sizes a1) -> bsz a b <= o -> o + m_size m <= bsz a1 b ->
  dir_ok rank who off a1 a' l -> dir_ok rank who off a a' (m :: l).
Proof.
  intros E G1 G2 Hb Ho Hs [D1 D2]. split.
  - intros [|i] x Hx Hw; cbn in Hx.
    + injection Hx as <-. exists b, o. destruct G2 as [L2 S2]. specialize (S2 b). repeat split; auto; lia.
    + destruct (D1 i x Hx Hw) as (b1 & o1 & F1 & F2 & F3 & F4). exists b1, o1. destruct G1 as [_ S1]. specialize (S1 b1). repeat split; auto; lia.
  - intros i j x y b1 o1 o2 Hij Hi Hj Wx Wy Ox Oy. destruct j as [|j]; [lia|]. cbn in Hj. destruct i as [|i]; cbn in Hi.
    + injection Hi as <-. assert (b1 = b /\ o1 = o) as [-> ->] by (split; congruence).
      destruct (D1 j y Hj Wy) as (b2 & o3 & F1 & F2 & F3 & F4). assert (b2 = b /\ o3 = o2) as [-> ->] by (split; congruence). lia.
    + apply (D2 i j x y b1 o1 o2); auto. lia.
Qed.

Lemma offsets_ok rank max : forall l sa ra, ainv max sa -> ainv max ra ->
  (forall m, In m l -> m_snd m = Z.of_nat rank \/ m_rcv m = Z.of_nat rank -> m_size m <= max) ->
  exists l' sa' ra', offsets_loop rank max l sa ra = Ok (l', sa', ra') /\ Forall2 same l l' /\
    ainv max sa' /\ ainv max ra' /\ agrow sa sa' /\ agrow ra ra' /\
    dir_ok rank m_snd m_soff sa sa' l' /\ dir_ok rank m_rcv m_roff ra ra' l'.
Proof.
  induction l as [|m l IH]; intros sa ra IS IR HM.
  - exists [], sa, ra. cbn [offsets_loop]. auto 12 using agrow_refl, dir_nil.
  - cbn [offsets_loop].
    assert (X : exists m1 sa1, (if (m_snd m =? Z.of_nat rank)%Z
                     then '(o, sa') <- place max (m_size m) sa ;; Ok (set_soff o m, sa')
                     else Ok (m, sa)) = Ok (m1, sa1) /\ same m m1 /\ m_roff m1 = m_roff m /\ ainv max sa1 /\ agrow sa sa1 /\
        (m_snd m = Z.of_nat rank -> exists b o, m_soff m1 = Some (b, o) /\ b < length (a_sizes sa1) /\ bsz sa b <= o /\ o + m_size m <= bsz sa1 b) /\
        (m_snd m <> Z.of_nat rank -> sa1 = sa)).
    { destruct (m_snd m =? Z.of_nat rank)%Z eqn:E.
      - destruct (place_ok max (m_size m) sa IS) as (b & o & a' & P & I & G1 & G2 & P1 & P2 & P3); [apply HM; [left; auto|lia]|].
        rewrite P. cbn [rbind]. eexists _, _. split; [reflexivity|]. split; [repeat split|]. split; [reflexivity|]. split; [auto|].
        split; [split; auto|]. split; [|lia]. intros _. exists b, o. repeat split; auto.
      - eexists _, _. split; [reflexivity|]. split; [repeat split|]. split; [reflexivity|]. split; [auto|]. split; [apply agrow_refl|]. split; [lia|auto]. }
    destruct X as (m1 & sa1 & -> & S1 & R1 & IS1 & GS1 & K1 & N1). cbn [rbind].
    assert (X : exists m2 ra1, (if (m_rcv m =? Z.of_nat rank)%Z
                     then '(o, ra') <- place max (m_size m) ra ;; Ok (set_roff o m1, ra')
                     else Ok (m1, ra)) = Ok (m2, ra1) /\ same m1 m2 /\ m_soff m2 = m_soff m1 /\ ainv max ra1 /\ agrow ra ra1 /\
        (m_rcv m = Z.of_nat rank -> exists b o, m_roff m2 = Some (b, o) /\ b < length (a_sizes ra1) /\ bsz ra b <= o /\ o + m_size m <= bsz ra1 b) /\
        (m_rcv m <> Z.of_nat rank -> ra1 = ra)).
    { destruct (m_rcv m =? Z.of_nat rank)%Z eqn:E.
      - destruct (place_ok max (m_size m) ra IR) as (b & o & a' & P & I & G1 & G2 & P1 & P2 & P3); [apply HM; [left; auto|lia]|].
        rewrite P. cbn [rbind]. eexists _, _. split; [reflexivity|]. split; [repeat split|]. split; [reflexivity|]. split; [auto|].
        split; [split; auto|]. split; [|lia]. intros _. exists b, o. repeat split; auto.
      - eexists _, _. split; [reflexivity|]. split; [repeat split|]. split; [reflexivity|]. split; [auto|]. split; [apply agrow_refl|]. split; [lia|auto]. }
    destruct X as (m2 & ra1 & -> & S2 & R2 & IR1 & GR1 & K2 & N2). cbn [rbind].
    destruct (IH sa1 ra1 IS1 IR1) as (l' & sa' & ra' & E & F & I1 & I2 & G1 & G2 & D1 & D2); [intros; apply HM; auto; right; auto|].
    rewrite E. cbn [rbind]. exists (m2 :: l'), sa', ra'. split; [reflexivity|].
    assert (S3 : same m m2) by (destruct S1 as (?&?&?&?); destruct S2 as (?&?&?&?); repeat split; congruence).
    split; [constructor; auto|]. split; [auto|]. split; [auto|]. split; [eapply agrow_trans; eauto|]. split; [eapply agrow_trans; eauto|].
    destruct S3 as (Z1 & Z2 & Z3 & Z4). split.
    + destruct (Z.eq_dec (m_snd m) (Z.of_nat rank)) as [H|H].
      * destruct (K1 H) as (b & o & J1 & J2 & J3 & J4). eapply dir_cons_some with (a1 := sa1) (b := b) (o := o); eauto; congruence.
      * rewrite (N1 H) in D1. apply dir_cons_none; auto. congruence.
    + destruct (Z.eq_dec (m_rcv m) (Z.of_nat rank)) as [H|H].
      * destruct (K2 H) as (b & o & J1 & J2 & J3 & J4). eapply dir_cons_some with (a1 := ra1) (b := b) (o := o); eauto; congruence.
      * rewrite (N2 H) in D2. apply dir_cons_none; auto. congruence.
Qed.

Lemma dir_placed rank who off a' l : dir_ok rank who off alloc0 a' l -> placed rank who off (a_sizes a') l.
Proof.
  intros [D1 D2]. split.
  - intros i m Hm Hw. destruct (D1 i m Hm Hw) as (b & o & E & Hb & _ & Ho). exists b, o, (bsz a' b).
    split; [auto|]. split; [|auto]. unfold bsz. now apply nth_error_nth'.
  - intros i j m m' b o o' Hij Hm Hm' Wm Wm' Om Om'. destruct (Nat.lt_ge_cases i j) as [L|L].
    + left. exact (D2 i j m m' b o o' L Hm Hm' Wm Wm' Om Om').
    + right. exact (D2 j i m' m b o' o ltac:(lia) Hm' Hm Wm' Wm Om' Om).
Qed.

(** ** tags *)
Fixpoint count_src (s : Z) (l : list cmi) : Z :=
  match l with [] => 0 | m :: l' => (if m_snd m =? s then 1 else 0) + count_src s l' end%Z.
Lemma count_src_nonneg s l : (0 <= count_src s l <= Z.of_nat (length l))%Z.
Proof. induction l as [|m l IH]; cbn [count_src length]; [lia|]. destruct (m_snd m =? s)%Z; lia. Qed.
Lemma count_src_app s a b : count_src s (a ++ b) = (count_src s a + count_src s b)%Z.
Proof. induction a as [|m a IH]; cbn [count_src app]; [lia|]. rewrite IH. lia. Qed.

Lemma tags_loop_ok l : forall tm,
  (forall m, In m l -> (0 <= m_snd m < Z.of_nat (length tm))%Z) ->
  exists l', tags_loop tm l = Ok l' /\ length l' = length l /\
    forall i m, nth_error l i = Some m ->
      nth_error l' i = Some (set_tag (nth (Z.to_nat (m_snd m)) tm 0 + count_src (m_snd m) (firstn i l))%Z m).
Proof.
  induction l as [|m l IH]; intros tm H; cbn [tags_loop].
  - exists []. repeat split; auto. intros [|i]; discriminate.
  - pose proof (H m (or_introl eq_refl)) as Hm. replace (m_snd m <? 0)%Z with false by lia.
    rewrite (aget_lt _ _ 0%Z) by lia. cbn [rbind]. rewrite aset_lt by lia. cbn [rbind].
    destruct (IH (upd tm (Z.to_nat (m_snd m)) (nth (Z.to_nat (m_snd m)) tm 0 + 1)%Z)) as (l' & E & L & N).
    { intros x Hx. rewrite length_upd. apply H. right; auto. }
    rewrite E. cbn [rbind]. eexists. split; [reflexivity|]. split; [cbn; lia|].
    intros [|i] x Hx; cbn [nth_error firstn count_src] in *.
    + injection Hx as <-. rewrite Z.add_0_r. reflexivity.
    + rewrite (N i x Hx). f_equal. f_equal. pose proof (H x (or_intror (nth_error_In _ _ Hx))) as Hx'.
      destruct (m_snd m =? m_snd x)%Z eqn:C.
      * replace (m_snd m) with (m_snd x) in * by lia. rewrite nth_upd_eq by lia. lia.
      * rewrite nth_upd_neq by lia. lia.
Qed.

(** ** the collective *)
Lemma pack_facts s d : (0 <= s < 2 ^ 31)%Z -> (0 <= d < 2 ^ 31)%Z ->
  Lookback.unpack32 (Lookback.pack32 (w32 s) (w32 d)) = (s, d) /\ to_i32 s = s /\ to_i32 d = d.
Proof.
  intros Hs Hd. rewrite !w32_small by lia. split; [apply Lookback_proofs.unpack_pack; lia|].
  rewrite !to_i32_small by lia. auto.
Qed.

Definition plain (g : nat * nat * nat) : cmi := CMI (g_size g) (Z.of_nat (g_src g)) (Z.of_nat (g_dst g)) None None None.
Definition packed (g : nat * nat * nat) : Z * Z :=
  (Lookback.pack32 (Z.of_nat (g_src g)) (Z.of_nat (g_dst g)), Z.of_nat (g_size g)).

Lemma all_msgs_src rq g : In g (all_msgs rq) -> g_src g < length rq.
Proof.
  unfold all_msgs. intros H. apply in_concat in H as (l & Hl & Hg). apply in_map_iff in Hl as ([r x] & <- & Hp).
  apply in_map_iff in Hg as (dn & <- & _). apply in_combine_l in Hp. apply in_seq in Hp. cbn. lia.
Qed.
Lemma combine_length_map {A B C} (f : A * B -> C) l l' : length (map f (combine l l')) = Nat.min (length l) (length l').
Proof. rewrite map_length. apply combine_length. Qed.

Lemma fetch_local_ok r l : (Z.of_nat r < 2 ^ 31)%Z -> Forall (fun dn => (Z.of_nat (fst dn) < 2 ^ 31)%Z) l ->
  fetch_local r (map (to_cmi r) l) = Ok (map (fun dn => packed (r, fst dn, snd dn)) l).
Proof.
  intros Hr. unfold fetch_local. induction l as [|[d n] l IH]; cbn [map PatchData.rmapm]; intros H; [reflexivity|].
  inversion H as [|? ? H1 H2]; subst. cbn [fst] in H1. 
  assert (E : fetch_one r (to_cmi r (d, n)) = Ok (packed (r, d, n))).
  { unfold fetch_one, to_cmi. cbn [m_snd m_rcv m_size fst snd]. rewrite !w32_small by lia. rewrite Z.eqb_refl. reflexivity. }
  rewrite E. cbn [rbind]. rewrite IH by auto. reflexivity.
Qed.

Lemma rq_ok_ranks rq : rq_ok rq -> rq_ranks rq.
Proof. intros (H1 & H2 & H3). split; auto. split; auto. eapply Forall_impl; [|exact H3]. cbn. tauto. Qed.
Lemma fetch_global_ranks rq : rq_ranks rq -> fetch_global_message_data (to_msgs rq) = Ok (map packed (all_msgs rq)).
Proof.
  intros (H1 & H2 & H3). unfold fetch_global_message_data.
  assert (L : length (to_msgs rq) = length rq) by (unfold to_msgs; rewrite combine_length_map, seq_length; lia).
  rewrite L. rewrite (rmapm_ok _ (fun p => map packed (map (fun m => (fst p, Z.to_nat (m_rcv m), m_size m)) (snd p)))).
  - cbn [rbind]. unfold allgatherv.
    assert (E : concat (map (fun p : nat * list cmi => map packed (map (fun m => (fst p, Z.to_nat (m_rcv m), m_size m)) (snd p)))
                   (combine (seq 0 (length rq)) (to_msgs rq))) = map packed (all_msgs rq)).
    { unfold all_msgs, to_msgs. rewrite concat_map, map_map. f_equal.
      assert (G : forall k (l : list (list (nat * nat))),
        map (fun p : nat * list cmi => map packed (map (fun m => (fst p, Z.to_nat (m_rcv m), m_size m)) (snd p)))
          (combine (seq k (length l)) (map (fun p => map (to_cmi (fst p)) (snd p)) (combine (seq k (length l)) l)))
        = map (fun x => map packed (map (fun dn => (fst x, fst dn, snd dn)) (snd x))) (combine (seq k (length l)) l)).
      { intros k l; revert k. induction l as [|a l IHl]; intros k; cbn [length seq combine map]; [reflexivity|].
        f_equal; [|apply IHl]. cbn [fst snd]. rewrite !map_map. apply map_ext. intros [d n]. cbn. now rewrite Nat2Z.id. }
      apply G. }
    rewrite E. unfold narrow_i32. rewrite map_length. replace (_ <? _)%Z with true by lia. reflexivity.
  - intros [r ms] Hin. cbn [fst snd].
    assert (X : exists l, In (r, l) (combine (seq 0 (length rq)) rq) /\ ms = map (to_cmi r) l).
    { unfold to_msgs in Hin. revert Hin. generalize 0 as k. generalize (length rq) at 1 2 as n. clear.
      induction rq as [|a rq IH]; intros n k H; destruct n as [|n]; cbn [seq combine map] in H; try (exfalso; exact H).
      destruct H as [H|H].
      - injection H as <- <-. exists a. split; [cbn; left; auto|reflexivity].
      - destruct (IH n (S k) H) as (l & G1 & G2). exists l. split; [cbn; right; auto|auto]. }
    destruct X as (l & HL & ->). pose proof (in_combine_l _ _ _ _ HL) as Hr. apply in_seq in Hr.
    rewrite fetch_local_ok; [|lia|].
    + f_equal. rewrite !map_map. apply map_ext. intros [d n]. cbn. now rewrite Nat2Z.id.
    + apply Forall_forall. intros [d n] Hd. rewrite Forall_forall in H3.
      assert (K : In (r, d, n) (all_msgs rq)).
      { unfold all_msgs. apply in_concat. exists (map (fun dn => (r, fst dn, snd dn)) l). split.
        - apply in_map_iff. exists (r, l). auto.
        - apply in_map_iff. exists (d, n). auto. }
      apply H3 in K. cbn [g_dst fst snd] in K. unfold g_dst in K. cbn [fst snd] in *. lia.
Qed.

Lemma fetch_global_ok rq : rq_ok rq -> fetch_global_message_data (to_msgs rq) = Ok (map packed (all_msgs rq)).
Proof. intros. now apply fetch_global_ranks, rq_ok_ranks. Qed.

Lemma decode_ok rq : rq_ok rq -> decode_all_message (map packed (all_msgs rq)) = Ok (map plain (all_msgs rq)).
Proof.
  intros (H1 & H2 & H3). unfold decode_all_message. rewrite (rmapm_ok _ (fun p => let '(s, r) := Lookback.unpack32 (fst p) in CMI (Z.to_nat (snd p)) s r None None None)).
  - f_equal. rewrite map_map. apply map_ext_in. intros g Hg. pose proof (all_msgs_src _ _ Hg). rewrite Forall_forall in H3. apply H3 in Hg.
    unfold packed. cbn [fst snd]. rewrite Lookback_proofs.unpack_pack by lia. unfold plain. now rewrite Nat2Z.id.
  - intros p Hp. apply in_map_iff in Hp as (g & <- & Hg). pose proof (all_msgs_src _ _ Hg). rewrite Forall_forall in H3. apply H3 in Hg.
    unfold unpack, packed. cbn [fst snd]. rewrite Lookback_proofs.unpack_pack by lia.
    replace (_ =? 0)%Z with false by lia. rewrite !to_i32_small by lia. reflexivity.
Qed.

Definition tag_of (all : list (nat * nat * nat)) (i : nat) : Z :=
  count_src (match nth_error all i with Some g => Z.of_nat (g_src g) | None => 0%Z end) (map plain (firstn i all)).

Lemma nth_repeat0 n k : nth k (repeat 0%Z n) 0%Z = 0%Z.
Proof. revert k; induction n as [|n IH]; intros [|k]; cbn; auto. Qed.

Lemma tags_ok rq : rq_ok rq -> exists l, compute_tags (length rq) (map plain (all_msgs rq)) = Ok l /\
  length l = length (all_msgs rq) /\
  forall i g, nth_error (all_msgs rq) i = Some g -> nth_error l i = Some (set_tag (tag_of (all_msgs rq) i) (plain g)).
Proof.
  intros HR. unfold compute_tags. destruct (tags_loop_ok (map plain (all_msgs rq)) (repeat 0%Z (length rq))) as (l & E & L & N).
  - intros m Hm. apply in_map_iff in Hm as (g & <- & Hg). apply all_msgs_src in Hg. rewrite repeat_length. cbn. lia.
  - exists l. split; [auto|]. rewrite map_length in L. split; [auto|]. intros i g Hg.
    rewrite (N i (plain g)) by (rewrite nth_error_map, Hg; reflexivity).
    rewrite nth_repeat0. unfold tag_of. rewrite Hg, firstn_map. cbn [m_snd plain]. reflexivity.
Qed.

Lemma firstn_split {A} (l : list A) i j x : i < j -> nth_error l i = Some x -> exists r, firstn j l = firstn i l ++ x :: r.
Proof.
  revert i j; induction l as [|a l IH]; intros [|i] [|j] H E; cbn in *; try discriminate; try lia.
  - injection E as <-. eauto.
  - destruct (IH i j ltac:(lia) E) as (r & ->). eauto.
Qed.
Lemma tag_lt all i j g g' : i < j -> nth_error all i = Some g -> nth_error all j = Some g' -> g_src g = g_src g' ->
  (tag_of all i < tag_of all j)%Z.
Proof.
  intros L Hi Hj E. unfold tag_of. rewrite Hi, Hj. destruct (firstn_split _ _ _ _ L Hi) as (r & ->).
  rewrite map_app, count_src_app. cbn [map count_src plain m_snd]. rewrite E, Z.eqb_refl.
  pose proof (count_src_nonneg (Z.of_nat (g_src g')) (map plain r)). lia.
Qed.

Lemma ids_gen (p : cmi -> bool) : forall (l : list cmi) k0 k i,
  nth_error (map fst (filter (fun im => p (snd im)) (combine (seq k0 (length l)) l))) k = Some i ->
  k0 <= i /\ nth_error (filter p l) k = nth_error l (i - k0).
Proof.
  induction l as [|a l IH]; intros k0 k i; cbn [length seq combine filter snd]; [destruct k; discriminate|].
  destruct (p a).
  - cbn [map]. destruct k as [|k]; cbn [nth_error].
    + intros H. injection H as <-. split; [cbn; lia|]. now rewrite Nat.sub_diag.
    + intros H. apply IH in H as [A B]. split; [lia|]. rewrite B. replace (i - k0) with (S (i - S k0)) by lia. reflexivity.
  - intros H. apply IH in H as [A B]. split; [lia|]. rewrite B. replace (i - k0) with (S (i - S k0)) by lia. reflexivity.
Qed.
Lemma ids_len (p : cmi -> bool) : forall (l : list cmi) k0,
  length (map fst (filter (fun im => p (snd im)) (combine (seq k0 (length l)) l))) = length (filter p l).
Proof.
  induction l as [|a l IH]; intros k0; cbn [length seq combine filter snd]; [reflexivity|].
  destruct (p a); cbn [map length]; rewrite IH; reflexivity.
Qed.

Lemma Forall2_length {A B} {P : A -> B -> Prop} {l l'} : Forall2 P l l' -> length l = length l'.
Proof. induction 1; cbn; congruence. Qed.
Lemma forall2_nth {A B} (P : A -> B -> Prop) l l' : Forall2 P l l' -> forall i b, nth_error l' i = Some b -> exists a, nth_error l i = Some a /\ P a b.
Proof. induction 1; intros [|i] b H'; cbn in *; try discriminate; eauto. injection H' as <-. eauto. Qed.

Lemma build_table_ok max rq r : rq_ok rq ->
  (forall g, In g (all_msgs rq) -> g_src g = r \/ g_dst g = r -> g_size g <= max) ->
  exists t, build_table r (length rq) max (map packed (all_msgs rq)) = Ok t /\ table_ok (all_msgs rq) (tag_of (all_msgs rq)) max r t.
Proof.
  intros HR HM. unfold build_table. rewrite decode_ok by auto. cbn [rbind].
  destruct (tags_ok rq HR) as (l & E & L & N). rewrite E. cbn [rbind].
  assert (NI : forall i m, nth_error l i = Some m -> exists g, nth_error (all_msgs rq) i = Some g /\ m = set_tag (tag_of (all_msgs rq) i) (plain g)).
  { intros i m Hm. assert (i < length l) by (apply nth_error_Some; congruence). rewrite L in H. apply nth_error_Some in H.
    destruct (nth_error (all_msgs rq) i) as [g|] eqn:G; [|tauto]. exists g. split; auto. rewrite (N i g G) in Hm. congruence. }
  destruct (offsets_ok r max l alloc0 alloc0) as (l' & sa & ra & E2 & F & I1 & I2 & _ & _ & D1 & D2).
  - split; [left; auto|constructor].
  - split; [left; auto|constructor].
  - intros m Hm K. apply In_nth_error in Hm as (i & Hi). apply NI in Hi as (g & Hg & ->). apply nth_error_In in Hg.
    cbn in *. apply HM; auto. lia.
  - rewrite E2. cbn [rbind]. eexists. split; [reflexivity|]. unfold table_ok. cbn [t_all t_send t_recv t_send_ids t_recv_ids t_send_sizes t_recv_sizes].
    assert (NL : forall i m, nth_error l' i = Some m -> exists g, nth_error (all_msgs rq) i = Some g /\
       m_snd m = Z.of_nat (g_src g) /\ m_rcv m = Z.of_nat (g_dst g) /\ m_size m = g_size g /\ m_tag m = Some (tag_of (all_msgs rq) i)).
    { intros i m Hm. destruct (forall2_nth _ _ _ F _ _ Hm) as (m0 & H0 & (S1 & S2 & S3 & S4)). apply NI in H0 as (g & Hg & ->).
      exists g. cbn in *. repeat split; auto. }
    assert (LL : length l' = length (all_msgs rq)) by (rewrite <- L; symmetry; eapply Forall2_length; eauto).
    split; [|split; [|split; [|split; [|split; [|split; [|split; [|split; [|split; [|split; [|split]]]]]]]]]].
    + apply list_eq_nth_error. intros i. rewrite !nth_error_map. destruct (nth_error l' i) as [m|] eqn:Hm.
      * destruct (NL i m Hm) as (g & -> & A1 & A2 & A3 & A4). cbn. congruence.
      * apply nth_error_None in Hm. rewrite (proj2 (nth_error_None (all_msgs rq) i)) by lia. reflexivity.
    + intros i m Hm. destruct (NL i m Hm) as (g & _ & A1 & A2 & A3 & A4). auto.
    + reflexivity.
    + reflexivity.
    + intros k i H. apply (ids_gen (fun m => (m_snd m =? Z.of_nat r)%Z)) in H as [_ H]. rewrite H. now rewrite Nat.sub_0_r.
    + intros k i H. apply (ids_gen (fun m => (m_rcv m =? Z.of_nat r)%Z)) in H as [_ H]. rewrite H. now rewrite Nat.sub_0_r.
    + apply (ids_len (fun m => (m_snd m =? Z.of_nat r)%Z)).
    + apply (ids_len (fun m => (m_rcv m =? Z.of_nat r)%Z)).
    + now apply dir_placed.
    + now apply dir_placed.
    + apply I1.
    + apply I2.
Qed.

Lemma rmapm_exists {X Y} (f : X -> res Y) l : (forall x, In x l -> exists y, f x = Ok y) -> exists r, PatchData.rmapm f l = Ok r.
Proof.
  induction l as [|a l IH]; intros H; cbn [PatchData.rmapm]; [eauto|].
  destruct (H a (or_introl eq_refl)) as (y & ->). destruct IH as (r & ->); [intros; apply H; right; auto|]. cbn. eauto.
Qed.

Lemma to_msgs_len rq : length (to_msgs rq) = length rq.
Proof. unfold to_msgs. rewrite combine_length_map, seq_length. lia. Qed.

Lemma build_ok max rq : rq_ok rq -> rq_fits max rq ->
  exists tabs, build_sparse_exchange_table max (to_msgs rq) = Ok tabs /\ tables_ok (all_msgs rq) max (length rq) tabs.
Proof.
  intros HR HF. unfold build_sparse_exchange_table. rewrite fetch_global_ok by auto. cbn [rbind]. rewrite to_msgs_len.
  assert (HB : forall r, exists t, build_table r (length rq) (max r) (map packed (all_msgs rq)) = Ok t /\
     table_ok (all_msgs rq) (tag_of (all_msgs rq)) (max r) r t).
  { intros r. apply build_table_ok; auto. intros g Hg HK. unfold rq_fits in HF. rewrite Forall_forall in HF. apply HF in Hg.
    destruct HK as [<-|<-]; lia. }
  destruct (rmapm_exists (fun r => build_table r (length rq) (max r) (map packed (all_msgs rq))) (seq 0 (length rq))) as (tabs & E).
  { intros r _. destruct (HB r) as (t & Ht & _). eauto. }
  exists tabs. split; [auto|]. apply rmapm_inv in E. pose proof (Forall2_length E) as EL. rewrite seq_length in EL. split; [auto|].
  exists (tag_of (all_msgs rq)). split; [|split].
  - intros i Hi. unfold tag_of. pose proof (count_src_nonneg (match nth_error (all_msgs rq) i with Some g => Z.of_nat (g_src g) | None => 0%Z end) (map plain (firstn i (all_msgs rq)))) as H.
    rewrite map_length, firstn_length in H. destruct HR as (_ & HR & _). lia.
  - intros i j g g' Hij Hi Hj Hs. destruct (Nat.lt_ge_cases i j) as [L|L].
    + pose proof (tag_lt _ _ _ _ _ L Hi Hj Hs). lia.
    + pose proof (tag_lt _ _ _ _ _ (ltac:(lia) : j < i) Hj Hi (eq_sym Hs)). lia.
  - intros r t Ht. destruct (forall2_nth _ _ _ E _ _ Ht) as (r' & Hr & Hb).
    assert (r' = r) as ->. { assert (r < length (seq 0 (length rq))) by (apply nth_error_Some; congruence). rewrite seq_length in H. rewrite nth_error_seq in Hr by auto. cbn in Hr. congruence. }
    destruct (HB r) as (t' & Ht' & K). congruence.
Qed.

(** a message above the limit of one of its ranks makes the call of that rank throw *)
Lemma offsets_throw rank max : forall l sa ra, ainv max sa -> ainv max ra ->
  (exists m, In m l /\ (m_snd m = Z.of_nat rank \/ m_rcv m = Z.of_nat rank) /\ max < m_size m) ->
  offsets_loop rank max l sa ra = Throw.
Proof.
  induction l as [|m l IH]; intros sa ra IS IR (x & Hx & HK & HM); [destruct Hx|]. cbn [offsets_loop].
  destruct (Nat.lt_ge_cases max (m_size m)) as [B|B].
  - destruct (m_snd m =? Z.of_nat rank)%Z eqn:E1; [rewrite place_throw by auto; reflexivity|]. cbn [rbind].
    destruct (m_rcv m =? Z.of_nat rank)%Z eqn:E2; [rewrite place_throw by auto; reflexivity|]. cbn [rbind].
    destruct Hx as [->|Hx]; [exfalso; lia|]. rewrite IH; eauto.
  - destruct Hx as [->|Hx]; [exfalso; lia|].
    assert (X : exists m1 sa1, (if (m_snd m =? Z.of_nat rank)%Z
                     then '(o, sa') <- place max (m_size m) sa ;; Ok (set_soff o m, sa')
                     else Ok (m, sa)) = Ok (m1, sa1) /\ ainv max sa1).
    { destruct (m_snd m =? Z.of_nat rank)%Z; [|eauto]. destruct (place_ok max (m_size m) sa IS B) as (b & o & a' & P & I & _). rewrite P. cbn. eauto. }
    destruct X as (m1 & sa1 & -> & I1). cbn [rbind].
    assert (X : exists m2 ra1, (if (m_rcv m =? Z.of_nat rank)%Z
                     then '(o, ra') <- place max (m_size m) ra ;; Ok (set_roff o m1, ra')
                     else Ok (m1, ra)) = Ok (m2, ra1) /\ ainv max ra1).
    { destruct (m_rcv m =? Z.of_nat rank)%Z; [|eauto]. destruct (place_ok max (m_size m) ra IR B) as (b & o & a' & P & I & _). rewrite P. cbn. eauto. }
    destruct X as (m2 & ra1 & -> & I2). cbn [rbind]. rewrite IH; eauto.
Qed.
Lemma build_table_throw max rq r g : rq_ok rq -> In g (all_msgs rq) -> g_src g = r \/ g_dst g = r -> max < g_size g ->
  build_table r (length rq) max (map packed (all_msgs rq)) = Throw.
Proof.
  intros HR Hg HK HM. unfold build_table. rewrite decode_ok by auto. cbn [rbind].
  destruct (tags_ok rq HR) as (l & E & L & N). rewrite E. cbn [rbind]. rewrite offsets_throw; [reflexivity| | |].
  - split; [left; auto|constructor].
  - split; [left; auto|constructor].
  - apply In_nth_error in Hg as (i & Hi). pose proof (N i g Hi) as H. exists (set_tag (tag_of (all_msgs rq) i) (plain g)).
    split; [eapply nth_error_In; eauto|]. cbn. split; [|auto]. lia.
Qed.
Lemma rmapm_throw {X Y} (f : X -> res Y) l : (forall x, In x l -> f x <> UB) -> (exists x, In x l /\ f x = Throw) -> PatchData.rmapm f l = Throw.
Proof.
  induction l as [|a l IH]; intros NU (x & Hx & HT); [destruct Hx|]. cbn [PatchData.rmapm].
  pose proof (NU a (or_introl eq_refl)). destruct (f a) eqn:E; try reflexivity; try congruence. cbn [rbind].
  destruct Hx as [->|Hx]; [congruence|]. rewrite IH; [reflexivity| |eauto]. intros; apply NU; right; auto.
Qed.
Lemma build_throw max rq : rq_ok rq -> ~ rq_fits max rq -> build_sparse_exchange_table max (to_msgs rq) = Throw.
Proof.
  intros HR HF. unfold build_sparse_exchange_table. rewrite fetch_global_ok by auto. cbn [rbind]. rewrite to_msgs_len.
  assert (X : exists g, In g (all_msgs rq) /\ exists r, (g_src g = r \/ g_dst g = r) /\ max r < g_size g).
  { unfold rq_fits in HF. rewrite <- Exists_Forall_neg in HF.
    - apply Exists_exists in HF as (g & Hg & HK). exists g. split; auto.
      destruct (Nat.lt_ge_cases (max (g_src g)) (g_size g)); [eauto|]. exists (g_dst g). split; auto. lia.
    - intros x. lia. }
  destruct X as (g & Hg & r & Hr & HM). apply rmapm_throw.
  - intros x _ HU.
    destruct (Forall_dec (fun g => (g_src g = x \/ g_dst g = x) -> g_size g <= max x) ltac:(intros y; destruct (Nat.eq_dec (g_src y) x), (Nat.eq_dec (g_dst y) x), (le_lt_dec (g_size y) (max x)); (left; lia) || (right; lia)) (all_msgs rq)) as [D|D].
    + rewrite Forall_forall in D. destruct (build_table_ok (max x) rq x HR D) as (t & E & _). congruence.
    + rewrite <- Exists_Forall_neg in D.
      * apply Exists_exists in D as (y & Hy & HN). rewrite (build_table_throw (max x) rq x y) in HU; auto; try lia. congruence.
      * intros y. lia.
  - exists r. split; [|eapply build_table_throw; eauto]. apply in_seq. destruct HR as (_ & _ & H3). rewrite Forall_forall in H3.
    pose proof (all_msgs_src _ _ Hg). apply H3 in Hg. lia.
Qed.

(** An empty message is refused. *)
Lemma build_empty max rq : rq_ranks rq -> Exists (fun g => g_size g = 0) (all_msgs rq) -> build_sparse_exchange_table max (to_msgs rq) = Throw.
Proof.
  intros HR HE. unfold build_sparse_exchange_table. rewrite fetch_global_ranks by auto. cbn [rbind]. rewrite to_msgs_len.
  assert (D : decode_all_message (map packed (all_msgs rq)) = Throw).
  { unfold decode_all_message. apply rmapm_throw.
    - intros p Hp. unfold unpack. destruct (Lookback.unpack32 (fst p)). destruct (snd p =? 0)%Z; discriminate.
    - apply Exists_exists in HE as (g & Hg & E0). exists (packed g). split; [now apply in_map|]. unfold unpack, packed. cbn [fst snd]. destruct (Lookback.unpack32 _). now rewrite E0. }
  apply Exists_exists in HE as (g & Hg & _). pose proof (all_msgs_src _ _ Hg). apply rmapm_throw.
  - intros x Hx. unfold build_table. rewrite D. discriminate.
  - exists 0. split; [apply in_seq; lia|]. unfold build_table. now rewrite D.
Qed.
(** A message announced by a rank that is not its sender is refused. *)
Lemma build_foreign max (msgs : list (list cmi)) r l m : nth_error msgs r = Some l -> In m l -> w32 (m_snd m) <> Z.of_nat r -> build_sparse_exchange_table max msgs = Throw.
Proof.
  intros Hl Hm NE. unfold build_sparse_exchange_table, fetch_global_message_data.
  assert (NU : forall r l, fetch_local r l <> UB).
  { clear. intros r l. unfold fetch_local. induction l as [|a l IH]; cbn [PatchData.rmapm]; [discriminate|]. unfold fetch_one at 1. destruct (_ =? _)%Z; [|discriminate]. cbn [rbind].
    destruct (PatchData.rmapm (fetch_one r) l); cbn [rbind]; congruence. }
  rewrite rmapm_throw; [reflexivity|intros; apply NU|]. exists (r, l). split.
  - assert (X : forall n, In (n + r, l) (combine (seq n (length msgs)) msgs)).
    { clear - Hl. revert r Hl. induction msgs as [|a msgs IH]; intros [|r] Hl n; cbn in *; try discriminate.
      - injection Hl as ->. left. f_equal. lia.
      - right. rewrite <- plus_n_Sm. apply (IH r Hl (S n)). }
    apply (X 0).
  - cbn [fst snd]. unfold fetch_local. apply rmapm_throw.
    + intros x _. unfold fetch_one. destruct (_ =? _)%Z; discriminate.
    + exists m. split; auto. unfold fetch_one. destruct (Z.eqb_spec (w32 (m_snd m)) (Z.of_nat r)); [congruence|reflexivity].
Qed.
