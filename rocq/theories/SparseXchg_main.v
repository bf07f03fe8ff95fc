(** From the tables to the exchange. *)
From Verif Require Import Base Streams Serialize Serialize_proofs SparseXchg SparseXchg_spec SparseXchg_table SparseXchg_proofs.
From Coq Require Import ZifyBool ZifyNat.

Section M.
Variables (all : list (nat * nat * nat)) (tabs : list table).
Definition xsrc (i : nat) : nat := g_src (nth i all (0, 0, 0)).
Definition xdst (i : nat) : nat := g_dst (nth i all (0, 0, 0)).
Definition xsz (i : nat) : nat := g_size (nth i all (0, 0, 0)).
Definition tmsg (r i : nat) : cmi := nth i (t_all (nth r tabs (Table [] [] [] [] [] [] []))) (CMI 0 0 0 None None None).
Definition xso (i : nat) : nat * nat := match m_soff (tmsg (xsrc i) i) with Some o => o | None => (0, 0) end.
Definition xro (i : nat) : nat * nat := match m_roff (tmsg (xdst i) i) with Some o => o | None => (0, 0) end.

Lemma table_msg tg max r t : table_ok all tg max r t -> nth_error tabs r = Some t -> forall i, i < length all ->
  nth_error (t_all t) i = Some (tmsg r i) /\ m_snd (tmsg r i) = Z.of_nat (xsrc i) /\ m_rcv (tmsg r i) = Z.of_nat (xdst i) /\
  m_size (tmsg r i) = xsz i /\ m_tag (tmsg r i) = Some (tg i).
Proof.
  intros (T1 & T2 & _) Ht i Hi. assert (L : length (t_all t) = length all) by (apply (f_equal (@length _)) in T1; now rewrite !map_length in T1).
  assert (E : nth_error (t_all t) i = Some (tmsg r i)).
  { unfold tmsg. rewrite (nth_error_nth _ _ _ Ht). apply nth_error_nth'. lia. }
  split; [auto|]. assert (F : nth_error (map (fun m => (m_snd m, m_rcv m, m_size m)) (t_all t)) i = nth_error (map (fun g => (Z.of_nat (g_src g), Z.of_nat (g_dst g), g_size g)) all) i) by (now rewrite T1).
  rewrite !nth_error_map, E, (nth_error_nth' all (0, 0, 0) Hi) in F. cbn in F. injection F as F1 F2 F3.
  unfold xsrc, xdst, xsz. repeat split; auto.
Qed.

Lemma bufs_nth sizes (bufs : list (list Z)) b n : bufs_ok sizes bufs -> nth_error sizes b = Some n -> exists x, nth_error bufs b = Some x /\ length x = n.
Proof. unfold bufs_ok. intros <- H. rewrite nth_error_map in H. destruct (nth_error bufs b) as [x|]; [|discriminate]. cbn in H. injection H as <-. eauto. Qed.

Lemma ctx_ok max W bsend brecv :
  tables_ok all max W tabs ->
  Forall (fun g => g_src g < W /\ g_dst g < W /\ (Z.of_nat (g_size g) < 2 ^ 31)%Z) all ->
  Forall2 (fun t b => bufs_ok (t_send_sizes t) b) tabs bsend -> Forall2 (fun t b => bufs_ok (t_recv_sizes t) b) tabs brecv ->
  exists tg, xctx tabs bsend brecv (length all) xsrc xdst xsz tg xso xro.
Proof.
  intros (LW & tg & T0 & TU & TO) HA HS HR. exists tg.
  assert (HI : forall i, i < length all -> nth_error all i = Some (nth i all (0, 0, 0))) by (intros; now apply nth_error_nth').
  assert (HB : forall i, i < length all -> xsrc i < W /\ xdst i < W /\ (Z.of_nat (xsz i) < 2 ^ 31)%Z).
  { intros i Hi. rewrite Forall_forall in HA. apply (HA (nth i all (0, 0, 0))). apply nth_In; auto. }
  assert (HT : forall r, r < W -> nth_error tabs r = Some (nth r tabs (Table [] [] [] [] [] [] []))) by (intros r Hr; apply nth_error_nth'; lia).
  assert (BS : forall r t, nth_error tabs r = Some t -> bufs_ok (t_send_sizes t) (nth r bsend [])).
  { intros r t Ht. clear - HS Ht. revert r Ht; induction HS; intros [|r] Ht; cbn in *; try discriminate; eauto. injection Ht as <-. auto. }
  assert (BR : forall r t, nth_error tabs r = Some t -> bufs_ok (t_recv_sizes t) (nth r brecv [])).
  { intros r t Ht. clear - HR Ht. revert r Ht; induction HR; intros [|r] Ht; cbn in *; try discriminate; eauto. injection Ht as <-. auto. }
  assert (SO : forall i, i < length all -> exists b n, m_soff (tmsg (xsrc i) i) = Some (xso i) /\ b = fst (xso i) /\
       nth_error (t_send_sizes (nth (xsrc i) tabs (Table [] [] [] [] [] [] []))) b = Some n /\ snd (xso i) + xsz i <= n).
  { intros i Hi. destruct (HB i Hi) as (B1 & B2 & B3). pose proof (HT _ B1) as Ht. pose proof (TO _ _ Ht) as TK.
    destruct (table_msg _ _ _ _ TK Ht i Hi) as (E1 & E2 & E3 & E4 & E5). destruct TK as (_ & _ & _ & _ & _ & _ & _ & _ & (P1 & _) & _).
    destruct (P1 i _ E1 E2) as (b & o & n & A1 & A2 & A3). exists b, n. unfold xso at 1 2 3. rewrite A1. repeat split; auto. rewrite <- E4. auto. }
  assert (RO : forall i, i < length all -> exists b n, m_roff (tmsg (xdst i) i) = Some (xro i) /\ b = fst (xro i) /\
       nth_error (t_recv_sizes (nth (xdst i) tabs (Table [] [] [] [] [] [] []))) b = Some n /\ snd (xro i) + xsz i <= n).
  { intros i Hi. destruct (HB i Hi) as (B1 & B2 & B3). pose proof (HT _ B2) as Ht. pose proof (TO _ _ Ht) as TK.
    destruct (table_msg _ _ _ _ TK Ht i Hi) as (E1 & E2 & E3 & E4 & E5). destruct TK as (_ & _ & _ & _ & _ & _ & _ & _ & _ & (P1 & _) & _).
    destruct (P1 i _ E1 E3) as (b & o & n & A1 & A2 & A3). exists b, n. unfold xro at 1 2 3. rewrite A1. repeat split; auto. rewrite <- E4. auto. }
  constructor.
  - intros i Hi. rewrite LW. apply HB; auto.
  - intros i Hi. rewrite LW. apply HB; auto.
  - intros r t Ht. destruct (TO r t Ht) as (T1 & _). apply (f_equal (@length _)) in T1. now rewrite !map_length in T1.
  - intros r t i Ht Hi. destruct (table_msg _ _ _ _ (TO r t Ht) Ht i Hi) as (E1 & E2 & E3 & E4 & E5).
    exists (tmsg r i). repeat (split; [solve [auto; apply HB; auto]|]). split.
    + intros <-. destruct (SO i Hi) as (b & n & A & _). auto.
    + intros <-. destruct (RO i Hi) as (b & n & A & _). auto.
  - clear - HS. induction HS; cbn; auto.
  - intros i Hi. destruct (SO i Hi) as (b & n & A1 & -> & A2 & A3). destruct (HB i Hi) as (B1 & _). destruct (bufs_nth _ _ _ _ (BS _ _ (HT _ B1)) A2) as (x & X1 & X2).
    exists x. split; [auto|lia].
  - intros i Hi. destruct (RO i Hi) as (b & n & A1 & -> & A2 & A3). destruct (HB i Hi) as (_ & B1 & _). destruct (bufs_nth _ _ _ _ (BR _ _ (HT _ B1)) A2) as (x & X1 & X2).
    exists x. split; [auto|lia].
  - intros i j Hi Hj Hij Hd Hf. destruct (HB i Hi) as (_ & B1 & _). pose proof (HT _ B1) as Ht. pose proof (TO _ _ Ht) as TK.
    destruct (table_msg _ _ _ _ TK Ht i Hi) as (E1 & E2 & E3 & E4 & E5). destruct (table_msg _ _ _ _ TK Ht j Hj) as (F1 & F2 & F3 & F4 & F5).
    destruct TK as (_ & _ & _ & _ & _ & _ & _ & _ & _ & (_ & P2) & _).
    destruct (RO i Hi) as (? & ? & A & _). destruct (RO j Hj) as (? & ? & B & _). rewrite <- Hd in B.
    destruct (xro i) as [bi oi] eqn:Xi. destruct (xro j) as [bj oj] eqn:Xj. cbn [fst snd] in *. subst bj.
    specialize (P2 i j _ _ bi oi oj Hij E1 F1 E3 ltac:(rewrite F3; congruence) A B). lia.
  - intros i j Hi Hj Hs Ht. destruct (Nat.eq_dec i j); auto. exfalso. apply (TU i j _ _ n (HI i Hi) (HI j Hj)); auto.
  - intros i Hi. apply HB; auto.
Qed.

Lemma delivered_ok max W bsend brecv s :
  tables_ok all max W tabs ->
  Forall (fun g => g_src g < W /\ g_dst g < W /\ (Z.of_nat (g_size g) < 2 ^ 31)%Z) all ->
  (forall i, i < length all -> bytes_at (x_bufs (s (xdst i))) (xro i) (xsz i) = dat bsend xsrc xsz xso i /\ length (dat bsend xsrc xsz xso i) = xsz i) ->
  Forall2 (fun t b => bufs_ok (t_send_sizes t) b) tabs bsend -> Forall2 (fun t b => bufs_ok (t_recv_sizes t) b) tabs brecv ->
  delivered tabs bsend s.
Proof.
  intros TK HA HD HS HR r t i m Ht Hm Hr. destruct (ctx_ok max W bsend brecv TK HA HS HR) as (tg & C).
  destruct TK as (LW & tg' & _ & _ & TO). pose proof (TO _ _ Ht) as TK. 
  assert (Hi : i < length all). { rewrite <- (cx_len _ _ _ _ _ _ _ _ _ _ C r t Ht). apply nth_error_Some. congruence. }
  destruct (table_msg _ _ _ _ TK Ht i Hi) as (E1 & E2 & E3 & E4 & E5). assert (m = tmsg r i) by congruence. subst m.
  assert (xdst i = r) by lia. pose proof (cx_src _ _ _ _ _ _ _ _ _ _ C i Hi) as B1.
  destruct (nth_error tabs (xsrc i)) as [t'|] eqn:Ht'; [|apply nth_error_None in Ht'; lia].
  destruct (table_msg _ _ _ _ (TO _ _ Ht') Ht' i Hi) as (F1 & F2 & F3 & F4 & F5).
  destruct (cx_msg _ _ _ _ _ _ _ _ _ _ C _ _ i Ht' Hi) as (x & X1 & X2 & X3 & X4 & X5 & X6 & X7). assert (x = tmsg (xsrc i) i) by congruence. subst x.
  destruct (cx_msg _ _ _ _ _ _ _ _ _ _ C _ _ i Ht Hi) as (y & Y1 & Y2 & Y3 & Y4 & Y5 & Y6 & Y7). assert (y = tmsg r i) by congruence. subst y.
  exists (xsrc i), t', (tmsg (xsrc i) i), (xro i), (xso i). repeat (split; [auto; congruence|]).
  destruct (HD i Hi) as [D1 D2]. rewrite E4. subst r. split; [exact D1|]. rewrite D1. exact D2.
Qed.
End M.

Lemma all_msgs_ranks max rq : rq_ok rq -> rq_fits max rq -> (forall r, r < length rq -> (Z.of_nat (max r) < 2 ^ 31)%Z) -> Forall (fun g => g_src g < length rq /\ g_dst g < length rq /\ (Z.of_nat (g_size g) < 2 ^ 31)%Z) (all_msgs rq).
Proof.
  intros (_ & _ & H) F HM. apply Forall_forall. intros g Hg. pose proof (all_msgs_src _ _ Hg) as HS. unfold rq_fits in F. rewrite Forall_forall in H, F.
  specialize (H g Hg). specialize (F g Hg). specialize (HM _ HS). lia.
Qed.

Lemma exchange_main rq max tabs bsend brecv : rq_ok rq -> rq_fits max rq -> (forall r, r < length rq -> (Z.of_nat (max r) < 2 ^ 31)%Z) -> tables_ok (all_msgs rq) max (length rq) tabs ->
  Forall2 (fun t b => bufs_ok (t_send_sizes t) b) tabs bsend -> Forall2 (fun t b => bufs_ok (t_recv_sizes t) b) tabs brecv ->
  forall n s, xreach tabs bsend (xinit brecv) n s ->
    n <= 5 * length (all_msgs rq) * length rq /\
    (forall l, enabled tabs l s = true -> exists s', xdo tabs bsend l s = Ok s') /\
    (finished tabs s = false -> exists l, enabled tabs l s = true /\ unbuffered l s) /\
    (finished tabs s = true -> delivered tabs bsend s /\
       forall r, r < length rq -> map (@length Z) (x_bufs (s r)) = map (@length Z) (nth r brecv [])).
Proof.
  intros HR HT HM TK HS HV n s R. pose proof (all_msgs_ranks _ _ HR HT HM) as AR. destruct (ctx_ok _ _ _ _ _ _ TK AR HS HV) as (tg & C).
  destruct (reach_inv _ _ _ _ _ _ _ _ _ _ C n s R) as [I B]. assert (LW : length tabs = length rq) by apply TK. rewrite LW in B.
  split; [lia|]. split; [|split].
  - intros l E. destruct (step_any _ _ _ _ _ _ _ _ _ _ C l s I E) as (s' & D & _). eauto.
  - intros F. exact (progress _ _ _ _ _ _ _ _ _ _ C s I F).
  - intros F. split.
    + eapply delivered_ok; eauto. intros i Hi. exact (final_bytes _ _ _ _ _ _ _ _ _ _ C s I F i Hi).
    + intros r Hr. eapply final_sizes; eauto. now rewrite LW.
Qed.

Lemma forall2_checks tabs bsend brecv : Forall2 (fun t b => bufs_ok (t_send_sizes t) b) tabs bsend -> Forall2 (fun t b => bufs_ok (t_recv_sizes t) b) tabs brecv ->
  forall r t bs br, nth_error tabs r = Some t -> nth_error bsend r = Some bs -> nth_error brecv r = Some br -> exchange_checks t bs br = Ok tt.
Proof.
  intros HS HR r t bs br Ht Hs Hr.
  assert (A : bufs_ok (t_send_sizes t) bs). { clear - HS Ht Hs. revert r Ht Hs; induction HS; intros [|r] Ht Hs; cbn in *; try discriminate; eauto. congruence. }
  assert (B : bufs_ok (t_recv_sizes t) br). { clear - HR Ht Hr. revert r Ht Hr; induction HR; intros [|r] Ht Hr; cbn in *; try discriminate; eauto. congruence. }
  assert (SF : forall (bufs : list (list Z)), sizes_fit (map (@length Z) bufs) bufs = true).
  { induction bufs as [|x l IH]; cbn; auto. rewrite Nat.leb_refl. auto. }
  unfold exchange_checks, bufs_ok in *. rewrite <- A, <- B, !map_length, !Nat.eqb_refl, !SF. reflexivity.
Qed.

Lemma rq_fits_dec max rq : {rq_fits max rq} + {~ rq_fits max rq}.
Proof.
  apply Forall_dec. intros g. destruct (Compare_dec.le_dec (g_size g) (max (g_src g))); destruct (Compare_dec.le_dec (g_size g) (max (g_dst g))); [left; lia|right; lia|right; lia|right; lia].
Qed.
Lemma build_inv max rq tabs : rq_ok rq -> build_sparse_exchange_table max (to_msgs rq) = Ok tabs -> rq_fits max rq /\ tables_ok (all_msgs rq) max (length rq) tabs.
Proof.
  intros HR HB. destruct (rq_fits_dec max rq) as [F|F].
  - destruct (build_ok max rq HR F) as (tabs' & E & T). split; auto. congruence.
  - rewrite (build_throw max rq HR F) in HB. discriminate.
Qed.
