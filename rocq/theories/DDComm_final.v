(** Proofs: the communication, from the sends to the received objects. *)
From Verif Require Import Base Streams Streams_proofs Serialize Serialize_spec Serialize_proofs Containers Containers_spec Containers_proofs SparseXchg SparseXchg_spec SparseXchg_table SparseXchg_proofs SparseXchg_main DDComm DDComm_spec DDComm_prep DDComm_group DDComm_ser DDComm_main DDComm_xchg.
From Coq Require Import ZifyBool ZifyNat.

Definition pls := list (list (prep * list Z)).
Definition rqp (pl : list (prep * list Z)) : list (nat * nat) := map (fun pb => (Z.to_nat (p_rcv (fst pb)), length (snd pb))) pl.
Definition gof (pb : prep * list Z) : nat * nat * nat := (Z.to_nat (p_snd (fst pb)), Z.to_nat (p_rcv (fst pb)), length (snd pb)).

(** [gl_ok] : rank by rank, the messages with their sender and receiver. *)
Definition gl_ok (n : nat) (L : pls) : Prop :=
  forall i pl, nth_error L i = Some pl -> Forall (fun pb => p_snd (fst pb) = Z.of_nat (n + i) /\ (0 <= p_rcv (fst pb))%Z) pl.
Lemma gl_ok_tl n pl L : gl_ok n (pl :: L) -> gl_ok (S n) L.
Proof. intros H i x Hx. specialize (H (S i) x Hx). now replace (S n + i) with (n + S i) by lia. Qed.

Lemma to_msgs_rq L : gl_ok 0 L -> map (map fst) (map (map msg_of) L) = to_msgs (map rqp L).
Proof.
  unfold to_msgs. rewrite map_length. generalize 0 as n. induction L as [|pl L IH]; intros n H; [reflexivity|]. cbn [map length seq combine fst snd]. f_equal.
  - specialize (H 0 pl eq_refl). rewrite Nat.add_0_r in H. clear - H. unfold rqp. rewrite !map_map. apply map_ext_in. intros pb Hpb. rewrite Forall_forall in H. destruct (H pb Hpb) as [A B].
    unfold msg_of, to_cmi. cbn [fst snd]. f_equal; auto. lia.
  - apply IH. now apply gl_ok_tl in H.
Qed.
Lemma all_msgs_rq L : gl_ok 0 L -> all_msgs (map rqp L) = map gof (concat L).
Proof.
  unfold all_msgs. rewrite map_length. generalize 0 as n. induction L as [|pl L IH]; intros n H; [reflexivity|]. cbn [map length seq combine fst snd concat]. rewrite map_app. f_equal.
  - specialize (H 0 pl eq_refl). rewrite Nat.add_0_r in H. clear - H. unfold rqp. rewrite !map_map. apply map_ext_in. intros pb Hpb. rewrite Forall_forall in H. destruct (H pb Hpb) as [A B].
    unfold gof. cbn [fst snd]. do 2 f_equal; auto. lia.
  - apply IH. now apply gl_ok_tl in H.
Qed.
Lemma filter_own L : forall n r pl, gl_ok n L -> nth_error L r = Some pl ->
  filter (fun pb : prep * list Z => (p_snd (fst pb) =? Z.of_nat (n + r))%Z) (concat L) = pl.
Proof.
  assert (NO : forall L n r, gl_ok n L -> r < n -> filter (fun pb : prep * list Z => (p_snd (fst pb) =? Z.of_nat r)%Z) (concat L) = []).
  { clear. induction L as [|pl L IH]; intros n r H Hr; [reflexivity|]. cbn [concat]. rewrite filter_app, (IH (S n)); [|now apply gl_ok_tl in H|lia]. rewrite app_nil_r.
    apply filter_none. intros pb Hpb. specialize (H 0 pl eq_refl). rewrite Forall_forall in H. destruct (H pb Hpb) as [-> _]. lia. }
  induction L as [|pl0 L IH]; intros n r pl H Hr; [destruct r; discriminate|]. cbn [concat]. rewrite filter_app. destruct r as [|r]; cbn in Hr.
  - injection Hr as ->. pose proof (H 0 pl eq_refl) as H0. rewrite Nat.add_0_r in *. rewrite (NO L (S n)); [|now apply gl_ok_tl in H|lia]. rewrite app_nil_r.
    clear - H0. induction H0 as [|pb l [A _] _ IH]; [reflexivity|]. cbn [filter]. rewrite A, Z.eqb_refl. now rewrite IH.
  - replace (n + S r) with (S n + r) by lia. rewrite (IH (S n) r pl); auto; [|now apply gl_ok_tl in H].
    rewrite filter_none; [reflexivity|]. intros pb Hpb. specialize (H 0 pl0 eq_refl). rewrite Forall_forall in H. destruct (H pb Hpb) as [-> _]. lia.
Qed.

Definition mrel (m : cmi) (pb : prep * list Z) : Prop := m_snd m = p_snd (fst pb) /\ m_rcv m = p_rcv (fst pb) /\ m_size m = length (snd pb).
Lemma table_sync gl tg mx r t : table_ok (map gof gl) tg mx r t -> Forall (fun pb => 0 <= p_snd (fst pb) /\ 0 <= p_rcv (fst pb))%Z gl ->
  Forall2 mrel (t_all t) gl.
Proof.
  intros (T1 & _) HG. rewrite map_map in T1. revert T1 HG. generalize (t_all t). induction gl as [|pb gl IH]; intros [|m l] T1 HG; cbn [map] in T1; try discriminate; constructor.
  - injection T1 as A B C D. pose proof (Forall_inv HG) as [E F]. unfold gof, g_src, g_dst, g_size in *. cbn [fst snd] in *. unfold mrel. repeat split; auto; lia.
  - injection T1 as A B C D. apply IH; auto. now inversion HG.
Qed.
Lemma sync_map {A} (f : cmi -> A) (h : prep * list Z -> A) l gl : Forall2 mrel l gl -> (forall m pb, mrel m pb -> f m = h pb) -> map f l = map h gl.
Proof. intros H E. induction H; [reflexivity|]. cbn [map]. f_equal; auto. Qed.
Lemma combine_in_nth {A B} (l : list A) (l' : list B) x y : In (x, y) (combine l l') -> exists i, nth_error l i = Some x /\ nth_error l' i = Some y.
Proof.
  revert l'; induction l as [|a l IH]; intros [|b l'] H; cbn in H; try tauto. destruct H as [H|H].
  - injection H as -> ->. exists 0. auto.
  - destruct (IH _ H) as (i & A1 & A2). exists (S i). auto.
Qed.
Lemma combine_nth_in {A B} (l : list A) (l' : list B) i x y : nth_error l i = Some x -> nth_error l' i = Some y -> nth_error (combine l l') i = Some (x, y).
Proof. revert l l'; induction i as [|i IH]; intros [|a l] [|b l'] H1 H2; cbn in *; try discriminate; [congruence|auto]. Qed.
Lemma combine_nth_inv {A B} (l : list A) (l' : list B) i x y : nth_error (combine l l') i = Some (x, y) -> nth_error l i = Some x /\ nth_error l' i = Some y.
Proof. revert l l'; induction i as [|i IH]; intros [|a l] [|b l'] H; cbn in *; try discriminate; [injection H as -> ->; auto|auto]. Qed.
Lemma Forall2_nth_l {A B} (R : A -> B -> Prop) l l' i x : Forall2 R l l' -> nth_error l i = Some x -> exists y, nth_error l' i = Some y /\ R x y.
Proof. intros H; revert i; induction H; intros [|i] E; cbn in *; try discriminate; [injection E as <-; eauto|eauto]. Qed.
Lemma Forall2_nth_r {A B} (R : A -> B -> Prop) l l' i y : Forall2 R l l' -> nth_error l' i = Some y -> exists x, nth_error l i = Some x /\ R x y.
Proof. intros H; revert i; induction H; intros [|i] E; cbn in *; try discriminate; [injection E as <-; eauto|eauto]. Qed.
Lemma fop_filter {A} (f : A -> bool) (R : A -> A -> Prop) l :
  (forall i j x y, i < j -> nth_error l i = Some x -> nth_error l j = Some y -> f x = true -> f y = true -> R x y) -> ForallOrdPairs R (filter f l).
Proof.
  induction l as [|a l IH]; intros H; cbn [filter]; [constructor|].
  assert (H' : ForallOrdPairs R (filter f l)) by (apply IH; intros i j x y L Hi Hj; apply (H (S i) (S j)); auto; lia).
  destruct (f a) eqn:E; auto. constructor; auto. apply Forall_forall. intros y Hy. apply filter_In in Hy as [Hy Fy]. apply In_nth_error in Hy as (j & Hj).
  apply (H 0 (S j) a y); auto; lia.
Qed.

(** ** Filling the send cache of one rank *)
Lemma fill_ok gl tg mx r t pl c : table_ok (map gof gl) tg mx r t -> Forall (fun pb => 0 <= p_snd (fst pb) /\ 0 <= p_rcv (fst pb))%Z gl ->
  filter (fun pb : prep * list Z => (p_snd (fst pb) =? Z.of_nat r)%Z) gl = pl -> bufs_ok (t_send_sizes t) c ->
  exists c', fill t (map snd pl) c = Ok c' /\ bufs_ok (t_send_sizes t) c' /\
    forall i m pb o, nth_error (t_all t) i = Some m -> nth_error gl i = Some pb -> m_snd m = Z.of_nat r -> m_soff m = Some o -> bytes_at c' o (m_size m) = snd pb.
Proof.
  intros HT HG HP HB. pose proof (table_sync _ _ _ _ _ HT HG) as HR.
  destruct (filter_sync (fun m => (m_snd m =? Z.of_nat r)%Z) (fun pb : prep * list Z => (p_snd (fst pb) =? Z.of_nat r)%Z) (t_all t) gl) as [F1 F2].
  { apply sync_map; auto. intros m pb (-> & _). reflexivity. }
  set (L := filter (fun p : cmi * (prep * list Z) => (m_snd (fst p) =? Z.of_nat r)%Z) (combine (t_all t) gl)) in *.
  set (L2 := map (fun x : cmi * (prep * list Z) => (fst x, snd (snd x))) L).
  destruct HT as (_ & _ & TS & _ & _ & _ & _ & _ & (P1 & P2) & _).
  assert (E1 : map fst L2 = t_send t). { unfold L2. rewrite map_map. cbn [fst]. rewrite TS, <- F1. reflexivity. }
  assert (E2 : map snd L2 = map snd pl). { unfold L2. rewrite map_map. cbn [snd]. rewrite <- HP, <- F2, map_map. reflexivity. }
  assert (INL : forall m d, In (m, d) L2 -> exists i pb, d = snd pb /\ nth_error (t_all t) i = Some m /\ nth_error gl i = Some pb /\ m_snd m = Z.of_nat r).
  { intros m d H. unfold L2 in H. apply in_map_iff in H as ([m0 pb] & E & H). cbn [fst snd] in E. injection E as -> <-. unfold L in H. apply filter_In in H as [H G]. cbn [fst] in G.
    apply combine_in_nth in H as (i & A & B). exists i, pb. repeat split; auto. lia. }
  destruct (fill_loop_ok L2 c) as (c' & FE & FL & FB & _).
  - apply Forall_forall. intros [m d] H. destruct (INL _ _ H) as (i & pb & -> & A & B & _). cbn [fst snd]. destruct (Forall2_nth_l _ _ _ _ _ HR A) as (pb' & B' & (_ & _ & R)). congruence.
  - apply Forall_forall. intros [m d] H. destruct (INL _ _ H) as (i & pb & -> & A & B & C). cbn [fst]. unfold fits. rewrite HB. destruct (P1 i m A C) as (b & o & n & X). eauto.
  - unfold L2. assert (Z0 : ForallOrdPairs (fun x y : cmi * (prep * list Z) => apart (fst x) (fst y)) L).
    { apply fop_filter. intros i j [m pb] [m' pb'] Hij Hi Hj Fi Fj. cbn [fst] in *. apply combine_nth_inv in Hi as [Hi _]. apply combine_nth_inv in Hj as [Hj _].
      intros b o b' o' O1 O2 <-. apply (P2 i j m m' b o o'); auto; lia. }
    clear - Z0. induction Z0; cbn [map]; constructor; auto. apply Forall_map. exact H.
  - exists c'. unfold fill. rewrite <- E1, <- E2, !map_length, Nat.eqb_refl. cbn [negb]. split; [exact FE|]. split; [unfold bufs_ok in *; congruence|].
    intros i m pb o Hm Hpb HS HO. apply FB; auto. unfold L2. apply in_map_iff. exists (m, pb). split; [reflexivity|]. unfold L. apply filter_In. split; [|cbn [fst]; lia].
    apply (nth_error_In _ i). now apply combine_nth_in.
Qed.

(** ** Reading the receive cache of one rank *)
Lemma read_ok m cache o b s : m_roff m = Some o -> bytes_at cache o (m_size m) = b -> fst o < length cache -> snd o + m_size m <= length (nth (fst o) cache []) ->
  sh_from_buffer b false = Ok s -> read_msg m cache = Ok (m_snd m, s).
Proof.
  intros E1 E2 L1 L2 E3. unfold read_msg. rewrite E1. cbn [ref rbind]. rewrite (proj2 (aget_ok _ _ _) (nth_error_nth' cache [] L1)). cbn [rbind].
  rewrite copy_out by auto. cbn [rbind]. unfold bytes_at in E2. rewrite E2, E3. reflexivity.
Qed.
Lemma ins_app l l' recv : ins (l ++ l') recv = ins l' (ins l recv).
Proof. unfold ins. apply fold_left_app. Qed.
Lemma finish_ok sched djunk rg t cache (R : list (cmi * (prep * list Z))) recv : fair3 sched -> t_recv t = map fst R ->
  Forall (fun x => exists s, read_msg (fst x) cache = Ok (m_snd (fst x), s) /\
     forall sc dj rv, fair_sched sc -> split_recv sc dj rg (m_snd (fst x), s) rv = Ok (ins (p_src (fst (snd x))) rv)) R ->
  finish sched djunk rg t cache recv = Ok (ins (concat (map (fun x => p_src (fst (snd x))) R)) recv).
Proof.
  intros HF HT HR. unfold finish. rewrite HT. clear HT.
  assert (X : exists l, PatchData.rmapm (fun m => read_msg m cache) (map fst R) = Ok l /\
     forall n rv, rfold (fun ims recv => split_recv (sched (fst ims)) djunk rg (snd ims) recv) (combine (seq n (length l)) l) rv = Ok (ins (concat (map (fun x => p_src (fst (snd x))) R)) rv)).
  { induction HR as [|x R (s & E & S) _ (l & IE & IR)]; [exists []; split; reflexivity|]. exists ((m_snd (fst x), s) :: l). cbn [map PatchData.rmapm]. rewrite E. cbn [rbind]. rewrite IE. cbn [rbind].
    split; [reflexivity|]. intros n rv. cbn [length seq combine rfold fst snd]. rewrite S by apply HF. cbn [rbind]. rewrite IR. cbn [concat]. now rewrite ins_app. }
  destruct X as (l & E & H). rewrite E. cbn [rbind]. apply H.
Qed.
Lemma ins_spec l recv : dds_sorted recv -> dds_sorted (ins l recv) /\ forall k, dds_vals k (ins l recv) = dds_vals k recv ++ dds_vals k (map of_d l).
Proof.
  intros H. assert (E : ins l recv = fold_left (fun m p => mm_insert (fst p) (snd p) m) (map of_d l) recv).
  { unfold ins. clear H. revert recv. induction l as [|d l IH]; intros recv; [reflexivity|]. cbn [fold_left map]. now rewrite IH. }
  rewrite E. apply (fold_insert_spec (map of_d l) recv H).
Qed.
Lemma vals_app k (a b : dds (list Z)) : dds_vals k (a ++ b) = dds_vals k a ++ dds_vals k b.
Proof. unfold dds_vals. now rewrite filter_app, map_app. Qed.

(** ** The whole communication *)
Definition pls_ok (rg : Z -> Z) (max : nat) (sends : list (dds (list Z))) (L : pls) : Prop :=
  length L = length sends /\ forall r send pl, nth_error sends r = Some send -> nth_error L r = Some pl -> pl_ok rg (length sends) max r send pl.

Lemma fits_dec max (send : dds (list Z)) : {Forall (fun p => 8 + obj_bytes (snd p) <= max) send} + {Exists (fun p => max < 8 + obj_bytes (snd p)) send}.
Proof.
  induction send as [|p send [IH|IH]]; [left; constructor| |right; now right].
  destruct (le_lt_dec (8 + obj_bytes (snd p)) max); [left; constructor; auto|right; now left].
Qed.

Lemma comm_ok_rank rg sends r send : comm_ok rg sends -> nth_error sends r = Some send -> rank_ok rg (length sends) r send.
Proof. intros (_ & _ & H) E. exact (H r send E). Qed.

Lemma imapm_prepare sched junk max rg sends : comm_ok rg sends -> (Z.of_nat max + 8 < 2 ^ 32)%Z -> (forall r, fair3 (sched r)) ->
  Forall (Forall (fun p => 8 + obj_bytes (snd p) <= max)) sends ->
  exists L, imapm (fun r send => prepare (sched r) (junk r) max rg send) sends = Ok (map (map msg_of) L) /\ pls_ok rg max sends L.
Proof.
  intros HC HM HF HO.
  destruct (imapm_ok (fun r send => prepare (sched r) (junk r) max rg send) (map msg_of) (fun r send pl => pl_ok rg (length sends) max r send pl) sends) as (L & E & LL & HQ).
  { intros i x Hx. apply prepare_ok; auto; [now apply comm_ok_rank|]. rewrite Forall_forall in HO. apply HO. now apply nth_error_In in Hx. }
  exists L. split; auto. split; auto.
Qed.
Lemma imapm_prepare_throw sched junk max rg sends : comm_ok rg sends -> (Z.of_nat max + 8 < 2 ^ 32)%Z -> (forall r, fair3 (sched r)) ->
  Exists (Exists (fun p => max < 8 + obj_bytes (snd p))) sends -> imapm (fun r send => prepare (sched r) (junk r) max rg send) sends = Throw.
Proof.
  intros HC HM HF HO. apply imapm_throw.
  - intros i x Hx. destruct (fits_dec max x) as [D|D].
    + destruct (prepare_ok rg (length sends) max i x (sched i) (junk i)) as (pl & -> & _); auto; [now apply comm_ok_rank|discriminate].
    + rewrite (prepare_throw rg (length sends) max i x); auto; [discriminate|now apply comm_ok_rank].
  - apply Exists_exists in HO as (x & Hx & HO). apply In_nth_error in Hx as (i & Hi). exists i, x. split; auto. apply (prepare_throw rg (length sends) max i x); auto. now apply comm_ok_rank.
Qed.
Lemma all_fits_dec max (sends : list (dds (list Z))) : {Forall (Forall (fun p => 8 + obj_bytes (snd p) <= max)) sends} + {Exists (Exists (fun p => max < 8 + obj_bytes (snd p))) sends}.
Proof. induction sends as [|p send [IH|IH]]; [left; constructor| |right; now right]. destruct (fits_dec max p); [left; constructor; auto|right; now left]. Qed.

Section W.
Variables (rg : Z -> Z) (max : nat) (sends : list (dds (list Z))) (L : pls).
Hypothesis HC : comm_ok rg sends.
Hypothesis HL : pls_ok rg max sends L.

Lemma L_nth r pl : nth_error L r = Some pl -> exists send, nth_error sends r = Some send /\ pl_ok rg (length sends) max r send pl.
Proof.
  destruct HL as [LL HQ]. intros H. assert (Lr : r < length sends) by (rewrite <- LL; apply nth_error_Some; congruence).
  destruct (nth_error sends r) as [send|] eqn:E; [|apply nth_error_None in E; lia]. exists send. split; auto.
Qed.
Lemma L_gl : gl_ok 0 L.
Proof.
  intros i pl H. destruct (L_nth i pl H) as (send & _ & (_ & F & _)). eapply Forall_impl; [|exact F]. cbn beta. intros pb (A & B & _). split; auto.
Qed.
Lemma L_in pb : In pb (concat L) -> pb_ok rg max pb /\ (0 <= p_snd (fst pb) < Z.of_nat (length sends))%Z /\ (0 <= p_rcv (fst pb) < Z.of_nat (length sends))%Z /\
  (forall r send, p_snd (fst pb) = Z.of_nat r -> nth_error sends r = Some send -> chunk_total (p_src (fst pb)) <= 8 + objs_bytes (to_rank rg (p_rcv (fst pb)) send)).
Proof.
  intros H. apply in_concat in H as (pl & Hpl & Hpb). apply In_nth_error in Hpl as (r & Hr). destruct (L_nth r pl Hr) as (send & Hs & (A & B & _ & _ & C)).
  rewrite Forall_forall in A, B. destruct (B pb Hpb) as [B1 B2]. assert (r < length sends) by (apply nth_error_Some; congruence).
  split; [auto|]. split; [lia|]. split; [lia|]. intros r' send' E Hs'. assert (r' = r) by lia. subst r'. assert (send' = send) by congruence. subst. auto.
Qed.
Lemma L_count : length (concat L) <= length (concat sends).
Proof.
  destruct HL as [LL HQ]. clear - LL HQ. assert (X : forall (L : pls) (sends : list (dds (list Z))), length L = length sends -> (forall r send pl, nth_error sends r = Some send -> nth_error L r = Some pl -> length pl <= length send) -> length (concat L) <= length (concat sends)).
  { clear. intros L1. induction L1 as [|pl L1 IH]; intros [|s ss] E H; cbn in E; try lia; cbn [concat]; rewrite ?app_length; [cbn; lia|].
    pose proof (H 0 s pl eq_refl eq_refl). assert (length (concat L1) <= length (concat ss)); [|lia]. apply IH; auto. intros r a b Ha Hb. apply (H (S r)); auto. }
  apply X; auto. intros r send pl Hs Hp. now destruct (HQ r send pl Hs Hp) as (_ & _ & A & _).
Qed.
Lemma L_rq : rq_ok (map rqp L).
Proof.
  destruct HC as (C1 & C2 & _). destruct HL as [LL _]. pose proof L_count. split; [rewrite map_length; lia|]. rewrite (all_msgs_rq L L_gl), map_length. split; [lia|].
  apply Forall_map, Forall_forall. intros pb Hpb. destruct (L_in pb Hpb) as ((_ & PL & _) & A & B & _). unfold gof, g_dst, g_size. cbn [fst snd]. rewrite map_length, LL. lia.
Qed.
Lemma L_vals r k : dds_vals k (map of_d (concat (map (fun pb : prep * list Z => p_src (fst pb)) (filter (fun pb : prep * list Z => (p_rcv (fst pb) =? Z.of_nat r)%Z) (concat L))))) = expected rg sends r k.
Proof.
  unfold expected. destruct HL as [LL HQ]. clear HC HL.
  assert (H' : forall i send pl, nth_error sends i = Some send -> nth_error L i = Some pl ->
     dds_vals k (map of_d (concat (map (fun pb : prep * list Z => p_src (fst pb)) (filter (fun pb : prep * list Z => (p_rcv (fst pb) =? Z.of_nat r)%Z) pl)))) = if (rg (snd k) =? Z.of_nat r)%Z then dds_vals k send else []).
  { intros i send pl Hs Hp. destruct (HQ i send pl Hs Hp) as (_ & _ & _ & A & _). rewrite <- A. unfold objs_to. do 3 f_equal. clear. induction pl as [|pb pl IH]; [reflexivity|]. cbn [filter map]. destruct (_ =? _)%Z; cbn [map]; now rewrite IH. }
  clear HQ. revert sends LL H'. induction L as [|pl L0 IH]; intros [|s ss] LL H'; cbn in LL; try lia; [destruct (_ =? _)%Z; reflexivity|].
  cbn [concat map]. rewrite filter_app, map_app, concat_app, map_app, vals_app, (H' 0 s pl eq_refl eq_refl), (IH ss); [|lia|].
  - destruct (_ =? _)%Z; reflexivity.
  - intros i a b Ha Hb. apply (H' (S i)); auto.
Qed.
End W.

Lemma max_alloc_le a b : max_alloc a b <= b.
Proof. unfold max_alloc. destruct (Nat.ltb_spec b (a - 1)); lia. Qed.

Lemma begin_inv sched junk max_mem max rg sends ps tabs : comm_ok rg sends -> (Z.of_nat max < 2 ^ 31)%Z -> (forall r, fair3 (sched r)) ->
  comm_begin sched junk max_mem max rg sends = Ok (ps, tabs) ->
  exists L, ps = map (map msg_of) L /\ pls_ok rg max sends L /\
    build_sparse_exchange_table (fun r => max_alloc (max_mem r) max) (to_msgs (map rqp L)) = Ok tabs.
Proof.
  intros HC HM HF H. unfold comm_begin in H. destruct (all_fits_dec max sends) as [D|D].
  - destruct (imapm_prepare sched junk max rg sends HC ltac:(lia) HF D) as (L & E & HL). rewrite E in H. cbn [rbind] in H. apply rbind_ok in H as (tb & E2 & H). injection H as <- <-.
    exists L. split; auto. split; auto. rewrite <- (to_msgs_rq L (L_gl _ _ _ _ HL)). exact E2.
  - rewrite (imapm_prepare_throw sched junk max rg sends HC ltac:(lia) HF D) in H. discriminate.
Qed.

Lemma rmapm_ok3 {A B C D} (f : A * (B * C) -> res D) (R : A -> D -> Prop) la lb lc : length la = length lb -> length lb = length lc ->
  (forall i a b c, nth_error la i = Some a -> nth_error lb i = Some b -> nth_error lc i = Some c -> exists d, f (a, (b, c)) = Ok d /\ R a d) ->
  exists ld, PatchData.rmapm f (combine la (combine lb lc)) = Ok ld /\ Forall2 R la ld /\
    forall i a b c d, nth_error la i = Some a -> nth_error lb i = Some b -> nth_error lc i = Some c -> nth_error ld i = Some d -> f (a, (b, c)) = Ok d.
Proof.
  revert lb lc; induction la as [|a la IH]; intros [|b lb] [|c lc] L1 L2 H; cbn in L1, L2; try lia.
  - exists []. split; [reflexivity|]. split; [constructor|]. intros [|i]; discriminate.
  - destruct (H 0 a b c eq_refl eq_refl eq_refl) as (d & E & HR). destruct (IH lb lc) as (ld & E2 & F & G); [lia|lia| |].
    { intros i x y z Hx Hy Hz. apply (H (S i)); auto. }
    exists (d :: ld). cbn [combine PatchData.rmapm]. rewrite E. cbn [rbind]. rewrite E2. cbn [rbind]. split; [reflexivity|]. split; [constructor; auto|].
    intros [|i] x y z w; cbn; [congruence|eauto].
Qed.

Lemma comm_delivery sched junk max_mem max rg sends ps tabs caches brecv : comm_ok rg sends -> (Z.of_nat max < 2 ^ 31)%Z -> (forall r, fair3 (sched r)) ->
  comm_begin sched junk max_mem max rg sends = Ok (ps, tabs) ->
  Forall2 (fun t b => bufs_ok (t_send_sizes t) b) tabs caches ->
  Forall2 (fun t b => bufs_ok (t_recv_sizes t) b) tabs brecv ->
  length tabs = length sends /\
  exists bsend, comm_fill tabs ps caches = Ok bsend /\
  (forall r t bs br, nth_error tabs r = Some t -> nth_error bsend r = Some bs -> nth_error brecv r = Some br -> exchange_checks t bs br = Ok tt) /\
  forall n s, xreach tabs bsend (xinit brecv) n s ->
    n <= 5 * length (concat sends) * length sends /\
    (forall l, enabled tabs l s = true -> exists s', xdo tabs bsend l s = Ok s') /\
    (finished tabs s = false -> exists l, enabled tabs l s = true /\ unbuffered l s) /\
    (finished tabs s = true -> forall r t sch djunk recv0, nth_error tabs r = Some t -> fair3 sch -> dds_sorted recv0 ->
       exists out, finish sch djunk rg t (x_bufs (s r)) recv0 = Ok out /\ dds_sorted out /\
         forall k, dds_vals k out = dds_vals k recv0 ++ expected rg sends r k).
Proof.
  intros HC HM HF HB HS HV. destruct (begin_inv _ _ _ _ _ _ _ _ HC HM HF HB) as (L & -> & HL & EB).
  pose proof (L_rq rg max sends L HC HL) as RQ. destruct (build_inv _ _ _ RQ EB) as [FT TK]. pose proof TK as (LT & tg & _ & _ & TO). rewrite map_length in LT.
  pose proof (L_gl rg max sends L HL) as GL. rewrite (all_msgs_rq L GL) in TO.
  assert (LS : length L = length sends) by (now destruct HL).
  assert (NN : Forall (fun pb => 0 <= p_snd (fst pb) /\ 0 <= p_rcv (fst pb))%Z (concat L)).
  { apply Forall_forall. intros pb Hpb. destruct (L_in rg max sends L HL pb Hpb) as (_ & A & B & _). lia. }
  assert (FI : forall r t pl c, nth_error tabs r = Some t -> nth_error L r = Some pl -> bufs_ok (t_send_sizes t) c ->
     exists c', fill t (map snd pl) c = Ok c' /\ bufs_ok (t_send_sizes t) c' /\
       forall i m pb o, nth_error (t_all t) i = Some m -> nth_error (concat L) i = Some pb -> m_snd m = Z.of_nat r -> m_soff m = Some o -> bytes_at c' o (m_size m) = snd pb).
  { intros r t pl c Ht Hpl Hc. apply (fill_ok (concat L) tg (max_alloc (max_mem r) max) r t pl c); auto. exact (filter_own L 0 r pl GL Hpl). }
  split; [lia|].
  destruct (rmapm_ok3 (fun x => fill (fst x) (map snd (fst (snd x))) (snd (snd x))) (fun t b => bufs_ok (t_send_sizes t) b) tabs (map (map msg_of) L) caches) as (bsend & EF & HS2 & EI).
  { rewrite map_length. lia. } { rewrite map_length. rewrite <- LT. now apply Forall2_length in HS. }
  { intros i t p c Ht Hp Hc. rewrite nth_error_map in Hp. destruct (nth_error L i) as [pl|] eqn:El; [|discriminate]. cbn in Hp. injection Hp as <-. cbn [fst snd]. rewrite map_map. cbn [msg_of snd].
    destruct (Forall2_nth_l _ _ _ _ _ HS Ht) as (c0 & Hc0 & B0). assert (c0 = c) by congruence. subst c0. destruct (FI i t pl c Ht El B0) as (c' & A1 & A2 & _). exists c'. auto. }
  exists bsend. split; [exact EF|]. split; [exact (forall2_checks tabs bsend brecv HS2 HV)|].
  assert (MX : forall r, r < length (map rqp L) -> (Z.of_nat (max_alloc (max_mem r) max) < 2 ^ 31)%Z) by (intros r _; pose proof (max_alloc_le (max_mem r) max); lia).
  intros n s HX. destruct (exchange_main (map rqp L) (fun r => max_alloc (max_mem r) max) tabs bsend brecv RQ FT MX TK HS2 HV n s HX) as (X1 & X2 & X3 & X4).
  split. { rewrite (all_msgs_rq L GL), !map_length, LS in X1. pose proof (L_count rg max sends L HL). nia. }
  split; [exact X2|]. split; [exact X3|]. intros FIN r t sch djunk recv0 Ht HFS HSO. destruct (X4 FIN) as [DL BL]. clear X2 X3 X4.
  assert (Lr : r < length L) by (rewrite <- LT; apply nth_error_Some; congruence).
  pose proof (TO r t Ht) as TK1. pose proof (table_sync _ _ _ _ _ TK1 NN) as SY.
  destruct (filter_sync (fun m => (m_rcv m =? Z.of_nat r)%Z) (fun pb : prep * list Z => (p_rcv (fst pb) =? Z.of_nat r)%Z) (t_all t) (concat L)) as [F1 F2].
  { apply sync_map; auto. intros m pb (_ & -> & _). reflexivity. }
  set (R := filter (fun p : cmi * (prep * list Z) => (m_rcv (fst p) =? Z.of_nat r)%Z) (combine (t_all t) (concat L))) in *.
  destruct TK1 as (_ & _ & _ & TR & _ & _ & _ & _ & _ & (P1 & _) & _).
  rewrite (finish_ok sch djunk rg t (x_bufs (s r)) R recv0 HFS); [|now rewrite F1|].
  - destruct (ins_spec (concat (map (fun x : cmi * (prep * list Z) => p_src (fst (snd x))) R)) recv0 HSO) as [I1 I2]. eexists. split; [reflexivity|]. split; [exact I1|].
    intros k. rewrite I2. f_equal. rewrite <- (L_vals rg max sends L HL r k), <- F2, map_map. reflexivity.
  - apply Forall_forall. intros [m pb] Hin. cbn [fst snd]. unfold R in Hin. apply filter_In in Hin as [Hin HR]. cbn [fst] in HR. apply combine_in_nth in Hin as (i & Hm & Hpb).
    destruct (DL r t i m Ht Hm ltac:(lia)) as (r' & t' & m' & o & o' & D1 & D2 & D3 & D4 & D5 & D6 & D7 & D8 & D9 & D10).
    assert (Lr' : r' < length L) by (rewrite <- LT; apply nth_error_Some; congruence).
    destruct (nth_error L r') as [pl'|] eqn:El'; [|apply nth_error_None in El'; lia].
    destruct (Forall2_nth_l _ _ _ _ _ HS D2) as (c0 & Hc0 & B0). destruct (FI r' t' pl' c0 D2 El' B0) as (c' & A1 & A2 & A3).
    destruct (Forall2_nth_l _ _ _ _ _ HS2 D2) as (b & Hb & _).
    assert (b = c'). { specialize (EI r' t' (map msg_of pl') c0 b D2). rewrite nth_error_map, El' in EI. specialize (EI eq_refl Hc0 Hb). cbn [fst snd] in EI. rewrite map_map in EI. cbn [msg_of snd] in EI. change (map (fun x => snd x) pl') with (map snd pl') in EI. congruence. }
    subst b. rewrite (nth_error_nth _ _ [] Hb) in D9. rewrite <- D6 in D9 at 2. rewrite (A3 i m' pb o' D3 Hpb) in D9; auto; [|congruence].
    destruct (P1 i m Hm ltac:(lia)) as (b1 & o1 & n1 & Q1 & Q2 & Q3). assert (o = (b1, o1)) by congruence. subst o.
    destruct (Forall2_nth_l _ _ _ _ _ HV Ht) as (br & Hbr & Bbr). unfold bufs_ok in Bbr. assert (BR : map (@length Z) (x_bufs (s r)) = t_recv_sizes t). { rewrite BL by (rewrite map_length; auto). now rewrite (nth_error_nth _ _ [] Hbr). }
    assert (NB : nth_error (x_bufs (s r)) b1 <> None /\ length (nth b1 (x_bufs (s r)) []) = n1).
    { rewrite <- BR, nth_error_map in Q2. destruct (nth_error (x_bufs (s r)) b1) as [y|] eqn:Ey; [|discriminate]. cbn in Q2. split; [discriminate|]. rewrite (nth_error_nth _ _ [] Ey). congruence. }
    destruct NB as [NB1 NB2]. apply nth_error_Some in NB1.
    destruct (L_in rg max sends L HL pb (nth_error_In _ _ Hpb)) as ((_ & _ & (s1 & RD1 & RD2)) & _).
    assert (MS : m_snd m = p_snd (fst pb)). { destruct (Forall2_nth_l _ _ _ _ _ SY Hm) as (pb' & B' & (M1 & _)). congruence. }
    exists s1. split.
    + apply (read_ok m (x_bufs (s r)) (b1, o1) (snd pb) s1); auto; cbn [fst snd]; lia.
    + intros sc dj rv Hsc. rewrite MS. apply RD2; auto.
Qed.

Lemma list_sum_in {A} (f : A -> nat) l x : In x l -> f x <= list_sum (map f l).
Proof. induction l as [|a l IH]; intros H; [destruct H|]. cbn [map]. rewrite list_sum_cons. destruct H as [->|H]; [lia|]. apply IH in H. lia. Qed.

Lemma begin_cases sched junk max_mem max rg sends : comm_ok rg sends -> (Z.of_nat max < 2 ^ 31)%Z -> (forall r, fair3 (sched r)) ->
  (exists L, imapm (fun r send => prepare (sched r) (junk r) max rg send) sends = Ok (map (map msg_of) L) /\ pls_ok rg max sends L /\
     ((rq_fits (fun r => max_alloc (max_mem r) max) (map rqp L) /\ exists ps tabs, comm_begin sched junk max_mem max rg sends = Ok (ps, tabs)) \/
      (~ rq_fits (fun r => max_alloc (max_mem r) max) (map rqp L) /\ comm_begin sched junk max_mem max rg sends = Throw))) \/
  (Exists (Exists (fun p => max < 8 + obj_bytes (snd p))) sends /\ comm_begin sched junk max_mem max rg sends = Throw).
Proof.
  intros HC HM HF. unfold comm_begin. destruct (all_fits_dec max sends) as [D|D].
  - left. destruct (imapm_prepare sched junk max rg sends HC ltac:(lia) HF D) as (L & E & HL). exists L. split; auto. split; auto. rewrite E. cbn [rbind]. rewrite (to_msgs_rq L (L_gl _ _ _ _ HL)).
    pose proof (L_rq rg max sends L HC HL) as RQ.
    destruct (rq_fits_dec (fun r => max_alloc (max_mem r) max) (map rqp L)) as [Y|N].
    + left. split; auto. destruct (build_ok _ _ RQ Y) as (tabs & -> & _). cbn [rbind]. eauto.
    + right. split; auto. now rewrite build_throw.
  - right. split; auto. now rewrite (imapm_prepare_throw sched junk max rg sends HC ltac:(lia) HF D).
Qed.

Lemma begin_total sched junk max_mem max rg sends : comm_ok rg sends -> (Z.of_nat max < 2 ^ 31)%Z -> (forall r, fair3 (sched r)) ->
  (forall r send r', nth_error sends r = Some send -> r' < length sends -> to_rank rg (Z.of_nat r') send <> [] ->
     16 + objs_bytes (to_rank rg (Z.of_nat r') send) <= max_alloc (max_mem r) max /\
     16 + objs_bytes (to_rank rg (Z.of_nat r') send) <= max_alloc (max_mem r') max) ->
  exists ps tabs, comm_begin sched junk max_mem max rg sends = Ok (ps, tabs).
Proof.
  intros HC HM HF HB.
  assert (OB : forall r send p, nth_error sends r = Some send -> In p send -> exists r', r' < length sends /\ rg (snd (fst p)) = Z.of_nat r' /\ In p (to_rank rg (Z.of_nat r') send)).
  { intros r send p Hs Hp. destruct (comm_ok_rank _ _ _ _ HC Hs) as [_ A]. rewrite Forall_forall in A. destruct (A p Hp) as (_ & _ & _ & B & _). exists (Z.to_nat (rg (snd (fst p)))).
    assert (X : forall z, (0 <= z < Z.of_nat (length sends))%Z -> Z.to_nat z < length sends) by (clear; intros; lia). split; [exact (X _ B)|]. destruct B as [B1 _]. rewrite Z2Nat.id by exact B1. split; auto. unfold to_rank. apply filter_In. split; auto. apply Z.eqb_refl. }
  destruct (begin_cases sched junk max_mem max rg sends HC HM HF) as [(L & _ & HL & [[_ H]|[NF _]])|[EX _]]; auto.
  - exfalso. apply NF. unfold rq_fits. rewrite (all_msgs_rq L (L_gl _ _ _ _ HL)). apply Forall_map, Forall_forall. intros pb Hpb.
    destruct (L_in rg max sends L HL pb Hpb) as (((_ & P2 & _ & P4) & PL & _) & B1 & B2 & B3). unfold gof, g_src, g_dst, g_size. cbn [fst snd]. rewrite PL.
    apply in_concat in Hpb as (pl & Hpl & Hin). apply In_nth_error in Hpl as (r & Hr). destruct (L_nth rg max sends L HL r pl Hr) as (send & Hs & PK). pose proof PK as (_ & P1 & _).
    rewrite Forall_forall in P1. destruct (P1 pb Hin) as [E1 _]. specialize (B3 r send E1 Hs).
    assert (NE : to_rank rg (p_rcv (fst pb)) send <> []).
    { destruct PK as (_ & _ & _ & V & _). destruct (p_src (fst pb)) as [|d l] eqn:ES; [congruence|].
      specialize (V (p_rcv (fst pb)) (d_snd d, d_rcv d)). cbn [snd] in V. pose proof (Forall_inv P4) as G. unfold gkey, pkey in G. injection G as _ G2. rewrite G2, Z.eqb_refl in V.
      assert (I1 : In (d_data d) (dds_vals (d_snd d, d_rcv d) send)).
      { rewrite <- V. rewrite vals_of_d. apply in_map. apply filter_In. split; [|now apply k2_eqb_eq]. unfold objs_to. apply in_concat. exists (p_src (fst pb)). split; [|rewrite ES; now left].
        apply in_map. apply filter_In. split; [now apply in_map|apply Z.eqb_refl]. }
      unfold dds_vals in I1. apply in_map_iff in I1 as (p & _ & Hp). apply filter_In in Hp as [Hp Hk]. apply k2_eqb_eq in Hk. intros E. assert (Hf : In p (to_rank rg (p_rcv (fst pb)) send)); [|rewrite E in Hf; destruct Hf].
      unfold to_rank. apply filter_In. split; auto. destruct p as [[a b0] v]. cbn [fst snd] in *. injection Hk as Hk1 Hk2. rewrite <- Hk2, G2. apply Z.eqb_refl. }
    destruct (HB r send (Z.to_nat (p_rcv (fst pb))) Hs) as [C1 C2]; [lia|rewrite Z2Nat.id by lia; exact NE|]. rewrite Z2Nat.id in C1, C2 by lia. rewrite E1, Nat2Z.id. lia.
  - exfalso. apply Exists_exists in EX as (send & Hin & EX). apply In_nth_error in Hin as (r & Hr). apply Exists_exists in EX as (p & Hp & EX). destruct (OB r send p Hr Hp) as (r' & Lr & _ & Ht).
    assert (NE : to_rank rg (Z.of_nat r') send <> []) by (intros E; rewrite E in Ht; destruct Ht). destruct (HB r send r' Hr Lr NE) as [C1 _]. pose proof (max_alloc_le (max_mem r) max).
    pose proof (list_sum_in (fun p => obj_bytes (snd p)) _ _ Ht). unfold objs_bytes in C1. lia.
Qed.

(** ** The splitter does not count the 8 bytes of the message header *)
Definition lim_send (m : nat) : dds (list Z) := [((0, 1), repeat 0 8); ((0, 1), repeat 0 (8 * (m / 8) - 64))]%Z.
Lemma lim_throw sched junk max_mem m : (forall r, fair3 (sched r)) -> 72 <= m -> (Z.of_nat m < 2 ^ 31)%Z ->
  comm_ok (fun id => id) [lim_send m; []] /\ Forall (fun p => 16 + obj_bytes (snd p) <= m) (lim_send m) /\
  comm_begin sched junk max_mem m (fun id => id) [lim_send m; []] = Throw.
Proof.
  intros HF H1 H2. pose proof (Nat.div_mod m 8 ltac:(lia)) as DM. pose proof (Nat.mod_upper_bound m 8 ltac:(lia)) as MB. set (q := m / 8) in *. assert (Q9 : 9 <= q) by lia.
  assert (A8 : al8 (8 * q - 64) = 8 * q - 64). { unfold al8. replace (8 * q - 64 + 7) with (7 + (q - 8) * 8) by lia. rewrite Nat.div_add by lia. change (7 / 8) with 0. lia. }
  assert (A8' : al8 8 = 8) by reflexivity.
  assert (LB : Forall (fun p => 16 + obj_bytes (snd p) <= m) (lim_send m)).
  { unfold lim_send. fold q. unfold obj_bytes. constructor; [|constructor; [|constructor]]; cbn [snd]; rewrite repeat_length; rewrite ?A8, ?A8'; lia. }
  assert (HC : comm_ok (fun id => id) [lim_send m; []]).
  { split; [reflexivity|]. split; [reflexivity|]. intros [|[|r]] send E; cbn in E; [| |destruct r; discriminate]; injection E as <-.
    - split; [repeat constructor; unfold k2_le; cbn; lia|]. unfold lim_send. fold q. constructor; [|constructor; [|constructor]]; cbn [fst snd length]; unfold small; rewrite ?repeat_length; lia.
    - split; constructor. }
  split; auto. split; auto.
  set (d1 := DTmp 0 1 (repeat 0%Z 8)). set (d2 := DTmp 0 1 (repeat 0%Z (8 * q - 64))).
  assert (S1 : dsmall d1) by (unfold dsmall, small; cbn; lia). assert (S2 : dsmall d2) by (unfold dsmall, small, d2; cbn [d_data]; rewrite repeat_length; lia).
  assert (B1 : dbytes d1 = 32) by reflexivity. assert (B2 : dbytes d2 = 8 * q - 40) by (unfold dbytes, obj_bytes, d2; cbn [d_data]; rewrite repeat_length, A8; lia).
  assert (T0 : chunk_total [] = 8) by reflexivity.
  assert (T1 : chunk_total [d1] = 40) by reflexivity.
  assert (T2 : chunk_total [d1; d2] = 8 * q). { unfold chunk_total. cbn [map]. rewrite !list_sum_cons, B1, B2. change (list_sum []) with 0. lia. }
  assert (GR : group (fun id => id) (lim_send m) = [((0, 1)%Z, [d1; d2])]) by reflexivity.
  assert (SP : split_all m (group (fun id => id) (lim_send m)) = Ok [Prep 0 1 (chunk_sz [d1; d2]) [d1; d2]]).
  { rewrite GR. unfold split_all. cbn [rfold fst snd split_loop]. rewrite chunk_nil.
    destruct (chunk_add [] d1) as [A1 A2]; [unfold csmall; rewrite T0; lia|auto|]. cbn [app] in A1, A2. rewrite A2. rewrite chunk_total_size by (unfold csmall; rewrite T1; lia). rewrite T1. replace (m <? 40) with false by lia. cbn [rbind app]. rewrite A1.
    destruct (chunk_add [d1] d2) as [A3 A4]; [unfold csmall; rewrite T1; lia|auto|]. cbn [app] in A3, A4. rewrite A4. rewrite chunk_total_size by (unfold csmall; rewrite T2; lia). rewrite T2. replace (m <? 8 * q) with false by lia. cbn [rbind]. rewrite A3.
    cbn [app]. rewrite (add_to_ret_ok m (0, 1)%Z [d1; d2] []) by (first [lia | unfold csmall; rewrite T2; lia]). rewrite T2. replace (m <? 8 * q) with false by lia. reflexivity. }
  destruct (serialize_ok (fun id => id) m (sched 0 0) (junk 0 0) (Prep 0 1 (chunk_sz [d1; d2]) [d1; d2])) as (b & EB & LN & _).
  { unfold prep_ok. cbn [p_sz p_src]. split; [reflexivity|]. split; [discriminate|]. split; [rewrite T2; lia|]. repeat constructor. }
  { cbn [p_src]. constructor; [|constructor; [|constructor]]; (split; [cbn; lia|]; split; [cbn; lia|auto]). }
  { lia. } { apply HF. }
  unfold comm_begin, imapm at 1. cbn [length seq combine PatchData.rmapm fst snd]. unfold prepare at 1. rewrite SP. cbn [rbind]. unfold imapm at 1. cbn [length seq combine PatchData.rmapm fst snd]. rewrite EB. cbn [rbind].
  change (prepare (sched 1) (junk 1) m (fun id => id) []) with (@Ok (list (cmi * list Z)) []). cbn [rbind map fst p_snd p_rcv].
  change [[CMI (length b) 0 1 None None None]; []] with (to_msgs [[(1, length b)]; []]). rewrite build_throw; [reflexivity| |].
  - split; [reflexivity|]. split; [reflexivity|]. cbn [p_src] in LN. cbn. constructor; [|constructor]. unfold g_dst, g_size. cbn [fst snd]. lia.
  - intros F. apply Forall_inv in F. unfold g_size, g_src, g_dst in F. cbn [fst snd] in F. cbn [p_src] in LN. pose proof (max_alloc_le (max_mem 0) m). lia.
Qed.
