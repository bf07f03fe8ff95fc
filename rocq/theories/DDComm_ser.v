(** Proofs about the bytes of one message: written by the sender, read back by the receiver. *)
From Verif Require Import Base Streams Streams_proofs Serialize Serialize_spec Serialize_proofs Containers Containers_spec Containers_proofs SparseXchg SparseXchg_spec SparseXchg_table DDComm DDComm_spec DDComm_prep DDComm_group.
From Coq Require Import ZifyBool ZifyNat.

Definition chunk_items (l : list dtmp) : list sitem := IScalar (le_bytes 8 (Z.of_nat (length l))) :: concat (map src_items l).
Definition d_ok (d : dtmp) : Prop := (0 <= d_snd d < 2 ^ 64)%Z /\ (0 <= d_rcv d < 2 ^ 64)%Z /\ dsmall d.

Lemma items_bytes_cons i l : items_bytes (i :: l) = item_bytes i + items_bytes l. Proof. reflexivity. Qed.
Lemma chunk_items_bytes l : items_bytes (chunk_items l) = chunk_total l.
Proof.
  unfold chunk_items, chunk_total. rewrite items_bytes_cons. cbn [item_bytes]. rewrite le_bytes_length. change (al8 8) with 8. f_equal.
  induction l as [|d l IH]; [reflexivity|]. cbn [map concat src_items app]. rewrite !items_bytes_cons, IH. cbn [map]. rewrite list_sum_cons. cbn [item_bytes].
  rewrite !le_bytes_length. change (al8 8) with 8. unfold dbytes, obj_bytes. rewrite Nat.mul_1_r. lia.
Qed.
Lemma chunk_items_size l : (Z.of_nat (chunk_total l) < 2 ^ 64)%Z -> items_size (chunk_items l) = chunk_sz l.
Proof.
  intros H. destruct (items_size_raw (chunk_items l)) as (E & _); [now rewrite chunk_items_bytes|]. rewrite E. clear. unfold chunk_sz, chunk_items. cbn [map]. rewrite !list_sum_cons. cbn [raw_head raw_cont].
  assert (X : list_sum (map raw_head (concat (map src_items l))) = 24 * length l /\ list_sum (map raw_cont (concat (map src_items l))) = list_sum (map (fun d => al8 (length (d_data d))) l)).
  { induction l as [|d l [I1 I2]]; [split; reflexivity|]. cbn [map concat src_items app length]. rewrite !list_sum_cons, I1, I2. cbn [raw_head raw_cont use_head]. rewrite !le_bytes_length, Nat.mul_1_r. change (al8 8) with 8. lia. }
  destruct X as [-> ->]. unfold raw_head, use_head; rewrite ?le_bytes_length; change (al8 8) with 8; f_equal; lia.
Qed.
Lemma chunk_items_ok l : Forall item_ok (chunk_items l).
Proof.
  constructor; [exact I|]. induction l as [|d l IH]; [constructor|]. cbn [map concat src_items app]. do 3 (constructor; [exact I|]). constructor; auto.
  cbn [item_ok]. rewrite map_length. split; auto. apply Forall_map, Forall_forall. reflexivity.
Qed.

(** Lengths are kept by the writes. *)
Lemma write_at_len p b l l' : write_at p b l = Ok l' -> length l' = length l.
Proof. unfold write_at. destruct (Nat.leb_spec (p + length b) (length l)); [|discriminate]. intros E. injection E as <-. rewrite !app_length, firstn_length, skipn_length. lia. Qed.
Lemma par_for_len order (f : nat -> list Z -> res (list Z)) : (forall i s s', f i s = Ok s' -> length s' = length s) -> forall s s', par_for order f s = Ok s' -> length s' = length s.
Proof.
  intros H. unfold par_for. induction order as [|a o IH]; cbn [rfold]; intros s s' E; [now injection E as <-|]. apply rbind_ok in E as (t & E1 & E2). apply IH in E2. apply H in E1. lia.
Qed.
Lemma write_buf_len order sz buf len s s' : sh_write_buf order sz buf len s = Ok s' -> length (s_storage s') = length (s_storage s).
Proof.
  unfold sh_write_buf. intros H. apply rbind_ok in H as (u & _ & H). apply rbind_ok in H as (st & E & H). injection H as <-. cbn [s_storage].
  refine (par_for_len _ _ _ _ _ E). intros i x x' Hx. apply rbind_ok in Hx as (v & _ & Hx). now apply write_at_len in Hx.
Qed.
Lemma write_len v s s' : sh_write v s = Ok s' -> s_storage s' = s_storage s.
Proof. unfold sh_write. intros H. apply rbind_ok in H as (u & _ & H). apply rbind_ok in H as (st & E & H). now injection H as <-. Qed.
Lemma write_items_len sched l : forall k s s', sh_write_items sched k l s = Ok s' -> length (s_storage s') = length (s_storage s).
Proof.
  induction l as [|i l IH]; cbn [sh_write_items]; intros k s s' H; [now injection H as <-|]. apply rbind_ok in H as (t & E & H). apply IH in H. rewrite H.
  destruct i; cbn [sh_write_item] in E.
  - now apply write_len in E as ->.
  - now apply write_buf_len in E.
  - unfold sh_write_string in E. apply rbind_ok in E as (s1 & E1 & E2). apply write_buf_len in E2. apply write_len in E1. congruence.
Qed.
Lemma finalize_len s b : sh_finalize s = Ok b -> length b = length (s_storage s).
Proof. unfold sh_finalize, write_header. destruct (_ =? _); [intros E; now injection E as <-|]. apply write_at_len. Qed.
Lemma allocate_len junk sz al s : (Z.of_nat (head_size sz + content_size sz + 8) < 2 ^ 64)%Z -> sh_allocate junk sz al = Ok s -> length (s_storage s) = head_size sz + content_size sz + 8.
Proof.
  unfold sh_allocate. rewrite pre_head_8. intros HB H. rewrite (nw64_small (head_size sz + content_size sz)) in H by lia. rewrite nw64_small in H by lia. apply rbind_ok in H as (n & E & H). apply rbind_ok in H as (st & W & H). injection H as <-. cbn [s_storage].
  apply write_at_len in W. rewrite map_length, seq_length in W. rewrite W. destruct al; [now injection E as <-|]. unfold narrow_u32 in E. destruct (_ <? _)%Z; [|discriminate]. now injection E as <-.
Qed.

(** Reading back. *)
Definition obj_loads (djunk : Z) (d : dtmp) : list sload :=
  [LScalar 8; LScalar 8; LScalar 8; LBuf 1 (repeat [djunk] (length (d_data d))) (length (d_data d))].
Definition obj_values (d : dtmp) : list (list (list Z)) :=
  [[le_bytes 8 (d_snd d)]; [le_bytes 8 (d_rcv d)]; [le_bytes 8 (Z.of_nat (length (d_data d)))]; map (fun b => [b]) (d_data d)].
Definition ins (l : list dtmp) (recv : dds (list Z)) : dds (list Z) :=
  fold_left (fun m d => dds_add_obj (d_snd d) (d_rcv d) (d_data d) m) l recv.

Lemma chunk_matches djunk l : Forall2 load_matches (concat (map src_items l)) (concat (map (obj_loads djunk) l)).
Proof.
  induction l as [|d l IH]; [constructor|]. cbn [map concat src_items obj_loads app]. repeat (constructor; [cbn [load_matches]; rewrite ?le_bytes_length; auto|]); auto.
  rewrite repeat_length. auto.
Qed.
Lemma chunk_expected djunk l :
  map (fun p => load_expected (fst p) (snd p)) (combine (concat (map src_items l)) (concat (map (obj_loads djunk) l))) = concat (map obj_values l).
Proof.
  induction l as [|d l IH]; [reflexivity|]. cbn [map concat src_items obj_loads obj_values app combine fst snd load_expected]. rewrite IH. do 3 f_equal. f_equal.
  rewrite firstn_all2 by (rewrite map_length; auto). rewrite skipn_all2 by (rewrite repeat_length; auto). now rewrite app_nil_r.
Qed.

Lemma concat_sing (l : list Z) : concat (map (fun b => [b]) l) = l.
Proof. induction l; cbn; congruence. Qed.

Lemma load_objs_ok sched djunk rg sr l : Forall d_ok l -> Forall (fun d => rg (d_snd d) = sr) l -> forall j s s' recv,
  sh_load_items (fun k n => sched ((k - 4) / 4) n) (4 * j + 1) (concat (map (obj_loads djunk) l)) s = Ok (concat (map obj_values l), s') ->
  load_objs sched djunk rg sr j (length l) s recv = Ok (ins l recv).
Proof.
  intros HD HR. induction l as [|d l IH]; intros j s s' recv H; [reflexivity|].
  inversion HD as [|? ? (D1 & D2 & D3) D4]. inversion HR as [|? ? R1 R2]. subst.
  cbn [map concat obj_loads obj_values app] in H. cbn [sh_load_items] in H.
  apply rbind_ok in H as ((v1 & s1) & E1 & H). apply rbind_ok in H as ((w1 & t1) & G1 & H). injection H as ? ? ?. subst v1 w1 t1.
  apply rbind_ok in G1 as ((v2 & s2) & E2 & H). apply rbind_ok in H as ((w2 & t2) & G2 & H). injection H as ? ? ?. subst v2 w2 t2.
  apply rbind_ok in G2 as ((v3 & s3) & E3 & H). apply rbind_ok in H as ((w3 & t3) & G3 & H). injection H as ? ? ?. subst v3 w3 t3.
  apply rbind_ok in G3 as ((v4 & s4) & E4 & H). apply rbind_ok in H as ((w4 & t4) & G4 & H). injection H as ? ? ?. subst v4 w4 t4.
  cbn [length load_objs].
  cbn [sh_load_item] in E1, E2, E3, E4.
  apply rbind_ok in E1 as ((b1 & q1) & E1 & H). injection H as -> ->.
  apply rbind_ok in E2 as ((b2 & q2) & E2 & H). injection H as -> ->.
  apply rbind_ok in E3 as ((b3 & q3) & E3 & H). injection H as -> ->.
  unfold load_obj, load_u64. rewrite E1. cbn [rbind]. rewrite E2. cbn [rbind]. rewrite E3. cbn [rbind].
  rewrite !le8, !w64_small by (unfold dsmall, small in D3; lia). rewrite Z.eqb_refl. cbn [negb]. rewrite Nat2Z.id.
  replace (S (S (S (4 * j + 1))) - 4) with (j * 4) in E4 by lia. rewrite Nat.div_mul in E4 by lia. rewrite E4. cbn [rbind].
  rewrite concat_sing. change (ins (d :: l) recv) with (ins l (dds_add_obj (d_snd d) (d_rcv d) (d_data d) recv)).
  apply IH with (s' := s'); auto. replace (4 * S j + 1) with (S (S (S (S (4 * j + 1))))) by lia. exact G4.
Qed.

(** One message. *)
Definition readable (rg : Z -> Z) (l : list dtmp) (sr : Z) (b : list Z) : Prop :=
  exists s, sh_from_buffer b false = Ok s /\
  forall sched djunk recv, fair_sched sched -> split_recv sched djunk rg (sr, s) recv = Ok (ins l recv).

Lemma serialize_ok rg max sched junk p : prep_ok rg max p -> Forall d_ok (p_src p) -> (Z.of_nat max + 8 < 2 ^ 32)%Z -> fair_sched sched ->
  exists b, serialize_prep sched junk p = Ok b /\ length b = chunk_total (p_src p) + 8 /\ readable rg (p_src p) (p_snd p) b.
Proof.
  intros (P1 & P2 & P3 & P4) HD HM HS. set (l := p_src p) in *.
  set (fs := fun (_ : nat) n => seq 0 n). assert (FS : fair_sched fs) by (intros k n; apply Permutation_refl).
  assert (HB : (Z.of_nat (items_bytes (chunk_items l) + 8) < 2 ^ 32)%Z) by (rewrite chunk_items_bytes; lia).
  assert (M : forall dj, Forall2 load_matches (chunk_items l) (LScalar 8 :: concat (map (obj_loads dj) l))).
  { intros dj. constructor; [cbn [load_matches]; now rewrite le_bytes_length|apply chunk_matches]. }
  destruct (roundtrip sched fs junk _ _ false HS FS (chunk_items_ok l) (M 0%Z) HB) as (s0 & s1 & b & s2 & s3 & E1 & E2 & E3 & E4 & _).
  rewrite chunk_items_size in E1 by lia. exists b.
  unfold serialize_prep, write_sources. rewrite P1, E1. cbn [rbind]. fold l. fold (chunk_items l). rewrite E2. cbn [rbind]. split; [exact E3|]. split.
  { apply finalize_len in E3. apply write_items_len in E2. apply allocate_len in E1; rewrite chunk_total_eq in *; [lia|lia]. }
  exists s2. split; [exact E4|]. intros sch dj recv HF.
  assert (FS2 : fair_sched (fun k n => sch ((k - 4) / 4) n)) by (intros k n; apply HF).
  destruct (roundtrip sched _ junk _ _ false HS FS2 (chunk_items_ok l) (M dj) HB) as (s0' & s1' & b' & s2' & s3' & E1' & E2' & E3' & E4' & E5').
  rewrite chunk_items_size in E1' by lia. assert (s0' = s0) by congruence. subst s0'. assert (s1' = s1) by congruence. subst s1'. assert (b' = b) by congruence. subst b'.
  assert (s2' = s2) by congruence. subst s2'. clear E1' E2' E3' E4'.
  unfold chunk_items in E5'. cbn [combine map fst snd load_expected] in E5'. rewrite chunk_expected in E5'.
  cbn [sh_load_items] in E5'. apply rbind_ok in E5' as ((v1 & t1) & A1 & H). apply rbind_ok in H as ((w1 & t2) & G1 & H). injection H as -> -> ->.
  cbn [sh_load_item] in A1. apply rbind_ok in A1 as ((b1 & q1) & A1 & H). injection H as -> ->.
  unfold split_recv, load_u64. cbn [fst snd]. rewrite A1. cbn [rbind]. rewrite le8.
  assert (LL : length l <= chunk_total l). { clear. unfold chunk_total, dbytes, obj_bytes. induction l; cbn [map length]; [lia|]. rewrite list_sum_cons. lia. }
  rewrite w64_small by lia. destruct (Z.leb_spec (2 ^ 32) (Z.of_nat (length l))); [lia|]. rewrite Nat2Z.id.
  apply load_objs_ok with (s' := s3'); auto.
  rewrite Forall_forall in P4 |- *. intros d Hd. specialize (P4 d Hd). unfold gkey, pkey in P4. now injection P4.
Qed.
