(** Proofs: round trip of a layer. *)
From Verif Require Import Base Streams Streams_proofs Serialize Serialize_spec Serialize_proofs Layer Layer_spec Layer_proofs Layer_fields Layer_main DDComm_prep DDComm_ser LayerSer LayerSer_spec DDSer_proofs.
From Coq Require Import ZifyBool ZifyNat.
Local Open Scope nat_scope.

Section LS.
Variable tsz : nat -> nat.
Notation fld := (field (list Z)).

Definition fok (f : fld) : Prop := 0 < f_nvar f /\ length (f_buf f) mod f_nvar f = 0 /\ (Z.of_nat (length (f_buf f)) < 2 ^ 32)%Z /\ Forall (fun v => length v = tsz (f_ty f)) (f_buf f).
Definition fcnt (f : fld) : nat := length (f_buf f) / f_nvar f.
Definition fitems (f : fld) : list sitem :=
  if 0 <? fcnt f then [IScalar (le_bytes 4 (Z.of_nat (fcnt f))); IBuf (tsz (f_ty f)) (f_buf f) (length (f_buf f))] else [IScalar (le_bytes 4 (Z.of_nat (fcnt f)))].
Definition floads (dj : nat -> list Z) (f : fld) : list sload :=
  if 0 <? fcnt f then [LScalar 4; LBuf (tsz (f_ty f)) (map dj (seq 0 (length (f_buf f)))) (length (f_buf f))] else [LScalar 4].
Definition fvalues (f : fld) : list (list (list Z)) :=
  if 0 <? fcnt f then [[le_bytes 4 (Z.of_nat (fcnt f))]; f_buf f] else [[le_bytes 4 (Z.of_nat (fcnt f))]].
Definition fbytes (f : fld) : nat := 8 + al8 (length (f_buf f) * tsz (f_ty f)).

Lemma fok_cnt f : fok f -> fcnt f * f_nvar f = length (f_buf f) /\ fcnt f <= length (f_buf f).
Proof.
  intros (H1 & H2 & _). unfold fcnt. pose proof (Nat.div_mod (length (f_buf f)) (f_nvar f) ltac:(lia)). assert (length (f_buf f) / f_nvar f * f_nvar f = length (f_buf f)) by lia. split; auto. nia.
Qed.
Lemma fok_get f : fok f -> get_obj_cnt f = Ok (fcnt f) /\ get_val_cnt f = Ok (length (f_buf f)).
Proof.
  intros H. pose proof (fok_cnt f H) as [C1 C2]. destruct H as (H1 & H2 & H3 & _). unfold get_obj_cnt, get_val_cnt, Layer.narrow_u32. fold (fcnt f). replace (f_nvar f =? 0) with false by lia. rewrite H2. cbn [Nat.eqb negb].
  replace (Z.of_nat (fcnt f) <? 2 ^ 32)%Z with true by lia. replace (Z.of_nat (length (f_buf f)) <? 2 ^ 32)%Z with true by lia. auto.
Qed.
Lemma f_items_ok f : fok f -> f_ser_items tsz f = Ok (fitems f).
Proof. intros H. destruct (fok_get f H) as [E1 E2]. unfold f_ser_items, fitems. rewrite E1. cbn [rbind]. destruct (0 <? fcnt f); [|reflexivity]. rewrite E2. reflexivity. Qed.
Lemma f_items_bytes f : fok f -> items_bytes (fitems f) = fbytes f.
Proof.
  intros H. pose proof (fok_cnt f H) as [C1 C2]. unfold fitems, fbytes. destruct (Nat.ltb_spec 0 (fcnt f)).
  - rewrite !items_bytes_cons. cbn [item_bytes]. rewrite le_bytes_length. change (al8 4) with 8. change (items_bytes []) with 0. lia.
  - rewrite !items_bytes_cons. cbn [item_bytes]. rewrite le_bytes_length. change (al8 4) with 8. change (items_bytes []) with 0. replace (length (f_buf f)) with 0 by nia. reflexivity.
Qed.

Lemma items_bytes_app a b : items_bytes (a ++ b) = items_bytes a + items_bytes b.
Proof. unfold items_bytes. now rewrite map_app, list_sum_app. Qed.
Lemma items_bytes_concat L : Forall fok L -> items_bytes (concat (map fitems L)) = list_sum (map fbytes L).
Proof. induction 1 as [|f L H _ IH]; [reflexivity|]. cbn [map concat]. rewrite items_bytes_app, f_items_bytes, list_sum_cons by auto. lia. Qed.
Lemma items_ok_concat L : Forall fok L -> Forall item_ok (concat (map fitems L)).
Proof.
  induction 1 as [|f L H _ IH]; [constructor|]. cbn [map concat]. apply Forall_app. split; auto. destruct H as (_ & _ & _ & H4). unfold fitems. destruct (0 <? fcnt f); repeat constructor. exact H4.
Qed.

Definition rh (f : fld) : nat := 8.
Definition rc (f : fld) : nat := al8 (length (f_buf f) * tsz (f_ty f)).
Lemma f_size_ok f : fok f -> (Z.of_nat (fbytes f) < 2 ^ 63)%Z -> f_ser_size tsz f = Ok (mkSS 8 (rc f)).
Proof.
  intros H HB. destruct (fok_get f H) as [_ E]. unfold f_ser_size. rewrite E. cbn [rbind]. unfold byte_size_scalar, byte_size_buf, ss_add, rc. cbn [head_size content_size]. change (align_repr 4) with 8.
  unfold fbytes in HB. assert (LE : length (f_buf f) * tsz (f_ty f) <= al8 (length (f_buf f) * tsz (f_ty f))). { unfold al8. pose proof (Nat.div_mod (length (f_buf f) * tsz (f_ty f) + 7) 8 ltac:(lia)). pose proof (Nat.mod_upper_bound (length (f_buf f) * tsz (f_ty f) + 7) 8). lia. }
  rewrite (nw64_small (length (f_buf f) * tsz (f_ty f))) by lia. rewrite (align_repr_al8 (length (f_buf f) * tsz (f_ty f))) by lia. rewrite !nw64_small by lia. reflexivity.
Qed.
Lemma l_size_ok L : Forall fok L -> forall a, (Z.of_nat (head_size a + content_size a + list_sum (map fbytes L)) < 2 ^ 63)%Z ->
  rfold (fun f a => s <- f_ser_size tsz f ;; Ok (ss_add a s)) L a = Ok (mkSS (head_size a + 8 * length L) (content_size a + list_sum (map rc L))).
Proof.
  induction 1 as [|f L H HL IH]; intros [h c] HB; cbn [rfold head_size content_size length map].
  - rewrite Nat.mul_0_r, !Nat.add_0_r. reflexivity.
  - cbn [map] in HB. rewrite list_sum_cons in HB. cbn [head_size content_size] in HB. rewrite f_size_ok by (auto; lia). cbn [rbind]. unfold ss_add. cbn [head_size content_size]. unfold fbytes in HB. fold (rc f) in HB. rewrite !nw64_small by lia.
    rewrite IH by (cbn [head_size content_size]; unfold fbytes at 1; lia). cbn [head_size content_size]. rewrite list_sum_cons. do 2 f_equal; lia.
Qed.
Lemma raw_size L : Forall fok L -> list_sum (map raw_head (concat (map fitems L))) = 8 * length L /\ list_sum (map raw_cont (concat (map fitems L))) = list_sum (map rc L).
Proof.
  induction 1 as [|f L H _ [I1 I2]]; [split; reflexivity|]. cbn [map concat length]. rewrite !map_app, !list_sum_app, I1, I2, list_sum_cons.
  assert (E : list_sum (map raw_head (fitems f)) = 8 /\ list_sum (map raw_cont (fitems f)) = rc f).
  { pose proof (fok_cnt f H) as [C1 C2]. unfold fitems, rc. destruct (Nat.ltb_spec 0 (fcnt f)); cbn [map]; rewrite !list_sum_cons; change (list_sum []) with 0; cbn [raw_head raw_cont use_head].
    - rewrite le_bytes_length. change (al8 4) with 8. lia.
    - rewrite le_bytes_length. change (al8 4) with 8. replace (length (f_buf f)) with 0 by nia. cbn. lia. }
  destruct E as [-> ->]. lia.
Qed.

Lemma l_size_items L : Forall fok L -> (Z.of_nat (8 + list_sum (map fbytes L)) < 2 ^ 32)%Z -> l_ser_size tsz L = Ok (items_size (concat (map fitems L))).
Proof.
  intros H HB. unfold l_ser_size. rewrite l_size_ok by (auto; cbn [head_size content_size]; lia). cbn [head_size content_size]. destruct (items_size_raw (concat (map fitems L))) as (E & _); [rewrite items_bytes_concat by auto; lia|].
  rewrite E. destruct (raw_size L H) as [-> ->]. reflexivity.
Qed.
Lemma l_items_ok L : Forall fok L -> l_ser_items tsz L = Ok (concat (map fitems L)).
Proof.
  intros H. unfold l_ser_items. assert (E : PatchData.rmapm (f_ser_items tsz) L = Ok (map fitems L)); [|now rewrite E].
  induction H as [|f L H _ IH]; [reflexivity|]. cbn [PatchData.rmapm map]. rewrite f_items_ok by auto. cbn [rbind]. now rewrite IH.
Qed.
Lemma l_matches dj L : Forall fok L -> Forall2 load_matches (concat (map fitems L)) (concat (map (floads dj) L)).
Proof.
  induction 1 as [|f L H _ IH]; [constructor|]. cbn [map concat]. apply Forall2_app; auto. unfold fitems, floads. destruct (0 <? fcnt f); repeat constructor; cbn [load_matches]; rewrite ?le_bytes_length, ?map_length, ?seq_length; auto.
Qed.
Lemma l_expected dj L : Forall fok L -> map (fun p => load_expected (fst p) (snd p)) (combine (concat (map fitems L)) (concat (map (floads dj) L))) = concat (map fvalues L).
Proof.
  induction 1 as [|f L H _ IH]; [reflexivity|]. cbn [map concat]. unfold fitems at 1, floads at 1, fvalues at 1. destruct (0 <? fcnt f); cbn [app combine map fst snd load_expected]; rewrite IH; auto.
  do 2 f_equal. rewrite firstn_all2 by auto. rewrite skipn_all2 by (rewrite map_length, seq_length; auto). now rewrite app_nil_r.
Qed.

Lemma le4 x : (0 <= x < 2 ^ 32)%Z -> le_val (le_bytes 4 x) = x.
Proof. intros H. rewrite le_val_bytes. change (256 ^ Z.of_nat 4)%Z with (2 ^ 32)%Z. now rewrite Z.mod_small. Qed.

Lemma l_load_ok sched dj L : Forall fok L -> forall k s s',
  sh_load_items sched k (concat (map (floads dj) L)) s = Ok (concat (map fvalues L), s') ->
  l_load tsz sched dj k (map (fun f => (f_ty f, f_nvar f)) L) s = Ok (L, s').
Proof.
  induction 1 as [|f L H _ IH]; intros k s s' HX; [cbn in HX |- *; now injection HX as ->|].
  pose proof (fok_cnt f H) as [C1 C2]. destruct H as (H1 & H2 & H3 & H4). cbn [map concat l_load] in *. unfold f_load. unfold floads at 1 in HX. unfold fvalues at 1 in HX. cbn [fst snd].
  destruct (Nat.ltb_spec 0 (fcnt f)) as [G|G]; cbn [app sh_load_items] in HX.
  - apply rbind_ok in HX as ((v1 & t1) & A1 & HX). apply rbind_ok in HX as ((w1 & t2) & B1 & HX). injection HX as E1 E2 E3. subst.
    apply rbind_ok in B1 as ((v2 & t3) & A2 & B1). apply rbind_ok in B1 as ((w2 & t4) & B2 & HX). injection HX as E4 E5 E6. subst.
    cbn [sh_load_item] in A1, A2. apply rbind_ok in A1 as ((b1 & q1) & A1 & HX). injection HX as -> ->. rewrite A1. cbn [rbind]. rewrite le4 by lia. rewrite Nat2Z.id.
    replace (0 <? fcnt f) with true by lia.
    assert (W : w32n (fcnt f * f_nvar f) = length (f_buf f)). { unfold w32n. rewrite C1, w32_small by lia. lia. } rewrite W. rewrite A2. cbn [rbind].
    replace (f_nvar f =? 0) with false by lia. cbn [rbind]. rewrite (IH _ _ _ B2). cbn [rbind]. destruct f. reflexivity.
  - apply rbind_ok in HX as ((v1 & t1) & A1 & HX). apply rbind_ok in HX as ((w1 & t2) & B1 & HX). injection HX as E1 E2 E3. subst.
    cbn [sh_load_item] in A1. apply rbind_ok in A1 as ((b1 & q1) & A1 & HX). injection HX as -> ->. rewrite A1. cbn [rbind]. rewrite le4 by lia. rewrite Nat2Z.id.
    replace (0 <? fcnt f) with false by lia. replace (f_nvar f =? 0) with false by lia. cbn [rbind]. rewrite (IH _ _ _ B1). cbn [rbind]. assert (Z0 : length (f_buf f) = 0) by nia.
    destruct f as [ty nv [|x b]]; [reflexivity|cbn in Z0; lia].
Qed.

Lemma layer_roundtrip sched1 junk L : Forall fok L -> fair_sched sched1 -> (Z.of_nat (8 + list_sum (map fbytes L)) < 2 ^ 32)%Z ->
  exists b, l_serialize tsz sched1 junk L = Ok b /\ length b = 8 + list_sum (map fbytes L) /\
    forall sched2 dj, fair_sched sched2 -> l_deserialize tsz sched2 dj (map (fun f => (f_ty f, f_nvar f)) L) b = Ok L.
Proof.
  intros HL HF HB. set (fs := fun (_ : nat) n => seq 0 n). assert (FS : fair_sched fs) by (intros k n; apply Permutation_refl).
  assert (HB' : (Z.of_nat (items_bytes (concat (map fitems L)) + 8) < limit false)%Z). { rewrite items_bytes_concat by auto. unfold limit. lia. }
  destruct (roundtrip sched1 fs junk _ _ false HF FS (items_ok_concat L HL) (l_matches (fun _ => []) L HL) HB') as (s0 & s1 & b & s2 & s3 & E1 & E2 & E3 & E4 & _).
  exists b. unfold l_serialize. rewrite (l_size_items L HL HB). cbn [rbind]. rewrite E1. cbn [rbind]. rewrite (l_items_ok L HL). cbn [rbind]. rewrite E2. cbn [rbind]. split; [exact E3|]. split.
  { apply finalize_len in E3. apply write_items_len in E2. destruct (items_size_raw (concat (map fitems L))) as (ES & EB & _); [rewrite items_bytes_concat by auto; lia|].
    rewrite ES in E1. apply allocate_len in E1; cbn [head_size content_size] in *; rewrite <- EB in *; [|unfold limit in HB'; lia]. rewrite items_bytes_concat in E1 by auto. lia. }
  intros sched2 dj H2. unfold l_deserialize. rewrite E4. cbn [rbind].
  destruct (roundtrip sched1 sched2 junk _ _ false HF H2 (items_ok_concat L HL) (l_matches dj L HL) HB') as (s0' & s1' & b' & s2' & s3' & E1' & E2' & E3' & E4' & E5').
  assert (s0' = s0) by congruence. subst s0'. assert (s1' = s1) by congruence. subst s1'. assert (b' = b) by congruence. subst b'. assert (s2' = s2) by congruence. subst s2'.
  rewrite l_expected in E5' by auto. rewrite (l_load_ok sched2 dj L HL 0 s2 s3' E5'). reflexivity.
Qed.
End LS.

Lemma column_len lay : forall (os : list (object (list Z))) k d, Forall (shaped lay) os -> nth_error lay k = Some d -> length (column k os) = length os * snd d.
Proof.
  intros os k d H Hk. induction H as [|o os Ho _ IH]; [reflexivity|]. unfold column in *. cbn [flat_map length]. rewrite app_length, IH. cbn [Nat.mul]. f_equal.
  unfold shaped in Ho. clear IH. revert k Hk. induction Ho as [|x y l l' E _ IH]; intros [|k] Hk; cbn in *; try discriminate; [congruence|auto].
Qed.
Lemma stores_fok tsz lay os L : stores lay os L -> good_layout lay -> Layer_spec.fits lay (length os) -> typed tsz L ->
  Forall (fok tsz) L /\ 8 + list_sum (map (fbytes tsz) L) = layer_bytes tsz lay (length os) /\ map (fun f => (f_ty f, f_nvar f)) L = lay.
Proof.
  intros [SH EL] [_ GL] [_ FT] TY.
  assert (IN : forall f, In f L -> exists k d, nth_error lay k = Some d /\ f = Field (fst d) (snd d) (column k os)).
  { intros f Hf. rewrite EL in Hf. apply in_map_iff in Hf as ([k [ty nv]] & E & Hk). apply In_nth_error in Hk as (j & Hj). apply DDComm_main.combine_seq_nth in Hj as [-> Hj]. exists j, (ty, nv). split; auto. }
  split; [|split].
  - apply Forall_forall. intros f Hf. destruct (IN f Hf) as (k & d & Hd & E). pose proof (nth_error_In _ _ Hd) as Hin. rewrite Forall_forall in GL, FT. specialize (GL d Hin). specialize (FT d Hin).
    unfold typed in TY. rewrite Forall_forall in TY. specialize (TY f Hf). unfold fok. rewrite E in *. cbn [f_nvar f_buf f_ty] in *. rewrite (column_len lay os k d SH Hd). split; [lia|]. split; [apply Nat.mod_mul; lia|]. split; [lia|exact TY].
  - unfold layer_bytes. f_equal. rewrite EL, map_map. f_equal.
    assert (X : forall n l, (forall i d, nth_error l i = Some d -> nth_error lay (n + i) = Some d) -> map (fun x => fbytes tsz (let '(k, (ty, nv)) := x in Field ty nv (column k os))) (combine (seq n (length l)) l) = map (fun d => 8 + al8 (length os * snd d * tsz (fst d))) l).
    { intros n l. revert n. induction l as [|[ty nv] l IH]; intros n H; [reflexivity|]. cbn [length seq combine map]. f_equal.
      - unfold fbytes. cbn [f_buf f_ty fst snd]. specialize (H 0 (ty, nv) eq_refl). rewrite Nat.add_0_r in H. rewrite (column_len lay os n _ SH H). reflexivity.
      - apply IH. intros i d Hi. specialize (H (S i) d Hi). now rewrite <- plus_n_Sm in H. }
    apply (X 0 lay). auto.
  - rewrite EL, map_map. assert (X : forall n l, map (fun x => (f_ty (let '(k, (ty, nv)) := x in Field ty nv (column k os)), f_nvar (let '(k, (ty, nv)) := x in Field ty nv (column k os)))) (combine (seq n (length l)) l) = l).
    { intros n l. revert n. induction l as [|[ty nv] l IH]; intros n; [reflexivity|]. cbn [length seq combine map f_ty f_nvar]. now rewrite IH. }
    apply X.
Qed.
Lemma stores_roundtrip tsz lay os L sched1 junk : stores lay os L -> good_layout lay -> Layer_spec.fits lay (length os) -> typed tsz L ->
  (Z.of_nat (layer_bytes tsz lay (length os)) < 2 ^ 32)%Z -> fair_sched sched1 ->
  exists b, l_serialize tsz sched1 junk L = Ok b /\ length b = layer_bytes tsz lay (length os) /\
    forall sched2 dj, fair_sched sched2 -> l_deserialize tsz sched2 dj lay b = Ok L.
Proof.
  intros HS HG HF HT HB HSC. destruct (stores_fok tsz lay os L HS HG HF HT) as (F & E & EL). rewrite <- E in HB |- *.
  destruct (layer_roundtrip tsz sched1 junk L F HSC HB) as (b & E1 & E2 & E3). exists b. split; auto. split; auto. rewrite EL in E3. auto.
Qed.
