(** Proofs about Streams.v *)
From Verif Require Import Base Streams Streams_spec.
From Coq Require Import ZifyBool ZifyNat.
Local Open Scope Z_scope.

Lemma le_bytes_length n v : length (le_bytes n v) = n.
Proof. revert v; induction n; intros; simpl; auto. Qed.
Lemma le_val_bytes n v : le_val (le_bytes n v) = v mod 256 ^ Z.of_nat n.
Proof.
  revert v; induction n as [|n IH]; intros v; [simpl; now rewrite Z.mod_1_r|].
  cbn [le_bytes le_val]. rewrite IH. rewrite Nat2Z.inj_succ, Z.pow_succ_r by lia.
  rewrite Z.rem_mul_r by lia. lia.
Qed.
Lemma le4 v : le_val (le_bytes 4 v) = w32 v.
Proof. rewrite le_val_bytes. reflexivity. Qed.
Lemma le8 v : le_val (le_bytes 8 v) = w64 v.
Proof. rewrite le_val_bytes. reflexivity. Qed.
Lemma w32_small v : 0 <= v < 2 ^ 32 -> w32 v = v.
Proof. intros; unfold w32, wrapZ; now apply Z.mod_small. Qed.
Lemma w64_small v : 0 <= v < 2 ^ 64 -> w64 v = v.
Proof. intros; unfold w64, wrapZ; now apply Z.mod_small. Qed.
Lemma w32_idem v : w32 (w32 v) = w32 v.
Proof. unfold w32, wrapZ. now rewrite Z.mod_mod by lia. Qed.
Lemma to_i32_w32 v : to_i32 (w32 v) = to_i32 v.
Proof. unfold to_i32. now rewrite w32_idem. Qed.
Lemma w32_to_i32 v : w32 (to_i32 v) = w32 v.
Proof. unfold to_i32. destruct (_ <? _); [apply w32_idem|].
  unfold w32, wrapZ. rewrite Zminus_mod, Z_mod_same_full, Z.sub_0_r, !Z.mod_mod by lia. auto. Qed.
Lemma to_i32_small v : 0 <= v < 2 ^ 31 -> to_i32 v = v.
Proof. intros. unfold to_i32. rewrite w32_small by lia. replace (v <? 2 ^ 31) with true by lia. auto. Qed.

Lemma st_read_at pre b rest n : n = length b ->
  st_read n (at_stream pre (b ++ rest)) = Ok (b, at_stream (pre ++ b) rest).
Proof.
  intros ->. unfold st_read, at_stream; simpl. rewrite !app_length.
  replace (_ <=? _)%nat with true by lia.
  rewrite skipn_app, skipn_all, Nat.sub_diag. simpl.
  rewrite firstn_app, firstn_all, Nat.sub_diag. simpl. rewrite app_nil_r, <- app_assoc. reflexivity.
Qed.
Lemma read_u32_at pre v rest :
  stream_read_u32 (at_stream pre (le_bytes 4 v ++ rest)) = Ok (w32 v, at_stream (pre ++ le_bytes 4 v) rest).
Proof. unfold stream_read_u32, stream_read. rewrite st_read_at by (now rewrite le_bytes_length).
  cbn [rbind]. now rewrite le4. Qed.
Lemma read_u64_at pre v rest :
  stream_read_u64 (at_stream pre (le_bytes 8 v ++ rest)) = Ok (w64 v, at_stream (pre ++ le_bytes 8 v) rest).
Proof. unfold stream_read_u64, stream_read. rewrite st_read_at by (now rewrite le_bytes_length).
  cbn [rbind]. now rewrite le8. Qed.
Lemma read_i32_at pre v rest :
  read_fortran_4byte (at_stream pre (le_bytes 4 v ++ rest)) = Ok (to_i32 v, at_stream (pre ++ le_bytes 4 v) rest).
Proof. unfold read_fortran_4byte. rewrite read_u32_at. cbn [rbind]. now rewrite to_i32_w32. Qed.
Lemma check_at pre v rest c :
  check_fortran_4byte c (at_stream pre (le_bytes 4 v ++ rest)) =
  if to_i32 v =? c then Ok (at_stream (pre ++ le_bytes 4 v) rest) else Throw.
Proof. unfold check_fortran_4byte. rewrite read_i32_at. cbn [rbind]. destruct (to_i32 v =? c); auto. Qed.

Lemma st_write_app a b s : st_write b (st_write a s) = st_write (a ++ b) s.
Proof. unfold st_write; simpl. now rewrite app_assoc. Qed.
Lemma st_write_nil s : st_write [] s = s.
Proof. destruct s; unfold st_write; simpl. now rewrite app_nil_r. Qed.

(* ---------------- bytestream ---------------- *)
Lemma string_roundtrip str pre rest : Z.of_nat (length str) < 2 ^ 64 ->
  exists bytes, (forall s, stream_write_string str s = st_write bytes s) /\
    stream_read_string (at_stream pre (bytes ++ rest)) = Ok (str, at_stream (pre ++ bytes) rest).
Proof.
  intros H. exists (le_bytes 8 (Z.of_nat (length str)) ++ str). split.
  - intros s. unfold stream_write_string, stream_write_u64, stream_write. now rewrite st_write_app.
  - unfold stream_read_string. rewrite <- app_assoc, read_u64_at. cbn [rbind].
    rewrite w64_small by lia. rewrite Nat2Z.id. rewrite st_read_at by auto. now rewrite app_assoc.
Qed.

Lemma chunks_concat sz vec : Forall (fun v => length v = sz) vec ->
  chunks sz (length vec) (concat vec) = vec.
Proof. induction 1 as [|v t Hv HF IH]; simpl; auto. subst sz.
  rewrite firstn_app, firstn_all, Nat.sub_diag, skipn_app, skipn_all, Nat.sub_diag. simpl.
  now rewrite app_nil_r, IH. Qed.
Lemma length_concat sz (vec : list (list Z)) : Forall (fun v => length v = sz) vec ->
  length (concat vec) = (sz * length vec)%nat.
Proof. induction 1; simpl; rewrite ?app_length; lia. Qed.

Lemma trivial_roundtrip sz vec pre rest : Forall (fun v => length v = sz) vec ->
  Z.of_nat sz * Z.of_nat (length vec) < 2 ^ 64 -> Z.of_nat (length vec) < 2 ^ 64 ->
  exists bytes, (forall s, stream_write_vector_trivial vec s = st_write bytes s) /\
    stream_read_vector_trivial sz (at_stream pre (bytes ++ rest)) = Ok (vec, at_stream (pre ++ bytes) rest).
Proof.
  intros HF Hb Hl. exists (le_bytes 4 VECTOR_flag ++ le_bytes 8 (Z.of_nat (length vec)) ++ concat vec). split.
  - intros s. unfold stream_write_vector_trivial, stream_write_u32, stream_write_u64, stream_write.
    now rewrite !st_write_app, <- ?app_assoc.
  - unfold stream_read_vector_trivial. rewrite <- app_assoc, read_u32_at. cbn [rbind].
    rewrite (w32_small VECTOR_flag) by (unfold VECTOR_flag; lia). rewrite Z.eqb_refl. cbn [negb].
    rewrite <- app_assoc, read_u64_at. cbn [rbind].
    rewrite (w64_small (Z.of_nat (length vec))) by lia. rewrite w64_small by lia.
    rewrite st_read_at by (rewrite (length_concat sz) by auto; lia). cbn [rbind].
    rewrite Nat2Z.id, chunks_concat by auto. now rewrite <- !app_assoc.
Qed.

(** A (serialize, deserialize) pair of members that is itself a round trip. *)
Definition codec {T} (ser : T -> stream -> stream) (deser : stream -> res (T * stream)) : Prop :=
  forall v, exists bytes, (forall s, ser v s = st_write bytes s) /\
    forall pre rest, deser (at_stream pre (bytes ++ rest)) = Ok (v, at_stream (pre ++ bytes) rest).

Lemma vector_roundtrip {T} ser deser (vec old : list T) pre rest : codec ser deser ->
  Z.of_nat (length vec) < 2 ^ 64 ->
  exists bytes, (forall s, stream_write_vector ser vec s = st_write bytes s) /\
    stream_read_vector deser old (at_stream pre (bytes ++ rest)) = Ok (old ++ vec, at_stream (pre ++ bytes) rest).
Proof.
  intros HC HL.
  assert (G : forall vec : list T, exists bytes, (forall s, fold_left (fun s v => ser v s) vec s = st_write bytes s) /\
     forall pre rest old, read_items deser (length vec) old (at_stream pre (bytes ++ rest))
       = Ok (old ++ vec, at_stream (pre ++ bytes) rest)).
  { clear -HC. intros vec0. induction vec0 as [|v t IH]; simpl.
    - exists []. split; [intros; now rewrite st_write_nil|]. intros. simpl. now rewrite !app_nil_r.
    - destruct (HC v) as (b1 & W1 & R1). destruct IH as (b2 & W2 & R2).
      exists (b1 ++ b2). split.
      + intros s. now rewrite W2, W1, st_write_app.
      + intros. rewrite <- app_assoc, R1. cbn [rbind]. rewrite R2. now rewrite <- !app_assoc. }
  destruct (G vec) as (b & W & R).
  exists (le_bytes 4 VECTOR_flag ++ le_bytes 8 (Z.of_nat (length vec)) ++ b). split.
  - intros s. unfold stream_write_vector. rewrite W. unfold stream_write_u32, stream_write_u64, stream_write.
    now rewrite !st_write_app, <- ?app_assoc.
  - unfold stream_read_vector. rewrite <- app_assoc, read_u32_at. cbn [rbind].
    rewrite (w32_small VECTOR_flag) by (unfold VECTOR_flag; lia). rewrite Z.eqb_refl. cbn [negb].
    rewrite <- app_assoc, read_u64_at. cbn [rbind]. rewrite w64_small by lia. rewrite Nat2Z.id, R.
    now rewrite <- !app_assoc.
Qed.

(* ---------------- Fortran ---------------- *)
Lemma read_args_at args : forall pre rest,
  read_args (map (@length Z) args) (at_stream pre (concat args ++ rest))
  = Ok (args, at_stream (pre ++ concat args) rest).
Proof. induction args as [|a t IH]; intros; simpl.
  - now rewrite app_nil_r.
  - unfold stream_read. rewrite <- app_assoc, st_read_at by auto. cbn [rbind]. rewrite IH. cbn [rbind].
    now rewrite <- app_assoc. Qed.
Lemma fold_write args s : fold_left (fun s a => stream_write a s) args s = st_write (concat args) s.
Proof. revert s; induction args as [|a t IH]; intros; simpl; [now rewrite st_write_nil|].
  unfold stream_write at 2. now rewrite IH, st_write_app. Qed.
Lemma sum_map_length (args : list (list Z)) : list_sum (map (@length Z) args) = length (concat args).
Proof. induction args; simpl; rewrite ?app_length; auto. Qed.

Lemma firstn_S_nth {A} (l : list A) n d : (n < length l)%nat -> firstn (S n) l = firstn n l ++ [nth n l d].
Proof. revert n; induction l as [|a t IH]; intros [|n] H; simpl in *; try lia; auto.
  rewrite (IH n) by lia. reflexivity. Qed.
Lemma concat_app' {A} (l1 l2 : list (list A)) : concat (l1 ++ l2) = concat l1 ++ concat l2.
Proof. apply concat_app. Qed.

Lemma rfold_write {X} (f : X -> res (list Z)) (g : X -> list Z) (vec : list X) n s :
  (n <= length vec)%nat -> Forall (fun x => f x = Ok (g x)) (firstn n vec) ->
  rfold (fun i s => x <- aget vec i ;; b <- f x ;; Ok (st_write b s)) (seq 0 n) s
  = Ok (st_write (concat (map g (firstn n vec))) s).
Proof.
  revert s. induction n as [|n IH]; intros s Hn HF; [simpl; now rewrite st_write_nil|].
  rewrite seq_S. rewrite rfold_app. cbn [Nat.add].
  destruct vec as [|d vt] eqn:Ev; [simpl in Hn; lia|]. rewrite <- Ev in *.
  rewrite (firstn_S_nth vec n d) in HF |- * by lia.
  apply Forall_app in HF as [HF1 HF2]. rewrite IH by (auto; lia). cbn [rbind rfold].
  rewrite (aget_lt vec n d) by lia. cbn [rbind]. inversion HF2 as [|? ? E _]; subst x l.
  rewrite E. cbn [rbind]. rewrite st_write_app, map_app, concat_app. simpl. now rewrite app_nil_r.
Qed.

Lemma cstr_prefix_ok str len : (len <= length str)%nat -> cstr_prefix str len = Ok (firstn len str).
Proof. intros H. unfold cstr_prefix. replace (_ <=? _)%nat with true by lia.
  rewrite firstn_app. replace (len - length str)%nat with 0%nat by lia. simpl. now rewrite app_nil_r. Qed.

Lemma map_length_repeat {A} (l : list (list A)) sz :
  Forall (fun v => length v = sz) l -> map (@length A) l = repeat sz (length l).
Proof. induction 1; simpl; congruence. Qed.

Lemma rec_roundtrip r : rec_valid r ->
  exists bytes, (forall s, fio_write_rec r s = Ok (st_write bytes s)) /\
   (forall pre rest, fio_read_rec (rec_shape r) (at_stream pre (bytes ++ rest))
     = Ok (rec_values r, at_stream (pre ++ bytes) rest)) /\
   (exists payload, bytes = le_bytes 4 (rec_bytes r) ++ payload ++ le_bytes 4 (rec_bytes r) /\
      Z.of_nat (length payload) = rec_bytes r).
Proof.
  intros [Hb Hv]. destruct r as [args|str len|svec l c|sz vec c]; simpl in *.
  - exists (le_bytes 4 (Z.of_nat (length (concat args))) ++ concat args ++ le_bytes 4 (Z.of_nat (length (concat args)))).
    split; [|split].
    + intros s. unfold fio_write, stream_write_u32, stream_write. cbv zeta.
      rewrite (fold_write args). now rewrite !st_write_app, <- ?app_assoc.
    + intros. unfold fio_read. rewrite <- app_assoc, read_i32_at. cbn [rbind].
      rewrite to_i32_small by lia. rewrite sum_map_length, Z.eqb_refl. cbn [negb].
      rewrite <- app_assoc, read_args_at. cbn [rbind]. rewrite check_at, to_i32_small by lia.
      rewrite Z.eqb_refl. cbn [rbind]. now rewrite <- !app_assoc.
    + exists (concat args); split; auto.
  - set (b := firstn (Z.to_nat len) str).
    assert (Lb : length b = Z.to_nat len) by (unfold b; rewrite firstn_length; lia).
    exists (le_bytes 4 len ++ b ++ le_bytes 4 len). split; [|split].
    + intros s. unfold fio_write_fixed_string. rewrite cstr_prefix_ok by lia. cbn [rbind].
      unfold stream_write_u32, stream_write. now rewrite !st_write_app, <- ?app_assoc.
    + intros. unfold fio_read_fixed_string. rewrite <- app_assoc, read_i32_at. cbn [rbind].
      rewrite w32_to_i32, w32_small by lia. rewrite Z.eqb_refl. cbn [negb].
      rewrite <- app_assoc, st_read_at by auto. cbn [rbind]. rewrite check_at, Z.eqb_refl. cbn [rbind].
      now rewrite <- !app_assoc.
    + exists b; split; auto; lia.
  - destruct Hv as (Hl & Hc & HF). set (vs := map (firstn (Z.to_nat l)) (firstn (Z.to_nat c) svec)).
    assert (Lv : length vs = Z.to_nat c) by (unfold vs; rewrite map_length, firstn_length; lia).
    assert (Fv : Forall (fun v => length v = Z.to_nat l) vs).
    { unfold vs. apply Forall_forall. intros x Hx. apply in_map_iff in Hx as (y & <- & Hy).
      rewrite Forall_forall in HF. specialize (HF y Hy). rewrite firstn_length. lia. }
    assert (H0 : 0 <= l * c) by nia.
    exists (le_bytes 4 (l * c) ++ concat vs ++ le_bytes 4 (l * c)). split; [|split].
    + intros s. unfold fio_write_string_array. rewrite w32_small by lia.
      rewrite (rfold_write (fun str => cstr_prefix str (Z.to_nat l)) (firstn (Z.to_nat l))).
      * cbn [rbind]. unfold stream_write_u32, stream_write. now rewrite !st_write_app, <- ?app_assoc.
      * lia.
      * eapply Forall_impl; [|exact HF]. intros x Hx. simpl in Hx. apply cstr_prefix_ok. lia.
    + intros. unfold fio_read_string_array. rewrite <- app_assoc, read_i32_at. cbn [rbind].
      rewrite to_i32_small by lia. rewrite w64_small, w32_small by lia. rewrite Z.eqb_refl. cbn [negb].
      rewrite <- Lv, <- (map_length_repeat vs) by auto.
      rewrite <- app_assoc, read_args_at. cbn [rbind]. rewrite check_at, to_i32_small by lia.
      rewrite Z.eqb_refl. cbn [rbind]. now rewrite <- !app_assoc.
    + exists (concat vs); split; auto. rewrite (length_concat (Z.to_nat l)) by auto. nia.
  - destruct Hv as (Hc & HF). set (vs := firstn (Z.to_nat c) vec).
    assert (Lv : length vs = Z.to_nat c) by (unfold vs; rewrite firstn_length; lia).
    assert (Fv : Forall (fun v => length v = sz) vs).
    { unfold vs. rewrite Forall_forall in *. intros x Hx. apply HF.
      revert Hx. clear. generalize (Z.to_nat c). intros n. revert n.
      induction vec as [|a t IH]; intros [|n]; simpl; try tauto. intros [|]; eauto. }
    assert (H0 : 0 <= Z.of_nat sz * c) by nia.
    exists (le_bytes 4 (Z.of_nat sz * c) ++ concat vs ++ le_bytes 4 (Z.of_nat sz * c)). split; [|split].
    + intros s. unfold fio_write_val_array. replace (_ <? c) with false by lia. rewrite w64_small by lia.
      pose proof (rfold_write (fun v => Ok v) (fun v => v) vec (Z.to_nat c)
        (stream_write_u32 (Z.of_nat sz * c) s)) as HR.
      cbn [rbind] in HR. unfold stream_write at 1. rewrite HR by (try lia; apply Forall_forall; auto).
      cbn [rbind]. rewrite map_id. unfold stream_write_u32, stream_write. now rewrite !st_write_app, <- ?app_assoc.
    + intros. unfold fio_read_val_array. rewrite <- app_assoc, read_i32_at. cbn [rbind].
      rewrite to_i32_small by lia. rewrite Z.eqb_refl. cbn [negb].
      rewrite <- Lv, <- (map_length_repeat vs) by auto.
      rewrite <- app_assoc, read_args_at. cbn [rbind]. rewrite check_at, to_i32_small by lia.
      rewrite Z.eqb_refl. cbn [rbind]. now rewrite <- !app_assoc.
    + exists (concat vs); split; auto. rewrite (length_concat sz) by auto. nia.
Qed.

Lemma write_all_read_all rs : Forall rec_valid rs ->
  exists bytes, (forall s, fio_write_all rs s = Ok (st_write bytes s)) /\
    forall pre rest, fio_read_all (map rec_shape rs) (at_stream pre (bytes ++ rest))
      = Ok (map rec_values rs, at_stream (pre ++ bytes) rest).
Proof.
  induction 1 as [|r t Hr HF IH]; simpl.
  - exists []. split; [intros; now rewrite st_write_nil|]. intros; simpl. now rewrite app_nil_r.
  - destruct (rec_roundtrip r Hr) as (b1 & W1 & R1 & _). destruct IH as (b2 & W2 & R2).
    exists (b1 ++ b2). split.
    + intros s. rewrite W1. cbn [rbind]. now rewrite W2, st_write_app.
    + intros. rewrite <- app_assoc, R1. cbn [rbind]. rewrite R2. cbn [rbind]. now rewrite <- app_assoc.
Qed.

Lemma read_wrong_count sh b pre rest : shape_valid sh -> 0 <= b < 2 ^ 31 -> b <> shape_bytes sh ->
  fio_read_rec sh (at_stream pre (le_bytes 4 b ++ rest)) = Throw.
Proof.
  intros Hs Hb Hne. destruct sh as [sizes|len|l c|sz c]; unfold shape_valid in Hs; cbn [shape_bytes] in *; unfold fio_read_rec.
  - unfold fio_read. rewrite read_i32_at. cbn [rbind]. rewrite to_i32_small by lia.
    rewrite !w64_small by lia. replace (b =? _) with false by lia. reflexivity.
  - unfold fio_read_fixed_string. rewrite read_i32_at. cbn [rbind].
    rewrite w32_to_i32, w32_small by lia. replace (b =? _) with false by lia. reflexivity.
  - unfold fio_read_string_array. rewrite read_i32_at. cbn [rbind]. rewrite to_i32_small by lia.
    rewrite w64_small, w32_small by lia. replace (b =? _) with false by lia. reflexivity.
  - unfold fio_read_val_array. rewrite read_i32_at. cbn [rbind]. rewrite to_i32_small by lia.
    rewrite !w64_small by lia. replace (b =? _) with false by lia. reflexivity.
Qed.

Lemma read_args_total sizes : forall payload pre rest, list_sum sizes = length payload ->
  exists args, read_args sizes (at_stream pre (payload ++ rest)) = Ok (args, at_stream (pre ++ payload) rest).
Proof.
  induction sizes as [|n t IH]; intros payload pre rest H; simpl in *.
  - destruct payload; [|simpl in H; lia]. exists []. simpl. now rewrite app_nil_r.
  - rewrite <- (firstn_skipn n payload). rewrite <- app_assoc. unfold stream_read.
    assert (L : n = length (firstn n payload)) by (rewrite firstn_length; lia).
    rewrite st_read_at by auto. cbn [rbind].
    destruct (IH (skipn n payload) (pre ++ firstn n payload) rest) as (args & E).
    { rewrite skipn_length. lia. }
    rewrite E. cbn [rbind]. eexists. rewrite <- app_assoc. reflexivity.
Qed.

Lemma list_sum_repeat n k : list_sum (repeat n k) = (n * k)%nat.
Proof. induction k; simpl; lia. Qed.

Lemma read_bad_trailer sh payload c pre rest : shape_valid sh ->
  match sh with SStrs l c => 0 <= l /\ 0 <= c | SArr _ c => 0 <= c | _ => True end ->
  Z.of_nat (length payload) = shape_bytes sh -> to_i32 c <> shape_bytes sh ->
  fio_read_rec sh (at_stream pre (le_bytes 4 (shape_bytes sh) ++ payload ++ le_bytes 4 c ++ rest)) = Throw.
Proof.
  intros Hs Hn Hp Hc.
  destruct sh as [sizes|len|l n|sz n]; unfold shape_valid in Hs; cbn [shape_bytes] in *; unfold fio_read_rec.
  - unfold fio_read. rewrite read_i32_at. cbn [rbind]. rewrite to_i32_small by lia.
    rewrite Z.eqb_refl. cbn [negb].
    destruct (read_args_total sizes payload (pre ++ le_bytes 4 (Z.of_nat (list_sum sizes))) (le_bytes 4 c ++ rest)) as (a & E); [lia|].
    rewrite E. cbn [rbind]. rewrite check_at. replace (_ =? _) with false by lia. reflexivity.
  - unfold fio_read_fixed_string. rewrite read_i32_at. cbn [rbind].
    rewrite w32_to_i32, w32_small by lia. rewrite Z.eqb_refl. cbn [negb].
    rewrite st_read_at by lia. cbn [rbind]. rewrite check_at, (to_i32_small len) by lia.
    replace (_ =? _) with false by lia. reflexivity.
  - unfold fio_read_string_array. rewrite read_i32_at. cbn [rbind]. rewrite to_i32_small by lia.
    rewrite w64_small, w32_small by lia. rewrite Z.eqb_refl. cbn [negb].
    destruct (read_args_total (repeat (Z.to_nat l) (Z.to_nat n)) payload (pre ++ le_bytes 4 (l * n)) (le_bytes 4 c ++ rest)) as (a & E).
    { rewrite list_sum_repeat. nia. }
    rewrite E. cbn [rbind]. rewrite check_at. replace (_ =? _) with false by lia. reflexivity.
  - unfold fio_read_val_array. rewrite read_i32_at. cbn [rbind]. rewrite to_i32_small by lia.
    rewrite Z.eqb_refl. cbn [negb].
    destruct (read_args_total (repeat sz (Z.to_nat n)) payload (pre ++ le_bytes 4 (Z.of_nat sz * n)) (le_bytes 4 c ++ rest)) as (a & E).
    { rewrite list_sum_repeat. nia. }
    rewrite E. cbn [rbind]. rewrite check_at. replace (_ =? _) with false by lia. reflexivity.
Qed.

Lemma big_record args pre rest : 2 ^ 31 <= Z.of_nat (length (concat args)) < 2 ^ 32 ->
  exists bytes, (forall s, fio_write args s = st_write bytes s) /\
    fio_read (map (@length Z) args) (at_stream pre (bytes ++ rest)) = Throw.
Proof.
  intros H.
  exists (le_bytes 4 (Z.of_nat (length (concat args))) ++ concat args ++ le_bytes 4 (Z.of_nat (length (concat args)))).
  split.
  - intros s. unfold fio_write, stream_write_u32, stream_write. cbv zeta.
    rewrite (fold_write args). now rewrite !st_write_app, <- ?app_assoc.
  - unfold fio_read. rewrite <- app_assoc, read_i32_at. cbn [rbind]. rewrite sum_map_length.
    set (n := Z.of_nat _) in *. unfold to_i32. rewrite w32_small by lia.
    replace (n <? 2 ^ 31) with false by lia. rewrite (w64_small n) by lia.
    replace (w64 (n - 2 ^ 32)) with (n - 2 ^ 32 + 2 ^ 64).
    + replace (_ =? _) with false by lia. reflexivity.
    + unfold w64, wrapZ. rewrite <- (Z.mod_small (n - 2 ^ 32 + 2 ^ 64) (2 ^ 64)) by lia.
      rewrite Z.add_mod, Z_mod_same_full, Z.add_0_r, Z.mod_mod by lia. reflexivity.
Qed.
