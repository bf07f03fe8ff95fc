(** Property theorems C03, C04 (see properties.jsonl). *)
From Verif Require Import Base Streams Streams_spec Streams_proofs.
Local Open Scope Z_scope.

(** C03: any sequence of valid records written to a new file and read back from its bytes with
    the matching calls gives the written values and consumes the file exactly. *)
Theorem C03_fortran_roundtrip : forall rs : list fio_rec, Forall rec_valid rs ->
  exists w r, fio_write_all rs (mkStream [] 0) = Ok w /\
    fio_read_all (map rec_shape rs) (fst (fio_open (st_data w))) = Ok (map rec_values rs, r) /\
    fio_finished_read (r, snd (fio_open (st_data w))) = true.
Proof.
  intros rs H. destruct (write_all_read_all rs H) as (b & W & R).
  eexists; eexists. split; [apply W|]. simpl. specialize (R [] []).
  unfold at_stream in R. simpl in R. rewrite !app_nil_r in R. split; [exact R|].
  unfold fio_finished_read; simpl. apply Nat.eqb_refl.
Qed.
Print Assumptions C03_fortran_roundtrip.

(** Reading a record with a call that expects another byte count throws. *)
Theorem C03_wrong_byte_count_throws : forall r sh pre rest w, rec_valid r -> shape_valid sh ->
  rec_bytes r <> shape_bytes sh -> fio_write_rec r (mkStream [] 0) = Ok w ->
  fio_read_rec sh (at_stream pre (st_data w ++ rest)) = Throw.
Proof.
  intros r sh pre rest w Hr Hs Hne Hw. destruct (rec_roundtrip r Hr) as (b & W & _ & (p & -> & Hp)).
  rewrite W in Hw. set (bb := le_bytes 4 (rec_bytes r) ++ _) in Hw.
  assert (Ew : st_data w = bb) by (injection Hw as <-; reflexivity).
  rewrite Ew. unfold bb. rewrite <- app_assoc.
  apply read_wrong_count; auto. destruct Hr as [Hr _]. lia.
Qed.
Print Assumptions C03_wrong_byte_count_throws.

(** A record whose trailing count disagrees with its leading count is rejected. *)
Theorem C03_bad_trailer_throws : forall sh payload c pre rest, shape_valid sh ->
  match sh with SStrs l c => 0 <= l /\ 0 <= c | SArr _ c => 0 <= c | _ => True end ->
  Z.of_nat (length payload) = shape_bytes sh -> 0 <= c < 2 ^ 31 -> c <> shape_bytes sh ->
  fio_read_rec sh (at_stream pre (le_bytes 4 (shape_bytes sh) ++ payload ++ le_bytes 4 c ++ rest)) = Throw.
Proof. intros. apply read_bad_trailer; auto. now rewrite to_i32_small. Qed.
Print Assumptions C03_bad_trailer_throws.

(** write_val_array rejects a count above the number of values. *)
Theorem C03_write_val_array_guard : forall sz vec c s,
  Z.of_nat (length vec) < c -> fio_write_val_array sz vec c s = Throw.
Proof. intros sz vec c s H. unfold fio_write_val_array. apply Z.ltb_lt in H. now rewrite H. Qed.
Print Assumptions C03_write_val_array_guard.

(** Finding: the record length is stored in an i32 and compared, sign extended, to a u64: a record
    of 2 GiB or more is written without error and can never be read back. *)
Theorem C03_records_over_2GiB_refuted : forall args pre rest,
  2 ^ 31 <= Z.of_nat (length (concat args)) < 2 ^ 32 ->
  exists bytes, (forall s, fio_write args s = st_write bytes s) /\
    fio_read (map (@length Z) args) (at_stream pre (bytes ++ rest)) = Throw.
Proof. exact big_record. Qed.
Print Assumptions C03_records_over_2GiB_refuted.

Example C03_nonvacuous :
  let rs := [RVals [[1;2;3;4]; [5]]; RFixed [65;66;67] 2; RStrs [[70;71];[72;73;74]] 2 2; RArr 2 [[8;9];[10;11]] 1] in
  Forall rec_valid rs /\
  (w <- fio_write_all rs (mkStream [] 0) ;;
   '(v, _) <- fio_read_all (map rec_shape rs) (mkStream (st_data w) 0) ;; Ok v)
      = Ok [ [[1;2;3;4];[5]]; [[65;66]]; [[70;71];[72;73]]; [[8;9]] ].
Proof.
  split.
  - repeat (apply Forall_cons); try apply Forall_nil; split; try (cbn; lia); cbn -[Z.le Z.lt].
    + repeat split; try lia; repeat (apply Forall_cons); try apply Forall_nil; cbn; lia.
    + repeat split; try lia; repeat (apply Forall_cons); try apply Forall_nil; reflexivity.
  - vm_compute. reflexivity.
Qed.

(** C04: whatever precedes and follows the record in the stream. *)
Theorem C04_string_roundtrip : forall str pre rest, Z.of_nat (length str) < 2 ^ 64 ->
  exists bytes, (forall s, stream_write_string str s = st_write bytes s) /\
    stream_read_string (at_stream pre (bytes ++ rest)) = Ok (str, at_stream (pre ++ bytes) rest).
Proof. exact string_roundtrip. Qed.
Print Assumptions C04_string_roundtrip.

Theorem C04_vector_trivial_roundtrip : forall sz vec pre rest,
  Forall (fun v => length v = sz) vec ->
  Z.of_nat sz * Z.of_nat (length vec) < 2 ^ 64 -> Z.of_nat (length vec) < 2 ^ 64 ->
  exists bytes, (forall s, stream_write_vector_trivial vec s = st_write bytes s) /\
    stream_read_vector_trivial sz (at_stream pre (bytes ++ rest)) = Ok (vec, at_stream (pre ++ bytes) rest).
Proof. exact trivial_roundtrip. Qed.
Print Assumptions C04_vector_trivial_roundtrip.

(** For every element type whose own serialize/deserialize pair is a round trip. *)
Theorem C04_vector_roundtrip : forall (T : Type) ser deser (vec old : list T) pre rest,
  codec ser deser -> Z.of_nat (length vec) < 2 ^ 64 ->
  exists bytes, (forall s, stream_write_vector ser vec s = st_write bytes s) /\
    stream_read_vector deser old (at_stream pre (bytes ++ rest)) = Ok (old ++ vec, at_stream (pre ++ bytes) rest).
Proof. exact @vector_roundtrip. Qed.
Print Assumptions C04_vector_roundtrip.

(** A record not starting with the flag is rejected. *)
Theorem C04_bad_flag_throws : forall (T : Type) (deser : stream -> res (T * stream)) old sz flag pre rest,
  0 <= flag < 2 ^ 32 -> flag <> VECTOR_flag ->
  stream_read_vector deser old (at_stream pre (le_bytes 4 flag ++ rest)) = Throw /\
  stream_read_vector_trivial sz (at_stream pre (le_bytes 4 flag ++ rest)) = Throw.
Proof.
  intros T deser old sz flag pre rest H Hne.
  unfold stream_read_vector, stream_read_vector_trivial. rewrite read_u32_at. cbn [rbind].
  rewrite w32_small by auto. apply Z.eqb_neq in Hne. rewrite Hne. split; reflexivity.
Qed.
Print Assumptions C04_bad_flag_throws.

(** Strings (length prefixed) are themselves such a codec, so vectors of strings round-trip. *)
Example C04_nonvacuous :
  codec (T := {l : list Z | Z.of_nat (length l) < 2 ^ 64})
    (fun v => stream_write_string (proj1_sig v))
    (fun s => match stream_read_string s with
              | Ok (l, s') => match Z_lt_dec (Z.of_nat (length l)) (2 ^ 64) with
                              | left H => Ok (exist _ l H, s') | right _ => UB end
              | Throw => Throw | UB => UB end).
Proof.
  intros [str H]. pose (b := le_bytes 8 (Z.of_nat (length str)) ++ str). exists b. split.
  - intros s. unfold stream_write_string, stream_write_u64, stream_write. simpl proj1_sig.
    now rewrite st_write_app.
  - intros pre rest. unfold b, stream_read_string. rewrite <- app_assoc, read_u64_at. cbn [rbind].
    rewrite w64_small by lia. rewrite Nat2Z.id. rewrite st_read_at by auto.
    destruct (Z_lt_dec (Z.of_nat (length str)) (2 ^ 64)); [|contradiction].
    rewrite <- app_assoc. assert (E : l = H) by (apply Eqdep_dec.UIP_dec; decide equality).
    rewrite E. reflexivity.
Qed.
