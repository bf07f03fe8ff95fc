(** Storing a collection in a device buffer and loading it back. *)
Require Import Reals List Lia.
From Verif Require Import Fmm_tensors Fmm_ops Fmm_spec.
Import ListNotations.
Local Open Scope R_scope.

Lemma upd_ext : forall a b i v, (forall j, a j = b j) -> forall j, upd a i v j = upd b i v j.
Proof. intros a b i v H j. unfold upd. destruct (Nat.eqb j i); auto. Qed.
Lemma assigns_ext : forall l a b off, (forall j, a j = b j) ->
  forall j, assigns a off l j = assigns b off l j.
Proof.
  unfold assigns. induction l as [|kv l IH]; intros a b off H j; cbn [fold_left]; [apply H|].
  apply IH. apply upd_ext. exact H.
Qed.
Lemma assigns_shift : forall l acc off o k,
  assigns acc (off + o) l (off + k)%nat = assigns (fun j => acc (off + j)%nat) o l k.
Proof.
  induction l as [|kv l IH]; intros acc off o k; [reflexivity|].
  change (assigns acc (off + o) (kv :: l)) with (assigns (upd acc (off + o + fst kv) (snd kv)) (off + o) l).
  change (assigns (fun j => acc (off + j)%nat) o (kv :: l)) with (assigns (upd (fun j => acc (off + j)%nat) (o + fst kv) (snd kv)) o l).
  rewrite IH. apply assigns_ext. intro j. unfold upd.
  destruct (Nat.eqb_spec j (o + fst kv)), (Nat.eqb_spec (off + j) (off + o + fst kv)); auto; lia.
Qed.
Lemma assigns_frame : forall l acc off j, Forall (fun kv => j <> off + fst kv)%nat l -> assigns acc off l j = acc j.
Proof.
  induction l as [|kv l IH]; intros acc off j H; [reflexivity|].
  inversion H; subst.
  change (assigns acc off (kv :: l)) with (assigns (upd acc (off + fst kv) (snd kv)) off l).
  rewrite IH by assumption. unfold upd. destruct (Nat.eqb_spec j (off + fst kv)); [contradiction|reflexivity].
Qed.

Lemma store1_ext : forall t a b off, (forall j, a j = b j) -> forall j, store1 t a off j = store1 t b off j.
Proof. intros. apply assigns_ext. assumption. Qed.
Lemma store1_shift : forall t acc off o k, store1 t acc (off + o) (off + k)%nat = store1 t (fun j => acc (off + j)%nat) o k.
Proof. intros. apply assigns_shift. Qed.
Lemma store1_frame : forall t acc off j, (j < off \/ off + compo_cnt1 <= j)%nat -> store1 t acc off j = acc j.
Proof. intros t acc off j H. unfold compo_cnt1 in H. apply assigns_frame. repeat (constructor; [cbn [fst]; lia|]); constructor. Qed.
Lemma store2_ext : forall t a b off, (forall j, a j = b j) -> forall j, store2 t a off j = store2 t b off j.
Proof. intros. apply assigns_ext. assumption. Qed.
Lemma store2_shift : forall t acc off o k, store2 t acc (off + o) (off + k)%nat = store2 t (fun j => acc (off + j)%nat) o k.
Proof. intros. apply assigns_shift. Qed.
Lemma store2_frame : forall t acc off j, (j < off \/ off + compo_cnt2 <= j)%nat -> store2 t acc off j = acc j.
Proof. intros t acc off j H. unfold compo_cnt2 in H. apply assigns_frame. repeat (constructor; [cbn [fst]; lia|]); constructor. Qed.
Lemma store3_ext : forall t a b off, (forall j, a j = b j) -> forall j, store3 t a off j = store3 t b off j.
Proof. intros. apply assigns_ext. assumption. Qed.
Lemma store3_shift : forall t acc off o k, store3 t acc (off + o) (off + k)%nat = store3 t (fun j => acc (off + j)%nat) o k.
Proof. intros. apply assigns_shift. Qed.
Lemma store3_frame : forall t acc off j, (j < off \/ off + compo_cnt3 <= j)%nat -> store3 t acc off j = acc j.
Proof. intros t acc off j H. unfold compo_cnt3 in H. apply assigns_frame. repeat (constructor; [cbn [fst]; lia|]); constructor. Qed.
Lemma store4_ext : forall t a b off, (forall j, a j = b j) -> forall j, store4 t a off j = store4 t b off j.
Proof. intros. apply assigns_ext. assumption. Qed.
Lemma store4_shift : forall t acc off o k, store4 t acc (off + o) (off + k)%nat = store4 t (fun j => acc (off + j)%nat) o k.
Proof. intros. apply assigns_shift. Qed.
Lemma store4_frame : forall t acc off j, (j < off \/ off + compo_cnt4 <= j)%nat -> store4 t acc off j = acc j.
Proof. intros t acc off j H. unfold compo_cnt4 in H. apply assigns_frame. repeat (constructor; [cbn [fst]; lia|]); constructor. Qed.
Lemma store5_ext : forall t a b off, (forall j, a j = b j) -> forall j, store5 t a off j = store5 t b off j.
Proof. intros. apply assigns_ext. assumption. Qed.
Lemma store5_shift : forall t acc off o k, store5 t acc (off + o) (off + k)%nat = store5 t (fun j => acc (off + j)%nat) o k.
Proof. intros. apply assigns_shift. Qed.
Lemma store5_frame : forall t acc off j, (j < off \/ off + compo_cnt5 <= j)%nat -> store5 t acc off j = acc j.
Proof. intros t acc off j H. unfold compo_cnt5 in H. apply assigns_frame. repeat (constructor; [cbn [fst]; lia|]); constructor. Qed.
Lemma assigns_get : forall l acc off k, assigns acc off l (off + k)%nat = assigns (fun j => acc (off + j)%nat) 0 l k.
Proof. intros. rewrite <- (assigns_shift l acc off 0 k). rewrite Nat.add_0_r. reflexivity. Qed.
Lemma load1_reads : forall a b off, (forall k, (k < compo_cnt1)%nat -> a (off + k)%nat = b (off + k)%nat) ->
  load1 a off = load1 b off.
Proof.
  intros a b off H. unfold compo_cnt1 in H. unfold load1.
  rewrite (H 0%nat ltac:(lia)), (H 1%nat ltac:(lia)), (H 2%nat ltac:(lia)). reflexivity.
Qed.
Lemma load1_store1 : forall t acc off, load1 (store1 t acc off) off = t.
Proof.
  intros t acc off. unfold load1, store1. rewrite !assigns_get. destruct t. reflexivity.
Qed.
Lemma load2_reads : forall a b off, (forall k, (k < compo_cnt2)%nat -> a (off + k)%nat = b (off + k)%nat) ->
  load2 a off = load2 b off.
Proof.
  intros a b off H. unfold compo_cnt2 in H. unfold load2.
  rewrite (H 0%nat ltac:(lia)), (H 1%nat ltac:(lia)), (H 2%nat ltac:(lia)), (H 3%nat ltac:(lia)), (H 4%nat ltac:(lia)), (H 5%nat ltac:(lia)). reflexivity.
Qed.
Lemma load2_store2 : forall t acc off, load2 (store2 t acc off) off = t.
Proof.
  intros t acc off. unfold load2, store2. rewrite !assigns_get. destruct t. reflexivity.
Qed.
Lemma load3_reads : forall a b off, (forall k, (k < compo_cnt3)%nat -> a (off + k)%nat = b (off + k)%nat) ->
  load3 a off = load3 b off.
Proof.
  intros a b off H. unfold compo_cnt3 in H. unfold load3.
  rewrite (H 0%nat ltac:(lia)), (H 1%nat ltac:(lia)), (H 2%nat ltac:(lia)), (H 3%nat ltac:(lia)), (H 4%nat ltac:(lia)), (H 5%nat ltac:(lia)), (H 6%nat ltac:(lia)), (H 7%nat ltac:(lia)), (H 8%nat ltac:(lia)), (H 9%nat ltac:(lia)). reflexivity.
Qed.
Lemma load3_store3 : forall t acc off, load3 (store3 t acc off) off = t.
Proof.
  intros t acc off. unfold load3, store3. rewrite !assigns_get. destruct t. reflexivity.
Qed.
Lemma load4_reads : forall a b off, (forall k, (k < compo_cnt4)%nat -> a (off + k)%nat = b (off + k)%nat) ->
  load4 a off = load4 b off.
Proof.
  intros a b off H. unfold compo_cnt4 in H. unfold load4.
  rewrite (H 0%nat ltac:(lia)), (H 1%nat ltac:(lia)), (H 2%nat ltac:(lia)), (H 3%nat ltac:(lia)), (H 4%nat ltac:(lia)), (H 5%nat ltac:(lia)), (H 6%nat ltac:(lia)), (H 7%nat ltac:(lia)), (H 8%nat ltac:(lia)), (H 9%nat ltac:(lia)), (H 10%nat ltac:(lia)), (H 11%nat ltac:(lia)), (H 12%nat ltac:(lia)), (H 13%nat ltac:(lia)), (H 14%nat ltac:(lia)). reflexivity.
Qed.
Lemma load4_store4 : forall t acc off, load4 (store4 t acc off) off = t.
Proof.
  intros t acc off. unfold load4, store4. rewrite !assigns_get. destruct t. reflexivity.
Qed.
Lemma load5_reads : forall a b off, (forall k, (k < compo_cnt5)%nat -> a (off + k)%nat = b (off + k)%nat) ->
  load5 a off = load5 b off.
Proof.
  intros a b off H. unfold compo_cnt5 in H. unfold load5.
  rewrite (H 0%nat ltac:(lia)), (H 1%nat ltac:(lia)), (H 2%nat ltac:(lia)), (H 3%nat ltac:(lia)), (H 4%nat ltac:(lia)), (H 5%nat ltac:(lia)), (H 6%nat ltac:(lia)), (H 7%nat ltac:(lia)), (H 8%nat ltac:(lia)), (H 9%nat ltac:(lia)), (H 10%nat ltac:(lia)), (H 11%nat ltac:(lia)), (H 12%nat ltac:(lia)), (H 13%nat ltac:(lia)), (H 14%nat ltac:(lia)), (H 15%nat ltac:(lia)), (H 16%nat ltac:(lia)), (H 17%nat ltac:(lia)), (H 18%nat ltac:(lia)), (H 19%nat ltac:(lia)), (H 20%nat ltac:(lia)). reflexivity.
Qed.
Lemma load5_store5 : forall t acc off, load5 (store5 t acc off) off = t.
Proof.
  intros t acc off. unfold load5, store5. rewrite !assigns_get. destruct t. reflexivity.
Qed.

Lemma store00_frame : forall s acc off j, (j < off \/ off + num_component00 <= j)%nat -> store00 s acc off j = acc j.
Proof.
  intros s acc off j H. unfold store00. cbv zeta.
  apply assigns_frame. constructor; [cbv [num_component00  compo_cnt1 compo_cnt2 compo_cnt3 compo_cnt4 compo_cnt5] in *; cbn [fst]; lia|constructor].
Qed.
Lemma load00_reads : forall a b off, (forall k, (k < num_component00)%nat -> a (off + k)%nat = b (off + k)%nat) ->
  load00 a off = load00 b off.
Proof.
  intros a b off H. unfold load00.
  rewrite (H 0%nat) by (cbv [num_component00  compo_cnt1 compo_cnt2 compo_cnt3 compo_cnt4 compo_cnt5] in *; lia).
  reflexivity.
Qed.
Lemma load00_store00 : forall s acc off, load00 (store00 s acc off) off = s.
Proof.
  intros s acc off. unfold load00, store00. cbv zeta.
  rewrite assigns_get.
  destruct s. reflexivity.
Qed.
Lemma buf00 : forall q acc c c',
  load00 (store00 q acc (c * num_component00)) (c' * num_component00) =
  if Nat.eqb c' c then q else load00 acc (c' * num_component00).
Proof.
  intros q acc c c'. destruct (Nat.eqb_spec c' c) as [->|Hn]; [apply load00_store00|].
  apply load00_reads. intros k Hk. apply store00_frame.
  assert (c' + 1 <= c \/ c + 1 <= c')%nat as [Hc|Hc] by lia; [left|right]; nia.
Qed.

Lemma store01_frame : forall s acc off j, (j < off \/ off + num_component01 <= j)%nat -> store01 s acc off j = acc j.
Proof.
  intros s acc off j H. unfold store01. cbv zeta.
  rewrite store1_frame by (cbv [num_component01 offset01_t0 offset01_t1 compo_cnt1 compo_cnt2 compo_cnt3 compo_cnt4 compo_cnt5] in *; lia).
  apply assigns_frame. constructor; [cbv [num_component01 offset01_t0 offset01_t1 compo_cnt1 compo_cnt2 compo_cnt3 compo_cnt4 compo_cnt5] in *; cbn [fst]; lia|constructor].
Qed.
Lemma load01_reads : forall a b off, (forall k, (k < num_component01)%nat -> a (off + k)%nat = b (off + k)%nat) ->
  load01 a off = load01 b off.
Proof.
  intros a b off H. unfold load01.
  rewrite (H offset01_t0) by (cbv [num_component01 offset01_t0 offset01_t1 compo_cnt1 compo_cnt2 compo_cnt3 compo_cnt4 compo_cnt5] in *; lia).
  rewrite (load1_reads a b (off + offset01_t1)) by (intros k Hk; rewrite <- Nat.add_assoc; apply H; cbv [num_component01 offset01_t0 offset01_t1 compo_cnt1 compo_cnt2 compo_cnt3 compo_cnt4 compo_cnt5] in *; lia).
  reflexivity.
Qed.
Lemma load01_store01 : forall s acc off, load01 (store01 s acc off) off = s.
Proof.
  intros s acc off. unfold load01, store01. cbv zeta.
  rewrite store1_frame by (cbv [num_component01 offset01_t0 offset01_t1 compo_cnt1 compo_cnt2 compo_cnt3 compo_cnt4 compo_cnt5] in *; lia).
  rewrite assigns_get.
  match goal with |- context [load1 ?a ?f] =>
    rewrite (load1_reads a (store1 (c01_t1 s) (fun j => 0) f) f); [rewrite load1_store1|] end.
  2:{ intros k Hk. unfold compo_cnt1 in Hk.
      unfold store1. rewrite !assigns_get. do 3 (destruct k as [|k]; [reflexivity|]). exfalso; lia. }
  destruct s. reflexivity.
Qed.
Lemma buf01 : forall q acc c c',
  load01 (store01 q acc (c * num_component01)) (c' * num_component01) =
  if Nat.eqb c' c then q else load01 acc (c' * num_component01).
Proof.
  intros q acc c c'. destruct (Nat.eqb_spec c' c) as [->|Hn]; [apply load01_store01|].
  apply load01_reads. intros k Hk. apply store01_frame.
  assert (c' + 1 <= c \/ c + 1 <= c')%nat as [Hc|Hc] by lia; [left|right]; nia.
Qed.

Lemma store02_frame : forall s acc off j, (j < off \/ off + num_component02 <= j)%nat -> store02 s acc off j = acc j.
Proof.
  intros s acc off j H. unfold store02. cbv zeta.
  rewrite store2_frame by (cbv [num_component02 offset02_t0 offset02_t1 offset02_t2 compo_cnt1 compo_cnt2 compo_cnt3 compo_cnt4 compo_cnt5] in *; lia).
  rewrite store1_frame by (cbv [num_component02 offset02_t0 offset02_t1 offset02_t2 compo_cnt1 compo_cnt2 compo_cnt3 compo_cnt4 compo_cnt5] in *; lia).
  apply assigns_frame. constructor; [cbv [num_component02 offset02_t0 offset02_t1 offset02_t2 compo_cnt1 compo_cnt2 compo_cnt3 compo_cnt4 compo_cnt5] in *; cbn [fst]; lia|constructor].
Qed.
Lemma load02_reads : forall a b off, (forall k, (k < num_component02)%nat -> a (off + k)%nat = b (off + k)%nat) ->
  load02 a off = load02 b off.
Proof.
  intros a b off H. unfold load02.
  rewrite (H offset02_t0) by (cbv [num_component02 offset02_t0 offset02_t1 offset02_t2 compo_cnt1 compo_cnt2 compo_cnt3 compo_cnt4 compo_cnt5] in *; lia).
  rewrite (load1_reads a b (off + offset02_t1)) by (intros k Hk; rewrite <- Nat.add_assoc; apply H; cbv [num_component02 offset02_t0 offset02_t1 offset02_t2 compo_cnt1 compo_cnt2 compo_cnt3 compo_cnt4 compo_cnt5] in *; lia).
  rewrite (load2_reads a b (off + offset02_t2)) by (intros k Hk; rewrite <- Nat.add_assoc; apply H; cbv [num_component02 offset02_t0 offset02_t1 offset02_t2 compo_cnt1 compo_cnt2 compo_cnt3 compo_cnt4 compo_cnt5] in *; lia).
  reflexivity.
Qed.
Lemma load02_store02 : forall s acc off, load02 (store02 s acc off) off = s.
Proof.
  intros s acc off. unfold load02, store02. cbv zeta.
  rewrite store2_frame by (cbv [num_component02 offset02_t0 offset02_t1 offset02_t2 compo_cnt1 compo_cnt2 compo_cnt3 compo_cnt4 compo_cnt5] in *; lia).
  rewrite store1_frame by (cbv [num_component02 offset02_t0 offset02_t1 offset02_t2 compo_cnt1 compo_cnt2 compo_cnt3 compo_cnt4 compo_cnt5] in *; lia).
  rewrite assigns_get.
  match goal with |- context [load1 ?a ?f] =>
    rewrite (load1_reads a (store1 (c02_t1 s) (fun j => 0) f) f); [rewrite load1_store1|] end.
  2:{ intros k Hk. unfold compo_cnt1 in Hk.
      rewrite store2_frame by (cbv [num_component02 offset02_t0 offset02_t1 offset02_t2 compo_cnt1 compo_cnt2 compo_cnt3 compo_cnt4 compo_cnt5] in *; lia).
      unfold store1. rewrite !assigns_get. do 3 (destruct k as [|k]; [reflexivity|]). exfalso; lia. }
  match goal with |- context [load2 ?a ?f] =>
    rewrite (load2_reads a (store2 (c02_t2 s) (fun j => 0) f) f); [rewrite load2_store2|] end.
  2:{ intros k Hk. unfold compo_cnt2 in Hk.
      unfold store2. rewrite !assigns_get. do 6 (destruct k as [|k]; [reflexivity|]). exfalso; lia. }
  destruct s. reflexivity.
Qed.
Lemma buf02 : forall q acc c c',
  load02 (store02 q acc (c * num_component02)) (c' * num_component02) =
  if Nat.eqb c' c then q else load02 acc (c' * num_component02).
Proof.
  intros q acc c c'. destruct (Nat.eqb_spec c' c) as [->|Hn]; [apply load02_store02|].
  apply load02_reads. intros k Hk. apply store02_frame.
  assert (c' + 1 <= c \/ c + 1 <= c')%nat as [Hc|Hc] by lia; [left|right]; nia.
Qed.

Lemma store03_frame : forall s acc off j, (j < off \/ off + num_component03 <= j)%nat -> store03 s acc off j = acc j.
Proof.
  intros s acc off j H. unfold store03. cbv zeta.
  rewrite store3_frame by (cbv [num_component03 offset03_t0 offset03_t1 offset03_t2 offset03_t3 compo_cnt1 compo_cnt2 compo_cnt3 compo_cnt4 compo_cnt5] in *; lia).
  rewrite store2_frame by (cbv [num_component03 offset03_t0 offset03_t1 offset03_t2 offset03_t3 compo_cnt1 compo_cnt2 compo_cnt3 compo_cnt4 compo_cnt5] in *; lia).
  rewrite store1_frame by (cbv [num_component03 offset03_t0 offset03_t1 offset03_t2 offset03_t3 compo_cnt1 compo_cnt2 compo_cnt3 compo_cnt4 compo_cnt5] in *; lia).
  apply assigns_frame. constructor; [cbv [num_component03 offset03_t0 offset03_t1 offset03_t2 offset03_t3 compo_cnt1 compo_cnt2 compo_cnt3 compo_cnt4 compo_cnt5] in *; cbn [fst]; lia|constructor].
Qed.
Lemma load03_reads : forall a b off, (forall k, (k < num_component03)%nat -> a (off + k)%nat = b (off + k)%nat) ->
  load03 a off = load03 b off.
Proof.
  intros a b off H. unfold load03.
  rewrite (H offset03_t0) by (cbv [num_component03 offset03_t0 offset03_t1 offset03_t2 offset03_t3 compo_cnt1 compo_cnt2 compo_cnt3 compo_cnt4 compo_cnt5] in *; lia).
  rewrite (load1_reads a b (off + offset03_t1)) by (intros k Hk; rewrite <- Nat.add_assoc; apply H; cbv [num_component03 offset03_t0 offset03_t1 offset03_t2 offset03_t3 compo_cnt1 compo_cnt2 compo_cnt3 compo_cnt4 compo_cnt5] in *; lia).
  rewrite (load2_reads a b (off + offset03_t2)) by (intros k Hk; rewrite <- Nat.add_assoc; apply H; cbv [num_component03 offset03_t0 offset03_t1 offset03_t2 offset03_t3 compo_cnt1 compo_cnt2 compo_cnt3 compo_cnt4 compo_cnt5] in *; lia).
  rewrite (load3_reads a b (off + offset03_t3)) by (intros k Hk; rewrite <- Nat.add_assoc; apply H; cbv [num_component03 offset03_t0 offset03_t1 offset03_t2 offset03_t3 compo_cnt1 compo_cnt2 compo_cnt3 compo_cnt4 compo_cnt5] in *; lia).
  reflexivity.
Qed.
Lemma load03_store03 : forall s acc off, load03 (store03 s acc off) off = s.
Proof.
  intros s acc off. unfold load03, store03. cbv zeta.
  rewrite store3_frame by (cbv [num_component03 offset03_t0 offset03_t1 offset03_t2 offset03_t3 compo_cnt1 compo_cnt2 compo_cnt3 compo_cnt4 compo_cnt5] in *; lia).
  rewrite store2_frame by (cbv [num_component03 offset03_t0 offset03_t1 offset03_t2 offset03_t3 compo_cnt1 compo_cnt2 compo_cnt3 compo_cnt4 compo_cnt5] in *; lia).
  rewrite store1_frame by (cbv [num_component03 offset03_t0 offset03_t1 offset03_t2 offset03_t3 compo_cnt1 compo_cnt2 compo_cnt3 compo_cnt4 compo_cnt5] in *; lia).
  rewrite assigns_get.
  match goal with |- context [load1 ?a ?f] =>
    rewrite (load1_reads a (store1 (c03_t1 s) (fun j => 0) f) f); [rewrite load1_store1|] end.
  2:{ intros k Hk. unfold compo_cnt1 in Hk.
      rewrite store3_frame by (cbv [num_component03 offset03_t0 offset03_t1 offset03_t2 offset03_t3 compo_cnt1 compo_cnt2 compo_cnt3 compo_cnt4 compo_cnt5] in *; lia).
      rewrite store2_frame by (cbv [num_component03 offset03_t0 offset03_t1 offset03_t2 offset03_t3 compo_cnt1 compo_cnt2 compo_cnt3 compo_cnt4 compo_cnt5] in *; lia).
      unfold store1. rewrite !assigns_get. do 3 (destruct k as [|k]; [reflexivity|]). exfalso; lia. }
  match goal with |- context [load2 ?a ?f] =>
    rewrite (load2_reads a (store2 (c03_t2 s) (fun j => 0) f) f); [rewrite load2_store2|] end.
  2:{ intros k Hk. unfold compo_cnt2 in Hk.
      rewrite store3_frame by (cbv [num_component03 offset03_t0 offset03_t1 offset03_t2 offset03_t3 compo_cnt1 compo_cnt2 compo_cnt3 compo_cnt4 compo_cnt5] in *; lia).
      unfold store2. rewrite !assigns_get. do 6 (destruct k as [|k]; [reflexivity|]). exfalso; lia. }
  match goal with |- context [load3 ?a ?f] =>
    rewrite (load3_reads a (store3 (c03_t3 s) (fun j => 0) f) f); [rewrite load3_store3|] end.
  2:{ intros k Hk. unfold compo_cnt3 in Hk.
      unfold store3. rewrite !assigns_get. do 10 (destruct k as [|k]; [reflexivity|]). exfalso; lia. }
  destruct s. reflexivity.
Qed.
Lemma buf03 : forall q acc c c',
  load03 (store03 q acc (c * num_component03)) (c' * num_component03) =
  if Nat.eqb c' c then q else load03 acc (c' * num_component03).
Proof.
  intros q acc c c'. destruct (Nat.eqb_spec c' c) as [->|Hn]; [apply load03_store03|].
  apply load03_reads. intros k Hk. apply store03_frame.
  assert (c' + 1 <= c \/ c + 1 <= c')%nat as [Hc|Hc] by lia; [left|right]; nia.
Qed.

Lemma store04_frame : forall s acc off j, (j < off \/ off + num_component04 <= j)%nat -> store04 s acc off j = acc j.
Proof.
  intros s acc off j H. unfold store04. cbv zeta.
  rewrite store4_frame by (cbv [num_component04 offset04_t0 offset04_t1 offset04_t2 offset04_t3 offset04_t4 compo_cnt1 compo_cnt2 compo_cnt3 compo_cnt4 compo_cnt5] in *; lia).
  rewrite store3_frame by (cbv [num_component04 offset04_t0 offset04_t1 offset04_t2 offset04_t3 offset04_t4 compo_cnt1 compo_cnt2 compo_cnt3 compo_cnt4 compo_cnt5] in *; lia).
  rewrite store2_frame by (cbv [num_component04 offset04_t0 offset04_t1 offset04_t2 offset04_t3 offset04_t4 compo_cnt1 compo_cnt2 compo_cnt3 compo_cnt4 compo_cnt5] in *; lia).
  rewrite store1_frame by (cbv [num_component04 offset04_t0 offset04_t1 offset04_t2 offset04_t3 offset04_t4 compo_cnt1 compo_cnt2 compo_cnt3 compo_cnt4 compo_cnt5] in *; lia).
  apply assigns_frame. constructor; [cbv [num_component04 offset04_t0 offset04_t1 offset04_t2 offset04_t3 offset04_t4 compo_cnt1 compo_cnt2 compo_cnt3 compo_cnt4 compo_cnt5] in *; cbn [fst]; lia|constructor].
Qed.
Lemma load04_reads : forall a b off, (forall k, (k < num_component04)%nat -> a (off + k)%nat = b (off + k)%nat) ->
  load04 a off = load04 b off.
Proof.
  intros a b off H. unfold load04.
  rewrite (H offset04_t0) by (cbv [num_component04 offset04_t0 offset04_t1 offset04_t2 offset04_t3 offset04_t4 compo_cnt1 compo_cnt2 compo_cnt3 compo_cnt4 compo_cnt5] in *; lia).
  rewrite (load1_reads a b (off + offset04_t1)) by (intros k Hk; rewrite <- Nat.add_assoc; apply H; cbv [num_component04 offset04_t0 offset04_t1 offset04_t2 offset04_t3 offset04_t4 compo_cnt1 compo_cnt2 compo_cnt3 compo_cnt4 compo_cnt5] in *; lia).
  rewrite (load2_reads a b (off + offset04_t2)) by (intros k Hk; rewrite <- Nat.add_assoc; apply H; cbv [num_component04 offset04_t0 offset04_t1 offset04_t2 offset04_t3 offset04_t4 compo_cnt1 compo_cnt2 compo_cnt3 compo_cnt4 compo_cnt5] in *; lia).
  rewrite (load3_reads a b (off + offset04_t3)) by (intros k Hk; rewrite <- Nat.add_assoc; apply H; cbv [num_component04 offset04_t0 offset04_t1 offset04_t2 offset04_t3 offset04_t4 compo_cnt1 compo_cnt2 compo_cnt3 compo_cnt4 compo_cnt5] in *; lia).
  rewrite (load4_reads a b (off + offset04_t4)) by (intros k Hk; rewrite <- Nat.add_assoc; apply H; cbv [num_component04 offset04_t0 offset04_t1 offset04_t2 offset04_t3 offset04_t4 compo_cnt1 compo_cnt2 compo_cnt3 compo_cnt4 compo_cnt5] in *; lia).
  reflexivity.
Qed.
Lemma load04_store04 : forall s acc off, load04 (store04 s acc off) off = s.
Proof.
  intros s acc off. unfold load04, store04. cbv zeta.
  rewrite store4_frame by (cbv [num_component04 offset04_t0 offset04_t1 offset04_t2 offset04_t3 offset04_t4 compo_cnt1 compo_cnt2 compo_cnt3 compo_cnt4 compo_cnt5] in *; lia).
  rewrite store3_frame by (cbv [num_component04 offset04_t0 offset04_t1 offset04_t2 offset04_t3 offset04_t4 compo_cnt1 compo_cnt2 compo_cnt3 compo_cnt4 compo_cnt5] in *; lia).
  rewrite store2_frame by (cbv [num_component04 offset04_t0 offset04_t1 offset04_t2 offset04_t3 offset04_t4 compo_cnt1 compo_cnt2 compo_cnt3 compo_cnt4 compo_cnt5] in *; lia).
  rewrite store1_frame by (cbv [num_component04 offset04_t0 offset04_t1 offset04_t2 offset04_t3 offset04_t4 compo_cnt1 compo_cnt2 compo_cnt3 compo_cnt4 compo_cnt5] in *; lia).
  rewrite assigns_get.
  match goal with |- context [load1 ?a ?f] =>
    rewrite (load1_reads a (store1 (c04_t1 s) (fun j => 0) f) f); [rewrite load1_store1|] end.
  2:{ intros k Hk. unfold compo_cnt1 in Hk.
      rewrite store4_frame by (cbv [num_component04 offset04_t0 offset04_t1 offset04_t2 offset04_t3 offset04_t4 compo_cnt1 compo_cnt2 compo_cnt3 compo_cnt4 compo_cnt5] in *; lia).
      rewrite store3_frame by (cbv [num_component04 offset04_t0 offset04_t1 offset04_t2 offset04_t3 offset04_t4 compo_cnt1 compo_cnt2 compo_cnt3 compo_cnt4 compo_cnt5] in *; lia).
      rewrite store2_frame by (cbv [num_component04 offset04_t0 offset04_t1 offset04_t2 offset04_t3 offset04_t4 compo_cnt1 compo_cnt2 compo_cnt3 compo_cnt4 compo_cnt5] in *; lia).
      unfold store1. rewrite !assigns_get. do 3 (destruct k as [|k]; [reflexivity|]). exfalso; lia. }
  match goal with |- context [load2 ?a ?f] =>
    rewrite (load2_reads a (store2 (c04_t2 s) (fun j => 0) f) f); [rewrite load2_store2|] end.
  2:{ intros k Hk. unfold compo_cnt2 in Hk.
      rewrite store4_frame by (cbv [num_component04 offset04_t0 offset04_t1 offset04_t2 offset04_t3 offset04_t4 compo_cnt1 compo_cnt2 compo_cnt3 compo_cnt4 compo_cnt5] in *; lia).
      rewrite store3_frame by (cbv [num_component04 offset04_t0 offset04_t1 offset04_t2 offset04_t3 offset04_t4 compo_cnt1 compo_cnt2 compo_cnt3 compo_cnt4 compo_cnt5] in *; lia).
      unfold store2. rewrite !assigns_get. do 6 (destruct k as [|k]; [reflexivity|]). exfalso; lia. }
  match goal with |- context [load3 ?a ?f] =>
    rewrite (load3_reads a (store3 (c04_t3 s) (fun j => 0) f) f); [rewrite load3_store3|] end.
  2:{ intros k Hk. unfold compo_cnt3 in Hk.
      rewrite store4_frame by (cbv [num_component04 offset04_t0 offset04_t1 offset04_t2 offset04_t3 offset04_t4 compo_cnt1 compo_cnt2 compo_cnt3 compo_cnt4 compo_cnt5] in *; lia).
      unfold store3. rewrite !assigns_get. do 10 (destruct k as [|k]; [reflexivity|]). exfalso; lia. }
  match goal with |- context [load4 ?a ?f] =>
    rewrite (load4_reads a (store4 (c04_t4 s) (fun j => 0) f) f); [rewrite load4_store4|] end.
  2:{ intros k Hk. unfold compo_cnt4 in Hk.
      unfold store4. rewrite !assigns_get. do 15 (destruct k as [|k]; [reflexivity|]). exfalso; lia. }
  destruct s. reflexivity.
Qed.
Lemma buf04 : forall q acc c c',
  load04 (store04 q acc (c * num_component04)) (c' * num_component04) =
  if Nat.eqb c' c then q else load04 acc (c' * num_component04).
Proof.
  intros q acc c c'. destruct (Nat.eqb_spec c' c) as [->|Hn]; [apply load04_store04|].
  apply load04_reads. intros k Hk. apply store04_frame.
  assert (c' + 1 <= c \/ c + 1 <= c')%nat as [Hc|Hc] by lia; [left|right]; nia.
Qed.

Lemma store05_frame : forall s acc off j, (j < off \/ off + num_component05 <= j)%nat -> store05 s acc off j = acc j.
Proof.
  intros s acc off j H. unfold store05. cbv zeta.
  rewrite store5_frame by (cbv [num_component05 offset05_t0 offset05_t1 offset05_t2 offset05_t3 offset05_t4 offset05_t5 compo_cnt1 compo_cnt2 compo_cnt3 compo_cnt4 compo_cnt5] in *; lia).
  rewrite store4_frame by (cbv [num_component05 offset05_t0 offset05_t1 offset05_t2 offset05_t3 offset05_t4 offset05_t5 compo_cnt1 compo_cnt2 compo_cnt3 compo_cnt4 compo_cnt5] in *; lia).
  rewrite store3_frame by (cbv [num_component05 offset05_t0 offset05_t1 offset05_t2 offset05_t3 offset05_t4 offset05_t5 compo_cnt1 compo_cnt2 compo_cnt3 compo_cnt4 compo_cnt5] in *; lia).
  rewrite store2_frame by (cbv [num_component05 offset05_t0 offset05_t1 offset05_t2 offset05_t3 offset05_t4 offset05_t5 compo_cnt1 compo_cnt2 compo_cnt3 compo_cnt4 compo_cnt5] in *; lia).
  rewrite store1_frame by (cbv [num_component05 offset05_t0 offset05_t1 offset05_t2 offset05_t3 offset05_t4 offset05_t5 compo_cnt1 compo_cnt2 compo_cnt3 compo_cnt4 compo_cnt5] in *; lia).
  apply assigns_frame. constructor; [cbv [num_component05 offset05_t0 offset05_t1 offset05_t2 offset05_t3 offset05_t4 offset05_t5 compo_cnt1 compo_cnt2 compo_cnt3 compo_cnt4 compo_cnt5] in *; cbn [fst]; lia|constructor].
Qed.
Lemma load05_reads : forall a b off, (forall k, (k < num_component05)%nat -> a (off + k)%nat = b (off + k)%nat) ->
  load05 a off = load05 b off.
Proof.
  intros a b off H. unfold load05.
  rewrite (H offset05_t0) by (cbv [num_component05 offset05_t0 offset05_t1 offset05_t2 offset05_t3 offset05_t4 offset05_t5 compo_cnt1 compo_cnt2 compo_cnt3 compo_cnt4 compo_cnt5] in *; lia).
  rewrite (load1_reads a b (off + offset05_t1)) by (intros k Hk; rewrite <- Nat.add_assoc; apply H; cbv [num_component05 offset05_t0 offset05_t1 offset05_t2 offset05_t3 offset05_t4 offset05_t5 compo_cnt1 compo_cnt2 compo_cnt3 compo_cnt4 compo_cnt5] in *; lia).
  rewrite (load2_reads a b (off + offset05_t2)) by (intros k Hk; rewrite <- Nat.add_assoc; apply H; cbv [num_component05 offset05_t0 offset05_t1 offset05_t2 offset05_t3 offset05_t4 offset05_t5 compo_cnt1 compo_cnt2 compo_cnt3 compo_cnt4 compo_cnt5] in *; lia).
  rewrite (load3_reads a b (off + offset05_t3)) by (intros k Hk; rewrite <- Nat.add_assoc; apply H; cbv [num_component05 offset05_t0 offset05_t1 offset05_t2 offset05_t3 offset05_t4 offset05_t5 compo_cnt1 compo_cnt2 compo_cnt3 compo_cnt4 compo_cnt5] in *; lia).
  rewrite (load4_reads a b (off + offset05_t4)) by (intros k Hk; rewrite <- Nat.add_assoc; apply H; cbv [num_component05 offset05_t0 offset05_t1 offset05_t2 offset05_t3 offset05_t4 offset05_t5 compo_cnt1 compo_cnt2 compo_cnt3 compo_cnt4 compo_cnt5] in *; lia).
  rewrite (load5_reads a b (off + offset05_t5)) by (intros k Hk; rewrite <- Nat.add_assoc; apply H; cbv [num_component05 offset05_t0 offset05_t1 offset05_t2 offset05_t3 offset05_t4 offset05_t5 compo_cnt1 compo_cnt2 compo_cnt3 compo_cnt4 compo_cnt5] in *; lia).
  reflexivity.
Qed.
Lemma load05_store05 : forall s acc off, load05 (store05 s acc off) off = s.
Proof.
  intros s acc off. unfold load05, store05. cbv zeta.
  rewrite store5_frame by (cbv [num_component05 offset05_t0 offset05_t1 offset05_t2 offset05_t3 offset05_t4 offset05_t5 compo_cnt1 compo_cnt2 compo_cnt3 compo_cnt4 compo_cnt5] in *; lia).
  rewrite store4_frame by (cbv [num_component05 offset05_t0 offset05_t1 offset05_t2 offset05_t3 offset05_t4 offset05_t5 compo_cnt1 compo_cnt2 compo_cnt3 compo_cnt4 compo_cnt5] in *; lia).
  rewrite store3_frame by (cbv [num_component05 offset05_t0 offset05_t1 offset05_t2 offset05_t3 offset05_t4 offset05_t5 compo_cnt1 compo_cnt2 compo_cnt3 compo_cnt4 compo_cnt5] in *; lia).
  rewrite store2_frame by (cbv [num_component05 offset05_t0 offset05_t1 offset05_t2 offset05_t3 offset05_t4 offset05_t5 compo_cnt1 compo_cnt2 compo_cnt3 compo_cnt4 compo_cnt5] in *; lia).
  rewrite store1_frame by (cbv [num_component05 offset05_t0 offset05_t1 offset05_t2 offset05_t3 offset05_t4 offset05_t5 compo_cnt1 compo_cnt2 compo_cnt3 compo_cnt4 compo_cnt5] in *; lia).
  rewrite assigns_get.
  match goal with |- context [load1 ?a ?f] =>
    rewrite (load1_reads a (store1 (c05_t1 s) (fun j => 0) f) f); [rewrite load1_store1|] end.
  2:{ intros k Hk. unfold compo_cnt1 in Hk.
      rewrite store5_frame by (cbv [num_component05 offset05_t0 offset05_t1 offset05_t2 offset05_t3 offset05_t4 offset05_t5 compo_cnt1 compo_cnt2 compo_cnt3 compo_cnt4 compo_cnt5] in *; lia).
      rewrite store4_frame by (cbv [num_component05 offset05_t0 offset05_t1 offset05_t2 offset05_t3 offset05_t4 offset05_t5 compo_cnt1 compo_cnt2 compo_cnt3 compo_cnt4 compo_cnt5] in *; lia).
      rewrite store3_frame by (cbv [num_component05 offset05_t0 offset05_t1 offset05_t2 offset05_t3 offset05_t4 offset05_t5 compo_cnt1 compo_cnt2 compo_cnt3 compo_cnt4 compo_cnt5] in *; lia).
      rewrite store2_frame by (cbv [num_component05 offset05_t0 offset05_t1 offset05_t2 offset05_t3 offset05_t4 offset05_t5 compo_cnt1 compo_cnt2 compo_cnt3 compo_cnt4 compo_cnt5] in *; lia).
      unfold store1. rewrite !assigns_get. do 3 (destruct k as [|k]; [reflexivity|]). exfalso; lia. }
  match goal with |- context [load2 ?a ?f] =>
    rewrite (load2_reads a (store2 (c05_t2 s) (fun j => 0) f) f); [rewrite load2_store2|] end.
  2:{ intros k Hk. unfold compo_cnt2 in Hk.
      rewrite store5_frame by (cbv [num_component05 offset05_t0 offset05_t1 offset05_t2 offset05_t3 offset05_t4 offset05_t5 compo_cnt1 compo_cnt2 compo_cnt3 compo_cnt4 compo_cnt5] in *; lia).
      rewrite store4_frame by (cbv [num_component05 offset05_t0 offset05_t1 offset05_t2 offset05_t3 offset05_t4 offset05_t5 compo_cnt1 compo_cnt2 compo_cnt3 compo_cnt4 compo_cnt5] in *; lia).
      rewrite store3_frame by (cbv [num_component05 offset05_t0 offset05_t1 offset05_t2 offset05_t3 offset05_t4 offset05_t5 compo_cnt1 compo_cnt2 compo_cnt3 compo_cnt4 compo_cnt5] in *; lia).
      unfold store2. rewrite !assigns_get. do 6 (destruct k as [|k]; [reflexivity|]). exfalso; lia. }
  match goal with |- context [load3 ?a ?f] =>
    rewrite (load3_reads a (store3 (c05_t3 s) (fun j => 0) f) f); [rewrite load3_store3|] end.
  2:{ intros k Hk. unfold compo_cnt3 in Hk.
      rewrite store5_frame by (cbv [num_component05 offset05_t0 offset05_t1 offset05_t2 offset05_t3 offset05_t4 offset05_t5 compo_cnt1 compo_cnt2 compo_cnt3 compo_cnt4 compo_cnt5] in *; lia).
      rewrite store4_frame by (cbv [num_component05 offset05_t0 offset05_t1 offset05_t2 offset05_t3 offset05_t4 offset05_t5 compo_cnt1 compo_cnt2 compo_cnt3 compo_cnt4 compo_cnt5] in *; lia).
      unfold store3. rewrite !assigns_get. do 10 (destruct k as [|k]; [reflexivity|]). exfalso; lia. }
  match goal with |- context [load4 ?a ?f] =>
    rewrite (load4_reads a (store4 (c05_t4 s) (fun j => 0) f) f); [rewrite load4_store4|] end.
  2:{ intros k Hk. unfold compo_cnt4 in Hk.
      rewrite store5_frame by (cbv [num_component05 offset05_t0 offset05_t1 offset05_t2 offset05_t3 offset05_t4 offset05_t5 compo_cnt1 compo_cnt2 compo_cnt3 compo_cnt4 compo_cnt5] in *; lia).
      unfold store4. rewrite !assigns_get. do 15 (destruct k as [|k]; [reflexivity|]). exfalso; lia. }
  match goal with |- context [load5 ?a ?f] =>
    rewrite (load5_reads a (store5 (c05_t5 s) (fun j => 0) f) f); [rewrite load5_store5|] end.
  2:{ intros k Hk. unfold compo_cnt5 in Hk.
      unfold store5. rewrite !assigns_get. do 21 (destruct k as [|k]; [reflexivity|]). exfalso; lia. }
  destruct s. reflexivity.
Qed.
Lemma buf05 : forall q acc c c',
  load05 (store05 q acc (c * num_component05)) (c' * num_component05) =
  if Nat.eqb c' c then q else load05 acc (c' * num_component05).
Proof.
  intros q acc c c'. destruct (Nat.eqb_spec c' c) as [->|Hn]; [apply load05_store05|].
  apply load05_reads. intros k Hk. apply store05_frame.
  assert (c' + 1 <= c \/ c + 1 <= c')%nat as [Hc|Hc] by lia; [left|right]; nia.
Qed.

Lemma store11_frame : forall s acc off j, (j < off \/ off + num_component11 <= j)%nat -> store11 s acc off j = acc j.
Proof.
  intros s acc off j H. unfold store11. cbv zeta.
  rewrite store1_frame by (cbv [num_component11 offset11_t1 compo_cnt1 compo_cnt2 compo_cnt3 compo_cnt4 compo_cnt5] in *; lia).
  reflexivity.
Qed.
Lemma load11_reads : forall a b off, (forall k, (k < num_component11)%nat -> a (off + k)%nat = b (off + k)%nat) ->
  load11 a off = load11 b off.
Proof.
  intros a b off H. unfold load11.
  rewrite (load1_reads a b (off + offset11_t1)) by (intros k Hk; rewrite <- Nat.add_assoc; apply H; cbv [num_component11 offset11_t1 compo_cnt1 compo_cnt2 compo_cnt3 compo_cnt4 compo_cnt5] in *; lia).
  reflexivity.
Qed.
Lemma load11_store11 : forall s acc off, load11 (store11 s acc off) off = s.
Proof.
  intros s acc off. unfold load11, store11. cbv zeta.
  match goal with |- context [load1 ?a ?f] =>
    rewrite (load1_reads a (store1 (c11_t1 s) (fun j => 0) f) f); [rewrite load1_store1|] end.
  2:{ intros k Hk. unfold compo_cnt1 in Hk.
      unfold store1. rewrite !assigns_get. do 3 (destruct k as [|k]; [reflexivity|]). exfalso; lia. }
  destruct s. reflexivity.
Qed.
Lemma buf11 : forall q acc c c',
  load11 (store11 q acc (c * num_component11)) (c' * num_component11) =
  if Nat.eqb c' c then q else load11 acc (c' * num_component11).
Proof.
  intros q acc c c'. destruct (Nat.eqb_spec c' c) as [->|Hn]; [apply load11_store11|].
  apply load11_reads. intros k Hk. apply store11_frame.
  assert (c' + 1 <= c \/ c + 1 <= c')%nat as [Hc|Hc] by lia; [left|right]; nia.
Qed.

Lemma store12_frame : forall s acc off j, (j < off \/ off + num_component12 <= j)%nat -> store12 s acc off j = acc j.
Proof.
  intros s acc off j H. unfold store12. cbv zeta.
  rewrite store2_frame by (cbv [num_component12 offset12_t1 offset12_t2 compo_cnt1 compo_cnt2 compo_cnt3 compo_cnt4 compo_cnt5] in *; lia).
  rewrite store1_frame by (cbv [num_component12 offset12_t1 offset12_t2 compo_cnt1 compo_cnt2 compo_cnt3 compo_cnt4 compo_cnt5] in *; lia).
  reflexivity.
Qed.
Lemma load12_reads : forall a b off, (forall k, (k < num_component12)%nat -> a (off + k)%nat = b (off + k)%nat) ->
  load12 a off = load12 b off.
Proof.
  intros a b off H. unfold load12.
  rewrite (load1_reads a b (off + offset12_t1)) by (intros k Hk; rewrite <- Nat.add_assoc; apply H; cbv [num_component12 offset12_t1 offset12_t2 compo_cnt1 compo_cnt2 compo_cnt3 compo_cnt4 compo_cnt5] in *; lia).
  rewrite (load2_reads a b (off + offset12_t2)) by (intros k Hk; rewrite <- Nat.add_assoc; apply H; cbv [num_component12 offset12_t1 offset12_t2 compo_cnt1 compo_cnt2 compo_cnt3 compo_cnt4 compo_cnt5] in *; lia).
  reflexivity.
Qed.
Lemma load12_store12 : forall s acc off, load12 (store12 s acc off) off = s.
Proof.
  intros s acc off. unfold load12, store12. cbv zeta.
  match goal with |- context [load1 ?a ?f] =>
    rewrite (load1_reads a (store1 (c12_t1 s) (fun j => 0) f) f); [rewrite load1_store1|] end.
  2:{ intros k Hk. unfold compo_cnt1 in Hk.
      rewrite store2_frame by (cbv [num_component12 offset12_t1 offset12_t2 compo_cnt1 compo_cnt2 compo_cnt3 compo_cnt4 compo_cnt5] in *; lia).
      unfold store1. rewrite !assigns_get. do 3 (destruct k as [|k]; [reflexivity|]). exfalso; lia. }
  match goal with |- context [load2 ?a ?f] =>
    rewrite (load2_reads a (store2 (c12_t2 s) (fun j => 0) f) f); [rewrite load2_store2|] end.
  2:{ intros k Hk. unfold compo_cnt2 in Hk.
      unfold store2. rewrite !assigns_get. do 6 (destruct k as [|k]; [reflexivity|]). exfalso; lia. }
  destruct s. reflexivity.
Qed.
Lemma buf12 : forall q acc c c',
  load12 (store12 q acc (c * num_component12)) (c' * num_component12) =
  if Nat.eqb c' c then q else load12 acc (c' * num_component12).
Proof.
  intros q acc c c'. destruct (Nat.eqb_spec c' c) as [->|Hn]; [apply load12_store12|].
  apply load12_reads. intros k Hk. apply store12_frame.
  assert (c' + 1 <= c \/ c + 1 <= c')%nat as [Hc|Hc] by lia; [left|right]; nia.
Qed.

Lemma store13_frame : forall s acc off j, (j < off \/ off + num_component13 <= j)%nat -> store13 s acc off j = acc j.
Proof.
  intros s acc off j H. unfold store13. cbv zeta.
  rewrite store3_frame by (cbv [num_component13 offset13_t1 offset13_t2 offset13_t3 compo_cnt1 compo_cnt2 compo_cnt3 compo_cnt4 compo_cnt5] in *; lia).
  rewrite store2_frame by (cbv [num_component13 offset13_t1 offset13_t2 offset13_t3 compo_cnt1 compo_cnt2 compo_cnt3 compo_cnt4 compo_cnt5] in *; lia).
  rewrite store1_frame by (cbv [num_component13 offset13_t1 offset13_t2 offset13_t3 compo_cnt1 compo_cnt2 compo_cnt3 compo_cnt4 compo_cnt5] in *; lia).
  reflexivity.
Qed.
Lemma load13_reads : forall a b off, (forall k, (k < num_component13)%nat -> a (off + k)%nat = b (off + k)%nat) ->
  load13 a off = load13 b off.
Proof.
  intros a b off H. unfold load13.
  rewrite (load1_reads a b (off + offset13_t1)) by (intros k Hk; rewrite <- Nat.add_assoc; apply H; cbv [num_component13 offset13_t1 offset13_t2 offset13_t3 compo_cnt1 compo_cnt2 compo_cnt3 compo_cnt4 compo_cnt5] in *; lia).
  rewrite (load2_reads a b (off + offset13_t2)) by (intros k Hk; rewrite <- Nat.add_assoc; apply H; cbv [num_component13 offset13_t1 offset13_t2 offset13_t3 compo_cnt1 compo_cnt2 compo_cnt3 compo_cnt4 compo_cnt5] in *; lia).
  rewrite (load3_reads a b (off + offset13_t3)) by (intros k Hk; rewrite <- Nat.add_assoc; apply H; cbv [num_component13 offset13_t1 offset13_t2 offset13_t3 compo_cnt1 compo_cnt2 compo_cnt3 compo_cnt4 compo_cnt5] in *; lia).
  reflexivity.
Qed.
Lemma load13_store13 : forall s acc off, load13 (store13 s acc off) off = s.
Proof.
  intros s acc off. unfold load13, store13. cbv zeta.
  match goal with |- context [load1 ?a ?f] =>
    rewrite (load1_reads a (store1 (c13_t1 s) (fun j => 0) f) f); [rewrite load1_store1|] end.
  2:{ intros k Hk. unfold compo_cnt1 in Hk.
      rewrite store3_frame by (cbv [num_component13 offset13_t1 offset13_t2 offset13_t3 compo_cnt1 compo_cnt2 compo_cnt3 compo_cnt4 compo_cnt5] in *; lia).
      rewrite store2_frame by (cbv [num_component13 offset13_t1 offset13_t2 offset13_t3 compo_cnt1 compo_cnt2 compo_cnt3 compo_cnt4 compo_cnt5] in *; lia).
      unfold store1. rewrite !assigns_get. do 3 (destruct k as [|k]; [reflexivity|]). exfalso; lia. }
  match goal with |- context [load2 ?a ?f] =>
    rewrite (load2_reads a (store2 (c13_t2 s) (fun j => 0) f) f); [rewrite load2_store2|] end.
  2:{ intros k Hk. unfold compo_cnt2 in Hk.
      rewrite store3_frame by (cbv [num_component13 offset13_t1 offset13_t2 offset13_t3 compo_cnt1 compo_cnt2 compo_cnt3 compo_cnt4 compo_cnt5] in *; lia).
      unfold store2. rewrite !assigns_get. do 6 (destruct k as [|k]; [reflexivity|]). exfalso; lia. }
  match goal with |- context [load3 ?a ?f] =>
    rewrite (load3_reads a (store3 (c13_t3 s) (fun j => 0) f) f); [rewrite load3_store3|] end.
  2:{ intros k Hk. unfold compo_cnt3 in Hk.
      unfold store3. rewrite !assigns_get. do 10 (destruct k as [|k]; [reflexivity|]). exfalso; lia. }
  destruct s. reflexivity.
Qed.
Lemma buf13 : forall q acc c c',
  load13 (store13 q acc (c * num_component13)) (c' * num_component13) =
  if Nat.eqb c' c then q else load13 acc (c' * num_component13).
Proof.
  intros q acc c c'. destruct (Nat.eqb_spec c' c) as [->|Hn]; [apply load13_store13|].
  apply load13_reads. intros k Hk. apply store13_frame.
  assert (c' + 1 <= c \/ c + 1 <= c')%nat as [Hc|Hc] by lia; [left|right]; nia.
Qed.

Lemma store14_frame : forall s acc off j, (j < off \/ off + num_component14 <= j)%nat -> store14 s acc off j = acc j.
Proof.
  intros s acc off j H. unfold store14. cbv zeta.
  rewrite store4_frame by (cbv [num_component14 offset14_t1 offset14_t2 offset14_t3 offset14_t4 compo_cnt1 compo_cnt2 compo_cnt3 compo_cnt4 compo_cnt5] in *; lia).
  rewrite store3_frame by (cbv [num_component14 offset14_t1 offset14_t2 offset14_t3 offset14_t4 compo_cnt1 compo_cnt2 compo_cnt3 compo_cnt4 compo_cnt5] in *; lia).
  rewrite store2_frame by (cbv [num_component14 offset14_t1 offset14_t2 offset14_t3 offset14_t4 compo_cnt1 compo_cnt2 compo_cnt3 compo_cnt4 compo_cnt5] in *; lia).
  rewrite store1_frame by (cbv [num_component14 offset14_t1 offset14_t2 offset14_t3 offset14_t4 compo_cnt1 compo_cnt2 compo_cnt3 compo_cnt4 compo_cnt5] in *; lia).
  reflexivity.
Qed.
Lemma load14_reads : forall a b off, (forall k, (k < num_component14)%nat -> a (off + k)%nat = b (off + k)%nat) ->
  load14 a off = load14 b off.
Proof.
  intros a b off H. unfold load14.
  rewrite (load1_reads a b (off + offset14_t1)) by (intros k Hk; rewrite <- Nat.add_assoc; apply H; cbv [num_component14 offset14_t1 offset14_t2 offset14_t3 offset14_t4 compo_cnt1 compo_cnt2 compo_cnt3 compo_cnt4 compo_cnt5] in *; lia).
  rewrite (load2_reads a b (off + offset14_t2)) by (intros k Hk; rewrite <- Nat.add_assoc; apply H; cbv [num_component14 offset14_t1 offset14_t2 offset14_t3 offset14_t4 compo_cnt1 compo_cnt2 compo_cnt3 compo_cnt4 compo_cnt5] in *; lia).
  rewrite (load3_reads a b (off + offset14_t3)) by (intros k Hk; rewrite <- Nat.add_assoc; apply H; cbv [num_component14 offset14_t1 offset14_t2 offset14_t3 offset14_t4 compo_cnt1 compo_cnt2 compo_cnt3 compo_cnt4 compo_cnt5] in *; lia).
  rewrite (load4_reads a b (off + offset14_t4)) by (intros k Hk; rewrite <- Nat.add_assoc; apply H; cbv [num_component14 offset14_t1 offset14_t2 offset14_t3 offset14_t4 compo_cnt1 compo_cnt2 compo_cnt3 compo_cnt4 compo_cnt5] in *; lia).
  reflexivity.
Qed.
Lemma load14_store14 : forall s acc off, load14 (store14 s acc off) off = s.
Proof.
  intros s acc off. unfold load14, store14. cbv zeta.
  match goal with |- context [load1 ?a ?f] =>
    rewrite (load1_reads a (store1 (c14_t1 s) (fun j => 0) f) f); [rewrite load1_store1|] end.
  2:{ intros k Hk. unfold compo_cnt1 in Hk.
      rewrite store4_frame by (cbv [num_component14 offset14_t1 offset14_t2 offset14_t3 offset14_t4 compo_cnt1 compo_cnt2 compo_cnt3 compo_cnt4 compo_cnt5] in *; lia).
      rewrite store3_frame by (cbv [num_component14 offset14_t1 offset14_t2 offset14_t3 offset14_t4 compo_cnt1 compo_cnt2 compo_cnt3 compo_cnt4 compo_cnt5] in *; lia).
      rewrite store2_frame by (cbv [num_component14 offset14_t1 offset14_t2 offset14_t3 offset14_t4 compo_cnt1 compo_cnt2 compo_cnt3 compo_cnt4 compo_cnt5] in *; lia).
      unfold store1. rewrite !assigns_get. do 3 (destruct k as [|k]; [reflexivity|]). exfalso; lia. }
  match goal with |- context [load2 ?a ?f] =>
    rewrite (load2_reads a (store2 (c14_t2 s) (fun j => 0) f) f); [rewrite load2_store2|] end.
  2:{ intros k Hk. unfold compo_cnt2 in Hk.
      rewrite store4_frame by (cbv [num_component14 offset14_t1 offset14_t2 offset14_t3 offset14_t4 compo_cnt1 compo_cnt2 compo_cnt3 compo_cnt4 compo_cnt5] in *; lia).
      rewrite store3_frame by (cbv [num_component14 offset14_t1 offset14_t2 offset14_t3 offset14_t4 compo_cnt1 compo_cnt2 compo_cnt3 compo_cnt4 compo_cnt5] in *; lia).
      unfold store2. rewrite !assigns_get. do 6 (destruct k as [|k]; [reflexivity|]). exfalso; lia. }
  match goal with |- context [load3 ?a ?f] =>
    rewrite (load3_reads a (store3 (c14_t3 s) (fun j => 0) f) f); [rewrite load3_store3|] end.
  2:{ intros k Hk. unfold compo_cnt3 in Hk.
      rewrite store4_frame by (cbv [num_component14 offset14_t1 offset14_t2 offset14_t3 offset14_t4 compo_cnt1 compo_cnt2 compo_cnt3 compo_cnt4 compo_cnt5] in *; lia).
      unfold store3. rewrite !assigns_get. do 10 (destruct k as [|k]; [reflexivity|]). exfalso; lia. }
  match goal with |- context [load4 ?a ?f] =>
    rewrite (load4_reads a (store4 (c14_t4 s) (fun j => 0) f) f); [rewrite load4_store4|] end.
  2:{ intros k Hk. unfold compo_cnt4 in Hk.
      unfold store4. rewrite !assigns_get. do 15 (destruct k as [|k]; [reflexivity|]). exfalso; lia. }
  destruct s. reflexivity.
Qed.
Lemma buf14 : forall q acc c c',
  load14 (store14 q acc (c * num_component14)) (c' * num_component14) =
  if Nat.eqb c' c then q else load14 acc (c' * num_component14).
Proof.
  intros q acc c c'. destruct (Nat.eqb_spec c' c) as [->|Hn]; [apply load14_store14|].
  apply load14_reads. intros k Hk. apply store14_frame.
  assert (c' + 1 <= c \/ c + 1 <= c')%nat as [Hc|Hc] by lia; [left|right]; nia.
Qed.

Lemma store15_frame : forall s acc off j, (j < off \/ off + num_component15 <= j)%nat -> store15 s acc off j = acc j.
Proof.
  intros s acc off j H. unfold store15. cbv zeta.
  rewrite store5_frame by (cbv [num_component15 offset15_t1 offset15_t2 offset15_t3 offset15_t4 offset15_t5 compo_cnt1 compo_cnt2 compo_cnt3 compo_cnt4 compo_cnt5] in *; lia).
  rewrite store4_frame by (cbv [num_component15 offset15_t1 offset15_t2 offset15_t3 offset15_t4 offset15_t5 compo_cnt1 compo_cnt2 compo_cnt3 compo_cnt4 compo_cnt5] in *; lia).
  rewrite store3_frame by (cbv [num_component15 offset15_t1 offset15_t2 offset15_t3 offset15_t4 offset15_t5 compo_cnt1 compo_cnt2 compo_cnt3 compo_cnt4 compo_cnt5] in *; lia).
  rewrite store2_frame by (cbv [num_component15 offset15_t1 offset15_t2 offset15_t3 offset15_t4 offset15_t5 compo_cnt1 compo_cnt2 compo_cnt3 compo_cnt4 compo_cnt5] in *; lia).
  rewrite store1_frame by (cbv [num_component15 offset15_t1 offset15_t2 offset15_t3 offset15_t4 offset15_t5 compo_cnt1 compo_cnt2 compo_cnt3 compo_cnt4 compo_cnt5] in *; lia).
  reflexivity.
Qed.
Lemma load15_reads : forall a b off, (forall k, (k < num_component15)%nat -> a (off + k)%nat = b (off + k)%nat) ->
  load15 a off = load15 b off.
Proof.
  intros a b off H. unfold load15.
  rewrite (load1_reads a b (off + offset15_t1)) by (intros k Hk; rewrite <- Nat.add_assoc; apply H; cbv [num_component15 offset15_t1 offset15_t2 offset15_t3 offset15_t4 offset15_t5 compo_cnt1 compo_cnt2 compo_cnt3 compo_cnt4 compo_cnt5] in *; lia).
  rewrite (load2_reads a b (off + offset15_t2)) by (intros k Hk; rewrite <- Nat.add_assoc; apply H; cbv [num_component15 offset15_t1 offset15_t2 offset15_t3 offset15_t4 offset15_t5 compo_cnt1 compo_cnt2 compo_cnt3 compo_cnt4 compo_cnt5] in *; lia).
  rewrite (load3_reads a b (off + offset15_t3)) by (intros k Hk; rewrite <- Nat.add_assoc; apply H; cbv [num_component15 offset15_t1 offset15_t2 offset15_t3 offset15_t4 offset15_t5 compo_cnt1 compo_cnt2 compo_cnt3 compo_cnt4 compo_cnt5] in *; lia).
  rewrite (load4_reads a b (off + offset15_t4)) by (intros k Hk; rewrite <- Nat.add_assoc; apply H; cbv [num_component15 offset15_t1 offset15_t2 offset15_t3 offset15_t4 offset15_t5 compo_cnt1 compo_cnt2 compo_cnt3 compo_cnt4 compo_cnt5] in *; lia).
  rewrite (load5_reads a b (off + offset15_t5)) by (intros k Hk; rewrite <- Nat.add_assoc; apply H; cbv [num_component15 offset15_t1 offset15_t2 offset15_t3 offset15_t4 offset15_t5 compo_cnt1 compo_cnt2 compo_cnt3 compo_cnt4 compo_cnt5] in *; lia).
  reflexivity.
Qed.
Lemma load15_store15 : forall s acc off, load15 (store15 s acc off) off = s.
Proof.
  intros s acc off. unfold load15, store15. cbv zeta.
  match goal with |- context [load1 ?a ?f] =>
    rewrite (load1_reads a (store1 (c15_t1 s) (fun j => 0) f) f); [rewrite load1_store1|] end.
  2:{ intros k Hk. unfold compo_cnt1 in Hk.
      rewrite store5_frame by (cbv [num_component15 offset15_t1 offset15_t2 offset15_t3 offset15_t4 offset15_t5 compo_cnt1 compo_cnt2 compo_cnt3 compo_cnt4 compo_cnt5] in *; lia).
      rewrite store4_frame by (cbv [num_component15 offset15_t1 offset15_t2 offset15_t3 offset15_t4 offset15_t5 compo_cnt1 compo_cnt2 compo_cnt3 compo_cnt4 compo_cnt5] in *; lia).
      rewrite store3_frame by (cbv [num_component15 offset15_t1 offset15_t2 offset15_t3 offset15_t4 offset15_t5 compo_cnt1 compo_cnt2 compo_cnt3 compo_cnt4 compo_cnt5] in *; lia).
      rewrite store2_frame by (cbv [num_component15 offset15_t1 offset15_t2 offset15_t3 offset15_t4 offset15_t5 compo_cnt1 compo_cnt2 compo_cnt3 compo_cnt4 compo_cnt5] in *; lia).
      unfold store1. rewrite !assigns_get. do 3 (destruct k as [|k]; [reflexivity|]). exfalso; lia. }
  match goal with |- context [load2 ?a ?f] =>
    rewrite (load2_reads a (store2 (c15_t2 s) (fun j => 0) f) f); [rewrite load2_store2|] end.
  2:{ intros k Hk. unfold compo_cnt2 in Hk.
      rewrite store5_frame by (cbv [num_component15 offset15_t1 offset15_t2 offset15_t3 offset15_t4 offset15_t5 compo_cnt1 compo_cnt2 compo_cnt3 compo_cnt4 compo_cnt5] in *; lia).
      rewrite store4_frame by (cbv [num_component15 offset15_t1 offset15_t2 offset15_t3 offset15_t4 offset15_t5 compo_cnt1 compo_cnt2 compo_cnt3 compo_cnt4 compo_cnt5] in *; lia).
      rewrite store3_frame by (cbv [num_component15 offset15_t1 offset15_t2 offset15_t3 offset15_t4 offset15_t5 compo_cnt1 compo_cnt2 compo_cnt3 compo_cnt4 compo_cnt5] in *; lia).
      unfold store2. rewrite !assigns_get. do 6 (destruct k as [|k]; [reflexivity|]). exfalso; lia. }
  match goal with |- context [load3 ?a ?f] =>
    rewrite (load3_reads a (store3 (c15_t3 s) (fun j => 0) f) f); [rewrite load3_store3|] end.
  2:{ intros k Hk. unfold compo_cnt3 in Hk.
      rewrite store5_frame by (cbv [num_component15 offset15_t1 offset15_t2 offset15_t3 offset15_t4 offset15_t5 compo_cnt1 compo_cnt2 compo_cnt3 compo_cnt4 compo_cnt5] in *; lia).
      rewrite store4_frame by (cbv [num_component15 offset15_t1 offset15_t2 offset15_t3 offset15_t4 offset15_t5 compo_cnt1 compo_cnt2 compo_cnt3 compo_cnt4 compo_cnt5] in *; lia).
      unfold store3. rewrite !assigns_get. do 10 (destruct k as [|k]; [reflexivity|]). exfalso; lia. }
  match goal with |- context [load4 ?a ?f] =>
    rewrite (load4_reads a (store4 (c15_t4 s) (fun j => 0) f) f); [rewrite load4_store4|] end.
  2:{ intros k Hk. unfold compo_cnt4 in Hk.
      rewrite store5_frame by (cbv [num_component15 offset15_t1 offset15_t2 offset15_t3 offset15_t4 offset15_t5 compo_cnt1 compo_cnt2 compo_cnt3 compo_cnt4 compo_cnt5] in *; lia).
      unfold store4. rewrite !assigns_get. do 15 (destruct k as [|k]; [reflexivity|]). exfalso; lia. }
  match goal with |- context [load5 ?a ?f] =>
    rewrite (load5_reads a (store5 (c15_t5 s) (fun j => 0) f) f); [rewrite load5_store5|] end.
  2:{ intros k Hk. unfold compo_cnt5 in Hk.
      unfold store5. rewrite !assigns_get. do 21 (destruct k as [|k]; [reflexivity|]). exfalso; lia. }
  destruct s. reflexivity.
Qed.
Lemma buf15 : forall q acc c c',
  load15 (store15 q acc (c * num_component15)) (c' * num_component15) =
  if Nat.eqb c' c then q else load15 acc (c' * num_component15).
Proof.
  intros q acc c c'. destruct (Nat.eqb_spec c' c) as [->|Hn]; [apply load15_store15|].
  apply load15_reads. intros k Hk. apply store15_frame.
  assert (c' + 1 <= c \/ c + 1 <= c')%nat as [Hc|Hc] by lia; [left|right]; nia.
Qed.
