(** Proofs about the enforcement of the 2:1 balance: the derefinement sweeps and the geometry *)
From Verif Require Import Base Par Amr Amr_spec Amr_proofs Amr_lists Amr_geo TwoOne TwoOne_spec.
From Verif Require TwoOne_proofs.
From Coq Require Import ZArith ZifyBool ZifyNat.
Local Open Scope nat_scope.

Section Der.
Variables (cnt : nat) (lev : list Z) (graph : list (list nat)) (ref : list bool).
Hypothesis Hlev : length lev >= cnt.
Hypothesis Hgr : length graph >= cnt.
Hypothesis Href : length ref = cnt.
Hypothesis Hb : forall i, i < cnt -> (0 <= nth i lev 0 <= 62)%Z.

Definition fut_seen (D : list bool) (n : nat) : Z := w64 (nth n lev 0 + b2Z (nth n ref false) - b2Z (nth n D false))%Z.
Definition badlink (D : list bool) (i n : nat) : bool := (n <? cnt) && (nth i lev 0 <? fut_seen D n)%Z.
Definition bad (D : list bool) (i : nat) : bool := existsb (fun j => existsb (badlink D i) (nth (i + j) graph [])) (seq 0 8).
Definition gnew (D : list bool) (i : nat) : bool := nth i D false && negb (bad D i).

Lemma w64_back x : (0 <= x <= 62)%Z -> w64 (w64 (x - 1) + 1) = x.
Proof.
  intros H. unfold w64, wrapZ. rewrite Zplus_mod_idemp_l. replace (x - 1 + 1)%Z with x by lia. apply Z.mod_small.
  change (2 ^ 64)%Z with 18446744073709551616%Z. lia.
Qed.
Lemma der_check_ok D i n f : length D = cnt -> i < cnt -> der_check cnt lev ref D i n f = Ok (f && negb (badlink D i n)).
Proof.
  intros LD Hi. unfold der_check, badlink. destruct (Nat.ltb_spec n cnt) as [Hn|Hn]; cbn [andb]; [|now rewrite andb_true_r].
  rewrite (aget_lt lev _ 0%Z) by lia. cbn [rbind]. rewrite (aget_lt ref _ false) by lia. cbn [rbind]. rewrite (aget_lt D _ false) by lia. cbn [rbind].
  rewrite (aget_lt lev _ 0%Z) by lia. cbn [rbind]. rewrite w64_back by auto. fold (fut_seen D n).
  destruct (nth i lev 0 <? fut_seen D n)%Z; cbn [negb]; now rewrite ?andb_true_r, ?andb_false_r.
Qed.
Lemma der_links_ok D i l : length D = cnt -> i < cnt -> forall f, rfold (der_check cnt lev ref D i) l f = Ok (f && negb (existsb (badlink D i) l)).
Proof.
  intros LD Hi. induction l as [|n l IH]; intros f; cbn [rfold existsb]; [now rewrite andb_true_r|].
  rewrite der_check_ok by auto. cbn [rbind]. rewrite IH. now rewrite negb_orb, andb_assoc.
Qed.
Lemma der_item_ok D i : length D = cnt -> i < cnt -> (nth i D false = true -> i + 8 <= cnt) -> der_item cnt lev graph ref D i = Ok (gnew D i).
Proof.
  intros LD Hi H8. unfold der_item, gnew. rewrite (aget_lt D _ false) by lia. cbn [rbind]. destruct (nth i D false); [|reflexivity]. specialize (H8 eq_refl).
  cbn [andb]. unfold bad. assert (G : forall js f, (forall j, In j js -> j < 8) ->
     rfold (fun j fl => l <- aget graph (i + j) ;; rfold (der_check cnt lev ref D i) l fl) js f = Ok (f && negb (existsb (fun j => existsb (badlink D i) (nth (i + j) graph [])) js))).
  { induction js as [|j js IH]; intros f Hj; cbn [rfold existsb]; [now rewrite andb_true_r|].
    assert (j < 8) by (apply Hj; now left). rewrite (aget_lt graph _ []) by lia. cbn [rbind]. rewrite der_links_ok by auto. cbn [rbind].
    rewrite IH by (intros; apply Hj; now right). now rewrite negb_orb, andb_assoc. }
  rewrite G by (intros j Hj; apply in_seq in Hj; lia). reflexivity.
Qed.

Definition groups (D : list bool) : Prop := length D = cnt /\ forall i, nth i D false = true -> i + 8 <= cnt /\ nth i ref false = false.
Lemma sweep_ok D order other : groups D -> length other = cnt -> Permutation order (seq 0 cnt) ->
  par_write (der_item cnt lev graph ref D) order other = Ok (map (gnew D) (seq 0 cnt)).
Proof. intros (LD & G) LO HP. apply par_write_ok; auto. intros i Hi. apply der_item_ok; auto. intros X. apply (G i X). Qed.
Lemma gnew_nth D i : length D = cnt -> nth i (map (gnew D) (seq 0 cnt)) false = gnew D i.
Proof.
  intros LD. destruct (Nat.lt_ge_cases i cnt) as [H|H].
  - rewrite (nth_indep _ _ (gnew D 0)) by (rewrite map_length, seq_length; lia). rewrite map_nth, seq_nth by lia. reflexivity.
  - rewrite nth_overflow by (rewrite map_length, seq_length; lia). unfold gnew. now rewrite nth_overflow by lia.
Qed.

Definition dfront (D : list bool) (B : Z) : Prop := forall i, nth i D false = true -> bad D i = true -> (nth i lev 0 <= B)%Z.
Lemma bad_spec D i : bad D i = true <-> exists j n, j < 8 /\ In n (nth (i + j) graph []) /\ n < cnt /\ (nth i lev 0 < fut_seen D n)%Z.
Proof.
  unfold bad. rewrite existsb_exists. split.
  - intros (j & Hj & E). apply existsb_exists in E as (n & Hn & E). unfold badlink in E. apply andb_true_iff in E as [E1 E2].
    apply Nat.ltb_lt in E1. apply Z.ltb_lt in E2. apply in_seq in Hj. exists j, n. repeat split; auto; lia.
  - intros (j & n & Hj & Hn & Hc & H). exists j. split; [apply in_seq; lia|]. apply existsb_exists. exists n. split; auto.
    unfold badlink. apply andb_true_iff. split; [now apply Nat.ltb_lt|now apply Z.ltb_lt].
Qed.

Lemma der_loop_ok fuel : forall pass B D other order, groups D -> length other = cnt -> (forall p, Permutation (order p) (seq 0 cnt)) ->
  dfront D B -> (B + 1 < Z.of_nat fuel)%Z -> 0 < fuel ->
  exists D', der_loop fuel pass cnt lev graph ref order D other = Ok D' /\ length D' = cnt /\
    (forall i, nth i D' false = true -> nth i D false = true) /\ forall i, nth i D' false = true -> bad D' i = false.
Proof.
  induction fuel as [|fuel IH]; intros pass B D other order G LO HO HF HB Hf; [lia|]. cbn [der_loop].
  rewrite sweep_ok by auto. cbn [rbind]. pose proof G as (LD & G').
  set (D1 := map (gnew D) (seq 0 cnt)). assert (L1 : length D1 = cnt) by (unfold D1; now rewrite map_length, seq_length).
  assert (N1 : forall i, nth i D1 false = gnew D i) by (intros; now apply gnew_nth).
  assert (SUB : forall i, nth i D1 false = true -> nth i D false = true).
  { intros i Hi. rewrite N1 in Hi. unfold gnew in Hi. apply andb_true_iff in Hi. tauto. }
  destruct (existsb (fun i => xorb (nth i D false) (nth i D1 false)) (seq 0 cnt)) eqn:CH.
  - apply existsb_exists in CH as (m & Hm & X). apply in_seq in Hm.
    assert (Y : nth m D false = true /\ bad D m = true).
    { rewrite N1 in X. unfold gnew in X. destruct (nth m D false), (bad D m); cbn in X; auto; discriminate. }
    assert (Z0 : (0 <= B)%Z) by (pose proof (HF m (proj1 Y) (proj2 Y)); pose proof (Hb m ltac:(lia)); lia).
    destruct (IH (S pass) (B - 1)%Z D1 D order) as (D' & E & L' & S' & F'); auto; try lia.
    + split; auto.
    + intros i Hi Hbad. apply bad_spec in Hbad as (j & n & Hj & Hn & Hc & Hlt).
      assert (NB : bad D i = false) by (rewrite N1 in Hi; unfold gnew in Hi; apply andb_true_iff in Hi as [_ Hi]; now apply negb_true_iff in Hi).
      assert (Q : ~ (nth i lev 0 < fut_seen D n)%Z).
      { intros Q. assert (bad D i = true); [|congruence]. apply bad_spec. exists j, n. auto. }
      assert (Hi' : i < cnt) by (destruct (Nat.lt_ge_cases i cnt); auto; rewrite nth_overflow in Hi by lia; discriminate).
      pose proof (Hb i Hi') as Bi. pose proof (Hb n Hc) as Bn. unfold fut_seen in *.
      destruct (nth n D1 false) eqn:E1.
      { rewrite (SUB n E1) in Q. lia. }
      destruct (nth n D false) eqn:E0; [|lia]. destruct (G' n E0) as (_ & R0). rewrite R0 in *. cbn [b2Z] in *.
      assert (BN : bad D n = true). { rewrite N1 in E1. unfold gnew in E1. rewrite E0 in E1. destruct (bad D n); auto. }
      pose proof (HF n E0 BN). rewrite Z.add_0_r, Z.sub_0_r in Hlt. rewrite TwoOne_proofs.w64_small in Hlt by lia.
      rewrite Z.add_0_r, TwoOne_proofs.w64_small in Q by lia. lia.
    + exists D'. split; auto.
  - exists D1. split; auto. split; auto. split; auto. intros i Hi.
    assert (EQ : forall k, nth k D1 false = nth k D false).
    { intros k. destruct (Nat.lt_ge_cases k cnt) as [Hk|Hk]; [|rewrite !nth_overflow; auto; lia].
      destruct (nth k D1 false) eqn:A, (nth k D false) eqn:C; auto; exfalso; assert (T : existsb (fun i => xorb (nth i D false) (nth i D1 false)) (seq 0 cnt) = true); try congruence;
        apply existsb_exists; exists k; (split; [apply in_seq; lia|now rewrite A, C]). }
    assert (BE : bad D1 i = bad D i).
    { apply Bool.eq_true_iff_eq. rewrite !bad_spec. unfold fut_seen. split; intros (j & n & ? & ? & ? & Q); exists j, n; rewrite EQ in *; auto. }
    rewrite BE. rewrite N1 in Hi. unfold gnew in Hi. apply andb_true_iff in Hi as [_ Hi]. now apply negb_true_iff in Hi.
Qed.
End Der.

(* ---------- geometry ---------- *)
Local Open Scope Z_scope.
Definition zorder (i : nat) : nat := nth i [0; 4; 2; 6; 1; 5; 3; 7]%nat 0%nat.
Lemma min8 a b c d e f g h : Z.min (Z.min (Z.min a e) (Z.min c g)) (Z.min (Z.min b f) (Z.min d h)) = Z.min (Z.min (Z.min a b) (Z.min c d)) (Z.min (Z.min e f) (Z.min g h)).
Proof. apply Z.le_antisymm; repeat apply Z.min_glb; rewrite !Z.min_le_iff; pose proof Z.le_refl; auto 10. Qed.
Lemma max8 a b c d e f g h : Z.max (Z.max (Z.max a e) (Z.max c g)) (Z.max (Z.max b f) (Z.max d h)) = Z.max (Z.max (Z.max a b) (Z.max c d)) (Z.max (Z.max e f) (Z.max g h)).
Proof. apply Z.le_antisymm; repeat apply Z.max_lub; rewrite !Z.max_le_iff; pose proof Z.le_refl; auto 10. Qed.
Lemma mergeable_z_old (o : list (Z3 * Z3)) : length o = 8%nat -> are_mergeable_z o = true ->
  are_mergeable (map (fun i => nth (zorder i) o ((0, 0, 0), (0, 0, 0))) (seq 0 8)) = true.
Proof.
  intros L M.
  destruct o as [|[a0 b0] [|[a1 b1] [|[a2 b2] [|[a3 b3] [|[a4 b4] [|[a5 b5] [|[a6 b6] [|[a7 b7] [|]]]]]]]]]; try discriminate L.
  unfold are_mergeable, are_mergeable_z in *. cbn [seq map zorder nth] in *.
  assert (EM : get_merge [(a0, b0); (a4, b4); (a2, b2); (a6, b6); (a1, b1); (a5, b5); (a3, b3); (a7, b7)] =
               get_merge [(a0, b0); (a1, b1); (a2, b2); (a3, b3); (a4, b4); (a5, b5); (a6, b6); (a7, b7)]).
  { clear. unfold get_merge, get_merge2, zip3, px, py, pz. cbn [nth fst snd]. repeat apply (f_equal2 pair); (apply min8 || apply max8). }
  rewrite EM. destruct (get_merge [(a0, b0); (a1, b1); (a2, b2); (a3, b3); (a4, b4); (a5, b5); (a6, b6); (a7, b7)]) as [mn mx].
  cbn [fst snd] in *. clear EM L.
  assert (ES : forall i, (i < 8)%nat -> nth i (get_split mn mx) ((0, 0, 0), (0, 0, 0)) = nth (zorder i) (get_split_z mn mx) ((0, 0, 0), (0, 0, 0))).
  { intros i Hi. unfold get_split, get_split_z, get_split_coord.
    assert (EZ : zip3 (fun a b => a + Z.quot (b - a) 2) mn mx = zip3 (fun a b => Z.quot (b - a) 2 + a) mn mx) by (unfold zip3; now rewrite !(Z.add_comm _ (Z.quot _ _))).
    rewrite EZ. do 8 (destruct i as [|i]; [reflexivity|]). lia. }
  rewrite forallb_forall in *. intros i Hi. change [0; 1; 2; 3; 4; 5; 6; 7]%nat with (seq 0 8) in Hi. apply in_seq in Hi. rewrite ES by lia.
  specialize (M (zorder i)). unfold same_box in M.
  assert (W : In (zorder i) [0; 1; 2; 3; 4; 5; 6; 7]%nat) by (do 8 (destruct i as [|i]; [cbn; tauto|]); lia).
  specialize (M W). clear W ES. do 8 (destruct i as [|i]; [exact M|]). lia.
Qed.

