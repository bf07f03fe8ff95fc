(** The multipass implementation computes, up to the order, the events of the dual walk. *)
From Verif Require Import Base Par Karras Karras_spec Traverse Traverse_spec Traverse_proofs Reduction Scan Scan_spec SortSearch BVH BVH_spec
  Dtt Dtt_spec Dtt_tree Dtt_ref Dtt_segs.
From Coq Require Import ZifyBool ZifyNat.
Local Open Scope nat_scope.

(** the implementation of the in place scan is correct *)
Lemma length_resize {A} (junk : nat -> list A) buf n : (forall k, length (junk k) = k) -> length (resize junk buf n) = n.
Proof. intros H. unfold resize. rewrite app_length, firstn_length, H. lia. Qed.
Lemma length_resize_max {A} (junk : nat -> list A) buf n : (forall k, length (junk k) = k) -> n <= length (resize_max junk buf n).
Proof. intros H. unfold resize_max. destruct (length buf <? n) eqn:E; [rewrite length_resize by auto; lia|lia]. Qed.
Lemma firstn_resize {A} (junk : nat -> list A) buf n k : k <= n -> k <= length buf -> firstn k (resize junk buf n) = firstn k buf.
Proof.
  intros H1 H2. unfold resize. rewrite firstn_app, firstn_firstn, firstn_length. replace (Nat.min k n) with k by lia.
  replace (k - Nat.min n (length buf)) with 0 by lia. now rewrite firstn_O, app_nil_r.
Qed.
Lemma fill_ok n buf : n <= length buf -> (Z.of_nat n < 2 ^ 31)%Z -> fill_prefix 0 n buf = Ok (repeat 0%Z n ++ skipn n buf).
Proof. intros H1 H2. unfold fill_prefix. replace (length buf <? n) with false by lia. destruct (Z.leb_spec (2 ^ 31) (Z.of_nat n)); [lia|reflexivity]. Qed.
Lemma idx32_small z : (0 <= z < 2 ^ 32)%Z -> idx32 z = Z.to_nat z.
Proof. intros. unfold idx32. now rewrite w32_small. Qed.
Lemma P30 : (2 ^ 30 = 1073741824)%Z. Proof. reflexivity. Qed.
Lemma P31 : (2 ^ 31 = 2147483648)%Z. Proof. reflexivity. Qed.
Lemma P32 : (2 ^ 32 = 4294967296)%Z. Proof. reflexivity. Qed.

Section Scan.
  Context {C : Type} (leb : C -> C -> bool) (mac : vec C * vec C -> vec C * vec C -> bool) (B : @bvh C) (t0 : tree).
  Hypothesis LK : linked B t0.
  Variable low : bool.
  Notation off := (length (b_cells B)).
  Notation nid := (node_id (length (b_cells B))).
  Notation idp := (idp B).
  Notation macT := (macT mac B).

  (** the pairs pushed for a task, in the order of the kernel *)
  Definition sk (p : tpair) : list tpair :=
    if macT (fst p) (snd p) then [] else
    match kids low (fst p) (snd p) with
    | None => []
    | Some l => if low then l else match l with [x; y; z; w] => [x; z; y; w] | _ => l end
    end.
  Definition mev (p : tpair) : list tpair := if macT (fst p) (snd p) then [p] else [].
  Definition pev (p : tpair) : list tpair :=
    if macT (fst p) (snd p) then [] else match kids low (fst p) (snd p) with None => [p] | Some _ => [] end.
  Lemma sk_perm p l : macT (fst p) (snd p) = false -> kids low (fst p) (snd p) = Some l -> Permutation (sk p) l.
  Proof.
    intros M E. unfold sk. rewrite M, E. destruct low; auto. destruct l as [|x [|y [|z [|w [|v l]]]]]; auto. apply perm_skip, perm_swap.
  Qed.
  Lemma sk_in p q : In q (sk p) -> exists l, kids low (fst p) (snd p) = Some l /\ In q l.
  Proof.
    unfold sk. destruct (macT (fst p) (snd p)) eqn:M; [intros []|]. destruct (kids low (fst p) (snd p)) as [l|] eqn:E; [|intros []].
    intros H. exists l. split; auto. eapply Permutation_in; [apply (sk_perm p l M E)|]. unfold sk. now rewrite M, E.
  Qed.
  Lemma sk_len p : length (sk p) <= 4.
  Proof.
    unfold sk. destruct (macT _ _); [simpl; lia|]. destruct (kids low (fst p) (snd p)) as [l|] eqn:E; [|simpl; lia].
    assert (length l <= 4) by (rewrite (kids_form _ _ _ _ E); destruct (fst p), (snd p); simpl; lia).
    destruct low; auto. destruct l as [|x [|y [|z [|w [|v l]]]]]; simpl in *; lia.
  Qed.
  Lemma sk_len4 p : low = false -> length (sk p) = 0 \/ length (sk p) = 4.
  Proof.
    intros EL. unfold sk. rewrite EL. destruct (macT _ _); auto. destruct (kids false (fst p) (snd p)) as [l|] eqn:E; auto.
    destruct (fst p), (snd p); cbn [kids] in E; try discriminate. destruct (negb false && _); [discriminate|]. injection E as <-. auto.
  Qed.

  (* ---------------------------------------------------------------- *)
  (** the main kernel *)
  Lemma push_ok i L : forall nx (pc : nat), pc + length L <= 4 -> 4 * i + 4 <= length nx -> (Z.of_nat i < 2 ^ 30)%Z ->
    rfold (push_task i) L (nx, Z.of_nat pc) =
    Ok (writel (4 * i + pc) (map snd (filter fst L)) nx, Z.of_nat (pc + length (filter fst L))).
  Proof.
    rewrite P30. induction L as [|[r q] L IH]; intros nx pc HL HN HI; cbn [length] in HL.
    - cbn [rfold filter map length]. rewrite writel_nil, Nat.add_0_r. reflexivity.
    - cbn [rfold filter fst]. unfold push_task at 1. cbn [fst snd]. destruct r.
      + rewrite (w32_small (Z.of_nat i * 4)) by (rewrite P32; lia). rewrite idx32_small by (rewrite P32; lia).
        replace (Z.to_nat (Z.of_nat i * 4 + Z.of_nat pc)) with (4 * i + pc) by lia. rewrite aset_lt by lia. cbn [rbind].
        rewrite w32_small by (rewrite P32; lia). replace (Z.of_nat pc + 1)%Z with (Z.of_nat (S pc)) by lia.
        assert (FL : length (filter fst L) <= length L) by (clear; induction L as [|[[] ?] L IH]; simpl; lia).
        rewrite IH by (rewrite ?length_upd; lia). cbn [map snd length]. f_equal. f_equal; [|lia].
        replace (4 * i + S pc) with (S (4 * i + pc)) by lia. apply writel_cons. rewrite map_length. lia.
      + cbn [rbind]. rewrite IH by lia. reflexivity.
  Qed.

  Variable T : list tpair.
  Let n := length T.
  Hypothesis HT : forall p, In p T -> sub2 t0 p /\ okp low p.
  Hypothesis Hn : (Z.of_nat n < 2 ^ 30)%Z.
  Definition d0 : tpair := (Leaf 0, Leaf 0).
  Definition tk (i : nat) : tpair := nth i T d0.

  Definition kst : Type := list Z * list ipair * (list Z * list ipair) * (list Z * list ipair).
  Definition k_ht (s : kst) := fst (fst (fst s)).
  Definition k_nx (s : kst) := snd (fst (fst s)).
  Definition k_hm (s : kst) := fst (snd (fst s)).
  Definition k_pm (s : kst) := snd (snd (fst s)).
  Definition k_hp (s : kst) := fst (snd s).
  Definition k_pp (s : kst) := snd (snd s).
  Definition sizes (s : kst) : Prop :=
    n + 1 <= length (k_ht s) /\ 4 * n <= length (k_nx s) /\ n + 1 <= length (k_hm s) /\ n <= length (k_pm s) /\
    n + 1 <= length (k_hp s) /\ n <= length (k_pp s).
  Definition fresh (i : nat) (s : kst) : Prop :=
    nth i (k_ht s) 0%Z = 0%Z /\ nth i (k_hm s) 0%Z = 0%Z /\ nth i (k_hp s) 0%Z = 0%Z.
  Definition done (i : nat) (s : kst) : Prop :=
    nth i (k_ht s) 0%Z = Z.of_nat (length (sk (tk i))) /\
    (forall j, j < length (sk (tk i)) -> nth_error (k_nx s) (4 * i + j) = nth_error (map idp (sk (tk i))) j) /\
    nth i (k_hm s) 0%Z = Z.of_nat (length (mev (tk i))) /\ (mev (tk i) <> [] -> nth_error (k_pm s) i = Some (idp (tk i))) /\
    nth i (k_hp s) 0%Z = Z.of_nat (length (pev (tk i))) /\ (pev (tk i) <> [] -> nth_error (k_pp s) i = Some (idp (tk i))).
  Definition frame (i : nat) (s s' : kst) : Prop :=
    (forall j, j <> i -> nth j (k_ht s') 0%Z = nth j (k_ht s) 0%Z) /\
    (forall x, x < 4 * i \/ 4 * i + 4 <= x -> nth_error (k_nx s') x = nth_error (k_nx s) x) /\
    (forall j, j <> i -> nth j (k_hm s') 0%Z = nth j (k_hm s) 0%Z) /\ (forall j, j <> i -> nth_error (k_pm s') j = nth_error (k_pm s) j) /\
    (forall j, j <> i -> nth j (k_hp s') 0%Z = nth j (k_hp s) 0%Z) /\ (forall j, j <> i -> nth_error (k_pp s') j = nth_error (k_pp s) j).

  Lemma cur_get i : i < n -> aget (map idp T) i = Ok (idp (tk i)).
  Proof. intros H. apply aget_ok. rewrite nth_error_map. unfold tk. rewrite (nth_error_nth' T d0) by (fold n; lia). reflexivity. Qed.
  Lemma tk_ok i : i < n -> sub2 t0 (tk i) /\ okp low (tk i).
  Proof. intros H. apply HT. apply nth_In. auto. Qed.

  (** the three ways a task ends *)
  Lemma fin_m2l i s : i < n -> sizes s -> fresh i s -> macT (fst (tk i)) (snd (tk i)) = true ->
    exists s', (let '(ht, nx, (hm, pm), (hp, pp)) := s in
      pm <- aset pm i (idp (tk i)) ;; hm <- aset hm i 1%Z ;; Ok (ht, nx, (hm, pm), (hp, pp))) = Ok s' /\ sizes s' /\ done i s' /\ frame i s s'.
  Proof.
    intros Hi SZ FR M. destruct s as [[[ht nx] [hm pm]] [hp pp]]. destruct SZ as (Z1 & Z2 & Z3 & Z4 & Z5 & Z6). destruct FR as (F1 & F2 & F3).
    cbn [k_ht k_nx k_hm k_pm k_hp k_pp fst snd] in *. rewrite aset_lt by lia. cbn [rbind]. rewrite aset_lt by lia. cbn [rbind].
    eexists. split; [reflexivity|]. unfold sizes, done, frame, k_ht, k_nx, k_hm, k_pm, k_hp, k_pp. cbn [fst snd].
    rewrite ?length_upd. unfold sk, mev, pev. rewrite M. cbn [length]. split; [repeat split; lia|]. split.
    - split; [auto|]. split; [intros j Hj; lia|]. split; [rewrite nth_upd_eq by lia; reflexivity|].
      split; [intros _; apply nth_error_upd_eq; lia|]. split; [auto|intros X; congruence].
    - repeat split; auto; intros; first [apply nth_upd_neq; auto | apply nth_error_upd_neq; auto].
  Qed.
  Lemma fin_p2p i s : i < n -> sizes s -> fresh i s -> macT (fst (tk i)) (snd (tk i)) = false -> kids low (fst (tk i)) (snd (tk i)) = None ->
    exists s', (let '(ht, nx, (hm, pm), (hp, pp)) := s in
      pp <- aset pp i (idp (tk i)) ;; hp <- aset hp i 1%Z ;; Ok (ht, nx, (hm, pm), (hp, pp))) = Ok s' /\ sizes s' /\ done i s' /\ frame i s s'.
  Proof.
    intros Hi SZ FR M K. destruct s as [[[ht nx] [hm pm]] [hp pp]]. destruct SZ as (Z1 & Z2 & Z3 & Z4 & Z5 & Z6). destruct FR as (F1 & F2 & F3).
    cbn [k_ht k_nx k_hm k_pm k_hp k_pp fst snd] in *. rewrite aset_lt by lia. cbn [rbind]. rewrite aset_lt by lia. cbn [rbind].
    eexists. split; [reflexivity|]. unfold sizes, done, frame, k_ht, k_nx, k_hm, k_pm, k_hp, k_pp. cbn [fst snd].
    rewrite ?length_upd. unfold sk, mev, pev. rewrite M, K. cbn [length]. split; [repeat split; lia|]. split.
    - split; [auto|]. split; [intros j Hj; lia|]. split; [auto|]. split; [intros X; congruence|].
      split; [rewrite nth_upd_eq by lia; reflexivity|]. intros _; apply nth_error_upd_eq; lia.
    - repeat split; auto; intros; first [apply nth_upd_neq; auto | apply nth_error_upd_neq; auto].
  Qed.
  Lemma fin_task i s : i < n -> sizes s -> fresh i s -> macT (fst (tk i)) (snd (tk i)) = false -> kids low (fst (tk i)) (snd (tk i)) <> None ->
    exists s', (let '(ht, nx, (hm, pm), (hp, pp)) := s in
      h <- aget ht i ;; ht <- aset ht i (w32 (h + Z.of_nat (length (sk (tk i))))) ;;
      Ok (ht, writel (4 * i) (map idp (sk (tk i))) nx, (hm, pm), (hp, pp))) = Ok s' /\ sizes s' /\ done i s' /\ frame i s s'.
  Proof.
    intros Hi SZ FR M K. destruct s as [[[ht nx] [hm pm]] [hp pp]]. destruct SZ as (Z1 & Z2 & Z3 & Z4 & Z5 & Z6). destruct FR as (F1 & F2 & F3).
    unfold k_ht, k_nx, k_hm, k_pm, k_hp, k_pp in *. cbn [fst snd] in *. rewrite (aget_lt ht i 0%Z) by lia. cbn [rbind].
    rewrite aset_lt by lia. cbn [rbind]. rewrite F1. rewrite Z.add_0_l. pose proof (sk_len (tk i)) as L4. rewrite w32_small by (rewrite P32; lia).
    assert (FIT : 4 * i + length (map idp (sk (tk i))) <= length nx) by (rewrite map_length; lia).
    eexists. split; [reflexivity|]. unfold sizes, done, frame, k_ht, k_nx, k_hm, k_pm, k_hp, k_pp. cbn [fst snd].
    rewrite ?length_upd, ?length_writel by auto. split; [repeat split; lia|].
    assert (ME : mev (tk i) = []) by (unfold mev; now rewrite M).
    assert (PE : pev (tk i) = []) by (unfold pev; rewrite M; destruct (kids low (fst (tk i)) (snd (tk i))); congruence).
    rewrite ME, PE. cbn [length]. split.
    - split; [rewrite nth_upd_eq by lia; reflexivity|]. split; [intros j Hj; apply nth_writel_in; rewrite ?map_length in *; lia|].
      repeat split; auto; congruence.
    - repeat split; auto; intros; try (apply nth_upd_neq; auto). apply nth_writel_out; auto. rewrite map_length. lia.
  Qed.

  Lemma writel4 (k : nat) (x y z w : ipair) buf : k + 4 <= length buf ->
    upd (upd (upd (upd buf k x) (k + 1) y) (k + 2) z) (k + 3) w = writel k [x; y; z; w] buf.
  Proof.
    intros H. rewrite <- writel_cons by (simpl; lia). rewrite <- writel_cons by (rewrite length_upd; simpl; lia).
    rewrite <- writel_cons by (rewrite !length_upd; simpl; lia). rewrite writel_one by (rewrite !length_upd; lia).
    replace (k + 1) with (S k) by lia. replace (k + 2) with (S (S k)) by lia. replace (k + 3) with (S (S (S k))) by lia. reflexivity.
  Qed.

  Lemma item_ok i s : i < n -> sizes s -> fresh i s ->
    exists s', main_item mac B low (map idp T) i s = Ok s' /\ sizes s' /\ done i s' /\ frame i s s'.
  Proof.
    intros Hi SZ FR. destruct (tk_ok i Hi) as [S2 OK]. pose proof (crit_ok mac B t0 LK (tk i) S2) as CR.
    pose proof (fin_m2l i s Hi SZ FR) as FM. pose proof (fin_p2p i s Hi SZ FR) as FP. pose proof (fin_task i s Hi SZ FR) as FT.
    pose proof SZ as SZ'.
    destruct s as [[[ht nx] [hm pm]] [hp pp]]. unfold main_item. rewrite cur_get by auto. cbn [rbind].
    change (fst (idp (tk i))) with (nid (fst (tk i))). change (snd (idp (tk i))) with (nid (snd (tk i))).
    change (nid (fst (tk i)), nid (snd (tk i))) with (idp (tk i)).
    rewrite CR. cbn [rbind]. destruct (macT (fst (tk i)) (snd (tk i))) eqn:M; cbn [negb].
    { apply FM. reflexivity. }
    clear FM CR. destruct S2 as [H1 H2]. specialize (FP eq_refl). specialize (FT eq_refl).
    assert (NX : 4 * i + 4 <= length nx) by (destruct SZ' as (_ & X & _); cbn [k_nx fst snd] in X; unfold k_nx in X; cbn [fst snd] in X; lia).
    assert (BI : (Z.of_nat i < 2 ^ 30)%Z) by lia.
    assert (SK : forall l, kids low (fst (tk i)) (snd (tk i)) = Some l -> sk (tk i) = if low then l else match l with [x; y; z; w] => [x; z; y; w] | _ => l end)
      by (intros l E; unfold sk; now rewrite M, E).
    clear SZ' SZ FR.
    destruct low eqn:EL.
    - rewrite !(leaf_ok B t0 LK) by auto. unfold left_or_self, right_or_self.
      remember (fst (tk i)) as t. remember (snd (tk i)) as u.
      destruct t as [x|ia a b], u as [x'|ib a' b']; cbn [leafb andb negb rbind] in *.
      + apply FP. reflexivity.
      + destruct (child_ids B t0 LK _ _ _ H2) as (E1 & E2 & _ & _). change (nid (Node ib a' b')) with ib. rewrite E1, E2. cbn [rbind].
        rewrite (push_ok i _ nx 0) by (auto; simpl; lia). cbn [rbind fst snd filter map length]. rewrite Nat.add_0_r.
        cbn [kids] in *. rewrite (SK _ eq_refl) in FT. apply FT. discriminate.
      + destruct (child_ids B t0 LK _ _ _ H1) as (E1 & E2 & _ & _). change (nid (Node ia a b)) with ia. rewrite E1, E2. cbn [rbind].
        rewrite (push_ok i _ nx 0) by (auto; simpl; lia). cbn [rbind fst snd filter map length]. rewrite Nat.add_0_r.
        cbn [kids] in *. rewrite (SK _ eq_refl) in FT. apply FT. discriminate.
      + destruct (child_ids B t0 LK _ _ _ H1) as (E1 & E2 & _ & _). destruct (child_ids B t0 LK _ _ _ H2) as (E3 & E4 & _ & _).
        change (nid (Node ia a b)) with ia. change (nid (Node ib a' b')) with ib. rewrite E1, E2, E3, E4. cbn [rbind].
        rewrite (push_ok i _ nx 0) by (auto; simpl; lia). cbn [rbind fst snd filter map length]. rewrite Nat.add_0_r.
        cbn [kids negb andb] in *. rewrite (SK _ eq_refl) in FT. apply FT. discriminate.
    - destruct OK as [X|[L1 L2]]; [discriminate|].
      remember (fst (tk i)) as t. remember (snd (tk i)) as u.
      destruct t as [x|ia a b]; [discriminate|]. destruct u as [x'|ib a' b']; [discriminate|].
      destruct (child_ids B t0 LK _ _ _ H1) as (E1 & E2 & Ia & Ib). destruct (child_ids B t0 LK _ _ _ H2) as (E3 & E4 & Ia' & Ib').
      change (nid (Node ia a b)) with ia. change (nid (Node ib a' b')) with ib. rewrite E1, E2, E3, E4. cbn [rbind].
      rewrite !(leaf_ok B t0 LK) by auto. cbn [kids negb andb] in *. destruct (leafb a || leafb b || leafb a' || leafb b').
      + apply FP. reflexivity.
      + rewrite (SK _ eq_refl) in FT. cbv beta zeta. rewrite P30 in BI. rewrite (w32_small (Z.of_nat i * 4)) by (rewrite P32; lia).
        rewrite !idx32_small by (rewrite P32; lia).
        replace (Z.to_nat (Z.of_nat i * 4 + 0)) with (4 * i) by lia. replace (Z.to_nat (Z.of_nat i * 4 + 1)) with (4 * i + 1) by lia.
        replace (Z.to_nat (Z.of_nat i * 4 + 2)) with (4 * i + 2) by lia. replace (Z.to_nat (Z.of_nat i * 4 + 3)) with (4 * i + 3) by lia.
        rewrite aset_lt by lia. cbn [rbind]. rewrite aset_lt by (rewrite length_upd; lia). cbn [rbind].
        rewrite aset_lt by (rewrite !length_upd; lia). cbn [rbind]. rewrite aset_lt by (rewrite !length_upd; lia). cbn [rbind].
        rewrite writel4 by auto. apply FT. discriminate.
  Qed.

  Lemma frame_trans_done i j s s' : i <> j -> done i s -> frame j s s' -> done i s'.
  Proof.
    intros N (D1 & D2 & D3 & D4 & D5 & D6) (F1 & F2 & F3 & F4 & F5 & F6). pose proof (sk_len (tk i)).
    unfold done. rewrite F1, F3, F4, F5, F6 by auto. repeat split; auto. intros x Hx. rewrite F2 by lia. auto.
  Qed.
  Lemma frame_fresh i j s s' : i <> j -> fresh i s -> frame j s s' -> fresh i s'.
  Proof. intros N (D1 & D2 & D3) (F1 & F2 & F3 & F4 & F5 & F6). unfold fresh. rewrite F1, F3, F5 by auto. auto. Qed.

  Lemma kernel_ok order s : Permutation order (seq 0 n) -> sizes s -> (forall i, i < n -> fresh i s) ->
    exists s', par_for order (main_item mac B low (map idp T)) s = Ok s' /\ sizes s' /\ forall i, i < n -> done i s'.
  Proof.
    intros HP SZ FR.
    assert (G : forall o, NoDup o -> (forall i, In i o -> i < n) -> forall s, sizes s -> (forall i, In i o -> fresh i s) ->
      exists s', par_for o (main_item mac B low (map idp T)) s = Ok s' /\ sizes s' /\ (forall i, In i o -> done i s') /\
        (forall i, ~ In i o -> done i s -> done i s')).
    { unfold par_for. induction o as [|i o IH]; intros ND HB s1 S1 F1; cbn [rfold].
      - exists s1. split; [auto|]. split; [auto|]. split; [intros ? []|auto].
      - inversion ND as [|? ? NI ND']; subst. destruct (item_ok i s1) as (s2 & E & S2 & D & F); [apply HB; simpl; auto|auto|apply F1; simpl; auto|].
        rewrite E. cbn [rbind]. destruct (IH ND' ltac:(intros; apply HB; simpl; auto) s2 S2) as (s3 & E3 & S3 & D3 & K3).
        { intros j Hj. apply (frame_fresh j i s1); auto; [intros ->; auto|]. apply F1. simpl. auto. }
        exists s3. split; [auto|]. split; [auto|]. split.
        + intros j [<-|Hj]; auto.
        + intros j Hj Dj. apply K3; [simpl in Hj; tauto|]. apply (frame_trans_done j i s1); auto. intros ->. apply Hj. simpl. auto. }
    destruct (G order) with (s := s) as (s' & E & S' & D & _); auto.
    { eapply Permutation_NoDup; [symmetry; exact HP|apply seq_NoDup]. }
    { intros i Hi. apply (Permutation_in _ HP), in_seq in Hi. lia. }
    { intros i Hi. apply (Permutation_in _ HP), in_seq in Hi. apply FR. lia. }
    exists s'. split; [auto|]. split; [auto|]. intros i Hi. apply D. apply (Permutation_in _ (Permutation_sym HP)), in_seq. lia.
  Qed.
End Scan.
