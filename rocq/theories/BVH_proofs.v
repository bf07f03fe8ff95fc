(** The BVH construction, assembled. *)
From Verif Require Import Base Bits Integer Integer_proofs Morton Karras Karras_spec P_Karras Par Reduction Reduction_lists Reduction_spec P_Reduction
  Bitonic Traverse Traverse_spec Traverse_proofs P_Traverse BVH BVH_spec BVH_sort BVH_prop.
From Coq Require Import ZifyBool ZifyNat ZifyN.
Local Open Scope nat_scope.

(* ------------------------------------------------------------------ *)
Section Tight.
  Context {C : Type} (leb : C -> C -> bool) (plo phi : nat -> vec C).
  Hypothesis HT : total_preorder leb.

  Lemma leb_refl a : leb a a = true.
  Proof. destruct (tp_total _ HT a a); auto. Qed.
  Lemma cmin_le1 a b : leb (cmin leb a b) a = true.
  Proof. unfold cmin. destruct (leb b a) eqn:E; auto. apply leb_refl. Qed.
  Lemma cmin_le2 a b : leb (cmin leb a b) b = true.
  Proof. unfold cmin. destruct (leb b a) eqn:E; [apply leb_refl|]. destruct (tp_total _ HT a b); congruence. Qed.
  Lemma cmin_or a b : cmin leb a b = a \/ cmin leb a b = b.
  Proof. unfold cmin. destruct (leb b a); auto. Qed.
  Lemma cmax_le1 a b : leb a (cmax leb a b) = true.
  Proof. unfold cmax. destruct (leb a b) eqn:E; auto. apply leb_refl. Qed.
  Lemma cmax_le2 a b : leb b (cmax leb a b) = true.
  Proof. unfold cmax. destruct (leb a b) eqn:E; [apply leb_refl|]. destruct (tp_total _ HT a b); congruence. Qed.
  Lemma cmax_or a b : cmax leb a b = a \/ cmax leb a b = b.
  Proof. unfold cmax. destruct (leb a b); auto. Qed.

  Lemma coord_vlift f x (a b : vec C) : In x (@coords C) -> x (vlift f a b) = f (x a) (x b).
  Proof. destruct a as [[? ?] ?], b as [[? ?] ?]. intros [<-|[<-|[<-|[]]]]; reflexivity. Qed.
  Lemma vec_coords (a b : vec C) : (forall x, In x (@coords C) -> x a = x b) -> a = b.
  Proof.
    destruct a as [[a1 a2] a3], b as [[b1 b2] b3]. intros H.
    pose proof (H cx (or_introl eq_refl)). pose proof (H cy (or_intror (or_introl eq_refl))).
    pose proof (H cz (or_intror (or_intror (or_introl eq_refl)))). unfold cx, cy, cz in *. simpl in *. congruence.
  Qed.

  Lemma tight_union A B bA bB : tight_box leb plo phi A bA -> tight_box leb plo phi B bB ->
    tight_box leb plo phi (A ++ B) (vmin leb (fst bA) (fst bB), vmax leb (snd bA) (snd bB)).
  Proof.
    intros HA HB x Hx. destruct (HA x Hx) as (A1 & (oa & A2 & A3) & (pa & A4 & A5)). destruct (HB x Hx) as (B1 & (ob & B2 & B3) & (pb & B4 & B5)).
    cbn [fst snd]. unfold vmin, vmax. rewrite !coord_vlift by auto. split; [|split].
    - intros o Ho. apply in_app_or in Ho. destruct Ho as [Ho|Ho].
      + destruct (A1 o Ho). split; [eapply tp_trans; eauto using cmin_le1|eapply tp_trans; eauto using cmax_le1].
      + destruct (B1 o Ho). split; [eapply tp_trans; eauto using cmin_le2|eapply tp_trans; eauto using cmax_le2].
    - destruct (cmin_or (x (fst bA)) (x (fst bB))) as [->| ->]; [exists oa|exists ob]; (split; [apply in_or_app|]); auto.
    - destruct (cmax_or (x (snd bA)) (x (snd bB))) as [->| ->]; [exists pa|exists pb]; (split; [apply in_or_app|]); auto.
  Qed.
  Lemma tight_single o : tight_box leb plo phi [o] (plo o, phi o).
  Proof.
    intros x Hx. cbn [fst snd]. split; [|split; exists o; simpl; auto]. intros o' [<-|[]]. split; apply leb_refl.
  Qed.
  Lemma tight_tree lb objs t : (forall k, In k (leaves t) -> tight_box leb plo phi (objs k) (lb k)) ->
    tight_box leb plo phi (flat_map objs (leaves t)) (tbox leb lb t).
  Proof.
    induction t as [k|i l IHl r IHr]; intros H.
    - simpl. rewrite app_nil_r. apply H. simpl; auto.
    - cbn [leaves tbox]. rewrite flat_map_app. apply tight_union; [apply IHl|apply IHr]; intros k Hk; apply H; simpl; apply in_or_app; auto.
  Qed.
End Tight.

(* ------------------------------------------------------------------ *)
Lemma gather_seq (mp : list nat) a n : a + n <= length mp -> gather mp (seq a n) = Ok (map (fun i => nth i mp 0) (seq a n)).
Proof.
  revert a. induction n as [|n IH]; intros a H; cbn [seq gather map]; auto.
  rewrite (aget_lt _ a 0) by lia. cbn [rbind]. rewrite IH by lia. reflexivity.
Qed.
Lemma ranges_concat (st : nat -> nat) n k : (forall j, k <= j -> j < k + n -> st j <= st (S j)) ->
  flat_map (fun j => seq (st j) (st (S j) - st j)) (seq k n) = seq (st k) (st (k + n) - st k) /\ st k <= st (k + n).
Proof.
  revert k. induction n as [|n IH]; intros k H; cbn [seq flat_map].
  - rewrite Nat.add_0_r, Nat.sub_diag. split; auto.
  - destruct (IH (S k)) as [E L]; [intros; apply H; lia|]. rewrite E. replace (k + S n) with (S k + n) by lia.
    assert (st k <= st (S k)) by (apply H; lia). split; [|lia].
    replace (st (S k + n) - st k) with ((st (S k) - st k) + (st (S k + n) - st (S k))) by lia.
    rewrite seq_app. do 2 f_equal. lia.
Qed.
Lemma app_len_inj {A} (a1 a2 b1 b2 : list A) : a1 ++ b1 = a2 ++ b2 -> length a1 = length a2 -> a1 = a2 /\ b1 = b2.
Proof.
  revert a2. induction a1 as [|x a1 IH]; intros [|y a2] H L; simpl in *; try discriminate; auto.
  injection H as -> H. destruct (IH a2 H) as [-> ->]; auto.
Qed.
Lemma seq_infix n a (l b : list nat) : seq 0 n = a ++ l ++ b -> l = seq (length a) (length l).
Proof.
  intros H. assert (LE : n = length a + (length l + length b)).
  { apply (f_equal (@length nat)) in H. rewrite seq_length, !app_length in H. lia. }
  rewrite LE, !seq_app in H. apply app_len_inj in H; [|apply seq_length]. destruct H as [_ H].
  apply app_len_inj in H; [|apply seq_length]. destruct H as [H _]. now rewrite <- H at 1.
Qed.
Lemma leaves_nonempty t : leaves t <> [].
Proof. induction t as [k|i l IHl r IHr]; simpl; [discriminate|]. destruct (leaves l); [auto|discriminate]. Qed.
Lemma hd_seq a n : 0 < n -> hd 0 (seq a n) = a.
Proof. destruct n; [lia|reflexivity]. Qed.
Lemma last_seq a n : 0 < n -> last (seq a n) 0 = a + n - 1.
Proof.
  intros H. replace n with ((n - 1) + 1) by lia. rewrite seq_app. cbn [seq]. rewrite last_last. lia.
Qed.

(* ------------------------------------------------------------------ *)
Section Fill.
  Context {C : Type} (leb : C -> C -> bool) (vtop vbot : vec C) (lo hi : list (vec C)) (mp red : list nat) (d : vec C).
  Hypothesis HT : total_preorder leb.
  Let plo o := nth o lo d.
  Let phi o := nth o hi d.

  Lemma leaf_box_ok ids : ids <> [] -> (forall o, In o ids -> o < length lo /\ o < length hi) ->
    (forall o x, In o ids -> In x (@coords C) -> leb (x (plo o)) (x vtop) = true /\ leb (x vbot) (x (phi o)) = true) ->
    exists bx, rfold (fun o (s : vec C * vec C) => p <- aget lo o ;; q <- aget hi o ;; Ok (vmin leb (fst s) p, vmax leb (snd s) q)) ids (vtop, vbot) = Ok bx /\
      tight_box leb plo phi ids bx.
  Proof.
    intros NE HB HX.
    assert (G : forall ids dn s, (forall o, In o ids -> o < length lo /\ o < length hi) -> tight_box leb plo phi dn s ->
      exists bx, rfold (fun o (s : vec C * vec C) => p <- aget lo o ;; q <- aget hi o ;; Ok (vmin leb (fst s) p, vmax leb (snd s) q)) ids s = Ok bx /\
      tight_box leb plo phi (dn ++ ids) bx).
    { clear ids NE HB HX. induction ids as [|o ids IH]; intros dn s HB HD; cbn [rfold].
      - exists s. rewrite app_nil_r. auto.
      - destruct (HB o (or_introl eq_refl)). rewrite (aget_lt lo o d), (aget_lt hi o d) by auto. cbn [rbind].
        destruct (IH (dn ++ [o]) (vmin leb (fst s) (plo o), vmax leb (snd s) (phi o))) as (bx & E & T).
        { intros; apply HB; simpl; auto. }
        { apply (tight_union leb plo phi HT dn [o] s (plo o, phi o)); auto. now apply tight_single. }
        exists bx. split; auto. now rewrite <- app_assoc in T. }
    destruct ids as [|o ids]; [congruence|]. cbn [rfold].
    destruct (HB o (or_introl eq_refl)) as [B1 B2]. rewrite (aget_lt lo o d), (aget_lt hi o d) by auto. cbn [rbind fst snd].
    replace (vmin leb vtop (nth o lo d), vmax leb vbot (nth o hi d)) with (plo o, phi o).
    - apply (G ids [o] (plo o, phi o)); [intros; apply HB; simpl; auto|now apply tight_single].
    - f_equal; apply vec_coords; intros x Hx; unfold vmin, vmax; rewrite coord_vlift by auto; destruct (HX o x (or_introl eq_refl) Hx) as [X1 X2].
      + unfold cmin. unfold plo in *. now rewrite X1.
      + unfold cmax. unfold phi in *. now rewrite X2.
  Qed.

  Lemma fill_leafs_ok order off leafs mn mx (objs : nat -> list nat) :
    0 < leafs -> Permutation order (seq 0 leafs) -> length mn = off + leafs -> length mx = off + leafs ->
    (forall k, k < leafs -> for_each_in_leaf_cell mp red k = Ok (objs k) /\ objs k <> [] /\
       (forall o, In o (objs k) -> o < length lo /\ o < length hi) /\
       (forall o x, In o (objs k) -> In x (@coords C) -> leb (x (plo o)) (x vtop) = true /\ leb (x vbot) (x (phi o)) = true)) ->
    exists lb m, fill_leafs leb vtop vbot order mp red lo hi off leafs mn mx = Ok m /\
      length (fst m) = off + leafs /\ length (snd m) = off + leafs /\
      (forall k, k < leafs -> nth_error (fst m) (off + k) = Some (fst (lb k)) /\ nth_error (snd m) (off + k) = Some (snd (lb k))) /\
      (forall k, k < leafs -> tight_box leb plo phi (objs k) (lb k)).
  Proof.
    intros H0 HP L1 L2 HK.
    set (body := fun o (s : vec C * vec C) => p <- aget lo o ;; q <- aget hi o ;; Ok (vmin leb (fst s) p, vmax leb (snd s) q)).
    set (lb := fun k => match rfold body (objs k) (vtop, vbot) with Ok b => b | _ => (vtop, vbot) end).
    assert (LB : forall k, k < leafs -> leaf_box leb vtop vbot mp red lo hi k = Ok (lb k) /\ tight_box leb plo phi (objs k) (lb k)).
    { intros k Hk. destruct (HK k Hk) as (E & NE & B & X). destruct (leaf_box_ok (objs k) NE B X) as (bx & E2 & T).
      unfold leaf_box. rewrite E. cbn [rbind]. unfold lb. fold body in E2. fold body. rewrite E2. auto. }
    exists lb. unfold fill_leafs, kernel_call. replace (leafs =? 0) with false by lia.
    assert (G : forall order, (forall k, In k order -> k < leafs) -> forall mn mx, length mn = off + leafs -> length mx = off + leafs ->
      exists m, par_for order (fun i (s : list (vec C) * list (vec C)) =>
        bx <- leaf_box leb vtop vbot mp red lo hi i ;;
        mn <- aset (fst s) (off + i) (fst bx) ;; mx <- aset (snd s) (off + i) (snd bx) ;; Ok (mn, mx)) (mn, mx) = Ok m /\
       length (fst m) = off + leafs /\ length (snd m) = off + leafs /\
       (forall k, In k order -> nth_error (fst m) (off + k) = Some (fst (lb k)) /\ nth_error (snd m) (off + k) = Some (snd (lb k))) /\
       (forall k, ~ In k order -> nth_error (fst m) (off + k) = nth_error mn (off + k) /\ nth_error (snd m) (off + k) = nth_error mx (off + k))).
    { clear order HP mn mx L1 L2. unfold par_for. induction order as [|i order IH]; intros HI mn mx L1 L2; cbn [rfold].
      - exists (mn, mx). repeat split; auto; simpl in *; tauto.
      - assert (Hi : i < leafs) by (apply HI; simpl; auto). destruct (LB i Hi) as [E _]. rewrite E. cbn [rbind fst snd].
        rewrite (aset_lt mn), (aset_lt mx) by lia. cbn [rbind].
        destruct (IH (fun k Hk => HI k (or_intror Hk)) (upd mn (off + i) (fst (lb i))) (upd mx (off + i) (snd (lb i)))) as (m & E2 & A1 & A2 & A3 & A4);
          [now rewrite length_upd|now rewrite length_upd|].
        exists m. split; auto. split; auto. split; auto. split.
        + intros k [<-|Hk]; auto. destruct (in_dec Nat.eq_dec i order) as [Hin|Hin]; auto.
          destruct (A4 i Hin) as [-> ->]. rewrite !nth_error_upd_eq by lia. auto.
        + intros k Hk. destruct (A4 k) as [-> ->]; [simpl in Hk; tauto|]. rewrite !nth_error_upd_neq by (simpl in Hk; lia). auto. }
    destruct (G order) with (mn := mn) (mx := mx) as (m & E & A1 & A2 & A3 & _); auto.
    { intros k Hk. apply (Permutation_in _ HP), in_seq in Hk. lia. }
    exists m. split; auto. split; auto. split; auto. split.
    - intros k Hk. apply A3. apply (Permutation_in _ (Permutation_sym HP)). apply in_seq. lia.
    - intros k Hk. now apply LB.
  Qed.
End Fill.

(* ------------------------------------------------------------------ *)
Lemma pow2_nat e : N.to_nat (2 ^ e)%N = 2 ^ N.to_nat e.
Proof.
  induction e as [|e IH] using N.peano_ind; [reflexivity|].
  rewrite N.pow_succ_r', N2Nat.inj_mul, IH, N2Nat.inj_succ. simpl. lia.
Qed.
Lemma roundup_ok cnt : 0 < cnt -> (Z.of_nat cnt < 2 ^ 31)%Z ->
  let mcnt := N.to_nat (roundup_pow2_32 (N.of_nat cnt)) in
  cnt <= mcnt /\ (exists e, mcnt = 2 ^ e) /\ (N.of_nat mcnt < 2 ^ 32)%N.
Proof.
  intros H0 H1 mcnt. destruct (roundup_pow2_32_spec (N.of_nat cnt)) as ((k & E) & B & M).
  { lia. } { change (2 ^ 31)%N with 2147483648%N. change (2 ^ 31)%Z with 2147483648%Z in H1. lia. }
  split; [unfold mcnt; lia|]. split; [exists (N.to_nat k); unfold mcnt; rewrite E; apply pow2_nat|].
  unfold mcnt. rewrite N2Nat.id. specialize (M 31%N). change (2 ^ 31)%N with 2147483648%N in M. change (2 ^ 32)%N with 4294967296%N.
  change (2 ^ 31)%Z with 2147483648%Z in H1. lia.
Qed.

Lemma nth_firstn'' {A} (l : list A) n i d : i < n -> nth i (firstn n l) d = nth i l d.
Proof. revert l i. induction n as [|n IH]; intros [|h t] [|i] H; simpl; auto; try lia. apply IH; lia. Qed.

Lemma ssorted_nth (l : list nat) d : StronglySorted lt l -> forall i, S i < length l -> nth i l d < nth (S i) l d.
Proof.
  induction 1 as [|a l HS IH HF]; intros i Hi; simpl in *; [lia|]. destruct i as [|i].
  - rewrite Forall_forall in HF. apply HF. apply nth_In. lia.
  - apply IH. lia.
Qed.
