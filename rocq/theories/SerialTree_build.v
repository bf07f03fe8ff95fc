(** get_serial_tree copies the tree in preorder. *)
From Verif Require Import Base Par Patch Patch_spec Patch_proofs PatchTree PatchTree_spec Domain SerialTree SerialTree_proofs.
From Coq Require Import ZifyBool ZifyNat.
Local Open Scope Z_scope.

Section B.
Context {C : Type}.
Variable to_box : pcoord -> res (range C).
Variable t : ptree.
Hypothesis I : tree_ok t.
Notation snode := (snode C).
Notation pre := (pre t).

(** Entry [i] of the arrays [T], [L] is the copy of the node [ids[i]]; the entries start at index [off]. *)
Definition entry (off : Z) (ids : list Z) (T : list snode) (L : list (option Z)) (i : nat) (x : Z) : Prop :=
  exists n m, t_map t x = Some n /\ nth_error T i = Some m /\ nth_error L i = Some (n_linked n) /\
    to_box (n_box n) = Ok (sn_min m, sn_max m) /\ length (sn_childs m) = 8%nat /\
    (n_leaf n = true -> sn_childs m = n_childs n) /\
    (n_leaf n = false -> forall k c, nth_error (n_childs n) k = Some c ->
       exists j, nth_error ids j = Some c /\ nth_error (sn_childs m) k = Some (off + Z.of_nat j)).
Definition ser (off : Z) (ids : list Z) (T : list snode) (L : list (option Z)) : Prop :=
  length T = length ids /\ length L = length ids /\ forall i x, nth_error ids i = Some x -> entry off ids T L i x.

Lemma ser_nil off : ser off [] [] [].
Proof. split; [reflexivity|]. split; [reflexivity|]. intros [|i] x; discriminate. Qed.
Lemma entry_app off i1 T1 L1 i2 T2 L2 i x : length T1 = length i1 -> length L1 = length i1 ->
  (entry off i1 T1 L1 i x -> entry off (i1 ++ i2) (T1 ++ T2) (L1 ++ L2) i x) /\
  (entry (off + Z.of_nat (length i1)) i2 T2 L2 i x -> entry off (i1 ++ i2) (T1 ++ T2) (L1 ++ L2) (length i1 + i) x).
Proof.
  intros HT HL. split; intros (n & m & H1 & H2 & H3 & H4 & H5 & H6 & H7).
  - exists n, m. split; auto. assert (i < length T1)%nat by (apply nth_error_Some; congruence).
    rewrite !nth_error_app1 by lia. repeat split; auto. intros Hl k c Hk. destruct (H7 Hl k c Hk) as (j & Hj & Hc).
    exists j. split; auto. rewrite nth_error_app1; auto. apply nth_error_Some. congruence.
  - exists n, m. split; auto. rewrite <- HT at 1. rewrite <- HL at 1. rewrite !nth_error_app2 by lia. rewrite HT, HL.
    rewrite !(Nat.add_comm (length i1)), Nat.add_sub. repeat split; auto. intros Hl k c Hk. destruct (H7 Hl k c Hk) as (j & Hj & Hc).
    exists (length i1 + j)%nat. split; [|rewrite Hc; f_equal; lia]. rewrite nth_error_app2 by lia. rewrite Nat.add_comm, Nat.add_sub. auto.
Qed.
Lemma ser_app off i1 T1 L1 i2 T2 L2 : ser off i1 T1 L1 -> ser (off + Z.of_nat (length i1)) i2 T2 L2 ->
  ser off (i1 ++ i2) (T1 ++ T2) (L1 ++ L2).
Proof.
  intros (A1 & A2 & A3) (B1 & B2 & B3). split; [rewrite !app_length; lia|]. split; [rewrite !app_length; lia|].
  intros i x Hi. destruct (Nat.lt_ge_cases i (length i1)) as [H|H].
  - rewrite nth_error_app1 in Hi by auto. apply (entry_app off i1 T1 L1 i2 T2 L2 i x); auto.
  - rewrite nth_error_app2 in Hi by auto. replace i with (length i1 + (i - length i1))%nat by lia.
    apply (entry_app off i1 T1 L1 i2 T2 L2 (i - length i1) x); auto.
Qed.

Definition good (s : sstate C) : Prop :=
  ss_counter s = Z.of_nat (length (ss_tree s)) /\ length (ss_linked s) = length (ss_tree s).
Definition boxed (x : Z) : Prop := forall y n, desc t x y -> t_map t y = Some n -> exists r, to_box (n_box n) = Ok r.
Definition levels (lev0 lev : Z) (ids : list Z) : Prop :=
  lev0 <= lev /\ (forall y n, In y ids -> t_map t y = Some n -> n_level n <= lev) /\
  (forall M, lev0 <= M -> (forall y n, In y ids -> t_map t y = Some n -> n_level n <= M) -> lev <= M).
Lemma levels_app a b c i j : levels a b i -> levels b c j -> levels a c (i ++ j).
Proof.
  intros (A1 & A2 & A3) (B1 & B2 & B3). split; [lia|]. split.
  - intros y n Hy Hn. apply in_app_iff in Hy. destruct Hy as [Hy|Hy]; [specialize (A2 y n Hy Hn); lia|eauto].
  - intros M HM Hall. apply B3; [apply A3; auto|]; intros y n Hy; apply Hall; apply in_app_iff; auto.
Qed.

Lemma hd_pre f x : hle t f x -> exists l, pre f x = x :: l.
Proof. intros H. inversion H as [f' x' n Hn Hl|f' x' n Hn Hl Hc]; subst; cbn [SerialTree_proofs.pre]; rewrite Hn; eauto. Qed.

Lemma get_serial_ok f : forall x s, hle t f x -> good s -> boxed x -> ss_counter s + Z.of_nat (length (pre f x)) < 2 ^ 64 ->
  exists T L lev, get_serial_tree to_box f t x s =
      Ok (SState (ss_tree s ++ T) (ss_linked s ++ L) (ss_counter s + Z.of_nat (length (pre f x))) lev) /\
    ser (ss_counter s) (pre f x) T L /\ levels (ss_level s) lev (pre f x).
Proof.
  induction f as [|f IH]; intros x s H G HB Hlen; [inversion H|].
  assert (exists n, t_map t x = Some n) as (n & Hn) by (inversion H; subst; eauto).
  cbn [get_serial_tree]. unfold tget. rewrite Hn. cbn [rbind].
  destruct (HB x n (desc_refl t x) Hn) as (r & Hr). unfold convert. rewrite Hr. cbn [rbind].
  set (m := SNode (fst r) (snd r) (n_childs n)). pose proof (ok_childs_len _ I _ _ Hn) as H8.
  cbn [SerialTree_proofs.pre] in Hlen |- *. rewrite Hn in Hlen |- *. destruct G as (G1 & G2).
  assert (Hw : w64 (ss_counter s + 1) = ss_counter s + 1).
  { apply w64_small. cbn [length] in Hlen. lia. }
  rewrite Hw.
  assert (Lx : levels (ss_level s) (Z.max (n_level n) (ss_level s)) [x]).
  { split; [lia|]. split.
    - intros y k [<-|[]] Hk. assert (k = n) by congruence. subst. lia.
    - intros M HM Hall. specialize (Hall x n (or_introl eq_refl) Hn). lia. }
  destruct (n_leaf n) eqn:Hl.
  - exists [m], [n_linked n], (Z.max (n_level n) (ss_level s)). cbn [length]. split; [reflexivity|]. split; auto.
    split; [reflexivity|]. split; [reflexivity|]. intros [|i] y Hy; [|destruct i; discriminate]. injection Hy as <-.
    exists n, m. split; auto. split; [reflexivity|]. split; [reflexivity|]. split; [cbn; now destruct r|].
    split; [exact H8|]. split; [reflexivity|congruence].
  - set (base := ss_tree s). set (lk := ss_linked s ++ [n_linked n]).
    assert (Loop : forall (cs : list Z) (k : nat) (T0 : list snode) (L0 : list (option Z)) (ids0 : list Z) (m0 : snode) (lev0 : Z),
       (forall c, In c cs -> In c (n_childs n)) ->
       length T0 = length ids0 -> length L0 = length ids0 ->
       (k + length cs = 8)%nat -> length (sn_childs m0) = 8%nat ->
       ss_counter s + 1 + Z.of_nat (length ids0) + Z.of_nat (length (flat_map (pre f) cs)) < 2 ^ 64 ->
       exists m1 T L lev,
         rfold (fun kc s0 => s1 <- set_child (ss_counter s) (fst kc) s0 ;; get_serial_tree to_box f t (snd kc) s1)
           (combine (seq k (length cs)) cs)
           (SState (base ++ m0 :: T0) (lk ++ L0) (ss_counter s + 1 + Z.of_nat (length ids0)) lev0) =
         Ok (SState (base ++ m1 :: T0 ++ T) (lk ++ L0 ++ L)
              (ss_counter s + 1 + Z.of_nat (length ids0) + Z.of_nat (length (flat_map (pre f) cs))) lev) /\
         ser (ss_counter s + 1 + Z.of_nat (length ids0)) (flat_map (pre f) cs) T L /\ levels lev0 lev (flat_map (pre f) cs) /\
         sn_min m1 = sn_min m0 /\ sn_max m1 = sn_max m0 /\ length (sn_childs m1) = 8%nat /\
         (forall i, (i < k)%nat -> nth_error (sn_childs m1) i = nth_error (sn_childs m0) i) /\
         (forall i, (i < length cs)%nat -> nth_error (sn_childs m1) (k + i) =
            Some (ss_counter s + 1 + Z.of_nat (length ids0) + Z.of_nat (length (flat_map (pre f) (firstn i cs)))))).
    { induction cs as [|c cs IHc]; intros k T0 L0 ids0 m0 lev0 Hin HT HL Hk H80 Hlen0.
      - exists m0, [], [], lev0. cbn [combine seq length flat_map rfold]. rewrite !app_nil_r.
        split; [do 2 f_equal; lia|]. split; [apply ser_nil|].
        split; [split; [lia|]; split; [intros ? ? []|auto]|]. repeat split; auto. intros i Hi; cbn in Hi; lia.
      - cbn [length seq combine rfold fst snd]. unfold set_child at 1. cbn [ss_tree ss_linked ss_counter ss_level].
        assert (Hid : Z.to_nat (ss_counter s) = length (ss_tree s)) by lia. rewrite !Hid.
        unfold base at 1. rewrite nth_error_app2, Nat.sub_diag by lia. cbn [nth_error].
        set (off := ss_counter s + 1 + Z.of_nat (length ids0)) in *.
        set (m0' := SNode (sn_min m0) (sn_max m0) (upd (sn_childs m0) k off)).
        replace (upd (base ++ m0 :: T0) (length (ss_tree s)) m0') with (base ++ m0' :: T0).
        2:{ unfold base. clear. induction (ss_tree s) as [|a l IHl]; cbn; auto. now rewrite IHl. }
        cbn [rbind].
        assert (Hc : In c (n_childs n)) by (apply Hin; left; auto).
        assert (Hhc : hle t f c) by (inversion H as [|? ? n' Hn' Hl' Hcs]; subst; [congruence|]; assert (n' = n) by congruence; subst n'; auto).
        cbn [flat_map] in Hlen0 |- *. rewrite app_length in Hlen0 |- *.
        destruct (IH c (SState (base ++ m0' :: T0) (lk ++ L0) off lev0)) as (Tc & Lc & levc & Ec & Sc & Vc); auto.
        { split; cbn [ss_tree ss_linked ss_counter].
          - rewrite app_length. cbn [length]. unfold off, base. lia.
          - unfold lk, base. rewrite !app_length. cbn [length]. lia. }
        { intros y ny Dy. apply HB. eapply (desc_trans t); [|exact Dy].
          exact (desc_step t x x c n (desc_refl t x) Hn Hl Hc). }
        { cbn [ss_counter]. lia. }
        cbn [ss_tree ss_linked ss_counter ss_level] in *. rewrite Ec. cbn [rbind].
        rewrite <- !app_assoc. cbn [app].
        destruct (IHc (S k) (T0 ++ Tc) (L0 ++ Lc) (ids0 ++ pre f c) m0' levc) as (m1 & T & L & lev & E & Ss & V & M1 & M2 & M3 & M4 & M5).
        { intros d Hd. apply Hin. right; auto. }
        { destruct Sc. rewrite !app_length. lia. }
        { destruct Sc as (_ & ? & _). rewrite !app_length. lia. }
        { cbn [length] in Hk. lia. }
        { cbn [m0' sn_childs]. now rewrite length_upd. }
        { rewrite app_length. unfold off in *. lia. }
        rewrite app_length in E, Ss, M5.
        replace (ss_counter s + 1 + Z.of_nat (length ids0 + length (pre f c))) with (off + Z.of_nat (length (pre f c))) in * by (unfold off; lia).
        exists m1, (Tc ++ T), (Lc ++ L), lev. rewrite <- !app_assoc in E.
        split; [etransitivity; [exact E|]; do 2 f_equal; lia|].
        split; [apply ser_app; auto|]. split; [eapply levels_app; eauto|].
        split; [exact M1|]. split; [exact M2|]. split; [exact M3|]. split.
        + intros i Hi. rewrite M4 by lia. cbn [m0' sn_childs]. apply nth_error_upd_neq. lia.
        + intros [|i] Hi.
          * rewrite Nat.add_0_r, M4 by lia. cbn [m0' sn_childs firstn flat_map length].
            rewrite nth_error_upd_eq by (rewrite H80; cbn [length] in Hk; lia). f_equal. lia.
          * cbn [length] in Hi. replace (k + S i)%nat with (S k + i)%nat by lia. rewrite M5 by lia. cbn [firstn flat_map].
            rewrite app_length. f_equal. lia. }
    cbn [length] in Hlen.
    destruct (Loop (n_childs n) 0%nat [] [] [] m (Z.max (n_level n) (ss_level s))) as (m1 & T & L & lev & E & Ss & V & M1 & M2 & M3 & _ & M5); auto.
    { cbn [length]. lia. }
    rewrite H8 in E. cbn [length app] in E, Ss, M5. rewrite app_nil_r in E. cbn [Z.of_nat] in E, Ss, M5. rewrite Z.add_0_r in E, Ss, M5.
    exists (m1 :: T), (n_linked n :: L), lev. split; [|split].
    + etransitivity; [exact E|]. unfold lk. rewrite <- app_assoc. cbn [app length]. do 2 f_equal. lia.
    + destruct Ss as (S1 & S2 & S3). cbn [length].
      split; [cbn [length]; lia|]. split; [cbn [length]; lia|].
      intros [|i] y Hy.
      * cbn in Hy. injection Hy as <-. exists n, m1. split; auto. split; [reflexivity|]. split; [reflexivity|].
        split; [rewrite M1, M2; cbn; now destruct r|]. split; [exact M3|]. split; [congruence|].
        intros _ k c Hk. assert (Hk8 : (k < 8)%nat) by (rewrite <- H8; apply nth_error_Some; congruence).
        exists (S (length (flat_map (pre f) (firstn k (n_childs n))))). split.
        -- cbn [nth_error]. rewrite <- (firstn_skipn k (n_childs n)) at 1.
           assert (Sk : exists l, skipn k (n_childs n) = c :: l).
           { clear - Hk. revert k Hk. induction (n_childs n) as [|a l IHl]; intros [|k] Hk; cbn in *; try discriminate; [injection Hk as ->|]; eauto. }
           destruct Sk as (l & ->). rewrite flat_map_app, nth_error_app2, Nat.sub_diag by lia. cbn [flat_map].
           destruct (hd_pre f c) as (l' & ->); [|reflexivity].
           inversion H as [|? ? n' Hn' Hl' Hcs]; subst; [congruence|]. assert (n' = n) by congruence; subst n'. apply Hcs.
           eapply nth_error_In; eauto.
        -- specialize (M5 k). rewrite H8 in M5. cbn [Nat.add] in M5. rewrite M5 by lia. f_equal. lia.
      * destruct (S3 i y Hy) as (k & mk & K1 & K2 & K3 & K4 & K5 & K6 & K7). exists k, mk.
        split; auto. split; auto. split; auto. split; auto. split; auto. split; auto.
        intros Hkl j c Hj. destruct (K7 Hkl j c Hj) as (q & Hq & Hq'). exists (S q). split; auto. rewrite Hq'. f_equal. lia.
    + apply (levels_app _ (Z.max (n_level n) (ss_level s)) _ [x]); auto.
Qed.

Notation pre_all := (pre_all t).
Lemma build_ok f : (65 <= f)%nat -> t_next t <= 2 ^ 32 -> (forall x n, t_map t x = Some n -> exists r, to_box (n_box n) = Ok r) ->
  exists s roots, build_from_patch_tree to_box f t = Ok (s, roots) /\ ser 0 (pre_all f) (ss_tree s) (ss_linked s) /\
    levels 0 (ss_level s) (pre_all f) /\
    Forall2 (fun r x => 0 <= r < 2 ^ 32 /\ nth_error (pre_all f) (Z.to_nat r) = Some x) roots (t_roots t) /\
    (forall r, hd_error roots = Some r -> r = 0).
Proof.
  intros Hf Hnx HB. pose proof (pre_all_length t I f) as HL. unfold build_from_patch_tree, SerialTree_proofs.pre_all in *.
  assert (Loop : forall (rs ids0 : list Z) (s0 : sstate C) (roots0 : list Z), (forall r, In r rs -> In r (t_roots t)) -> good s0 -> ser 0 ids0 (ss_tree s0) (ss_linked s0) ->
     levels 0 (ss_level s0) ids0 ->
     Z.of_nat (length ids0) + Z.of_nat (length (flat_map (pre f) rs)) <= 2 ^ 32 ->
     exists s roots, rfold (fun root (sr : sstate C * list Z) => let '(s, roots) := sr in
           s' <- get_serial_tree to_box f t root s ;; Ok (s', roots ++ [ss_counter s])) rs (s0, roots0) = Ok (s, roots0 ++ roots) /\
       ser 0 (ids0 ++ flat_map (pre f) rs) (ss_tree s) (ss_linked s) /\ levels 0 (ss_level s) (ids0 ++ flat_map (pre f) rs) /\
       Forall2 (fun r x => 0 <= r < 2 ^ 32 /\ nth_error (ids0 ++ flat_map (pre f) rs) (Z.to_nat r) = Some x) roots rs /\
       (forall r, hd_error roots = Some r -> r = Z.of_nat (length ids0))).
  { induction rs as [|r rs IHr]; intros ids0 s0 roots0 Hin G S V Hlen.
    - exists s0, []. cbn [rfold flat_map]. rewrite !app_nil_r. repeat split; auto; try apply V; [apply S|apply S|apply S|discriminate].
    - cbn [rfold flat_map] in Hlen |- *. rewrite app_length in Hlen.
      assert (exists n, t_map t r = Some n) as (n & Hn).
      { destruct (proj1 (ok_roots _ I r)) as (n & Hn & _); [apply Hin; left; auto|eauto]. }
      assert (Hh : hle t f r) by (eapply hle_all; eauto).
      destruct (get_serial_ok f r s0) as (T & L & lev & E & Sr & Vr); auto.
      { intros y ny _ Hy. eauto. }
      { destruct G as (G1 & _), S as (S1 & _). lia. }
      rewrite E. cbn [rbind]. destruct G as (G1 & G2). destruct S as (S1 & S2 & S3).
      set (s1 := SState (ss_tree s0 ++ T) (ss_linked s0 ++ L) (ss_counter s0 + Z.of_nat (length (pre f r))) lev).
      destruct (IHr (ids0 ++ pre f r) s1 (roots0 ++ [ss_counter s0])) as (s & roots & E2 & S' & V' & F & Hd).
      { intros; apply Hin; right; auto. }
      { unfold good, s1; cbn [ss_counter ss_tree ss_linked]. destruct Sr as (R1 & R2 & _). rewrite !app_length. lia. }
      { unfold s1; cbn [ss_tree ss_linked]. apply ser_app; [split; auto|]. replace (0 + Z.of_nat (length ids0)) with (ss_counter s0) by lia. exact Sr. }
      { unfold s1; cbn [ss_level]. eapply levels_app; eauto. }
      { rewrite app_length. lia. }
      exists s, (ss_counter s0 :: roots). rewrite <- !app_assoc in E2, S', V', F. cbn [app] in E2.
      split; [exact E2|]. split; [exact S'|]. split; [exact V'|]. split.
      + destruct (hd_pre f r Hh) as (l & El). constructor; auto. split; [rewrite El in Hlen; cbn [length] in Hlen; lia|]. rewrite nth_error_app2 by lia.
        replace (Z.to_nat (ss_counter s0) - length ids0)%nat with 0%nat by lia.
        rewrite El. reflexivity.
      + intros q Hq. cbn in Hq. injection Hq as <-. lia. }
  destruct (Loop (t_roots t) [] (SState [] [] 0 0) []) as (s & roots & E & S & V & F & Hd); auto.
  - split; reflexivity.
  - apply ser_nil.
  - split; [cbn; lia|]. split; [intros ? ? []|]. intros M HM _. exact HM.
  - cbn [length]. lia.
  - exists s, roots. cbn [app length] in *. repeat split; auto; apply S || apply V.
Qed.
End B.
