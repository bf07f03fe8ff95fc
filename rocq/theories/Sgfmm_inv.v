(** The inverted list: for every particle, the cells that contain it. *)
Require Import Reals.
From Verif Require Import Sgfmm.
From Verif Require Import Base Par Reduction Scan Scan_spec SortSearch SortSearch_spec SortSearch_proofs P_SortSearch Dtt Dtt_spec Dtt_segs Dtt_scan Dtt_reorder.
From Coq Require Import ZifyBool ZifyNat.
Local Open Scope nat_scope.

(** the first components of the pairs whose second component is j *)
Definition gr (L : list (nat * nat)) (j : nat) : list nat := map fst (filter (fun p => snd p =? j) L).
Lemma gr_app a b j : gr (a ++ b) j = gr a j ++ gr b j.
Proof. unfold gr. now rewrite filter_app, map_app. Qed.
Lemma gr1 p j : gr [p] j = if snd p =? j then [fst p] else [].
Proof. unfold gr. cbn. destruct (snd p =? j); reflexivity. Qed.
Lemma gr_cons p L j : gr (p :: L) j = if snd p =? j then fst p :: gr L j else gr L j.
Proof. unfold gr. cbn [filter]. destruct (snd p =? j); reflexivity. Qed.
Lemma gr_perm L L' j : Permutation L L' -> Permutation (gr L j) (gr L' j).
Proof. intros H. unfold gr. now apply Permutation_map, Permutation_filter'. Qed.
Lemma gr_len L j : length (gr L j) <= length L.
Proof. induction L as [|p L IH]; [auto|]. rewrite gr_cons. destruct (snd p =? j); cbn [length]; lia. Qed.
Lemma pos_gr N L : (forall p, In p L -> snd p < N) -> pos (gr L) N = length L.
Proof.
  induction L as [|p L IH]; intros H.
  - clear. induction N as [|N IH]; [reflexivity|]. rewrite pos_S, IH. reflexivity.
  - assert (HP : snd p < N) by (apply H; simpl; auto). cbn [length].
    assert (G : forall n, pos (gr (p :: L)) n = pos (gr L) n + (if snd p <? n then 1 else 0)).
    { induction n as [|n IHn]; [reflexivity|]. rewrite !pos_S, IHn, gr_cons. destruct (Nat.eqb_spec (snd p) n), (Nat.ltb_spec (snd p) n), (Nat.ltb_spec (snd p) (S n)); cbn [length]; lia. }
    rewrite G. replace (snd p <? N) with true by lia. rewrite IH by (intros q Hq; apply H; simpl; auto). lia.
Qed.

Section Inv.
  Variable N : nat.
  Definition ibody (p : nat * nat) (o : list Z) : res (list Z) := v <- aget o (snd p) ;; aset o (snd p) (w32 (v + 1)).
  Lemma ibody_ok L : (forall p, In p L -> snd p < N) -> forall o, length o = N + 1 ->
    (forall j, (0 <= nth j o 0 /\ nth j o 0 + Z.of_nat (length (gr L j)) < 2 ^ 32)%Z) ->
    exists o', rfold ibody L o = Ok o' /\ length o' = N + 1 /\ forall j, nth j o' 0%Z = (nth j o 0 + Z.of_nat (length (gr L j)))%Z.
  Proof.
    rewrite P32. induction L as [|p L IH]; intros HB o Lo Ho.
    - exists o. split; [reflexivity|]. split; auto. intros j. cbn. lia.
    - cbn [rfold]. unfold ibody at 1. assert (snd p < N) by (apply HB; simpl; auto).
      rewrite (aget_lt o (snd p) 0%Z) by lia. cbn [rbind]. rewrite aset_lt by lia. cbn [rbind].
      assert (G : forall j, nth j (upd o (snd p) (w32 (nth (snd p) o 0%Z + 1))) 0%Z = if snd p =? j then (nth j o 0 + 1)%Z else nth j o 0%Z).
      { intros j. destruct (Nat.eqb_spec (snd p) j) as [E|E].
        - subst j. rewrite nth_upd_eq by lia. apply w32_small. specialize (Ho (snd p)). rewrite gr_cons, Nat.eqb_refl in Ho. cbn [length] in Ho. rewrite P32. lia.
        - apply nth_upd_neq. auto. }
      destruct (IH (fun q Hq => HB q (or_intror Hq)) (upd o (snd p) (w32 (nth (snd p) o 0%Z + 1)))) as (o' & E & L' & V).
      + now rewrite length_upd.
      + intros j. rewrite G. specialize (Ho j). rewrite gr_cons in Ho. destruct (snd p =? j); cbn [length] in Ho; lia.
      + exists o'. split; [exact E|]. split; auto. intros j. rewrite V, G, gr_cons. destruct (snd p =? j); cbn [length]; lia.
  Qed.

  Definition jbody (offs : list Z) (p : nat * nat) (st : list Z * list nat) : res (list Z * list nat) :=
    r <- aget (fst st) (snd p) ;; t <- aset (fst st) (snd p) (w32 (r + 1)) ;;
    b <- aget offs (snd p) ;; c <- aset (snd st) (Z.to_nat (w32 (r + b))) (fst p) ;; Ok (t, c).
  Lemma jbody_ok offs L0 h0 s0 : (forall p, In p L0 -> snd p < N) -> length s0 = pos (gr L0) N -> length h0 = N + 1 -> length offs = N + 1 -> (Z.of_nat (length L0) < 2 ^ 31)%Z ->
    (forall j, j < N -> nth j offs 0%Z = Z.of_nat (pos (gr L0) j)) -> (forall j, nth j h0 0%Z = 0%Z) ->
    forall L R, L0 = L ++ R ->
    exists s h, rfold (jbody offs) L (h0, s0) = Ok (h, s) /\ length s = length s0 /\ length h = N + 1 /\
      (forall j, j < N -> nth j h 0%Z = Z.of_nat (length (gr L j))) /\
      (forall j x, j < N -> x < length (gr L j) -> nth_error s (pos (gr L0) j + x) = nth_error (gr L j) x).
  Proof.
    intros HB Ls Lh Lo BD Ho Hh. rewrite P31 in BD. induction L as [|p L IH] using rev_ind; intros R E0.
    - exists s0, h0. split; [reflexivity|]. split; auto. split; auto. split; [intros j Hj; rewrite Hh; reflexivity|].
      intros j x _ Hx. cbn in Hx. lia.
    - destruct (IH (p :: R)) as (s & h & E & L1 & L2 & V & W); [rewrite E0, <- app_assoc; reflexivity|].
      rewrite rfold_app, E. cbn [rbind rfold]. unfold jbody at 1. cbn [fst snd].
      assert (Hp : snd p < N) by (apply HB; rewrite E0; apply in_or_app; left; apply in_or_app; simpl; auto).
      rewrite (aget_lt h (snd p) 0%Z) by lia. cbn [rbind]. rewrite aset_lt by lia. cbn [rbind]. rewrite V by auto.
      rewrite (aget_lt offs (snd p) 0%Z) by lia. cbn [rbind]. rewrite Ho by auto.
      assert (GL : length (gr L (snd p)) < length (gr L0 (snd p))).
      { rewrite E0, !gr_app, !app_length. rewrite gr1, Nat.eqb_refl. cbn [length]. lia. }
      pose proof (pos_seg (gr L0) (snd p) N Hp) as PS.
      assert (PN : pos (gr L0) N = length L0) by (now apply pos_gr).
      replace (w32 (Z.of_nat (length (gr L (snd p))) + Z.of_nat (pos (gr L0) (snd p)))) with (Z.of_nat (pos (gr L0) (snd p) + length (gr L (snd p)))) by (rewrite w32_small by (rewrite P32; lia); lia).
      rewrite Nat2Z.id. rewrite aset_lt by lia. cbn [rbind]. do 2 eexists. split; [reflexivity|]. rewrite !length_upd. split; auto. split; auto. split.
      + intros j Hj. rewrite gr_app, app_length, gr1. destruct (Nat.eqb_spec (snd p) j) as [EE|NE].
        * subst j. rewrite nth_upd_eq by lia. rewrite w32_small by (rewrite P32; lia). cbn [length]. lia.
        * rewrite nth_upd_neq by auto. rewrite V by auto. cbn [length]. f_equal. lia.
      + intros j x Hj Hx. rewrite gr_app, app_length in Hx. rewrite gr_app. rewrite gr1 in *.
        destruct (Nat.eqb_spec (snd p) j) as [EE|NE].
        * subst j. cbn [length] in Hx. destruct (Nat.eq_dec x (length (gr L (snd p)))) as [->|NX].
          -- rewrite nth_error_upd_eq by lia. rewrite nth_error_app2, Nat.sub_diag by lia. reflexivity.
          -- rewrite nth_error_upd_neq by lia. rewrite nth_error_app1 by lia. apply W; auto. lia.
        * cbn [length] in Hx. rewrite app_nil_r. assert (x < length (gr L j)) by lia.
          assert (GJ : length (gr L j) <= length (gr L0 j)) by (rewrite E0, !gr_app, !app_length; lia).
          rewrite nth_error_upd_neq; [apply W; auto|].
          destruct (Nat.lt_ge_cases j (snd p)) as [LT|GE].
          -- pose proof (pos_seg (gr L0) j (snd p) LT). lia.
          -- assert (snd p < j) by lia. pose proof (pos_seg (gr L0) (snd p) j H0). lia.
  Qed.
  Lemma scat_ok offs L h0 s0 : (forall p, In p L -> snd p < N) -> length s0 = length L -> length h0 = N + 1 -> length offs = N + 1 -> (Z.of_nat (length L) < 2 ^ 31)%Z ->
    (forall j, j < N -> nth j offs 0%Z = Z.of_nat (pos (gr L) j)) -> (forall j, nth j h0 0%Z = 0%Z) ->
    exists h, rfold (jbody offs) L (h0, s0) = Ok (h, flat_map (gr L) (seq 0 N)).
  Proof.
    intros HB Ls Lh Lo BD Ho Hh. pose proof (pos_gr N L HB) as PN.
    destruct (jbody_ok offs L h0 s0 HB ltac:(lia) Lh Lo BD Ho Hh L [] ltac:(now rewrite app_nil_r)) as (s & h & E & L1 & L2 & V & W).
    exists h. rewrite E. do 2 f_equal. apply list_eq_nth_error. intros x. destruct (Nat.lt_ge_cases x (pos (gr L) N)) as [X|X].
    - destruct (find_seg (gr L) N x X) as (i & y & Hi & Hy & ->). rewrite W by auto. symmetry. now apply nth_flat.
    - rewrite (proj2 (nth_error_None s x)) by lia. symmetry. apply nth_error_None. exact X.
  Qed.

  Definition sort_ok (rs : list nat -> nat -> nat -> res (list nat)) : Prop :=
    rs = ptr_insert_sort Nat.ltb \/ exists srt, (forall l, Permutation (srt l) l /\ sorted_by Nat.ltb (srt l)) /\ rs = std_sort_range srt.

  Theorem invert_ok scan inc o1 o2 so rs : scan_ip_ok scan -> (forall p, In p inc -> snd p < N) ->
    (Z.of_nat (length inc) < 2 ^ 31)%Z -> Permutation o1 (seq 0 (length inc)) -> Permutation o2 (seq 0 (length inc)) ->
    Permutation so (seq 0 N) -> sort_ok rs ->
    exists cpp offs, count_cells o1 inc (repeat 0%Z (N + 1)) = Ok cpp /\ scan_exclusive_sum_in_place scan cpp (N + 1) = Ok offs /\
      aget offs N = Ok (Z.of_nat (length inc)) /\
      forall junk, length junk = length inc -> exists tc cont, scatter_cells o2 inc offs (repeat 0%Z (N + 1), junk) = Ok tc /\
        segmented_sort_in_place rs so (snd tc) (map Z.to_nat offs) = Ok cont /\
        forall a, a < N -> exists s e, aget offs a = Ok (Z.of_nat s) /\ aget offs (a + 1) = Ok (Z.of_nat e) /\ s <= e <= length cont /\
          Permutation (slice s e cont) (gr inc a) /\ sorted_by Nat.ltb (slice s e cont).
  Proof.
    intros SC HB BD H1 H2 HS HR. rewrite P31 in BD.
    destruct (kernel_perm ibody inc o1 (repeat 0%Z (N + 1)) H1) as (L1 & P1 & E1). change (@Permutation (nat * nat) L1 inc) in P1. 
    assert (Z0 : forall j, nth j (repeat 0%Z (N + 1)) 0%Z = 0%Z) by (intros; apply nth_repeat).
    destruct (ibody_ok L1) with (o := repeat 0%Z (N + 1)) as (cpp & F1 & F2 & F3).
    { intros p Hp. apply HB. eapply Permutation_in; eauto. }
    { apply repeat_length. }
    { intros j. rewrite Z0, P32. pose proof (gr_len L1 j) as G. rewrite (Permutation_length P1) in G. lia. }
    assert (CN : forall j, nth j cpp 0%Z = Z.of_nat (length (gr inc j))).
    { intros j. rewrite F3, Z0, Z.add_0_l. f_equal. now apply Permutation_length, gr_perm. }
    set (offs := excl_spec cpp (N + 1)). pose proof (pos_gr N inc HB) as PN.
    assert (OF : forall x, x < N + 1 -> aget offs x = Ok (Z.of_nat (pos (gr inc) x))).
    { intros x Hx. unfold offs. rewrite <- (app_nil_r (excl_spec cpp (N + 1))). apply (scan_read (gr inc) cpp N); auto; rewrite ?P32; lia. }
    assert (LO : length offs = N + 1) by apply length_excl.
    exists cpp, offs. split; [unfold count_cells; rewrite <- F1; exact E1|]. split.
    { unfold scan_exclusive_sum_in_place. replace (N + 1 =? 0) with false by lia. replace (length cpp <? N + 1) with false by lia.
      rewrite SC by lia. rewrite skipn_all2 by lia. now rewrite app_nil_r. }
    split; [rewrite OF by lia; now rewrite PN|]. intros junk LJ.
    destruct (kernel_perm (jbody offs) inc o2 (repeat 0%Z (N + 1), junk) H2) as (L2 & P2 & E2). change (@Permutation (nat * nat) L2 inc) in P2.
    assert (HB2 : forall p, In p L2 -> snd p < N) by (intros p Hp; apply HB; eapply Permutation_in; eauto).
    assert (PP : forall x, pos (gr L2) x = pos (gr inc) x).
    { intros x. induction x as [|x IH]; [reflexivity|]. rewrite !pos_S, IH. f_equal. now apply Permutation_length, gr_perm. }
    destruct (scat_ok offs L2 (repeat 0%Z (N + 1)) junk) as (h & S2); auto.
    { rewrite LJ. symmetry. now apply Permutation_length. }
    { apply repeat_length. }
    { rewrite (Permutation_length P2), P31. auto. }
    { intros j Hj. rewrite PP. specialize (OF j ltac:(lia)). rewrite (aget_lt _ _ 0%Z) in OF by lia. congruence. }
    set (G := flat_map (gr L2) (seq 0 N)). assert (LG : length G = length inc) by (change (pos (gr L2) N = length inc); now rewrite PP).
    exists (h, G). cbn [snd].
    set (no := map Z.to_nat offs). assert (LNO : length no = N + 1) by (unfold no; now rewrite map_length).
    assert (NN : forall j, j < N + 1 -> nth j no 0 = pos (gr L2) j).
    { intros j Hj. unfold no. change 0 with (Z.to_nat 0) at 1. rewrite map_nth. specialize (OF j Hj). rewrite (aget_lt _ _ 0%Z) in OF by lia. injection OF as ->. now rewrite Nat2Z.id, PP. }
    assert (OK : offsets_ok no (length G)).
    { split; rewrite LNO; intros i Hi; rewrite !NN by lia; [apply pos_mono; lia|]. rewrite LG, <- PN, <- PP. apply pos_mono. lia. }
    assert (NE : no <> []) by (intros X; rewrite X in LNO; simpl in LNO; lia).
    assert (PO : Permutation so (seq 0 (length no - 1))) by (rewrite LNO; replace (N + 1 - 1) with N by lia; auto).
    assert (SRT : exists buf', segmented_sort_in_place rs so G no = Ok buf' /\ length buf' = length G /\
      forall g, g + 1 < length no -> Permutation (slice (nth g no 0) (nth (g + 1) no 0) buf') (slice (nth g no 0) (nth (g + 1) no 0) G) /\ sorted_by Nat.ltb (slice (nth g no 0) (nth (g + 1) no 0) buf')).
    { destruct HR as [->|(srt & HR & ->)].
      - destruct (C23_device_sort _ Nat.ltb so G no) as (b & X1 & X2 & X3 & _); auto; [|exists b; auto].
        constructor; intros; lia.
      - destruct (C23_host_sort _ Nat.ltb srt so G no HR OK NE PO) as (b & X1 & X2 & X3 & _). exists b. auto. }
    destruct SRT as (b & X1 & X2 & X3). exists b. split; [etransitivity; [exact E2|exact S2]|]. split; [exact X1|].
    intros a Ha. exists (pos (gr inc) a), (pos (gr inc) (a + 1)). split; [apply OF; lia|]. split; [apply OF; lia|]. split.
    { split; [apply pos_mono; lia|]. rewrite X2, LG, <- PN. apply pos_mono. lia. }
    destruct (X3 a ltac:(lia)) as [Y1 Y2]. rewrite !NN in Y1, Y2 by lia. rewrite !PP in Y1, Y2. split; auto. rewrite Y1. unfold G.
    rewrite <- !PP. rewrite Nat.add_1_r, slice_flat by auto. now apply gr_perm.
  Qed.
End Inv.
