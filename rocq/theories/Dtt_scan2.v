(** The compaction kernels, one pass, and the whole loop of the multipass implementation. *)
From Verif Require Import Base Par Karras Karras_spec Traverse Traverse_spec Traverse_proofs Reduction Scan Scan_spec SortSearch BVH BVH_spec
  Dtt Dtt_spec Dtt_tree Dtt_ref Dtt_segs Dtt_scan.
From Coq Require Import ZifyBool ZifyNat.
Local Open Scope nat_scope.

Lemma flat_map_nth {A B} (f : A -> list B) (l : list A) d : flat_map (fun i => f (nth i l d)) (seq 0 (length l)) = flat_map f l.
Proof.
  induction l as [|x l IH]; [reflexivity|]. cbn [length seq flat_map nth]. f_equal. rewrite <- seq_shift.
  rewrite flat_map_concat_map, map_map, <- flat_map_concat_map. exact IH.
Qed.
Lemma map_flat {A B D} (g : B -> D) (f : A -> list B) l : map g (flat_map f l) = flat_map (fun x => map g (f x)) l.
Proof. induction l as [|x l IH]; [reflexivity|]. cbn [flat_map]. now rewrite map_app, IH. Qed.
Lemma rfold_map {A A' S} (g : A' -> A) (f : A -> S -> res S) l s : rfold f (map g l) s = rfold (fun x => f (g x)) l s.
Proof. revert s. induction l as [|x l IH]; intros s; [reflexivity|]. cbn [map rfold]. destruct (f (g x) s); cbn [rbind]; auto. Qed.

Section Pass.
  Context {C : Type} (mac : vec C * vec C -> vec C * vec C -> bool) (B : @bvh C) (t0 : tree).
  Hypothesis LK : linked B t0.
  Variable low : bool.
  Notation off := (length (b_cells B)).
  Notation nid := (node_id (length (b_cells B))).
  Notation idp := (idp B).
  Notation macT := (macT mac B).
  Notation sk := (sk mac B low).
  Notation mev := (mev mac B).
  Notation pev := (pev mac B low).

  Section One.
  Variable T : list tpair.
  Let n := length T.
  Hypothesis HT : forall p, In p T -> sub2 t0 p /\ okp low p.
  Hypothesis Hn : (Z.of_nat n < 2 ^ 30)%Z.
  Notation tk := (tk T).

  Definition tseg (i : nat) : list ipair := map idp (sk (tk i)).
  Definition mseg (i : nat) : list ipair := map idp (mev (tk i)).
  Definition pseg (i : nat) : list ipair := map idp (pev (tk i)).
  Lemma tseg_len i : length (tseg i) <= 4.
  Proof. unfold tseg. rewrite map_length. apply sk_len. Qed.
  Lemma tpos_bound : (Z.of_nat (pos tseg n) < 2 ^ 32)%Z.
  Proof.
    assert (G : forall k, pos tseg k <= 4 * k).
    { induction k as [|k IH]; [unfold pos; simpl; lia|]. rewrite pos_S. pose proof (tseg_len k). lia. }
    specialize (G n). rewrite P30 in Hn. rewrite P32. lia.
  Qed.
  Lemma tids x : In x (flat_map sk T) -> fst (idp x) < total_cell_count B /\ snd (idp x) < total_cell_count B.
  Proof.
    intros H. apply in_flat_map in H. destruct H as (p & Hp & Hx). destruct (HT p Hp) as [S2 _].
    apply sk_in in Hx. destruct Hx as (l & E & Hx). destruct (kids_sub2 t0 low p l x S2 E Hx) as [A1 A2].
    split; apply (lk_bound B t0 LK); auto.
  Qed.

  (** the 4 wide compaction *)
  Lemma task_ok nx cnts tl i b : i < n ->
    n <= length cnts -> (forall j, j < n -> nth j cnts 0%Z = Z.of_nat (length (tseg j))) ->
    (forall j, j < length (tseg i) -> nth_error nx (4 * i + j) = nth_error (tseg i) j) ->
    length b = 0 + pos tseg n ->
    task_item B low nx (excl_spec cnts (n + 1) ++ tl) i b = Ok (seg_step tseg 0 b i).
  Proof.
    intros Hi HC HN HX HB. pose proof tpos_bound as TB. unfold task_item.
    rewrite (scan_read tseg cnts n (n + 1) i tl) by (auto; lia). cbn [rbind].
    rewrite (scan_read tseg cnts n (n + 1) (i + 1) tl) by (auto; lia). cbn [rbind].
    replace (i + 1) with (S i) by lia. rewrite pos_S. pose proof (tseg_len i) as L4.
    replace (Z.of_nat (pos tseg i + length (tseg i)) - Z.of_nat (pos tseg i))%Z with (Z.of_nat (length (tseg i))) by lia.
    rewrite (w32_small (Z.of_nat (length (tseg i)))) by (rewrite P32; lia).
    rewrite (w32_small (Z.of_nat i * 4)) by (rewrite P32; rewrite P30 in Hn; lia).
    set (copy := fun l cur => v <- aget nx (idx32 (Z.of_nat i * 4 + l)) ;;
      if low && negb ((fst v <? total_cell_count B) && (snd v <? total_cell_count B)) then UB else aset cur (idx32 (Z.of_nat (pos tseg i) + l)) v).
    pose proof (pos_seg tseg i n Hi) as PS.
    assert (G : forall m j cur, j + m = length (tseg i) -> length cur = pos tseg n ->
      rfold (fun l cur => copy (Z.of_nat l) cur) (seq j m) cur = Ok (writel (pos tseg i + j) (skipn j (tseg i)) cur)).
    { induction m as [|m IH]; intros j cur HJ HL.
      - cbn [seq rfold]. rewrite (skipn_all2 (tseg i)) by lia. now rewrite writel_nil.
      - cbn [seq rfold]. unfold copy at 1. rewrite P30 in Hn. rewrite !idx32_small by (rewrite P32 in *; lia).
        replace (Z.to_nat (Z.of_nat i * 4 + Z.of_nat j)) with (4 * i + j) by lia.
        replace (Z.to_nat (Z.of_nat (pos tseg i) + Z.of_nat j)) with (pos tseg i + j) by lia.
        assert (Hj : j < length (tseg i)) by lia.
        destruct (nth_error (tseg i) j) as [v|] eqn:EV; [|apply nth_error_None in EV; lia].
        assert (AG : aget nx (4 * i + j) = Ok v) by (apply aget_ok; rewrite HX; auto). rewrite AG. cbn [rbind].
        assert (IV : fst v < total_cell_count B /\ snd v < total_cell_count B).
        { apply nth_error_In in EV. unfold tseg in EV. apply in_map_iff in EV. destruct EV as (x & <- & Hx). apply tids.
          apply in_flat_map. exists (tk i). split; auto. apply nth_In. auto. }
        replace ((fst v <? total_cell_count B) && (snd v <? total_cell_count B)) with true by lia. rewrite andb_false_r.
        rewrite aset_lt by lia. cbn [rbind].
        rewrite IH by (rewrite ?length_upd; lia).
        assert (SK : skipn j (tseg i) = v :: skipn (S j) (tseg i)).
        { clear - EV. revert j EV. induction (tseg i) as [|x l IHl]; intros [|j] EV; cbn [nth_error] in EV; try discriminate.
          - injection EV as <-. reflexivity.
          - cbn [skipn]. apply IHl in EV. exact EV. }
        rewrite SK. f_equal. replace (pos tseg i + S j) with (S (pos tseg i + j)) by lia. apply writel_cons.
        rewrite skipn_length. lia. }
    assert (W : writel (pos tseg i + 0) (skipn 0 (tseg i)) b = seg_step tseg 0 b i) by (unfold seg_step; rewrite Nat.add_0_r; reflexivity).
    destruct (Z.ltb_spec 0 (Z.of_nat (length (tseg i)))) as [LT|GE].
    - destruct low eqn:EL.
      + rewrite Nat2Z.id. rewrite G by lia. now rewrite W.
      + change [0; 1; 2; 3]%Z with (map Z.of_nat (seq 0 4)). rewrite rfold_map.
        assert (E4 : length (tseg i) = 4) by (unfold tseg in *; rewrite map_length in *; destruct (sk_len4 mac B false (tk i) eq_refl) as [X|X]; lia).
        rewrite <- E4. rewrite G by lia. now rewrite W.
    - f_equal. unfold seg_step. assert (E0 : tseg i = []) by (apply length_zero_iff_nil; lia). rewrite E0. now rewrite writel_nil.
  Qed.

  (** the compactions of the results *)
  Lemma result_ok (seg : nat -> list ipair) pushed cnts tl sz i b :
    (forall j, length (seg j) <= 1) -> i < n ->
    n <= length cnts -> (forall j, j < n -> nth j cnts 0%Z = Z.of_nat (length (seg j))) ->
    (forall v, seg i = [v] -> nth_error pushed i = Some v) -> (Z.of_nat (sz + pos seg n) < 2 ^ 32)%Z ->
    length b = sz + pos seg n ->
    result_item (idx32 (Z.of_nat sz)) pushed (excl_spec cnts (n + 1) ++ tl) i b = Ok (seg_step seg sz b i).
  Proof.
    intros H1 Hi HC HN HX HB HL. unfold result_item.
    rewrite (scan_read seg cnts n (n + 1) i tl) by (auto; lia). cbn [rbind].
    rewrite (scan_read seg cnts n (n + 1) (i + 1) tl) by (auto; lia). cbn [rbind].
    replace (i + 1) with (S i) by lia. rewrite pos_S. specialize (H1 i).
    replace (Z.of_nat (pos seg i + length (seg i)) - Z.of_nat (pos seg i))%Z with (Z.of_nat (length (seg i))) by lia.
    rewrite (w32_small (Z.of_nat (length (seg i)))) by (rewrite P32; lia).
    pose proof (pos_seg seg i n Hi) as PS. unfold seg_step.
    destruct (seg i) as [|v [|w l]] eqn:ES; cbn [length] in *; [|clear H1|lia].
    - cbn [Z.of_nat Z.eqb]. now rewrite writel_nil.
    - change (Z.of_nat 1 =? 1)%Z with true. cbv iota.
      assert (AG : aget pushed i = Ok v) by (apply aget_ok; auto). rewrite AG. cbn [rbind].
      rewrite (idx32_small (Z.of_nat sz)) by lia. rewrite Nat2Z.id. rewrite idx32_small by lia.
      replace (Z.to_nat (Z.of_nat sz + Z.of_nat (pos seg i))) with (sz + pos seg i) by lia.
      rewrite aset_lt by lia. now rewrite writel_one by lia.
  Qed.
  Lemma mseg_len j : length (mseg j) <= 1.
  Proof. unfold mseg, Dtt_scan.mev. rewrite map_length. destruct (macT _ _); simpl; lia. Qed.
  Lemma pseg_len j : length (pseg j) <= 1.
  Proof. unfold pseg, Dtt_scan.pev. rewrite map_length. destruct (macT _ _); [simpl; lia|]. destruct (kids _ _ _); simpl; lia. Qed.
  Lemma flat_seg (f : tpair -> list tpair) : flat_map (fun i => map idp (f (tk i))) (seq 0 n) = map idp (flat_map f T).
  Proof. rewrite map_flat. exact (flat_map_nth (fun p => map idp (f p)) T d0). Qed.
  Lemma pos_flat (f : tpair -> list tpair) : pos (fun i => map idp (f (tk i))) n = length (flat_map f T).
  Proof. unfold pos. rewrite flat_seg. apply map_length. Qed.

  Lemma pass_ok scan env st : scan_ip_ok scan -> pass_env_ok n env -> 0 < n -> ps_cur st = map idp T ->
    (Z.of_nat (length (ps_m2l st) + length (ps_p2p st) + n) < 2 ^ 30)%Z ->
    exists st', dtt_pass mac B scan low env st = Ok st' /\ ps_cur st' = map idp (flat_map sk T) /\
      ps_m2l st' = ps_m2l st ++ map idp (flat_map mev T) /\ ps_p2p st' = ps_p2p st ++ map idp (flat_map pev T).
  Proof.
    intros SC [O1 O2 O3 O4 J1 J2] Hpos EC BD. pose proof Hn as Hn'. rewrite P30 in Hn', BD.
    unfold dtt_pass. rewrite EC, map_length. fold n.
    rewrite (idx32_small (Z.of_nat n + 1)) by (rewrite P32; lia). replace (Z.to_nat (Z.of_nat n + 1)) with (n + 1) by lia.
    rewrite (idx32_small (4 * Z.of_nat n)) by (rewrite P32; lia). replace (Z.to_nat (4 * Z.of_nat n)) with (4 * n) by lia.
    cbv zeta.
    set (ht := resize_max (pe_junkZ env) (ps_ht st) (n + 1)). assert (Lht : n + 1 <= length ht) by (apply length_resize_max; auto).
    set (nx := resize_max (pe_junk env) (ps_next st) (4 * n)). assert (Lnx : 4 * n <= length nx) by (apply length_resize_max; auto).
    set (hm := resize_max (pe_junkZ env) (ps_hm st) (n + 1)). assert (Lhm : n + 1 <= length hm) by (apply length_resize_max; auto).
    set (pm := resize_max (pe_junk env) (ps_pm st) n). assert (Lpm : n <= length pm) by (apply length_resize_max; auto).
    set (hp := resize_max (pe_junkZ env) (ps_hp st) (n + 1)). assert (Lhp : n + 1 <= length hp) by (apply length_resize_max; auto).
    set (pp := resize_max (pe_junk env) (ps_pp st) n). assert (Lpp : n <= length pp) by (apply length_resize_max; auto).
    rewrite !fill_ok by (auto; rewrite P31; lia). cbn [rbind].
    assert (ZR : forall l i, i < n -> nth i (repeat 0%Z (n + 1) ++ skipn (n + 1) l) 0%Z = 0%Z).
    { intros l i Hi. rewrite app_nth1 by (rewrite repeat_length; lia). apply nth_repeat. }
    assert (LR : forall l : list Z, n + 1 <= length l -> length (repeat 0%Z (n + 1) ++ skipn (n + 1) l) = length l).
    { intros l Hl. rewrite app_length, repeat_length, skipn_length. lia. }
    unfold kernel_call. replace (n =? 0) with false by lia.
    set (s0 := (repeat 0%Z (n + 1) ++ skipn (n + 1) ht, nx, (repeat 0%Z (n + 1) ++ skipn (n + 1) hm, pm), (repeat 0%Z (n + 1) ++ skipn (n + 1) hp, pp))).
    destruct (kernel_ok mac B t0 LK low T HT Hn (pe_main env) s0) as (s1 & E1 & SZ & DN); auto.
    { unfold sizes, s0, k_ht, k_nx, k_hm, k_pm, k_hp, k_pp. cbn [fst snd]. fold n. rewrite !LR by auto. lia. }
    { intros i Hi. unfold fresh, s0, k_ht, k_hm, k_hp. cbn [fst snd]. rewrite !ZR by auto. auto. }
    rewrite E1. cbn [rbind]. destruct s1 as [[[ht1 nx1] [hm1 pm1]] [hp1 pp1]].
    unfold sizes, k_ht, k_nx, k_hm, k_pm, k_hp, k_pp in SZ. cbn [fst snd] in SZ. fold n in SZ. destruct SZ as (Z1 & Z2 & Z3 & Z4 & Z5 & Z6).
    unfold done, k_ht, k_nx, k_hm, k_pm, k_hp, k_pp in DN. cbn [fst snd] in DN. fold n in DN.
    unfold scan_exclusive_sum_in_place. replace (n + 1 =? 0) with false by lia.
    replace (length ht1 <? n + 1) with false by lia. replace (length hm1 <? n + 1) with false by lia. replace (length hp1 <? n + 1) with false by lia.
    rewrite !SC by lia. cbn [rbind].
    assert (CT : forall j, j < n -> nth j ht1 0%Z = Z.of_nat (length (tseg j))) by (intros j Hj; unfold tseg; rewrite map_length; now destruct (DN j Hj)).
    assert (CM : forall j, j < n -> nth j hm1 0%Z = Z.of_nat (length (mseg j))) by (intros j Hj; unfold mseg; rewrite map_length; now destruct (DN j Hj) as (_ & _ & X & _)).
    assert (CP : forall j, j < n -> nth j hp1 0%Z = Z.of_nat (length (pseg j))) by (intros j Hj; unfold pseg; rewrite map_length; now destruct (DN j Hj) as (_ & _ & _ & _ & X & _)).
    assert (BM : pos mseg n <= n).
    { assert (G : forall k, pos mseg k <= k); [|apply G]. induction k as [|k IH]; [unfold pos; simpl; lia|]. rewrite pos_S. pose proof (mseg_len k). lia. }
    assert (BP : pos pseg n <= n).
    { assert (G : forall k, pos pseg k <= k); [|apply G]. induction k as [|k IH]; [unfold pos; simpl; lia|]. rewrite pos_S. pose proof (pseg_len k). lia. }
    replace (n + 1 - 1) with n by lia. pose proof tpos_bound as TB.
    rewrite (scan_read tseg ht1 n (n + 1) n) by (auto; lia). cbn [rbind].
    rewrite (scan_read mseg hm1 n (n + 1) n) by (auto; rewrite ?P32; lia). cbn [rbind].
    rewrite (scan_read pseg hp1 n (n + 1) n) by (auto; rewrite ?P32; lia). cbn [rbind].
    rewrite !Nat2Z.id.
    rewrite (segs_kernel tseg n 0 _ (pe_task env)); auto.
    2:{ rewrite length_resize by auto. reflexivity. }
    2:{ intros i b Hi Hb. apply task_ok; auto; [lia|]. intros j Hj. destruct (DN i Hi) as (_ & X & _). apply X. unfold tseg in Hj. now rewrite map_length in Hj. }
    cbn [rbind]. rewrite (segs_kernel mseg n (length (ps_m2l st)) _ (pe_m2l env)); auto.
    2:{ now rewrite length_resize by auto. }
    2:{ intros i b Hi Hb. apply result_ok; auto; [apply mseg_len|lia| |rewrite P32; lia].
        intros v Hv. destruct (DN i Hi) as (_ & _ & _ & X & _). unfold mseg, Dtt_scan.mev in Hv. unfold Dtt_scan.mev in X.
        destruct (macT (fst (tk i)) (snd (tk i))); [|discriminate]. injection Hv as <-. apply X. discriminate. }
    cbn [rbind]. rewrite (segs_kernel pseg n (length (ps_p2p st)) _ (pe_p2p env)); auto.
    2:{ now rewrite length_resize by auto. }
    2:{ intros i b Hi Hb. apply result_ok; auto; [apply pseg_len|lia| |rewrite P32; lia].
        intros v Hv. destruct (DN i Hi) as (_ & _ & _ & _ & _ & X). unfold pseg, Dtt_scan.pev in Hv. unfold Dtt_scan.pev in X.
        destruct (macT (fst (tk i)) (snd (tk i))); [discriminate|]. destruct (kids low (fst (tk i)) (snd (tk i))); [discriminate|].
        injection Hv as <-. apply X. discriminate. }
    cbn [rbind]. eexists. split; [reflexivity|]. cbn [ps_cur ps_m2l ps_p2p].
    rewrite !firstn_resize by lia. rewrite !firstn_all. cbn [firstn app].
    split; [exact (flat_seg sk)|]. split; f_equal; [exact (flat_seg mev)|exact (flat_seg pev)].
  Qed.
  End One.

  (* ---------------------------------------------------------------- *)
  Notation wk := (walk low macT).
  Lemma m2l_step p : Permutation (m2l_of B (wk p)) (map idp (mev p) ++ m2l_of B (flat_map wk (sk p))).
  Proof.
    rewrite walk_eq. unfold Dtt_scan.mev, Dtt_scan.sk. destruct (macT (fst p) (snd p)) eqn:M; [reflexivity|].
    destruct (kids low (fst p) (snd p)) as [l|] eqn:E; [|reflexivity]. cbn [map app].
    apply Permutation_map. assert (P : Permutation (sk p) l) by (apply sk_perm; auto). unfold Dtt_scan.sk in P. rewrite M, E in P.
    apply (Permutation_flat_map wk) in P. 
    clear -P. induction P; cbn [filter]; auto;
      repeat match goal with |- context [if ?c then _ else _] => destruct c end; auto using perm_swap. etransitivity; eauto.
  Qed.
  Lemma p2p_step p : Permutation (p2p_of B (wk p)) (map idp (pev p) ++ p2p_of B (flat_map wk (sk p))).
  Proof.
    rewrite walk_eq. unfold Dtt_scan.pev, Dtt_scan.sk. destruct (macT (fst p) (snd p)) eqn:M; [reflexivity|].
    destruct (kids low (fst p) (snd p)) as [l|] eqn:E; [|reflexivity]. cbn [map app].
    apply Permutation_map. assert (P : Permutation (sk p) l) by (apply sk_perm; auto). unfold Dtt_scan.sk in P. rewrite M, E in P.
    apply (Permutation_flat_map wk) in P. 
    clear -P. induction P; cbn [filter]; auto;
      repeat match goal with |- context [if ?c then _ else _] => destruct c end; auto using perm_swap. etransitivity; eauto.
  Qed.
  Lemma interleave {A} (a b c d : list A) : Permutation ((a ++ b) ++ (c ++ d)) ((a ++ c) ++ (b ++ d)).
  Proof. rewrite <- !app_assoc. apply Permutation_app_head. rewrite !app_assoc. apply Permutation_app_tail. apply Permutation_app_comm. Qed.
  Lemma m2l_level T : Permutation (m2l_of B (flat_map wk T)) (map idp (flat_map mev T) ++ m2l_of B (flat_map wk (flat_map sk T))).
  Proof.
    induction T as [|p T IH]; [reflexivity|]. cbn [flat_map]. rewrite map_app, flat_map_app, !m2l_app.
    rewrite (m2l_step p), IH. apply interleave.
  Qed.
  Lemma p2p_level T : Permutation (p2p_of B (flat_map wk T)) (map idp (flat_map pev T) ++ p2p_of B (flat_map wk (flat_map sk T))).
  Proof.
    induction T as [|p T IH]; [reflexivity|]. cbn [flat_map]. rewrite map_app, flat_map_app, !p2p_app.
    rewrite (p2p_step p), IH. apply interleave.
  Qed.
  Lemma ev_split (L : list ev) : length L = length (m2l_of B L) + length (p2p_of B L).
  Proof. unfold m2l_of, p2p_of. rewrite !map_length. induction L as [|[[] ?] L IH]; simpl; lia. Qed.
  Lemma walk_len T : length T <= length (flat_map wk T).
  Proof.
    induction T as [|p T IH]; [auto|]. cbn [flat_map length]. rewrite app_length.
    pose proof (walk_nonempty low macT p). destruct (wk p); [congruence|]. cbn [length]. lia.
  Qed.

  Lemma passes_ok scan env : scan_ip_ok scan -> (forall k n, pass_env_ok n (env k n)) -> forall fuel k T st,
    (forall p, In p T -> sub2 t0 p /\ okp low p /\ mu p < fuel) -> ps_cur st = map idp T ->
    (Z.of_nat (length (ps_m2l st) + length (ps_p2p st) + length (flat_map wk T)) < 2 ^ 30)%Z ->
    exists st', dtt_passes mac B scan low env fuel k st = Ok st' /\
      Permutation (ps_m2l st') (ps_m2l st ++ m2l_of B (flat_map wk T)) /\ Permutation (ps_p2p st') (ps_p2p st ++ p2p_of B (flat_map wk T)).
  Proof.
    intros SC EV. induction fuel as [|f IH]; intros k T st HT EC BD.
    - destruct T as [|p T]; [|destruct (HT p (or_introl eq_refl)) as (_ & _ & X); lia].
      exists st. cbn [dtt_passes]. rewrite EC. cbn. rewrite !app_nil_r. auto.
    - cbn [dtt_passes]. rewrite EC, map_length. destruct T as [|p0 T'] eqn:ET.
      + cbn. exists st. rewrite !app_nil_r. auto.
      + rewrite <- ET in *. assert (LT : 0 < length T) by (subst; simpl; lia). replace (0 <? length T) with true by lia.
        pose proof (walk_len T) as WL.
        destruct (pass_ok T) with (scan := scan) (env := env k (length T)) (st := st) as (st1 & E1 & A1 & A2 & A3); auto.
        { intros p Hp. destruct (HT p Hp) as (X & Y & _). auto. }
        { lia. }
        { lia. }
        rewrite E1. cbn [rbind].
        pose proof (m2l_level T) as ML. pose proof (p2p_level T) as PL.
        destruct (IH (S k) (flat_map sk T) st1) as (st2 & E2 & P1 & P2); auto.
        { intros q Hq. apply in_flat_map in Hq. destruct Hq as (p & Hp & Hq). destruct (HT p Hp) as (S2 & OK & MU).
          apply sk_in in Hq. destruct Hq as (l & E & Hq). split; [eapply kids_sub2; eauto|]. split; [eapply kids_okp; eauto|].
          assert (mu q < mu p) by (destruct p; eapply kids_mu; eauto). lia. }
        { rewrite A2, A3, !app_length, (ev_split (flat_map wk (flat_map sk T))).
          rewrite (ev_split (flat_map wk T)) in BD. apply Permutation_length in ML, PL. rewrite app_length in ML, PL. lia. }
        exists st2. split; [exact E2|]. rewrite P1, P2, A2, A3, ML, PL, !app_assoc. auto.
  Qed.

  Theorem dtt_scan_ok scan env j1 j2 : scan_ip_ok scan -> (forall k n, pass_env_ok n (env k n)) ->
    (Z.of_nat (length (all_events mac B t0 low)) < 2 ^ 30)%Z ->
    exists m p, dtt_scan_multipass mac B scan low env j1 j2 = Ok (m, p) /\
      Permutation m (m2l_of B (all_events mac B t0 low)) /\ Permutation p (p2p_of B (all_events mac B t0 low)).
  Proof.
    intros SC EV BD. unfold dtt_scan_multipass, all_events in *. rewrite (root_leaf B t0 LK) in *.
    pose proof (root_id B t0 LK) as R0. destruct (Nat.eqb_spec off 0) as [E|E].
    - exists [], [(0, 0)]. split; [reflexivity|]. unfold m2l_of, p2p_of, Dtt_ref.idp. cbn. rewrite R0. split; constructor; constructor.
    - destruct (root_ok B t0 LK low) as (A & Bq & D); [rewrite (root_leaf B t0 LK); lia|].
      destruct (passes_ok scan env SC EV (off + 1) 0 [(t0, t0)] (mkpass [(0, 0)] j2 j1 j2 j1 j2 j1 [] [])) as (st & E1 & P1 & P2).
      + intros p [<-|[]]. auto.
      + cbn [ps_cur map]. unfold Dtt_ref.idp. cbn [fst snd]. now rewrite R0.
      + cbn [ps_m2l ps_p2p length flat_map]. rewrite app_nil_r. cbn [Nat.add]. lia.
      + rewrite E1. cbn [rbind]. cbn [ps_m2l ps_p2p app flat_map] in P1, P2. rewrite app_nil_r in P1, P2. eauto.
  Qed.
End Pass.
