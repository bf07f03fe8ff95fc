(** The BVH construction, main theorem. *)
From Verif Require Import Base Bits Integer Integer_proofs Morton Karras Karras_spec P_Karras Par Reduction Reduction_lists Reduction_spec P_Reduction
  Bitonic Traverse Traverse_spec Traverse_proofs P_Traverse BVH BVH_spec BVH_sort BVH_prop BVH_proofs.
From Coq Require Import ZifyBool ZifyNat ZifyN.
Local Open Scope nat_scope.

Lemma leaf_ranges_nth starts n k : k < length starts ->
  nth_error (leaf_ranges starts n) k = Some (nth k (starts ++ [n; 0]) 0, nth (k + 1) (starts ++ [n; 0]) 0).
Proof.
  revert k. induction starts as [|a t IH]; intros k H; [simpl in H; lia|].
  destruct k as [|k].
  - cbn [leaf_ranges nth_error]. destruct t; reflexivity.
  - cbn [leaf_ranges nth_error]. rewrite IH by (simpl in H; lia). reflexivity.
Qed.

Section Main.
  Context {C : Type} (leb : C -> C -> bool) (w b : N) (code : vec C -> N) (err : N) (vtop vbot : vec C)
          (lo hi : list (vec C)) (cnt level : nat) (env : @bvh_env C) (d : vec C).
  Hypothesis HI : bvh_input leb w b code err vtop vbot lo hi cnt.
  Hypothesis HE : bvh_env_ok cnt (N.to_nat (roundup_pow2_32 (N.of_nat cnt))) env.
  Let plo o := nth o lo d.
  Let phi o := nth o hi d.

  Theorem rebuild_full : exists B t objs order old,
    rebuild leb w code err vtop vbot env lo hi cnt level = Ok B /\ represents leb plo phi cnt B t objs /\
    (forall k, In k (leaves t) -> exists p v, forall o, o < cnt -> (In o (objs k) <-> N.shiftr (code (plo o)) p = v)) /\
    strictly_sorted (b_codes B) /\ (forall x, In x (b_codes B) -> (x < 2 ^ b)%N) /\ length (b_codes B) = b_leafs B /\
    (Z.of_nat (b_leafs B) <= 2 ^ 24 + 1)%Z /\
    karras_alg w (b_codes B) order old = Ok (b_cells B) /\
    length old = b_leafs B - 1 /\ Permutation order (seq 0 (b_leafs B - 1)) /\
    (forall u, In u (subtrees t) -> node_ok (b_codes B) (b_cells B) u) /\
    (forall k, In k (leaves t) -> exists o, In o (objs k) /\ code (plo o) = nth k (b_codes B) 0%N).
  Proof.
    destruct HI as [T0 H0 H1 H2 H3 H4 H5 H6 H7 H8 H9]. destruct HE as [V1 V2 V3 V4 V5 V6 V7 V8 V9 V10 V11 V12 V13].
    destruct (roundup_ok cnt H0 H1) as (M1 & M2 & M3). set (mcnt := N.to_nat (roundup_pow2_32 (N.of_nat cnt))) in *.
    unfold rebuild. fold mcnt. replace (cnt =? 0) with false by lia.
    rewrite morton_code_set_ok by auto. cbn [rbind].
    set (codes := map code (firstn cnt lo)) in *.
    assert (LC : length codes = cnt) by (unfold codes; rewrite map_length, firstn_length; lia).
    assert (NC : forall o, o < cnt -> nth o codes 0%N = code (plo o)).
    { intros o Ho. unfold codes. rewrite (nth_indep _ 0%N (code d)) by (rewrite map_length, firstn_length; lia).
      rewrite map_nth. unfold plo. now rewrite nth_firstn'' by auto. }
    assert (NLO : forall o, o < cnt -> nth_error lo o = Some (plo o)) by (intros; apply nth_error_nth'; lia).
    assert (NHI : forall o, o < cnt -> nth_error hi o = Some (phi o)) by (intros; apply nth_error_nth'; lia).
    assert (CB : forall c, In c codes -> (c < 2 ^ b)%N).
    { intros c Hc. destruct (In_nth _ _ 0%N Hc) as (o & Ho & <-). rewrite LC in Ho. rewrite NC by auto. eapply H5; eauto. }
    destruct (sort_morton_set_ok err b H6 (e_oi env mcnt) (e_sort env) (e_stencil env) (e_map env mcnt) codes cnt mcnt) as (keys & mp & E1 & K1 & K2 & K3 & K4 & K5); auto.
    rewrite E1. cbn [rbind].
    assert (MPB : forall i, i < cnt -> nth i mp 0 < cnt).
    { intros i Hi. assert (In (nth i (firstn cnt mp) 0) (firstn cnt mp)) by (apply nth_In; rewrite firstn_length; lia).
      rewrite nth_firstn'' in H by auto. apply (Permutation_in _ K4), in_seq in H. lia. }
    assert (CO : codes_ok w cnt keys).
    { constructor; auto; [lia|]. intros c Hc. destruct (In_nth _ _ 0%N Hc) as (i & Hi & <-). rewrite firstn_length in Hi.
      rewrite nth_firstn'' by lia. rewrite K5 by lia. eapply N.lt_le_trans; [apply CB, nth_In; rewrite LC; apply MPB; lia|]. apply N.pow_le_mono_r; lia. }
    destruct (C18_leaves_partition_into_cells w cnt keys (e_red env) level CO V7) as (starts & E2 & S1 & S2 & S3 & S4).
    rewrite E2. cbn [rbind].
    set (red := starts ++ [cnt; 0]) in *. set (rc := map (Reduction_spec.code keys) starts) in *.
    assert (LRC : length rc = length starts) by (unfold rc; apply map_length).
    assert (SN : starts <> []) by (destruct starts; [discriminate|discriminate]).
    assert (LS0 : 0 < length starts) by (destruct starts; [congruence|simpl; lia]).
    assert (SB : forall s, In s starts -> s < cnt).
    { intros s Hs. clear - S2 Hs. induction starts as [|a l IH]; [destruct Hs|]. simpl in S2. inversion S2 as [|? ? X Y]; subst.
      rewrite Forall_forall in Y. destruct Hs as [<-|Hs]; [apply Y; apply in_or_app; simpl; auto|auto]. }
    assert (RCB : forall x, In x rc -> In x codes).
    { intros x Hx. apply in_map_iff in Hx. destruct Hx as (s & <- & Hs). unfold Reduction_spec.code. rewrite K5 by auto. apply nth_In. rewrite LC. auto. }
    assert (RCB2 : forall x, In x rc -> (x < 2 ^ b)%N) by auto.
    assert (NDR : NoDup rc).
    { clear - S4. fold rc in S4. induction S4 as [|a l X IH Y]; constructor; auto. intros Hin. rewrite Forall_forall in Y. specialize (Y _ Hin). lia. }
    assert (LEAFS : (Z.of_nat (length starts) <= 2 ^ 24 + 1)%Z).
    { rewrite <- LRC. etransitivity; [|exact H7]. apply inj_le. apply NoDup_incl_length; auto. intros x Hx. apply nodup_In. auto. }
    set (st := fun k => nth k red 0).
    assert (ST0 : st 0 = 0) by (unfold st, red; destruct starts; simpl in *; congruence).
    assert (STN : st (length starts) = cnt) by (unfold st, red; rewrite app_nth2, Nat.sub_diag by lia; reflexivity).
    assert (STS : forall k, k < length starts -> st k < st (S k)).
    { intros k Hk. unfold st, red.
      replace (starts ++ [cnt; 0]) with ((starts ++ [cnt]) ++ [0]) by (rewrite <- app_assoc; reflexivity).
      rewrite !(app_nth1 (starts ++ [cnt])) by (rewrite app_length; simpl; lia).
      apply ssorted_nth; auto. rewrite app_length; simpl; lia. }
    assert (STB : forall k, k <= length starts -> st k <= cnt).
    { intros k Hk. destruct (Nat.eq_dec k (length starts)) as [->|NE]; [lia|]. unfold st, red. rewrite app_nth1 by lia.
      assert (In (nth k starts 0) starts) by (apply nth_In; lia). specialize (SB _ H). lia. }
    set (objs := fun k => map (fun i => nth i mp 0) (seq (st k) (st (S k) - st k))).
    assert (RLEN : length red = length starts + 2) by (unfold red; rewrite app_length; simpl; lia).
    assert (FE : forall k, k < length starts -> for_each_in_leaf_cell mp red k = Ok (objs k)).
    { intros k Hk. unfold for_each_in_leaf_cell. rewrite (aget_lt red k 0), (aget_lt red (k + 1) 0) by lia. cbn [rbind].
      rewrite Nat.add_1_r. apply gather_seq. fold (st k) (st (S k)). pose proof (STS k Hk). pose proof (STB (S k)). lia. }
    assert (FM : forall k n, k + n <= length starts -> flat_map objs (seq k n) = map (fun i => nth i mp 0) (seq (st k) (st (k + n) - st k)) /\ st k <= st (k + n)).
    { intros k n Hk. destruct (ranges_concat st n k) as [E L]; [intros j A B; pose proof (STS j); lia|]. split; auto.
      unfold objs. rewrite <- E. clear. induction (seq k n) as [|a l IH]; simpl; auto. now rewrite map_app, IH. }
    assert (OB : forall k o, k < length starts -> In o (objs k) -> o < cnt).
    { intros k o Hk Ho. apply in_map_iff in Ho. destruct Ho as (i & <- & Hi). apply in_seq in Hi. apply MPB.
      pose proof (STB (S k)). pose proof (STS k Hk). lia. }
    assert (ONE : forall k, k < length starts -> objs k <> []).
    { intros k Hk X. apply (f_equal (@length nat)) in X. unfold objs in X. rewrite map_length, seq_length in X. pose proof (STS k Hk). simpl in X. lia. }
    (* the radix tree *)
    assert (KT : exists cells t order old, karras_alg w rc (e_karras env (length rc - 1)) (e_cells env (length rc - 1)) = Ok cells /\
        length cells + 1 = length starts /\ reads cells (length cells =? 0) 0 t /\ leaves t = seq 0 (length starts) /\
        Permutation (internals t) (seq 0 (length cells)) /\ (forall u, In u (subtrees t) -> node_ok rc cells u) /\ height t <= N.to_nat w /\
        karras_alg w rc order old = Ok cells /\ length old = length starts - 1 /\ Permutation order (seq 0 (length starts - 1))).
    { destruct (Nat.eq_dec (length starts) 1) as [L1|L1].
      - destruct rc as [|x [|y rc']] eqn:ERC; simpl in LRC; try lia.
        exists [], (Leaf 0), (e_karras env 0), (e_cells env 0). replace (length [x] - 1) with 0 by reflexivity.
        assert (EC : e_cells env 0 = []) by (pose proof (V9 0) as X; destruct (e_cells env 0); [auto|discriminate]).
        rewrite EC. split; [reflexivity|]. split; [simpl; lia|]. split; [apply reads_leaf|]. rewrite L1. repeat split; auto; simpl; auto; try lia.
        intros u [<-|[]]. exact I.
      - destruct (C16_radix_tree w rc (e_karras env (length rc - 1)) (e_cells env (length rc - 1))) as (cells & E3 & L3 & t & R1 & R2 & R3 & R4 & R5).
        + exact S4.
        + intros x Hx. eapply N.lt_le_trans; [apply RCB2; auto|apply N.pow_le_mono_r; lia].
        + lia. + now rewrite LRC. + apply V9. + apply V8.
        + exists cells, t, (e_karras env (length rc - 1)), (e_cells env (length rc - 1)).
          split; auto. split; [lia|]. split; [replace (length cells =? 0) with false by lia; exact R1|]. split; [now rewrite <- LRC|].
          split; [now rewrite L3|]. split; auto. split; auto. split; auto. split; [rewrite V9; lia|]. rewrite LRC. apply V8. }
    destruct KT as (cells & t & order & old & E3 & L3 & R1 & R2 & R3 & R4 & R5 & R6 & R7 & R8).
    rewrite E3. cbn [rbind]. set (off := length cells) in *.
    destruct (fill_leafs_ok leb vtop vbot lo hi mp red d T0 (e_leaf env (off + 1)) off (off + 1) (e_min env (off + (off + 1))) (e_max env (off + (off + 1))) objs)
      as (lb & m & E4 & F1 & F2 & F3 & F4); auto; try lia.
    { intros k Hk. split; [apply FE; lia|]. split; [apply ONE; lia|]. split.
      - intros o Ho. assert (o < cnt) by (apply (OB k); auto; lia). lia.
      - intros o x Ho Hx. assert (o < cnt) by (apply (OB k); auto; lia). split.
        + eapply H8; eauto.
        + eapply H9; eauto. }
    rewrite E4. cbn [rbind].
    destruct (propagate_tree leb lb cells t (off =? 0) 0) with (depth := N.to_nat w) (sched := e_prop env off) (m := m) as (m' & E5 & G1 & G2 & G3); fold off; auto; try lia.
    { now rewrite R2, <- L3. }
    { intros k Hk. apply F3. lia. }
    rewrite E5. cbn [rbind].
    exists (mkbvh mp red (length starts) rc cells (fst m') (snd m')), t, objs, order, old. cbn [b_codes b_leafs b_cells].
    split; [reflexivity|].
    assert (LVS : forall k, In k (leaves t) <-> k < length starts) by (intros k; rewrite R2, in_seq; lia).
    assert (SUBL : forall u, In u (subtrees t) -> exists a, leaves u = seq a (length (leaves u)) /\ a + length (leaves u) <= length starts).
    { intros u Hu. destruct (subtree_leaves _ _ Hu) as (x & y & Q). rewrite R2 in Q. exists (length x). split; [eapply seq_infix; eauto|].
      apply (f_equal (@length nat)) in Q. rewrite seq_length, !app_length in Q. lia. }
    split; [|split; [|split; [exact S4|split; [auto|split; [exact LRC|split; [auto|split; [auto|split; [auto|split; [auto|split; [auto|]]]]]]]]]].
    - constructor; cbn [b_cells b_leafs b_map b_red]; fold off; auto; try lia.
      + rewrite R2. destruct (FM 0 (length starts)) as [-> _]; [lia|]. rewrite Nat.add_0_l, ST0, STN, Nat.sub_0_r.
        replace (map (fun i => nth i mp 0) (seq 0 cnt)) with (firstn cnt mp); auto.
        apply (list_eq_nth 0); [rewrite firstn_length, map_length, seq_length; lia|].
        intros i Hi. rewrite firstn_length in Hi. rewrite nth_firstn'' by lia.
        rewrite (nth_indep (map (fun i => nth i mp 0) (seq 0 cnt)) 0 (nth 0 mp 0)) by (rewrite map_length, seq_length; lia).
        rewrite (map_nth (fun i => nth i mp 0)), seq_nth by lia. reflexivity.
      + intros k Hk. apply ONE. now apply LVS.
      + intros k Hk. apply FE. now apply LVS.
      + intros u Hu. destruct (SUBL u Hu) as (a & EL & BL).
        assert (NE : 0 < length (leaves u)) by (pose proof (leaves_nonempty u); destruct (leaves u); [congruence|simpl; lia]).
        set (n := length (leaves u)) in *. rewrite EL. destruct (FM a n BL) as [-> MO].
        assert (MM : forall x y, x = a -> y = a + n - 1 ->
          (a0 <- aget red x ;; b0 <- aget red (y + 1) ;; gather mp (seq a0 (b0 - a0))) = Ok (map (fun i => nth i mp 0) (seq (st a) (st (a + n) - st a)))).
        { intros x y -> ->. rewrite (aget_lt red a 0), (aget_lt red _ 0) by lia. cbn [rbind]. replace (a + n - 1 + 1) with (a + n) by lia.
          apply gather_seq. fold (st a) (st (a + n)). pose proof (STB (a + n)). lia. }
        pose proof (sub_id lb cells t) as SI. fold off in SI. specialize (SI ltac:(now rewrite R2, <- L3) R3 u Hu).
        unfold for_each_in_cell. fold off. destruct u as [k|i l r]; cbn [node_id].
        * replace (off <=? k + off) with true by lia. cbn [rbind]. cbn [leaves] in EL. replace n with 1 in * by reflexivity.
          cbn [seq] in EL. injection EL as ->. apply MM; lia.
        * replace (off <=? i) with false by lia. pose proof (R4 _ Hu) as NO. cbn [node_ok] in NO. destruct NO as (c & Ec & Eh & El & _).
          unfold aget at 1. rewrite Ec. cbn [rbind]. rewrite EL in Eh, El. rewrite hd_seq in Eh by lia. rewrite last_seq in El by lia.
          apply MM; lia.
      + intros u Hu. destruct (G3 u Hu) as [X Y]. exists (tbox leb lb u). split.
        * unfold box_at, off. cbn [b_min b_max]. rewrite X, Y. now destruct (tbox leb lb u).
        * apply tight_tree; auto. intros k Hk. apply F4.
          assert (In k (leaves t)). { destruct (subtree_leaves _ _ Hu) as (x & y & ->). apply in_or_app; right; apply in_or_app; auto. }
          apply LVS in H. lia.
    - intros k Hk. apply LVS in Hk. pose proof (leaf_ranges_nth starts cnt k Hk) as LR. apply nth_error_In in LR.
      destruct (S3 _ LR) as (B1 & p & v & PV). cbn [fst snd] in *. fold red in B1, PV. rewrite Nat.add_1_r in B1, PV. fold (st k) (st (S k)) in B1, PV.
      exists p, v. intros o Ho.
      assert (INV : exists i, i < cnt /\ nth i mp 0 = o).
      { assert (In o (firstn cnt mp)) by (apply (Permutation_in _ (Permutation_sym K4)); apply in_seq; lia).
        destruct (In_nth _ _ 0 H) as (i & Hi & Ei). rewrite firstn_length in Hi. exists i. split; [lia|]. rewrite nth_firstn'' in Ei by lia. auto. }
      destruct INV as (i & Hi & Ei).
      assert (CI : Reduction_spec.code keys i = code (plo o)).
      { unfold Reduction_spec.code. rewrite K5 by auto. rewrite Ei. now apply NC. }
      rewrite <- CI. rewrite <- PV by auto. unfold objs. rewrite in_map_iff. split.
      + intros (j & Ej & Hj). apply in_seq in Hj. assert (j = i); [|lia].
        assert (ND : NoDup (firstn cnt mp)) by (eapply Permutation_NoDup; [symmetry; exact K4|apply seq_NoDup]).
        assert (j < cnt) by (pose proof (STB (S k)); lia).
        rewrite (NoDup_nth _ 0) in ND. apply ND; rewrite ?firstn_length, ?nth_firstn'' by lia; try lia.
      + intros Hr. exists i. split; auto. apply in_seq. lia.
    - intros k Hk. apply LVS in Hk. exists (nth (st k) mp 0). split.
      + unfold objs. apply in_map_iff. exists (st k). split; auto. apply in_seq. pose proof (STS k Hk). lia.
      + assert (SK : st k = nth k starts 0) by (unfold st, red; now rewrite app_nth1 by lia).
        unfold rc. rewrite (nth_indep _ 0%N (Reduction_spec.code keys 0)) by (rewrite map_length; lia). rewrite map_nth. rewrite <- SK.
        assert (LK : st k < cnt) by (rewrite SK; apply SB, nth_In; lia).
        unfold Reduction_spec.code. rewrite K5 by auto. symmetry. apply NC. now apply MPB.
  Qed.
  Theorem rebuild_ok : exists B t objs order old,
    rebuild leb w code err vtop vbot env lo hi cnt level = Ok B /\ represents leb plo phi cnt B t objs /\
    (forall k, In k (leaves t) -> exists p v, forall o, o < cnt -> (In o (objs k) <-> N.shiftr (code (plo o)) p = v)) /\
    strictly_sorted (b_codes B) /\ (forall x, In x (b_codes B) -> (x < 2 ^ b)%N) /\ length (b_codes B) = b_leafs B /\
    (Z.of_nat (b_leafs B) <= 2 ^ 24 + 1)%Z /\
    karras_alg w (b_codes B) order old = Ok (b_cells B) /\
    length old = b_leafs B - 1 /\ Permutation order (seq 0 (b_leafs B - 1)).
  Proof.
    destruct rebuild_full as (B & t & objs & order & old & A1 & A2 & A3 & A4 & A5 & A6 & A7 & A8 & A9 & A10 & _).
    exists B, t, objs, order, old. auto 12.
  Qed.
End Main.
