(** The accelerations as sums over the particles. *)
Require Import Reals Lra.
From Verif Require Import Fmm_tensors Fmm_ops Fmm_spec Fmm_orders Fmm_store Fmm_reps.
From Verif Require Import Base Par Karras Karras_spec Traverse Traverse_spec Reduction Scan Scan_spec SortSearch SortSearch_spec BVH BVH_spec BVH_prop P_Traverse Dtt Dtt_spec Dtt_scan Dtt_sep Interleave Sgfmm Sgfmm_passes Sgfmm_util Sgfmm_tree Sgfmm_down Sgfmm_field Sgfmm_inv Sgfmm_part Sgfmm_spec.
From Coq Require Import ZifyBool ZifyNat.
Local Open Scope nat_scope.

Lemma fill_zero n : (Z.of_nat n < 2 ^ 31)%Z -> fill_prefix 0 n (repeat 0%Z n) = Ok (repeat 0%Z n).
Proof. intros H. rewrite Dtt_scan.fill_ok by (rewrite ?repeat_length; auto). rewrite skipn_all2 by (rewrite repeat_length; auto). now rewrite app_nil_r. Qed.

Section Main.
  Context (o : mmorder) (B : @bvh R) (xyz : list (vec R)) (leb : R -> R -> bool) (plo phi : nat -> vec R) (t : tree) (objs : nat -> list nat) (gm : R).
  Hypothesis RP : represents leb plo phi (length xyz) B t objs.
  Hypothesis SZ : (Z.of_nat (b_leafs B) <= 2 ^ 24 + 1)%Z.
  Hypothesis NS : (Z.of_nat (length xyz) < 2 ^ 31 - 1)%Z.
  Notation cells := (b_cells B).
  Notation off := (length (b_cells B)).
  Notation nid := (node_id (length (b_cells B))).
  Notation total := (total_cell_count B).
  Notation fnode := (find_node (b_cells B) t).
  Notation ctr := (ctr B).
  Notation pnt := (pnt xyz).
  Notation below := (below objs).
  Notation n := (length xyz).
  Let TFO := T_find_ok B xyz leb plo phi t objs RP.

  Lemma ctr_eq a : a < total -> ctr (fnode a) = cell_center B a.
  Proof.
    intros Ha. destruct (TFO a Ha) as [X Y]. unfold Sgfmm_tree.ctr, cell_center. rewrite Y. destruct (box_at B a) as [[[[x y] z] [[x' y'] z']]|]; reflexivity.
  Qed.
  Lemma pnt_eq j : pnt j = position xyz j.
  Proof. unfold Sgfmm_tree.pnt, position, tov. reflexivity. Qed.
  Lemma incs_count : length (incs B t objs) = incidence_count B.
  Proof.
    unfold incs, incidence_count. assert (H : forall c, In c (seq 0 total) -> c < total) by (intros c Hc; apply in_seq in Hc; lia).
    induction (seq 0 total) as [|c l IH]; [reflexivity|]. cbn [flat_map]. rewrite !app_length, IH, map_length by (intros; apply H; simpl; auto).
    now rewrite (cell_objects_eq B xyz leb plo phi t objs RP) by (apply H; simpl; auto).
  Qed.

  Theorem p2p_ok env G eps nm nq (q : list ipair) offp axyz : sg_env_ok o B n nm nq env -> (Z.of_nat (incidence_count B) < 2 ^ 31)%Z ->
    grouped total q offp -> (forall p, In p q -> fst p < total /\ snd p < total) -> length axyz = n -> 0 < n ->
    exists ax', p2p B xyz env G gm (eps * eps) q offp axyz = Ok ax' /\ length ax' = n /\
      forall a c, a < n -> comp (nth a ax' z3) c = (comp (nth a axyz z3) c +
        Rsum (fun p => ind (inb a (below (fnode (fst p)))) (Rsum (fun j => comp (p2p_term G gm (eps * eps) (pnt a) (pnt j)) c) (below (fnode (snd p))))) q)%R.
  Proof.
    intros EV IC HG HB LA N0. unfold p2p. rewrite !fill_zero by (rewrite P31 in *; lia). cbn [rbind]. rewrite (incidences_ok B xyz leb plo phi t objs RP SZ). fold (incs B t objs). cbn [rbind].
    replace (total =? 0) with false by (unfold total_cell_count; pose proof (rp_count _ _ _ _ _ _ _ RP); lia).
    destruct EV as [V1 V2 V3 V4 V5 V6 V7 V8 V9 V10 V11 V12 V13 V14]. rewrite <- incs_count in IC, V9, V10.
    destruct (invert_ok n (de_scan_ip (se_dtt env)) (incs B t objs) (se_count env) (se_scat env) (se_sort env) (se_range_sort env)) as (cpp & offs & E1 & E2 & E3 & IV); auto.
    { apply (do_scan_ip _ _ _ _ V4). }
    { intros p Hp. eapply incs_lt; eauto. }
    rewrite E1. cbn [rbind]. rewrite E2. cbn [rbind]. rewrite E3. cbn [rbind]. rewrite Nat2Z.id.
    destruct (IV (se_cont env (length (incs B t objs)))) as (tc & cont & E4 & E5 & SL); auto. rewrite E4. cbn [rbind]. rewrite E5. cbn [rbind].
    set (NE := fun a c => Rsum (fun p => ind (inb a (below (fnode (fst p)))) (Rsum (fun j => comp (p2p_term G gm (eps * eps) (pnt a) (pnt j)) c) (below (fnode (snd p))))) q).
    assert (IT : forall a, a < n -> p2p_item B xyz G gm (eps * eps) offs cont q offp a = Ok (mkv (NE a X0) (NE a X1) (NE a X2))).
    { intros a Ha. destruct (SL a Ha) as (s & e & F1 & F2 & F3 & F4 & _).
      destruct (near_item B xyz leb plo phi t objs RP SZ G gm (eps * eps) offs cont q offp a s e) as (f & E & V); auto. rewrite E. f_equal.
      unfold NE. rewrite <- !V. destruct f; reflexivity. }
    unfold kernel_call. replace (n =? 0) with false by lia. unfold par_for.
    match goal with |- exists ax', rfold ?bd _ axyz = Ok ax' /\ _ => destruct (add_each bd (fun a => mkv (NE a X0) (NE a X1) (NE a X2)) n (se_p2p env)) with (ax := axyz) as (ax' & E & L & A1 & _); auto end.
    - apply (Permutation_NoDup (Permutation_sym V14)), seq_NoDup.
    - intros a Ha. assert (Ha' : a < n) by (apply (Permutation_in _ V14), in_seq in Ha; lia). split; auto.
      intros ax L. rewrite IT by auto. cbn [rbind]. rewrite (aget_lt ax a z3) by lia. cbn [rbind]. rewrite aset_lt by lia. reflexivity.
    - exists ax'. split; auto. split; auto. intros a c Ha. rewrite A1 by (apply (Permutation_in _ (Permutation_sym V14)), in_seq; lia). rewrite comp_add. f_equal. destruct c; reflexivity.
  Qed.

  Lemma near_eq G eps x y c : comp (p2p_term G gm (eps * eps) x y) c = softened G gm eps x y c.
  Proof.
    unfold p2p_term, softened. rewrite comp_scal. change (vx (v3sub y x) * vx (v3sub y x) + vy (v3sub y x) * vy (v3sub y x) + vz (v3sub y x) * vz (v3sub y x) + eps * eps)%R with (norm2 (vsub y x) + eps * eps)%R.
    change v3sub with vsub. set (s := sqrt (norm2 (vsub y x) + eps * eps)). unfold Rdiv. replace (/ s ^ 3)%R with (/ s * / s * / s)%R; [ring|].
    cbn [pow]. rewrite Rmult_1_r, !Rinv_mult. ring.
  Qed.
  (** a sum over the masses below a cell, as a sum over all of them *)
  Lemma below_sum b (f : nat -> R) : b < total -> Rsum f (below (fnode b)) = Rsum (fun j => ind (inb j (below (fnode b))) (f j)) (seq 0 n).
  Proof.
    intros Hb. rewrite (Rsum_subset f (below (fnode b)) n); [reflexivity| |].
    - eapply below_nd; eauto.
    - intros x Hx. eapply below_n; eauto.
  Qed.
  Lemma ind_ind a b x : ind a (ind b x) = ind (a && b) x.
  Proof. destruct a, b; reflexivity. Qed.

  Theorem sgsfmm_ok D mac low depth bcap env G eps axyz m q om oq : (D = Dgrav) -> 0 < off -> 0 < n -> height t <= depth -> sg_env_ok o B n (length m) (length q) env -> (Z.of_nat (incidence_count B) < 2 ^ 31)%Z -> length axyz = n ->
    clbvh_dual_tree_traversal leb mac B bcap (se_dtt env) (se_impl env) true low = Ok ((m, q), Some (om, oq)) ->
    dtt_correct mac B low n m q -> grouped total m om -> grouped total q oq ->
    exists ax', sgsfmm o B xyz leb mac low depth bcap env G gm eps axyz = Ok ax' /\ length ax' = n /\
      forall i, i < n -> exists f, (forall j, j < n -> acts D (ordn o - 1) B xyz m q G gm eps i j (f j)) /\
        forall c, comp (nth i ax' z3) c = (comp (nth i axyz z3) c + Rsum (fun j => f j c) (seq 0 n))%R.
  Proof.
    intros -> H0 N0 HD EV IC LA ED DC GM GQ. pose proof EV as [V1 V2 V3 V4 V5 V6 V7 V8 V9 V10 V11 V12 V13 V14].
    assert (IDM : forall p, In p m -> fst p < total /\ snd p < total) by (intros [a b] H; apply (dc_ids _ _ _ _ _ _ DC a b), in_or_app; auto).
    assert (IDQ : forall p, In p q -> fst p < total /\ snd p < total) by (intros [a b] H; apply (dc_ids _ _ _ _ _ _ DC a b), in_or_app; auto).
    unfold sgsfmm. destruct (moments_ok o B xyz leb plo phi t objs RP SZ gm depth env) as (mass & E1 & MD); auto. rewrite E1. cbn [rbind]. rewrite ED. cbn [rbind fst snd].
    destruct (m2l_kernel_ok o B xyz leb plo phi t objs gm RP SZ (se_m2l env) m om mass (se_grav env (total * grav_terms o)) MD GM IDM V5 (V6 _)) as (gr1 & ini & E2 & L2 & C2 & F2). rewrite E2. cbn [rbind].
    destruct (l2l_ok o B xyz leb plo phi t objs RP SZ ini depth (se_down env) gr1) as (gr2 & E3 & L3 & C3); auto. rewrite E3. cbn [rbind].
    destruct (l2p_ok o B xyz leb plo phi t objs RP SZ (se_l2p env) G gr2 (fval o B t ini) axyz) as (ax1 & E4 & L4 & C4); auto. rewrite E4. cbn [rbind].
    destruct (p2p_ok env G eps (length m) (length q) q oq ax1) as (ax2 & E5 & L5 & C5); auto. exists ax2. split; auto. split; auto. intros i Hi.
    destruct (leaf_of B xyz leb plo phi t objs RP SZ i Hi) as (k & Hk & Hik).
    set (P := fun (j : nat) (p : ipair) => inb i (cell_objects B (fst p)) && inb j (cell_objects B (snd p))).
    set (F := fun (j : nat) c (p : ipair) => expanded Dgrav (ordn o - 1) G gm (cell_center B (fst p)) (cell_center B (snd p)) (position xyz i) (position xyz j) c).
    set (H := fun (j : nat) c (p : ipair) => softened G gm eps (position xyz i) (position xyz j) c).
    assert (TOT : forall c, comp (nth i ax2 z3) c = (comp (nth i axyz z3) c + Rsum (fun j => Rsum (fun p => ind (P j p) (F j c p)) m + Rsum (fun p => ind (P j p) (H j c p)) q) (seq 0 n))%R).
    { intros c. rewrite C5 by auto. rewrite (C4 k i c Hk Hik). rewrite (leaf_field o B xyz leb plo phi t objs RP SZ ini k Hk (pnt i) c).
      rewrite Rsum_plus, Rplus_assoc. f_equal. f_equal.
      - rewrite <- Rsum_scal_l. rewrite <- Rsum_swap.
        transitivity (Rsum (fun id => Rsum (fun p => ind (fst p =? id) (Rsum (fun j => ind (P j p) (F j c p)) (seq 0 n))) m) (seq 0 total)).
        + apply Rsum_ext. intros id Hid. apply in_seq in Hid. assert (Hid' : id < total) by lia. rewrite (F2 id Hid'). destruct (TFO id Hid') as [X Y].
          rewrite <- (below_leaf B xyz leb plo phi t objs RP SZ k i (fnode id) Hk Hik X). rewrite <- Rsum_ind, <- Rsum_scal_l. apply Rsum_ext. intros p Hp. destruct (IDM p Hp) as [P1 P2].
          destruct (Nat.eqb_spec (fst p) id) as [<-|NE]; cbn [ind]; [|unfold ind; destruct (inb _ _); ring].
          rewrite below_sum by auto. rewrite <- Rsum_ind, <- Rsum_scal_l. apply Rsum_ext. intros j _. rewrite ind_ind. unfold P, F. rewrite !(cell_objects_eq B xyz leb plo phi t objs RP) by auto.
          unfold gfar, expanded. rewrite !ctr_eq by auto. rewrite (pnt_eq i), (pnt_eq j). unfold ind. destruct (_ && _); ring.
        + rewrite Rsum_swap. apply Rsum_ext. intros p Hp. destruct (IDM p Hp) as [P1 P2]. etransitivity; [|apply (Rsum_one (fst p) _ total P1)]. apply Rsum_ext. intros x _. now rewrite Nat.eqb_sym.
      - rewrite <- Rsum_swap. apply Rsum_ext. intros p Hp. destruct (IDQ p Hp) as [P1 P2]. rewrite below_sum by auto. rewrite <- Rsum_ind. apply Rsum_ext. intros j _. rewrite ind_ind. unfold P, H.
        rewrite !(cell_objects_eq B xyz leb plo phi t objs RP) by auto. rewrite near_eq, (pnt_eq i), (pnt_eq j). reflexivity. }
    exists (fun j c => Rsum (fun p => ind (P j p) (F j c p)) m + Rsum (fun p => ind (P j p) (H j c p)) q)%R. split; [|exact TOT].
    intros j Hj. pose proof (dc_cover _ _ _ _ _ _ DC i j Hi Hj) as CV. unfold covering in CV. change (length (filter (P j) (m ++ q)) = 1) in CV.
    assert (ONE : exists p, P j p = true /\ ((In p m /\ forall c, (Rsum (fun p => ind (P j p) (F j c p)) m + Rsum (fun p => ind (P j p) (H j c p)) q = F j c p)%R) \/
                          (In p q /\ forall c, (Rsum (fun p => ind (P j p) (F j c p)) m + Rsum (fun p => ind (P j p) (H j c p)) q = H j c p)%R))).
    { clear - CV. rewrite filter_app, app_length in CV. destruct (filter (P j) m) as [|p [|p' l]] eqn:E1; cbn [length] in CV.
      - destruct (filter (P j) q) as [|p [|p' l]] eqn:E2; cbn [length] in CV; try lia. exists p.
        assert (I : In p (filter (P j) q)) by (rewrite E2; simpl; auto). apply filter_In in I. destruct I as [I1 I2]. split; auto. right. split; auto. intros c. rewrite <- !Rsum_filter, E1, E2. cbn. ring.
      - destruct (filter (P j) q) as [|p' l] eqn:E2; cbn [length] in CV; try lia. exists p.
        assert (I : In p (filter (P j) m)) by (rewrite E1; simpl; auto). apply filter_In in I. destruct I as [I1 I2]. split; auto. left. split; auto. intros c. rewrite <- !Rsum_filter, E1, E2. cbn. ring.
      - lia. }
    destruct ONE as ([a b] & HP & ONE). unfold P in HP. cbn [fst snd] in HP. apply andb_true_iff in HP. destruct HP as [HP1 HP2]. apply inb_in in HP1, HP2.
    destruct ONE as [[I V]|[I V]]; [apply (acts_far _ _ _ _ _ _ _ _ _ _ _ _ a b)|apply (acts_near _ _ _ _ _ _ _ _ _ _ _ _ a b)]; auto.
  Qed.
End Main.
