(** The parallel select implementation and the ordering of the results. *)
From Verif Require Import Base Par Karras Karras_spec P_Karras Traverse Traverse_spec Traverse_proofs Reduction Scan Scan_spec SortSearch SortSearch_spec
  BVH BVH_spec Dtt Dtt_spec Dtt_tree Dtt_ref Dtt_segs Dtt_scan Dtt_scan2 Dtt_select Dtt_select2 Dtt_mono Dtt_sep Dtt_reorder Dtt_main.
From Coq Require Import ZifyBool ZifyNat.
Local Open Scope nat_scope.

Lemma grouped_segs (segs : nat -> list ipair) n : (forall i p, i < n -> In p (segs i) -> fst p = i) ->
  grouped n (flat_map segs (seq 0 n)) (map (fun i => Z.of_nat (pos segs i)) (seq 0 (n + 1))).
Proof.
  intros H. split; [now rewrite map_length, seq_length|]. intros g Hg. exists (pos segs g), (pos segs (g + 1)).
  split; [rewrite nth_error_map, nth_error_seq by lia; reflexivity|]. split; [rewrite nth_error_map, nth_error_seq by lia; reflexivity|].
  split; [split; [apply pos_mono; lia|]; change (length (flat_map segs (seq 0 n))) with (pos segs n); apply pos_mono; lia|].
  intros j ab E. assert (Hj : j < pos segs n) by (apply nth_error_Some; unfold pos; congruence).
  destruct (find_seg segs n j Hj) as (i & y & Hi & Hy & ->). rewrite nth_flat in E by auto. apply nth_error_In in E. rewrite (H i ab Hi E).
  split; [intros ->; rewrite Nat.add_1_r, pos_S; lia|]. intros [L1 L2].
  destruct (Nat.lt_trichotomy i g) as [X|[X|X]]; auto; exfalso.
  - pose proof (pos_seg segs i g X). lia.
  - pose proof (pos_mono segs (g + 1) i ltac:(lia)). lia.
Qed.
Lemma sorted_grouped N (L L0 : list ipair) : (forall p : ipair, In p L0 -> fst p < N) -> Permutation L L0 -> sorted_by comp_pair L ->
  grouped N L (map (fun g => Z.of_nat (before L0 g)) (seq 0 (N + 1))).
Proof.
  intros HB P HS. assert (E : map (fun g => Z.of_nat (before L0 g)) (seq 0 (N + 1)) = map (fun g => Z.of_nat (before L g)) (seq 0 (N + 1))).
  { apply map_ext. intros g. f_equal. apply before_perm. now symmetry. }
  rewrite E. apply grouped_of.
  - intros p Hp. apply HB. eapply Permutation_in; eauto.
  - unfold sorted_by in HS. clear - HS. induction HS as [|x l S IH F]; constructor; [exact IH|].
    rewrite Forall_forall in *. intros y Hy. specialize (F y Hy). unfold comp_pair in F. destruct (Nat.eqb_spec (fst y) (fst x)); lia.
Qed.
(** two sorted lists with the same elements are equal *)
Lemma comp_pair_antisym (a b : ipair) : comp_pair a b = false -> comp_pair b a = false -> a = b.
Proof. destruct a as [a1 a2], b as [b1 b2]. unfold comp_pair. cbn [fst snd]. destruct (Nat.eqb_spec a1 b1), (Nat.eqb_spec b1 a1); intros; try lia. f_equal; lia. Qed.
Lemma sorted_unique (L L' : list ipair) : sorted_by comp_pair L -> sorted_by comp_pair L' -> Permutation L L' -> L = L'.
Proof.
  unfold sorted_by. intros HS. revert L'. induction HS as [|x l S IH F]; intros L' HS' P.
  - now apply Permutation_nil in P.
  - destruct L' as [|y l']; [apply Permutation_sym, Permutation_nil in P; discriminate|]. inversion HS' as [|? ? S' F']; subst. rewrite Forall_forall in *.
    assert (E : x = y).
    { assert (Hx : In x (y :: l')) by (eapply Permutation_in; [exact P|simpl; auto]). assert (Hy : In y (x :: l)) by (eapply Permutation_in; [symmetry; exact P|simpl; auto]).
      destruct Hx as [Hx|Hx]; [congruence|]. destruct Hy as [Hy|Hy]; [congruence|]. specialize (F y Hy). specialize (F' x Hx). apply comp_pair_antisym; auto. }
    subst y. f_equal. apply IH; auto. eapply Permutation_cons_inv; eauto.
Qed.

Section Sel.
  Context {C : Type} (leb : C -> C -> bool) (mac : vec C * vec C -> vec C * vec C -> bool) (B : @bvh C) (t0 : tree).
  Hypothesis LK : linked B t0.
  Variable low : bool.
  Notation nid := (node_id (length (b_cells B))).
  Notation total := (total_cell_count B).
  Notation allev := (all_events mac B t0 low).
  Lemma sel_result (Ef : nat -> list ev) : (forall i, i < total -> Permutation (Ef i) (filter (mine_of B i) allev)) ->
    let m := flat_map (fun i => m2l_of B (Ef i)) (seq 0 total) in
    let q := flat_map (fun i => p2p_of B (Ef i)) (seq 0 total) in
    Permutation m (m2l_of B allev) /\ Permutation q (p2p_of B allev) /\
    grouped total m (map (fun i => Z.of_nat (pos (fun i => m2l_of B (Ef i)) i)) (seq 0 (total + 1))) /\
    grouped total q (map (fun i => Z.of_nat (pos (fun i => p2p_of B (Ef i)) i)) (seq 0 (total + 1))).
  Proof.
    intros HE. cbv zeta.
    assert (BI : forall e, In e allev -> nid (fst (snd e)) < total).
    { intros e He. apply (lk_bound B t0 LK). unfold all_events in He. destruct (leafb t0); [destruct He as [<-|[]]; cbn [fst snd]; apply self_sub'|].
      apply walk_sub in He. destruct He as [He _]. exact He. }
    assert (PE : Permutation (flat_map Ef (seq 0 total)) allev).
    { etransitivity; [|exact (flat_filter_perm (fun e => nid (fst (snd e))) total allev BI)].
      assert (G : forall s, (forall i, In i s -> i < total) -> Permutation (flat_map Ef s) (flat_map (fun i => filter (fun x => nid (fst (snd x)) =? i) allev) s)).
      { induction s as [|i s IH]; intros Hs; [constructor|]. cbn [flat_map]. apply Permutation_app; [apply (HE i); apply Hs; simpl; auto|]. apply IH. intros; apply Hs; simpl; auto. }
      apply G. intros i Hi. apply in_seq in Hi. lia. }
    assert (FI : forall i e, i < total -> In e (Ef i) -> nid (fst (snd e)) = i).
    { intros i e Hi He. apply (Permutation_in _ (HE i Hi)), filter_In in He. destruct He as [_ He]. unfold mine_of in He. lia. }
    split; [|split; [|split]].
    - etransitivity; [|apply Permutation_map, Permutation_filter, PE]. rewrite filter_flat, map_flat. reflexivity.
    - etransitivity; [|apply Permutation_map, Permutation_filter, PE]. rewrite filter_flat, map_flat. reflexivity.
    - apply grouped_segs. intros i p Hi Hp. unfold m2l_of in Hp. apply in_map_iff in Hp. destruct Hp as (e & <- & He). apply filter_In in He. unfold idp. cbn [fst]. now apply FI.
    - apply grouped_segs. intros i p Hi Hp. unfold p2p_of in Hp. apply in_map_iff in Hp. destruct Hp as (e & <- & He). apply filter_In in He. unfold idp. cbn [fst]. now apply FI.
  Qed.
End Sel.
