(** The neighbour lists are exact. *)
Require Import Reals Lra.
From Verif Require Import Base Par Karras Karras_spec Traverse Traverse_spec Traverse_proofs Reduction Bitonic Scan Scan_spec SortSearch BVH BVH_spec BVH_main BVH_proofs BVH_prop P_Traverse P_BVH Dtt Dtt_spec Dtt_tree Dtt_ref Dtt_segs Dtt_scan Dtt_sep P_Dtt Interleave Sgfmm Sgfmm_passes Sgfmm_util Sgfmm_tree Sgfmm_part Sgfmm_down Sgfmm_spec P_Sgfmm
  Ncache Ncache_spec Ncache_field Ncache_walk Ncache_own.
From Coq Require Import ZifyBool ZifyNat.
Local Open Scope nat_scope.

Lemma coord_le_dist p q c r : In c (@coords R) -> (0 <= r)%R -> (dist2 p q <= r * r)%R -> (c p - r <= c q <= c p + r)%R.
Proof.
  intros Hc Hr H. assert (S : ((c p - c q) * (c p - c q) <= r * r)%R).
  { eapply Rle_trans; [|exact H]. unfold dist2. pose proof (Rle_0_sqr (cx p - cx q)) as A1. pose proof (Rle_0_sqr (cy p - cy q)) as A2. pose proof (Rle_0_sqr (cz p - cz q)) as A3.
    unfold Rsqr in *. destruct Hc as [<-|[<-|[<-|[]]]]; lra. }
  assert (A : (Rabs (c p - c q) <= r)%R). { apply Rsqr_le_abs_0 in S. rewrite (Rabs_right r) in S by lra. exact S. }
  unfold Rabs in A. destruct (Rcase_abs _) in A; lra.
Qed.
Lemma sqrt_le_iff x r : (0 <= x)%R -> (0 <= r)%R -> (sqrt x <= r <-> x <= r * r)%R.
Proof.
  intros Hx Hr. split; intros H.
  - rewrite <- (sqrt_sqrt x Hx). pose proof (sqrt_pos x). apply Rmult_le_compat; auto.
  - rewrite <- (sqrt_square r Hr). apply sqrt_le_1; auto. apply Rmult_le_pos; auto.
Qed.
Lemma dist2_pos p q : (0 <= dist2 p q)%R.
Proof. unfold dist2. pose proof (Rle_0_sqr (cx p - cx q)). pose proof (Rle_0_sqr (cy p - cy q)). pose proof (Rle_0_sqr (cz p - cz q)). unfold Rsqr in *. lra. Qed.
Lemma dist2_sym p q : dist2 p q = dist2 q p.
Proof. unfold dist2. ring. Qed.

Lemma cella_iff amin amax bmin bmax : cella_neigh_b amin amax bmin bmax = true <->
  forall c, In c (@coords R) -> (c amin <= c amax /\ c amin <= c bmax /\ c bmin <= c amax /\ c bmin <= c bmax)%R.
Proof.
  assert (G : forall a b c d, (Rmax a b <= Rmin c d <-> a <= c /\ a <= d /\ b <= c /\ b <= d)%R).
  { intros a b c d. unfold Rmax, Rmin. destruct (Rle_dec a b), (Rle_dec c d); split; intros; lra. }
  destruct amin as [[ax ay] az], amax as [[ex ey] ez], bmin as [[bx by'] bz], bmax as [[dx dy] dz]. unfold cella_neigh_b. rewrite !andb_true_iff, !rleb_iff, !G. split.
  - intros H c [<-|[<-|[<-|[]]]]; cbn; tauto.
  - intros H. pose proof (H cx ltac:(simpl; auto)) as H1. pose proof (H cy ltac:(simpl; auto)) as H2. pose proof (H cz ltac:(simpl; auto)) as H3. cbn in *. tauto.
Qed.
Lemma vshift_c c v s : In c (@coords R) -> c (vshift v s) = (c v + s)%R.
Proof. destruct v as [[x y] z]. intros [<-|[<-|[<-|[]]]]; reflexivity. Qed.

(** ** the functors *)
Section Fold.
  Context (xyz : list (vec R)) (hpart : list R) (htol Rkern : R) (pa : vec R) (ra : R).
  Hypothesis LH : length hpart = length xyz.
  Definition keep (j : nat) : bool :=
    let rab2 := dist2 pa (pos_of xyz j) in let rb := (h_of hpart j * htol)%R in let K := (Rkern * Rkern)%R in
    negb (rgtb rab2 (ra * ra * K) && rgtb rab2 (rb * rb * K)).
  Lemma no_interact_eq j : j < length xyz -> no_interact xyz hpart htol Rkern pa ra j = Ok (negb (keep j)).
  Proof.
    intros Hj. unfold no_interact. rewrite (aget_lt xyz j (0, 0, 0)%R), (aget_lt hpart j 0%R) by lia. cbn [rbind]. unfold keep. rewrite negb_involutive.
    change (nth j xyz (0, 0, 0)%R) with (pos_of xyz j). change (nth j hpart 0%R) with (h_of hpart j). do 3 f_equal; destruct pa as [[x y] z], (pos_of xyz j) as [[x' y'] z']; reflexivity.
  Qed.
  Lemma count_one_fold l : (forall j, In j l -> j < length xyz) -> forall c, (0 <= c)%Z -> (c + Z.of_nat (length (filter keep l)) < 2 ^ 32)%Z ->
    rfold (count_one xyz hpart htol Rkern pa ra) l c = Ok (c + Z.of_nat (length (filter keep l)))%Z.
  Proof.
    induction l as [|j l IH]; intros HB c Hc Hb; cbn [rfold filter length] in *; [f_equal; lia|]. unfold count_one at 1. rewrite no_interact_eq by (apply HB; now left). cbn [rbind].
    destruct (keep j); cbn [negb length] in *.
    - rewrite w32_small by lia. rewrite IH; [f_equal; lia|intros; apply HB; now right|lia|lia].
    - apply IH; auto. intros; apply HB; now right.
  Qed.
  Lemma fill_one_fold l : (forall j, In j l -> j < length xyz) -> forall b p, p + length (filter keep l) <= length b -> (Z.of_nat (length b) < 2 ^ 32)%Z ->
    exists c, rfold (fill_one xyz hpart htol Rkern pa ra) l (b, Z.of_nat p) = Ok (writel p (filter keep l) b, c).
  Proof.
    induction l as [|j l IH]; intros HB b p Hp Hb; cbn [rfold filter length] in *; [rewrite writel_nil; eauto|]. unfold fill_one at 1. rewrite no_interact_eq by (apply HB; now left). cbn [rbind fst snd].
    destruct (keep j); cbn [negb length] in *.
    - rewrite Nat2Z.id, aset_lt by lia. cbn [rbind]. rewrite w32_small by lia. replace (Z.of_nat p + 1)%Z with (Z.of_nat (S p)) by lia.
      destruct (IH (fun k Hk => HB k (or_intror Hk)) (upd b p j) (S p)) as (c & E); [rewrite length_upd; lia|rewrite length_upd; lia|]. exists c. rewrite E. now rewrite writel_cons by lia.
    - apply IH; auto. intros; apply HB; now right.
  Qed.
End Fold.
Lemma count_leaf_fold (l : list nat) : forall c, (0 <= c)%Z -> (c + Z.of_nat (length l) < 2 ^ 32)%Z -> rfold (fun (_ : nat) cnt => Ok (w32 (cnt + 1))) l c = Ok (c + Z.of_nat (length l))%Z.
Proof. induction l as [|j l IH]; intros c Hc Hb; cbn [rfold length] in *; [f_equal; lia|]. cbn [rbind]. rewrite w32_small by lia. rewrite IH by lia. f_equal. lia. Qed.
Lemma fill_leaf_fold (l : list nat) : forall b p, p + length l <= length b -> (Z.of_nat (length b) < 2 ^ 32)%Z ->
  exists c, rfold (fun leaf_b (s : list nat * Z) => ng <- aset (fst s) (Z.to_nat (snd s)) leaf_b ;; Ok (ng, w32 (snd s + 1))) l (b, Z.of_nat p) = Ok (writel p l b, c).
Proof.
  induction l as [|j l IH]; intros b p Hp Hb; cbn [rfold length fst snd] in *; [rewrite writel_nil; eauto|]. rewrite Nat2Z.id, aset_lt by lia. cbn [rbind]. rewrite w32_small by lia.
  replace (Z.of_nat p + 1)%Z with (Z.of_nat (S p)) by lia. destruct (IH (upd b p j) (S p)) as (c & E); [rewrite length_upd; lia|rewrite length_upd; lia|]. exists c. rewrite E. now rewrite writel_cons by lia.
Qed.
(** the concatenation of the segments, as pairs *)
Lemma fewer_pos (P : nat -> nat -> Prop) (segs : nat -> list nat) n m : fewer_pairs P m -> (forall i, i < n -> NoDup (segs i)) -> (forall i j, i < n -> In j (segs i) -> P i j) -> (Z.of_nat (pos segs n) < m)%Z.
Proof.
  intros F ND HP. set (L := flat_map (fun i => map (pair i) (segs i)) (seq 0 n)).
  assert (LL : length L = pos segs n).
  { unfold L, pos. generalize (seq 0 n). induction l as [|i l IH]; [reflexivity|]. cbn [flat_map]. rewrite !app_length, map_length, IH. reflexivity. }
  rewrite <- LL. apply F.
  - unfold L. assert (G : forall l, NoDup l -> (forall i, In i l -> i < n) -> NoDup (flat_map (fun i => map (pair i) (segs i)) l)).
    { induction l as [|i l IH]; intros N HL; [constructor|]. inversion N as [|? ? NI N']; subst. cbn [flat_map].
      assert (IHl : NoDup (flat_map (fun i => map (pair i) (segs i)) l)) by (apply IH; auto; intros; apply HL; now right).
      assert (NS : NoDup (segs i)) by (apply ND, HL; now left). revert NS. generalize (segs i) as s. induction s as [|j s IHs]; intros NS; [exact IHl|]. inversion NS; subst. cbn [map app]. constructor; [|apply IHs; auto].
      intros X. apply in_app_or in X. destruct X as [X|X].
      - apply in_map_iff in X. destruct X as (? & E & X). injection E as ->. contradiction.
      - apply in_flat_map in X. destruct X as (i' & Hi' & X). apply in_map_iff in X. destruct X as (? & E & _). injection E as -> _. contradiction. }
    apply G; [apply seq_NoDup|]. intros i Hi. apply in_seq in Hi. lia.
  - intros p Hp. apply in_flat_map in Hp. destruct Hp as (i & Hi & Hp). apply in_map_iff in Hp. destruct Hp as (j & <- & Hj). apply in_seq in Hi. cbn [fst snd]. apply HP; [lia|auto].
Qed.

Section Main.
  Context (B : @bvh R) (xyz : list (vec R)) (t : tree) (objs : nat -> list nat).
  Hypothesis RP : represents Rleb (pos_of xyz) (pos_of xyz) (length xyz) B t objs.
  Hypothesis SZ : (Z.of_nat (b_leafs B) <= 2 ^ 24 + 1)%Z.
  Context (hpart : list R) (hmin htol Rkern : R).
  Hypothesis LH : length hpart = length xyz.
  Hypothesis HT : (0 <= htol)%R.
  Hypothesis HK : (0 <= Rkern)%R.
  Hypothesis HP : forall j, j < length xyz -> (0 <= h_of hpart j)%R.
  Notation off := (length (b_cells B)).
  Notation nid := (node_id (length (b_cells B))).
  Notation n := (length xyz).
  Notation below := (below objs).
  Notation total := (total_cell_count B).
  Notation hv := (hval objs hmin hpart).
  Context (rint : list R).
  Hypothesis RL : length rint = total.
  Hypothesis RN : forall u, In u (subtrees t) -> nth_error rint (nid u) = Some (hv u * htol)%R.

  Notation inter a b := (interacts xyz hpart htol Rkern a b).
  Definition kept (a j : nat) : bool := keep xyz hpart htol Rkern (pos_of xyz a) (h_of hpart a * htol)%R j.
  Lemma inter_sq a b : a < n -> b < n -> (inter a b <->
    dist2 (pos_of xyz a) (pos_of xyz b) <= (h_of hpart a * htol * Rkern) * (h_of hpart a * htol * Rkern) \/
    dist2 (pos_of xyz a) (pos_of xyz b) <= (h_of hpart b * htol * Rkern) * (h_of hpart b * htol * Rkern))%R.
  Proof.
    intros Ha Hb. unfold interacts. cbv zeta. pose proof (dist2_pos (pos_of xyz a) (pos_of xyz b)) as D. pose proof (HP a Ha) as H1. pose proof (HP b Hb) as H2.
    assert (Q1 : (0 <= h_of hpart a * htol * Rkern)%R) by (repeat apply Rmult_le_pos; auto). assert (Q2 : (0 <= h_of hpart b * htol * Rkern)%R) by (repeat apply Rmult_le_pos; auto).
    replace (Rkern * (htol * h_of hpart a))%R with (h_of hpart a * htol * Rkern)%R by ring. replace (Rkern * (htol * h_of hpart b))%R with (h_of hpart b * htol * Rkern)%R by ring.
    rewrite !sqrt_le_iff by auto. reflexivity.
  Qed.
  Lemma kept_iff a b : a < n -> b < n -> (kept a b = true <-> inter a b).
  Proof.
    intros Ha Hb. rewrite inter_sq by auto. unfold kept, keep. cbv zeta. rewrite negb_true_iff, andb_false_iff.
    assert (G : forall x y, rgtb x y = false <-> (x <= y)%R) by (intros x y; unfold rgtb; destruct (Rgt_dec x y); split; intros; [discriminate|lra|lra|auto]).
    rewrite !G. replace (h_of hpart a * htol * (h_of hpart a * htol) * (Rkern * Rkern))%R with (h_of hpart a * htol * Rkern * (h_of hpart a * htol * Rkern))%R by ring.
    replace (h_of hpart b * htol * (h_of hpart b * htol) * (Rkern * Rkern))%R with (h_of hpart b * htol * Rkern * (h_of hpart b * htol * Rkern))%R by ring. reflexivity.
  Qed.
  Lemma rint_at u : In u (subtrees t) -> nth (nid u) rint 0%R = (hv u * htol)%R.
  Proof. intros Hu. apply nth_error_nth. auto. Qed.
  Lemma reach u b : In u (subtrees t) -> In b (below u) -> (h_of hpart b * htol * Rkern <= nth (nid u) rint 0 * Rkern)%R.
  Proof. intros Hu Hb. rewrite rint_at by auto. apply Rmult_le_compat_r; auto. apply Rmult_le_compat_r; auto. now apply hval_ge. Qed.
  Lemma enough_ok : enough B rint = Ok tt.
  Proof. unfold enough. replace (length rint <? total) with false by lia. reflexivity. Qed.
  Lemma bel u b : In u (subtrees t) -> In b (below u) -> b < n.
  Proof. apply (below_lt B xyz Rleb (pos_of xyz) (pos_of xyz) t objs RP). Qed.
  Lemma in_below u k b : In k (leaves u) -> In b (objs k) -> In b (below u).
  Proof. intros H1 H2. apply in_flat_map. eauto. Qed.
  Lemma nd_leaves : NoDup (leaves t).
  Proof. rewrite (rp_leaves _ _ _ _ _ _ _ RP). apply seq_NoDup. Qed.

  (** ** one stage *)
  Notation c1 a := (crit_1 Rkern rint (pos_of xyz a) (h_of hpart a * htol)%R).
  Definition visited1 (a : nat) : list nat := flat_map objs (hits off (node_cond B (c1 a)) t).
  Lemma crit_1_ok a b u : a < n -> In u (subtrees t) -> In b (below u) -> inter a b -> node_cond B (c1 a) (nid u) = true.
  Proof.
    intros Ha Hu Hb HI. pose proof (bel u b Hu Hb) as Lb. rewrite inter_sq in HI by auto. destruct (box_of B xyz t objs RP u Hu) as (bx & E & T). unfold node_cond. rewrite E.
    unfold crit_1, sph_radix_cell_crit. cbv zeta. apply orb_true_iff.
    assert (Qa : (0 <= h_of hpart a * htol * Rkern)%R) by (repeat apply Rmult_le_pos; auto). assert (Qb : (0 <= h_of hpart b * htol * Rkern)%R) by (repeat apply Rmult_le_pos; auto).
    destruct HI as [HI|HI]; [left|right]; apply cella_iff; intros c Hc; rewrite !vshift_c by auto; destruct (T c Hc) as (T1 & _ & _); specialize (T1 b Hb).
    - pose proof (coord_le_dist _ _ c _ Hc Qa HI). lra.
    - pose proof (coord_le_dist _ _ c _ Hc Qb HI). pose proof (reach u b Hu Hb). lra.
  Qed.
  Lemma visited1_all a b : a < n -> b < n -> inter a b -> In b (visited1 a).
  Proof.
    intros Ha Hb HI. destruct (own_leaf B xyz t objs RP b Hb) as (k & Hk & Ko). apply in_flat_map. exists k. split; auto. apply hits_iff; [apply nd_leaves|]. split; auto.
    intros u Hu Ku. apply (crit_1_ok a b); auto. eapply in_below; eauto.
  Qed.
  Lemma flat_hits_lt cond b : In b (flat_map objs (hits off cond t)) -> b < n.
  Proof. intros H. apply in_flat_map in H. destruct H as (k & Hk & Hb). apply hits_incl in Hk. apply (bel t b); [apply self_sub|]. eapply in_below; eauto. Qed.
  Lemma flat_hits_nd cond : NoDup (flat_map objs (hits off cond t)).
  Proof. apply (nd_below B xyz t objs RP); [apply hits_nd, nd_leaves|apply hits_incl]. Qed.
  (** a list of visited particles, filtered *)
  Lemma list_ok a vis : a < n -> NoDup vis -> (forall b, In b vis -> b < n) -> (forall b, b < n -> inter a b -> In b vis) ->
    NoDup (filter (kept a) vis) /\ forall b, In b (filter (kept a) vis) <-> b < n /\ inter a b.
  Proof.
    intros Ha N1 N2 N3. split; [now apply NoDup_filter|]. intros b. rewrite filter_In. split.
    - intros [H1 H2]. split; auto. apply kept_iff in H2; auto.
    - intros [H1 H2]. split; auto. now apply kept_iff.
  Qed.

  Context (sd : nat) (env : nc_env) (obj_cnt : nat).
  Hypothesis HS : S (height t) <= sd.
  Hypothesis EO : nc_env_ok B obj_cnt env sd.
  Hypothesis OC : 0 < obj_cnt <= n.
  Hypothesis FP : fewer_pairs (fun a b => a < obj_cnt /\ b < n /\ inter a b) (2 ^ 32).

  Lemma aget_h a : a < n -> aget hpart a = Ok (h_of hpart a).
  Proof. intros. unfold h_of. apply aget_lt. lia. Qed.
  Lemma aget_x a : a < n -> aget xyz a = Ok (pos_of xyz a).
  Proof. intros. unfold pos_of. apply aget_lt. lia. Qed.
  (** any way to visit particles that misses no neighbour gives exact lists *)
  Section Lists.
    Variables (vis : nat -> list nat) (count : nat -> res Z) (fill : list Z -> nat -> list nat -> res (list nat)).
    Hypothesis V1 : forall a, a < obj_cnt -> NoDup (vis a).
    Hypothesis V2 : forall a b, a < obj_cnt -> In b (vis a) -> b < n.
    Hypothesis V3 : forall a b, a < obj_cnt -> b < n -> inter a b -> In b (vis a).
    Hypothesis CE : forall a, a < obj_cnt -> count a = rfold (count_one xyz hpart htol Rkern (pos_of xyz a) (h_of hpart a * htol)%R) (vis a) 0%Z.
    Hypothesis FE : forall sc a b p, a < obj_cnt -> aget sc a = Ok p ->
      fill sc a b = (st <- rfold (fill_one xyz hpart htol Rkern (pos_of xyz a) (h_of hpart a * htol)%R) (vis a) (b, p) ;; Ok (fst st)).
    Lemma lists_ok : exists c, build obj_cnt (ne_scan env) (ne_p1 env) (ne_p2 env) (ne_jz env) (ne_jn env) count fill = Ok c /\ lists_neighbours xyz hpart htol Rkern obj_cnt c.
    Proof.
      destruct EO. set (segs := fun a => filter (kept a) (vis a)).
      assert (LS : forall a, a < obj_cnt -> NoDup (segs a) /\ forall b, In b (segs a) <-> b < n /\ inter a b).
      { intros a Ha. apply list_ok; auto; [lia|]. intros b Hb. eapply V2; eauto. }
      assert (BD : (Z.of_nat (pos segs obj_cnt) < 2 ^ 32)%Z).
      { eapply fewer_pos; [exact FP|intros; now apply LS|]. intros i j Hi Hj. apply LS in Hj; auto. tauto. }
      destruct (build_ok segs obj_cnt (ne_scan env) (ne_p1 env) (ne_p2 env) (ne_jz env) (ne_jn env) count fill) as (c & E & _ & X); auto; try lia.
      - intros a Ha. rewrite CE by auto. rewrite (count_one_fold xyz hpart htol Rkern (pos_of xyz a) _ LH); [reflexivity| | |].
        + intros j Hj. eapply V2; eauto. + lia. + pose proof (pos_seg segs a obj_cnt Ha) as PS. change (length (filter _ (vis a))) with (length (segs a)). lia.
      - intros sc a b Ha Hs Hb. rewrite (FE sc a b _ Ha Hs). pose proof (pos_seg segs a obj_cnt Ha) as PS.
        destruct (fill_one_fold xyz hpart htol Rkern (pos_of xyz a) (h_of hpart a * htol)%R LH (vis a)) with (b := b) (p := pos segs a) as (c & E).
        + intros j Hj. eapply V2; eauto. + change (length (filter _ (vis a))) with (length (segs a)). lia. + lia. + rewrite E. cbn [rbind fst]. reflexivity.
      - exists c. split; auto. intros a Ha. exists (segs a). split; auto.
    Qed.
  End Lists.

  Theorem one_stage_ok : exists c, start_neighbors_cache B xyz hpart htol Rkern sd env rint obj_cnt = Ok c /\ lists_neighbours xyz hpart htol Rkern obj_cnt c.
  Proof.
    pose proof (no_stack _ _ _ _ EO) as ST.
    assert (W : forall a k, rtree_for sd B (c1 a) (ne_stack env k a) = Ok (visited1 a)).
    { intros a k. apply (obj_walk B xyz Rleb (pos_of xyz) (pos_of xyz) t objs RP SZ); auto. }
    apply (lists_ok visited1 (fun i => count_item_1 B xyz hpart htol Rkern sd (ne_stack env 0 i) rint i)
      (fun sc i out => fill_item_1 B xyz hpart htol Rkern sd (ne_stack env 1 i) rint sc i out)).
    - intros a Ha. apply flat_hits_nd.
    - intros a b Ha. apply flat_hits_lt.
    - intros a b Ha Hb. apply visited1_all; lia.
    - intros a Ha. unfold count_item_1. rewrite aget_h, aget_x by lia. cbn [rbind]. rewrite enough_ok. cbn [rbind]. rewrite W. reflexivity.
    - intros sc a b p Ha Hp. unfold fill_item_1. rewrite aget_h, aget_x by lia. cbn [rbind]. rewrite Hp. cbn [rbind]. rewrite enough_ok. cbn [rbind]. rewrite W. reflexivity.
  Qed.

  (** ** two stages *)
  Hypothesis HM : forall j, j < n -> (hmin <= h_of hpart j)%R.
  Hypothesis AX : ordered_siblings xyz objs t.
  Hypothesis FL : fewer_pairs (near_leafs B hpart htol Rkern) (2 ^ 32).
  Definition lbox (k : nat) : vec R * vec R := match box_at B (off + k) with Some bx => bx | None => ((0, 0, 0), (0, 0, 0))%R end.
  Notation c2 k := (crit_2 Rkern rint (nth (off + k) rint 0 * Rkern)%R (fst (lbox k)) (snd (lbox k))).
  Definition near (k : nat) : list nat := hits off (node_cond B (c2 k)) t.
  Definition segsL (k : nat) : list nat := map (fun l => l + off) (near k).
  Lemma leaf_lt k : In k (leaves t) <-> k < b_leafs B.
  Proof. rewrite (rp_leaves _ _ _ _ _ _ _ RP), in_seq. lia. Qed.
  Lemma leaf_in k : k < b_leafs B -> In (Leaf k) (subtrees t).
  Proof. intros H. apply leaf_sub. now apply leaf_lt. Qed.
  Lemma lbox_ok k : k < b_leafs B -> box_at B (off + k) = Some (lbox k) /\ forall c, In c (@coords R) -> forall o, In o (objs k) -> (c (fst (lbox k)) <= c (pos_of xyz o) <= c (snd (lbox k)))%R.
  Proof.
    intros Hk. destruct (box_of B xyz t objs RP (Leaf k) (leaf_in k Hk)) as (bx & E & T). cbn [node_id] in E. rewrite Nat.add_comm in E. unfold lbox. rewrite E. split; auto.
    intros c Hc o Ho. apply (T c Hc). now rewrite leaf_below.
  Qed.
  Lemma lrint k : k < b_leafs B -> nth (off + k) rint 0%R = (hv (Leaf k) * htol)%R.
  Proof. intros Hk. pose proof (rint_at (Leaf k) (leaf_in k Hk)) as X. cbn [node_id] in X. now rewrite Nat.add_comm in X. Qed.
  Lemma crit_2_ok a b k u : k < b_leafs B -> In a (objs k) -> In u (subtrees t) -> In b (below u) -> inter a b -> node_cond B (c2 k) (nid u) = true.
  Proof.
    intros Hk Ka Hu Hb HI. pose proof (bel u b Hu Hb) as Lb. assert (Ha : a < n) by (apply (bel (Leaf k)); [now apply leaf_in|now rewrite leaf_below]).
    rewrite inter_sq in HI by auto. destruct (box_of B xyz t objs RP u Hu) as (bx & E & T). destruct (lbox_ok k Hk) as (_ & TA). unfold node_cond. rewrite E.
    unfold crit_2. cbv zeta. apply orb_true_iff.
    assert (Qa : (0 <= h_of hpart a * htol * Rkern)%R) by (repeat apply Rmult_le_pos; auto). assert (Qb : (0 <= h_of hpart b * htol * Rkern)%R) by (repeat apply Rmult_le_pos; auto).
    assert (RA : (h_of hpart a * htol * Rkern <= nth (off + k) rint 0 * Rkern)%R).
    { pose proof (reach (Leaf k) a (leaf_in k Hk)) as X. cbn [node_id] in X. rewrite Nat.add_comm in X. apply X. now rewrite leaf_below. }
    destruct HI as [HI|HI]; [right|left]; apply cella_iff; intros c Hc; rewrite !vshift_c by auto; destruct (T c Hc) as (T1 & _ & _); specialize (T1 b Hb); specialize (TA c Hc a Ka).
    - pose proof (coord_le_dist _ _ c _ Hc Qa HI). lra.
    - pose proof (coord_le_dist _ _ c _ Hc Qb HI). pose proof (reach u b Hu Hb). lra.
  Qed.
  Lemma near_near k l : k < b_leafs B -> In l (near k) -> near_leafs B hpart htol Rkern k l.
  Proof.
    intros Hk Hl. apply hits_iff in Hl; [|apply nd_leaves]. destruct Hl as [Ll Hl]. apply leaf_lt in Ll. split; auto. split; auto.
    specialize (Hl (Leaf l) (leaf_in l Ll) (or_introl eq_refl)). cbn [node_id] in Hl. rewrite (Nat.add_comm l off) in Hl.
    destruct (lbox_ok k Hk) as (Ek & _). destruct (lbox_ok l Ll) as (El & _). exists (lbox k), (lbox l).
    assert (CO : forall k, k < b_leafs B -> cell_objects B (off + k) = objs k).
    { intros k0 Hk0. rewrite (cell_objects_eq B xyz Rleb (pos_of xyz) (pos_of xyz) t objs RP) by (unfold total_cell_count; pose proof (rp_count _ _ _ _ _ _ _ RP); lia).
      pose proof (T_find B xyz Rleb (pos_of xyz) (pos_of xyz) t objs RP (Leaf k0) (leaf_in k0 Hk0)) as X. cbn [node_id] in X. rewrite Nat.add_comm in X. rewrite X. apply leaf_below. }
    assert (AT : forall k, k < b_leafs B -> exists i, In i (objs k) /\ hv (Leaf k) = h_of hpart i).
    { intros k0 Hk0. destruct (hval_att B xyz Rleb (pos_of xyz) (pos_of xyz) t objs RP SZ hmin hpart (Leaf k0) (leaf_in k0 Hk0)) as (i & Hi & E).
      - intros j Hj. apply HM. apply (bel (Leaf k0)); auto. now apply leaf_in.
      - exists i. rewrite leaf_below in Hi. auto. }
    unfold node_cond in Hl. rewrite El in Hl. unfold crit_2 in Hl. cbv zeta in Hl. apply orb_true_iff in Hl. rewrite !lrint in Hl by auto.
    destruct Hl as [Hl|Hl]; rewrite cella_iff in Hl.
    - destruct (AT l Ll) as (i & Hi & E). exists i. split; auto. split; auto. rewrite !CO by auto. split; [apply in_or_app; auto|].
      intros c Hc. specialize (Hl c Hc). rewrite !vshift_c in Hl by auto. rewrite E in Hl. replace (Rkern * (htol * h_of hpart i))%R with (h_of hpart i * htol * Rkern)%R by ring. lra.
    - destruct (AT k Hk) as (i & Hi & E). exists i. split; auto. split; auto. rewrite !CO by auto. split; [apply in_or_app; auto|].
      intros c Hc. specialize (Hl c Hc). rewrite !vshift_c in Hl by auto. rewrite E in Hl. replace (Rkern * (htol * h_of hpart i))%R with (h_of hpart i * htol * Rkern)%R by ring. lra.
  Qed.
  Lemma small_leafs : (Z.of_nat (off + b_leafs B) < 2 ^ 32)%Z.
  Proof. pose proof (rp_count _ _ _ _ _ _ _ RP). change (2 ^ 24 + 1)%Z with 16777217%Z in SZ. change (2 ^ 32)%Z with 4294967296%Z. lia. Qed.
  Lemma leaf_cache_ok : exists c, leaf_cache B Rkern sd env rint = Ok c /\ forall k, k < b_leafs B -> for_each_object c k = Ok (segsL k).
  Proof.
    destruct EO. pose proof (rp_count _ _ _ _ _ _ _ RP) as RC.
    assert (PE : forall m, pos segsL m = pos near m).
    { induction m as [|m IH]; [reflexivity|]. rewrite !pos_S, IH. unfold segsL. now rewrite map_length. }
    assert (BD : (Z.of_nat (pos segsL (b_leafs B)) < 2 ^ 32)%Z).
    { rewrite PE. eapply fewer_pos; [exact FL|intros; apply hits_nd, nd_leaves|]. intros i j Hi Hj. now apply near_near. }
    assert (W : forall k s, leaf_rtree_for B sd (c2 k) (ne_stack env s k) = Ok (segsL k)).
    { intros k s. apply (leaf_walk B xyz Rleb (pos_of xyz) (pos_of xyz) t objs RP SZ); auto. }
    assert (RB : forall k, k < b_leafs B -> aget rint (off + k) = Ok (nth (off + k) rint 0%R) /\ box_read B (off + k) = Ok (lbox k)).
    { intros k Hk. split; [apply aget_lt; rewrite RL; unfold total_cell_count; lia|]. destruct (lbox_ok k Hk) as (E & _). unfold box_at in E. unfold box_read, aget.
      destruct (nth_error (b_min B) (off + k)); [|discriminate]. cbn [rbind]. destruct (nth_error (b_max B) (off + k)); [|discriminate]. cbn [rbind]. congruence. }
    destruct (build_ok segsL (b_leafs B) (ne_scan env) (ne_l1 env) (ne_l2 env) (ne_jz env) (ne_jn env)
      (fun i => count_leaf B Rkern sd (ne_stack env 2 i) rint i) (fun sc i out => fill_leaf B Rkern sd (ne_stack env 3 i) rint sc i out)) as (c & E & _ & X); auto; try lia.
    - intros k Hk. destruct (RB k Hk) as [R1 R2]. unfold count_leaf. rewrite R1. cbn [rbind]. rewrite R2. cbn [rbind]. rewrite enough_ok. cbn [rbind]. rewrite W. cbn [rbind].
      pose proof (pos_seg segsL k _ Hk). rewrite count_leaf_fold by lia. reflexivity.
    - intros sc k b Hk Hs Hb. destruct (RB k Hk) as [R1 R2]. unfold fill_leaf. rewrite R1. cbn [rbind]. rewrite R2. cbn [rbind]. rewrite Hs. cbn [rbind]. rewrite enough_ok. cbn [rbind]. rewrite W. cbn [rbind].
      pose proof (pos_seg segsL k _ Hk). destruct (fill_leaf_fold (segsL k) b (pos segsL k)) as (c & E); [lia|lia|]. rewrite E. reflexivity.
    - exists c. split; [exact E|exact X].
  Qed.
  Definition own (a : nat) : nat := hd 0 (hits off (node_cond B (fun _ bx => inside (pos_of xyz a) bx)) t).
  Lemma own_ok a : a < n -> own a < b_leafs B /\ In a (objs (own a)).
  Proof.
    intros Ha. destruct (own_leaf B xyz t objs RP a Ha) as (k & Hk & Ko). unfold own. rewrite (own_hits B xyz t objs RP AX a k Hk Ko). cbn [hd]. split; auto. now apply leaf_lt.
  Qed.
  Lemma owner_ok a s : a < n -> owner_item B xyz sd (ne_stack env s a) a = Ok (Z.of_nat (own a)).
  Proof.
    intros Ha. unfold owner_item. rewrite aget_x by auto. cbn [rbind].
    rewrite (leaf_walk B xyz Rleb (pos_of xyz) (pos_of xyz) t objs RP SZ) by (auto; apply EO). cbn [rbind].
    destruct (own_leaf B xyz t objs RP a Ha) as (k & Hk & Ko). unfold own. pose proof (own_hits B xyz t objs RP AX a k Hk Ko) as E. unfold inside in E. rewrite E. unfold inside. rewrite E.
    cbn [map rfold rbind hd]. apply leaf_lt in Hk. pose proof small_leafs. rewrite w32_small by lia. f_equal. lia.
  Qed.
  Definition vis2 (a : nat) : list nat := flat_map objs (near (own a)).
  Lemma near_particles_ok c a : (forall k, k < b_leafs B -> for_each_object c k = Ok (segsL k)) -> a < n -> near_particles B c (Z.of_nat (own a)) = Ok (vis2 a).
  Proof.
    intros HC Ha. unfold near_particles. rewrite Nat2Z.id, HC by now apply own_ok. cbn [rbind]. unfold segsL, vis2. pose proof small_leafs as SL.
    assert (G : forall l acc, incl l (leaves t) -> rfold (fun leaf_b acc => ids <- for_each_in_leaf_cell (b_map B) (b_red B) (Z.to_nat (w32 (Z.of_nat leaf_b - Z.of_nat off))) ;; Ok (acc ++ ids)) (map (fun l => l + off) l) acc = Ok (acc ++ flat_map objs l)).
    { induction l as [|k l IH]; intros acc HI; cbn [map rfold flat_map]; [now rewrite app_nil_r|]. assert (Hk : In k (leaves t)) by (apply HI; now left). pose proof (proj1 (leaf_lt k) Hk) as Lk.
      rewrite w32_small by lia. replace (Z.to_nat (Z.of_nat (k + off) - Z.of_nat off)) with k by lia. rewrite (rp_leaf _ _ _ _ _ _ _ RP k Hk). cbn [rbind].
      rewrite IH by (intros x Hx; apply HI; now right). now rewrite app_assoc. }
    rewrite G by apply hits_incl. reflexivity.
  Qed.
  Lemma vis2_all a b : a < n -> b < n -> inter a b -> In b (vis2 a).
  Proof.
    intros Ha Hb HI. destruct (own_leaf B xyz t objs RP b Hb) as (k & Hk & Ko). destruct (own_ok a Ha) as [L1 L2]. apply in_flat_map. exists k. split; auto. apply hits_iff; [apply nd_leaves|]. split; auto.
    intros u Hu Ku. apply (crit_2_ok a b); auto. eapply in_below; eauto.
  Qed.
  Theorem two_stages_ok : exists c, start_neighbors_cache_2stages B xyz hpart htol Rkern sd env rint obj_cnt = Ok c /\ lists_neighbours xyz hpart htol Rkern obj_cnt c.
  Proof.
    destruct leaf_cache_ok as (lc & EL & HL). unfold start_neighbors_cache_2stages. rewrite EL. cbn [rbind].
    change (par_for (ne_own env) _ (ne_jz env obj_cnt)) with (par_write (fun i => owner_item B xyz sd (ne_stack env 4 i) i) (ne_own env) (ne_jz env obj_cnt)).
    rewrite (par_write_ok _ (fun i => Z.of_nat (own i)) _ obj_cnt); [|apply EO|apply EO|intros i Hi; apply owner_ok; lia]. cbn [rbind]. set (ow := map _ (seq 0 obj_cnt)).
    assert (OW : forall a, a < obj_cnt -> aget ow a = Ok (Z.of_nat (own a))).
    { intros a Ha. unfold aget, ow. rewrite nth_error_map, nth_error_seq by lia. reflexivity. }
    apply (lists_ok vis2 (fun i => count_item_2 B xyz hpart htol Rkern lc ow i) (fun sc i out => fill_item_2 B xyz hpart htol Rkern lc ow sc i out)).
    - intros a Ha. apply flat_hits_nd.
    - intros a b Ha. apply flat_hits_lt.
    - intros a b Ha Hb. apply vis2_all; lia.
    - intros a Ha. unfold count_item_2. rewrite aget_h, aget_x by lia. cbn [rbind]. rewrite OW by auto. cbn [rbind]. rewrite near_particles_ok by (auto; lia). reflexivity.
    - intros sc a b p Ha Hp. unfold fill_item_2. rewrite aget_h, aget_x by lia. cbn [rbind]. rewrite Hp. cbn [rbind]. rewrite OW by auto. cbn [rbind]. rewrite near_particles_ok by (auto; lia). reflexivity.
  Qed.
End Main.
