(** Property theorems C33 and C34 (see properties.jsonl): the compressed leaf BVH. *)
From Verif Require Import Base Bits Integer Morton Karras Karras_spec Karras_abs Karras_proofs P_Karras Par Reduction Reduction_lists Reduction_spec P_Reduction
  Scan Scan_spec P_Scan Bitonic Traverse Traverse_spec Traverse_proofs P_Traverse BVH BVH_spec BVH_sort BVH_prop BVH_proofs BVH_main.
From Coq Require Import ZifyBool ZifyNat ZifyN.
Local Open Scope nat_scope.

(** C33.  For every set of objects (given by their boxes [lo, hi]; points when lo = hi), every code function with
    values below 2^b, every compression level, every order of the work items of every kernel, every interleaving
    of the memory accesses of the in-place propagation kernels and every content of recycled memory, the
    construction returns; the structure encodes a tree whose leaves partition the objects, each leaf being the set
    of objects whose code has one given prefix; the cell iterators enumerate exactly the objects below a node; and
    the box stored for every node is the smallest box around the objects below it. *)
Theorem C33_build : forall (C : Type) (leb : C -> C -> bool) w b code err vtop vbot lo hi cnt level env d,
  bvh_input leb w b code err vtop vbot lo hi cnt ->
  bvh_env_ok cnt (N.to_nat (roundup_pow2_32 (N.of_nat cnt))) env ->
  exists B t objs,
    rebuild leb w code err vtop vbot env lo hi cnt level = Ok B /\
    represents leb (fun o => nth o lo d) (fun o => nth o hi d) cnt B t objs /\
    (forall k, In k (leaves t) -> exists p v, forall o, o < cnt -> (In o (objs k) <-> N.shiftr (code (nth o lo d)) p = v)).
Proof.
  intros C leb w b code err vtop vbot lo hi cnt level env d HI HE.
  destruct (rebuild_ok leb w b code err vtop vbot lo hi cnt level env d HI HE) as (B & t & objs & order & old & E & R & P & _).
  exists B, t, objs. auto.
Qed.
Print Assumptions C33_build.

(** No object, or buffers of different sizes: refused. *)
Theorem C33_empty_throws : forall (C : Type) (leb : C -> C -> bool) w code err vtop vbot env lo hi level,
  rebuild leb w code err vtop vbot env lo hi 0 level = Throw.
Proof. reflexivity. Qed.
Theorem C33_size_mismatch_throws : forall (C : Type) (leb : C -> C -> bool) w code err vtop vbot env lo hi level,
  length lo <> length hi -> rebuild_from_position_range leb w code err vtop vbot env lo hi level = Throw.
Proof. intros. unfold rebuild_from_position_range. now rewrite (proj2 (Nat.eqb_neq _ _) H). Qed.

(* ------------------------------------------------------------------ *)
Lemma height_bits w b m order old cells t : strictly_sorted m -> (forall x, In x m -> (x < 2 ^ b)%N) -> (b <= w)%N ->
  2 <= length m -> (Z.of_nat (length m) <= 2 ^ 24 + 1)%Z -> length old = length m - 1 -> Permutation order (seq 0 (length m - 1)) ->
  karras_alg w m order old = Ok cells -> reads cells false 0 t -> height t <= N.to_nat b.
Proof.
  intros HS HW Hb H2 HB HL HP E R.
  assert (HW' : forall x, In x m -> (x < 2 ^ w)%N).
  { intros x Hx. eapply N.lt_le_trans; [apply HW; auto|]. apply N.pow_le_mono_r; lia. }
  destruct (karras_alg_ok w m order old H2 HB HS HW' HL HP) as (cells' & E' & L & t' & T1 & T2 & T3 & T4 & T5).
  rewrite E in E'. injection E' as <-. assert (t' = t) by (eapply C16_tree_unique; eauto). subst t'.
  assert (F : (nth 0 m 0 < nth (length m - 1) m 0)%N).
  { clear - HS H2. destruct m as [|x m]; simpl in *; [lia|]. inversion HS as [|? ? _ F]; subst. rewrite Forall_forall in F.
    destruct m as [|y m]; simpl in *; [lia|]. apply F. apply (nth_In (y :: m)). simpl. lia. }
  assert (B2 : (nth (length m - 1) m 0 < 2 ^ b)%N) by (apply HW, nth_In; lia).
  destruct (clz_xor_lt w _ _ F) as (p & Ep & Pp & _ & D2 & _); [eapply N.lt_le_trans; [exact B2|apply N.pow_le_mono_r; lia]|].
  assert (p < b)%N.
  { destruct (N.lt_ge_cases p b) as [|Hge]; auto. exfalso. rewrite (Bits.testbit_high _ b _ B2 Hge) in D2. discriminate. }
  rewrite Ep in T5. clear - T5 H Pp. lia.
Qed.

Section Rtree.
  Context {C : Type} (B : @bvh C) (t : tree) (objs : nat -> list nat) (cond : nat -> vec C * vec C -> bool).
  Let off := length (b_cells B).
  Hypothesis Hleaf : forall k, In k (leaves t) -> for_each_in_leaf_cell (b_map B) (b_red B) k = Ok (objs k).
  Hypothesis Hbox : forall u, In u (subtrees t) -> exists bx, box_at B (node_id off u) = Some bx.

  Lemma found_objects_ok stops : (forall u, In u stops -> In u (subtrees t) /\ match u with Leaf _ => True | Node i _ _ => node_cond B cond i = false end) ->
    found_objects B (map (event_of off (node_cond B cond)) stops) =
    Ok (flat_map objs (flat_map (fun u => match u with Leaf k => if node_cond B cond (k + off) then [k] else [] | Node _ _ _ => [] end) stops)).
  Proof.
    induction stops as [|u stops IH]; intros H; [reflexivity|]. cbn [map found_objects].
    destruct (H u (or_introl eq_refl)) as [Hu Hk]. destruct (Hbox u Hu) as (bx & Eb).
    assert (EI : event_id (event_of off (node_cond B cond) u) = node_id off u) by (unfold event_of; destruct (node_cond B cond (node_id off u)); reflexivity).
    rewrite EI, Eb. rewrite IH by (intros; apply H; simpl; auto). cbn [flat_map].
    unfold event_of. destruct u as [k|i l r]; cbn [node_id].
    - destruct (node_cond B cond (k + off)) eqn:EC.
      + replace (k + off - length (b_cells B)) with k by (unfold off; lia). rewrite Hleaf by (now apply sub_leaf_in). cbn [rbind].
        rewrite flat_map_app. simpl. now rewrite app_nil_r.
      + reflexivity.
    - rewrite Hk. reflexivity.
  Qed.
End Rtree.

(** the node ids from the root to leaf k *)
Lemma NoDup_flat_sub (objs : nat -> list nat) l l' : NoDup (flat_map objs l) -> StronglySorted lt l -> StronglySorted lt l' -> incl l' l ->
  NoDup (flat_map objs l').
Proof.
  intros ND S1 S2 I.
  assert (D : forall a b o, In a l -> In b l -> In o (objs a) -> In o (objs b) -> a = b).
  { clear - ND S1. revert ND. induction S1 as [|x l S IH F]; intros ND a b o Ha Hb Oa Ob; [destruct Ha|].
    cbn [flat_map] in ND.
    assert (DJ : forall y, In y l -> In o (objs x) -> In o (objs y) -> False).
    { intros y Hy X Y. clear - ND Hy X Y. induction (objs x) as [|z s IHs]; [destruct X|]. simpl in ND. inversion ND; subst.
      destruct X as [->|X]; [|auto]. apply H1. apply in_or_app; right. apply in_flat_map. eauto. }
    destruct Ha as [<-|Ha], Hb as [<-|Hb]; auto.
    - exfalso. eapply DJ; eauto.
    - exfalso. eapply DJ; eauto.
    - eapply IH; eauto. clear - ND. induction (objs x); auto. inversion ND; auto. }
  assert (NI : forall a, In a l -> NoDup (objs a)).
  { clear - ND. induction l as [|x l IH]; intros a Ha; [destruct Ha|]. cbn [flat_map] in ND. destruct Ha as [<-|Ha].
    - clear - ND. induction (objs x) as [|z s IHs]; constructor; inversion ND; subst; auto. intros X. apply H1. apply in_or_app; auto.
    - apply IH; auto. clear - ND. induction (objs x); auto. inversion ND; auto. }
  revert I. induction S2 as [|x l' S IH F]; intros I; cbn [flat_map]; [constructor|].
  assert (NA : forall s r : list nat, NoDup s -> NoDup r -> (forall o, In o s -> ~ In o r) -> NoDup (s ++ r)).
  { clear. induction s as [|z s IHs]; intros r A B' D; simpl; auto. inversion A; subst. constructor.
    - rewrite in_app_iff. intros [X|X]; auto. apply (D z); simpl; auto.
    - apply IHs; auto. intros o Ho. apply D; simpl; auto. }
  apply NA; [apply NI, I; simpl; auto|apply IH; intros y Hy; apply I; simpl; auto|].
  intros o Ho X. apply in_flat_map in X. destruct X as (y & Hy & Oy). rewrite Forall_forall in F. specialize (F _ Hy).
  assert (x = y) by (eapply D; eauto; apply I; simpl; auto). lia.
Qed.

(** C34.  For every such BVH, every traversal condition (any function of the node id and its box) and every initial
    content of a traversal stack of b + 1 entries, rtree_for returns; every object is reported at most once; and
    the objects reported are exactly those of the leaves all of whose ancestors-or-self satisfy the condition. *)
Theorem C34_rtree_for : forall (C : Type) (leb : C -> C -> bool) w b code err vtop vbot lo hi cnt level env d,
  bvh_input leb w b code err vtop vbot lo hi cnt ->
  bvh_env_ok cnt (N.to_nat (roundup_pow2_32 (N.of_nat cnt))) env ->
  exists B t objs,
    rebuild leb w code err vtop vbot env lo hi cnt level = Ok B /\
    represents leb (fun o => nth o lo d) (fun o => nth o hi d) cnt B t objs /\
    forall cond garbage, length garbage = N.to_nat b + 1 ->
    exists visited, rtree_for (N.to_nat b + 1) B cond garbage = Ok visited /\ NoDup visited /\
      forall o, In o visited <->
        exists k ids, In o (objs k) /\ path_to (length (b_cells B)) t k ids /\
          forall id, In id ids -> exists bx, box_at B id = Some bx /\ cond id bx = true.
Proof.
  intros C leb w b code err vtop vbot lo hi cnt level env d HI HE.
  destruct (rebuild_ok leb w b code err vtop vbot lo hi cnt level env d HI HE) as (B & t & objs & order & old & E & R & P & S1 & S2 & S3 & S4 & S5 & S6 & S7).
  exists B, t, objs. split; auto. split; auto. intros cond garbage HG. destruct R as [R1 R2 R3 R4 R5 R6 R7 R8 R9].
  set (off := length (b_cells B)) in *.
  assert (HH : height t <= N.to_nat b).
  { destruct (Nat.eq_dec (b_leafs B) 1) as [L1|L1].
    - assert (off = 0) by lia. rewrite H in R1. simpl in R1. inversion R1; subst. simpl. lia.
    - apply (height_bits w b (b_codes B) order old (b_cells B)); auto; try (rewrite S3; lia); try (rewrite S3; auto).
      { apply (bi_bits _ _ _ _ _ _ _ _ _ _ HI). }
      rewrite (proj2 (Nat.eqb_neq off 0)) in R1 by lia. exact R1. }
  assert (SM : (Z.of_nat off <= 2 ^ 24)%Z) by (clear - S4 R4; change (2 ^ 24)%Z with 16777216%Z in *; lia).
  assert (LV : leaves t = seq 0 (off + 1)) by (now rewrite R2, R4).
  assert (SMALL : small off t).
  { apply (sub_small (fun _ : nat => (vtop, vbot)) (b_cells B) t); auto. apply self_sub. }
  unfold rtree_for.
  assert (N0 : 0 = node_id off t).
  { rewrite (node_id_reads _ _ _ _ _ R1). destruct (Nat.eqb_spec off 0); lia. }
  rewrite (traversal_ok (N.to_nat b + 1) (b_cells B) (node_cond B cond) garbage t 0 _ _ R1); auto; try lia.
  2:{ fold off. rewrite (Permutation_length R3), seq_length. lia. }
  cbn [rbind]. fold off.
  pose proof (found_objects_ok B t objs cond R7) as FO. fold off in FO.
  rewrite FO; [|intros u Hu; destruct (R9 u Hu) as (bx & X & _); eauto|intros u Hu; now apply frontier_kind in Hu]. clear FO.
  set (fl := flat_map _ (frontier off (node_cond B cond) t)).
  eexists. split; [reflexivity|].
  assert (AC : forall k, In k fl <-> accepted off (node_cond B cond) t k) by (intros k; apply found_accepted).
  assert (SF : StronglySorted lt fl) by (apply found_sorted; rewrite R2; apply SS_seq).
  assert (IL : incl fl (leaves t)).
  { intros k Hk. apply AC in Hk. clear - Hk. induction t as [j|i l IHl r IHr]; simpl in *; [left; tauto|]. apply in_or_app. tauto. }
  split.
  - apply (NoDup_flat_sub objs (leaves t)); auto; [|rewrite R2; apply SS_seq]. eapply Permutation_NoDup; [symmetry; exact R5|apply seq_NoDup].
  - intros o. rewrite in_flat_map.
    assert (NCD : forall id, node_cond B cond id = true <-> exists bx, box_at B id = Some bx /\ cond id bx = true).
    { intros id. unfold node_cond. destruct (box_at B id) as [bx|]; [split; [eauto|intros (b' & X & Y); congruence]|].
      split; [discriminate|intros (b' & X & _); discriminate]. }
    split.
    + intros (k & Hk & Ho). apply AC in Hk. apply accepted_path in Hk. destruct Hk as (ids & PI & A). exists k, ids. split; auto. split; auto.
      intros id Hid. apply NCD. auto.
    + intros (k & ids & Ho & PI & A). exists k. split; auto. apply AC. apply accepted_path. exists ids. split; auto. intros i Hi. apply NCD. auto.
Qed.
Print Assumptions C34_rtree_for.

(** the box [plo o, phi o] of object o is inside the box bx *)
Definition contains {C} (leb : C -> C -> bool) (bx : vec C * vec C) (p q : vec C) : Prop :=
  forall x, In x (@coords C) -> leb (x (fst bx)) (x p) = true /\ leb (x q) (x (snd bx)) = true.

(** No false negative: an object is reported as soon as the condition accepts every node whose box contains it. *)
Theorem C34_no_false_negative : forall (C : Type) (leb : C -> C -> bool) w b code err vtop vbot lo hi cnt level env d,
  bvh_input leb w b code err vtop vbot lo hi cnt ->
  bvh_env_ok cnt (N.to_nat (roundup_pow2_32 (N.of_nat cnt))) env ->
  exists B, rebuild leb w code err vtop vbot env lo hi cnt level = Ok B /\
    forall cond garbage, length garbage = N.to_nat b + 1 ->
    exists visited, rtree_for (N.to_nat b + 1) B cond garbage = Ok visited /\ NoDup visited /\ (forall o, In o visited -> o < cnt) /\
      forall o, o < cnt -> (forall id bx, contains leb bx (nth o lo d) (nth o hi d) -> cond id bx = true) -> In o visited.
Proof.
  intros C leb w b code err vtop vbot lo hi cnt level env d HI HE.
  destruct (C34_rtree_for C leb w b code err vtop vbot lo hi cnt level env d HI HE) as (B & t & objs & E & R & F).
  exists B. split; auto. intros cond garbage HG. destruct (F cond garbage HG) as (v & EV & ND & IV). exists v. split; auto. split; auto.
  destruct R as [R1 R2 R3 R4 R5 R6 R7 R8 R9].
  assert (PL : forall u k ids, path_to (length (b_cells B)) u k ids -> In k (leaves u)).
  { clear. induction u as [j|i l IHl r IHr]; simpl; intros k ids; [intros [-> _]; auto|]. intros (ids' & _ & [H|H]); apply in_or_app; eauto. }
  split.
  - intros o Ho. apply IV in Ho. destruct Ho as (k & ids & Ho & PI & _). apply PL in PI.
    assert (In o (flat_map objs (leaves t))) by (apply in_flat_map; eauto). apply (Permutation_in _ R5), in_seq in H. lia.
  - intros o Ho HC. apply IV.
    assert (In o (flat_map objs (leaves t))) by (apply (Permutation_in _ (Permutation_sym R5)); apply in_seq; lia).
    apply in_flat_map in H. destruct H as (k & Hk & Oo).
    assert (G : forall u, In k (leaves u) -> exists ids, path_to (length (b_cells B)) u k ids /\ forall id, In id ids -> exists x, In x (subtrees u) /\ In k (leaves x) /\ node_id (length (b_cells B)) x = id).
    { clear. induction u as [j|i l IHl r IHr]; intros Hk.
      - simpl in Hk. destruct Hk as [->|[]]. exists [k + length (b_cells B)]. simpl. split; auto. intros id [<-|[]]. exists (Leaf k). simpl. auto.
      - pose proof Hk as Hk0. simpl in Hk. apply in_app_or in Hk. destruct Hk as [Hk|Hk]; [destruct (IHl Hk) as (ids & P1 & P2)|destruct (IHr Hk) as (ids & P1 & P2)].
        + exists (i :: ids). simpl. split; [eauto|]. intros id [<-|Hid]; [exists (Node i l r); auto|].
          destruct (P2 id Hid) as (x & X1 & X2 & X3). exists x. split; auto. right. apply in_or_app; auto.
        + exists (i :: ids). simpl. split; [eauto|]. intros id [<-|Hid]; [exists (Node i l r); auto|].
          destruct (P2 id Hid) as (x & X1 & X2 & X3). exists x. split; auto. right. apply in_or_app; auto. }
    destruct (G t Hk) as (ids & P1 & P2). exists k, ids. split; auto. split; auto. intros id Hid.
    destruct (P2 id Hid) as (x & X1 & X2 & X3). destruct (R9 x X1) as (bx & Eb & T). rewrite X3 in Eb. exists bx. split; auto. apply HC.
    intros c Hc. destruct (T c Hc) as (T1 & _). apply T1. apply in_flat_map. eauto.
Qed.
Print Assumptions C34_no_false_negative.

(** overlap of two boxes, as tested in a traversal *)
Definition overlaps {C} (leb : C -> C -> bool) (a b : vec C * vec C) : bool :=
  forallb (fun x => leb (x (fst a)) (x (snd b)) && leb (x (fst b)) (x (snd a))) (@coords C).

(** Box query: visiting the nodes that overlap a query box reports every object that overlaps it. *)
Theorem C34_box_query : forall (C : Type) (leb : C -> C -> bool) w b code err vtop vbot lo hi cnt level env d,
  bvh_input leb w b code err vtop vbot lo hi cnt ->
  bvh_env_ok cnt (N.to_nat (roundup_pow2_32 (N.of_nat cnt))) env ->
  exists B, rebuild leb w code err vtop vbot env lo hi cnt level = Ok B /\
    forall q garbage, length garbage = N.to_nat b + 1 ->
    exists visited, rtree_for (N.to_nat b + 1) B (fun _ bx => overlaps leb q bx) garbage = Ok visited /\ NoDup visited /\
      forall o, o < cnt -> overlaps leb q (nth o lo d, nth o hi d) = true -> In o visited.
Proof.
  intros C leb w b code err vtop vbot lo hi cnt level env d HI HE.
  destruct (C34_no_false_negative C leb w b code err vtop vbot lo hi cnt level env d HI HE) as (B & E & F).
  exists B. split; auto. intros q garbage HG. destruct (F (fun _ bx => overlaps leb q bx) garbage HG) as (v & EV & ND & _ & H). exists v.
  split; auto. split; auto. intros o Ho Hq. apply H; auto. intros _ bx HC. unfold overlaps in *. rewrite forallb_forall in *.
  intros x Hx. specialize (Hq x Hx). destruct (HC x Hx) as [A1 A2]. cbn [fst snd] in Hq. apply andb_true_iff in Hq. destruct Hq as [Q1 Q2].
  apply andb_true_iff. destruct HI as [[_ TR] _ _ _ _ _ _ _ _ _ _]. split; eapply TR; eauto.
Qed.
Print Assumptions C34_box_query.

(** A concrete BVH: 5 points, 6-bit codes, two points with the same code. *)
Definition ex_lo : list (vec Z) := [(1,1,1); (5,2,9); (1,1,2); (7,7,7); (5,3,9)]%Z.
Definition ex_hi : list (vec Z) := [(1,1,1); (6,2,9); (1,4,2); (7,7,8); (5,3,9)]%Z.
Definition ex_code (v : vec Z) : N := Z.to_N (Z.land (cx v + 8 * cy v) 63).
Definition ex_red_env : red_env := {|
  re_orders := fun _ => [3;1;0;4;2]; re_g1 := repeat 9%Z 5; re_g2 := repeat 8%Z 5;
  re_ce := {| ce_scan := fun l n => Scan.exclusive_sum_fallback (repeat 9%Z n) l n; ce_order := fun n => rev (seq 0 n); ce_garbage := fun k => repeat 5 k |};
  re_order := fun k => rev (seq 0 k); re_garbage := fun k => repeat 4 k; re_old := fun k => repeat 3%N k |}.
Definition ex_bvh_env : @bvh_env Z := {|
  e_o1 := [4;0;2;1;3]; e_o2 := [2;0;1]; e_codes := fun k => repeat 1%N k;
  e_oi := fun k => rev (seq 0 k); e_map := fun k => repeat 7 k; e_sort := fun _ _ n => rev (seq 0 n); e_stencil := 4;
  e_red := ex_red_env; e_karras := fun n => rev (seq 0 n); e_cells := fun n => repeat (mkcell 9 true 9 true 9) n;
  e_leaf := fun n => rev (seq 0 n); e_min := fun n => repeat (0,0,0)%Z n; e_max := fun n => repeat (0,0,0)%Z n;
  e_prop := fun n _ => flat_map (fun _ => seq 0 n) (seq 0 6) |}.
Lemma count_rounds n k : forall g, count_occ Nat.eq_dec (flat_map (fun _ => seq 0 n) (seq k 6)) g = if g <? n then 6 else 0.
Proof.
  intros g. assert (H : count_occ Nat.eq_dec (seq 0 n) g = if g <? n then 1 else 0).
  { destruct (Nat.ltb_spec g n) as [Hg|Hg].
    - assert (In g (seq 0 n)) by (apply in_seq; lia). pose proof (seq_NoDup n 0) as ND. now apply (proj1 (NoDup_count_occ' Nat.eq_dec (seq 0 n)) ND).
    - apply count_occ_not_In. intros X. apply in_seq in X. lia. }
  change (seq k 6) with [k; S k; S (S k); S (S (S k)); S (S (S (S k))); S (S (S (S (S k))))]. cbn [flat_map].
  rewrite !count_occ_app, H. cbn [count_occ]. destruct (g <? n); reflexivity.
Qed.
Example C33_nonvacuous :
  bvh_input Z.leb 64 6 ex_code (2 ^ 64 - 1) (100,100,100)%Z (-100,-100,-100)%Z ex_lo ex_hi 5 /\
  bvh_env_ok 5 (N.to_nat (roundup_pow2_32 (N.of_nat 5))) ex_bvh_env /\
  match rebuild Z.leb 64 ex_code (2 ^ 64 - 1) (100,100,100)%Z (-100,-100,-100)%Z ex_bvh_env ex_lo ex_hi 5 0 with
  | Ok B => length (b_cells B) = 3 /\ b_red B = [0; 2; 3; 4; 5; 0] /\ nth_error (b_min B) 0 = Some (1,1,1)%Z /\ nth_error (b_max B) 0 = Some (7,7,9)%Z
      /\ rtree_for 7 B (fun _ bx => overlaps Z.leb ((5,2,8),(5,5,10))%Z bx) (repeat 0%N 7) = Ok [1; 4]
  | _ => False
  end.
Proof.
  split; [|split].
  - constructor; try (simpl; lia).
    + split; intros *; rewrite ?Z.leb_le; lia.
    + intros o p H E. do 5 (destruct o as [|o]; [injection E as <-; reflexivity|]). lia.
    + intros o p x H E Hx. do 5 (destruct o as [|o]; [injection E as <-; destruct Hx as [<-|[<-|[<-|[]]]]; reflexivity|]). lia.
    + intros o p x H E Hx. do 5 (destruct o as [|o]; [injection E as <-; destruct Hx as [<-|[<-|[<-|[]]]]; reflexivity|]). lia.
  - assert (RP : forall k, Permutation (rev (seq 0 k)) (seq 0 k)) by (intros; symmetry; apply Permutation_rev).
    assert (PD : forall l n, (forall x, In x l <-> In x (seq 0 n)) -> NoDup l -> Permutation l (seq 0 n)).
    { intros l n H ND. apply NoDup_Permutation; auto. apply seq_NoDup. }
    replace (N.to_nat (roundup_pow2_32 (N.of_nat 5))) with 8 by reflexivity.
    constructor; cbn [e_o1 e_o2 e_codes e_oi e_map e_sort e_red e_karras e_cells e_leaf e_min e_max e_prop ex_bvh_env]; intros; try apply repeat_length; try apply RP; auto.
    + apply PD; [intros x; simpl; tauto|]. repeat (constructor; [simpl; intuition discriminate|]). constructor.
    + apply PD; [intros x; simpl; tauto|]. repeat (constructor; [simpl; intuition discriminate|]). constructor.
    + constructor; cbn; intros; try apply repeat_length; try apply RP; auto.
      * apply (PD _ 5); [intros x; simpl; tauto|]. repeat (constructor; [simpl; intuition discriminate|]). constructor.
      * apply (C19_exclusive_host (repeat 9%Z 5) T 5 H). simpl. lia.
      * exact (RP 5).
    + intros g. apply count_rounds.
  - vm_compute. auto 10.
Qed.
(** The query of the example is not trivial: 2 of the 5 objects overlap the query box. *)
Example C34_nonvacuous :
  map (fun o => overlaps Z.leb ((5,2,8),(5,5,10))%Z (nth o ex_lo (0,0,0)%Z, nth o ex_hi (0,0,0)%Z)) (seq 0 5) = [false; true; false; false; true].
Proof. reflexivity. Qed.
