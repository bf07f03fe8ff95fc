(** C60: the 2:1 balance of the AMR grid inside a patch *)
From Verif Require Import Base Par Amr Amr_spec Amr_proofs Amr_lists Amr_geo TwoOne TwoOne_spec TwoOne_proofs TwoOne_der.
From Coq Require Import ZArith ZifyBool ZifyNat.
Local Open Scope Z_scope.

Lemma touch_sym a b : touch a b -> touch b a.
Proof. unfold touch, meet, overlap. intuition lia. Qed.

(** ** The flags of the split: for every interleaving of the work items of each sweep the loop ends before its bound and the flags are
    the least set that the rule forces. *)
Theorem C60_refine : forall boxes lev graph sched asked,
  valid_patch boxes lev graph -> length asked = length boxes -> (forall p, complete_sweep (length boxes) graph (sched p)) ->
  exists ref k, enforce_refinement (length boxes) lev graph sched asked = Ok (ref, k) /\ length ref = length boxes /\ (k <= 100)%nat /\
    forall i, nth i ref false = true <-> must_split boxes lev asked i.
Proof.
  intros boxes lev graph sched asked (HE & HL & HG & HB & HT) LA HS.
  destruct (enforce_refinement_ok (length boxes) lev graph ltac:(lia) ltac:(lia) HB asked sched LA HS) as (ref & k & E & L & K & R).
  exists ref, k. split; auto. split; auto. split; auto. intros i. rewrite R. split; intros H; induction H.
  - now constructor.
  - destruct H0 as (A & B & C & D). eapply forced; eauto. now apply HT.
  - now constructor.
  - eapply reachS; eauto. split; auto. split; auto. split; auto. now apply HT.
Qed.

Lemma group_octants boxes g : Forall even_box boxes -> (g + 8 <= length boxes)%nat -> are_mergeable_z (firstn 8 (skipn g boxes)) = true -> octants_at boxes g.
Proof.
  intros HE HL M. unfold octants_at. set (os := firstn 8 (skipn g boxes)) in *.
  assert (LO : length os = 8%nat) by (unfold os; rewrite firstn_length, skipn_length; lia).
  assert (HO : Forall even_box os).
  { apply Forall_forall. intros b Hb. rewrite Forall_forall in HE. apply HE. rewrite <- (firstn_skipn g boxes). apply in_app_iff. right.
    rewrite <- (firstn_skipn 8 (skipn g boxes)). apply in_app_iff. now left. }
  clearbody os. clear HE HL boxes.
  pose proof (mergeable_z_old os LO M) as M'.
  set (ps := map (fun i => nth (zorder i) os ((0, 0, 0), (0, 0, 0))) (seq 0 8)) in *.
  set (bs := map (fun c => mkB (fst c) (snd c) (repeat czero 8)) ps).
  assert (EC : map coords bs = ps).
  { unfold bs. rewrite map_map. rewrite <- (map_id ps) at 2. apply map_ext. intros [a b]. reflexivity. }
  assert (GB : Forall good bs).
  { apply Forall_forall. intros b Hb. unfold bs in Hb. apply in_map_iff in Hb as (p & <- & Hp). split; [|reflexivity]. cbn [bmin bmax].
    unfold ps in Hp. apply in_map_iff in Hp as (i & <- & Hi). apply in_seq in Hi. rewrite Forall_forall in HO. apply HO, nth_In. rewrite LO.
    do 8 (destruct i as [|i]; [cbn; lia|]). lia. }
  rewrite <- EC in M'. destruct (mergeable_octants bs) as (c & k3 & (A & B & C & E) & _); auto.
  exists c, k3. split; auto. split; auto. split; auto. rewrite EC in E. unfold ps in E. clear - E LO.
  destruct os as [|o0 [|o1 [|o2 [|o3 [|o4 [|o5 [|o6 [|o7 [|]]]]]]]]]; try discriminate LO.
  cbn [seq map zorder nth oct] in E. injection E as -> -> -> -> -> -> -> ->. reflexivity.
Qed.

Lemma siblings boxes g : octants_at boxes g -> (g + 8 <= length boxes)%nat ->
  forall j, (j < 8)%nat -> exists j', (j' < 8)%nat /\ touch (box_of boxes (g + j')) (box_of boxes (g + j)) /\ (j = 0 -> j' = 1)%nat.
Proof.
  intros (c & k & A & B & C & E) HL j Hj.
  assert (N : forall i, (i < 8)%nat -> box_of boxes (g + i) = nth i (map (octant c k) morton_octants) ((0, 0, 0), (0, 0, 0))).
  { intros i Hi. unfold box_of. rewrite <- E. rewrite <- (firstn_skipn g boxes) at 1. rewrite app_nth2 by (rewrite firstn_length; lia).
    rewrite firstn_length, Nat.min_l by lia. replace (g + i - g)%nat with i by lia. rewrite <- (firstn_skipn 8 (skipn g boxes)) at 1.
    rewrite app_nth1; auto. rewrite firstn_length, skipn_length. lia. }
  destruct c as [[x y] z], k as [[u v] w]. unfold px, py, pz in A, B, C. cbn [fst snd] in A, B, C.
  exists (nth j [1; 0; 3; 2; 5; 4; 7; 6] 0)%nat.
  do 8 (destruct j as [|j]; [cbn [nth]; (split; [lia|]); rewrite !N by lia; (split; [right; right|lia]);
    unfold overlap, meet, px, py, pz; cbn [nth map morton_octants octant fst snd px py pz]; unfold px, py, pz; cbn [fst snd]; lia|]). lia.
Qed.

(** ** The whole enforcement: for every interleaving and every order it does not fail, the split set is the least one, only
    whole octets of blocks of one level that all asked for it are merged, none of their blocks is split and none is of the coarsest level, and
    if the blocks of the patch which touch had levels at most one apart, they still have after the change. *)
Theorem C60_balance : forall boxes lev graph sched msched order other ask_split ask_merge,
  valid_patch boxes lev graph ->
  length ask_split = length boxes -> length ask_merge = length boxes -> length other = length boxes ->
  (forall p, complete_sweep (length boxes) graph (sched p)) -> complete (length boxes) msched ->
  (forall p, Permutation (order p) (seq 0 (length boxes))) ->
  exists ref der, balance boxes lev graph sched msched order other ask_split ask_merge = Ok (ref, der) /\
    (forall i, nth i ref false = true <-> must_split boxes lev ask_split i) /\
    (forall g, nth g der false = true -> (g + 8 <= length boxes)%nat /\ octants_at boxes g /\
       forall j, (j < 8)%nat -> nth (g + j) ask_merge false = true /\ nth (g + j) ref false = false /\
         nth (g + j) lev 0 = nth g lev 0 /\ 1 <= nth (g + j) lev 0) /\
    (balanced boxes (fun i => nth i lev 0) ->
     forall i j l l', (i < length boxes)%nat -> (j < length boxes)%nat -> touch (box_of boxes i) (box_of boxes j) ->
       future lev ref der i l -> future lev ref der j l' -> l <= l' + 1).
Proof.
  intros boxes lev graph sched msched order other ask_split ask_merge HV LS LM LO HS HM HO.
  pose proof HV as (HE & HL & HG & HB & HT). set (cnt := length boxes) in *.
  destruct (C60_refine boxes lev graph sched ask_split HV LS HS) as (ref & k & E1 & L1 & _ & R1). fold cnt in E1, L1.
  unfold balance. fold cnt. rewrite E1. cbn [rbind]. unfold enforce_derefinement. fold cnt.
  destruct (merge_kernel_ok cnt (mergeable_at boxes lev ref) ask_merge msched LM HM) as (der0 & pr & E2 & _ & L2 & P2).
  rewrite E2. cbn [rbind].
  assert (P2' : forall g, nth g der0 false = true -> (g + 8 <= cnt)%nat /\ octants_at boxes g /\ nth g ref false = false /\
            forall j, (j < 8)%nat -> nth (g + j) ask_merge false = true /\ nth (g + j) lev 0 = nth g lev 0).
  { intros g Hg. destruct (P2 g Hg) as (A & B & C). unfold mergeable_at in B. apply andb_true_iff in B as [B B3]. apply andb_true_iff in B as [B1 B2].
    split; auto. split; [now apply group_octants|]. split; [now apply negb_true_iff in B3|]. intros j Hj. split; auto.
    rewrite forallb_forall in B2. specialize (B2 j ltac:(apply in_seq; lia)). apply Z.eqb_eq in B2. lia. }
  assert (GR : groups cnt ref der0). { split; auto. intros i Hi. destruct (P2' i Hi) as (A & _ & B & _). auto. }
  destruct (der_loop_ok cnt lev graph ref ltac:(lia) ltac:(lia) L1 HB 100 0 62 der0 other order GR LO HO) as (der & E3 & L3 & S3 & F3); try lia.
  { intros i Hi _. destruct (P2' i Hi) as (A & _). apply HB. lia. }
  rewrite E3. cbn [rbind]. exists ref, der. split; auto. split; auto.
  (* what a merged group sees *)
  assert (SEE : forall g j n, nth g der false = true -> (j < 8)%nat -> (n < cnt)%nat -> touch (box_of boxes (g + j)) (box_of boxes n) ->
            (nth n der false = true -> 1 <= nth n lev 0 /\ nth n ref false = false) /\
            nth n lev 0 + b2Z (nth n ref false) - b2Z (nth n der false) <= nth g lev 0).
  { intros g j n Hg Hj Hn T. destruct (P2' g (S3 g Hg)) as (A & _ & _ & D).
    pose proof (F3 g Hg) as NB. assert (Q : ~ (nth g lev 0 < fut_seen lev ref der n)).
    { intros Q. assert (bad cnt lev graph ref der g = true); [|congruence]. apply (bad_spec cnt lev graph ref ltac:(lia) ltac:(lia) L1 HB). exists j, n. split; auto. split; [apply HT; auto; lia|]. auto. }
    unfold fut_seen in Q. pose proof (HB n Hn) as Bn. pose proof (HB g ltac:(lia)) as Bg.
    destruct (nth n der false) eqn:X.
    - destruct (P2' n (S3 n X)) as (_ & _ & Rn & _). rewrite Rn in *. cbn [b2Z] in *.
      destruct (Z.eq_dec (nth n lev 0) 0) as [Z0|Z0].
      + rewrite Z0 in Q. exfalso. apply Q. change (w64 (0 + 0 - 1)) with 18446744073709551615. lia.
      + rewrite w64_small in Q by lia. split; [split; [lia|auto]|lia].
    - rewrite w64_small in Q by (destruct (nth n ref false); cbn [b2Z]; lia). split; [discriminate|lia]. }
  assert (NR : forall g, nth g der false = true -> (g + 8 <= cnt)%nat /\ octants_at boxes g /\
       forall j, (j < 8)%nat -> nth (g + j) ask_merge false = true /\ nth (g + j) ref false = false /\
         nth (g + j) lev 0 = nth g lev 0 /\ 1 <= nth (g + j) lev 0).
  { intros g Hg. destruct (P2' g (S3 g Hg)) as (A & B & C & D). split; auto. split; auto. intros j Hj. destruct (D j Hj) as (D1 & D2).
    split; auto.
    assert (LV : 1 <= nth g lev 0).
    { destruct (siblings boxes g B A 0%nat ltac:(lia)) as (j' & Hj' & T & J). specialize (J eq_refl). subst j'. rewrite Nat.add_0_r in T.
      destruct (SEE g 1%nat g Hg ltac:(lia) ltac:(lia) T) as (S & _). now apply S. }
    split; [|lia]. destruct (siblings boxes g B A j Hj) as (j' & Hj' & T & _).
    destruct (SEE g j' (g + j)%nat Hg Hj' ltac:(lia) T) as (S & Q). destruct (nth (g + j) ref false) eqn:X; auto. exfalso.
    destruct (nth (g + j) der false) eqn:Y; [destruct (S eq_refl); congruence|]. cbn [b2Z] in Q. lia. }
  split; [exact NR|]. intros BAL i j l l' Hi Hj T Fi Fj.
  assert (MJ : forall m n l, (m < cnt)%nat -> (n < cnt)%nat -> touch (box_of boxes m) (box_of boxes n) -> merged_in der m -> future lev ref der n l -> l <= nth m lev 0).
  { intros m n l0 Hm Hn Tm (g & Hg & Hr) Fn. destruct (NR g Hg) as (_ & _ & D). destruct (D (m - g)%nat ltac:(lia)) as (_ & _ & D3 & _).
    replace (g + (m - g))%nat with m in D3 by lia. destruct (SEE g (m - g)%nat n Hg ltac:(lia) Hn) as (S & Q).
    { replace (g + (m - g))%nat with m by lia. exact Tm. }
    destruct Fn as [(X & ->)|[(X & Y & ->)|(X & Y & ->)]]; rewrite X in *; cbn [b2Z] in Q.
    - destruct (nth n der false) eqn:Z1; [destruct (S eq_refl); congruence|]. cbn [b2Z] in Q. lia.
    - destruct (nth n der false); cbn [b2Z] in Q; lia.
    - destruct (nth n der false) eqn:Z1; [exfalso; apply Y; exists n; split; auto; lia|]. cbn [b2Z] in Q. lia. }
  pose proof (BAL i j Hi Hj T) as BL. cbn beta in BL.
  destruct Fj as [(X & ->)|[(X & Y & ->)|(X & Y & ->)]].
  - destruct Fi as [(X' & ->)|[(X' & Y' & ->)|(X' & Y' & ->)]]; lia.
  - pose proof (MJ j i l Hj Hi (touch_sym _ _ T) Y Fi). lia.
  - destruct Fi as [(X' & ->)|[(X' & Y' & ->)|(X' & Y' & ->)]]; try lia.
    destruct (Z.eq_dec (nth i lev 0) (nth j lev 0 + 1)) as [EQ|]; [|lia]. exfalso.
    assert (nth j ref false = true); [|congruence]. apply R1. apply R1 in X'. eapply forced; eauto. lia.
Qed.

(** ** Findings and examples *)
Definition meetb (a b : Z3 * Z3) (f : Z3 -> Z) : bool := (f (snd a) =? f (fst b)) || (f (fst a) =? f (snd b)).
Definition overb (a b : Z3 * Z3) (f : Z3 -> Z) : bool := (f (fst a) <? f (snd b)) && (f (fst b) <? f (snd a)).
Definition touchb (a b : Z3 * Z3) : bool :=
  (meetb a b px && overb a b py && overb a b pz) || (overb a b px && meetb a b py && overb a b pz) || (overb a b px && overb a b py && meetb a b pz).
Lemma touchb_ok a b : touchb a b = true <-> touch a b.
Proof. unfold touchb, touch, meetb, meet, overb, overlap. rewrite !orb_true_iff, !andb_true_iff, !orb_true_iff, !Z.eqb_eq, !Z.ltb_lt. intuition. Qed.
Definition graph_of (boxes : list (Z3 * Z3)) : list (list nat) :=
  map (fun i => filter (fun j => touchb (box_of boxes i) (box_of boxes j)) (seq 0 (length boxes))) (seq 0 (length boxes)).
Lemma graph_of_valid boxes lev : Forall even_box boxes -> length lev = length boxes -> Forall (fun l => 0 <= l <= 62) lev -> valid_patch boxes lev (graph_of boxes).
Proof.
  intros HE HL HF. split; auto. split; [lia|]. split; [unfold graph_of; rewrite map_length, seq_length; lia|]. split.
  - intros i Hi. rewrite Forall_forall in HF. apply HF, nth_In. lia.
  - intros i j Hi Hj. unfold graph_of.
    set (f := fun i => filter (fun j => touchb (box_of boxes i) (box_of boxes j)) (seq 0 (length boxes))).
    rewrite (nth_indep _ _ (f 0%nat)) by (rewrite map_length, seq_length; lia). rewrite map_nth, seq_nth by lia. unfold f. cbn [plus].
    rewrite filter_In, in_seq, touchb_ok. intuition lia.
Qed.
Definition in_turn (n : nat) (graph : list (list nat)) : list nat := flat_map (fun i => repeat i (1 + 3 * length (nth i graph []))) (seq 0 n).
Definition nine (ids : list nat) : list nat := flat_map (fun i => repeat i 9) ids.
Lemma sweep_dec n g s : forallb (fun i => Nat.ltb i n) s && forallb (fun i => Nat.leb (1 + 3 * length (nth i g [])) (count_occ Nat.eq_dec s i)) (seq 0 n) = true -> complete_sweep n g s.
Proof.
  intros H. apply andb_true_iff in H as [A B]. split.
  - apply Forall_forall. intros i Hi. rewrite forallb_forall in A. now apply Nat.ltb_lt, A.
  - intros i Hi. rewrite forallb_forall in B. apply Nat.leb_le, B, in_seq. lia.
Qed.
Lemma nine_dec n s : forallb (fun i => Nat.ltb i n) s && forallb (fun i => Nat.leb 9 (count_occ Nat.eq_dec s i)) (seq 0 n) = true -> complete n s.
Proof.
  intros H. apply andb_true_iff in H as [A B]. split.
  - apply Forall_forall. intros i Hi. rewrite forallb_forall in A. now apply Nat.ltb_lt, A.
  - intros i Hi. rewrite forallb_forall in B. apply Nat.leb_le, B, in_seq. lia.
Qed.
Lemma even_dec l : forallb (fun b => forallb (fun f : Z3 -> Z => (f (fst b) <? f (snd b)) && Z.even (f (snd b) - f (fst b))) [px; py; pz]) l = true -> Forall even_box l.
Proof.
  intros H. apply Forall_forall. intros b Hb f Hf. rewrite forallb_forall in H. specialize (H b Hb). rewrite forallb_forall in H.
  specialize (H f ltac:(cbn; intuition)). apply andb_true_iff in H as [A B]. apply Z.ltb_lt in A. auto.
Qed.

(** Eight octants of level 1 in Morton order, then a block of level 0 on their right and a far one *)
Definition exboxes : list (Z3 * Z3) :=
  map (octant (0, 0, 0) (2, 2, 2)) morton_octants ++ [((4, 0, 0), (8, 4, 4)); ((8, 0, 0), (12, 4, 4))].
Definition exlev : list Z := repeat 1 8 ++ [0; 0].
Example ex_C60 :
  let n := length exboxes in let g := graph_of exboxes in
  valid_patch exboxes exlev g /\ complete_sweep n g (in_turn n g) /\ complete n (nine (seq 0 n)) /\ balanced exboxes (fun i => nth i exlev 0) /\
  (exists der, balance exboxes exlev g (fun _ => in_turn n g) (nine (seq 0 n)) (fun _ => seq 0 n) (repeat false n) (repeat false n) (repeat true n)
     = Ok (repeat false n, der) /\ nth 0 der false = true) /\
  (exists ref, balance exboxes exlev g (fun _ => in_turn n g) (nine (seq 0 n)) (fun _ => seq 0 n) (repeat false n) (upd (repeat false n) 4 true) (repeat false n)
     = Ok (ref, repeat false n) /\ nth 8 ref false = true /\ nth 9 ref false = false).
Proof.
  cbv zeta. split; [apply graph_of_valid; [apply even_dec; reflexivity|reflexivity|repeat constructor; lia]|].
  split; [apply sweep_dec; vm_compute; reflexivity|]. split; [apply nine_dec; vm_compute; reflexivity|]. split.
  - intros i j Hi Hj _. assert (Q : forall k, (k < length exboxes)%nat -> 0 <= nth k exlev 0 <= 1).
    { intros k Hk. cbn in Hk. do 10 (destruct k as [|k]; [cbn; lia|]). lia. }
    pose proof (Q i Hi). pose proof (Q j Hj). cbn beta. lia.
  - split; eexists; (split; [vm_compute; reflexivity|]); try split; reflexivity.
Qed.

(** Finding: neighbours outside of the patch are ignored: two neighbouring patches, each with one block; after the change the blocks, which touch and
    whose levels were 1 and 0, have levels 2 and 0. *)
Theorem C60_ghost_refuted : exists a b sched msched order other refA refB,
  let graph := [[1%nat]] in
  valid_patch [a] [1; 0] graph /\ valid_patch [b] [0; 1] graph /\ touch a b /\
  (forall p, complete_sweep 1 graph (sched p)) /\ complete 1 msched /\ (forall p, Permutation (order p) (seq 0 1)) /\
  balance [a] [1; 0] graph sched msched order other [true] [false] = Ok (refA, [false]) /\
  balance [b] [0; 1] graph sched msched order other [false] [false] = Ok (refB, [false]) /\
  future [1; 0] refA [false] 0 2 /\ future [0; 1] refB [false] 0 0.
Proof.
  exists ((0, 0, 0), (2, 2, 2)), ((2, 0, 0), (6, 4, 4)), (fun _ => repeat 0%nat 4), (repeat 0%nat 9), (fun _ => seq 0 1), [false], [true], [false]. cbv zeta.
  assert (V : forall (a : Z3 * Z3) x y, Forall even_box [a] -> 0 <= x <= 62 -> fst a <> snd a -> valid_patch [a] [x; y] [[1%nat]]).
  { intros a x y HE HX _. split; auto. split; [cbn; lia|]. split; [cbn; lia|]. split.
    - intros i Hi. cbn in Hi. assert (i = 0)%nat as -> by lia. exact HX.
    - intros i j Hi Hj. cbn in Hi, Hj. assert (i = 0)%nat as -> by lia. assert (j = 0)%nat as -> by lia. cbn [nth box_of]. split; [intros [X|[]]; discriminate|].
      apply Forall_inv in HE. unfold touch, meet, overlap, box_of. cbn [nth]. pose proof (HE px (or_introl eq_refl)). pose proof (HE py (or_intror (or_introl eq_refl))). pose proof (HE pz (or_intror (or_intror eq_refl))). lia. }
  split; [apply V; [apply even_dec; reflexivity|lia|discriminate]|]. split; [apply V; [apply even_dec; reflexivity|lia|discriminate]|].
  split; [apply touchb_ok; reflexivity|]. split; [intros _; apply sweep_dec; reflexivity|]. split; [apply nine_dec; reflexivity|]. split; [intros; apply Permutation_refl|].
  split; [reflexivity|]. split; [reflexivity|]. split; [left; split; reflexivity|]. right. right. split; [reflexivity|]. split; [|reflexivity].
  intros (g & Hg & _). destruct g as [|[|g]]; discriminate.
Qed.

(** Finding: the kernel of the merge flags still overwrites flags that other work items read: eight siblings are merged or
    not depending on the order of the work items. *)
Theorem C60_race_refuted : exists boxes lev graph sched m1 m2 order other,
  let n := length boxes in
  valid_patch boxes lev graph /\ octants_at boxes 0 /\ n = 8%nat /\ (forall p, complete_sweep n graph (sched p)) /\ complete n m1 /\ complete n m2 /\
  (forall p, order p = seq 0 n) /\ length other = n /\
  exists d1 d2, balance boxes lev graph sched m1 order other (repeat false n) (repeat true n) = Ok (repeat false n, d1) /\
    balance boxes lev graph sched m2 order other (repeat false n) (repeat true n) = Ok (repeat false n, d2) /\
    nth 0 d1 false = true /\ (forall i, nth i d2 false = false).
Proof.
  set (bx := map (octant (0, 0, 0) (2, 2, 2)) morton_octants).
  exists bx, (repeat 1 8), (graph_of bx), (fun _ => in_turn 8 (graph_of bx)), (nine (seq 0 8)), (nine (rev (seq 0 8))), (fun _ => seq 0 8), (repeat false 8). cbv zeta.
  split; [apply graph_of_valid; [apply even_dec; reflexivity|reflexivity|repeat constructor; lia]|].
  split; [exists (0, 0, 0), (2, 2, 2); repeat split; reflexivity|]. split; [reflexivity|]. split; [intros _; apply sweep_dec; vm_compute; reflexivity|].
  split; [apply nine_dec; vm_compute; reflexivity|]. split; [apply nine_dec; vm_compute; reflexivity|]. split; [reflexivity|]. split; [reflexivity|].
  exists (true :: repeat false 7), (repeat false 8). split; [vm_compute; reflexivity|]. split; [vm_compute; reflexivity|]. split; [reflexivity|].
  intros i. do 8 (destruct i as [|i]; [reflexivity|]). destruct i; reflexivity.
Qed.

Print Assumptions C60_refine.
Print Assumptions C60_balance.
Print Assumptions C60_ghost_refuted.
Print Assumptions C60_race_refuted.
