(** The serialised patch tree in the reachable states of the scheduler. *)
From Verif Require Import Base Par Patch Patch_spec Patch_proofs PatchTree PatchTree_spec Sched Sched_spec Sched_proofs Sched_hist_proofs
  Domain Domain_spec SerialTree SerialTree_spec SerialTree_proofs SerialTree_build SerialTree_search SerialTree_leafs SerialTree_field.
From Verif Require Domain_main.
From Coq Require Import ZifyBool ZifyNat.
Local Open Scope Z_scope.

Lemma perm_roots_ok t rs : tree_ok t -> Permutation rs (t_roots t) -> tree_ok (t_with_roots rs t).
Proof.
  intros I HP. destruct I as [A B C D E F G H J K L M N O]. constructor; cbn; auto.
  - intros x. rewrite <- F. split; apply Permutation_in; [exact HP|now symmetry].
  - destruct K as (K1 & K2 & K3). split; auto. eapply Permutation_NoDup; [symmetry; exact HP|auto].
Qed.
(** Boxes are nested. *)
Lemma child_within t x n c m : tree_ok t -> t_map t x = Some n -> n_leaf n = false -> In c (n_childs n) -> t_map t c = Some m ->
  box_within (n_box m) (n_box n).
Proof.
  intros I Hn Hl Hc Hm p Hp. apply In_nth_error in Hc. destruct Hc as (k & Hk).
  destruct (proj2 (ok_children _ I x n Hn Hl) k c Hk) as (m' & Hm' & _ & Hb & _). assert (m' = m) by congruence. subst m'.
  apply (proj1 (get_split_partition _ (ok_splittable _ I _ _ Hn Hl))). exists (n_box m). split; auto. eapply nth_error_In; eauto.
Qed.
Lemma desc_within t x y n m : tree_ok t -> desc t x y -> t_map t x = Some n -> t_map t y = Some m -> box_within (n_box m) (n_box n).
Proof.
  intros I D. revert m. induction D as [x|x y c k D IH Hk Hl Hc]; intros m Hn Hm p Hp.
  - congruence.
  - apply (IH k Hn Hk). exact (child_within t y k c m I Hk Hl Hc Hm p Hp).
Qed.
(** A node is covered by the leaves below it. *)
Lemma leaf_below t f x : tree_ok t -> hle t f x -> forall n p, t_map t x = Some n -> in_box p (n_box n) ->
  exists y m, desc t x y /\ t_map t y = Some m /\ n_leaf m = true /\ in_box p (n_box m).
Proof.
  intros I. induction 1 as [f x k Hk Hl|f x k Hk Hl Hc IH]; intros n p Hn Hp; assert (k = n) by congruence; subst k.
  - exists x, n. split; [constructor|]. auto.
  - apply (proj1 (get_split_partition _ (ok_splittable _ I _ _ Hn Hl))) in Hp. destruct Hp as (b & Hb & Hp).
    apply In_nth_error in Hb. destruct Hb as (j & Hj).
    assert (Hj8 : (j < 8)%nat) by (rewrite <- (length_get_split (n_box n)); apply nth_error_Some; congruence).
    destruct (nth_error (n_childs n) j) as [c|] eqn:Ec; [|apply nth_error_None in Ec; rewrite (ok_childs_len _ I _ _ Hn) in Ec; lia].
    destruct (proj2 (ok_children _ I x n Hn Hl) j c Ec) as (m & Hm & _ & Hbm & _). assert (b = n_box m) by congruence. subst b.
    pose proof (nth_error_In _ _ Ec) as Hcin. destruct (IH c Hcin m p Hm Hp) as (y & q & D & A & B & E). exists y, q.
    split; auto. eapply (desc_trans t); [|exact D]. exact (desc_step t x x c n (desc_refl t x) Hn Hl Hcin).
Qed.

Section G.
Variable obj : Type.
Variable pos : obj -> v3.
Variable W : nat.
Context {C : Type}.
Variables (leb ltb : C -> C -> bool) (to_box : pcoord -> res (range C)) (cellof : vec3 C -> v3) (g : pcoord).
Hypothesis Hconv : forall b, inside b g -> exists r, to_box b = Ok r /\
  forall v, is_in_patch_converted leb ltb v (fst r) (snd r) = true <-> in_box (cellof v) b.
Definition contains (b : pcoord) (v : vec3 C) : Prop :=
  exists r, to_box b = Ok r /\ is_in_patch_converted leb ltb v (fst r) (snd r) = true.
Lemma contains_cell b v : inside b g -> (contains b v <-> in_box (cellof v) b).
Proof.
  intros Hb. destruct (Hconv b Hb) as (r & E & H). rewrite <- H. split; [|intros; exists r; auto].
  intros (r' & E' & H'). congruence.
Qed.

Variables (bs : list pcoord) (s : sched obj) (rs : list Z) (fuel : nat).
Hypothesis HW : (1 <= W)%nat.
Hypothesis Hist : sched_history obj pos W bs s.
Hypothesis Hin : forall b, In b bs -> inside b g.
Hypothesis Hnext : t_next (s_tree _ s) <= 2 ^ 32.
Hypothesis HP : Permutation rs (t_roots (s_tree _ s)).
Hypothesis Hfuel : (65 <= fuel)%nat.
Notation t := (t_with_roots rs (s_tree _ s)).
Lemma s_ok : sched_ok obj pos W s. Proof. apply (history_ok obj pos W bs s HW Hist). Qed.
Lemma t_ok : tree_ok t. Proof. apply perm_roots_ok; auto. apply (so_tree _ _ _ _ s_ok). Qed.
Lemma tmap x : t_map t x = t_map (s_tree _ s) x. Proof. reflexivity. Qed.
Lemma leaf_patch x n : t_map t x = Some n -> n_leaf n = true ->
  exists p, In p (s_global _ s) /\ valid_patch W p /\ n_linked n = Some (p_id p) /\ p_box p = n_box n.
Proof. apply (so_leaf _ _ _ _ s_ok). Qed.
Lemma root_covered c x n : In x rs -> t_map t x = Some n -> in_box c (n_box n) -> exists b, In b bs /\ in_box c b.
Proof.
  intros Hx Hn Hc. destruct (history_ok obj pos W bs s HW Hist) as (I & _ & Cov). apply Cov.
  destruct (proj1 (proj1 (so_part _ _ _ _ I) c)) as (l & m & Hl & Hm & Hb).
  { exists x, n. split; auto. eapply Permutation_in; eauto. }
  apply (ok_leaf _ (so_tree _ _ _ _ I)) in Hl. destruct Hl as (m' & Hm' & Hlf). assert (m' = m) by congruence. subst m'.
  destruct (so_leaf _ _ _ _ I l m Hm Hlf) as (p & Hp & Vp & _ & E). exists p. rewrite E. auto.
Qed.
Lemma node_inside x n : t_map t x = Some n -> inside (n_box n) g.
Proof.
  intros Hn. destruct (below_root t t_ok x n Hn) as (r & Hr & D). destruct (proj1 (ok_roots _ t_ok r) Hr) as (m & Hm & _).
  pose proof (ok_wf _ t_ok x n Hn) as Wf. destruct (Domain_main.wf_corners _ Wf) as (C1 & C2).
  assert (K : forall c, in_box c (n_box n) -> in_box c g).
  { intros c Hc. apply (desc_within t r x m n t_ok D Hm Hn) in Hc. destruct (root_covered c r m Hr Hm Hc) as (b & Hb & Hcb).
    apply Hin in Hb. unfold inside, in_box in *. lia. }
  apply K in C1, C2. unfold inside, in_box, wf_box in *. lia.
Qed.
Lemma node_conv x n : t_map t x = Some n -> exists r, to_box (n_box n) = Ok r /\
  forall v, is_in_patch_converted leb ltb v (fst r) (snd r) = true <-> in_box (cellof v) (n_box n).
Proof. intros Hn. apply Hconv. eapply node_inside; eauto. Qed.
Lemma leaf_linked x n : t_map t x = Some n -> n_leaf n = true -> exists id, n_linked n = Some id /\ id <> u64_max.
Proof.
  intros Hn Hl. destruct (leaf_patch x n Hn Hl) as (p & Hp & _ & E & _). exists (p_id p). split; auto.
  pose proof (so_ids _ _ _ _ s_ok p Hp). pose proof (so_next _ _ _ _ s_ok). lia.
Qed.
Lemma inner_linked x n : t_map t x = Some n -> n_leaf n = false -> n_linked n = Some u64_max.
Proof. apply (so_inner _ _ _ _ s_ok). Qed.
Lemma rootl : roots_level0 t. Proof. exact (ok_root_level _ t_ok). Qed.

Definition arrays_ok (st : sstate C) (roots : list Z) : Prop :=
  ser to_box t 0 (pre_all t fuel) (ss_tree st) (ss_linked st) /\ levels t 0 (ss_level st) (pre_all t fuel) /\
  Forall2 (fun r x => 0 <= r < 2 ^ 32 /\ nth_error (pre_all t fuel) (Z.to_nat r) = Some x) roots (t_roots t) /\
  (forall r, hd_error roots = Some r -> r = 0).
Lemma built : exists st roots, build_from_patch_tree to_box fuel t = Ok (st, roots).
Proof.
  destruct (build_ok to_box t t_ok fuel Hfuel Hnext) as (st & roots & E & _); eauto.
  intros x n Hn. destruct (node_conv x n Hn) as (r & E & _). eauto.
Qed.
Lemma built_arrays st roots : build_from_patch_tree to_box fuel t = Ok (st, roots) -> arrays_ok st roots.
Proof.
  intros E. destruct (build_ok to_box t t_ok fuel Hfuel Hnext) as (st' & roots' & E' & A).
  { intros x n Hn. destruct (node_conv x n Hn) as (r & Er & _). eauto. }
  assert (st' = st /\ roots' = roots) as [-> ->] by (split; congruence). exact A.
Qed.
Lemma complete x n : t_map t x = Some n -> In x (pre_all t fuel). Proof. intros H. exact (pre_all_complete t t_ok fuel x n Hfuel H). Qed.
Lemma small : Z.of_nat (length (pre_all t fuel)) <= 2 ^ 32. Proof. pose proof (pre_all_length t t_ok fuel) as H. change (t_next t) with (t_next (s_tree _ s)) in H. clear - H Hnext. lia. Qed.

Section B.
Variables (st : sstate C) (roots : list Z).
Hypothesis HB : build_from_patch_tree to_box fuel t = Ok (st, roots).

Lemma owner_inside v p : In p (s_global _ s) -> valid_patch W p -> contains (p_box p) v ->
  patch_owner leb ltb st roots v = Ok (p_id p).
Proof.
  intros Hp Vp Cp. destruct (built_arrays st roots HB) as (Hser & Hlev & HF & Hhd).
  destruct (Domain_main.cell_partition obj pos W contains cellof bs s g HW Hist Hin contains_cell) as (Uniq & Cov).
  assert (Hb : exists r n, In r (t_roots t) /\ t_map t r = Some n /\ in_box (cellof v) (n_box n)).
  { apply contains_cell in Cp; [|eapply Domain_main.patch_inside; eauto].
    destruct (patch_node obj pos W s p s_ok Hp Vp) as (x & n & H1 & H2 & _ & H4).
    destruct (proj2 (proj1 (so_part _ _ _ _ s_ok) (cellof v))) as (r & m & A1 & A2 & A3).
    { exists x, n. rewrite H4. auto. }
    exists r, m. split; auto. cbn. apply (Permutation_in _ (Permutation_sym HP)); auto. }
  destruct Hb as (r & n & Hr & Hn & Hb).
  destruct (patch_owner_in leb ltb to_box cellof t t_ok node_conv (pre_all t fuel) st Hser Hlev complete rootl (ok_leaf_childs _ t_ok) small
    roots HF Hhd v r n Hr Hn Hb) as (y & k & Hk & Hkl & Hkb & E).
  destruct (leaf_patch y k Hk Hkl) as (q & Hq & Vq & El & Ebx). rewrite E, El. do 2 f_equal.
  apply (Uniq v q p); auto. rewrite Ebx. apply contains_cell; auto. eapply node_inside; eauto.
Qed.
Lemma owner_outside v x0 rest n0 : rs = x0 :: rest -> t_map t x0 = Some n0 ->
  (forall p, In p (s_global _ s) -> valid_patch W p -> ~ contains (p_box p) v) ->
  patch_owner leb ltb st roots v = if n_leaf n0 then match n_linked n0 with Some id => Ok id | None => UB end else Ok u64_max.
Proof.
  intros Hx Hn Hout. destruct (built_arrays st roots HB) as (Hser & Hlev & HF & Hhd).
  apply (patch_owner_out leb ltb to_box cellof t t_ok node_conv (pre_all t fuel) st Hser Hlev complete rootl (ok_leaf_childs _ t_ok) small
    roots HF Hhd v x0 rest n0); auto.
  intros r n Hr Hrn Hb. destruct (proj1 (proj1 (so_part _ _ _ _ s_ok) (cellof v))) as (l & m & L1 & L2 & L3).
  { exists r, n. split; auto. eapply Permutation_in; eauto. }
  apply (ok_leaf _ (so_tree _ _ _ _ s_ok)) in L1. destruct L1 as (m' & Hm' & Hlf). assert (m' = m) by congruence. subst m'.
  destruct (leaf_patch l m L2 Hlf) as (p & Hp & Vp & _ & Eb). apply (Hout p Hp Vp). rewrite Eb. apply contains_cell; auto.
  apply (node_inside l m L2).
Qed.

(** *** compute_patch_owner *)
Lemma compute_main : bs <> [] -> forall positions order mem,
  Permutation order (seq 0 (length positions)) -> length mem = length positions ->
  exists out, compute_patch_owner leb ltb order mem st roots positions = Ok out /\ length out = length positions /\
    forall i v, nth_error positions i = Some v ->
      (forall p, In p (s_global _ s) -> valid_patch W p -> contains (p_box p) v -> nth_error out i = Some (p_id p)) /\
      ((forall p, In p (s_global _ s) -> valid_patch W p -> ~ contains (p_box p) v) ->
       forall x0, hd_error rs = Some x0 ->
         (In x0 (t_leaf (s_tree _ s)) -> exists p n, In p (s_global _ s) /\ valid_patch W p /\
            t_map (s_tree _ s) x0 = Some n /\ n_linked n = Some (p_id p) /\ nth_error out i = Some (p_id p)) /\
         (~ In x0 (t_leaf (s_tree _ s)) -> nth_error out i = Some u64_max)).
Proof.
  intros Hne positions order mem HO HM.
  assert (Hrs : exists x0 rest n0, rs = x0 :: rest /\ t_map t x0 = Some n0).
  { destruct bs as [|b bs'] eqn:Ebs; [contradiction|]. rewrite <- Ebs in *. pose proof (Hin b ltac:(rewrite Ebs; left; auto)) as Ib.
    destruct (history_ok obj pos W bs s HW Hist) as (I & _ & Cov).
    destruct (proj2 (Cov (cmin b))) as (p & Hp & Vp & Bp); [exists b; split; [rewrite Ebs; left; auto|unfold inside, in_box in *; lia]|].
    destruct (patch_node obj pos W s p I Hp Vp) as (x & n & H1 & H2 & _ & H4).
    destruct (proj2 (proj1 (so_part _ _ _ _ I) (cmin b))) as (r & m & A1 & A2 & A3); [exists x, n; rewrite H4; auto|].
    apply (Permutation_in _ (Permutation_sym HP)) in A1. destruct rs as [|x0 rest] eqn:Er; [contradiction|]. rewrite <- Er in *.
    destruct (proj1 (ok_roots _ t_ok x0)) as (n0 & Hn0 & _); [cbn; rewrite Er; left; auto|]. exists x0, rest, n0. auto. }
  destruct Hrs as (x0 & rest & n0 & Hrs & Hn0).
  assert (Dec : forall v, (exists p, In p (s_global _ s) /\ valid_patch W p /\ contains (p_box p) v) \/
    (forall p, In p (s_global _ s) -> valid_patch W p -> ~ contains (p_box p) v)).
  { intros v. assert (D : forall l : list patch, (exists p, In p l /\ valid_patch W p /\ contains (p_box p) v) \/ (forall p, In p l -> valid_patch W p -> ~ contains (p_box p) v)).
    { induction l as [|p l IH]; [right; intros p []|]. destruct IH as [(q & A & B)|N]; [left; exists q; split; [right|]; auto|].
      destruct (validb W p) eqn:Vb.
      - assert (Vp : valid_patch W p) by (unfold validb, valid_patch in *; lia).
        destruct (to_box (p_box p)) as [r| |] eqn:Er.
        + destruct (is_in_patch_converted leb ltb v (fst r) (snd r)) eqn:Ei.
          * left. exists p. split; [left; auto|]. split; auto. exists r. auto.
          * right. intros q [<-|Hq]; auto. intros _ (r' & E' & H'). congruence.
        + right. intros q [<-|Hq]; auto. intros _ (r' & E' & H'). congruence.
        + right. intros q [<-|Hq]; auto. intros _ (r' & E' & H'). congruence.
      - right. intros q [<-|Hq]; auto. intros Vp. unfold validb, valid_patch in *. lia. }
    apply D. }
  assert (Out0 : forall v, (forall p, In p (s_global _ s) -> valid_patch W p -> ~ contains (p_box p) v) ->
    (In x0 (t_leaf (s_tree _ s)) -> exists p, In p (s_global _ s) /\ valid_patch W p /\ n_linked n0 = Some (p_id p) /\ patch_owner leb ltb st roots v = Ok (p_id p)) /\
    (~ In x0 (t_leaf (s_tree _ s)) -> patch_owner leb ltb st roots v = Ok u64_max)).
  { intros v Hv. rewrite (owner_outside v x0 rest n0 Hrs Hn0 Hv). split.
    - intros Hl. apply (ok_leaf _ (so_tree _ _ _ _ s_ok)) in Hl. destruct Hl as (k & Hk & Hkl).
      assert (k = n0) by (change (t_map t x0) with (t_map (s_tree _ s) x0) in Hn0; congruence). subst k.
      rewrite Hkl. destruct (leaf_patch x0 n0 Hn0 Hkl) as (p & Hp & Vp & El & _). exists p. rewrite El. auto.
    - intros Hl. destruct (n_leaf n0) eqn:El; auto. exfalso. apply Hl. apply (ok_leaf _ (so_tree _ _ _ _ s_ok)). exists n0. auto. }
  assert (Val : forall v, exists id, patch_owner leb ltb st roots v = Ok id).
  { intros v. destruct (Dec v) as [(p & Hp & Vp & Cp)|Nv]; [exists (p_id p); apply owner_inside; auto|].
    destruct (Out0 v Nv) as (A & B). destruct (n_leaf n0) eqn:El.
    - destruct A as (p & _ & _ & _ & E); [apply (ok_leaf _ (so_tree _ _ _ _ s_ok)); exists n0; auto|]. eauto.
    - rewrite B; eauto. intros Hl. apply (ok_leaf _ (so_tree _ _ _ _ s_ok)) in Hl. destruct Hl as (k & Hk & Hkl).
      change (t_map t x0) with (t_map (s_tree _ s) x0) in Hn0. congruence. }
  set (gval := fun i => match nth_error positions i with Some v => match patch_owner leb ltb st roots v with Ok id => id | _ => 0 end | None => 0 end).
  exists (map gval (seq 0 (length positions))). split; [|split].
  - unfold compute_patch_owner. apply par_write_ok; auto. intros i Hi. destruct (nth_error positions i) as [v|] eqn:Ev; [|apply nth_error_None in Ev; lia].
    rewrite (proj2 (aget_ok _ _ _) Ev). cbn [rbind]. destruct (Val v) as (id & E). unfold gval. rewrite Ev, E. reflexivity.
  - now rewrite map_length, seq_length.
  - intros i v Hv. pose proof (nth_lt _ _ _ Hv) as Hi.
    assert (Eo : forall id, patch_owner leb ltb st roots v = Ok id -> nth_error (map gval (seq 0 (length positions))) i = Some id).
    { intros id E. rewrite nth_error_map, nth_error_seq by auto. cbn [option_map plus]. unfold gval. now rewrite Hv, E. }
    split; [intros p Hp Vp Cp; apply Eo, owner_inside; auto|]. intros Nv y0 Hy0. rewrite Hrs in Hy0. injection Hy0 as <-.
    destruct (Out0 v Nv) as (A & B). split; [|intros X; apply Eo; auto]. intros Hl. destruct (A Hl) as (p & Hp & Vp & El & E). exists p, n0. auto 10.
Qed.

(** *** host_for_each_leafs *)
Lemma F2_in_r {A B} (R : A -> B -> Prop) l1 l2 b : Forall2 R l1 l2 -> In b l2 -> exists a, In a l1 /\ R a b.
Proof.
  induction 1 as [|x y l1 l2 Hab F IH]; intros Hb; [contradiction|]. destruct Hb as [->|Hb]; [exists x; split; [left|]; auto|].
  destruct (IH Hb) as (a & P & Q). exists a. split; [right|]; auto.
Qed.
Lemma F2_in_l {A B} (R : A -> B -> Prop) l1 l2 a : Forall2 R l1 l2 -> In a l1 -> exists b, In b l2 /\ R a b.
Proof.
  induction 1 as [|x y l1 l2 Hab F IH]; intros Hb; [contradiction|]. destruct Hb as [->|Hb]; [exists y; split; [left|]; auto|].
  destruct (IH Hb) as (b & P & Q). exists b. split; [right|]; auto.
Qed.
Lemma leafs_main interact fuel' : (length (ss_tree st) < fuel')%nat ->
  exists calls, host_for_each_leafs fuel' st roots interact = Ok calls /\ NoDup (map fst calls) /\
    (forall id m, In (id, m) calls -> exists p i, In p (s_global _ s) /\ valid_patch W p /\ p_id p = id /\
       to_box (p_box p) = Ok (sn_min m, sn_max m) /\ nth_error (ss_tree st) (Z.to_nat i) = Some m /\ interact i m = true) /\
    (forall p v, In p (s_global _ s) -> valid_patch W p -> contains (p_box p) v ->
       (forall i m, nth_error (ss_tree st) (Z.to_nat i) = Some m -> in_node leb ltb v m = true -> interact i m = true) ->
       In (p_id p) (map fst calls)).
Proof.
  intros Hf. destruct (built_arrays st roots HB) as (Hser & Hlev & HF & Hhd). pose proof Hser as (HL & _).
  pose proof (pre_all_NoDup t t_ok fuel) as HND.
  destruct (host_for_each_ok to_box t t_ok (pre_all t fuel) st Hser HND complete leaf_linked inner_linked interact roots HF fuel fuel' Hfuel ltac:(rewrite <- HL; exact Hf))
    as (calls & E & ys & F & ND & Iff).
  assert (Lf : forall y, In y ys -> exists n, t_map t y = Some n /\ n_leaf n = true) by (intros y Hy; apply Iff in Hy; apply Hy).
  exists calls. split; auto. split; [|split].
  - clear E Iff. induction F as [|y c ys cs Hyc F IH]; cbn [map]; [constructor|]. inversion ND as [|? ? NI ND']; subst. constructor; auto.
    + intros Hc. apply in_map_iff in Hc. destruct Hc as (c' & Ec & Hc'). destruct (F2_in_r _ _ _ _ F Hc') as (y' & Hy' & n' & Hn' & Hl' & _).
      destruct Hyc as (n & Hn & Hl & _). destruct (Lf y (or_introl eq_refl)) as (k & Hk & Hkl). destruct (Lf y' (or_intror Hy')) as (k' & Hk' & Hkl').
      assert (k = n) by congruence. assert (k' = n') by congruence. subst k k'.
      assert (y = y') by (apply (so_inj _ _ _ _ s_ok y y' n n'); auto; congruence). subst y'. contradiction.
    + apply IH; auto. intros z Hz. apply Lf. right; auto.
  - intros id m Hm. destruct (F2_in_r _ _ _ _ F Hm) as (y & Hy & n & Hn & Hl & Em). cbn [fst snd] in *.
    destruct (Lf y Hy) as (k & Hk & Hkl). assert (k = n) by congruence. subst k.
    destruct (leaf_patch y n Hn Hkl) as (p & Hp & Vp & El & Eb). exists p, (idx (pre_all t fuel) y).
    split; auto. split; auto. split; [congruence|].
    destruct (node_entry to_box t t_ok (pre_all t fuel) st Hser HND complete leaf_linked inner_linked y n Hn) as (m' & Em' & _ & Ebx & _).
    assert (m' = m) by congruence. subst m'. rewrite Eb. split; auto. unfold node_at in Em. apply aget_ok in Em. split; auto.
    apply Iff in Hy. destruct Hy as (_ & Acc). specialize (Acc y (desc_refl t y) ltac:(eauto)). unfold accepts in Acc. rewrite Em' in Acc. exact Acc.
  - intros p v Hp Vp Cp Hacc. destruct (patch_node obj pos W s p s_ok Hp Vp) as (y & n & H1 & H2 & H3 & H4).
    apply (ok_leaf _ (so_tree _ _ _ _ s_ok)) in H1. destruct H1 as (n' & Hn' & Hl). assert (n' = n) by congruence. subst n'.
    assert (Hy : In y ys).
    { apply Iff. split; [exists n; auto|]. intros z Dz (k & Hk).
      destruct (node_entry to_box t t_ok (pre_all t fuel) st Hser HND complete leaf_linked inner_linked z k Hk) as (m & Em & _ & Ebx & _).
      unfold accepts. rewrite Em. unfold node_at in Em. apply aget_ok in Em. apply (Hacc _ _ Em).
      destruct (node_conv z k Hk) as (r & Er & Hr). assert (r = (sn_min m, sn_max m)) by congruence. subst r. cbn [fst snd] in Hr.
      unfold in_node. apply Hr. apply (desc_within t z y k n t_ok Dz Hk H2). rewrite H4. apply contains_cell; auto.
      eapply Domain_main.patch_inside; eauto. }
    destruct (F2_in_l _ _ _ _ F Hy) as (c & Hc & n' & Hn2 & Hl2 & _). apply in_map_iff. exists c. split; auto.
    change (t_map t y) with (t_map (s_tree _ s) y) in Hn2. congruence.
Qed.

(** *** make_patch_tree_field *)
Lemma field_main {T} (t0 e : T) (op : T -> T -> T) (get : Z -> res T) (orders : nat -> list act) :
  (forall a b c, op a (op b c) = op (op a b) c) -> (forall a, op e a = a) -> (forall a, op a e = a) ->
  (forall p, In p (s_global _ s) -> valid_patch W p -> exists v, get (p_id p) = Ok v) ->
  (forall l, (l < Z.to_nat (ss_level st))%nat -> level_execution (length (ss_tree st)) (orders l)) ->
  exists f, make_patch_tree_field t0 get (fold_right op e) st orders = Ok f /\ length f = length (ss_tree st) /\
    forall i m, nth_error (ss_tree st) i = Some m -> exists b ps vs,
      to_box b = Ok (sn_min m, sn_max m) /\ NoDup ps /\
      (forall p, In p ps <-> In p (s_global _ s) /\ valid_patch W p /\ box_within (p_box p) b) /\
      Forall2 (fun p v => get (p_id p) = Ok v) ps vs /\ nth_error f i = Some (fold_right op e vs).
Proof.
  intros Hass Hl Hr Hget HO. destruct (built_arrays st roots HB) as (Hser & Hlev & HF & Hhd). pose proof Hser as (HL & HL2 & HS).
  pose proof (pre_all_NoDup t t_ok fuel) as HND.
  destruct (field_ok to_box t t_ok (pre_all t fuel) st Hser HND Hlev complete leaf_linked inner_linked rootl (ok_leaf_childs _ t_ok) small
    t0 get (fold_right op e)) with (orders := orders) as (f & E & Lf & Hf); auto.
  { intros x n id Hn Hlf Hk. destruct (leaf_patch x n Hn Hlf) as (p & Hp & Vp & El & _). destruct (Hget p Hp Vp) as (v & Hv). exists v. congruence. }
  exists f. split; auto. split; [congruence|]. intros i m Hm.
  destruct (nth_error (pre_all t fuel) i) as [x|] eqn:Hx.
  2:{ apply nth_error_None in Hx. pose proof (nth_lt _ _ _ Hm). lia. }
  destruct (HS i x Hx) as (n & m' & Hn & Hm' & _ & Hb & _). assert (m' = m) by congruence. subst m'.
  destruct (Hf i x Hx) as (v & Hv & NV).
  destruct (node_value_fold t get op e t_ok Hass Hl Hr 65 x (hle_all t t_ok x n 65 Hn ltac:(lia)) v NV) as (ys & vs & ND & Iff & FV & ->).
  assert (X : exists ps, Forall2 (fun y p => exists k, t_map t y = Some k /\ n_leaf k = true /\ n_linked k = Some (p_id p) /\ p_box p = n_box k /\
     In p (s_global _ s) /\ valid_patch W p) ys ps).
  { assert (Ly : forall y, In y ys -> is_leaf_of t y) by (intros y Hy; apply Iff in Hy; apply Hy). clear - Ly Hist HW HP Hconv Hin. induction ys as [|y ys IH].
    - exists []. constructor.
    - destruct IH as (ps & F); [intros; apply Ly; right; auto|]. destruct (Ly y (or_introl eq_refl)) as (k & Hk & Hkl).
      destruct (leaf_patch y k Hk Hkl) as (p & Hp & Vp & El & Eb). exists (p :: ps). constructor; auto. exists k. auto 10. }
  destruct X as (ps & FP). exists (n_box n), ps, vs. split; auto. split; [|split; [|split; auto]].
  - clear - FP ND Hist HW HP Hconv Hin. induction FP as [|y p ys ps Hyp F IH]; [constructor|]. inversion ND as [|? ? NI ND']; subst. constructor; auto.
    intros Hp. destruct (F2_in_r _ _ _ _ F Hp) as (y' & Hy' & k' & A1 & A2 & A3 & _). destruct Hyp as (k & B1 & B2 & B3 & _).
    assert (y = y') by (apply (so_inj _ _ _ _ s_ok y y' k k'); auto; congruence). subst y'. contradiction.
  - intros p. split.
    + intros Hp. destruct (F2_in_r _ _ _ _ FP Hp) as (y & Hy & k & A1 & A2 & A3 & A4 & A5 & A6). split; auto. split; auto.
      rewrite A4. apply Iff in Hy. destruct Hy as (D & _). exact (desc_within t x y n k t_ok D Hn A1).
    + intros (Hp & Vp & Hw). destruct (patch_node obj pos W s p s_ok Hp Vp) as (y & k & H1 & H2 & H3 & H4).
      pose proof H1 as H1'. apply (ok_leaf _ (so_tree _ _ _ _ s_ok)) in H1. destruct H1 as (k' & Hk' & Hkl). assert (k' = k) by congruence. subst k'.
      destruct (Domain_main.wf_corners _ (ok_wf _ t_ok y k H2)) as (Cn & _). pose proof Cn as Cn'. rewrite H4 in Cn'. apply Hw in Cn'.
      destruct (leaf_below t 65 x t_ok (hle_all t t_ok x n 65 Hn ltac:(lia)) n _ Hn Cn') as (z & q & D & Hq & Hql & Hqb).
      assert (z = y).
      { destruct (Z.eq_dec z y) as [|Ne]; auto. exfalso.
        assert (Hz : In z (t_leaf (s_tree _ s))) by (apply (ok_leaf _ (so_tree _ _ _ _ s_ok)); exists q; auto).
        apply (proj2 (so_part _ _ _ _ s_ok) z y q k Hz H1' Ne Hq H2 (cmin (n_box k))). split; [rewrite H4; exact Hqb|exact Cn]. }
      subst z. assert (Hy : In y ys) by (apply Iff; split; auto; exists k; auto).
      destruct (F2_in_l _ _ _ _ FP Hy) as (p' & Hp' & k' & A1 & A2 & A3 & A4 & A5 & A6).
      assert (k' = k) by (change (t_map t y) with (t_map (s_tree _ s) y) in A1; congruence). subst k'.
      assert (p' = p); [|congruence]. eapply (NoDup_map_inj p_id); eauto; [apply (so_nodup _ _ _ _ s_ok)|congruence].
  - clear - FP FV. revert ps FP. induction FV as [|y v ys vs Hyv FV IH]; intros ps FP; inversion FP as [|? p ? ps' Hp FP']; subst; constructor; auto.
    destruct Hyv as (k & id & A1 & A2 & A3 & A4). destruct Hp as (k' & B1 & B2 & B3 & _). congruence.
Qed.
End B.
End G.
