(** Histories of the scheduler. *)
From Verif Require Import Base Patch Patch_spec Patch_proofs PatchTree PatchTree_spec PatchTree_proofs
  Sched Sched_spec Sched_change_proofs Sched_proofs Sched_step_proofs Sched_merge_proofs Sched_main_proofs.
Local Open Scope Z_scope.

Section Hist.
Variable obj : Type.
Variable pos : obj -> v3.
Variable W : nat.
Notation sched := (sched obj).
Notation sched_ok := (sched_ok obj pos W).
Notation world := (world_objects obj W).
Notation covered := (covered obj W).
Notation valid := (valid_patch W).

Lemma empty_ok : sched_ok (empty_sched obj).
Proof.
  constructor; cbn [empty_sched s_tree s_global s_next s_data]; try (intros; contradiction).
  - apply (proj1 (tree_history_ok _ _ TH_init)).
  - apply (proj2 (tree_history_ok _ _ TH_init)).
  - split; vm_compute; discriminate.
  - constructor.
  - intros x n H. discriminate.
  - intros x y n m H. discriminate.
  - intros x n H. discriminate.
  - intros r id _. split; [congruence|intros (p & [] & _)].
Qed.

(** Valid patches are in bijection with the leaves: distinct ones are disjoint. *)
Lemma patch_node s p : sched_ok s -> In p (s_global _ s) -> valid p ->
  exists x n, In x (t_leaf (s_tree _ s)) /\ t_map (s_tree _ s) x = Some n /\ n_linked n = Some (p_id p) /\ n_box n = p_box p.
Proof.
  intros I Hp Vp. destruct (so_patch _ _ _ _ I p Hp Vp) as (x & n & A & B & C). exists x, n.
  split; [apply (ok_leaf _ (so_tree _ _ _ _ I)); exists n; auto|]. split; auto. split; auto.
  destruct (so_leaf _ _ _ _ I x n A B) as (q & Q1 & Q2 & Q3 & Q4).
  assert (p_id q = p_id p) by congruence. 
  rewrite <- Q4. f_equal. destruct (In_nth_error _ _ Q1) as (i & Hi). destruct (In_nth_error _ _ Hp) as (j & Hj).
  assert (i = j).
  { apply (proj1 (NoDup_nth_error (map p_id (s_global _ s))) (so_nodup _ _ _ _ I)).
    - rewrite map_length. eapply nth_error_lt; eauto.
    - rewrite !nth_error_map, Hi, Hj. cbn. congruence. }
  congruence.
Qed.

Lemma patches_disjoint s p q : sched_ok s -> In p (s_global _ s) -> In q (s_global _ s) -> valid p -> valid q ->
  p_id p <> p_id q -> disjoint (p_box p) (p_box q).
Proof.
  intros I Hp Hq Vp Vq Hne.
  destruct (patch_node s p I Hp Vp) as (x & n & A1 & A2 & A3 & A4). destruct (patch_node s q I Hq Vq) as (y & m & B1 & B2 & B3 & B4).
  rewrite <- A4, <- B4. apply (proj2 (so_part _ _ _ _ I) x y n m); auto. intros ->. congruence.
Qed.

Lemma covered_leaf s pt : sched_ok s ->
  (covered s pt <-> exists l n, In l (t_leaf (s_tree _ s)) /\ t_map (s_tree _ s) l = Some n /\ in_box pt (n_box n)).
Proof.
  intros I. split.
  - intros (p & Hp & Vp & Hin). destruct (patch_node s p I Hp Vp) as (x & n & A1 & A2 & A3 & A4). exists x, n. rewrite A4. auto.
  - intros (x & n & A & B & C). apply (ok_leaf _ (so_tree _ _ _ _ I)) in A. destruct A as (n' & A & Hl). assert (n' = n) by congruence. subst n'.
    destruct (so_leaf _ _ _ _ I x n B Hl) as (p & P1 & P2 & P3 & P4). exists p. rewrite P4. auto.
Qed.

Lemma add_root_ok b s : (1 <= W)%nat -> sched_ok s -> s_next _ s + 1 <= 2 ^ 32 -> 0 <= s_next _ s -> t_next (s_tree _ s) + 1 <= u64_max ->
  wf_box b -> (forall pt, in_box pt b -> ~ covered s pt) ->
  exists s', add_root_patch obj b s = Ok s' /\ sched_ok s' /\ world s' = world s /\
    s_next _ s' = s_next _ s + 1 /\ t_next (s_tree _ s') = t_next (s_tree _ s) + 1 /\
    (forall pt, covered s' pt <-> covered s pt \/ in_box pt b).
Proof.
  intros HW I Hn H0 Ht Hwf Hd. pose proof (so_tree _ _ _ _ I) as TI.
  set (id := s_next _ s). set (pn := Patch id u64_max 0 b 0).
  assert (Fr : s_data _ s 0 id = None).
  { destruct (s_data _ s 0 id) eqn:E; auto. exfalso. assert (X : s_data _ s 0 id <> None) by congruence.
    apply (so_data _ _ _ _ I) in X; [|lia]. destruct X as (p & P1 & P2 & P3). apply (so_ids _ _ _ _ I) in P1. unfold id in P3. lia. }
  destruct (insert_root_spec (s_tree _ s) id b TI Ht) as (N & M & L & R & P & D1 & D2).
  set (t' := insert_root_node id b (s_tree _ s)) in *.
  assert (W64 : w64 (id + 1) = id + 1).
  { apply w64_small. unfold id, u64_max. lia. }
  assert (W32 : w32 id = id).
  { unfold w32. apply Z.mod_small. unfold id. lia. }
  rewrite W32 in M.
  set (nd := Node b 0 u64_max childs_init true false (Some id) u64_max) in *.
  assert (Fresh : t_map (s_tree _ s) (t_next (s_tree _ s)) = None).
  { destruct (t_map (s_tree _ s) (t_next (s_tree _ s))) eqn:E; auto. apply (ok_ids _ TI) in E. lia. }
  assert (Old : forall x m, t_map (s_tree _ s) x = Some m -> t_map t' x = Some m).
  { intros x m Hm. rewrite M. destruct (Z.eqb_spec x (t_next (s_tree _ s))) as [->|]; auto. congruence. }
  assert (New : t_map t' (t_next (s_tree _ s)) = Some nd) by (rewrite M, Z.eqb_refl; reflexivity).
  assert (Inv : forall x m, t_map t' x = Some m -> (x = t_next (s_tree _ s) /\ m = nd) \/ t_map (s_tree _ s) x = Some m).
  { intros x m. rewrite M. destruct (Z.eqb_spec x (t_next (s_tree _ s))); auto. intros [= <-]; auto. }
  assert (Vn : valid pn) by (unfold valid_patch; cbn; lia).
  assert (Idl : forall p, In p (s_global _ s) -> p_id p <> id) by (intros p Hp; apply (so_ids _ _ _ _ I) in Hp; unfold id; lia).
  set (d' := dd_set obj (s_data _ s) 0 (d_set obj (s_data _ s 0) id (Some []))).
  assert (Dn : d' 0 id = Some []) by (unfold d', dd_set, d_set; rewrite Z.eqb_refl; cbn; now rewrite Z.eqb_refl).
  assert (Do : forall r k, k <> id -> d' r k = s_data _ s r k).
  { intros r k Hk. unfold d', dd_set, d_set. destruct (Z.eqb_spec r 0) as [->|]; auto. destruct (Z.eqb_spec k id); congruence. }
  assert (Ob : forall p, In p (s_global _ s) -> patch_objs obj d' p = patch_objs obj (s_data _ s) p).
  { intros p Hp. unfold patch_objs. now rewrite Do by (apply Idl; auto). }
  exists (Sched obj t' (s_global _ s ++ [pn]) (id + 1) (s_idx _ s) d').
  split; [|split; [|split; [|split; [|split]]]]; cbn [s_tree s_global s_next s_data s_idx].
  - unfold add_root_patch. fold id. unfold d_add. rewrite Fr. cbn [rbind]. rewrite W64. reflexivity.
  - constructor; cbn [s_tree s_global s_next s_data s_idx].
    + now apply insert_root_ok.
    + apply root_partition; auto; [|apply (so_part _ _ _ _ I)]. intros r n Hr Hrn pt (P1 & P2).
      apply (Hd pt P2). apply covered_leaf; auto. apply (proj1 (so_part _ _ _ _ I)). eauto.
    + unfold id, u64_max. lia.
    + intros p Hp. apply in_app_iff in Hp. destruct Hp as [Hp|[<-|[]]].
      * apply (so_ids _ _ _ _ I) in Hp. unfold id. lia.
      * cbn. unfold id. lia.
    + rewrite map_app. cbn [map]. apply NoDup_app_i; [apply (so_nodup _ _ _ _ I)|repeat constructor; auto|].
      intros x Hx [<-|[]]. apply in_map_iff in Hx. destruct Hx as (p & P1 & P2). now apply (Idl p).
    + intros x n Hx Hl. destruct (Inv x n Hx) as [(-> & ->)|Hx'].
      * exists pn. rewrite in_app_iff. cbn. auto.
      * destruct (so_leaf _ _ _ _ I x n Hx' Hl) as (p & P1 & P2). exists p. rewrite in_app_iff. auto.
    + intros p Hp Vp. apply in_app_iff in Hp. destruct Hp as [Hp|[<-|[]]].
      * destruct (so_patch _ _ _ _ I p Hp Vp) as (x & n & A & B). exists x, n. auto.
      * exists (t_next (s_tree _ s)), nd. auto.
    + assert (Lk : forall x n, t_map (s_tree _ s) x = Some n -> n_leaf n = true -> n_linked n <> Some id).
      { intros x n Hx Hl. destruct (so_leaf _ _ _ _ I x n Hx Hl) as (p & P1 & P2 & P3 & _). rewrite P3. intros [= E]. now apply (Idl p). }
      intros x y n m Hx Hy Lx Ly E. destruct (Inv x n Hx) as [(-> & ->)|Hx']; destruct (Inv y m Hy) as [(-> & ->)|Hy']; auto.
      * exfalso. apply (Lk y m Hy' Ly). now rewrite <- E.
      * exfalso. apply (Lk x n Hx' Lx). now rewrite E.
      * apply (so_inj _ _ _ _ I x y n m); auto.
    + intros x n Hx Hl. destruct (Inv x n Hx) as [(-> & ->)|Hx']; [discriminate|]. apply (so_inner _ _ _ _ I x n); auto.
    + intros r k Hr. destruct (Z.eq_dec k id) as [->|Hk].
      * split.
        -- intros Hd'. exists pn. rewrite in_app_iff. cbn. split; auto. split; auto.
           destruct (Z.eq_dec r 0); auto. exfalso. apply Hd'. unfold d', dd_set. destruct (Z.eqb_spec r 0); [contradiction|].
           destruct (s_data _ s r id) eqn:E; auto. exfalso. assert (X : s_data _ s r id <> None) by congruence.
           apply (so_data _ _ _ _ I) in X; auto. destruct X as (p & P1 & P2 & P3). now apply (Idl p).
        -- intros (p & Hp & Ho & Hi). apply in_app_iff in Hp. destruct Hp as [Hp|[<-|[]]]; [exfalso; now apply (Idl p)|].
           cbn in Ho. subst r. rewrite Dn. discriminate.
      * rewrite Do by auto. rewrite (so_data _ _ _ _ I r k Hr). split; intros (p & Hp & Ho & Hi); exists p.
        -- rewrite in_app_iff; auto.
        -- apply in_app_iff in Hp. destruct Hp as [Hp|[<-|[]]]; auto. exfalso. now apply Hk.
    + intros p o Hp Vp Ho. apply in_app_iff in Hp. destruct Hp as [Hp|[<-|[]]].
      * rewrite Ob in Ho by auto. eapply so_in; eauto.
      * unfold patch_objs in Ho. cbn [pn p_owner p_id] in Ho. rewrite Dn in Ho. contradiction.
  - unfold world_objects; cbn [s_global s_data]. rewrite filter_app, flat_map_app.
    replace (flat_map (patch_objs obj d') (filter (validb W) [pn])) with (@nil obj).
    + rewrite app_nil_r. apply flat_map_ext_in. intros p Hp. apply filter_In in Hp. apply Ob, Hp.
    + cbn [filter]. destruct (validb W pn); auto. cbn [flat_map]. unfold patch_objs. cbn [pn p_owner p_id]. now rewrite Dn.
  - reflexivity.
  - exact N.
  - intros pt. unfold Sched_spec.covered. cbn [s_global]. split.
    + intros (p & Hp & Vp & Hin). apply in_app_iff in Hp. destruct Hp as [Hp|[<-|[]]]; [left; eauto|right; exact Hin].
    + intros [(p & Hp & Vp & Hin)|Hin]; [exists p|exists pn]; rewrite in_app_iff; cbn; auto.
Qed.

Lemma sched_ok_idx t g n m m' d : sched_ok (Sched obj t g n m d) -> sched_ok (Sched obj t g n m' d).
Proof. intros I. destruct I; constructor; assumption. Qed.

Lemma add_roots_fold : (1 <= W)%nat -> forall bs s, sched_ok s -> 0 <= s_next _ s -> roots_allowed obj W bs s ->
  exists s', rfold (add_root_patch obj) bs s = Ok s' /\ sched_ok s' /\ world s' = world s /\ 0 <= s_next _ s' /\
    (forall pt, covered s' pt <-> covered s pt \/ exists b, In b bs /\ in_box pt b).
Proof.
  intros HW. induction bs as [|b bs IH]; intros s I H0 (A1 & Awf & A2 & A3 & A4); cbn [rfold].
  - exists s. split; auto. split; auto. split; auto. split; auto. intros pt. split; auto. intros [H|(b & [] & _)]; auto.
  - rewrite (eq_refl : length (b :: bs) = S (length bs)) in A3, A4. rewrite Nat2Z.inj_succ in A3, A4.
    destruct (add_root_ok b s HW I) as (s1 & E & I1 & W1 & N1 & T1 & C1); auto; try lia.
    { apply Awf. left; auto. }
    { apply A2. left; auto. }
    rewrite E. cbn [rbind]. destruct (IH s1 I1) as (s' & E' & I' & W' & N' & C').
    { lia. }
    { split; [|split; [|split; [|split]]].
      - intros i j a c Hi Hj Hij. apply (A1 (S i) (S j)); auto.
      - intros a Ha. apply Awf. now right.
      - intros a Ha pt Hin Hc. apply C1 in Hc. destruct Hc as [Hc|Hc].
        + apply (A2 a (or_intror Ha) pt Hin Hc).
        + destruct (In_nth_error _ _ Ha) as (i & Hi). apply (A1 (S i) 0%nat a b Hi eq_refl) with pt; auto.
      - rewrite N1. lia.
      - rewrite T1. lia. }
    exists s'. split; auto. split; auto. split; [congruence|]. split; auto. intros pt. rewrite C', C1. cbn [In]. split.
    + intros [[H|H]|(c & H1 & H2)]; auto; right; eauto.
    + intros [H|(c & [<-|H1] & H2)]; auto. right; eauto.
Qed.

Lemma add_roots_ok bs s : (1 <= W)%nat -> sched_ok s -> 0 <= s_next _ s -> roots_allowed obj W bs s ->
  exists s', add_root_patches obj bs s = Ok s' /\ sched_ok s' /\ world s' = world s /\ 0 <= s_next _ s' /\
    (forall pt, covered s' pt <-> covered s pt \/ exists b, In b bs /\ in_box pt b).
Proof.
  intros HW I H0 A. destruct (add_roots_fold HW bs s I H0 A) as (s' & E & I' & W' & N' & C').
  eexists. unfold add_root_patches. rewrite E. cbn [rbind]. split; [reflexivity|]. split.
  - destruct s'; eapply sched_ok_idx; exact I'.
  - split; [exact W'|]. split; [exact N'|exact C'].
Qed.

Lemma history_ok bs s : (1 <= W)%nat -> sched_history obj pos W bs s ->
  sched_ok s /\ 0 <= s_next _ s /\ (forall pt, covered s pt <-> exists b, In b bs /\ in_box pt b).
Proof.
  intros HW H. induction H as [|bs s bs' s' H (I & N & C) A E|bs s d H (I & N & C) (A & B)|bs s sm lb cs cm loads os om omp bal net s' H (I & N & C) PP Fl E].
  - split; [apply empty_ok|]. split; [cbn; lia|]. intros pt. split; [intros (p & [] & _)|intros (b & [] & _)].
  - destruct (add_roots_ok bs' s HW I N A) as (s1 & E1 & I1 & W1 & N1 & C1). assert (s1 = s') by congruence. subst s1.
    split; auto. split; auto. intros pt. rewrite C1, C. split.
    + intros [(b & X & Y)|(b & X & Y)]; exists b; rewrite in_app_iff; auto.
    + intros (b & X & Y). apply in_app_iff in X. destruct X; [left|right]; eauto.
  - split; [|split; [exact N|exact C]]. destruct I; constructor; cbn [s_tree s_global s_next s_data s_idx] in *; auto.
    intros r id Hr. rewrite A by auto. auto.
  - destruct (scheduler_step_ok obj pos W sm lb cs cm loads os om omp bal net s I PP Fl) as (s1 & E1 & I1 & W1 & C1).
    assert (s1 = s') by congruence. subst s1. split; auto. split.
    + apply (so_next _ _ _ _ I1).
    + intros pt. rewrite C1. apply C.
Qed.
End Hist.
