(** Proofs about the scheduler: every step keeps the state well formed and loses no object. *)
From Verif Require Import Base Patch Patch_spec Patch_proofs PatchTree PatchTree_spec PatchTree_proofs
  Sched Sched_spec Sched_change_proofs.
Local Open Scope Z_scope.

(** * Trees that differ only in links and loads *)
Definition strip (n : node) : node :=
  Node (n_box n) (n_level n) (n_parent n) (n_childs n) (n_leaf n) (n_allleaf n) None 0.
Definition tsim (t t' : ptree) : Prop :=
  t_roots t = t_roots t' /\ t_leaf t = t_leaf t' /\ t_ponly t = t_ponly t' /\ t_next t = t_next t' /\
  forall x, option_map strip (t_map t x) = option_map strip (t_map t' x).

Lemma strip_inv n m : strip n = strip m ->
  n_box n = n_box m /\ n_level n = n_level m /\ n_parent n = n_parent m /\ n_childs n = n_childs m /\
  n_leaf n = n_leaf m /\ n_allleaf n = n_allleaf m.
Proof. unfold strip. intros H; injection H; auto 10. Qed.
Lemma tsim_sym t t' : tsim t t' -> tsim t' t.
Proof. intros (A & B & C & D & E). split; [|split; [|split; [|split]]]; auto. Qed.
Lemma tsim_refl t : tsim t t.
Proof. split; [|split; [|split; [|split]]]; auto. Qed.
Lemma tsim_trans t1 t2 t3 : tsim t1 t2 -> tsim t2 t3 -> tsim t1 t3.
Proof.
  intros (A & B & C & D & E) (A' & B' & C' & D' & E').
  split; [|split; [|split; [|split]]]; try congruence; intros; now rewrite E.
Qed.
Lemma tsim_get t t' x n : tsim t t' -> t_map t x = Some n -> exists m, t_map t' x = Some m /\ strip n = strip m.
Proof.
  intros (_ & _ & _ & _ & E) H. specialize (E x). rewrite H in E. cbn [option_map] in E.
  destruct (t_map t' x) as [m|]; [|discriminate]. exists m. split; [auto|]. exact (f_equal (fun o => match o with Some a => a | None => strip n end) E).
Qed.
Lemma tsim_put t x n n' : t_map t x = Some n -> strip n = strip n' -> tsim t (tput x n' t).
Proof.
  intros H1 H2. split; [|split; [|split; [|split]]]; auto. intros y. cbn. unfold map_set.
  destruct (Z.eqb_spec y x) as [->|]; auto. rewrite H1. cbn. now rewrite H2.
Qed.
Lemma tsim_leaf t t' x : tsim t t' -> is_leaf_of t x -> is_leaf_of t' x.
Proof.
  intros S (n & Hn & Hl). destruct (tsim_get _ _ _ _ S Hn) as (m & Hm & E). apply strip_inv in E.
  exists m. split; auto. destruct E as (_ & _ & _ & _ & E & _). congruence.
Qed.
Lemma tsim_only t t' x : tsim t t' -> only_leaf_children t x -> only_leaf_children t' x.
Proof.
  intros S (n & Hn & Hl & Hc). destruct (tsim_get _ _ _ _ S Hn) as (m & Hm & E). apply strip_inv in E.
  destruct E as (_ & _ & _ & E1 & E2 & _).
  exists m. split; auto. split; [congruence|]. intros c Hcc. rewrite <- E1 in Hcc. eapply tsim_leaf; eauto.
Qed.

Lemma tree_ok_sim t t' : tsim t t' -> tree_ok t -> tree_ok t'.
Proof.
  intros S I. pose proof (tsim_sym _ _ S) as S'. pose proof S as (A & B & C & D & _).
  constructor.
  - rewrite <- D. apply I.
  - intros x n H. destruct (tsim_get _ _ _ _ S' H) as (m & Hm & _). rewrite <- D. eapply ok_ids; eauto.
  - intros x n H. destruct (tsim_get _ _ _ _ S' H) as (m & Hm & E). apply strip_inv in E.
    destruct E as (_ & _ & _ & E & _). rewrite E. eapply ok_childs_len; eauto.
  - intros x n H Hl. destruct (tsim_get _ _ _ _ S' H) as (m & Hm & E). apply strip_inv in E.
    destruct E as (E1 & E2 & E3 & E4 & E5 & E6). rewrite E5 in Hl. rewrite E1, E2, E4.
    destruct (ok_children _ I x m Hm Hl) as (N & K). split; auto. intros k c Hk.
    destruct (K k c Hk) as (q & Hq & F1 & F2 & F3). destruct (tsim_get _ _ _ _ S Hq) as (q' & Hq' & G). apply strip_inv in G.
    destruct G as (G1 & G2 & G3 & G4 & G5 & G6). exists q'. rewrite <- G1, <- G2, <- G3. auto.
  - intros x n H Hp. destruct (tsim_get _ _ _ _ S' H) as (m & Hm & E). apply strip_inv in E.
    destruct E as (E1 & E2 & E3 & E4 & E5 & E6). rewrite E3 in *.
    destruct (ok_parent _ I x m Hm Hp) as (F1 & q & F2 & F3 & F4). split; auto.
    destruct (tsim_get _ _ _ _ S F2) as (q' & Hq' & G). apply strip_inv in G.
    destruct G as (G1 & G2 & G3 & G4 & G5 & G6). exists q'. split; auto. split; congruence.
  - intros x. rewrite <- A. rewrite (ok_roots _ I). split; intros (n & H1 & H2).
    + destruct (tsim_get _ _ _ _ S H1) as (m & Hm & E). apply strip_inv in E. exists m. split; auto.
      destruct E as (_ & _ & E & _). congruence.
    + destruct (tsim_get _ _ _ _ S' H1) as (m & Hm & E). apply strip_inv in E. exists m. split; auto.
      destruct E as (_ & _ & E & _). congruence.
  - intros x. rewrite <- B. rewrite (ok_leaf _ I). split; apply tsim_leaf; auto.
  - intros x. rewrite <- C. rewrite (ok_ponly _ I). split; apply tsim_only; auto.
  - intros x n H. destruct (tsim_get _ _ _ _ S' H) as (m & Hm & E). apply strip_inv in E.
    destruct E as (_ & _ & _ & _ & _ & E). rewrite E, <- C. eapply ok_flag; eauto.
  - rewrite <- A, <- B, <- C. apply I.
  - intros x n H Hl. destruct (tsim_get _ _ _ _ S' H) as (m & Hm & E). apply strip_inv in E.
    destruct E as (E1 & _ & _ & _ & E2 & _). rewrite E1. eapply ok_splittable; eauto.
  - intros x n H. destruct (tsim_get _ _ _ _ S' H) as (m & Hm & E). apply strip_inv in E.
    destruct E as (E1 & _). rewrite E1. eapply ok_wf; eauto.
  - intros x n H Hl. destruct (tsim_get _ _ _ _ S' H) as (m & Hm & E). apply strip_inv in E.
    destruct E as (E1 & E2 & E3 & E4 & E5 & E6). rewrite E4. eapply ok_leaf_childs; eauto; congruence.
  - intros x n H Hp. destruct (tsim_get _ _ _ _ S' H) as (m & Hm & E). apply strip_inv in E.
    destruct E as (E1 & E2 & E3 & E4 & E5 & E6). rewrite E2. eapply ok_root_level; eauto; congruence.
Qed.

Lemma partition_sim t t' : tsim t t' -> leaves_partition_roots t -> leaves_partition_roots t'.
Proof.
  intros S (P1 & P2). pose proof (tsim_sym _ _ S) as S'. pose proof S as (A & B & C & D & _).
  assert (G : forall a b x n (Q : pcoord -> Prop), tsim a b -> t_map a x = Some n -> Q (n_box n) ->
             exists m, t_map b x = Some m /\ Q (n_box m)).
  { intros a b x n Q Sx Hx HQ. destruct (tsim_get _ _ _ _ Sx Hx) as (m & Hm & E). apply strip_inv in E.
    exists m. split; auto. destruct E as (E & _). congruence. }
  split.
  - intros p. rewrite <- A, <- B. split.
    + intros (r & n & H1 & H2 & H3). destruct (G t' t r n (in_box p) S' H2 H3) as (m & Hm & Hp).
      destruct (proj1 (P1 p)) as (l & k & L1 & L2 & L3); eauto.
      destruct (G t t' l k (in_box p) S L2 L3) as (k' & ? & ?). eauto.
    + intros (r & n & H1 & H2 & H3). destruct (G t' t r n (in_box p) S' H2 H3) as (m & Hm & Hp).
      destruct (proj2 (P1 p)) as (l & k & L1 & L2 & L3); eauto.
      destruct (G t t' l k (in_box p) S L2 L3) as (k' & ? & ?). eauto.
  - intros a b na nb Ha Hb Hab Hna Hnb. rewrite <- B in Ha, Hb.
    destruct (tsim_get _ _ _ _ S' Hna) as (ma & Hma & Ea). destruct (tsim_get _ _ _ _ S' Hnb) as (mb & Hmb & Eb).
    apply strip_inv in Ea, Eb. destruct Ea as (-> & _), Eb as (-> & _). exact (P2 a b ma mb Ha Hb Hab Hma Hmb).
Qed.

(** * Generic list lemmas *)
Lemma flat_map_filter {A B} (f : A -> list B) (p : A -> bool) l :
  flat_map f (filter p l) = flat_map (fun a => if p a then f a else []) l.
Proof. induction l as [|a l IH]; simpl; auto. destruct (p a); simpl; now rewrite IH. Qed.
Lemma flat_map_ext_in {A B} (f g : A -> list B) l : (forall a, In a l -> f a = g a) -> flat_map f l = flat_map g l.
Proof. induction l as [|a l IH]; intros H; simpl; auto. rewrite H by (left; auto). rewrite IH; auto. intros; apply H; right; auto. Qed.
Lemma flat_map_nil {A B} (f : A -> list B) l : (forall a, In a l -> f a = []) -> flat_map f l = [].
Proof. induction l as [|a l IH]; intros H; simpl; auto. rewrite H by (left; auto). apply IH. intros; apply H; right; auto. Qed.
Lemma flat_map_seq {A B} (f : A -> list B) l :
  flat_map f l = flat_map (fun i => match nth_error l i with Some a => f a | None => [] end) (seq 0 (length l)).
Proof.
  induction l as [|a l IH]; simpl; auto. f_equal. rewrite IH at 1. rewrite <- seq_shift.
  rewrite flat_map_concat_map, flat_map_concat_map, map_map. reflexivity.
Qed.
Lemma NoDup_map_inj {A B} (f : A -> B) l a b : NoDup (map f l) -> In a l -> In b l -> f a = f b -> a = b.
Proof.
  induction l as [|c l IH]; intros N Ha Hb E; [contradiction|]. inversion N as [|? ? N1 N2]; subst.
  destruct Ha as [->|Ha], Hb as [->|Hb]; auto.
  - exfalso. apply N1. rewrite E. now apply in_map.
  - exfalso. apply N1. rewrite <- E. now apply in_map.
Qed.
Lemma NoDup_nth_inj {A B} (f : A -> B) l i j a b : NoDup (map f l) ->
  nth_error l i = Some a -> nth_error l j = Some b -> f a = f b -> i = j.
Proof.
  intros N Ha Hb E. eapply (proj1 (NoDup_nth_error (map f l)) N).
  - rewrite map_length. apply nth_error_Some. congruence.
  - rewrite !nth_error_map, Ha, Hb. cbn. congruence.
Qed.
Lemma NoDup_app_i {A} (l r : list A) : NoDup l -> NoDup r -> (forall x, In x l -> In x r -> False) -> NoDup (l ++ r).
Proof.
  induction l as [|a l IH]; intros N1 N2 H; simpl; auto. inversion N1; subst. constructor.
  - rewrite in_app_iff. intros [F|F]; [contradiction|]. apply (H a); auto. left; auto.
  - apply IH; auto. intros x Hx. apply H. right; auto.
Qed.
Lemma NoDup_perm_seq (l : list nat) n : NoDup l -> (forall i, In i l -> (i < n)%nat) ->
  exists r, Permutation (seq 0 n) (l ++ r) /\ NoDup r /\ forall i, In i r <-> (i < n)%nat /\ ~ In i l.
Proof.
  intros N H. set (r := filter (fun i => negb (existsb (Nat.eqb i) l)) (seq 0 n)).
  assert (R : forall i, In i r <-> (i < n)%nat /\ ~ In i l).
  { intros i. unfold r. rewrite filter_In, in_seq, negb_true_iff.
    split.
    - intros (A & B). split; [lia|]. intros F. assert (X : existsb (Nat.eqb i) l = true).
      { apply existsb_exists. exists i. split; auto. apply Nat.eqb_refl. } congruence.
    - intros (A & B). split; [lia|]. destruct (existsb (Nat.eqb i) l) eqn:E; auto.
      apply existsb_exists in E. destruct E as (j & Hj & Ej). apply Nat.eqb_eq in Ej. subst; contradiction. }
  assert (NR : NoDup r) by (apply NoDup_filter, seq_NoDup).
  exists r. split; [|split]; auto. apply NoDup_Permutation; [apply seq_NoDup| |].
  - apply NoDup_app_i; auto. intros i Hi F. apply R in F. tauto.
  - intros i. rewrite in_seq, in_app_iff, R. split.
    + intros Hi. destruct (in_dec Nat.eq_dec i l); auto. right; split; auto; lia.
    + intros [F|F]; [specialize (H i F); lia|lia].
Qed.

Lemma agets_ok {A} (l : list A) is : (forall i, In i is -> (i < length l)%nat) ->
  exists r, agets l is = Ok r /\ Forall2 (fun i a => nth_error l i = Some a) is r.
Proof.
  induction is as [|i is IH]; intros H; cbn [agets]; [eauto|].
  destruct (nth_error l i) as [a|] eqn:E; [|apply nth_error_None in E; specialize (H i (or_introl eq_refl)); lia].
  destruct IH as (r & Er & F); [intros; apply H; right; auto|].
  unfold aget. rewrite E. cbn [rbind]. rewrite Er. cbn [rbind]. eauto.
Qed.
Lemma agets_inv {A} (l : list A) is r : agets l is = Ok r -> Forall2 (fun i a => nth_error l i = Some a) is r.
Proof.
  revert r; induction is as [|i is IH]; intros r; cbn [agets].
  - intros H; injection H as <-. constructor.
  - unfold aget. destruct (nth_error l i) as [a|] eqn:E; cbn [rbind]; [|discriminate].
    destruct (agets l is) as [r'| |]; cbn [rbind]; try discriminate. intros H; injection H as <-. constructor; auto.
Qed.

Section Proofs.
Variable obj : Type.
Variable pos : obj -> v3.
Variable W : nat.
Notation sched := (sched obj).
Notation sched_ok := (sched_ok obj pos W).
Notation world := (world_objects obj W).
Notation validb := (validb W).
Notation valid := (valid_patch W).

Lemma validb_spec p : validb p = true <-> valid p.
Proof. unfold validb, valid_patch. lia. Qed.

Lemma in_boxb_spec p b : in_boxb p b = true <-> in_box p b.
Proof. unfold in_boxb, in_box. lia. Qed.

(** what index i contributes to the world *)
Definition wd (g : list patch) (d : ddata obj) (i : nat) : list obj :=
  match nth_error g i with
  | Some p => if validb p then patch_objs obj d p else []
  | None => []
  end.
Lemma world_wd s : world s = flat_map (wd (s_global _ s) (s_data _ s)) (seq 0 (length (s_global _ s))).
Proof. unfold world_objects. rewrite flat_map_filter. rewrite flat_map_seq. reflexivity. Qed.

(** * Splitting the objects of a patch *)
Lemma split_objs (bs : list pcoord) (l : list obj) :
  (forall i j a c, nth_error bs i = Some a -> nth_error bs j = Some c -> i <> j -> disjoint a c) ->
  (forall o, In o l -> exists b, In b bs /\ in_box (pos o) b) ->
  Permutation (concat (map (fun b => filter (fun o => in_boxb (pos o) b) l) bs)) l.
Proof.
  intros Hd. induction l as [|o l IH]; intros Hc.
  - rewrite (proj2 (concat_nil_Forall _)); auto. apply Forall_forall. intros x Hx. apply in_map_iff in Hx.
    destruct Hx as (b & <- & _). reflexivity.
  - destruct (Hc o (or_introl eq_refl)) as (b & Hb & Hin).
    destruct (in_split _ _ Hb) as (b1 & b2 & E).
    assert (O : forall c, In c (b1 ++ b2) -> in_boxb (pos o) c = false).
    { intros c Hcin. destruct (in_boxb (pos o) c) eqn:Ec; auto. apply in_boxb_spec in Ec. exfalso.
      apply in_app_or in Hcin. destruct Hcin as [H|H]; apply In_nth_error in H; destruct H as (k & Hk).
      - pose proof (nth_error_lt _ _ _ Hk). apply (Hd k (length b1) c b) with (p := pos o); auto; [| |lia].
        + rewrite E, nth_error_app1; auto.
        + rewrite E, nth_error_app2 by lia. now rewrite Nat.sub_diag.
      - apply (Hd (length b1 + S k)%nat (length b1) c b) with (p := pos o); auto; [| |lia].
        + rewrite E, nth_error_app2 by lia. replace (length b1 + S k - length b1)%nat with (S k) by lia. exact Hk.
        + rewrite E, nth_error_app2 by lia. now rewrite Nat.sub_diag. }
    specialize (IH (fun o' H => Hc o' (or_intror H))).
    assert (Q : forall bs', (forall c, In c bs' -> in_boxb (pos o) c = false) ->
      map (fun b => filter (fun o => in_boxb (pos o) b) (o :: l)) bs' = map (fun b => filter (fun o => in_boxb (pos o) b) l) bs').
    { intros bs' H. apply map_ext_in. intros c Hcc. cbn [filter]. now rewrite (H c Hcc). }
    rewrite E in IH |- *. rewrite map_app, concat_app in IH |- *. cbn [map concat] in IH |- *.
    rewrite (Q b1), (Q b2) by (intros c Hcc; apply O, in_or_app; auto).
    cbn [filter]. apply in_boxb_spec in Hin. rewrite Hin. cbn [app].
    rewrite <- Permutation_middle. now constructor.
Qed.

(** * Data maps *)
Lemma d_adds (ps : list (patch * list obj)) : forall d : dmap obj,
  NoDup (map (fun x => p_id (fst x)) ps) -> (forall x, In x ps -> d (p_id (fst x)) = None) ->
  exists d', rfold (fun '(p, part) d => d_add obj (p_id p) part d) ps d = Ok d' /\
    (forall p part, In (p, part) ps -> d' (p_id p) = Some part) /\
    (forall k, ~ In k (map (fun x => p_id (fst x)) ps) -> d' k = d k).
Proof.
  induction ps as [|[p part] ps IH]; intros d N H; cbn [rfold].
  - exists d. split; auto. split; auto. contradiction.
  - cbn [map fst] in N. inversion N as [|? ? N1 N2]; subst. unfold d_add at 1.
    pose proof (H (p, part) (or_introl eq_refl)) as H0. cbn [fst] in H0. rewrite H0. cbn [rbind].
    destruct (IH (d_set obj d (p_id p) (Some part)) N2) as (d' & E & A & B).
    { intros x Hx. unfold d_set. destruct (Z.eqb_spec (p_id (fst x)) (p_id p)) as [F|F].
      - exfalso. apply N1. rewrite <- F. apply in_map_iff. eauto.
      - apply H. right; auto. }
    exists d'. split; auto. split.
    + intros q part' [F|F]; eauto. injection F as <- <-. rewrite B by auto. unfold d_set. now rewrite Z.eqb_refl.
    + intros k Hk. cbn [map fst In] in Hk. rewrite B by tauto. unfold d_set.
      destruct (Z.eqb_spec k (p_id p)); auto. subst; tauto.
Qed.

Lemma ranks_fold (f : dmap obj -> res (dmap obj)) : forall rs (d : ddata obj), NoDup rs ->
  (forall r, In r rs -> exists m, f (d r) = Ok m) ->
  exists d', rfold (fun r d => m <- f (d r) ;; Ok (dd_set obj d r m)) rs d = Ok d' /\
    (forall r, In r rs -> f (d r) = Ok (d' r)) /\ (forall r, ~ In r rs -> d' r = d r).
Proof.
  induction rs as [|r rs IH]; intros d N H; cbn [rfold].
  - exists d. split; auto. split; auto. contradiction.
  - inversion N as [|? ? N1 N2]; subst. destruct (H r (or_introl eq_refl)) as (m & Em). rewrite Em. cbn [rbind].
    assert (K : forall r', r' <> r -> dd_set obj d r m r' = d r').
    { intros r' Hr. unfold dd_set. destruct (Z.eqb_spec r' r); congruence. }
    destruct (IH (dd_set obj d r m) N2) as (d' & E & A & B).
    { intros r' Hr'. rewrite K by (intros ->; contradiction). apply H; right; auto. }
    exists d'. split; auto. split.
    + intros r' [<-|Hr'].
      * rewrite B by auto. unfold dd_set. now rewrite Z.eqb_refl.
      * rewrite <- A by auto. rewrite K by (intros ->; contradiction). reflexivity.
    + intros r' Hr'. rewrite B by (intros F; apply Hr'; right; auto). apply K. intros ->; apply Hr'; left; auto.
Qed.
Lemma ranks_In r : In r (ranks W) <-> 0 <= r < Z.of_nat W.
Proof.
  unfold ranks. rewrite in_map_iff. split.
  - intros (k & <- & H). apply in_seq in H. lia.
  - intros H. exists (Z.to_nat r). split; [lia|]. apply in_seq; lia.
Qed.
Lemma ranks_NoDup n : NoDup (ranks n).
Proof. unfold ranks. apply FinFun.Injective_map_NoDup; [intros a b H; lia|apply seq_NoDup]. Qed.

Lemma idx_perm {A} (g g' : list A) is vs vs' : NoDup is ->
  Forall2 (fun i a => nth_error g i = Some a) is vs -> length g' = length g ->
  Forall2 (fun i a => nth_error g' i = Some a) is vs' ->
  (forall i, ~ In i is -> nth_error g' i = nth_error g i) ->
  exists others, Permutation g (vs ++ others) /\ Permutation g' (vs' ++ others).
Proof.
  intros N F1 HL F2 HO.
  assert (Hlt : forall i, In i is -> (i < length g)%nat).
  { intros i Hi. clear -F1 Hi. induction F1; [contradiction|]. destruct Hi as [<-|Hi]; auto. eapply nth_error_lt; eauto. }
  destruct (NoDup_perm_seq is (length g) N Hlt) as (r & P & _ & R).
  assert (G : forall h vs0 : list A, length h = length g -> Forall2 (fun i a => nth_error h i = Some a) is vs0 ->
    Permutation h (vs0 ++ flat_map (fun i => match nth_error h i with Some a => [a] | None => [] end) r)).
  { intros h vs0 Hh F. replace h with (flat_map (fun a => [a]) h) at 1.
    2: { clear. induction h; simpl; congruence. }
    rewrite flat_map_seq. rewrite Hh. eapply Permutation_trans; [apply Permutation_flat_map; exact P|]. rewrite flat_map_app. apply Permutation_app_tail.
    replace vs0 with (flat_map (fun i => match nth_error h i with Some a => [a] | None => [] end) is); auto.
    clear -F. induction F; cbn [flat_map]; auto. rewrite H. cbn [app]. now f_equal. }
  eexists. split; [apply G; auto|]. rewrite (G g' vs' HL F2). apply Permutation_app_head.
  erewrite flat_map_ext_in; [apply Permutation_refl|]. cbn. intros i Hi. apply R in Hi. rewrite HO by tauto. auto.
Qed.

Lemma number_from_nth : forall qs next, 0 <= next -> next + Z.of_nat (length qs) <= u64_max ->
  length (number_from next qs) = length qs /\
  next_after next (length qs) = next + Z.of_nat (length qs) /\
  forall k q, nth_error (number_from next qs) k = Some q ->
    exists q0, nth_error qs k = Some q0 /\ q = set_id (next + Z.of_nat k) q0.
Proof.
  induction qs as [|q qs IH]; intros next H0 H.
  - split; auto. split; [cbn; lia|]. intros [|k] p F; discriminate.
  - cbn [number_from length next_after] in *. assert (Ew : w64 (next + 1) = next + 1) by (apply w64_small; unfold u64_max in H; clear IH; lia). rewrite Ew.
    destruct (IH (next + 1)) as (A & B & C); [lia|lia|]. split; [now rewrite A|]. split; [rewrite B; lia|].
    intros [|k] p F; cbn [nth_error] in F.
    + injection F as <-. exists q. split; auto. f_equal. lia.
    + destruct (C k p F) as (q0 & Q1 & Q2). exists q0. split; auto. rewrite Q2. f_equal. lia.
Qed.

Lemma link_fold : forall (cs : list Z) (ks : list patch) t, length cs = length ks -> NoDup cs ->
  (forall c, In c cs -> t_map t c <> None) ->
  exists t', rfold (fun '(c, p) t => tmod c (n_set_linked (Some (p_id p))) t) (combine cs ks) t = Ok t' /\
    tsim t t' /\ (forall y, ~ In y cs -> t_map t' y = t_map t y) /\
    (forall k c p m, nth_error cs k = Some c -> nth_error ks k = Some p -> t_map t c = Some m ->
       t_map t' c = Some (n_set_linked (Some (p_id p)) m)).
Proof.
  induction cs as [|c cs IH]; intros [|p ks] t HL N H; cbn [length] in HL; try discriminate.
  - exists t. split; auto. split; [apply tsim_refl|]. split; auto. intros [|k] c p m F; discriminate.
  - cbn [combine rfold]. inversion N as [|? ? N1 N2]; subst. unfold tmod at 1, tget.
    destruct (t_map t c) as [m|] eqn:Em; [|exfalso; now apply (H c (or_introl eq_refl))].
    cbn [rbind]. set (t1 := tput c (n_set_linked (Some (p_id p)) m) t).
    assert (T1 : tsim t t1) by (eapply tsim_put; eauto).
    assert (M1 : forall y, t_map t1 y = if y =? c then Some (n_set_linked (Some (p_id p)) m) else t_map t y) by reflexivity.
    destruct (IH ks t1) as (t' & E & S & A & B); auto.
    { intros c' Hc'. rewrite M1. destruct (Z.eqb_spec c' c); [discriminate|]. apply H; right; auto. }
    exists t'. split; auto. split; [eapply tsim_trans; eauto|]. split.
    + intros y Hy. cbn [In] in Hy. rewrite A by tauto. rewrite M1. destruct (Z.eqb_spec y c); auto. subst; tauto.
    + intros [|k] c' p' m' Hc Hk Hm; cbn [nth_error] in Hc, Hk.
      * injection Hc as <-. injection Hk as <-. rewrite Em in Hm. injection Hm as <-.
        rewrite A by auto. rewrite M1, Z.eqb_refl. reflexivity.
      * eapply B; eauto. rewrite M1. destruct (Z.eqb_spec c' c) as [->|]; auto.
        exfalso. apply N1. eapply nth_error_In; eauto.
Qed.

Lemma world_perm (s : sched) g2 : Permutation (s_global _ s) g2 ->
  Permutation (world s) (flat_map (fun p => if validb p then patch_objs obj (s_data _ s) p else []) g2).
Proof. intros P. unfold world_objects. rewrite flat_map_filter. now apply Permutation_flat_map. Qed.

Definition idx_sound (s : sched) : Prop :=
  forall id i, s_idx _ s id = Some i -> exists p, nth_error (s_global _ s) i = Some p /\ p_id p = id.

Lemma Forall2_nth {A B} (R : A -> B -> Prop) l1 l2 : Forall2 R l1 l2 ->
  forall k a b, nth_error l1 k = Some a -> nth_error l2 k = Some b -> R a b.
Proof.
  induction 1; intros [|k] a b Ha Hb; cbn in *; try discriminate; eauto.
  injection Ha as <-. injection Hb as <-. auto.
Qed.

Lemma patch_split_nth p k q : nth_error (patch_split p) k = Some q ->
  p_id q = p_id p /\ p_pack q = p_pack p /\ p_owner q = p_owner p /\ nth_error (get_split (p_box p)) k = Some (p_box q).
Proof.
  unfold patch_split. rewrite nth_error_map. destruct (nth_error (get_split (p_box p)) k) as [b|]; [|discriminate].
  cbn. intros H; injection H as <-. auto.
Qed.

(** The patch list part of a split. *)
Lemma split_patch_ok (s : sched) i0 p0 pid :
  sched_ok s -> nth_error (s_global _ s) i0 = Some p0 -> p_id p0 = pid -> s_idx _ s pid = Some i0 ->
  s_next _ s + 7 <= u64_max ->
  exists g' cs idxs others, split_patch (s_idx _ s) pid (s_global _ s) (s_next _ s) = Ok (g', s_next _ s + 7, idxs) /\
    agets g' idxs = Ok cs /\ length cs = 8%nat /\
    Permutation (s_global _ s) (p0 :: others) /\ Permutation g' (cs ++ others) /\
    (forall k q, nth_error cs k = Some q ->
       p_pack q = p_pack p0 /\ p_owner q = p_owner p0 /\ nth_error (get_split (p_box p0)) k = Some (p_box q) /\
       p_id q = if (k =? 0)%nat then pid else s_next _ s + Z.of_nat (k - 1)) /\
    (forall i p, nth_error (s_global _ s) i = Some p -> exists p', nth_error g' i = Some p' /\ p_id p' = p_id p).
Proof.
  intros I Hi0 Hpid Hidx Hnx.
  pose proof (nth_error_lt _ _ _ Hi0) as Hlt.
  pose proof (so_ids _ _ _ _ I p0 (nth_error_In _ _ Hi0)) as Hp0.
  unfold split_patch, idx_get. rewrite Hidx. cbn [rbind]. unfold aget at 1. rewrite Hi0. cbn [rbind].
  pose proof (length_patch_split p0) as L8.
  destruct (patch_split p0) as [|q0 qs] eqn:Eq; [discriminate|].
  rewrite aset_lt by auto. cbn [rbind]. cbn [length] in L8. assert (L7 : length qs = 7%nat) by lia.
  destruct (number_from_nth qs (s_next _ s)) as (N1 & N2 & N3); [lia|lia|].
  rewrite N2, L7. change (Z.of_nat 7) with 7.
  set (nf := number_from (s_next _ s) qs) in *.
  set (g1 := upd (s_global _ s) i0 q0).
  assert (Lg1 : length g1 = length (s_global _ s)) by apply length_upd.
  destruct (idx_perm (s_global _ s) g1 [i0] [p0] [q0]) as (others & P1 & P2).
  { repeat constructor; auto. }
  { constructor; auto. }
  { auto. }
  { constructor; auto. unfold g1. apply nth_error_upd_eq; auto. }
  { intros i Hi. unfold g1. apply nth_error_upd_neq. intros ->; apply Hi; left; auto. }
  exists (g1 ++ nf), (q0 :: nf), (i0 :: seq (length (s_global _ s)) 7), others.
  split; [reflexivity|]. split.
  { cbn [agets]. unfold aget at 1. rewrite nth_error_app1 by lia. unfold g1. rewrite nth_error_upd_eq by auto. cbn [rbind].
    fold g1. rewrite <- Lg1. rewrite <- L7, <- N1. clear. revert g1. generalize nf. clear nf.
    assert (G : forall (nf g1 : list patch), agets (g1 ++ nf) (seq (length g1) (length nf)) = Ok nf).
    { induction nf as [|a nf IH]; intros g1; [reflexivity|]. cbn [length seq agets].
      unfold aget. rewrite nth_error_app2 by lia. rewrite Nat.sub_diag. cbn [nth_error rbind].
      replace (g1 ++ a :: nf) with ((g1 ++ [a]) ++ nf) by (rewrite <- app_assoc; reflexivity).
      replace (S (length g1)) with (length (g1 ++ [a])) by (rewrite app_length; cbn; lia).
      rewrite IH. reflexivity. }
    intros nf g1. rewrite G. reflexivity. }
  split; [cbn [length]; lia|]. split; [exact P1|]. split.
  { rewrite P2. cbn [app]. constructor. apply Permutation_app_comm. }
  split.
  - intros [|k] q Hk; cbn [nth_error] in Hk.
    + injection Hk as <-. destruct (patch_split_nth p0 0 q0) as (A & B & C & D); [rewrite Eq; reflexivity|].
      cbn [Nat.eqb]. rewrite A, Hpid. auto.
    + destruct (N3 k q Hk) as (q1 & Q1 & ->).
      destruct (patch_split_nth p0 (S k) q1) as (A & B & C & D); [rewrite Eq; exact Q1|].
      cbn [set_id p_pack p_owner p_box p_id Nat.eqb]. replace (S k - 1)%nat with k by lia. auto.
  - intros i p Hp. destruct (Nat.eq_dec i i0) as [->|Hne].
    + exists q0. rewrite nth_error_app1 by lia. unfold g1. rewrite nth_error_upd_eq by auto. split; auto.
      rewrite Hi0 in Hp; injection Hp as <-.
      destruct (patch_split_nth p0 0 q0) as (A & _); [rewrite Eq; reflexivity|]. auto.
    + exists p. pose proof (nth_error_lt _ _ _ Hp). rewrite nth_error_app1 by lia. unfold g1. rewrite nth_error_upd_neq by auto. auto.
Qed.

(** The data part of a split. *)
Lemma split_data_ok (s : sched) p0 others (cs : list patch) :
  sched_ok s -> Permutation (s_global _ s) (p0 :: others) -> valid p0 -> splittable (p_box p0) ->
  length cs = 8%nat -> NoDup (map p_id cs) ->
  (forall k q, nth_error cs k = Some q -> nth_error (get_split (p_box p0)) k = Some (p_box q)) ->
  (forall q, In q cs -> p_owner q = p_owner p0) ->
  (forall q, In q cs -> p_id q = p_id p0 \/ s_next _ s <= p_id q) ->
  exists d', rfold (fun r d => m <- split_patchdata obj pos (p_id p0) cs (d r) ;; Ok (dd_set obj d r m)) (ranks W) (s_data _ s) = Ok d' /\
    (forall q, In q cs -> d' (p_owner p0) (p_id q) = Some (filter (fun o => in_boxb (pos o) (p_box q)) (patch_objs obj (s_data _ s) p0))) /\
    (forall id, id <> p_id p0 -> ~ In id (map p_id cs) -> d' (p_owner p0) id = s_data _ s (p_owner p0) id) /\
    (forall r, r <> p_owner p0 -> d' r = s_data _ s r) /\
    Permutation (concat (map (fun q => filter (fun o => in_boxb (pos o) (p_box q)) (patch_objs obj (s_data _ s) p0)) cs))
                (patch_objs obj (s_data _ s) p0).
Proof.
  intros I P V Sp L8 N Hbox How Hid.
  assert (Hin0 : In p0 (s_global _ s)) by (rewrite P; left; auto).
  assert (Hboxes : map p_box cs = get_split (p_box p0)).
  { apply list_eq_nth_error. intros k. rewrite nth_error_map. destruct (nth_error cs k) as [q|] eqn:E; cbn.
    - symmetry; auto.
    - symmetry. apply nth_error_None. rewrite length_get_split. apply nth_error_None in E. lia. }
  destruct (get_split_partition _ Sp) as (Pa & Pb).
  set (l := patch_objs obj (s_data _ s) p0) in *.
  assert (Hl : s_data _ s (p_owner p0) (p_id p0) = Some l).
  { unfold l, patch_objs. destruct (s_data _ s (p_owner p0) (p_id p0)) eqn:E; auto.
    exfalso. apply (proj2 (so_data _ _ _ _ I (p_owner p0) (p_id p0) V)); eauto. }
  assert (Perm : Permutation (concat (map (fun q => filter (fun o => in_boxb (pos o) (p_box q)) l) cs)) l).
  { rewrite <- (map_map p_box (fun b => filter (fun o => in_boxb (pos o) b) l)). rewrite Hboxes.
    apply split_objs; auto. intros o Ho. apply Pa. eapply so_in; eauto. }
  assert (Own : exists m, split_patchdata obj pos (p_id p0) cs (s_data _ s (p_owner p0)) = Ok m /\
    (forall q, In q cs -> m (p_id q) = Some (filter (fun o => in_boxb (pos o) (p_box q)) l)) /\
    (forall id, id <> p_id p0 -> ~ In id (map p_id cs) -> m id = s_data _ s (p_owner p0) id)).
  { unfold split_patchdata. rewrite Hl. cbn zeta. rewrite Hboxes, merge_split by auto. cbn [rbind].
    rewrite (Permutation_length Perm). rewrite Nat.eqb_refl. cbn [negb andb].
    set (parts := map (fun q => filter (fun o => in_boxb (pos o) (p_box q)) l) cs).
    assert (Ek : map (fun x : patch * list obj => p_id (fst x)) (combine cs parts) = map p_id cs).
    { rewrite <- (map_map fst p_id). f_equal. unfold parts. clear. induction cs; cbn; congruence. }
    assert (Hcomb : forall q, In q cs -> In (q, filter (fun o => in_boxb (pos o) (p_box q)) l) (combine cs parts)).
    { unfold parts. clear. induction cs as [|c cs IH]; intros q; [contradiction|]. cbn [combine map].
      intros [->|H]; [left; auto|right; auto]. }
    destruct (d_adds (combine cs parts) (d_set obj (s_data _ s (p_owner p0)) (p_id p0) None)) as (m & E & A & B).
    - rewrite Ek. exact N.
    - intros x Hx. assert (Hq : In (fst x) cs) by (destruct x as [a b]; apply in_combine_l in Hx; exact Hx).
      unfold d_set. destruct (Z.eqb_spec (p_id (fst x)) (p_id p0)); auto.
      destruct (Hid _ Hq) as [F|F]; [congruence|].
      destruct (s_data _ s (p_owner p0) (p_id (fst x))) eqn:Ed; auto. exfalso.
      destruct (proj1 (so_data _ _ _ _ I (p_owner p0) (p_id (fst x)) V)) as (p & Hp1 & _ & Hp3); [congruence|].
      pose proof (so_ids _ _ _ _ I p Hp1). lia.
    - exists m. split; auto. split.
      + intros q Hq. apply A, Hcomb, Hq.
      + intros id H1 H2. rewrite B by (rewrite Ek; auto). unfold d_set. destruct (Z.eqb_spec id (p_id p0)); congruence. }
  destruct Own as (m & Em & Om1 & Om2).
  assert (Oth : forall r, 0 <= r < Z.of_nat W -> r <> p_owner p0 -> s_data _ s r (p_id p0) = None).
  { intros r Hr Hne. destruct (s_data _ s r (p_id p0)) eqn:Ed; auto. exfalso.
    destruct (proj1 (so_data _ _ _ _ I r (p_id p0) Hr)) as (p & Hp1 & Hp2 & Hp3); [congruence|].
    assert (p = p0) by exact (NoDup_map_inj p_id _ p p0 (so_nodup _ _ _ _ I) Hp1 Hin0 Hp3). subst. congruence. }
  destruct (ranks_fold (split_patchdata obj pos (p_id p0) cs) (ranks W) (s_data _ s) (ranks_NoDup W)) as (d' & E & A & B).
  { intros r Hr. apply ranks_In in Hr. destruct (Z.eq_dec r (p_owner p0)) as [->|Hne]; eauto.
    unfold split_patchdata. rewrite (Oth r Hr Hne). eauto. }
  exists d'. split; auto.
  assert (Ed : d' (p_owner p0) = m).
  { specialize (A (p_owner p0) (proj2 (ranks_In _) V)). rewrite Em in A. congruence. }
  split; [intros q Hq; rewrite Ed; auto|]. split; [intros id H1 H2; rewrite Ed; auto|]. split; auto.
  intros r Hne. destruct (in_dec Z.eq_dec r (ranks W)) as [F|F].
  - specialize (A r F). unfold split_patchdata in A. rewrite (Oth r (proj1 (ranks_In r) F) Hne) in A. congruence.
  - auto.
Qed.

(** One split. *)
Lemma split_one_ok (s : sched) x n :
  sched_ok s -> t_map (s_tree _ s) x = Some n -> n_leaf n = true -> x < 2 ^ 32 ->
  t_next (s_tree _ s) + 8 <= u64_max -> s_next _ s + 7 <= u64_max -> splittable (n_box n) ->
  idx_sound s -> (exists pid i, n_linked n = Some pid /\ s_idx _ s pid = Some i) ->
  exists s', split_one obj pos W x s = Ok s' /\ sched_ok s' /\ Permutation (world s') (world s) /\
    idx_sound s' /\ s_idx _ s' = s_idx _ s /\
    t_next (s_tree _ s') = t_next (s_tree _ s) + 8 /\ s_next _ s' = s_next _ s + 7 /\
    (forall y m, t_map (s_tree _ s) y = Some m -> n_leaf m = true -> y <> x -> t_map (s_tree _ s') y = Some m) /\
    (forall y m, t_map (s_tree _ s) y = Some m -> y <> x -> y <> n_parent n -> t_map (s_tree _ s') y = Some m) /\
    (forall y, In y (t_ponly (s_tree _ s)) -> y <> n_parent n -> In y (t_ponly (s_tree _ s'))) /\
    ((forall p, In p (s_global _ s) -> p_pack p = u64_max /\ valid p) ->
     (forall p, In p (s_global _ s') -> p_pack p = u64_max /\ valid p)) /\
    (forall pt, covered obj W s' pt <-> covered obj W s pt).
Proof.
  intros I Hn Hleaf Hx Htn Hsn Hsp Hidx (pid & i0 & Hlink & Hi0).
  pose proof (so_tree _ _ _ _ I) as TI.
  assert (HxL : In x (t_leaf (s_tree _ s))) by (apply (ok_leaf _ TI); exists n; auto).
  destruct (so_leaf _ _ _ _ I x n Hn Hleaf) as (p0 & Hp0 & V0 & Hl0 & Hb0).
  assert (Epid : pid = p_id p0) by congruence. subst pid.
  destruct (Hidx _ _ Hi0) as (p0' & Hp0' & Eid).
  assert (p0' = p0) by exact (NoDup_map_inj p_id _ p0' p0 (so_nodup _ _ _ _ I) (nth_error_In _ _ Hp0') Hp0 Eid). subst p0'.
  destruct (split_node_spec _ x n TI HxL Hn) as (t1 & E1 & R1 & N1 & M1 & L1 & Po1 & _).
  { unfold u64_max in Htn; clear -Htn; lia. }
  assert (T1 : tree_ok t1) by (apply (split_node_ok (s_tree _ s) x t1 TI HxL Hx Htn); [intros m Hm; congruence|exact E1]).
  assert (Pt1 : leaves_partition_roots t1).
  { apply (split_partition (s_tree _ s) x t1 TI HxL Hx Htn); [intros m Hm; congruence|exact E1|apply (so_part _ _ _ _ I)]. }
  destruct (split_patch_ok s i0 p0 (p_id p0) I Hp0' eq_refl Hi0 Hsn) as (g' & cs & idxs & others & Esp & Eag & L8 & Pg & Pg' & Hcs & Hkeep).
  pose proof (so_ids _ _ _ _ I p0 Hp0) as Hid0.
  assert (Hx0 : 0 <= x < t_next (s_tree _ s)) by (eapply ok_ids; eauto).
  assert (HcsId : forall q, In q cs -> p_id q = p_id p0 \/ s_next _ s <= p_id q < s_next _ s + 7).
  { intros q Hq. apply In_nth_error in Hq. destruct Hq as (k & Hk). destruct (Hcs k q Hk) as (_ & _ & _ & E).
    pose proof (nth_error_lt _ _ _ Hk). destruct (k =? 0)%nat eqn:Ek; [left; auto|right; apply Nat.eqb_neq in Ek; lia]. }
  assert (Ncs : NoDup (map p_id cs)).
  { apply NoDup_nth_error. intros a b Ha Hab. rewrite map_length in Ha.
    rewrite !nth_error_map in Hab. destruct (nth_error cs a) as [qa|] eqn:Ea; [|apply nth_error_None in Ea; lia].
    destruct (nth_error cs b) as [qb|] eqn:Eb; [|discriminate]. cbn in Hab. injection Hab as Hab.
    destruct (Hcs a qa Ea) as (_ & _ & _ & Fa). destruct (Hcs b qb Eb) as (_ & _ & _ & Fb).
    rewrite Fa, Fb in Hab. clear -Hab Hid0. destruct (Nat.eqb_spec a 0), (Nat.eqb_spec b 0); lia. }
  assert (Hcsown : forall q, In q cs -> p_owner q = p_owner p0).
  { intros q Hq. apply In_nth_error in Hq. destruct Hq as (k & Hk). apply (Hcs k q Hk). }
  assert (Hcsbox : forall k q, nth_error cs k = Some q -> nth_error (get_split (p_box p0)) k = Some (p_box q)).
  { intros k q Hk. apply (Hcs k q Hk). }
  destruct (split_data_ok s p0 others cs) as (d' & Ed & D1 & D2 & D3 & Dp); auto.
  { rewrite Hb0; auto. }
  { intros q Hq. destruct (HcsId q Hq) as [F|F]; auto. right. lia. }
  (* ids of the other patches *)
  assert (NDall : NoDup (p_id p0 :: map p_id others)).
  { change (NoDup (map p_id (p0 :: others))). eapply Permutation_NoDup; [apply Permutation_map; exact Pg|apply (so_nodup _ _ _ _ I)]. }
  assert (Hoth : forall p, In p others -> In p (s_global _ s) /\ p_id p <> p_id p0 /\ ~ In (p_id p) (map p_id cs)).
  { intros p Hp. assert (In p (s_global _ s)) by (rewrite Pg; right; auto). split; auto.
    assert (p_id p <> p_id p0).
    { intros F. inversion NDall; subst. apply H2. rewrite <- F. now apply in_map. }
    split; auto. intros F. apply in_map_iff in F. destruct F as (q & Eq & Hq).
    pose proof (so_ids _ _ _ _ I p H). destruct (HcsId q Hq); lia. }
  assert (InG : forall p, In p (s_global _ s) -> p = p0 \/ In p others).
  { intros p Hp. rewrite Pg in Hp. destruct Hp; auto. }
  assert (InG' : forall p, In p g' <-> In p cs \/ In p others).
  { intros p. rewrite Pg'. apply in_app_iff. }
  (* the tree with its links *)
  set (nx := Node (n_box n) (n_level n) (n_parent n) (zseq (t_next (s_tree _ s)) 8) false true (n_linked n) (n_load n)) in *.
  assert (Mx : t_map t1 x = Some nx) by (rewrite M1, Z.eqb_refl; reflexivity).
  set (t2 := tput x (n_set_linked (Some u64_max) nx) t1).
  assert (S12 : tsim t1 t2) by (eapply tsim_put; eauto).
  assert (M2 : forall y, t_map t2 y = if y =? x then Some (n_set_linked (Some u64_max) nx) else t_map t1 y) by reflexivity.
  destruct (link_fold (zseq (t_next (s_tree _ s)) 8) cs t2) as (t3 & E3 & S23 & K1 & K2).
  { rewrite length_zseq; auto. }
  { apply zseq_NoDup. }
  { intros c Hc. apply zseq_In in Hc. rewrite M2. destruct (Z.eqb_spec c x); [discriminate|]. rewrite M1.
    destruct (Z.eqb_spec c x); [discriminate|].
    replace ((t_next (s_tree _ s) <=? c) && (c <? t_next (s_tree _ s) + 8)) with true by (clear -Hc; lia).
    destruct (split_child_some n x (Z.to_nat (c - t_next (s_tree _ s)))) as (b & _ & B2); [clear -Hc; lia|]. rewrite B2. discriminate. }
  assert (S13 : tsim t1 t3) by (eapply tsim_trans; eauto).
  (* description of the new tree *)
  assert (Kid : forall k q, nth_error cs k = Some q -> exists m, t_map t3 (t_next (s_tree _ s) + Z.of_nat k) = Some m /\
              n_leaf m = true /\ n_linked m = Some (p_id q) /\ n_box m = p_box q).
  { intros k q Hk. pose proof (nth_error_lt _ _ _ Hk) as Hk8. rewrite L8 in Hk8.
    destruct (split_child_some n x k Hk8) as (b & B1 & B2).
    eexists. split.
    - eapply K2; [apply zseq_nth; exact Hk8|exact Hk|]. rewrite M2.
      replace (t_next (s_tree _ s) + Z.of_nat k =? x) with false by (clear -Hx0; lia). rewrite M1.
      replace (t_next (s_tree _ s) + Z.of_nat k =? x) with false by (clear -Hx0; lia).
      replace ((t_next (s_tree _ s) <=? t_next (s_tree _ s) + Z.of_nat k) && (t_next (s_tree _ s) + Z.of_nat k <? t_next (s_tree _ s) + 8)) with true by (clear -Hk8; lia).
      replace (Z.to_nat (t_next (s_tree _ s) + Z.of_nat k - t_next (s_tree _ s))) with k by (clear; lia). exact B2.
    - cbn. split; auto. split; auto. specialize (Hcsbox k q Hk). rewrite Hb0 in Hcsbox. congruence. }
  assert (Old : forall y m, t_map (s_tree _ s) y = Some m -> y <> x -> y <> n_parent n -> t_map t3 y = Some m).
  { intros y m Hy Hyx Hyp. pose proof (ok_ids _ TI _ _ Hy) as Hyr. rewrite K1 by (rewrite zseq_In; clear -Hyr; lia).
    rewrite M2. destruct (Z.eqb_spec y x); [contradiction|]. rewrite M1. destruct (Z.eqb_spec y x); [contradiction|].
    replace ((t_next (s_tree _ s) <=? y) && (y <? t_next (s_tree _ s) + 8)) with false by (clear -Hyr; lia).
    destruct (Z.eqb_spec y (n_parent n)); [contradiction|]. cbn [andb]. exact Hy. }
  assert (OldLeaf : forall y m, t_map (s_tree _ s) y = Some m -> n_leaf m = true -> y <> x -> t_map t3 y = Some m).
  { intros y m Hy Hl Hyx. destruct (Z.eq_dec y (n_parent n)) as [->|Hyp]; [|apply Old; auto].
    destruct (Z.eq_dec (n_parent n) u64_max) as [Hu|Hu].
    - rewrite Hu in Hy. apply (ok_ids _ TI) in Hy. pose proof (ok_next _ TI). exfalso; clear -Hy H; lia.
    - destruct (ok_parent _ TI x n Hn Hu) as (_ & q & Q1 & Q2 & _). congruence. }
  assert (Cases : forall y m, t_map t3 y = Some m ->
     (exists k q, y = t_next (s_tree _ s) + Z.of_nat k /\ nth_error cs k = Some q /\ n_leaf m = true /\
                  n_linked m = Some (p_id q) /\ n_box m = p_box q) \/
     (y = x /\ n_leaf m = false /\ n_linked m = Some u64_max) \/
     (y <> x /\ exists m0, t_map (s_tree _ s) y = Some m0 /\ n_leaf m0 = n_leaf m /\ n_linked m0 = n_linked m /\ n_box m0 = n_box m)).
  { intros y m Hy. destruct (Z.le_gt_cases (t_next (s_tree _ s)) y) as [Hge|Hlt].
    - left. assert (y < t_next (s_tree _ s) + 8).
      { assert (Hm3 : tree_ok t3) by (eapply tree_ok_sim; eauto). apply (ok_ids _ Hm3) in Hy.
        destruct S13 as (_ & _ & _ & F & _). clear -Hy F N1. lia. }
      destruct (nth_error cs (Z.to_nat (y - t_next (s_tree _ s)))) as [q|] eqn:Eq.
      2: { apply nth_error_None in Eq. exfalso; clear -Eq L8 H Hge; lia. }
      exists (Z.to_nat (y - t_next (s_tree _ s))), q. split; [clear -Hge; lia|]. split; auto.
      destruct (Kid _ _ Eq) as (m' & X & Y).
      replace (t_next (s_tree _ s) + Z.of_nat (Z.to_nat (y - t_next (s_tree _ s)))) with y in X by (clear -Hge; lia).
      rewrite Hy in X. injection X as <-. exact Y.
    - right. rewrite K1 in Hy by (rewrite zseq_In; clear -Hlt; lia). rewrite M2 in Hy.
      destruct (Z.eqb_spec y x) as [->|Hyx]; [left; injection Hy as <-; auto|]. right. split; auto.
      rewrite M1 in Hy. destruct (Z.eqb_spec y x); [contradiction|].
      replace ((t_next (s_tree _ s) <=? y) && (y <? t_next (s_tree _ s) + 8)) with false in Hy by (clear -Hlt; lia).
      destruct ((y =? n_parent n) && negb (n_parent n =? u64_max)); [|eauto 10].
      destruct (t_map (s_tree _ s) y) as [m0|]; [|discriminate]. injection Hy as <-. exists m0. auto. }
  exists (Sched obj t3 g' (s_next _ s + 7) (s_idx _ s) d').
  split.
  { unfold split_one. rewrite E1. cbn [rbind]. unfold tget at 1. rewrite Mx. cbn [rbind nx n_linked]. rewrite Hlink. cbn [opt_res rbind].
    rewrite Esp. cbn [rbind]. unfold tmod at 1, tget. rewrite Mx. cbn [rbind]. fold t2. rewrite Eag. cbn [rbind].
    cbn [nx n_childs]. rewrite E3. cbn [rbind]. rewrite Ed. cbn [rbind]. reflexivity. }
  assert (Vcs : forall q, In q cs -> valid q).
  { intros q Hq. unfold valid_patch. rewrite (Hcsown q Hq). exact V0. }
  assert (Dcs : forall q, In q cs -> patch_objs obj d' q = filter (fun o => in_boxb (pos o) (p_box q)) (patch_objs obj (s_data _ s) p0)).
  { intros q Hq. unfold patch_objs at 1. rewrite (Hcsown q Hq). now rewrite (D1 q Hq). }
  assert (Doth : forall p, In p others -> d' (p_owner p) (p_id p) = s_data _ s (p_owner p) (p_id p)).
  { intros p Hp. destruct (Hoth p Hp) as (_ & H1 & H2). destruct (Z.eq_dec (p_owner p) (p_owner p0)) as [Eo|Eo].
    - rewrite Eo. apply D2; auto.
    - now rewrite D3. }
  split; [|split; [|split; [|split; [|split; [|split; [|split; [|split; [|split; [|split]]]]]]]]]; cbn [s_tree s_global s_next s_idx s_data]; auto.
  - (* sched_ok *)
    constructor; cbn [s_tree s_global s_next s_idx s_data].
    + eapply tree_ok_sim; eauto.
    + eapply partition_sim; eauto.
    + (pose proof (so_next _ _ _ _ I) as Hsn0; clear -Hsn Hsn0; lia).
    + intros p Hp. apply InG' in Hp. destruct Hp as [Hp|Hp].
      * destruct (HcsId p Hp); lia.
      * destruct (Hoth p Hp) as (Hg & _). pose proof (so_ids _ _ _ _ I p Hg). lia.
    + eapply Permutation_NoDup; [apply Permutation_map, Permutation_sym; exact Pg'|]. rewrite map_app.
      apply NoDup_app_i; auto; [inversion NDall; auto|].
      intros i Hi1 Hi2. apply in_map_iff in Hi2. destruct Hi2 as (p & <- & Hp). now apply (Hoth p Hp).
    + intros y m Hy Hl. destruct (Cases y m Hy) as [(k & q & _ & Hk & _ & H1 & H2)|[(_ & F & _)|(Hyx & m0 & A1 & A2 & A3 & A4)]].
      * exists q. rewrite InG'. apply nth_error_In in Hk. auto.
      * congruence.
      * destruct (so_leaf _ _ _ _ I y m0 A1) as (p & P1 & P2 & P3 & P4); [congruence|].
        exists p. rewrite InG', <- A3, <- A4. split; auto. destruct (InG p P1) as [->|]; auto.
        exfalso. apply Hyx. apply (so_inj _ _ _ _ I y x m0 n); auto; congruence.
    + intros p Hp Vp. apply InG' in Hp. destruct Hp as [Hp|Hp].
      * apply In_nth_error in Hp. destruct Hp as (k & Hk). destruct (Kid k p Hk) as (m & A1 & A2 & A3 & _). eauto.
      * destruct (Hoth p Hp) as (Hg & Hne & _). destruct (so_patch _ _ _ _ I p Hg Vp) as (y & m & A1 & A2 & A3).
        exists y, m. split; auto. apply OldLeaf; auto. intros ->. congruence.
    + intros y z my mz Hy Hz Ly Lz Hyz.
      destruct (Cases y my Hy) as [(k & q & Yk & Hk & _ & H1 & H2)|[(_ & F & _)|(Hyx & m0 & A1 & A2 & A3 & A4)]]; [|congruence|].
      * destruct (Cases z mz Hz) as [(k' & q' & Zk & Hk' & _ & H1' & H2')|[(_ & F & _)|(Hzx & m0' & A1' & A2' & A3' & A4')]]; [|congruence|].
        -- assert (k = k'); [|congruence]. eapply (NoDup_nth_inj p_id cs); eauto. congruence.
        -- exfalso. destruct (so_leaf _ _ _ _ I z m0' A1') as (p & P1 & P2 & P3 & P4); [congruence|].
           destruct (InG p P1) as [->|Hp].
           { apply Hzx. apply (so_inj _ _ _ _ I z x m0' n); auto; congruence. }
           destruct (Hoth p Hp) as (_ & _ & F). apply F. apply in_map_iff. exists q. split; [congruence|]. eapply nth_error_In; eauto.
      * destruct (Cases z mz Hz) as [(k' & q' & Zk & Hk' & _ & H1' & H2')|[(_ & F & _)|(Hzx & m0' & A1' & A2' & A3' & A4')]]; [|congruence|].
        -- exfalso. destruct (so_leaf _ _ _ _ I y m0 A1) as (p & P1 & P2 & P3 & P4); [congruence|].
           destruct (InG p P1) as [->|Hp].
           { apply Hyx. apply (so_inj _ _ _ _ I y x m0 n); auto; congruence. }
           destruct (Hoth p Hp) as (_ & _ & F). apply F. apply in_map_iff. exists q'. split; [congruence|]. eapply nth_error_In; eauto.
        -- apply (so_inj _ _ _ _ I y z m0 m0'); auto; congruence.
    + intros y m Hy Hl. destruct (Cases y m Hy) as [(k & q & _ & _ & F & _)|[(_ & _ & F)|(Hyx & m0 & A1 & A2 & A3 & A4)]]; [congruence|auto|].
      rewrite <- A3. apply (so_inner _ _ _ _ I y m0); congruence.
    + intros r id Hr. destruct (Z.eq_dec r (p_owner p0)) as [->|Hro].
      * destruct (in_dec Z.eq_dec id (map p_id cs)) as [Hin|Hin].
        -- apply in_map_iff in Hin. destruct Hin as (q & <- & Hq). rewrite (D1 q Hq). split; [|discriminate].
           intros _. exists q. rewrite InG'. auto.
        -- assert (Hne : id <> p_id p0).
           { intros ->. apply Hin. destruct (nth_error cs 0) as [q|] eqn:E; [|apply nth_error_None in E; clear -E L8; lia].
             destruct (Hcs 0%nat q E) as (_ & _ & _ & F). cbn [Nat.eqb] in F. rewrite <- F. apply in_map. eapply nth_error_In; eauto. }
           rewrite (D2 id Hne Hin). rewrite (so_data _ _ _ _ I (p_owner p0) id V0). split.
           ++ intros (p & Q1 & Q2 & Q3). exists p. rewrite InG'. destruct (InG p Q1) as [->|]; [congruence|auto].
           ++ intros (p & Q1 & Q2 & Q3). apply InG' in Q1. destruct Q1 as [Q1|Q1].
              ** exfalso. apply Hin. rewrite <- Q3. now apply in_map.
              ** exists p. destruct (Hoth p Q1); auto.
      * rewrite (D3 r Hro). rewrite (so_data _ _ _ _ I r id Hr). split.
        -- intros (p & Q1 & Q2 & Q3). exists p. rewrite InG'. destruct (InG p Q1) as [->|]; [congruence|auto].
        -- intros (p & Q1 & Q2 & Q3). apply InG' in Q1. destruct Q1 as [Q1|Q1].
           ++ exfalso. rewrite (Hcsown p Q1) in Q2. congruence.
           ++ exists p. destruct (Hoth p Q1); auto.
    + intros p o Hp Vp Ho. apply InG' in Hp. destruct Hp as [Hp|Hp].
      * rewrite (Dcs p Hp) in Ho. apply filter_In in Ho. now apply in_boxb_spec.
      * destruct (Hoth p Hp) as (Hg & _). apply (so_in _ _ _ _ I p o Hg Vp). unfold patch_objs in *. now rewrite Doth in Ho.
  - (* objects *)
    rewrite (world_perm (Sched obj t3 g' (s_next _ s + 7) (s_idx _ s) d') _ Pg'). rewrite (world_perm s _ Pg). cbn [s_data].
    rewrite flat_map_app. cbn [flat_map]. apply Permutation_app.
    + rewrite (flat_map_ext_in _ (fun q => filter (fun o => in_boxb (pos o) (p_box q)) (patch_objs obj (s_data _ s) p0))).
      * rewrite flat_map_concat_map. rewrite Dp. replace (validb p0) with true; auto. symmetry. now apply validb_spec.
      * intros q Hq. rewrite (proj2 (validb_spec q) (Vcs q Hq)). now apply Dcs.
    + rewrite (flat_map_ext_in _ (fun p => if validb p then patch_objs obj (s_data _ s) p else [])); auto.
      intros p Hp. destruct (validb p); auto. unfold patch_objs. now rewrite Doth.
  - intros id i Hi. cbn [s_idx s_global] in *. destruct (Hidx id i Hi) as (p & Hp & <-). apply Hkeep; auto.
  - destruct S13 as (_ & _ & _ & F & _). rewrite <- F. exact N1.
  - intros y Hy Hyp. destruct S13 as (_ & _ & F & _). rewrite <- F. apply Po1. left. auto.
  - intros Hall p Hp. apply InG' in Hp. destruct Hp as [Hp|Hp].
    + split; [|auto]. apply In_nth_error in Hp. destruct Hp as (k & Hk). destruct (Hcs k p Hk) as (-> & _). apply Hall; auto.
    + apply Hall. destruct (Hoth p Hp); auto.
  - intros pt. unfold covered; cbn [s_global].
    destruct (get_split_partition _ Hsp) as (Pa & _).
    split.
    + intros (p & Q1 & Q2 & Q3). apply InG' in Q1. destruct Q1 as [Q1|Q1].
      * exists p0. split; auto. split; auto. rewrite Hb0. apply Pa. apply In_nth_error in Q1. destruct Q1 as (k & Hk).
        specialize (Hcsbox k p Hk). apply nth_error_In in Hcsbox. rewrite Hb0 in Hcsbox. eauto.
      * exists p. destruct (Hoth p Q1); auto.
    + intros (p & Q1 & Q2 & Q3). destruct (InG p Q1) as [->|Hp].
      * rewrite Hb0 in Q3. apply Pa in Q3. destruct Q3 as (c & Hc & Hin). apply In_nth_error in Hc. destruct Hc as (k & Hk).
        destruct (nth_error cs k) as [q|] eqn:Eq.
        -- exists q. specialize (Hcsbox k q Eq). rewrite Hb0 in Hcsbox. apply nth_error_In in Eq. rewrite InG'. split; auto. split; auto. congruence.
        -- exfalso. apply nth_error_None in Eq. apply nth_error_lt in Hk. rewrite length_get_split in Hk. clear -Eq Hk L8; lia.
      * exists p. rewrite InG'. auto.
Qed.
End Proofs.
