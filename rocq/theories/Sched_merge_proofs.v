(** Packing, migration and merge. *)
From Verif Require Import Base Patch Patch_spec Patch_proofs PatchTree PatchTree_spec PatchTree_proofs
  Sched Sched_spec Sched_change_proofs Sched_proofs Sched_step_proofs.
Local Open Scope Z_scope.

Lemma idx_gets_ok (m : idxmap) : forall ids, (forall id, In id ids -> m id <> None) ->
  exists is, idx_gets m ids = Ok is /\ Forall2 (fun id i => m id = Some i) ids is.
Proof.
  induction ids as [|a ids IH]; intros H; cbn [idx_gets]; [eauto|]. unfold idx_get.
  destruct (m a) as [i|] eqn:E; [|exfalso; now apply (H a (or_introl eq_refl))]. cbn [rbind].
  destruct IH as (is & E2 & F); [intros; apply H; right; auto|]. rewrite E2. cbn [rbind]. eauto.
Qed.
Lemma linked_ids_ok t : forall cs, (forall c, In c cs -> exists m l, t_map t c = Some m /\ n_linked m = Some l) ->
  exists ids, linked_ids t cs = Ok ids /\ Forall2 (fun c l => exists m, t_map t c = Some m /\ n_linked m = Some l) cs ids.
Proof.
  induction cs as [|c cs IH]; intros H; cbn [linked_ids]; [eauto|].
  destruct (H c (or_introl eq_refl)) as (m & l & Hm & Hl). unfold tget. rewrite Hm. cbn [rbind]. rewrite Hl. cbn [opt_res rbind].
  destruct IH as (ids & E & F); [intros; apply H; right; auto|]. rewrite E. cbn [rbind]. eexists. split; eauto.
Qed.
Lemma Forall2_length' {A B} (R : A -> B -> Prop) l1 l2 : Forall2 R l1 l2 -> length l1 = length l2.
Proof. induction 1; cbn; auto. Qed.
Lemma Forall2_nth1 {A B} (R : A -> B -> Prop) l1 l2 : Forall2 R l1 l2 ->
  forall k a, nth_error l1 k = Some a -> exists b, nth_error l2 k = Some b /\ R a b.
Proof.
  induction 1; intros [|k] a Ha; cbn in *; try discriminate; eauto. injection Ha as <-. eauto.
Qed.

Section Merge.
Variable obj : Type.
Variable pos : obj -> v3.
Variable W : nat.
Notation sched := (sched obj).
Notation sched_ok := (sched_ok obj pos W).
Notation world := (world_objects obj W).
Notation validb := (validb W).
Notation valid := (valid_patch W).
Notation covered := (covered obj W).
Notation idx_sound := (idx_sound obj).
Notation idx_complete := (idx_complete obj).
Notation Sched := (Sched obj).

(** The k-th child of node [y] is linked to the patch number [i]. *)
Definition sib (s : sched) (y : Z) (k i : nat) : Prop :=
  exists n c m p, t_map (s_tree _ s) y = Some n /\ n_leaf n = false /\ nth_error (n_childs n) k = Some c /\
    t_map (s_tree _ s) c = Some m /\ n_leaf m = true /\ n_linked m = Some (p_id p) /\ nth_error (s_global _ s) i = Some p.

Lemma sib_fun s y k i y' k' : sched_ok s -> sib s y k i -> sib s y' k' i -> y = y' /\ k = k'.
Proof.
  intros I (n & c & m & p & A1 & A2 & A3 & A4 & A5 & A6 & A7) (n' & c' & m' & p' & B1 & B2 & B3 & B4 & B5 & B6 & B7).
  assert (p = p') by congruence. subst p'.
  assert (c = c') by (apply (so_inj _ _ _ _ I c c' m m'); congruence). subst c'. pose proof (so_tree _ _ _ _ I) as TI.
  destruct (ok_children _ TI y n A1 A2) as (N & K). destruct (K k c A3) as (q & Q1 & Q2 & _).
  destruct (ok_children _ TI y' n' B1 B2) as (N' & K'). destruct (K' k' c B3) as (q' & Q1' & Q2' & _).
  assert (y = y') by congruence. subst y'. split; auto. assert (n = n') by congruence. subst n'.
  apply (proj1 (NoDup_nth_error _) N); [eapply nth_error_lt; eauto|congruence].
Qed.
Lemma sib_idx s y k i j : sched_ok s -> sib s y k i -> sib s y k j -> i = j.
Proof.
  intros I (n & c & m & p & A1 & A2 & A3 & A4 & A5 & A6 & A7) (n' & c' & m' & p' & B1 & B2 & B3 & B4 & B5 & B6 & B7).
  assert (n = n') by congruence. subst. assert (c = c') by congruence. subst. assert (m = m') by congruence. subst.
  eapply (NoDup_nth_inj p_id); eauto; [apply (so_nodup _ _ _ _ I)|congruence].
Qed.

Lemma siblings s y n : sched_ok s -> idx_complete s -> In y (t_ponly (s_tree _ s)) -> t_map (s_tree _ s) y = Some n ->
  exists ids is ps, linked_ids (s_tree _ s) (n_childs n) = Ok ids /\ idx_gets (s_idx _ s) ids = Ok is /\
    Forall2 (fun i a => nth_error (s_global _ s) i = Some a) is ps /\ map p_id ps = ids /\ length ps = 8%nat /\
    (forall p, In p ps -> In p (s_global _ s) /\ valid p) /\ map p_box ps = get_split (n_box n) /\ NoDup is /\
    n_leaf n = false /\
    (forall k i, nth_error is k = Some i <-> sib s y k i) /\
    (forall k p, nth_error ps k = Some p -> exists c m, nth_error (n_childs n) k = Some c /\ t_map (s_tree _ s) c = Some m /\
        n_leaf m = true /\ n_linked m = Some (p_id p)).
Proof.
  intros I Hidx Hy Hn. pose proof (so_tree _ _ _ _ I) as TI.
  destruct (proj1 (ok_ponly _ TI y) Hy) as (n' & Hn' & Hl & Hc). rewrite Hn in Hn'. injection Hn' as <-.
  assert (H8 : length (n_childs n) = 8%nat) by (eapply ok_childs_len; eauto).
  assert (Hcp : forall c, In c (n_childs n) -> exists m p, t_map (s_tree _ s) c = Some m /\ n_leaf m = true /\
      n_linked m = Some (p_id p) /\ In p (s_global _ s) /\ valid p /\ p_box p = n_box m).
  { intros c Hcc. destruct (Hc c Hcc) as (m & Hm & Hml). destruct (so_leaf _ _ _ _ I c m Hm Hml) as (p & P1 & P2 & P3 & P4).
    exists m, p. auto 10. }
  destruct (linked_ids_ok (s_tree _ s) (n_childs n)) as (ids & E1 & F1).
  { intros c Hcc. destruct (Hcp c Hcc) as (m & p & A & B & C & _). eauto. }
  (* patches in the order of the children *)
  assert (Hps : forall cs ids0, Forall2 (fun c l => exists m, t_map (s_tree _ s) c = Some m /\ n_linked m = Some l) cs ids0 ->
     (forall c, In c cs -> In c (n_childs n)) ->
     exists is ps, idx_gets (s_idx _ s) ids0 = Ok is /\ Forall2 (fun i a => nth_error (s_global _ s) i = Some a) is ps /\
       map p_id ps = ids0 /\
       Forall2 (fun c p => In p (s_global _ s) /\ valid p /\ exists m, t_map (s_tree _ s) c = Some m /\ n_leaf m = true /\
                  n_linked m = Some (p_id p) /\ p_box p = n_box m) cs ps).
  { induction 1 as [|c l cs ids0 (m & Hm & Hlk) F IH]; intros Hin.
    - exists [], []. cbn. auto.
    - destruct IH as (is & ps & G1 & G2 & G3 & G4); [intros; apply Hin; right; auto|].
      destruct (Hcp c (Hin c (or_introl eq_refl))) as (m' & p & A1 & A2 & A3 & A4 & A5 & A6).
      assert (m' = m) by congruence. subst m'. rewrite Hlk in A3. injection A3 as ->.
      destruct (In_nth_error _ _ A4) as (i & Hi).
      exists (i :: is), (p :: ps). cbn [idx_gets]. unfold idx_get. rewrite (Hidx i p Hi). cbn [rbind]. rewrite G1. cbn [rbind].
      split; auto. split; [constructor; auto|]. split; [cbn; congruence|]. constructor; auto. split; auto. split; auto. exists m. auto. }
  destruct (Hps _ _ F1 (fun c H => H)) as (is & ps & G1 & G2 & G3 & G4).
  exists ids, is, ps.
  assert (L8 : length ps = 8%nat) by (rewrite <- (Forall2_length' _ _ _ G4); auto).
  assert (Hchild : forall k p, nth_error ps k = Some p -> exists c m, nth_error (n_childs n) k = Some c /\ t_map (s_tree _ s) c = Some m /\
        n_leaf m = true /\ n_linked m = Some (p_id p)).
  { intros k p Hk. destruct (nth_error (n_childs n) k) as [c|] eqn:Ec.
    2: { apply nth_error_None in Ec. apply nth_error_lt in Hk. lia. }
    destruct (Forall2_nth _ _ _ G4 k c p Ec Hk) as (_ & _ & m & A1 & A2 & A3 & _). exists c, m. auto. }
  assert (Hsib : forall k i, nth_error is k = Some i -> sib s y k i).
  { intros k i Hk. destruct (Forall2_nth1 _ _ _ G2 k i Hk) as (p & Hp & Hi).
    destruct (Hchild k p Hp) as (c & m & A1 & A2 & A3 & A4). exists n, c, m, p. auto 10. }
  split; auto. split; auto. split; auto. split; auto. split; auto. split.
  { intros p Hp. apply In_nth_error in Hp. destruct Hp as (k & Hk). destruct (nth_error (n_childs n) k) as [c|] eqn:Ec.
    2: { apply nth_error_None in Ec. apply nth_error_lt in Hk. lia. }
    destruct (Forall2_nth _ _ _ G4 k c p Ec Hk) as (A & B & _). auto. }
  split.
  { apply list_eq_nth_error. intros k. rewrite nth_error_map. destruct (nth_error ps k) as [p|] eqn:Ep; cbn [option_map].
    - destruct (nth_error (n_childs n) k) as [c|] eqn:Ec.
      2: { apply nth_error_None in Ec. apply nth_error_lt in Ep. lia. }
      destruct (Forall2_nth _ _ _ G4 k c p Ec Ep) as (_ & _ & m & A1 & A2 & A3 & A4).
      destruct (ok_children _ TI y n Hn Hl) as (_ & K). destruct (K k c Ec) as (m' & B1 & _ & B3 & _). congruence.
    - symmetry. apply nth_error_None. rewrite length_get_split. apply nth_error_None in Ep. lia. }
  split.
  { apply NoDup_nth_error. intros a b Ha Hab. destruct (nth_error is a) as [i|] eqn:Ea; [|apply nth_error_None in Ea; lia].
    symmetry in Hab. destruct (sib_fun s y a i y b I (Hsib _ _ Ea) (Hsib _ _ Hab)). auto. }
  split; auto. split; auto.
  intros k i. split; auto. intros Hs. pose proof Hs as (n2 & c & m & p & A1 & A2 & A3 & _).
  rewrite Hn in A1. injection A1 as <-. pose proof (nth_error_lt _ _ _ A3) as Hk8.
  destruct (nth_error is k) as [j|] eqn:Ej.
  - f_equal. eapply sib_idx; eauto.
  - apply nth_error_None in Ej. pose proof (Forall2_length' _ _ _ G2). lia.
Qed.

(** * Packing *)
Lemma pack_fold v : forall rest (g : list patch), (forall i, In i rest -> (i < length g)%nat) ->
  exists g', rfold (fun i g => p <- aget g i ;; aset g i (set_pack v p)) rest g = Ok g' /\ length g' = length g /\
    forall j, nth_error g' j = if in_dec Nat.eq_dec j rest then option_map (set_pack v) (nth_error g j) else nth_error g j.
Proof.
  induction rest as [|a rest IH]; intros g H; cbn [rfold].
  - exists g. auto.
  - assert (Ha : (a < length g)%nat) by (apply H; left; auto).
    destruct (nth_error g a) as [p|] eqn:Ep; [|apply nth_error_None in Ep; lia].
    unfold aget at 1. rewrite Ep. cbn [rbind]. rewrite aset_lt by auto. cbn [rbind].
    destruct (IH (upd g a (set_pack v p))) as (g' & E & L & N).
    { intros i Hi. rewrite length_upd. apply H; right; auto. }
    exists g'. split; auto. rewrite length_upd in L. split; auto. intros j. rewrite N.
    destruct (Nat.eq_dec a j) as [->|Hne].
    + rewrite nth_error_upd_eq by auto. rewrite Ep. cbn [option_map].
      destruct (in_dec Nat.eq_dec j rest), (in_dec Nat.eq_dec j (j :: rest)) as [|F]; auto; exfalso; apply F; left; auto.
    + rewrite nth_error_upd_neq by auto.
      destruct (in_dec Nat.eq_dec j rest) as [F|F], (in_dec Nat.eq_dec j (a :: rest)) as [G|G]; auto.
      * exfalso; apply G; right; auto.
      * destruct G as [G|G]; contradiction.
Qed.

(** [g'] is [g] with the siblings of the nodes of [done] packed with the first of them. *)
Definition packed (s : sched) (done : list Z) (g' : list patch) : Prop :=
  length g' = length (s_global _ s) /\
  forall i p, nth_error (s_global _ s) i = Some p -> exists v, nth_error g' i = Some (set_pack v p) /\
    ((v = u64_max /\ forall y k, In y done -> sib s y k i -> k = 0%nat) \/
     (exists y k i0, In y done /\ (1 <= k)%nat /\ sib s y k i /\ sib s y 0 i0 /\ v = Z.of_nat i0)).

Lemma pack_ok s : forall rq, sched_ok s -> idx_complete s -> NoDup rq ->
  (forall y, In y rq -> In y (t_ponly (s_tree _ s))) ->
  (forall p, In p (s_global _ s) -> p_pack p = u64_max) ->
  exists g', set_patch_pack_values obj rq s = Ok (Sched (s_tree _ s) g' (s_next _ s) (s_idx _ s) (s_data _ s)) /\
    packed s rq g'.
Proof.
  intros rq I Hidx N Hrq Hpk.
  assert (G : forall todo done g1, NoDup (done ++ todo) -> (forall y, In y (done ++ todo) -> In y rq) -> packed s done g1 ->
    exists g', rfold (pack_one obj) todo (Sched (s_tree _ s) g1 (s_next _ s) (s_idx _ s) (s_data _ s)) =
         Ok (Sched (s_tree _ s) g' (s_next _ s) (s_idx _ s) (s_data _ s)) /\ packed s (done ++ todo) g').
  { induction todo as [|y todo IH]; intros done g1 Nd Hin P1; cbn [rfold].
    - exists g1. rewrite app_nil_r. auto.
    - assert (Hyp : In y (t_ponly (s_tree _ s))) by (apply Hrq, Hin, in_or_app; right; left; auto).
      destruct (proj1 (ok_ponly _ (so_tree _ _ _ _ I) y) Hyp) as (n & Hn & _).
      destruct (siblings s y n I Hidx Hyp Hn) as (ids & is & ps & S1 & S2 & S3 & S4 & S5 & S6 & S7 & S8 & S9 & S10 & S11).
      assert (Hone : exists g2, pack_one obj y (Sched (s_tree _ s) g1 (s_next _ s) (s_idx _ s) (s_data _ s)) =
                  Ok (Sched (s_tree _ s) g2 (s_next _ s) (s_idx _ s) (s_data _ s)) /\ packed s (done ++ [y]) g2).
      { unfold pack_one. cbn [s_tree s_global s_next s_idx s_data]. unfold tget. rewrite Hn. cbn [rbind].
        rewrite S1. cbn [rbind]. rewrite S2. cbn [rbind]. pose proof (Forall2_length' _ _ _ S3) as Hlen.
        destruct is as [|i0 rest]; [cbn in Hlen; lia|].
        destruct P1 as (PL & PN).
        destruct (pack_fold (Z.of_nat i0) rest g1) as (g2 & E & L2 & N2).
        { intros i Hi. rewrite PL. apply In_nth_error in Hi. destruct Hi as (k & Hk).
          destruct (Forall2_nth1 _ _ _ S3 (S k) i Hk) as (p & _ & Hp). eapply nth_error_lt; eauto. }
        rewrite E. cbn [rbind]. exists g2. split; auto. split; [congruence|].
        intros i p Hp. destruct (PN i p Hp) as (v & Hv & Hcase). rewrite N2.
        destruct (in_dec Nat.eq_dec i rest) as [F|F].
        - exists (Z.of_nat i0). rewrite Hv. cbn. split; auto. right.
          apply In_nth_error in F. destruct F as (k & Hk).
          exists y, (S k), i0. split; [apply in_or_app; right; left; auto|]. split; [lia|].
          split; [apply S10; exact Hk|]. split; [apply S10; reflexivity|auto].
        - exists v. split; auto. destruct Hcase as [(Hvm & Hno)|(y1 & k & j0 & H1 & H2 & H3 & H4 & H5)].
          + left. split; auto. intros y1 k Hy1 Hs1. apply in_app_or in Hy1. destruct Hy1 as [Hy1|[<-|[]]]; [eauto|].
            apply S10 in Hs1. destruct k as [|k]; auto. cbn [nth_error] in Hs1. exfalso. apply F. eapply nth_error_In; eauto.
          + right. exists y1, k, j0. split; [apply in_or_app; auto|auto]. }
      destruct Hone as (g2 & E & P2). rewrite E. cbn [rbind].
      destruct (IH (done ++ [y]) g2) as (g' & E' & P').
      + rewrite <- app_assoc; auto.
      + rewrite <- app_assoc; auto.
      + exact P2.
      + exists g'. rewrite <- app_assoc in P'. auto. }
  destruct (G rq [] (s_global _ s)) as (g' & E & P); auto.
  - split; auto. intros i p Hp. exists u64_max. split.
    + rewrite Hp. f_equal. pose proof (Hpk p (nth_error_In _ _ Hp)). destruct p; cbn in *; unfold set_pack; cbn. now subst.
    + left. split; auto. contradiction.
  - exists g'. split; auto. destruct s; exact E.
Qed.

Lemma packed_ok s rq g' : sched_ok s -> packed s rq g' -> (forall y, In y rq -> In y (t_ponly (s_tree _ s))) -> packs_ok g'.
Proof.
  intros I (L & P) Hrq i p Hp Hne.
  destruct (nth_error (s_global _ s) i) as [q|] eqn:Eq.
  2: { apply nth_error_None in Eq. apply nth_error_lt in Hp. lia. }
  destruct (P i q Eq) as (v & Hv & Hc). rewrite Hv in Hp. injection Hp as <-. cbn [set_pack p_pack] in *.
  destruct Hc as [(F & _)|(y & k & i0 & H1 & H2 & H3 & H4 & ->)]; [contradiction|].
  split; [lia|]. rewrite Nat2Z.id. pose proof H4 as (_ & _ & _ & q0 & _ & _ & _ & _ & _ & _ & Hq0).
  destruct (P i0 q0 Hq0) as (v0 & Hv0 & Hc0). exists (set_pack v0 q0). split; auto. cbn.
  destruct Hc0 as [(F & _)|(y' & k' & i0' & G1 & G2 & G3 & G4 & G5)]; auto.
  destruct (sib_fun s y 0 i0 y' k' I H4 G3). lia.
Qed.

(** * Migration *)
Definition mkey (m : message obj) : Z * Z * Z := let '(a, b, c, _) := m in (a, b, c).
Definition msg_of (d : ddata obj) (op : change_op) : message obj :=
  (co_old op, co_new op, co_tag op, match d (co_old op) (co_id op) with Some l => l | None => [] end).

Lemma send_all_ok (d : ddata obj) : forall ops, (forall op, In op ops -> d (co_old op) (co_id op) <> None) ->
  send_all obj d ops = Ok (map (msg_of d) ops).
Proof.
  induction ops as [|op ops IH]; intros H; cbn [send_all map]; auto. unfold msg_of at 1.
  destruct (d (co_old op) (co_id op)) eqn:E; [|exfalso; now apply (H op (or_introl eq_refl))].
  rewrite IH by (intros; apply H; right; auto). reflexivity.
Qed.

Lemma take_msg_ok : forall (pool : list (message obj)) src dst tag l, NoDup (map mkey pool) ->
  In (src, dst, tag, l) pool ->
  exists pool', take_msg obj src dst tag pool = Some (l, pool') /\ Permutation pool ((src, dst, tag, l) :: pool').
Proof.
  induction pool as [|[[[a b] c] x] pool IH]; intros src dst tag l N Hin; [contradiction|].
  cbn [take_msg]. cbn [map mkey] in N. inversion N as [|? ? N1 N2]; subst.
  destruct ((a =? src) && (b =? dst) && (c =? tag)) eqn:E.
  - assert (a = src /\ b = dst /\ c = tag) as (-> & -> & ->) by lia.
    destruct Hin as [F|F].
    + injection F as ->. eauto.
    + exfalso. apply N1. apply in_map_iff. exists (src, dst, tag, l). auto.
  - destruct Hin as [F|F].
    + injection F as -> -> -> ->. rewrite !Z.eqb_refl in E. discriminate.
    + destruct (IH src dst tag l N2 F) as (pool' & E' & P'). rewrite E'. eexists. split; [reflexivity|].
      rewrite P'. apply perm_swap.
Qed.

Lemma recv_all_ok (d0 : ddata obj) : forall ops pool (d : ddata obj),
  Permutation pool (map (msg_of d0) ops) -> NoDup (map (fun op => (co_old op, co_tag op)) ops) ->
  NoDup (map co_id ops) -> (forall op, In op ops -> d (co_new op) (co_id op) = None) ->
  exists d', recv_all obj ops pool d = Ok d' /\
    (forall op, In op ops -> d' (co_new op) (co_id op) = Some (snd (msg_of d0 op))) /\
    (forall r id, (forall op, In op ops -> ~ (co_new op = r /\ co_id op = id)) -> d' r id = d r id).
Proof.
  induction ops as [|op ops IH]; intros pool d P N1 N2 H; cbn [recv_all].
  - exists d. split; auto. split; auto. contradiction.
  - assert (NK : NoDup (map mkey pool)).
    { eapply Permutation_NoDup; [apply Permutation_map, Permutation_sym; exact P|].
      rewrite map_map. cbn [msg_of mkey]. revert N1. generalize (op :: ops). clear. intros l N.
      induction l as [|a l IH]; cbn in *; constructor; inversion N; subst; auto.
      intros F. apply H1. apply in_map_iff in F. destruct F as (b & E & Hb). injection E as E1 E2 E3.
      apply in_map_iff. exists b. split; auto. congruence. }
    destruct (take_msg_ok pool (co_old op) (co_new op) (co_tag op) (snd (msg_of d0 op)) NK) as (pool' & E & P').
    { rewrite P. left. reflexivity. }
    rewrite E. unfold d_add at 1. rewrite (H op (or_introl eq_refl)). cbn [rbind].
    cbn [map] in N1, N2. inversion N1 as [|? ? N11 N12]; subst. inversion N2 as [|? ? N21 N22]; subst.
    set (d1 := dd_set obj d (co_new op) (d_set obj (d (co_new op)) (co_id op) (Some (snd (msg_of d0 op))))).
    assert (M : forall r id, d1 r id = if (r =? co_new op) && (id =? co_id op) then Some (snd (msg_of d0 op)) else d r id).
    { intros r id. unfold d1, dd_set, d_set. destruct (Z.eqb_spec r (co_new op)) as [->|]; cbn [andb]; auto. }
    destruct (IH pool' d1) as (d' & E' & A & B); auto.
    { apply (Permutation_cons_inv (a := msg_of d0 op)). etransitivity; [apply Permutation_sym; exact P'|exact P]. }
    { intros o Ho. rewrite M. replace (co_id o =? co_id op) with false; [rewrite andb_false_r; apply H; right; auto|].
      symmetry. apply Z.eqb_neq. intros F. apply N21. rewrite <- F. now apply in_map. }
    exists d'. split; auto. split.
    + intros o [<-|Ho]; auto. rewrite B.
      * rewrite M, !Z.eqb_refl. reflexivity.
      * intros o Ho (_ & F). apply N21. rewrite <- F. now apply in_map.
    + intros r id Hno. rewrite B by (intros o Ho; apply Hno; right; auto). rewrite M.
      destruct (Z.eqb_spec r (co_new op)) as [->|]; auto. destruct (Z.eqb_spec id (co_id op)) as [->|]; auto.
      exfalso. apply (Hno op); [left; auto|auto].
Qed.

Lemma update_owners_ok : forall ops g (d : ddata obj),
  NoDup (map co_idx ops) -> (forall op, In op ops -> (co_idx op < length g)%nat) ->
  exists g' d', update_owners obj ops (g, d) = Ok (g', d') /\ length g' = length g /\
    (forall op p, In op ops -> nth_error g (co_idx op) = Some p -> nth_error g' (co_idx op) = Some (set_owner (co_new op) p)) /\
    (forall i, ~ In i (map co_idx ops) -> nth_error g' i = nth_error g i) /\
    (forall op, In op ops -> d' (co_old op) (co_id op) = None) /\
    (forall r id, (forall op, In op ops -> ~ (co_old op = r /\ co_id op = id)) -> d' r id = d r id) /\
    (forall r id, d r id = None -> d' r id = None).
Proof.
  induction ops as [|op ops IH]; intros g d N H; unfold update_owners; cbn [rfold].
  - exists g, d. split; auto. split; auto. split; [contradiction|]. split; auto. split; [contradiction|]. auto.
  - cbn [map] in N. inversion N as [|? ? N1 N2]; subst.
    assert (Hi : (co_idx op < length g)%nat) by (apply H; left; auto).
    destruct (nth_error g (co_idx op)) as [p|] eqn:Ep; [|apply nth_error_None in Ep; lia].
    unfold aget at 1. rewrite Ep. cbn [rbind]. rewrite aset_lt by auto. cbn [rbind].
    set (d1 := dd_set obj d (co_old op) (d_set obj (d (co_old op)) (co_id op) None)).
    assert (M : forall r id, d1 r id = if (r =? co_old op) && (id =? co_id op) then None else d r id).
    { intros r id. unfold d1, dd_set, d_set. destruct (Z.eqb_spec r (co_old op)) as [->|]; cbn [andb]; auto. }
    destruct (IH (upd g (co_idx op) (set_owner (co_new op) p)) d1 N2) as (g' & d' & E & L & A1 & A2 & A3 & A4 & A5).
    { intros o Ho. rewrite length_upd. apply H; right; auto. }
    rewrite length_upd in L. exists g', d'. split; [exact E|]. split; auto. split; [|split; [|split; [|split]]].
    + intros o q [<-|Ho] Hq.
      * rewrite A2 by auto. rewrite nth_error_upd_eq by auto. congruence.
      * apply A1; auto. rewrite nth_error_upd_neq; auto. intros F. apply N1. rewrite F. now apply in_map.
    + intros i Hno. cbn [map In] in Hno. rewrite A2 by tauto. apply nth_error_upd_neq. tauto.
    + intros o [<-|Ho]; auto. apply A5. rewrite M, !Z.eqb_refl. reflexivity.
    + intros r id Hno. rewrite A4 by (intros o Ho; apply Hno; right; auto). rewrite M.
      destruct (Z.eqb_spec r (co_old op)) as [->|]; auto. destruct (Z.eqb_spec id (co_id op)) as [->|]; auto.
      exfalso. apply (Hno op); [left; auto|auto].
    + intros r id Hd. apply A5. rewrite M. destruct ((r =? co_old op) && (id =? co_id op)); auto.
Qed.

Lemma change_ok net (s : sched) ops (f : nat -> Z) :
  sched_ok s -> (forall p, In p (s_global _ s) -> valid p) -> (forall l, Permutation (net l) l) ->
  (forall op, In op ops -> exists p, nth_error (s_global _ s) (co_idx op) = Some p /\ co_id op = p_id p /\
     co_old op = p_owner p /\ co_new op = f (co_idx op) /\ co_new op <> co_old op) ->
  (forall i p, nth_error (s_global _ s) i = Some p -> f i <> p_owner p -> exists op, In op ops /\ co_idx op = i) ->
  NoDup (map co_idx ops) -> NoDup (map (fun op => (co_old op, co_tag op)) ops) ->
  (forall i, (i < length (s_global _ s))%nat -> 0 <= f i < Z.of_nat W) ->
  exists g' d', apply_change_list obj net ops (s_global _ s, s_data _ s) = Ok (g', d') /\
    length g' = length (s_global _ s) /\
    (forall i p, nth_error (s_global _ s) i = Some p -> nth_error g' i = Some (set_owner (f i) p)) /\
    (forall i p r, nth_error (s_global _ s) i = Some p -> 0 <= r < Z.of_nat W ->
       d' r (p_id p) = if r =? f i then s_data _ s (p_owner p) (p_id p) else None) /\
    forall m', let s' := Sched (s_tree _ s) g' (s_next _ s) m' d' in
      sched_ok s' /\ Permutation (world s') (world s) /\ forall pt, covered s' pt <-> covered s pt.
Proof.
  intros I V Hnet A B C D F.
  pose proof (so_nodup _ _ _ _ I) as ND.
  assert (NI : NoDup (map co_id ops)).
  { clear -A C ND. induction ops as [|op ops IH]; cbn; constructor; inversion C; subst; auto.
    - intros X. apply in_map_iff in X. destruct X as (o & E & Ho). apply H1.
      destruct (A op (or_introl eq_refl)) as (p & P1 & P2 & _). destruct (A o (or_intror Ho)) as (q & Q1 & Q2 & _).
      assert (co_idx op = co_idx o) as -> by (eapply (NoDup_nth_inj p_id); eauto; congruence). now apply in_map.
    - apply IH; auto. intros o Ho. apply A; right; auto. }
  unfold apply_change_list. rewrite send_all_ok.
  2: { intros op Hop. destruct (A op Hop) as (p & P1 & P2 & P3 & _). rewrite P2, P3. pose proof (nth_error_In _ _ P1) as Hp.
       apply (so_data _ _ _ _ I); [apply V; auto|]. exists p. auto. }
  cbn [rbind].
  destruct (recv_all_ok (s_data _ s) ops (net (map (msg_of (s_data _ s)) ops)) (s_data _ s)) as (d1 & E1 & R1 & R2); auto.
  { intros op Hop. destruct (A op Hop) as (p & P1 & P2 & P3 & P4 & P5). pose proof (nth_error_lt _ _ _ P1) as Hlt.
    destruct (s_data _ s (co_new op) (co_id op)) eqn:E; auto. exfalso.
    destruct (proj1 (so_data _ _ _ _ I (co_new op) (co_id op) ltac:(rewrite P4; auto))) as (q & Q1 & Q2 & Q3); [congruence|].
    assert (q = p) by (eapply (NoDup_map_inj p_id); eauto; [eapply nth_error_In; eauto|congruence]). subst q. congruence. }
  rewrite E1. cbn [rbind].
  destruct (update_owners_ok ops (s_global _ s) d1 C) as (g' & d' & E2 & L & U1 & U2 & U3 & U4 & U5).
  { intros op Hop. destruct (A op Hop) as (p & P1 & _). eapply nth_error_lt; eauto. }
  rewrite E2. exists g', d'. split; auto. split; auto.
  assert (G : forall i p, nth_error (s_global _ s) i = Some p -> nth_error g' i = Some (set_owner (f i) p)).
  { intros i p Hp. destruct (Z.eq_dec (f i) (p_owner p)) as [Ef|Ef].
    - rewrite U2; auto.
      + rewrite Hp. f_equal. rewrite Ef. now destruct p.
      + intros X. apply in_map_iff in X. destruct X as (op & X1 & X2). destruct (A op X2) as (q & Q1 & Q2 & Q3 & Q4 & Q5).
        subst i. rewrite Hp in Q1. injection Q1 as <-. congruence.
    - destruct (B i p Hp Ef) as (op & O1 & O2). subst i. rewrite (U1 op p O1 Hp).
      destruct (A op O1) as (_ & _ & _ & _ & -> & _). reflexivity. }
  split; auto.
  (* data of each patch *)
  assert (Dat : forall i p r, nth_error (s_global _ s) i = Some p -> 0 <= r < Z.of_nat W ->
     d' r (p_id p) = if r =? f i then s_data _ s (p_owner p) (p_id p) else None).
  { intros i p r Hp Hr. pose proof (nth_error_In _ _ Hp) as Hin.
    assert (Oth : forall op, In op ops -> co_id op = p_id p -> co_idx op = i).
    { intros op Hop E. destruct (A op Hop) as (q & Q1 & Q2 & _). eapply (NoDup_nth_inj p_id); eauto. congruence. }
    assert (Old : forall r', 0 <= r' < Z.of_nat W -> r' <> p_owner p -> s_data _ s r' (p_id p) = None).
    { intros r' Hr' Hne. destruct (s_data _ s r' (p_id p)) eqn:E; auto. exfalso.
      destruct (proj1 (so_data _ _ _ _ I r' (p_id p) Hr')) as (q & Q1 & Q2 & Q3); [congruence|].
      assert (q = p) by (eapply (NoDup_map_inj p_id); eauto). congruence. }
    destruct (Z.eq_dec (f i) (p_owner p)) as [Ef|Ef].
    - assert (No : forall op, In op ops -> co_id op <> p_id p).
      { intros op Hop E. pose proof (Oth op Hop E) as Ei. destruct (A op Hop) as (q & Q1 & Q2 & Q3 & Q4 & Q5).
        rewrite Ei, Hp in Q1. injection Q1 as <-. rewrite Ei in Q4. congruence. }
      rewrite U4 by (intros op Hop (_ & X); now apply (No op)). rewrite R2 by (intros op Hop (_ & X); now apply (No op)).
      destruct (Z.eqb_spec r (f i)) as [->|Hne]; [now rewrite Ef|apply Old; auto; congruence].
    - destruct (B i p Hp Ef) as (op & O1 & O2). destruct (A op O1) as (q & Q1 & Q2 & Q3 & Q4 & Q5).
      rewrite O2, Hp in Q1. injection Q1 as <-. rewrite O2 in Q4.
      assert (Uniq : forall o, In o ops -> co_id o = p_id p -> o = op).
      { intros o Ho E. eapply (NoDup_map_inj co_id); eauto. congruence. }
      destruct (Z.eqb_spec r (f i)) as [->|Hne].
      + rewrite <- Q4, <- Q2. rewrite U4.
        * rewrite (R1 op O1). cbn [msg_of snd]. rewrite Q2, Q3.
          destruct (s_data _ s (p_owner p) (p_id p)) eqn:E; auto. exfalso.
          apply (proj2 (so_data _ _ _ _ I (p_owner p) (p_id p) (V p Hin))); eauto.
        * intros o Ho (X1 & X2). rewrite Q2 in X2. rewrite (Uniq o Ho X2) in X1. congruence.
      + destruct (Z.eq_dec r (p_owner p)) as [->|Hno].
        * rewrite <- Q3, <- Q2. auto.
        * apply U5. rewrite R2.
          { apply Old; auto. }
          intros o Ho (X1 & X2). rewrite (Uniq o Ho X2) in X1. congruence. }
  split; [exact Dat|].
  assert (Nod : forall r id, 0 <= r < Z.of_nat W -> ~ In id (map p_id (s_global _ s)) -> d' r id = None).
  { intros r id Hr Hno. apply U5. rewrite R2.
    - destruct (s_data _ s r id) eqn:E; auto. exfalso.
      destruct (proj1 (so_data _ _ _ _ I r id Hr)) as (q & Q1 & Q2 & Q3); [congruence|]. apply Hno. rewrite <- Q3. now apply in_map.
    - intros op Hop (_ & X). destruct (A op Hop) as (q & Q1 & Q2 & _). apply Hno. rewrite <- X, Q2. apply in_map. eapply nth_error_In; eauto. }
  assert (Inv : forall p', In p' g' -> exists i p, nth_error (s_global _ s) i = Some p /\ p' = set_owner (f i) p /\ nth_error g' i = Some p').
  { intros p' Hp'. apply In_nth_error in Hp'. destruct Hp' as (i & Hi).
    destruct (nth_error (s_global _ s) i) as [p|] eqn:Ep.
    - exists i, p. rewrite (G i p Ep) in Hi. injection Hi as <-. auto.
    - apply nth_error_None in Ep. apply nth_error_lt in Hi. lia. }
  assert (Fwd : forall p, In p (s_global _ s) -> exists i, nth_error (s_global _ s) i = Some p /\ In (set_owner (f i) p) g').
  { intros p Hp. apply In_nth_error in Hp. destruct Hp as (i & Hi). exists i. split; auto. eapply nth_error_In. eauto. }
  assert (Vf : forall i p, nth_error (s_global _ s) i = Some p -> valid (set_owner (f i) p)).
  { intros i p Hp. unfold valid_patch. cbn. apply F. eapply nth_error_lt; eauto. }
  assert (Ob : forall i p, nth_error (s_global _ s) i = Some p ->
     patch_objs obj d' (set_owner (f i) p) = patch_objs obj (s_data _ s) p).
  { intros i p Hp. unfold patch_objs. cbn [set_owner p_owner p_id]. rewrite (Dat i p (f i) Hp).
    - now rewrite Z.eqb_refl.
    - apply F. eapply nth_error_lt; eauto. }
  intros m'. cbn zeta. split; [|split].
  - constructor; cbn [s_tree s_global s_next s_idx s_data]; try apply I.
    + intros p' Hp'. destruct (Inv p' Hp') as (i & p & P1 & -> & _). cbn. apply (so_ids _ _ _ _ I). eapply nth_error_In; eauto.
    + replace (map p_id g') with (map p_id (s_global _ s)); auto. apply list_eq_nth_error. intros i. rewrite !nth_error_map.
      destruct (nth_error (s_global _ s) i) as [p|] eqn:Ep.
      * rewrite (G i p Ep). reflexivity.
      * symmetry. apply nth_error_None in Ep. rewrite <- L in Ep. apply nth_error_None in Ep. now rewrite Ep.
    + intros x n Hx Hl. destruct (so_leaf _ _ _ _ I x n Hx Hl) as (p & P1 & P2 & P3 & P4).
      destruct (Fwd p P1) as (i & Q1 & Q2). exists (set_owner (f i) p). split; auto.
    + intros p' Hp' _. destruct (Inv p' Hp') as (i & p & P1 & -> & _). cbn [set_owner p_id].
      apply (so_patch _ _ _ _ I p); [eapply nth_error_In; eauto|apply V; eapply nth_error_In; eauto].
    + intros r id Hr. destruct (in_dec Z.eq_dec id (map p_id (s_global _ s))) as [X|X].
      * apply in_map_iff in X. destruct X as (p & <- & Hp). destruct (Fwd p Hp) as (i & Q1 & Q2). rewrite (Dat i p r Q1 Hr).
        split.
        -- intros Hne. exists (set_owner (f i) p). split; auto. cbn. split; auto.
           destruct (Z.eqb_spec r (f i)); congruence.
        -- intros (p' & R3 & R4 & R5). destruct (Inv p' R3) as (j & q & P1 & -> & _). cbn [set_owner p_owner p_id] in R4, R5.
           assert (j = i) by (eapply (NoDup_nth_inj p_id); eauto). subst j. subst r. rewrite Z.eqb_refl.
           apply (so_data _ _ _ _ I); [apply V; auto|]. eauto.
      * rewrite (Nod r id Hr X). split; [congruence|]. intros (p' & R3 & R4 & R5). exfalso. apply X.
        destruct (Inv p' R3) as (j & q & P1 & -> & _). cbn in R5. subst id. apply in_map. eapply nth_error_In; eauto.
    + intros p' o Hp' _ Ho. destruct (Inv p' Hp') as (i & p & P1 & -> & _). rewrite (Ob i p P1) in Ho. cbn [set_owner p_box].
      eapply so_in; eauto; [eapply nth_error_In; eauto|apply V; eapply nth_error_In; eauto].
  - rewrite !world_wd. cbn [s_global s_data]. rewrite L. apply Permutation_refl'. apply flat_map_ext_in. intros i Hi.
    apply in_seq in Hi. unfold wd. destruct (nth_error (s_global _ s) i) as [p|] eqn:Ep; [|apply nth_error_None in Ep; lia].
    rewrite (G i p Ep). rewrite (proj2 (validb_spec W _) (Vf i p Ep)).
    rewrite (proj2 (validb_spec W _) (V p (nth_error_In _ _ Ep))). apply Ob; auto.
  - intros pt. unfold Sched_spec.covered; cbn [s_global]. split.
    + intros (p' & Q1 & Q2 & Q3). destruct (Inv p' Q1) as (i & p & P1 & -> & _). exists p.
      pose proof (nth_error_In _ _ P1). split; auto.
    + intros (p & Q1 & Q2 & Q3). destruct (Fwd p Q1) as (i & R3 & R4). exists (set_owner (f i) p). split; auto.
Qed.

(** * Merging *)
Definition same_owner (s : sched) (y : Z) : Prop :=
  forall n c c' m m' p p', t_map (s_tree _ s) y = Some n -> In c (n_childs n) -> In c' (n_childs n) ->
    t_map (s_tree _ s) c = Some m -> t_map (s_tree _ s) c' = Some m' ->
    In p (s_global _ s) -> In p' (s_global _ s) -> n_linked m = Some (p_id p) -> n_linked m' = Some (p_id p') ->
    p_owner p = p_owner p'.

Lemma d_gets_ok (d : dmap obj) : forall (ps : list patch) o, (forall p, In p ps -> d (p_id p) <> None) ->
  (forall p, In p ps -> p_owner p = o) ->
  d_gets obj d (map p_id ps) = Ok (flat_map (fun p => match d (p_id p) with Some l => l | None => [] end) ps).
Proof.
  induction ps as [|p ps IH]; intros o H Ho; cbn [d_gets map flat_map]; auto.
  destruct (d (p_id p)) as [l|] eqn:E; [|exfalso; now apply (H p (or_introl eq_refl))].
  rewrite (IH o) by (intros; (apply H || apply Ho); right; auto). reflexivity.
Qed.
Lemma fold_erase (ks : list Z) : forall d : dmap obj, forall k,
  fold_left (fun d k => d_set obj d k None) ks d k = if existsb (Z.eqb k) ks then None else d k.
Proof.
  induction ks as [|a ks IH]; intros d k; cbn [fold_left existsb]; auto. rewrite IH. unfold d_set.
  destruct (existsb (Z.eqb k) ks); [now rewrite orb_true_r|]. rewrite orb_false_r. reflexivity.
Qed.
Lemma err_fold : forall rest (g : list patch), (forall i, In i rest -> (i < length g)%nat) -> NoDup rest ->
  exists g', rfold (fun i g => q <- aget g i ;; aset g i (set_err_mode q)) rest g = Ok g' /\ length g' = length g /\
    (forall j, ~ In j rest -> nth_error g' j = nth_error g j) /\
    (forall j p, In j rest -> nth_error g j = Some p -> nth_error g' j = Some (set_err_mode p)).
Proof.
  induction rest as [|a rest IH]; intros g H N; cbn [rfold].
  - exists g. split; auto. split; auto. split; auto. contradiction.
  - inversion N as [|? ? N1 N2]; subst. assert (Ha : (a < length g)%nat) by (apply H; left; auto).
    destruct (nth_error g a) as [p|] eqn:Ep; [|apply nth_error_None in Ep; lia].
    unfold aget at 1. rewrite Ep. cbn [rbind]. rewrite aset_lt by auto. cbn [rbind].
    destruct (IH (upd g a (set_err_mode p))) as (g' & E & L & A & B); auto.
    { intros i Hi. rewrite length_upd. apply H; right; auto. }
    rewrite length_upd in L. exists g'. split; auto. split; auto. split.
    + intros j Hj. cbn [In] in Hj. rewrite A by tauto. apply nth_error_upd_neq. tauto.
    + intros j q [<-|Hj] Hq.
      * rewrite A by auto. rewrite nth_error_upd_eq by auto. congruence.
      * apply B; auto. rewrite nth_error_upd_neq; auto. intros ->; contradiction.
Qed.

Lemma merge_one_ok (s : sched) y : Z.of_nat W <= u32_max ->
  sched_ok s -> idx_complete s -> In y (t_ponly (s_tree _ s)) -> same_owner s y ->
  exists s', merge_one obj y s = Ok s' /\ sched_ok s' /\ Permutation (world s') (world s) /\
    (forall pt, covered s' pt <-> covered s pt) /\ idx_complete s' /\
    (forall y', y' <> y -> In y' (t_ponly (s_tree _ s)) -> In y' (t_ponly (s_tree _ s')) /\
       (same_owner s y' -> same_owner s' y')).
Proof.
  intros HW I Hidx Hy Hso. pose proof (so_tree _ _ _ _ I) as TI.
  destruct (proj1 (ok_ponly _ TI y) Hy) as (n & Hn & Hl & Hc).
  destruct (siblings s y n I Hidx Hy Hn) as (ids & is & ps & S1 & S2 & S3 & S4 & S5 & S6 & S7 & S8 & S9 & S10 & S11).
  destruct (merge_node_spec _ y n TI Hy Hn) as (t1 & only & E1 & R1 & N1 & M1 & O1 & L1 & Po1 & _).
  assert (T1 : tree_ok t1) by (exact (merge_node_ok _ _ _ TI Hy E1)).
  assert (Pt1 : leaves_partition_roots t1) by (exact (merge_partition _ _ _ TI Hy E1 (so_part _ _ _ _ I))).
  pose proof (Forall2_length' _ _ _ S3) as Hlen.
  destruct is as [|i0 rest]; [cbn in Hlen; lia|]. destruct ps as [|a0 ps']; [discriminate|].
  inversion S3 as [|? ? ? ? Hi0 S3']; subst.
  assert (Hsp : splittable (n_box n)) by (exact (ok_splittable _ TI y n Hn Hl)).
  assert (Own : forall p, In p (a0 :: ps') -> p_owner p = p_owner a0).
  { intros p Hp. destruct (In_nth_error _ _ Hp) as (k & Hk). destruct (S11 k p Hk) as (c & m & A1 & A2 & A3 & A4).
    destruct (S11 0%nat a0 eq_refl) as (c' & m' & B1 & B2 & B3 & B4).
    apply nth_error_In in A1, B1. destruct (S6 p Hp) as (G1 & _). destruct (S6 a0 (or_introl eq_refl)) as (G2 & _).
    exact (Hso n c c' m m' p a0 Hn A1 B1 A2 B2 G1 G2 A4 B4). }
  assert (V0 : valid a0) by (apply S6; left; auto).
  assert (ND : NoDup (map p_id (s_global _ s))) by apply (so_nodup _ _ _ _ I).
  assert (NDps : NoDup (map p_id (a0 :: ps'))).
  { apply NoDup_nth_error. intros a b Ha Hab. rewrite map_length in Ha. rewrite !nth_error_map in Hab.
    destruct (nth_error (a0 :: ps') a) as [pa|] eqn:Ea; [|apply nth_error_None in Ea; lia].
    destruct (nth_error (a0 :: ps') b) as [pb|] eqn:Eb; [|discriminate]. cbn [option_map] in Hab.
    destruct (S11 a pa Ea) as (ca & ma & A1 & A2 & A3 & A4). destruct (S11 b pb Eb) as (cb & mb & B1 & B2 & B3 & B4).
    assert (ca = cb) by (apply (so_inj _ _ _ _ I ca cb ma mb); auto; congruence). subst cb.
    destruct (ok_children _ TI y n Hn Hl) as (NN & _).
    apply (proj1 (NoDup_nth_error _) NN); [eapply nth_error_lt; eauto|congruence]. }
  (* patch list *)
  set (pm := Patch (p_id a0) u64_max
            (fold_left (fun acc p => w64 (acc + p_load p)) ps' (p_load a0)) (n_box n) (p_owner a0)).
  assert (Em : merge_patch8 (a0 :: ps') = Ok pm).
  { destruct ps' as [|a1 [|a2 [|a3 [|a4 [|a5 [|a6 [|a7 [|a8 r]]]]]]]]; cbn [length] in S5; try discriminate.
    unfold merge_patch8. rewrite S7. rewrite merge_split by auto. reflexivity. }
  assert (Hlt0 : (i0 < length (s_global _ s))%nat) by (eapply nth_error_lt; eauto).
  inversion S8 as [|? ? Ni0 Nrest]; subst.
  destruct (err_fold rest (upd (s_global _ s) i0 pm)) as (g' & Eg & Lg & Ga & Gb); auto.
  { intros i Hi. rewrite length_upd. apply In_nth_error in Hi. destruct Hi as (k & Hk).
    destruct (Forall2_nth1 _ _ _ S3' k i Hk) as (p & _ & Hp). eapply nth_error_lt; eauto. }
  rewrite length_upd in Lg.
  assert (Gi0 : nth_error g' i0 = Some pm) by (rewrite Ga by auto; now rewrite nth_error_upd_eq).
  assert (Goth : forall j, ~ In j (i0 :: rest) -> nth_error g' j = nth_error (s_global _ s) j).
  { intros j Hj. cbn [In] in Hj. rewrite Ga by tauto. rewrite nth_error_upd_neq by tauto. auto. }
  assert (Grest : forall j p, In j rest -> nth_error (s_global _ s) j = Some p -> nth_error g' j = Some (set_err_mode p)).
  { intros j p Hj Hp. apply Gb; auto. rewrite nth_error_upd_neq; auto. intros ->; contradiction. }
  destruct (idx_perm (s_global _ s) g' (i0 :: rest) (a0 :: ps') (pm :: map set_err_mode ps')) as (others & Pg & Pg'); auto.
  { constructor; auto. clear -S3' Grest. assert (forall l, Forall2 (fun i a => nth_error (s_global _ s) i = Some a) l ps' -> (forall j, In j l -> In j rest) ->
        Forall2 (fun i a => nth_error g' i = Some a) l (map set_err_mode ps')).
    { clear S3'. induction ps' as [|p ps' IH]; intros l F Hin; inversion F; subst; constructor.
      - apply Grest; auto. apply Hin; left; auto.
      - apply IH; auto. intros; apply Hin; right; auto. }
    apply H; auto. }
  cbn [app] in Pg, Pg'.
  assert (NDall : NoDup (map p_id (a0 :: ps') ++ map p_id others)).
  { rewrite <- map_app. eapply Permutation_NoDup; [apply Permutation_map; exact Pg|exact ND]. }
  assert (Hoth : forall p, In p others -> In p (s_global _ s) /\ ~ In (p_id p) (map p_id (a0 :: ps'))).
  { intros p Hp. split; [rewrite Pg; right; apply in_or_app; auto|]. intros X.
    clear -NDall X Hp. revert NDall X. generalize (map p_id (a0 :: ps')). intros l. induction l as [|b l IH]; intros N X; [contradiction|].
    cbn [app] in N. inversion N; subst. destruct X as [->|X]; auto. apply H1, in_or_app. right. now apply in_map. }
  assert (InG : forall p, In p (s_global _ s) <-> In p (a0 :: ps') \/ In p others).
  { intros p. rewrite Pg. cbn [In]. rewrite in_app_iff. tauto. }
  assert (InG' : forall p, In p g' <-> p = pm \/ (exists a, In a ps' /\ p = set_err_mode a) \/ In p others).
  { intros p. rewrite Pg'. cbn [In]. rewrite in_app_iff, in_map_iff. split.
    - intros [H|[(a & A1 & A2)|H]]; auto. right; left; eauto.
    - intros [H|[(a & A1 & A2)|H]]; auto. right; left; eauto. }
  assert (Err : forall a, ~ valid (set_err_mode a)).
  { intros a. unfold valid_patch. cbn. clear -HW. lia. }
  assert (Vpm : valid pm) by exact V0.
  (* data *)
  set (d0 := s_data _ s (p_owner a0)).
  set (lall := flat_map (fun p => match d0 (p_id p) with Some l => l | None => [] end) (a0 :: ps')).
  assert (Hdg : d_gets obj d0 (map p_id (a0 :: ps')) = Ok lall).
  { apply (d_gets_ok d0 (a0 :: ps') (p_owner a0)); auto. intros p Hp. apply (so_data _ _ _ _ I); auto.
    exists p. split; [apply S6; auto|]. split; auto. }
  set (d1 := fold_left (fun d k => d_set obj d k None) (map p_id (a0 :: ps')) d0).
  assert (D1 : forall k, d1 k = if existsb (Z.eqb k) (map p_id (a0 :: ps')) then None else d0 k) by (intros; apply fold_erase).
  set (d' := dd_set obj (s_data _ s) (p_owner a0) (d_set obj d1 (p_id a0) (Some lall))).
  assert (Edata : (m <- merge_patchdata obj (p_id a0) (map p_id (a0 :: ps')) d0 ;; Ok (dd_set obj (s_data _ s) (p_owner a0) m)) = Ok d').
  { unfold merge_patchdata. rewrite Hdg. cbn [rbind]. fold d1. unfold d_add. rewrite D1.
    cbn [map existsb]. rewrite Z.eqb_refl. cbn [orb rbind]. reflexivity. }
  assert (Dother : forall r, r <> p_owner a0 -> d' r = s_data _ s r).
  { intros r Hr. unfold d', dd_set. destruct (Z.eqb_spec r (p_owner a0)); congruence. }
  assert (Down : forall k, d' (p_owner a0) k = if k =? p_id a0 then Some lall else if existsb (Z.eqb k) (map p_id (a0 :: ps')) then None else s_data _ s (p_owner a0) k).
  { intros k. unfold d', dd_set. rewrite Z.eqb_refl. unfold d_set. destruct (Z.eqb_spec k (p_id a0)); auto. }
  assert (Exb : forall k l, existsb (Z.eqb k) l = true <-> In k l).
  { intros k l. rewrite existsb_exists. split; [intros (x & X1 & X2); apply Z.eqb_eq in X2; now subst|intros; exists k; split; auto; apply Z.eqb_refl]. }
  (* tree *)
  set (ny := Node (n_box n) (n_level n) (n_parent n) (repeat u64_max 8) true false (n_linked n) (n_load n)) in *.
  assert (My : t_map t1 y = Some ny) by (rewrite M1, Z.eqb_refl; reflexivity).
  set (t2 := tput y (n_set_linked (Some (p_id a0)) ny) t1).
  assert (S12 : tsim t1 t2) by (eapply tsim_put; eauto).
  assert (M2 : forall x, t_map t2 x = if x =? y then Some (n_set_linked (Some (p_id a0)) ny) else t_map t1 x) by reflexivity.
  assert (Cases : forall x m, t_map t2 x = Some m ->
     (x = y /\ n_leaf m = true /\ n_linked m = Some (p_id a0) /\ n_box m = n_box n) \/
     (x <> y /\ ~ In x (n_childs n) /\ exists m0, t_map (s_tree _ s) x = Some m0 /\ n_leaf m0 = n_leaf m /\ n_linked m0 = n_linked m /\ n_box m0 = n_box m)).
  { intros x m Hx. rewrite M2 in Hx. destruct (Z.eqb_spec x y) as [->|Hne]; [left; injection Hx as <-; auto|].
    right. split; auto. rewrite M1 in Hx. destruct (Z.eqb_spec x y); [contradiction|].
    destruct (set_mem x (n_childs n)) eqn:Es; [discriminate|]. split.
    { intros X. apply set_mem_In in X. congruence. }
    destruct ((x =? n_parent n) && only); [|eauto 10].
    destruct (t_map (s_tree _ s) x) as [m0|]; [|discriminate]. injection Hx as <-. exists m0. auto. }
  assert (Nochild : forall x m, t_map (s_tree _ s) x = Some m -> n_leaf m = false -> ~ In x (n_childs n)).
  { intros x m Hx Hml X. destruct (Hc x X) as (m' & Hm' & Hl'). congruence. }
  assert (LeafOld : forall x m, t_map (s_tree _ s) x = Some m -> n_leaf m = true -> ~ In x (n_childs n) -> t_map t2 x = Some m).
  { intros x m Hx Hml Hnc. assert (Hxy : x <> y) by (intros ->; congruence).
    rewrite M2. destruct (Z.eqb_spec x y); [contradiction|]. rewrite M1. destruct (Z.eqb_spec x y); [contradiction|].
    destruct (set_mem x (n_childs n)) eqn:Es; [apply set_mem_In in Es; contradiction|].
    destruct (Z.eqb_spec x (n_parent n)) as [->|]; cbn [andb]; auto.
    destruct (Z.eq_dec (n_parent n) u64_max) as [Hu|Hu].
    - rewrite Hu in Hx. apply (ok_ids _ TI) in Hx. pose proof (ok_next _ TI) as X. exfalso; clear -Hx X; lia.
    - destruct (ok_parent _ TI y n Hn Hu) as (_ & q & Q1 & Q2 & _). congruence. }
  assert (Kids : forall c m, In c (n_childs n) -> t_map (s_tree _ s) c = Some m -> exists p, In p (a0 :: ps') /\ n_linked m = Some (p_id p)).
  { intros c m Hcin Hm. apply In_nth_error in Hcin. destruct Hcin as (k & Hk).
    destruct (nth_error (a0 :: ps') k) as [p|] eqn:Ep.
    - exists p. split; [eapply nth_error_In; eauto|]. destruct (S11 k p Ep) as (c' & m' & A1 & A2 & A3 & A4). congruence.
    - apply nth_error_None in Ep. apply nth_error_lt in Hk. rewrite (ok_childs_len _ TI _ _ Hn) in Hk. lia. }
  assert (Kids' : forall p x m, In p (a0 :: ps') -> t_map (s_tree _ s) x = Some m -> n_leaf m = true -> n_linked m = Some (p_id p) -> In x (n_childs n)).
  { intros p x m Hp Hx Hml Hlk. apply In_nth_error in Hp. destruct Hp as (k & Hk). destruct (S11 k p Hk) as (c & m' & A1 & A2 & A3 & A4).
    assert (x = c) by (apply (so_inj _ _ _ _ I x c m m'); auto; congruence). subst. eapply nth_error_In; eauto. }
  assert (Dpm : d' (p_owner pm) (p_id pm) = Some lall) by (cbn [pm p_owner p_id]; rewrite Down, Z.eqb_refl; auto).
  assert (Doth : forall p, In p others -> d' (p_owner p) (p_id p) = s_data _ s (p_owner p) (p_id p)).
  { intros p Hp. destruct (Hoth p Hp) as (_ & H2). destruct (Z.eq_dec (p_owner p) (p_owner a0)) as [Eo|Eo].
    - rewrite Eo, Down. destruct (Z.eqb_spec (p_id p) (p_id a0)) as [E|E].
      { exfalso. apply H2. rewrite E. left; auto. }
      destruct (existsb (Z.eqb (p_id p)) (map p_id (a0 :: ps'))) eqn:X; auto. apply Exb in X. contradiction.
    - now rewrite Dother. }
  assert (Lall : lall = flat_map (patch_objs obj (s_data _ s)) (a0 :: ps')).
  { unfold lall. apply flat_map_ext_in. intros p Hp. unfold patch_objs, d0. now rewrite (Own p Hp). }
  assert (Boxes : forall p, In p (a0 :: ps') -> forall pt, in_box pt (p_box p) -> in_box pt (n_box n)).
  { intros p Hp pt Hin. apply (proj1 (get_split_partition _ Hsp)). exists (p_box p). split; auto. rewrite <- S7. now apply in_map. }
  exists (Sched t2 g' (s_next _ s) (s_idx _ s) d').
  split.
  { unfold merge_one. unfold tget at 1. rewrite Hn. cbn [rbind]. rewrite S1. cbn [rbind]. rewrite S2. cbn [rbind].
    cbn [map]. unfold aget at 1. rewrite Hi0. cbn [rbind]. cbn [map] in Edata. fold d0. rewrite Edata. cbn [rbind].
    unfold merge_patch_list. 
    assert (Eag : agets (s_global _ s) (i0 :: rest) = Ok (a0 :: ps')).
    { destruct (agets_ok (s_global _ s) (i0 :: rest)) as (r & Er & Fr).
      - intros i Hi. apply In_nth_error in Hi. destruct Hi as (k & Hk).
        destruct (Forall2_nth1 _ _ _ S3 k i Hk) as (p & _ & Hp). eapply nth_error_lt; eauto.
      - rewrite Er. f_equal. clear -Fr S3. revert r Fr. induction S3; intros r Fr; inversion Fr; subst; auto. f_equal; [congruence|auto]. }
    rewrite Eag. cbn [rbind]. rewrite Em. cbn [rbind]. rewrite aset_lt by auto. cbn [rbind]. rewrite Eg. cbn [rbind].
    rewrite E1. cbn [rbind]. unfold tmod, tget. rewrite My. cbn [rbind]. reflexivity. }
  split; [|split; [|split; [|split]]]; cbn [s_tree s_global s_next s_idx s_data].
  - constructor; cbn [s_tree s_global s_next s_idx s_data].
    + eapply tree_ok_sim; eauto.
    + eapply partition_sim; eauto.
    + apply (so_next _ _ _ _ I).
    + intros p Hp. apply InG' in Hp. destruct Hp as [->|[(a & Ha & ->)|Hp]].
      * cbn [pm p_id]. apply (so_ids _ _ _ _ I). apply S6; left; auto.
      * cbn. apply (so_ids _ _ _ _ I). apply S6; right; auto.
      * apply (so_ids _ _ _ _ I). apply Hoth; auto.
    + eapply Permutation_NoDup; [apply Permutation_map, Permutation_sym; exact Pg'|].
      cbn [map app]. rewrite map_app, map_map. cbn [pm p_id]. rewrite (map_ext _ p_id) by reflexivity. exact NDall.
    + intros x m Hx Hml. destruct (Cases x m Hx) as [(-> & A1 & A2 & A3)|(Hne & Hnc & m0 & A1 & A2 & A3 & A4)].
      * exists pm. rewrite InG'. split; auto.
      * destruct (so_leaf _ _ _ _ I x m0 A1) as (p & P1 & P2 & P3 & P4); [congruence|].
        exists p. rewrite InG', <- A3, <- A4. split; auto. apply InG in P1. destruct P1 as [P1|P1]; auto.
        exfalso. apply Hnc. apply (Kids' p x m0); congruence.
    + intros p Hp Vp. apply InG' in Hp. destruct Hp as [->|[(a & Ha & ->)|Hp]].
      * exists y, (n_set_linked (Some (p_id a0)) ny). rewrite M2, Z.eqb_refl. auto.
      * exfalso. now apply (Err a).
      * destruct (Hoth p Hp) as (Hg & Hni). destruct (so_patch _ _ _ _ I p Hg Vp) as (x & m & A1 & A2 & A3).
        exists x, m. split; auto. apply LeafOld; auto. intros X. destruct (Kids x m X A1) as (q & Q1 & Q2).
        apply Hni. assert (p_id p = p_id q) as -> by congruence. now apply in_map.
    + intros x z mx mz Hx Hz Lx Lz Hlk.
      destruct (Cases x mx Hx) as [(-> & A1 & A2 & A3)|(Hne & Hnc & m0 & A1 & A2 & A3 & A4)];
      destruct (Cases z mz Hz) as [(-> & B1 & B2 & B3)|(Hne' & Hnc' & m0' & B1 & B2 & B3 & B4)]; auto.
      * exfalso. apply Hnc'. apply (Kids' a0 z m0'); auto; [left; auto|congruence|congruence].
      * exfalso. apply Hnc. apply (Kids' a0 x m0); auto; [left; auto|congruence|congruence].
      * apply (so_inj _ _ _ _ I x z m0 m0'); auto; congruence.
    + intros x m Hx Hml. destruct (Cases x m Hx) as [(-> & A1 & A2 & A3)|(Hne & Hnc & m0 & A1 & A2 & A3 & A4)]; [congruence|].
      rewrite <- A3. apply (so_inner _ _ _ _ I x m0); congruence.
    + intros r id Hr. split.
      * intros Hd. destruct (Z.eq_dec r (p_owner a0)) as [->|Hro].
        -- rewrite Down in Hd. destruct (Z.eqb_spec id (p_id a0)) as [Eid|Hid].
           { exists pm. rewrite InG'. cbn [pm p_owner p_id]. auto. }
           destruct (existsb (Z.eqb id) (map p_id (a0 :: ps'))) eqn:X; [congruence|].
           destruct (proj1 (so_data _ _ _ _ I (p_owner a0) id Hr) Hd) as (p & Q1 & Q2 & Q3).
           exists p. rewrite InG'. split; auto. apply InG in Q1. destruct Q1 as [Q1|Q1]; auto.
           exfalso. assert (In id (map p_id (a0 :: ps'))) by (rewrite <- Q3; now apply in_map). apply Exb in H. congruence.
        -- rewrite (Dother r Hro) in Hd. destruct (proj1 (so_data _ _ _ _ I r id Hr) Hd) as (p & Q1 & Q2 & Q3).
           exists p. rewrite InG'. split; auto. apply InG in Q1. destruct Q1 as [Q1|Q1]; auto.
           exfalso. rewrite (Own p Q1) in Q2. congruence.
      * intros (p & Q1 & Q2 & Q3). apply InG' in Q1. destruct Q1 as [->|[(a & Ha & ->)|Hp]].
        -- rewrite <- Q2, <- Q3, Dpm. discriminate.
        -- exfalso. cbn in Q2. clear -Q2 Hr HW. lia.
        -- rewrite <- Q2, <- Q3, (Doth p Hp). apply (so_data _ _ _ _ I); [congruence|]. exists p. split; auto. apply Hoth; auto.
    + intros p o Hp Vp Ho. apply InG' in Hp. destruct Hp as [->|[(a & Ha & ->)|Hp]].
      * unfold patch_objs in Ho. rewrite Dpm in Ho. cbn [pm p_box]. rewrite Lall in Ho. apply in_flat_map in Ho.
        destruct Ho as (q & Hq & Hoq). apply (Boxes q Hq). destruct (S6 q Hq) as (G1 & G2). eapply so_in; eauto.
      * exfalso. now apply (Err a).
      * unfold patch_objs in Ho. rewrite (Doth p Hp) in Ho. destruct (Hoth p Hp) as (Hg & _). eapply so_in; eauto.
  - rewrite (world_perm obj W (Sched t2 g' (s_next _ s) (s_idx _ s) d') _ Pg'). rewrite (world_perm obj W s _ Pg). cbn [s_data].
    change (a0 :: ps' ++ others) with ((a0 :: ps') ++ others). rewrite (flat_map_app _ (a0 :: ps') others).
    cbn [flat_map]. rewrite flat_map_app. rewrite (flat_map_nil _ (map set_err_mode ps')).
    2: { intros a Ha. apply in_map_iff in Ha. destruct Ha as (b & <- & _).
         destruct (validb (set_err_mode b)) eqn:X; auto. apply validb_spec in X. exfalso. now apply (Err b). }
    cbn [app]. apply Permutation_app.
    + apply Permutation_refl'. rewrite (proj2 (validb_spec W pm) Vpm). unfold patch_objs at 1. rewrite Dpm, Lall.
      transitivity (flat_map (fun p => if validb p then patch_objs obj (s_data obj s) p else []) (a0 :: ps')); [|reflexivity].
      apply flat_map_ext_in. intros p Hp. rewrite (proj2 (validb_spec W p)); auto. apply S6; auto.
    + apply Permutation_refl'. apply flat_map_ext_in. intros p Hp. destruct (validb p); auto. unfold patch_objs. now rewrite Doth.
  - intros pt. unfold Sched_spec.covered; cbn [s_global]. split.
    + intros (p & Q1 & Q2 & Q3). apply InG' in Q1. destruct Q1 as [->|[(a & Ha & ->)|Hp]].
      * cbn [pm p_box] in Q3. apply (proj1 (get_split_partition _ Hsp)) in Q3. destruct Q3 as (b & Hb & Hin).
        rewrite <- S7 in Hb. apply in_map_iff in Hb. destruct Hb as (q & <- & Hq). destruct (S6 q Hq). eauto.
      * exfalso. now apply (Err a).
      * exists p. split; auto. apply Hoth; auto.
    + intros (p & Q1 & Q2 & Q3). apply InG in Q1. destruct Q1 as [Q1|Q1].
      * exists pm. rewrite InG'. split; auto. split; auto. cbn [pm p_box]. eapply Boxes; eauto.
      * exists p. rewrite InG'. auto.
  - intros i p Hp. cbn [s_global s_idx] in *. destruct (in_dec Nat.eq_dec i (i0 :: rest)) as [Hin|Hin].
    + destruct Hin as [<-|Hin].
      * rewrite Gi0 in Hp. injection Hp as <-. cbn [pm p_id]. apply Hidx; auto.
      * destruct (nth_error (s_global _ s) i) as [q|] eqn:Eq.
        -- rewrite (Grest i q Hin Eq) in Hp. injection Hp as <-. cbn. apply Hidx; auto.
        -- exfalso. apply nth_error_None in Eq. apply nth_error_lt in Hp. lia.
    + rewrite Goth in Hp by auto. apply Hidx; auto.
  - intros y' Hne Hy'. destruct (proj1 (ok_ponly _ TI y') Hy') as (n' & Hn' & Hl' & Hc').
    assert (My' : t_map t2 y' = Some n').
    { rewrite M2. destruct (Z.eqb_spec y' y); [contradiction|]. rewrite M1. destruct (Z.eqb_spec y' y); [contradiction|].
      destruct (set_mem y' (n_childs n)) eqn:Es; [apply set_mem_In in Es; exfalso; eapply Nochild; eauto|].
      destruct (Z.eqb_spec y' (n_parent n)) as [->|]; cbn [andb]; auto.
      exfalso. assert (Hu : n_parent n <> u64_max).
      { intros X. rewrite X in Hn'. apply (ok_ids _ TI) in Hn'. pose proof (ok_next _ TI) as Q. clear -Hn' Q; lia. }
      destruct (ok_parent _ TI y n Hn Hu) as (_ & q & Q1 & Q2 & Q3). rewrite Hn' in Q1. injection Q1 as <-.
      destruct (Hc' y Q3) as (m & Hm & Hml). congruence. }
    split.
    + destruct S12 as (_ & _ & <- & _). apply Po1. left. auto.
    + intros Hs2 nn c c' m m' p p' B1 B2 B3 B4 B5 B6 B7 B8 B9. cbn [s_tree s_global] in *.
      rewrite My' in B1. injection B1 as <-.
      assert (Ck : forall c m, In c (n_childs n') -> t_map t2 c = Some m -> t_map (s_tree _ s) c = Some m /\ ~ In c (n_childs n)).
      { intros c1 m1 Hc1 Hm1. destruct (Hc' c1 Hc1) as (m2 & Hm2 & Hml2).
        assert (Hnc : ~ In c1 (n_childs n)).
        { intros X. apply In_nth_error in X, Hc1. destruct X as (k & X). destruct Hc1 as (k' & X').
          destruct (ok_children _ TI y n Hn Hl) as (_ & K). destruct (K k c1 X) as (q & Q1 & Q2 & _).
          destruct (ok_children _ TI y' n' Hn' Hl') as (_ & K'). destruct (K' k' c1 X') as (q' & Q1' & Q2' & _). congruence. }
        split; auto. rewrite (LeafOld c1 m2 Hm2 Hml2 Hnc) in Hm1. congruence. }
      destruct (Ck c m B2 B4) as (C1 & C2). destruct (Ck c' m' B3 B5) as (C3 & C4).
      assert (Pk : forall c m p, In c (n_childs n') -> ~ In c (n_childs n) -> t_map (s_tree _ s) c = Some m -> n_linked m = Some (p_id p) -> In p g' -> In p (s_global _ s)).
      { intros c1 m1 p1 H1 H2 H3 H4 H5.
        assert (Hml : n_leaf m1 = true) by (destruct (Hc' c1 H1) as (m2 & X1 & X2); congruence).
        apply InG' in H5. destruct H5 as [->|[(a & Ha & ->)|Hp]].
        - exfalso. apply H2. apply (Kids' a0 c1 m1); auto. left; auto.
        - exfalso. apply H2. apply (Kids' a c1 m1); auto. right; auto.
        - apply Hoth; auto. }
      apply (Hs2 n' c c' m m' p p'); auto; eapply Pk; [exact B2| | | | |exact B3| | | |]; eauto.
Qed.

Lemma merges_ok : Z.of_nat W <= u32_max -> forall rq (s : sched), sched_ok s -> idx_complete s -> NoDup rq ->
  (forall y, In y rq -> In y (t_ponly (s_tree _ s)) /\ same_owner s y) ->
  exists s', merge_patches obj rq s = Ok s' /\ sched_ok s' /\ Permutation (world s') (world s) /\
    (forall pt, covered s' pt <-> covered s pt).
Proof.
  intros HW. induction rq as [|y rq IH]; intros s I Hidx N H; unfold merge_patches; cbn [rfold].
  - exists s. split; auto. split; auto. split; auto. tauto.
  - inversion N as [|? ? N1 N2]; subst. destruct (H y (or_introl eq_refl)) as (H1 & H2).
    destruct (merge_one_ok s y HW I Hidx H1 H2) as (s1 & E & I1 & P1 & C1 & X1 & K1). rewrite E. cbn [rbind].
    destruct (IH s1 I1 X1 N2) as (s' & E' & I' & P' & C').
    { intros y' Hy'. destruct (H y' (or_intror Hy')) as (A & B).
      assert (Hne : y' <> y) by (intros ->; contradiction). destruct (K1 y' Hne A) as (K2 & K3). auto. }
    exists s'. split; [exact E'|]. split; auto. split; [etransitivity; eauto|]. intros pt. rewrite C'. auto.
Qed.
End Merge.
