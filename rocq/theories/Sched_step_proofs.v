(** Proofs about scheduler_step as a whole. *)
From Verif Require Import Base Patch Patch_spec Patch_proofs PatchTree PatchTree_spec PatchTree_proofs
  Sched Sched_spec Sched_change_proofs Sched_proofs.
Local Open Scope Z_scope.

(** * The index map *)
Lemma build_idx_notin : forall l i m id, ~ In id (map p_id l) -> build_idx_from i l m id = m id.
Proof.
  induction l as [|p l IH]; intros i m id H; cbn [build_idx_from]; auto.
  cbn [map In] in H. rewrite IH by tauto. unfold idx_set. destruct (Z.eqb_spec id (p_id p)); auto. subst; tauto.
Qed.
Lemma build_idx_from_spec : forall l i m, NoDup (map p_id l) ->
  (forall k p, nth_error l k = Some p -> build_idx_from i l m (p_id p) = Some (i + k)%nat).
Proof.
  induction l as [|p l IH]; intros i m N k q H; [destruct k; discriminate|].
  cbn [map] in N. inversion N as [|? ? N1 N2]; subst. cbn [build_idx_from]. destruct k as [|k]; cbn [nth_error] in H.
  - injection H as <-. rewrite build_idx_notin by auto. unfold idx_set. rewrite Z.eqb_refl. f_equal; lia.
  - rewrite (IH (S i) _ N2 k q H). f_equal; lia.
Qed.
Lemma build_idx_complete g : NoDup (map p_id g) -> forall i p, nth_error g i = Some p -> build_global_idx_map g (p_id p) = Some i.
Proof. intros N i p H. apply (build_idx_from_spec g 0 (fun _ => None) N i p H). Qed.
Lemma build_idx_sound g id i : NoDup (map p_id g) -> build_global_idx_map g id = Some i ->
  exists p, nth_error g i = Some p /\ p_id p = id.
Proof.
  intros N H. destruct (in_dec Z.eq_dec id (map p_id g)) as [F|F].
  - apply in_map_iff in F. destruct F as (p & <- & Hp). apply In_nth_error in Hp. destruct Hp as (k & Hk).
    rewrite (build_idx_complete g N k p Hk) in H. injection H as <-. eauto.
  - unfold build_global_idx_map in H. rewrite build_idx_notin in H by auto. discriminate.
Qed.

(** * build_global *)
Lemma filter_or {A} (f g : A -> bool) l : (forall a, f a = true -> g a = true -> False) ->
  Permutation (filter f l ++ filter g l) (filter (fun a => f a || g a) l).
Proof.
  intros H. induction l as [|a l IH]; cbn [filter app]; auto.
  destruct (f a) eqn:F, (g a) eqn:G; cbn [orb app]; auto.
  - exfalso; eauto.
  - rewrite <- Permutation_middle. auto.
Qed.
Lemma filter_parts {A} (o : A -> Z) (l : list A) rs : NoDup rs ->
  Permutation (flat_map (fun r => filter (fun p => o p =? r) l) rs) (filter (fun p => existsb (Z.eqb (o p)) rs) l).
Proof.
  induction rs as [|r rs IH]; intros N; cbn [flat_map existsb].
  - induction l; cbn; auto.
  - inversion N as [|? ? N1 N2]; subst. rewrite IH by auto. rewrite filter_or; auto.
    intros a Ha Hb. apply existsb_exists in Hb. destruct Hb as (x & Hx & E). apply N1.
    apply Z.eqb_eq in Ha, E. congruence.
Qed.
Lemma build_global_perm W loads g :
  Permutation (build_global W loads g)
    (map (fun p => set_load (loads (p_id p)) (set_pack u64_max p)) (filter (validb W) g)).
Proof.
  unfold build_global, build_local.
  rewrite (flat_map_ext_in _ (fun r => map (fun p => set_load (loads (p_id p)) (set_pack u64_max p)) (filter (fun p => p_owner p =? r) g))).
  2: { intros r _. rewrite map_map. reflexivity. }
  rewrite <- (flat_map_concat_map (fun x => x) _) || idtac.
  assert (E : forall rs, flat_map (fun r => map (fun p => set_load (loads (p_id p)) (set_pack u64_max p)) (filter (fun p => p_owner p =? r) g)) rs
      = map (fun p => set_load (loads (p_id p)) (set_pack u64_max p)) (flat_map (fun r => filter (fun p => p_owner p =? r) g) rs)).
  { induction rs as [|r rs IH]; cbn [flat_map]; auto. now rewrite map_app, IH. }
  rewrite E. apply Permutation_map. rewrite filter_parts by apply ranks_NoDup.
  rewrite (filter_ext _ (validb W)); auto. intros p. unfold validb.
  destruct ((0 <=? p_owner p) && (p_owner p <? Z.of_nat W)) eqn:V.
  - apply existsb_exists. exists (p_owner p). split; [apply ranks_In; lia|apply Z.eqb_refl].
  - destruct (existsb (Z.eqb (p_owner p)) (ranks W)) eqn:X; auto. apply existsb_exists in X.
    destruct X as (r & Hr & E2). apply ranks_In in Hr. lia.
Qed.

(** * Trees that differ only in loads *)
Definition lsim (t t' : ptree) : Prop :=
  t_roots t = t_roots t' /\ t_leaf t = t_leaf t' /\ t_ponly t = t_ponly t' /\ t_next t = t_next t' /\
  forall x, option_map (n_set_load 0) (t_map t x) = option_map (n_set_load 0) (t_map t' x).
Lemma lsim_refl t : lsim t t.
Proof. split; [|split; [|split; [|split]]]; auto. Qed.
Lemma lsim_trans t1 t2 t3 : lsim t1 t2 -> lsim t2 t3 -> lsim t1 t3.
Proof.
  intros (A & B & C & D & E) (A' & B' & C' & D' & E').
  split; [|split; [|split; [|split]]]; try congruence; intros; now rewrite E.
Qed.
Lemma lsim_sym t t' : lsim t t' -> lsim t' t.
Proof. intros (A & B & C & D & E). split; [|split; [|split; [|split]]]; auto. Qed.
Lemma lsim_get t t' x n : lsim t t' -> t_map t x = Some n -> exists v, t_map t' x = Some (n_set_load v n).
Proof.
  intros (_ & _ & _ & _ & E) H. specialize (E x). rewrite H in E. cbn [option_map] in E.
  destruct (t_map t' x) as [m|]; [|discriminate]. exists (n_load m).
  apply (f_equal (fun o => match o with Some a => n_set_load (n_load m) a | None => m end)) in E.
  unfold n_set_load in E |- *; cbn in E. f_equal. destruct m; cbn in *. congruence.
Qed.
Lemma lsim_put t x n v : t_map t x = Some n -> lsim t (tput x (n_set_load v n) t).
Proof.
  intros H. split; [|split; [|split; [|split]]]; auto. intros y. cbn. unfold map_set.
  destruct (Z.eqb_spec y x) as [->|]; auto. now rewrite H.
Qed.
Lemma lsim_tsim t t' : lsim t t' -> tsim t t'.
Proof.
  intros L. pose proof L as (A & B & C & D & E). split; [|split; [|split; [|split]]]; auto. intros x.
  destruct (t_map t x) as [n|] eqn:Hn.
  - destruct (lsim_get _ _ _ _ L Hn) as (v & ->). reflexivity.
  - specialize (E x). rewrite Hn in E. destruct (t_map t' x); [discriminate|reflexivity].
Qed.

(** a pass over nodes whose new load does not depend on the pass *)
Lemma load_fold lo (ld : Z -> Z) : forall ids t, NoDup ids ->
  (forall t' x, lsim t t' -> (forall y, ~ In y ids -> t_map t' y = t_map t y) -> In x ids ->
     exists n, t_map t x = Some n /\ update_node_at lo x t' = Ok (tput x (n_set_load (ld x) n) t')) ->
  exists t', rfold (update_node_at lo) ids t = Ok t' /\ lsim t t' /\
    (forall y, ~ In y ids -> t_map t' y = t_map t y) /\
    (forall x n, In x ids -> t_map t x = Some n -> t_map t' x = Some (n_set_load (ld x) n)).
Proof.
  intros ids t N H.
  assert (G : forall todo done t1, NoDup (done ++ todo) -> (forall x, In x (done ++ todo) -> In x ids) ->
    lsim t t1 -> (forall y, ~ In y done -> t_map t1 y = t_map t y) ->
    (forall x n, In x done -> t_map t x = Some n -> t_map t1 x = Some (n_set_load (ld x) n)) ->
    exists t', rfold (update_node_at lo) todo t1 = Ok t' /\ lsim t t' /\
      (forall y, ~ In y (done ++ todo) -> t_map t' y = t_map t y) /\
      (forall x n, In x (done ++ todo) -> t_map t x = Some n -> t_map t' x = Some (n_set_load (ld x) n))).
  { induction todo as [|a todo IH]; intros done t1 Nd Hin L A B; cbn [rfold].
    - exists t1. rewrite app_nil_r. auto.
    - assert (Ha : In a ids) by (apply Hin, in_or_app; right; left; auto).
      destruct (H t1 a L) as (n & Hn & E); auto.
      { intros y Hy. apply A. intros F. apply Hy, Hin, in_or_app; auto. }
      rewrite E. cbn [rbind].
      assert (Hna : ~ In a done) by (apply NoDup_remove_2 in Nd; intros F; apply Nd, in_or_app; auto).
      assert (M : forall y, t_map (tput a (n_set_load (ld a) n) t1) y = if y =? a then Some (n_set_load (ld a) n) else t_map t1 y) by reflexivity.
      destruct (IH (done ++ [a]) (tput a (n_set_load (ld a) n) t1)) as (t' & E' & L' & A' & B').
      + rewrite <- app_assoc; auto.
      + rewrite <- app_assoc; auto.
      + eapply lsim_trans; [exact L|]. apply lsim_put. rewrite A; auto.
      + intros y Hy. rewrite M. destruct (Z.eqb_spec y a) as [->|]; [exfalso; apply Hy, in_or_app; right; left; auto|].
        apply A. intros F; apply Hy, in_or_app; auto.
      + intros x m Hx Hm. rewrite M. destruct (Z.eqb_spec x a) as [->|]; [congruence|].
        apply in_app_or in Hx. destruct Hx as [Hx|[Hx|[]]]; [auto|congruence].
      + exists t'. rewrite <- app_assoc in A', B'. auto. }
  destruct (G ids [] t) as (t' & E & L & A & B); auto.
  - apply lsim_refl.
  - contradiction.
  - exists t'. auto.
Qed.

(** the sum over the children *)
Lemma sum_children t (ld : Z -> Z) : forall cs acc,
  (forall c, In c cs -> exists m, t_map t c = Some m /\ n_load m = ld c /\ 0 <= ld c < 2 ^ 61) ->
  0 <= acc -> acc + Z.of_nat (length cs) * 2 ^ 61 <= 2 ^ 64 ->
  exists sum, rfold (fun c '(err, s) => m <- tget t c ;; Ok (orb err (n_load m =? u64_max), w64 (s + n_load m))) cs (false, acc)
     = Ok (false, sum) /\ acc <= sum /\ (forall c, In c cs -> ld c <= sum).
Proof.
  induction cs as [|c cs IH]; intros acc Hc H0 Hb; cbn [rfold].
  - exists acc. split; auto. split; [lia|contradiction].
  - destruct (Hc c (or_introl eq_refl)) as (m & Hm & El & Hr). unfold tget at 1. rewrite Hm. cbn [rbind]. rewrite El.
    cbn [length] in Hb. rewrite Nat2Z.inj_succ in Hb.
    assert (E : ld c =? u64_max = false) by (apply Z.eqb_neq; unfold u64_max; clear -Hr; lia). rewrite E. cbn [orb].
    assert (Ew : w64 (acc + ld c) = acc + ld c).
    { apply w64_small. clear -Hb Hr H0. lia. }
    rewrite Ew. destruct (IH (acc + ld c)) as (sum & Es & S1 & S2); auto.
    + intros c' Hc'. apply Hc; right; auto.
    + clear -H0 Hr; lia.
    + clear -Hb Hr. lia.
    + exists sum. split; auto. split; [clear -S1 Hr; lia|]. intros c' [<-|Hc']; [clear -S1 H0; lia|auto].
Qed.

Lemma request_spec p t : forall ids, (forall x, In x ids -> exists n, t_map t x = Some n) ->
  exists r, request p t ids = Ok r /\ (NoDup ids -> NoDup r) /\ (length r <= length ids)%nat /\
    forall x, In x r <-> In x ids /\ exists n, t_map t x = Some n /\ p (n_load n) = true.
Proof.
  induction ids as [|a ids IH]; intros H; cbn [request].
  - exists []. cbn. split; auto. split; auto. split; auto. intros x. tauto.
  - destruct (H a (or_introl eq_refl)) as (n & Hn). unfold tget. rewrite Hn. cbn [rbind].
    destruct IH as (r & E & N & Le & S); [intros; apply H; right; auto|]. rewrite E. cbn [rbind].
    eexists. split; [reflexivity|]. destruct (p (n_load n)) eqn:Ep.
    + split; [|split].
      * intros Nd. inversion Nd; subst. constructor; auto. rewrite S. tauto.
      * cbn; lia.
      * intros x. cbn [In]. rewrite S. split.
        -- intros [<-|(A & B)]; eauto.
        -- intros ([<-|A] & B); auto.
    + split; [|split].
      * intros Nd. inversion Nd; auto.
      * cbn; lia.
      * intros x. cbn [In]. rewrite S. split; [tauto|]. intros ([<-|A] & B); auto. exfalso. destruct B as (n' & B1 & B2). congruence.
Qed.

Section Step.
Variable obj : Type.
Variable pos : obj -> v3.
Variable W : nat.
Notation sched := (sched obj).
Notation sched_ok := (sched_ok obj pos W).
Notation world := (world_objects obj W).
Notation validb := (validb W).
Notation valid := (valid_patch W).
Notation covered := (covered obj W).
Notation idx_sound := (idx_sound obj).
Notation Sched := (Sched obj).

Definition idx_complete (s : sched) : Prop :=
  forall i p, nth_error (s_global _ s) i = Some p -> s_idx _ s (p_id p) = Some i.

(** Changing packs and loads, dropping invalid patches, changing the order of the list: nothing that
    matters. *)
Lemma relabel_ok (s : sched) (f : patch -> patch) g' t' m' :
  sched_ok s -> (forall p, p_id (f p) = p_id p /\ p_box (f p) = p_box p /\ p_owner (f p) = p_owner p) ->
  Permutation g' (map f (filter validb (s_global _ s))) -> lsim (s_tree _ s) t' ->
  let s' := Sched t' g' (s_next _ s) m' (s_data _ s) in
  sched_ok s' /\ Permutation (world s') (world s) /\ (forall pt, covered s' pt <-> covered s pt).
Proof.
  intros I Hf P L. cbn zeta.
  assert (InG : forall p', In p' g' <-> exists p, p' = f p /\ In p (s_global _ s) /\ valid p).
  { intros p'. rewrite P. rewrite in_map_iff. split.
    - intros (p & <- & H). apply filter_In in H. destruct H as (H1 & H2). apply validb_spec in H2. eauto.
    - intros (p & -> & H1 & H2). exists p. split; auto. apply filter_In. split; auto. now apply validb_spec. }
  assert (Vf : forall p, valid (f p) <-> valid p) by (intros p; unfold valid_patch; destruct (Hf p) as (_ & _ & ->); tauto).
  pose proof (lsim_sym _ _ L) as L'.
  split; [|split].
  - constructor; cbn [s_tree s_global s_next s_idx s_data].
    + eapply tree_ok_sim; [apply lsim_tsim; exact L|apply (so_tree _ _ _ _ I)].
    + eapply partition_sim; [apply lsim_tsim; exact L|apply (so_part _ _ _ _ I)].
    + apply (so_next _ _ _ _ I).
    + intros p' Hp. apply InG in Hp. destruct Hp as (p & -> & H1 & H2). destruct (Hf p) as (-> & _). apply (so_ids _ _ _ _ I); auto.
    + eapply Permutation_NoDup; [apply Permutation_map, Permutation_sym; exact P|]. rewrite map_map.
      rewrite (map_ext _ p_id) by (intros; apply Hf).
      pose proof (so_nodup _ _ _ _ I) as N. revert N. clear. induction (s_global _ s) as [|a l IH]; cbn; intros N; auto.
      inversion N; subst. destruct (validb a); cbn; auto. constructor; auto. intros F. apply H1.
      apply in_map_iff in F. destruct F as (b & <- & Hb). apply filter_In in Hb. apply in_map. tauto.
    + intros x n Hx Hl. destruct (lsim_get _ _ _ _ L' Hx) as (v & Hx').
      destruct (so_leaf _ _ _ _ I x _ Hx') as (p & A1 & A2 & A3 & A4); auto.
      exists (f p). destruct (Hf p) as (F1 & F2 & F3). rewrite InG, F1, F2, Vf. split; eauto.
    + intros p' Hp Vp. apply InG in Hp. destruct Hp as (p & -> & H1 & H2).
      destruct (so_patch _ _ _ _ I p H1 H2) as (x & n & A1 & A2 & A3).
      destruct (lsim_get _ _ _ _ L A1) as (v & Hx'). exists x, (n_set_load v n). destruct (Hf p) as (-> & _). auto.
    + intros x y n m Hx Hy. destruct (lsim_get _ _ _ _ L' Hx) as (v & Hx'). destruct (lsim_get _ _ _ _ L' Hy) as (w & Hy').
      intros A1 A2 A3. apply (so_inj _ _ _ _ I x y _ _ Hx' Hy'); auto.
    + intros x n Hx Hl. destruct (lsim_get _ _ _ _ L' Hx) as (v & Hx'). apply (so_inner _ _ _ _ I x _ Hx'); auto.
    + intros r id Hr. rewrite (so_data _ _ _ _ I r id Hr). split.
      * intros (p & A1 & A2 & A3). exists (f p). destruct (Hf p) as (-> & _ & ->). rewrite InG. split; auto.
        exists p. split; auto. split; auto. unfold valid_patch. rewrite A2. auto.
      * intros (p' & A1 & A2 & A3). apply InG in A1. destruct A1 as (p & -> & H1 & H2).
        destruct (Hf p) as (F1 & _ & F3). exists p. split; auto. split; congruence.
    + intros p' o Hp Vp Ho. apply InG in Hp. destruct Hp as (p & -> & H1 & H2). unfold patch_objs in Ho.
      destruct (Hf p) as (F1 & F2 & F3). rewrite F1, F3 in Ho. rewrite F2. eapply so_in; eauto.
  - rewrite (world_perm obj W (Sched t' g' (s_next _ s) m' (s_data _ s)) _ P). cbn [s_data]. unfold world_objects.
    rewrite flat_map_concat_map, map_map, <- flat_map_concat_map.
    rewrite (flat_map_ext_in _ (patch_objs obj (s_data _ s))); auto.
    intros p Hp. apply filter_In in Hp. destruct Hp as (_ & V). destruct (Hf p) as (F1 & _ & F3).
    unfold validb in V |- *. rewrite F3, V. unfold patch_objs. now rewrite F1, F3.
  - intros pt. unfold Sched_spec.covered; cbn [s_global]. split.
    + intros (p' & A1 & A2 & A3). apply InG in A1. destruct A1 as (p & -> & H1 & H2).
      destruct (Hf p) as (_ & F2 & _). rewrite F2 in A3. eauto.
    + intros (p & A1 & A2 & A3). exists (f p). rewrite InG, Vf. destruct (Hf p) as (_ & -> & _). split; eauto.
Qed.

(** * The load reduction *)
Lemma reduction_ok (s : sched) (loads : Z -> Z) :
  sched_ok s -> idx_complete s -> (forall p, In p (s_global _ s) -> p_load p = loads (p_id p)) ->
  (forall id, 0 <= loads id < 2 ^ 61) ->
  exists t', partial_values_reduction (load_of (s_idx _ s) (s_global _ s)) (s_tree _ s) = Ok t' /\
    lsim (s_tree _ s) t' /\
    (forall x n p, t_map t' x = Some n -> n_leaf n = true -> In p (s_global _ s) -> n_linked n = Some (p_id p) ->
       n_load n = loads (p_id p)) /\
    (forall y ny c nc, In y (t_ponly (s_tree _ s)) -> t_map t' y = Some ny -> In c (n_childs ny) -> t_map t' c = Some nc ->
       n_load nc <= n_load ny).
Proof.
  intros I Hidx Hload Hr. pose proof (so_tree _ _ _ _ I) as TI. destruct (ok_nodup _ TI) as (_ & NL & NP).
  assert (Hu : forall p, In p (s_global _ s) -> p_id p =? u64_max = false).
  { intros p Hp. pose proof (so_ids _ _ _ _ I p Hp) as H. pose proof (so_next _ _ _ _ I). apply Z.eqb_neq. clear -H H0. lia. }
  set (lk := fun x => match t_map (s_tree _ s) x with Some n => match n_linked n with Some l => loads l | None => 0 end | None => 0 end).
  assert (Hlo : forall p, In p (s_global _ s) -> load_of (s_idx _ s) (s_global _ s) (p_id p) = Ok (loads (p_id p))).
  { intros p Hp. pose proof (Hload p Hp) as Hlp. apply In_nth_error in Hp. destruct Hp as (i & Hi). unfold load_of. rewrite (Hidx i p Hi).
    unfold aget. rewrite Hi. cbn [rbind]. now rewrite Hlp. }
  destruct (load_fold (load_of (s_idx _ s) (s_global _ s)) lk (t_leaf (s_tree _ s)) (s_tree _ s) NL) as (t1 & E1 & L1 & A1 & B1).
  { intros t' x L Ho Hx. apply (ok_leaf _ TI) in Hx. destruct Hx as (n & Hn & Hl).
    exists n. split; auto. destruct (so_leaf _ _ _ _ I x n Hn Hl) as (p & P1 & P2 & P3 & P4).
    destruct (lsim_get _ _ _ _ L Hn) as (v & Hv). unfold update_node_at, tget. rewrite Hv. cbn [rbind].
    unfold update_ptnode. cbn [n_set_load n_linked]. rewrite P3. rewrite (Hu p P1). cbn [negb].
    rewrite (Hlo p P1). cbn [rbind]. f_equal. unfold lk. rewrite Hn, P3. reflexivity. }
  assert (Leaf1 : forall c, is_leaf_of (s_tree _ s) c -> exists m, t_map t1 c = Some m /\ n_load m = lk c /\ 0 <= lk c < 2 ^ 61).
  { intros c (m & Hm & Hl). exists (n_set_load (lk c) m). split; [|split; [reflexivity|]].
    - apply B1; auto. apply (ok_leaf _ TI). exists m; auto.
    - unfold lk. rewrite Hm. destruct (so_leaf _ _ _ _ I c m Hm Hl) as (p & _ & _ & -> & _). apply Hr. }
  assert (Only : forall y, In y (t_ponly (s_tree _ s)) -> exists n, t_map (s_tree _ s) y = Some n /\ n_leaf n = false /\
     length (n_childs n) = 8%nat /\ forall c, In c (n_childs n) -> is_leaf_of (s_tree _ s) c).
  { intros y Hy. apply (ok_ponly _ TI) in Hy. destruct Hy as (n & Hn & Hl & Hc). exists n. split; auto. split; auto. split; auto.
    eapply ok_childs_len; eauto. }
  assert (SumEx : forall y n, In y (t_ponly (s_tree _ s)) -> t_map (s_tree _ s) y = Some n ->
     exists sum, rfold (fun c '(err, s) => m <- tget t1 c ;; Ok (orb err (n_load m =? u64_max), w64 (s + n_load m))) (n_childs n) (false, 0) = Ok (false, sum) /\
       forall c, In c (n_childs n) -> lk c <= sum).
  { intros y n Hy Hn. destruct (Only y Hy) as (n' & Hn' & Hl & H8 & Hc). rewrite Hn in Hn'. injection Hn' as <-.
    destruct (sum_children t1 lk (n_childs n) 0) as (sum & Es & _ & S2).
    - intros c Hcc. apply Leaf1; auto.
    - lia.
    - rewrite H8. clear. lia.
    - eauto. }
  set (sm := fun y => match t_map (s_tree _ s) y with
     | Some n => match rfold (fun c '(err, s) => m <- tget t1 c ;; Ok (orb err (n_load m =? u64_max), w64 (s + n_load m))) (n_childs n) (false, 0) with
                 | Ok (_, v) => v | _ => 0 end
     | None => 0 end).
  destruct (load_fold (load_of (s_idx _ s) (s_global _ s)) sm (t_ponly t1) t1) as (t2 & E2 & L2 & A2 & B2).
  { destruct L1 as (_ & _ & <- & _). exact NP. }
  { intros t' x L Ho Hx. assert (Hx0 : In x (t_ponly (s_tree _ s))) by (destruct L1 as (_ & _ & -> & _); exact Hx).
    destruct (Only x Hx0) as (n & Hn & Hl & H8 & Hc).
    destruct (lsim_get _ _ _ _ L1 Hn) as (v & Hv). exists (n_set_load v n). split; auto.
    destruct (lsim_get _ _ _ _ L Hv) as (v' & Hv'). unfold update_node_at, tget at 1. rewrite Hv'. cbn [rbind].
    unfold update_ptnode. cbn [n_set_load n_linked n_childs].
    rewrite (so_inner _ _ _ _ I x n Hn Hl). rewrite Z.eqb_refl. cbn [negb].
    destruct (n_childs n) as [|c0 cs] eqn:Ec; [discriminate|]. cbn [nth_error].
    assert (Hc0 : c0 =? u64_max = false).
    { destruct (Hc c0 (or_introl eq_refl)) as (m & Hm & _). apply (ok_ids _ TI) in Hm. pose proof (ok_next _ TI). apply Z.eqb_neq. clear -Hm H. lia. }
    rewrite Hc0. rewrite <- Ec in *. rewrite firstn_all2 by (rewrite H8; lia).
    destruct (SumEx x n Hx0 Hn) as (sum & Es & _).
    assert (Ecg : forall cs acc, (forall c, In c cs -> t_map t' c = t_map t1 c) ->
       rfold (fun c '(err, s) => m <- tget t' c ;; Ok (orb err (n_load m =? u64_max), w64 (s + n_load m))) cs acc =
       rfold (fun c '(err, s) => m <- tget t1 c ;; Ok (orb err (n_load m =? u64_max), w64 (s + n_load m))) cs acc).
    { induction cs0 as [|a cs0 IHc]; intros [e0 a0] Hcs; cbn [rfold]; auto. unfold tget at 1 3. rewrite (Hcs a (or_introl eq_refl)).
      destruct (t_map t1 a); cbn [rbind]; auto. apply IHc. intros; apply Hcs; right; auto. }
    rewrite Ecg.
    2: { intros c Hcc. apply Ho. intros F.
         assert (F' : In c (t_ponly (s_tree _ s))) by (destruct L1 as (_ & _ & -> & _); exact F).
         destruct (Only c F') as (m & Hm & Hml & _). destruct (Hc c Hcc) as (m' & Hm' & Hml'). congruence. }
    rewrite Es. cbn [rbind]. f_equal. unfold sm. rewrite Hn, Es. reflexivity. }
  assert (LL : lsim (s_tree _ s) t2) by (eapply lsim_trans; eauto).
  assert (LeafLoad : forall c m, is_leaf_of (s_tree _ s) c -> t_map t2 c = Some m -> n_load m = lk c).
  { intros c m Hc Hm. rewrite A2 in Hm.
    - destruct (Leaf1 c Hc) as (m' & Hm' & E & _). congruence.
    - intros F. assert (F' : In c (t_ponly (s_tree _ s))) by (destruct L1 as (_ & _ & -> & _); exact F).
      destruct (Only c F') as (q & Hq & Hql & _). destruct Hc as (m' & Hm' & Hml'). congruence. }
  exists t2. split.
  { unfold partial_values_reduction. rewrite E1. cbn [rbind]. exact E2. }
  split; auto. split.
  - intros x n p Hx Hl Hp Hk. destruct (lsim_get _ _ _ _ (lsim_sym _ _ LL) Hx) as (v & Hv).
    rewrite (LeafLoad x n); auto.
    + unfold lk. rewrite Hv. cbn [n_set_load n_linked]. now rewrite Hk.
    + eexists. split; [exact Hv|]. exact Hl.
  - intros y ny c nc Hy Hny Hc Hnc. destruct (Only y Hy) as (n & Hn & Hl & H8 & Hcc).
    destruct (lsim_get _ _ _ _ LL Hn) as (v & Hv). rewrite Hny in Hv. injection Hv as ->. cbn [n_set_load n_childs] in Hc.
    rewrite (LeafLoad c nc) by auto.
    destruct (SumEx y n Hy Hn) as (sum & Es & Hs).
    destruct (lsim_get _ _ _ _ L1 Hn) as (v1 & Hv1).
    assert (Hyt : In y (t_ponly t1)) by (destruct L1 as (_ & _ & <- & _); exact Hy).
    rewrite (B2 y _ Hyt Hv1) in Hny. injection Hny as Hny. rewrite <- Hny. cbn [n_set_load n_load].
    unfold sm. rewrite Hn, Es. auto.
Qed.

(** * The split loop *)
Lemma splits_ok : forall rq (s : sched),
  sched_ok s -> idx_sound s -> NoDup rq ->
  (forall x, In x rq -> exists n, t_map (s_tree _ s) x = Some n /\ n_leaf n = true /\ splittable (n_box n) /\
     exists pid i, n_linked n = Some pid /\ s_idx _ s pid = Some i) ->
  t_next (s_tree _ s) + 8 * Z.of_nat (length rq) <= 2 ^ 32 ->
  s_next _ s + 7 * Z.of_nat (length rq) <= u64_max ->
  (forall p, In p (s_global _ s) -> p_pack p = u64_max /\ valid p) ->
  exists s', split_patches obj pos W rq s = Ok s' /\ sched_ok s' /\ Permutation (world s') (world s) /\
    (forall pt, covered s' pt <-> covered s pt) /\
    (forall p, In p (s_global _ s') -> p_pack p = u64_max /\ valid p) /\
    (forall y, In y (t_ponly (s_tree _ s)) ->
       (forall x n, In x rq -> t_map (s_tree _ s) x = Some n -> n_parent n <> y) -> In y (t_ponly (s_tree _ s'))).
Proof.
  induction rq as [|x rq IH]; intros s I Hidx N Hrq Ht Hs Hpk; cbn [split_patches rfold] in *.
  - exists s. unfold split_patches. cbn [rfold]. split; auto. split; auto. split; auto. split; [tauto|]. auto.
  - inversion N as [|? ? N1 N2]; subst. cbn [length] in Ht, Hs. rewrite Nat2Z.inj_succ in Ht, Hs.
    destruct (Hrq x (or_introl eq_refl)) as (n & Hn & Hl & Hsp & Hlk).
    pose proof (ok_ids _ (so_tree _ _ _ _ I) _ _ Hn) as Hxr.
    assert (Hx32 : x < 2 ^ 32) by (clear -Hxr Ht; lia).
    assert (Ht8 : t_next (s_tree obj s) + 8 <= u64_max) by (unfold u64_max; clear -Ht; lia).
    assert (Hs7 : s_next obj s + 7 <= u64_max) by (unfold u64_max in *; clear -Hs; lia).
    destruct (split_one_ok obj pos W s x n I Hn Hl Hx32 Ht8 Hs7 Hsp Hidx Hlk)
      as (s1 & E & I1 & Pw & Ix1 & Ix2 & Nt & Ns & Leafs & Nodes & Ponly & Packs & Cov).
    unfold split_patches. cbn [rfold]. rewrite E. cbn [rbind].
    destruct (IH s1 I1 Ix1 N2) as (s' & E' & I' & P' & C' & K' & O').
    + intros y Hy. destruct (Hrq y (or_intror Hy)) as (m & Hm & Hml & Hms & Hmk).
      exists m. rewrite Ix2. split; [|auto]. apply Leafs; auto. intros ->. contradiction.
    + rewrite Nt. clear -Ht. lia.
    + rewrite Ns. clear -Hs. lia.
    + auto.
    + exists s'. split; [exact E'|]. split; auto. split; [etransitivity; eauto|]. split; [intros; rewrite C'; auto|]. split; auto.
      intros y Hy Hpar. apply O'.
      * apply Ponly; auto. intros F. apply (Hpar x n); auto. left; auto.
      * intros z m Hz Hm. destruct (Hrq z (or_intror Hz)) as (m0 & Hm0 & Hml & _).
        assert (Hzx : z <> x) by (intros ->; contradiction).
        rewrite (Leafs z m0 Hm0 Hml Hzx) in Hm. injection Hm as <-. apply (Hpar z m0); auto. right; auto.
Qed.
End Step.
