(** Proofs about Containers.v *)
From Verif Require Import Base Containers Containers_spec.
From Coq Require Import ZifyBool ZifyNat.
Local Open Scope Z_scope.

(* ---------------- FixedStack ---------------- *)
(** The list stack represented by a FixedStack. *)
Definition fs_abs {T} (s : fstack T) : list T := skipn (fs_cur s) (fs_arr s).
Definition fs_wf {T} (cap : nat) (s : fstack T) : Prop :=
  length (fs_arr s) = cap /\ (fs_cur s <= cap)%nat.



Lemma skipn_upd {A} (l : list A) i v :
  (i < length l)%nat -> skipn i (upd l i v) = v :: skipn (S i) l.
Proof. revert i; induction l as [|h t IH]; intros [|i] H; simpl in *; try lia; auto.
  rewrite IH by lia. destruct t; reflexivity. Qed.
Lemma skipn_cons_nth {A} (l : list A) i v t :
  skipn i l = v :: t -> nth_error l i = Some v /\ skipn (S i) l = t /\ (i < length l)%nat.
Proof. revert i; induction l as [|h l' IH]; intros [|i] H; simpl in *; try discriminate.
  - injection H as -> ->; repeat split; lia.
  - apply IH in H. destruct H as (A1 & A2 & A3). repeat split; auto; lia. Qed.

Lemma fs_step_spec {T} cap (o : fs_op T) s :
  fs_wf cap s ->
  match spec_step cap o (fs_abs s) with
  | Some (b, l') => exists s', fs_step o s = Ok (b, s') /\ fs_wf cap s' /\ fs_abs s' = l'
  | None => fs_step o s = UB
  end.
Proof.
  destruct s as [a c]; intros [Hl Hc]; simpl in Hl, Hc.
  assert (HL : length (fs_abs (mkFS a c)) = (cap - c)%nat)
    by (unfold fs_abs; simpl; rewrite skipn_length; lia).
  unfold fs_step, fs_push, fs_pop, fs_pop_ret, fs_pop, fs_top, fs_size, fs_empty, fs_is_not_empty;
    destruct o as [v| | | | |]; simpl spec_step; cbn [fs_arr fs_cur]; rewrite ?HL.
  - destruct ((cap - c <? cap)%nat) eqn:E.
    + replace (0 <? c)%nat with true by lia. rewrite aset_lt by lia. simpl.
      eexists; split; [reflexivity|]. split.
      * split; simpl; rewrite ?length_upd; lia.
      * unfold fs_abs; simpl. rewrite skipn_upd by lia. do 2 f_equal; lia.
    + replace (0 <? c)%nat with false by lia. reflexivity.
  - unfold fs_abs in *; simpl in *. destruct (skipn c a) as [|v t] eqn:E.
    + simpl in HL. replace (c <? length a)%nat with false by lia. reflexivity.
    + destruct (skipn_cons_nth _ _ _ _ E) as (A1 & A2 & A3).
      replace (c <? length a)%nat with true by lia. simpl.
      eexists; split; [reflexivity|]. split; [split; simpl; lia|]. simpl.
      rewrite <- A2. f_equal; lia.
  - unfold fs_abs in *; simpl in *. destruct (skipn c a) as [|v t] eqn:E.
    + simpl in HL. replace (c <? length a)%nat with false by lia. reflexivity.
    + destruct (skipn_cons_nth _ _ _ _ E) as (A1 & A2 & A3).
      replace (c <? length a)%nat with true by lia. unfold aget; rewrite A1; simpl.
      eexists; split; [reflexivity|]. split; [split; simpl; lia|]. simpl.
      rewrite <- A2. f_equal; lia.
  - unfold fs_abs in *; simpl in *. destruct (skipn c a) as [|v t] eqn:E.
    + simpl in HL. replace (c <? length a)%nat with false by lia. reflexivity.
    + destruct (skipn_cons_nth _ _ _ _ E) as (A1 & A2 & A3).
      replace (c <? length a)%nat with true by lia. unfold aget; rewrite A1; simpl.
      eexists; split; [reflexivity|]. split; [split; simpl; lia|]. simpl. auto.
  - eexists; split; [rewrite Hl; reflexivity|]. split; [split; simpl; lia|reflexivity].
  - exists (mkFS a c). unfold fs_abs in *; simpl in *. split; [|split; [split; simpl; auto|reflexivity]].
    do 3 f_equal. destruct (skipn c a) eqn:E; simpl in HL; lia.
Qed.

Lemma fs_run_spec {T} cap (ops : list (fs_op T)) s :
  fs_wf cap s ->
  match spec_run cap ops (fs_abs s) with
  | Some (bs, l') => exists s', fs_run ops s = Ok (bs, s') /\ fs_abs s' = l'
  | None => fs_run ops s = UB
  end.
Proof.
  revert s; induction ops as [|o t IH]; intros s Hw; simpl; [eauto|].
  pose proof (fs_step_spec cap o s Hw) as HS.
  destruct (spec_step cap o (fs_abs s)) as [[b l']|]; [|now rewrite HS].
  destruct HS as (s' & E & Hw' & <-). rewrite E; simpl.
  specialize (IH s' Hw'). destruct (spec_run cap t (fs_abs s')) as [[bs l'']|].
  - destruct IH as (s'' & E' & H'). rewrite E'; simpl; eauto.
  - now rewrite IH.
Qed.

Lemma fs_new_run {T} (mem : list T) ops :
  match spec_run (length mem) ops [] with
  | Some (bs, l') => exists s', fs_run ops (fs_new mem) = Ok (bs, s') /\ fs_abs s' = l'
  | None => fs_run ops (fs_new mem) = UB
  end.
Proof.
  replace (@nil T) with (fs_abs (fs_new mem)) by (unfold fs_abs; simpl; apply skipn_all).
  apply fs_run_spec. split; simpl; auto.
Qed.

Lemma fs_new_val_run {T} (mem : list T) v : (0 < length mem)%nat ->
  exists s, fs_new_val mem v = Ok s /\ fs_wf (length mem) s /\ fs_abs s = [v].
Proof.
  intros H. unfold fs_new_val. rewrite aset_lt by lia. simpl. eexists; split; [reflexivity|].
  split; [split; simpl; rewrite ?length_upd; lia|].
  unfold fs_abs; simpl. rewrite skipn_upd by lia. f_equal. apply skipn_all2; lia.
Qed.

(* ---------------- set_diff ---------------- *)
Lemma set_mem_iff a s : set_mem a s = true <-> In a s.
Proof. unfold set_mem. rewrite existsb_exists. split.
  - intros (x & H & E). apply Z.eqb_eq in E; subst; auto.
  - intros H; exists a; split; auto. apply Z.eqb_refl. Qed.
Lemma set_insert_in a b s : In b (set_insert a s) <-> b = a \/ In b s.
Proof. induction s as [|c t IH]; simpl; [intuition|].
  destruct (a <? c); simpl; [intuition|]. destruct (Z.eqb_spec a c); simpl; [subst; intuition|].
  rewrite IH. intuition. Qed.
Lemma set_insert_sorted a s : StronglySorted Z.lt s -> StronglySorted Z.lt (set_insert a s).
Proof. induction s as [|c t IH]; simpl; intros H.
  - constructor; constructor.
  - inversion H as [|? ? H1 H2]; subst. destruct (a <? c) eqn:E.
    + constructor; auto. constructor; [lia|]. rewrite Forall_forall in *. intros x Hx.
      specialize (H2 x Hx); lia.
    + destruct (Z.eqb_spec a c); auto. constructor; auto.
      rewrite Forall_forall in *. intros x Hx. apply set_insert_in in Hx as [->|Hx]; auto. lia. Qed.
Lemma set_build l : forall s, StronglySorted Z.lt s ->
  StronglySorted Z.lt (fold_left (fun s a => set_insert a s) l s) /\
  (forall b, In b (fold_left (fun s a => set_insert a s) l s) <-> In b l \/ In b s).
Proof. induction l as [|a t IH]; intros s Hs; simpl; [intuition|].
  destruct (IH (set_insert a s) (set_insert_sorted a s Hs)) as [I1 I2]. split; auto.
  intros b. rewrite I2, set_insert_in. intuition. Qed.
Lemma sorted_filter {A} (R : A -> A -> Prop) f l : StronglySorted R l -> StronglySorted R (filter f l).
Proof. induction 1 as [|a l H IH HF]; simpl; [constructor|].
  destruct (f a); auto. constructor; auto. rewrite Forall_forall in *.
  intros x Hx; apply filter_In in Hx as [Hx _]; auto. Qed.
Lemma sorted_map_filter {A B} (R : B -> B -> Prop) (h : A -> B) f l :
  StronglySorted R (map h l) -> StronglySorted R (map h (filter f l)).
Proof. induction l as [|a l IH]; simpl; intros H; auto. inversion H as [|? ? H1 H2]; subst.
  destruct (f a); simpl; auto. constructor; auto. rewrite Forall_forall in *.
  intros x Hx. apply in_map_iff in Hx as (y & <- & Hy). apply filter_In in Hy as [Hy _].
  apply H2. now apply in_map. Qed.
Lemma filter_filter' {A} (f g : A -> bool) l : filter f (filter g l) = filter (fun x => g x && f x) l.
Proof. induction l as [|a l IH]; simpl; auto. destruct (g a); simpl; rewrite ?IH; auto. Qed.

Lemma set_diff_loop_spec ref : NoDup ref -> forall s mi ma,
  set_diff_loop ref s mi ma =
   (filter (fun b => negb (set_mem b ref)) s,
    mi ++ filter (fun a => negb (set_mem a s)) ref,
    ma ++ filter (fun a => set_mem a s) ref).
Proof.
  induction 1 as [|a t Hn Hd IH]; intros s mi ma; simpl.
  - rewrite !app_nil_r. f_equal. f_equal. induction s; simpl; f_equal; auto.
  - assert (HM : forall b, In b t -> set_mem b (set_erase a s) = set_mem b s).
    { intros b Hb. apply eq_true_iff_eq. rewrite !set_mem_iff. unfold set_erase.
      rewrite filter_In. split; [tauto|]. intros H; split; auto.
      assert (b <> a) by (intros ->; auto). lia. }
    assert (HF : filter (fun b => negb (set_mem b t)) (set_erase a s)
                 = filter (fun b => negb ((b =? a) || set_mem b t)) s).
    { unfold set_erase. rewrite filter_filter'. apply filter_ext. intros b.
      now rewrite negb_orb. }
    assert (H1 : filter (fun x => negb (set_mem x (set_erase a s))) t
               = filter (fun x => negb (set_mem x s)) t).
    { apply filter_ext_in. intros b Hb. now rewrite HM. }
    assert (H2 : filter (fun x => set_mem x (set_erase a s)) t
               = filter (fun x => set_mem x s) t).
    { apply filter_ext_in. intros b Hb. now rewrite HM. }
    destruct (set_mem a s) eqn:E; rewrite IH, HF, H1, H2; rewrite <- ?app_assoc; simpl; reflexivity.
Qed.

Lemma set_diff_spec c1 ref : NoDup ref ->
  d_missing (set_diff c1 ref) = filter (fun a => negb (set_mem a c1)) ref /\
  d_matching (set_diff c1 ref) = filter (fun a => set_mem a c1) ref /\
  StronglySorted Z.lt (d_extra (set_diff c1 ref)) /\
  (forall a, In a (d_extra (set_diff c1 ref)) <-> In a c1 /\ ~ In a ref).
Proof.
  intros Hn. unfold set_diff.
  destruct (set_build c1 []) as [B1 B2]; [constructor|].
  rewrite set_diff_loop_spec by auto. simpl.
  assert (HM : forall b, set_mem b (fold_left (fun s a => set_insert a s) c1 []) = set_mem b c1).
  { intros b. apply eq_true_iff_eq. rewrite !set_mem_iff, B2. simpl; tauto. }
  repeat split.
  - apply filter_ext. intros b; now rewrite HM.
  - apply filter_ext. intros b; now rewrite HM.
  - now apply sorted_filter.
  - apply filter_In in H as [H _]. apply B2 in H; simpl in H; tauto.
  - apply filter_In in H as [_ H]. intros H'. apply set_mem_iff in H'. rewrite H' in H; discriminate.
  - intros [H1 H2]. apply filter_In. split; [apply B2; auto|].
    destruct (set_mem a ref) eqn:E; auto. apply set_mem_iff in E; tauto.
Qed.

(* ---------------- DistributedData ---------------- *)




Lemma emplace_spec {T} k (v : T) m : dd_sorted m ->
  match dd_find k m with
  | Some _ => map_emplace k v m = None
  | None => exists m', map_emplace k v m = Some m' /\ dd_sorted m' /\
       (forall x, dd_find x m' = if x =? k then Some v else dd_find x m) /\
       (forall x, In x (map fst m') <-> x = k \/ In x (map fst m))
  end.
Proof.
  unfold dd_sorted. induction m as [|[k' v'] t IH]; simpl; intros Hs.
  - eexists; split; [reflexivity|]. simpl. split; [|split].
    + constructor; constructor.
    + intros x; destruct (x =? k); auto.
    + intuition.
  - inversion Hs as [|? ? H1 H2]; subst. specialize (IH H1).
    rewrite Forall_forall in H2.
    destruct (Z.eqb_spec k k') as [->|N].
    + replace (k' <? k') with false by lia. reflexivity.
    + destruct (k <? k') eqn:E.
      * assert (HN : dd_find k t = None).
        { clear IH. destruct (dd_find k t) eqn:F; auto.
          assert (In k (map fst t)).
          { revert F; clear; induction t as [|[a b] t IH]; simpl; [discriminate|].
            destruct (Z.eqb_spec k a); auto. }
          specialize (H2 _ H); lia. }
        rewrite HN. eexists; split; [reflexivity|]. simpl. split; [|split].
        -- constructor; auto. constructor; [lia|]. apply Forall_forall. intros x Hx.
           specialize (H2 x Hx); lia.
        -- reflexivity.
        -- intuition.
      * destruct (dd_find k t).
        -- rewrite IH. reflexivity.
        -- destruct IH as (m' & Em & Sm & Fm & Im). rewrite Em. simpl.
           eexists; split; [reflexivity|]. simpl. split; [|split].
           ++ constructor; auto. apply Forall_forall. intros x Hx. apply Im in Hx as [->|Hx]; auto. lia.
           ++ intros x. rewrite Fm. destruct (Z.eqb_spec x k'), (Z.eqb_spec x k); auto. lia.
           ++ intros x. rewrite Im. intuition.
Qed.

Lemma dd_find_in {T} k (m : dd T) : dd_find k m <> None <-> In k (map fst m).
Proof. induction m as [|[a b] t IH]; simpl; [tauto|].
  destruct (Z.eqb_spec k a); [split; [intros; auto|discriminate]|].
  rewrite IH; intuition. Qed.

Lemma dd_find_erase {T} k (m : dd T) x :
  dd_find x (dd_erase k m) = if x =? k then None else dd_find x m.
Proof. induction m as [|[a b] t IH]; simpl; [destruct (x =? k); auto|].
  destruct (Z.eqb_spec a k); simpl; rewrite IH.
  - subst. destruct (Z.eqb_spec x k); auto.
  - destruct (Z.eqb_spec x a), (Z.eqb_spec x k); auto; lia. Qed.

Lemma map_fst_filter {T} (f : Z -> bool) (m : dd T) :
  map fst (filter (fun p => f (fst p)) m) = filter f (map fst m).
Proof. induction m as [|[a b] t IH]; simpl; auto. destruct (f a); simpl; f_equal; auto. Qed.

Lemma dd_step_spec {T} (o : dd_op T) m f :
  dd_sorted m -> (forall x, dd_find x m = f x) ->
  dd_sorted (dd_step o m) /\ (forall x, dd_find x (dd_step o m) = spec_dd_step o f x).
Proof.
  intros Hs Hf. destruct o as [k v|k|]; simpl.
  - pose proof (emplace_spec k v m Hs) as HE. unfold dd_add_obj. rewrite <- (Hf k).
    destruct (dd_find k m) eqn:F.
    + rewrite HE. split; auto. intros x. destruct (Z.eqb_spec x k); auto. subst; auto.
    + destruct HE as (m' & E & S' & F' & _). rewrite E. split; auto. intros x.
      rewrite F'. destruct (x =? k); auto.
  - split.
    + unfold dd_sorted, dd_erase.
      replace (map fst (filter (fun p : Z * T => negb (fst p =? k)) m))
        with (filter (fun b => negb (b =? k)) (map fst m))
        by (symmetry; apply (map_fst_filter (fun b => negb (b =? k)))).
      now apply sorted_filter.
    + intros x. rewrite dd_find_erase. rewrite Hf. reflexivity.
  - split; [constructor|auto].
Qed.

Lemma dd_run_spec {T} (ops : list (dd_op T)) :
  dd_sorted (dd_run ops) /\ (forall x, dd_find x (dd_run ops) = spec_dd_run ops x).
Proof.
  unfold dd_run, spec_dd_run.
  assert (G : forall m f, dd_sorted m -> (forall x, dd_find x m = f x) ->
    dd_sorted (fold_left (fun m o => dd_step o m) ops m) /\
    (forall x, dd_find x (fold_left (fun m o => dd_step o m) ops m)
              = fold_left (fun f o => spec_dd_step o f) ops f x)).
  { induction ops as [|o t IH]; intros m f Hs Hf; simpl; auto.
    destruct (dd_step_spec o m f Hs Hf) as [A B]. apply IH; auto. }
  apply G; [constructor|auto].
Qed.

Lemma emplace_last {T} k (v : T) m :
  Forall (fun x => x < k) (map fst m) -> map_emplace k v m = Some (m ++ [(k, v)]).
Proof. induction m as [|[a b] t IH]; simpl; intros H; auto. inversion H; subst.
  replace (k <? a) with false by lia. replace (k =? a) with false by lia.
  rewrite IH by auto. reflexivity. Qed.

Lemma dd_map_spec {T U} (f : Z -> T -> U) m : dd_sorted m ->
  dd_map f m = Ok (map (fun p => (fst p, f (fst p) (snd p))) m).
Proof.
  unfold dd_map, dd_for_each.
  assert (G : forall acc, dd_sorted (acc) -> dd_sorted m ->
     (forall x y, In x (map fst acc) -> In y (map fst m) -> x < y) ->
     rfold (fun p r => dd_add_obj (fst p) (f (fst p) (snd p)) r) m acc
       = Ok (acc ++ map (fun p => (fst p, f (fst p) (snd p))) m)).
  { induction m as [|[k v] t IH]; intros acc Ha Hm Hlt; simpl.
    - now rewrite app_nil_r.
    - unfold dd_add_obj. rewrite emplace_last.
      2:{ apply Forall_forall. intros x Hx. apply Hlt; simpl; auto. }
      simpl. inversion Hm as [|? ? H1 H2]; subst. rewrite Forall_forall in H2.
      rewrite IH; auto.
      + now rewrite <- app_assoc.
      + unfold dd_sorted in *. rewrite map_app. simpl.
        clear -Ha Hlt. induction acc as [|[a b] ac IHa]; simpl.
        * constructor; constructor.
        * inversion Ha as [|? ? A1 A2]; subst. constructor.
          -- apply IHa; auto. intros x y Hx Hy; apply Hlt; simpl; auto.
          -- apply Forall_forall. intros x Hx. apply in_app_or in Hx as [Hx|Hx].
             ++ rewrite Forall_forall in A2; auto.
             ++ simpl in Hx. destruct Hx as [<-|[]]. apply Hlt; simpl; auto.
      + intros x y Hx Hy. rewrite map_app in Hx. apply in_app_or in Hx as [Hx|Hx].
        * apply Hlt; simpl; auto.
        * simpl in Hx. destruct Hx as [<-|[]]. auto. }
  intros Hs. rewrite G; auto; [constructor|simpl; tauto].
Qed.

Lemma sorted_nodup l : StronglySorted Z.lt l -> NoDup l.
Proof. induction 1 as [|a l H IH HF]; constructor; auto. rewrite Forall_forall in HF.
  intros Hi; specialize (HF _ Hi); lia. Qed.

(* ---------------- id diff ---------------- *)
Lemma map_w32_id {T} (m : dd T) :
  Forall (fun x => 0 <= x < 2 ^ 32) (map fst m) -> map (fun p => w32 (fst p)) m = map fst m.
Proof. intros H. induction m as [|[a b] t IH]; simpl in *; auto. inversion H; subst.
  f_equal; auto. unfold w32, wrapZ. now rewrite Z.mod_small. Qed.

Lemma ids_diff_spec {T} (m : dd T) ref :
  dd_sorted m -> Forall (fun x => 0 <= x < 2 ^ 32) (map fst m) -> NoDup ref ->
  NoDup (on_distributeddata_ids_diff m ref) /\
  (forall id, In (CMissing id) (on_distributeddata_ids_diff m ref) <-> In id ref /\ ~ In id (map fst m)) /\
  (forall id, In (CMatch id) (on_distributeddata_ids_diff m ref) <-> In id ref /\ In id (map fst m)) /\
  (forall id, In (CExtra id) (on_distributeddata_ids_diff m ref) <-> ~ In id ref /\ In id (map fst m)).
Proof.
  intros Hs Hb Hn. unfold on_distributeddata_ids_diff, dd_for_each. rewrite map_w32_id by auto.
  destruct (set_diff_spec (map fst m) ref Hn) as (E1 & E2 & E3 & E4).
  rewrite E1, E2. set (ex := d_extra _) in *.
  assert (I1 : forall a f, In a (filter f ref) <-> In a ref /\ f a = true) by (intros; apply filter_In).
  assert (I2 : forall a, set_mem a (map fst m) = true <-> In a (map fst m)) by (intros; apply set_mem_iff).
  assert (I3 : forall a, negb (set_mem a (map fst m)) = true <-> ~ In a (map fst m)).
  { intros a. rewrite <- I2. destruct (set_mem a (map fst m)); simpl; intuition discriminate. }
  split.
  - assert (D : forall (X : Type) (l1 l2 : list X), NoDup l1 -> NoDup l2 ->
        (forall x, In x l1 -> ~ In x l2) -> NoDup (l1 ++ l2)).
    { intros X l1 l2 N1 N2 Hd. induction N1 as [|a l Ha N1 IH]; simpl; auto. constructor.
      - rewrite in_app_iff. intros [|]; auto. apply (Hd a); simpl; auto.
      - apply IH. intros x Hx; apply Hd; simpl; auto. }
    assert (M : forall (c : Z -> diff_call) l, (forall a b, c a = c b -> a = b) -> NoDup l -> NoDup (map c l)).
    { intros c l Hi. induction 1; simpl; constructor; auto. rewrite in_map_iff.
      intros (y & Ey & Hy). apply Hi in Ey; subst; auto. }
    apply D; [|apply D|].
    + apply M; [congruence|]. now apply NoDup_filter.
    + apply M; [congruence|]. now apply NoDup_filter.
    + apply M; [congruence|]. apply sorted_nodup. auto.
    + intros x H1 H2. apply in_map_iff in H1 as (? & <- & _). apply in_map_iff in H2 as (? & E & _); discriminate.
    + intros x H1 H2. apply in_map_iff in H1 as (? & <- & _). apply in_app_or in H2 as [H2|H2];
      apply in_map_iff in H2 as (? & E & _); discriminate.
  - assert (C1 : forall l id, In (CMissing id) (map CMissing l) <-> In id l).
    { intros l id; rewrite in_map_iff; split; [intros (x & E & H); congruence|eauto]. }
    assert (C2 : forall l id, In (CMatch id) (map CMatch l) <-> In id l).
    { intros l id; rewrite in_map_iff; split; [intros (x & E & H); congruence|eauto]. }
    assert (C3 : forall l id, In (CExtra id) (map CExtra l) <-> In id l).
    { intros l id; rewrite in_map_iff; split; [intros (x & E & H); congruence|eauto]. }
    assert (Z1 : forall l id, ~ In (CMissing id) (map CMatch l)) by (intros l id H; apply in_map_iff in H as (? & ? & _); discriminate).
    assert (Z2 : forall l id, ~ In (CMissing id) (map CExtra l)) by (intros l id H; apply in_map_iff in H as (? & ? & _); discriminate).
    assert (Z3 : forall l id, ~ In (CMatch id) (map CMissing l)) by (intros l id H; apply in_map_iff in H as (? & ? & _); discriminate).
    assert (Z4 : forall l id, ~ In (CMatch id) (map CExtra l)) by (intros l id H; apply in_map_iff in H as (? & ? & _); discriminate).
    assert (Z5 : forall l id, ~ In (CExtra id) (map CMissing l)) by (intros l id H; apply in_map_iff in H as (? & ? & _); discriminate).
    assert (Z6 : forall l id, ~ In (CExtra id) (map CMatch l)) by (intros l id H; apply in_map_iff in H as (? & ? & _); discriminate).
    repeat split; rewrite !in_app_iff, ?C1, ?C2, ?C3, ?I1, ?I2, ?I3, ?E4 in *;
      repeat match goal with
      | H : context [In (CMissing _) (map CMatch ?l)] |- _ => pose proof (Z1 l id); tauto
      | H : context [In (CMatch _) (map CMissing ?l)] |- _ => pose proof (Z3 l id); tauto
      end;
      try (generalize (Z1 (filter (fun a => set_mem a (map fst m)) ref) id);
           generalize (Z2 ex id);
           generalize (Z3 (filter (fun a => negb (set_mem a (map fst m))) ref) id);
           generalize (Z4 ex id);
           generalize (Z5 (filter (fun a => negb (set_mem a (map fst m))) ref) id);
           generalize (Z6 (filter (fun a => set_mem a (map fst m)) ref) id); tauto).
Qed.

(* ---------------- DistributedDataShared ---------------- *)




Lemma k2_eqb_eq a b : k2_eqb a b = true <-> a = b.
Proof. destruct a as [a1 a2], b as [b1 b2]; unfold k2_eqb; simpl.
  rewrite andb_true_iff, !Z.eqb_eq. split; [intros [-> ->]; auto|intros E; injection E; auto]. Qed.
Lemma k2_eqb_refl a : k2_eqb a a = true.
Proof. now apply k2_eqb_eq. Qed.
Lemma k2_lt_iff a b : k2_ltb a b = true <-> fst a < fst b \/ (fst a = fst b /\ snd a < snd b).
Proof. unfold k2_ltb; lia. Qed.
Lemma k2_le_iff a b : k2_le a b <-> fst a < fst b \/ (fst a = fst b /\ snd a <= snd b).
Proof. unfold k2_le, k2_ltb; lia. Qed.
Lemma k2_le_refl a : k2_le a a. Proof. rewrite k2_le_iff; lia. Qed.
Lemma k2_le_trans a b c : k2_le a b -> k2_le b c -> k2_le a c.
Proof. rewrite !k2_le_iff; lia. Qed.

Lemma mm_insert_in {T} k (v : T) m x : In x (map fst (mm_insert k v m)) <-> x = k \/ In x (map fst m).
Proof. induction m as [|[a b] t IH]; simpl; [intuition|].
  destruct (k2_ltb k a); simpl; [intuition|]. rewrite IH; intuition. Qed.
Lemma mm_insert_sorted {T} k (v : T) m : dds_sorted m -> dds_sorted (mm_insert k v m).
Proof. unfold dds_sorted. induction m as [|[a b] t IH]; simpl; intros H.
  - constructor; constructor.
  - inversion H as [|? ? H1 H2]; subst. destruct (k2_ltb k a) eqn:E; simpl.
    + constructor; auto. constructor.
      * apply k2_lt_iff in E. apply k2_le_iff. lia.
      * rewrite Forall_forall in *. intros x Hx. specialize (H2 x Hx).
        apply k2_lt_iff in E. apply k2_le_iff in H2. apply k2_le_iff. lia.
    + constructor; auto. rewrite Forall_forall in *. intros x Hx.
      apply mm_insert_in in Hx as [->|Hx]; auto. Qed.
Lemma mm_insert_vals {T} k (v : T) m k' : dds_sorted m ->
  dds_vals k' (mm_insert k v m) = dds_vals k' m ++ (if k2_eqb k' k then [v] else []).
Proof. unfold dds_sorted, dds_vals. induction m as [|[a b] t IH]; simpl; intros H.
  - destruct (k2_eqb k' k); reflexivity.
  - inversion H as [|? ? H1 H2]; subst. destruct (k2_ltb k a) eqn:E; simpl.
    + destruct (k2_eqb k' k) eqn:E'.
      * apply k2_eqb_eq in E'; subst k'.
        assert (N : k2_eqb k a = false).
        { destruct (k2_eqb k a) eqn:F; auto. apply k2_eqb_eq in F; subst.
          apply k2_lt_iff in E; lia. }
        rewrite N. simpl. replace (filter _ t) with (@nil (key2 * T)); auto.
        symmetry. rewrite Forall_forall in H2.
        assert (G : forall p, In p t -> k2_eqb k (fst p) = false).
        { intros p Hp. assert (HI : In (fst p) (map fst t)) by (now apply in_map).
          apply H2 in HI. destruct (k2_eqb k (fst p)) eqn:F; auto.
          apply k2_eqb_eq in F; subst. apply k2_lt_iff in E. apply k2_le_iff in HI. lia. }
        clear -G. induction t as [|p t IH]; simpl; auto. rewrite (G p) by (simpl; auto).
        apply IH. intros q Hq; apply G; simpl; auto.
      * rewrite app_nil_r. simpl. reflexivity.
    + destruct (k2_eqb k' a); simpl; rewrite IH by auto; reflexivity. Qed.

Lemma mm_extract_here {T} k (v : T) m1 m2 :
  (forall p, In p m1 -> fst p <> k) ->
  mm_extract k (m1 ++ (k, v) :: m2) = (Some (k, v), m1 ++ m2).
Proof. induction m1 as [|[a b] t IH]; simpl; intros H.
  - now rewrite k2_eqb_refl.
  - replace (k2_eqb k a) with false.
    + rewrite IH by auto. reflexivity.
    + symmetry. destruct (k2_eqb k a) eqn:E; auto. apply k2_eqb_eq in E.
      exfalso. apply (H (a, b)); auto. Qed.

Definition cdp {T} (cd : Z -> Z -> bool) (p : key2 * T) : bool := cd (fst (fst p)) (snd (fst p)).

Lemma tranfer_all_gen {T} cd (l : dds T) : forall pre o,
  (forall p, In p pre -> cdp cd p = false) ->
  fold_left (fun st p => let '(d, o) := st in let '(n, d') := mm_extract p d in
                         (d', mm_insert_node n o))
    (flat_map (fun p => if cdp cd p then [fst p] else []) l) (pre ++ l, o)
  = (pre ++ filter (fun p => negb (cdp cd p)) l,
     fold_left (fun m p => mm_insert (fst p) (snd p) m) (filter (cdp cd) l) o).
Proof.
  induction l as [|[k v] t IH]; intros pre o Hp; simpl; auto.
  destruct (cdp cd (k, v)) eqn:E; simpl.
  - rewrite mm_extract_here.
    + simpl. apply IH; auto.
    + intros p Hi Ek. apply Hp in Hi. unfold cdp in *. simpl in *. rewrite Ek in Hi. congruence.
  - specialize (IH (pre ++ [(k, v)]) o). rewrite <- !app_assoc in IH. simpl in IH. rewrite IH; auto.
    intros p Hi. apply in_app_or in Hi as [|[<-|[]]]; auto.
Qed.

Lemma fold_insert_spec {T} (l : list (key2 * T)) : forall o, dds_sorted o ->
  let r := fold_left (fun m p => mm_insert (fst p) (snd p) m) l o in
  dds_sorted r /\ forall k, dds_vals k r = dds_vals k o ++ dds_vals k l.
Proof.
  induction l as [|[k v] t IH]; intros o Ho; simpl.
  - split; auto. intros; now rewrite app_nil_r.
  - destruct (IH (mm_insert k v o) (mm_insert_sorted k v o Ho)) as [A B]. split; auto.
    intros k'. rewrite B, mm_insert_vals by auto. unfold dds_vals; simpl.
    destruct (k2_eqb k' k); simpl; now rewrite <- ?app_assoc, ?app_nil_r.
Qed.

Lemma dds_vals_filter {T} (cd : Z -> Z -> bool) (m : dds T) k :
  dds_vals k (filter (cdp cd) m) = if cd (fst k) (snd k) then dds_vals k m else [].
Proof. unfold dds_vals. rewrite filter_filter'.
  induction m as [|p t IH]; simpl; [destruct (cd (fst k) (snd k)); auto|].
  destruct (k2_eqb k (fst p)) eqn:E.
  - apply k2_eqb_eq in E. unfold cdp at 1. rewrite <- E.
    destruct (cd (fst k) (snd k)); simpl; auto. now rewrite IH.
  - rewrite andb_false_r. auto. Qed.

Lemma tranfer_all_spec {T} cd (data other : dds T) : dds_sorted other ->
  let r := dds_tranfer_all cd data other in
  fst r = filter (fun p => negb (cd (fst (fst p)) (snd (fst p)))) data /\
  dds_sorted (snd r) /\
  (forall k, dds_vals k (snd r) =
     dds_vals k other ++ (if cd (fst k) (snd k) then dds_vals k data else [])).
Proof.
  intros Ho.
  assert (H : dds_tranfer_all cd data other
    = (filter (fun p => negb (cdp cd p)) data,
       fold_left (fun m p => mm_insert (fst p) (snd p) m) (filter (cdp cd) data) other)).
  { apply (tranfer_all_gen cd data [] other). simpl; tauto. }
  cbv zeta. rewrite H. simpl.
  split; [reflexivity|].
  destruct (fold_insert_spec (filter (cdp cd) data) other Ho) as [A B].
  split; auto. intros k. rewrite B, dds_vals_filter. reflexivity.
Qed.

Lemma dds_build_spec {T} (l : list (key2 * T)) :
  dds_sorted (dds_build l) /\ forall k, dds_vals k (dds_build l) = dds_vals k l.
Proof.
  unfold dds_build, dds_add_obj.
  destruct (fold_insert_spec l [] ltac:(constructor)) as [A B].
  assert (E : fold_left (fun m p => mm_insert (fst (fst p), snd (fst p)) (snd p) m) l []
            = fold_left (fun m p => mm_insert (fst p) (snd p) m) l []).
  { generalize (@nil (key2 * T)). clear. induction l as [|[[a b] v] t IH]; simpl; auto. }
  rewrite E. split; auto.
Qed.

Lemma dds_map_spec {T U} (f : Z -> Z -> T -> U) (m : dds T) : dds_sorted m ->
  dds_sorted (dds_map f m) /\
  forall k, dds_vals k (dds_map f m) = map (f (fst k) (snd k)) (dds_vals k m).
Proof.
  intros Hs. unfold dds_map, dds_add_obj, dds_for_each.
  set (g := fun p : key2 * T => (fst p, f (fst (fst p)) (snd (fst p)) (snd p))).
  assert (E : forall a, fold_left (fun r p => mm_insert (fst (fst p), snd (fst p))
              (f (fst (fst p)) (snd (fst p)) (snd p)) r) m a
            = fold_left (fun r p => mm_insert (fst p) (snd p) r) (map g m) a).
  { clear. induction m as [|[[a b] v] t IH]; intros; simpl; auto. }
  rewrite E. destruct (fold_insert_spec (map g m) [] ltac:(constructor)) as [A B].
  split; auto. intros k. rewrite B. simpl. unfold dds_vals.
  clear. induction m as [|[k' v] t IH]; simpl; auto.
  destruct (k2_eqb k k') eqn:F; simpl; rewrite IH; auto. apply k2_eqb_eq in F; now subst.
Qed.
