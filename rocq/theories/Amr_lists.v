(** Proofs about the change of the AMR grid: which block goes where *)
From Verif Require Import Base Par Scan_spec Amr Amr_spec Amr_proofs.
From Coq Require Import ZArith Reals.
Local Open Scope nat_scope.

Lemma nodup_flat_map {A B} (f : A -> list B) l : NoDup l -> (forall a, In a l -> NoDup (f a)) ->
  (forall a b x, In a l -> In b l -> In x (f a) -> In x (f b) -> a = b) -> NoDup (flat_map f l).
Proof.
  induction l as [|a l IH]; intros ND F D; simpl; [constructor|].
  inversion ND as [|? ? NI ND']; subst.
  assert (NoDup (flat_map f l)). { apply IH; auto. - intros; apply F; simpl; auto. - intros x y z Hx Hy. apply D; simpl; auto. }
  assert (DD : forall x, In x (f a) -> ~ In x (flat_map f l)).
  { intros x Hx Hy. apply in_flat_map in Hy as (b & Hb & Hy). assert (a = b) by (apply (D a b x); simpl; auto). subst. auto. }
  specialize (F a (or_introl eq_refl)). revert F DD. generalize (f a). intros fa. induction fa as [|x fa IHf]; intros F DD; simpl; auto.
  inversion F as [|? ? N1 N2]; subst. constructor.
  - rewrite in_app_iff. intros [X|X]; auto. apply (DD x); simpl; auto.
  - apply IHf; auto. intros y Hy. apply DD. simpl; auto.
Qed.

Lemma nodup_app {A} (l m : list A) : NoDup l -> NoDup m -> (forall x, In x l -> ~ In x m) -> NoDup (l ++ m).
Proof.
  induction l as [|a l IH]; intros H1 H2 D; simpl; auto. inversion H1; subst. constructor.
  - rewrite in_app_iff. intros [X|X]; auto. apply (D a); simpl; auto.
  - apply IH; auto. intros x Hx. apply D. simpl; auto.
Qed.
Lemma perm_eq {A} (l m : list A) : l = m -> Permutation l m.
Proof. intros ->. apply Permutation_refl. Qed.
Lemma list_as_map {A} (d : A) (l : list A) : l = map (fun i => nth i l d) (seq 0 (length l)).
Proof.
  apply list_eq_nth_error. intros i. destruct (Nat.lt_ge_cases i (length l)) as [H|H].
  - rewrite nth_error_map, nth_error_seq by lia. simpl. now apply nth_error_nth'.
  - rewrite (proj2 (nth_error_None l i)) by lia. symmetry. apply nth_error_None. rewrite map_length, seq_length. lia.
Qed.

(** indexed writes at distinct places *)
Lemma writes {A B} (body : B -> list A -> res (list A)) (f : B -> nat) (g : B -> A) l : NoDup (map f l) -> forall st,
  (forall b s, In b l -> length s = length st -> body b s = aset s (f b) (g b)) -> (forall b, In b l -> f b < length st) ->
  exists st', rfold body l st = Ok st' /\ length st' = length st /\
    (forall b, In b l -> nth_error st' (f b) = Some (g b)) /\ (forall j, ~ In j (map f l) -> nth_error st' j = nth_error st j).
Proof.
  induction l as [|b l IH]; intros ND st HB HL; cbn [rfold].
  - exists st. split; auto. split; auto. split; auto. intros b [].
  - simpl in ND. inversion ND as [|? ? NI ND']; subst. rewrite HB by (simpl; auto). rewrite aset_lt by (apply HL; simpl; auto). cbn [rbind].
    destruct (IH ND' (upd st (f b) (g b))) as (st' & E & L & P1 & P2).
    + intros b' s Hb Ls. apply HB; [simpl; auto|]. now rewrite Ls, length_upd.
    + intros b' Hb. rewrite length_upd. apply HL. simpl; auto.
    + exists st'. split; auto. split; [now rewrite L, length_upd|]. split.
      * intros b' [<-|Hb]; auto. rewrite P2 by auto. apply nth_error_upd_eq, HL. simpl; auto.
      * intros j Hj. simpl in Hj. rewrite P2 by tauto. apply nth_error_upd_neq. tauto.
Qed.

Lemma rmapM_ok {A B} (f : A -> res B) (g : A -> B) l : (forall a, In a l -> f a = Ok (g a)) -> rmapM f l = Ok (map g l).
Proof.
  induction l as [|a l IH]; intros H; simpl; auto. rewrite H by (simpl; auto). cbn [rbind].
  rewrite IH by (intros; apply H; simpl; auto). reflexivity.
Qed.

(* ---------- refinement ---------- *)
Definition dflt : block := mkB (0, 0, 0)%Z (0, 0, 0)%Z [].
Definition bid (refs : list nat) (start t pid : nat) : nat := match pid with 0 => nth t refs 0 | S p => start + t * 7 + p end.

Lemma block_ids_nth refs start t pid : pid < 8 -> aget (block_ids (nth t refs 0) start t) pid = Ok (bid refs start t pid).
Proof. intros H. do 8 (destruct pid as [|pid]; [reflexivity|]). lia. Qed.
Lemma block_ids_map refs start t : block_ids (nth t refs 0) start t = map (bid refs start t) (seq 0 8).
Proof. reflexivity. Qed.

Lemma bid_inj refs start t pid t' pid' : NoDup refs -> (forall i, In i refs -> i < start) -> t < length refs -> t' < length refs -> pid < 8 -> pid' < 8 ->
  bid refs start t pid = bid refs start t' pid' -> t = t' /\ pid = pid'.
Proof.
  intros ND HR Ht Ht' Hp Hp' E. destruct pid as [|p], pid' as [|p']; simpl in E.
  - split; auto. eapply NoDup_nth; eauto.
  - pose proof (HR _ (nth_In refs 0 Ht)). lia.
  - pose proof (HR _ (nth_In refs 0 Ht')). lia.
  - lia.
Qed.
Lemma nodup_map_in {A B} (f : A -> B) l : NoDup l -> (forall a b, In a l -> In b l -> f a = f b -> a = b) -> NoDup (map f l).
Proof.
  induction l as [|a l IH]; intros ND H; simpl; constructor; inversion ND as [|? ? NI ND']; subst.
  - rewrite in_map_iff. intros (b & E & Hb). apply NI. rewrite (H a b); simpl; auto.
  - apply IH; auto. intros; apply H; simpl; auto.
Qed.
Lemma bid_nodup refs start t : NoDup refs -> (forall i, In i refs -> i < start) -> t < length refs -> NoDup (map (bid refs start t) (seq 0 8)).
Proof.
  intros ND HR Ht. apply nodup_map_in; [apply seq_NoDup|].
  intros a b Ha Hb E. apply in_seq in Ha, Hb. eapply bid_inj in E; eauto; lia.
Qed.
Lemma bid_lt refs start t pid N : (forall i, In i refs -> i < start) -> t < length refs -> pid < 8 -> start + 7 * length refs <= N -> bid refs start t pid < N.
Proof. intros HR Ht Hp HN. destruct pid as [|p]; simpl; [pose proof (HR _ (nth_In refs 0 Ht)); lia|nia]. Qed.

Lemma refine_item_ok refs start t s : NoDup refs -> (forall i, In i refs -> i < start) -> t < length refs ->
  start + 7 * length refs <= length s ->
  (forall pid, pid < 8 -> length (cells (nth (bid refs start t pid) s dflt)) = 8) ->
  exists s', refine_item refs start t s = Ok s' /\ length s' = length s /\
    (forall pid, pid < 8 -> nth_error s' (bid refs start t pid) = Some (child (nth (nth t refs 0) s dflt) pid)) /\
    (forall j, ~ In j (map (bid refs start t) (seq 0 8)) -> nth_error s' j = nth_error s j).
Proof.
  intros ND HR Ht HN HC. set (cur := nth (nth t refs 0) s dflt).
  assert (Hidx : nth t refs 0 < length s) by (pose proof (HR _ (nth_In refs 0 Ht)); lia).
  unfold refine_item. rewrite (aget_lt refs t 0) by auto. cbn [rbind]. rewrite (aget_lt s _ dflt) by auto. cbn [rbind]. fold cur.
  assert (EI : rmapM (aget s) (block_ids (nth t refs 0) start t) = Ok (map (fun pid => nth (bid refs start t pid) s dflt) (seq 0 8))).
  { rewrite block_ids_map, <- (map_map (bid refs start t) (fun i => nth i s dflt)). apply rmapM_ok. intros a Ha. apply in_map_iff in Ha as (pid & <- & Hp).
    apply in_seq in Hp. apply aget_lt. apply (bid_lt refs start t pid); auto; lia. }
  rewrite EI. cbn [rbind]. rewrite apply_refine_ok.
  2: { apply (HC 0). lia. }
  2: { now rewrite !map_length. }
  2: { apply Forall_forall. intros c Hc. rewrite map_map in Hc. apply in_map_iff in Hc as (pid & <- & Hp). apply in_seq in Hp. apply HC. lia. }
  cbn [rbind].
  destruct (writes (fun pid s0 => i <- aget (block_ids (nth t refs 0) start t) pid ;; c <- aget (get_split (bmin cur) (bmax cur)) pid ;;
      n <- aget (map (fun v => repeat v 8) (cells cur)) pid ;; aset s0 i (mkB (fst c) (snd c) n)) (bid refs start t) (child cur) (seq 0 8)) with (st := s)
      as (s' & E & L & P1 & P2).
  - now apply bid_nodup.
  - intros pid s0 Hp _. apply in_seq in Hp. rewrite block_ids_nth by lia. cbn [rbind].
    rewrite (aget_lt _ pid ((0, 0, 0), (0, 0, 0))%Z) by (unfold get_split; rewrite map_length, seq_length; lia). cbn [rbind].
    assert (LC : length (cells cur) = 8) by (apply (HC 0); lia).
    rewrite (aget_lt _ pid (repeat czero 8)) by (rewrite map_length; lia). cbn [rbind].
    unfold child. f_equal. f_equal. rewrite <- (map_nth (fun v => repeat v 8)). reflexivity.
  - intros pid Hp. apply in_seq in Hp. apply bid_lt; auto; lia.
  - exists s'. split; [exact E|]. split; auto. split; auto. intros pid Hp. apply P1. apply in_seq. lia.
Qed.

Lemma refine_par refs start st0 : NoDup refs -> (forall i, In i refs -> i < start) ->
  start + 7 * length refs <= length st0 -> (forall i, i < length st0 -> length (cells (nth i st0 dflt)) = 8) ->
  forall order, NoDup order -> (forall t, In t order -> t < length refs) -> forall s,
  length s = length st0 ->
  (forall t pid, In t order -> pid < 8 -> nth_error s (bid refs start t pid) = nth_error st0 (bid refs start t pid)) ->
  exists s', par_for order (refine_item refs start) s = Ok s' /\ length s' = length st0 /\
    (forall t pid, In t order -> pid < 8 -> nth_error s' (bid refs start t pid) = Some (child (nth (nth t refs 0) st0 dflt) pid)) /\
    (forall j, (forall t pid, In t order -> pid < 8 -> j <> bid refs start t pid) -> nth_error s' j = nth_error s j).
Proof.
  intros ND HR HN HC. induction order as [|t order IH]; intros NO HT s LS HS; unfold par_for; cbn [rfold].
  - exists s. split; auto. split; auto. split; auto. intros t pid [].
  - inversion NO as [|? ? NI NO']; subst.
    assert (Ht : t < length refs) by (apply HT; simpl; auto).
    assert (SAME : forall pid, pid < 8 -> nth (bid refs start t pid) s dflt = nth (bid refs start t pid) st0 dflt).
    { intros pid Hp. specialize (HS t pid (or_introl eq_refl) Hp). rewrite !nth_default_eq_nth_error || idtac.
      pose proof (bid_lt refs start t pid (length st0) HR Ht Hp HN) as B.
      rewrite (nth_error_nth' _ dflt) in HS by lia. rewrite (nth_error_nth' _ dflt) in HS by lia. congruence. }
    destruct (refine_item_ok refs start t s) as (s1 & E1 & L1 & P1 & Q1); auto; [lia| |].
    { intros pid Hp. rewrite SAME by auto. apply HC. now apply bid_lt. }
    rewrite E1. cbn [rbind].
    destruct (IH NO') with (s := s1) as (s' & E & L & P & Q).
    + intros; apply HT; simpl; auto.
    + congruence.
    + intros t' pid Ht' Hp. rewrite Q1. { apply HS; simpl; auto. }
      rewrite in_map_iff. intros (pid' & X & Hp'). apply in_seq in Hp'. eapply bid_inj in X; eauto; try lia.
      * destruct X as [-> _]. auto.
      * apply HT; simpl; auto.
    + exists s'. split; [exact E|]. split; auto. split.
      * intros t' pid [<-|Ht'] Hp; [|now apply P]. rewrite Q.
        { rewrite P1 by auto. f_equal. f_equal. apply (SAME 0). lia. }
        intros t' pid' Ht' Hp' X. eapply bid_inj in X; eauto; try lia. { destruct X as [-> _]; auto. } apply HT; simpl; auto.
      * intros j Hj. rewrite Q by (intros; apply Hj; simpl; auto). apply Q1. rewrite in_map_iff. intros (pid & X & Hp). apply in_seq in Hp.
        symmetry in X. revert X. apply Hj; simpl; auto; lia.
Qed.
Definition others (n : nat) (ids : list nat) : list nat := filter (fun i => negb (existsb (Nat.eqb i) ids)) (seq 0 n).
Lemma others_in n ids i : In i (others n ids) <-> i < n /\ ~ In i ids.
Proof.
  unfold others. rewrite filter_In, in_seq, negb_true_iff. split; intros [A B]; split; try lia.
  - intros X. assert (existsb (Nat.eqb i) ids = true) by (apply existsb_exists; exists i; split; auto; apply Nat.eqb_refl). congruence.
  - destruct (existsb (Nat.eqb i) ids) eqn:E; auto. apply existsb_exists in E as (x & Hx & X). apply Nat.eqb_eq in X. subst. tauto.
Qed.
Lemma others_nodup n ids : NoDup (others n ids).
Proof. apply NoDup_filter, seq_NoDup. Qed.

Lemma flat_map_ext_in {A B} (f g : A -> list B) l : (forall a, In a l -> f a = g a) -> flat_map f l = flat_map g l.
Proof. induction l as [|a l IH]; intros H; simpl; auto. rewrite H by (simpl; auto). rewrite IH; auto. intros; apply H; simpl; auto. Qed.
Lemma flat_map_seq_nth {B} (f : nat -> list B) (l : list nat) : flat_map (fun t => f (nth t l 0)) (seq 0 (length l)) = flat_map f l.
Proof.
  assert (E : forall m, flat_map f (map (fun t => nth t l 0) m) = flat_map (fun t => f (nth t l 0)) m) by (induction m; simpl; congruence).
  rewrite <- E, <- (list_as_map 0 l). reflexivity.
Qed.
Lemma map_flat_map {A B C} (g : B -> C) (f : A -> list B) l : map g (flat_map f l) = flat_map (fun a => map g (f a)) l.
Proof. induction l as [|a l IH]; simpl; auto. now rewrite map_app, IH. Qed.

Lemma internal_refine_ok order fresh refs st : Permutation order (seq 0 (length refs)) -> NoDup refs -> (forall i, In i refs -> i < length st) ->
  (forall b, In b st -> length (cells b) = 8) -> length fresh = 7 * length refs -> (forall b, In b fresh -> length (cells b) = 8) ->
  exists st', internal_refine order fresh refs st = Ok st' /\ length st' = length st + 7 * length refs /\
    (forall i, i < length st -> ~ In i refs -> nth_error st' i = nth_error st i) /\
    Permutation st' (map (fun i => nth i st dflt) (others (length st) refs) ++ flat_map (fun i => map (child (nth i st dflt)) (seq 0 8)) refs) /\
    Permutation st (map (fun i => nth i st dflt) (others (length st) refs) ++ flat_map (fun i => [nth i st dflt]) refs).
Proof.
  intros HP ND HR HS LF HF.
  assert (PS : Permutation st (map (fun i => nth i st dflt) (others (length st) refs) ++ flat_map (fun i => [nth i st dflt]) refs)).
  { rewrite (list_as_map dflt st) at 1.
    assert (E : flat_map (fun i => [nth i st dflt]) refs = map (fun i => nth i st dflt) refs) by (clear; induction refs; simpl; congruence).
    rewrite E, <- map_app. apply Permutation_map. apply NoDup_Permutation; [apply seq_NoDup| |].
    - apply nodup_app; auto using others_nodup. intros x Hx. apply others_in in Hx. tauto.
    - intros x. rewrite in_app_iff, in_seq, others_in. split; [|intros [?|?]; [lia|split; [lia|apply HR; auto]]].
      intros [_ H]. simpl in H. destruct (in_dec Nat.eq_dec x refs); auto. }
  unfold internal_refine. destruct refs as [|r0 refs0] eqn:ER.
  - exists st. split; [reflexivity|]. cbn [length]. split; [lia|]. split; [intros; reflexivity|split; exact PS].
  - rewrite <- ER in *. clear ER r0 refs0. 
    assert (C8 : forall i, i < length (st ++ fresh) -> length (cells (nth i (st ++ fresh) dflt)) = 8).
    { intros i Hi. pose proof (nth_In (st ++ fresh) dflt Hi) as X. apply in_app_iff in X as [X|X]; auto. }
    destruct (refine_par refs (length st) (st ++ fresh)) with (order := order) (s := st ++ fresh) as (s' & E & L & P & Q); auto.
    + rewrite app_length. lia.
    + eapply Permutation_NoDup; [symmetry; exact HP|]. apply seq_NoDup.
    + intros t Ht. apply (Permutation_in _ HP) in Ht. apply in_seq in Ht. lia.
    + assert (INO : forall t, t < length refs -> In t order) by (intros t Ht; apply (Permutation_in _ (Permutation_sym HP)); apply in_seq; lia).
      rewrite app_length in L.
      assert (OLD : forall i, i < length st -> ~ In i refs -> nth_error s' i = nth_error st i).
      { intros i Hi Hn. rewrite Q; [now apply nth_error_app1|]. intros t pid Ht Hp X.
        apply (Permutation_in _ HP) in Ht. apply in_seq in Ht. destruct pid as [|p]; simpl in X; [|lia].
        subst i. apply Hn. apply nth_In. lia. }
      exists s'. split; [exact E|]. split; [lia|]. split; [exact OLD|]. split; auto.
      rewrite (list_as_map dflt s') at 1.
      assert (PI : Permutation (seq 0 (length s')) (others (length st) refs ++ flat_map (fun t => map (bid refs (length st) t) (seq 0 8)) (seq 0 (length refs)))).
      { apply NoDup_Permutation; [apply seq_NoDup| |].
        - apply nodup_app; auto using others_nodup.
          + apply nodup_flat_map; [apply seq_NoDup| |].
            * intros t Ht. apply in_seq in Ht. apply bid_nodup; auto. lia.
            * intros a b x Ha Hb X Y. apply in_map_iff in X as (p & <- & Hp). apply in_map_iff in Y as (q & Y & Hq). apply in_seq in Ha, Hb, Hp, Hq.
              symmetry in Y. eapply bid_inj in Y; eauto; try lia.
          + intros x Hx Hy. apply others_in in Hx. apply in_flat_map in Hy as (t & Ht & Hy). apply in_map_iff in Hy as (p & <- & Hp). apply in_seq in Ht, Hp.
            destruct p as [|p]; simpl in Hx; [|lia]. destruct Hx as [_ Hx]. apply Hx, nth_In. lia.
        - intros x. rewrite in_app_iff, in_seq, others_in, in_flat_map, L. split.
          + intros [_ H]. simpl in H. destruct (Nat.lt_ge_cases x (length st)) as [A|A].
            * destruct (in_dec Nat.eq_dec x refs) as [I|I]; [right|now left].
              apply (In_nth _ _ 0) in I as (t & Ht & <-). exists t. split; [apply in_seq; lia|]. apply in_map_iff. exists 0. split; [reflexivity|apply in_seq; lia].
            * right. set (d := x - length st). assert (Hd : d = x - length st) by reflexivity. clearbody d. exists (d / 7). pose proof (Nat.div_mod d 7 ltac:(lia)) as DM. pose proof (Nat.mod_upper_bound d 7 ltac:(lia)).
              assert (d / 7 < length refs) by (apply Nat.div_lt_upper_bound; lia).
              split; [apply in_seq; lia|]. apply in_map_iff. exists (S (d mod 7)). split; [cbn [bid]; lia|apply in_seq; lia].
          + intros [[A B]|(t & Ht & X)]; [lia|]. apply in_map_iff in X as (p & <- & Hp). apply in_seq in Ht, Hp. split; [lia|].
            apply bid_lt; auto; lia. }
      rewrite (Permutation_map _ PI), map_app. apply Permutation_app.
      * apply perm_eq. apply map_ext_in. intros i Hi. apply others_in in Hi as [A B]. specialize (OLD i A B).
        rewrite (nth_error_nth' st dflt) in OLD by auto. now apply nth_error_nth.
      * apply perm_eq. rewrite map_flat_map.
        rewrite <- (flat_map_seq_nth (fun i => map (child (nth i st dflt)) (seq 0 8)) refs).
        apply flat_map_ext_in. intros t Ht. apply in_seq in Ht. rewrite map_map. apply map_ext_in. intros p Hp. apply in_seq in Hp.
        apply nth_error_nth. rewrite P by (try apply INO; lia). f_equal. f_equal. rewrite app_nth1; auto. apply HR, nth_In. lia.
Qed.

(* ---------- derefinement ---------- *)
Definition group (st : list block) (idx : nat) : list block := map (fun p => nth (idx + p) st dflt) (seq 0 8).
Definition mean (cs : list (list cell)) : list cell :=
  map (fun cid => cdiv8 (fold_left (fun acc c => cadd acc (nth cid c czero)) cs czero)) (seq 0 8).
Definition merged (st : list block) (idx : nat) : block :=
  let m := get_merge (map coords (group st idx)) in mkB (fst m) (snd m) (mean (map cells (group st idx))).

Lemma apply_derefine_ok cs : Forall (fun c => length c = 8) cs -> apply_derefine cs = Ok (mean cs).
Proof.
  intros F. unfold apply_derefine, mean. apply rmapM_ok. intros cid Hc. apply in_seq in Hc.
  assert (E : forall acc, rfold (fun c a => v <- aget c cid ;; Ok (cadd a v)) cs acc = Ok (fold_left (fun a c => cadd a (nth cid c czero)) cs acc)).
  { induction cs as [|c cs IH]; intros acc; cbn [rfold fold_left]; auto. inversion F; subst. rewrite (aget_lt c cid czero) by lia. cbn [rbind]. now apply IH. }
  now rewrite E.
Qed.

Lemma keep_ok idx (l : list nat) keep : (forall p, In p l -> idx + p < length keep) ->
  exists k', rfold (fun pid k => aset k (idx + pid) false) l keep = Ok k' /\ length k' = length keep /\
    (forall j, nth j k' false = nth j keep false && negb (existsb (fun p => idx + p =? j) l)).
Proof.
  revert keep. induction l as [|p l IH]; intros keep H; cbn [rfold].
  - exists keep. split; auto. split; auto. intros j. simpl. now rewrite andb_true_r.
  - rewrite aset_lt by (apply H; simpl; auto). cbn [rbind].
    destruct (IH (upd keep (idx + p) false)) as (k' & E & L & P).
    { intros q Hq. rewrite length_upd. apply H. simpl; auto. }
    exists k'. split; auto. split; [now rewrite L, length_upd|]. intros j. rewrite P. cbn [existsb].
    destruct (Nat.eqb_spec (idx + p) j) as [<-|NE].
    + rewrite nth_upd_eq by (apply H; simpl; auto). simpl. now rewrite andb_false_r.
    + now rewrite nth_upd_neq by auto.
Qed.

Lemma derefine_item_ok derefs t s keep : t < length derefs -> nth t derefs 0 + 8 <= length s -> length keep = length s ->
  (forall b, In b (group s (nth t derefs 0)) -> length (cells b) = 8) ->
  exists keep', derefine_item derefs t (s, keep) = Ok (upd s (nth t derefs 0) (merged s (nth t derefs 0)), keep') /\ length keep' = length keep /\
    (forall j, nth j keep' false = nth j keep false && negb ((nth t derefs 0 <? j) && (j <? nth t derefs 0 + 8))).
Proof.
  intros Ht HL LK HC. unfold derefine_item. rewrite (aget_lt derefs t 0) by auto. cbn [rbind]. set (idx := nth t derefs 0) in *.
  rewrite (rmapM_ok _ (fun pid => nth (idx + pid) s dflt)) by (intros p Hp; apply in_seq in Hp; apply aget_lt; lia). cbn [rbind].
  destruct (keep_ok idx (seq 1 7) keep) as (k' & E & L & P). { intros p Hp. apply in_seq in Hp. lia. }
  rewrite E. cbn [rbind]. rewrite apply_derefine_ok.
  - cbn [rbind]. rewrite aset_lt by lia. cbn [rbind]. exists k'. split; [reflexivity|]. split; auto. intros j. rewrite P. f_equal. f_equal.
    destruct (existsb _ _) eqn:X.
    + apply existsb_exists in X as (p & Hp & X). apply Nat.eqb_eq in X. apply in_seq in Hp. symmetry. apply andb_true_intro. split; apply Nat.ltb_lt; lia.
    + symmetry. apply andb_false_iff. destruct (Nat.ltb_spec idx j) as [A|A]; [right|now left]. apply Nat.ltb_ge.
      destruct (Nat.le_gt_cases (idx + 8) j) as [B|B]; auto. exfalso. assert (existsb (fun p => idx + p =? j) (seq 1 7) = true); [|congruence].
      apply existsb_exists. exists (j - idx). split; [apply in_seq; lia|]. apply Nat.eqb_eq. lia.
  - apply Forall_forall. intros c Hc. apply in_map_iff in Hc as (b & <- & Hb). now apply HC.
Qed.

Lemma group_ext s st idx : (forall p, p < 8 -> nth (idx + p) s dflt = nth (idx + p) st dflt) -> group s idx = group st idx.
Proof. intros H. apply map_ext_in. intros p Hp. apply in_seq in Hp. apply H. lia. Qed.

Lemma derefine_par derefs st0 : NoDup derefs -> apart derefs -> (forall i, In i derefs -> i + 8 <= length st0) ->
  (forall i b, In i derefs -> In b (group st0 i) -> length (cells b) = 8) ->
  forall order, NoDup order -> (forall t, In t order -> t < length derefs) -> forall s keep,
  length s = length st0 -> length keep = length st0 ->
  (forall t p, In t order -> p < 8 -> nth (nth t derefs 0 + p) s dflt = nth (nth t derefs 0 + p) st0 dflt) ->
  exists s' keep', par_for order (derefine_item derefs) (s, keep) = Ok (s', keep') /\ length s' = length st0 /\ length keep' = length st0 /\
    (forall t, In t order -> nth (nth t derefs 0) s' dflt = merged st0 (nth t derefs 0)) /\
    (forall j, (forall t, In t order -> j <> nth t derefs 0) -> nth j s' dflt = nth j s dflt) /\
    (forall j, nth j keep' false = nth j keep false && negb (existsb (fun t => (nth t derefs 0 <? j) && (j <? nth t derefs 0 + 8)) order)).
Proof.
  intros ND AP HL HC. induction order as [|t order IH]; intros NO HT s keep LS LK HS; unfold par_for; cbn [rfold].
  - exists s, keep. split; auto. split; auto. split; auto. split; [intros t []|]. split; auto. intros j. simpl. now rewrite andb_true_r.
  - inversion NO as [|? ? NI NO']; subst.
    assert (Ht : t < length derefs) by (apply HT; simpl; auto).
    pose proof (HL _ (nth_In derefs 0 Ht)) as HLt.
    assert (G : group s (nth t derefs 0) = group st0 (nth t derefs 0)) by (apply group_ext; intros p Hp; apply HS; simpl; auto).
    destruct (derefine_item_ok derefs t s keep) as (k1 & E1 & L1 & P1); auto; [lia|lia| |].
    { intros b Hb. rewrite G in Hb. eapply HC; [|exact Hb]. now apply nth_In. }
    rewrite E1. cbn [rbind].
    assert (FAR : forall t', In t' order -> forall p, p < 8 -> nth t derefs 0 <> nth t' derefs 0 + p).
    { intros t' Ht' p Hp X. assert (T' : t' < length derefs) by (apply HT; simpl; auto).
      assert (nth t derefs 0 <> nth t' derefs 0). { intros Y. apply NI. rewrite (proj1 (NoDup_nth derefs 0) ND t t'); auto. }
      assert (nth t' derefs 0 < nth t derefs 0) as LT by lia. apply AP in LT; try (now apply nth_In). lia. }
    destruct (IH NO') with (s := upd s (nth t derefs 0) (merged s (nth t derefs 0))) (keep := k1) as (s' & keep' & E & A1 & A2 & A3 & A4 & A5).
    + intros; apply HT; simpl; auto.
    + now rewrite length_upd.
    + congruence.
    + intros t' p Ht' Hp. rewrite nth_upd_neq by (apply FAR; auto). apply HS; simpl; auto.
    + exists s', keep'. split; [exact E|]. split; auto. split; auto. split; [|split].
      * intros t' [<-|Ht']; auto. rewrite A4.
        { rewrite nth_upd_eq by lia. unfold merged. now rewrite G. }
        intros t' Ht'. specialize (FAR t' Ht' 0 ltac:(lia)). lia.
      * intros j Hj. rewrite A4 by (intros; apply Hj; simpl; auto). apply nth_upd_neq. intros X. symmetry in X. revert X. apply Hj; simpl; auto.
      * intros j. rewrite A5, P1. cbn [existsb]. rewrite negb_orb. now rewrite andb_assoc.
Qed.

Lemma nth_rep {A} (a d : A) n i : i < n -> nth i (repeat a n) d = a.
Proof. intros H. revert i H. induction n as [|n IH]; intros [|i] H; simpl; auto; try lia. apply IH. lia. Qed.
Lemma compact_map st keep : length keep = length st ->
  kept_blocks st keep = map (fun i => nth i st dflt) (filter (fun i => nth i keep false) (seq 0 (length st))).
Proof.
  unfold kept_blocks. revert keep. induction st as [|b st IH]; intros [|k keep] H; try discriminate; auto.
  injection H as H. cbn [length]. rewrite <- cons_seq, <- seq_shift. cbn [combine filter snd]. change (nth 0 (k :: keep) false) with k.
  assert (E : filter (fun i => nth i (k :: keep) false) (map S (seq 0 (length st))) = map S (filter (fun i => nth i keep false) (seq 0 (length st)))).
  { generalize (seq 0 (length st)). intros l. induction l as [|i l IHl]; auto. cbn [map filter]. change (nth (S i) (k :: keep) false) with (nth i keep false).
    destruct (nth i keep false); cbn [map]; congruence. }
  rewrite E. destruct k; cbn [map fst]; rewrite map_map, IH by auto; reflexivity.
Qed.

Lemma in_group_ids d ids : In d (flat_map (fun i => seq i 8) ids) <-> exists i, In i ids /\ i <= d < i + 8.
Proof. rewrite in_flat_map. split; intros (i & A & B); exists i; rewrite in_seq in *; auto. Qed.

Lemma internal_derefine_ok order derefs st : Permutation order (seq 0 (length derefs)) -> NoDup derefs -> apart derefs ->
  (forall i, In i derefs -> i + 8 <= length st) -> (forall i b, In i derefs -> In b (group st i) -> length (cells b) = 8) ->
  exists st', internal_derefine order derefs st = Ok st' /\
    Permutation st' (map (fun i => nth i st dflt) (others (length st) (flat_map (fun i => seq i 8) derefs)) ++ flat_map (fun i => [merged st i]) derefs) /\
    Permutation st (map (fun i => nth i st dflt) (others (length st) (flat_map (fun i => seq i 8) derefs)) ++ flat_map (group st) derefs).
Proof.
  intros HP ND AP HL HC.
  assert (NG : NoDup (flat_map (fun i => seq i 8) derefs)).
  { apply nodup_flat_map; auto; [intros; apply seq_NoDup|]. intros a b x Ha Hb X Y. apply in_seq in X, Y.
    destruct (Nat.lt_trichotomy a b) as [Q|[Q|Q]]; auto; apply AP in Q; auto; lia. }
  assert (PS : Permutation st (map (fun i => nth i st dflt) (others (length st) (flat_map (fun i => seq i 8) derefs)) ++ flat_map (group st) derefs)).
  { assert (E : flat_map (group st) derefs = map (fun i => nth i st dflt) (flat_map (fun i => seq i 8) derefs)).
    { rewrite map_flat_map. apply flat_map_ext_in. intros a _. unfold group.
      rewrite <- (map_map (fun p => a + p) (fun i => nth i st dflt)). f_equal. cbn [seq map]. repeat (f_equal; try lia). }
    rewrite E, <- map_app. rewrite (list_as_map dflt st) at 1. apply Permutation_map. apply NoDup_Permutation; [apply seq_NoDup| |].
    - apply nodup_app; auto using others_nodup. intros x Hx. apply others_in in Hx. tauto.
    - intros x. rewrite in_app_iff, in_seq, others_in. split.
      + intros [_ H]. simpl in H. destruct (in_dec Nat.eq_dec x (flat_map (fun i => seq i 8) derefs)); auto.
      + intros [?|H]; [lia|]. apply in_group_ids in H as (i & Hi & B). specialize (HL i Hi). lia. }
  unfold internal_derefine. destruct derefs as [|d0 ds0] eqn:ED.
  - exists st. split; [reflexivity|]. split; exact PS.
  - rewrite <- ED in *. assert (NE : derefs <> []) by congruence. clear ED d0 ds0.
    destruct (derefine_par derefs st ND AP HL HC order) with (s := st) (keep := repeat true (length st)) as (s' & keep & E & L & LK & A3 & A4 & A5); auto.
    + eapply Permutation_NoDup; [symmetry; exact HP|]. apply seq_NoDup.
    + intros t Ht. apply (Permutation_in _ HP) in Ht. apply in_seq in Ht. lia.
    + apply repeat_length.
    + assert (INO : forall i, In i derefs -> exists t, In t order /\ nth t derefs 0 = i).
      { intros i Hi. apply (In_nth _ _ 0) in Hi as (t & Ht & X). exists t. split; auto. apply (Permutation_in _ (Permutation_sym HP)). apply in_seq. lia. }
      assert (OIN : forall t, In t order -> In (nth t derefs 0) derefs).
      { intros t Ht. apply (Permutation_in _ HP) in Ht. apply in_seq in Ht. apply nth_In. lia. }
      assert (K : forall j, j < length st -> (nth j keep false = true <-> forall i, In i derefs -> ~ (i < j < i + 8))).
      { intros j Hj. rewrite A5, nth_rep by auto. rewrite andb_true_l, negb_true_iff. split.
        - intros X i Hi B. destruct (INO i Hi) as (t & Ht & Y). assert (existsb (fun t => (nth t derefs 0 <? j) && (j <? nth t derefs 0 + 8)) order = true); [|congruence].
          apply existsb_exists. exists t. split; auto. rewrite Y. apply andb_true_intro. split; apply Nat.ltb_lt; lia.
        - intros X. apply not_true_is_false. intros Y. apply existsb_exists in Y as (t & Ht & Y). apply andb_prop in Y as [Y1 Y2].
          apply Nat.ltb_lt in Y1, Y2. apply (X (nth t derefs 0)); auto. }
      assert (EC : Permutation (kept_blocks s' keep) (map (fun i => nth i st dflt) (others (length st) (flat_map (fun i => seq i 8) derefs)) ++ flat_map (fun i => [merged st i]) derefs)).
      { rewrite compact_map by congruence. rewrite L.
        assert (PI : Permutation (filter (fun i => nth i keep false) (seq 0 (length st))) (others (length st) (flat_map (fun i => seq i 8) derefs) ++ derefs)).
        { apply NoDup_Permutation; [apply NoDup_filter, seq_NoDup| |].
          - apply nodup_app; auto using others_nodup. intros x Hx. apply others_in in Hx as [_ Hx]. intros X. apply Hx. apply in_group_ids. exists x. split; auto. lia.
          - intros x. rewrite in_app_iff, filter_In, in_seq, others_in. split.
            + intros [[_ B] X]. simpl in B. pose proof (proj1 (K x B) X) as X'. destruct (in_dec Nat.eq_dec x derefs) as [I|I]; auto. left. split; auto.
              rewrite in_group_ids. intros (i & Hi & Y). apply (X' i Hi). destruct (Nat.eq_dec i x); [subst; tauto|lia].
            + intros [[A B]|I].
              * split; [lia|]. apply (proj2 (K x A)). intros i Hi Y. apply B. apply in_group_ids. exists i. split; auto. lia.
              * pose proof (HL x I). split; [lia|]. apply (proj2 (K x ltac:(lia))). intros i Hi Y. destruct (Nat.eq_dec i x); [lia|]. assert (i < x) as Q by lia. apply AP in Q; auto. lia. }
        rewrite (Permutation_map _ PI), map_app. apply Permutation_app; apply perm_eq.
        - apply map_ext_in. intros i Hi. apply others_in in Hi as [A B]. apply A4. intros t Ht X. apply B. apply in_group_ids. exists (nth t derefs 0). split; auto. lia.
        - transitivity (map (merged st) derefs); [|clear; induction derefs; simpl; congruence]. apply map_ext_in. intros i Hi. destruct (INO i Hi) as (t & Ht & <-). now apply A3. }
      unfold par_for in E. unfold par_for. rewrite E. cbn [rbind].
      destruct (kept_blocks s' keep) as [|b r] eqn:EB.
      * exfalso. apply Permutation_nil in EC. destruct derefs as [|d ds]; [congruence|]. apply app_eq_nil in EC as [_ EC]. discriminate.
      * exists (b :: r). split; [reflexivity|]. split; [exact EC|exact PS].
Qed.
