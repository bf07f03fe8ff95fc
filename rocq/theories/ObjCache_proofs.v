From Verif Require Import Base Containers Containers_spec Containers_proofs ObjCache ObjCache_spec.
Local Open Scope Z_scope.

Lemma w64_id x : 0 <= x < 2 ^ 64 -> w64 x = x.
Proof. intros H. unfold w64, wrapZ. apply Z.mod_small. exact H. Qed.
Lemma w64_2 x : 0 <= x -> (exists a b, x = a + b /\ a < 2 ^ 63 /\ b < 2 ^ 63) -> w64 x = x.
Proof. intros H (a & b & -> & A & B). apply w64_id. change (2 ^ 63) with 9223372036854775808 in *. change (2 ^ 64) with 18446744073709551616. lia. Qed.
Definition tot (m : dd devc) : Z := fold_right (fun p t => bytes (snd p) + t) 0 m.
Lemma emplace_tot k v (m m' : dd devc) : map_emplace k v m = Some m' -> tot m' = tot m + bytes v /\ length m' = S (length m).
Proof.
  revert m'. induction m as [|[k' v'] t IH]; intros m' H; cbn [map_emplace] in H.
  - injection H as <-. cbn. lia.
  - destruct (k <? k'); [injection H as <-; cbn; lia|]. destruct (k =? k'); [discriminate|]. destruct (map_emplace k v t) as [t'|] eqn:E; [|discriminate].
    injection H as <-. destruct (IH _ eq_refl) as (A & B). cbn [tot fold_right snd length]. fold (tot t) (tot t'). lia.
Qed.
Lemma erase_notin {T} k (m : dd T) : dd_find k m = None -> dd_erase k m = m.
Proof.
  induction m as [|[k' v'] t IH]; intros H; [reflexivity|]. cbn [dd_find] in H. destruct (Z.eqb_spec k k'); [discriminate|]. unfold dd_erase. cbn [filter fst].
  replace (k' =? k) with false by lia. cbn [negb]. f_equal. now apply IH.
Qed.
Lemma find_tail {T} k (v : T) t : dd_sorted ((k, v) :: t) -> dd_find k t = None.
Proof.
  intros S. destruct (dd_find k t) eqn:E; [exfalso|reflexivity]. assert (X : In k (map fst t)) by (apply dd_find_in; congruence).
  inversion S as [|? ? _ F]; subst. rewrite Forall_forall in F. specialize (F _ X). lia.
Qed.
Lemma erase_tot k v (m : dd devc) : dd_sorted m -> dd_find k m = Some v -> tot (dd_erase k m) = tot m - bytes v /\ length m = S (length (dd_erase k m)).
Proof.
  induction m as [|[k' v'] t IH]; intros S H; [discriminate|]. cbn [dd_find] in H. unfold dd_erase. cbn [filter fst]. destruct (Z.eqb_spec k k') as [<-|N].
  - injection H as ->. rewrite Z.eqb_refl. cbn [negb]. change (filter (fun p => negb (fst p =? k)) t) with (dd_erase k t). rewrite erase_notin by (eapply find_tail; eauto).
    cbn [tot fold_right snd length]. fold (tot t). lia.
  - replace (k' =? k) with false by lia. cbn [negb]. change (filter (fun p => negb (fst p =? k)) t) with (dd_erase k t).
    destruct IH as (A & B); auto; [inversion S; auto|]. cbn [tot fold_right snd length]. fold (tot t) (tot (dd_erase k t)). lia.
Qed.
Lemma erase_sorted {T} k (m : dd T) : dd_sorted m -> dd_sorted (dd_erase k m).
Proof. intros S. exact (proj1 (dd_step_spec (DErase k) m (fun x => dd_find x m) S (fun _ => eq_refl))). Qed.
Lemma has_key_find {T} k (m : dd T) : dd_has_key k m = true <-> exists v, dd_find k m = Some v.
Proof. unfold dd_has_key. destruct (dd_find k m); split; intros H; eauto; [discriminate|destruct H; discriminate]. Qed.
Lemma has_key_none {T} k (m : dd T) : dd_has_key k m = false <-> dd_find k m = None.
Proof. unfold dd_has_key. destruct (dd_find k m); split; congruence. Qed.

Lemma obind_ret {A B} (m : act A) (f : A -> act B) s a s' : m s = Ret a s' -> obind m f s = f a s'.
Proof. unfold obind. now intros ->. Qed.
Lemma obind_exc {A B} (m : act A) (f : A -> act B) s s' : m s = Exc s' -> obind m f s = Exc s'.
Proof. unfold obind. now intros ->. Qed.

Section Proofs.
  Variables (alloc : nat -> Z) (gen : Z -> option devc) (limit : Z).
  Hypothesis SZ : sizes_ok alloc gen limit.

  (** an entry that stands for [id] *)
  Definition good (id : Z) (d : devc) : Prop := exists g, gen id = Some g /\ (d = g \/ d = build_from_host alloc (d_host g)).
  Lemma good_bytes id d : good id d -> 0 <= bytes d < 2 ^ 63 /\ dev_memsize d = bytes d.
  Proof.
    intros (g & E & K). destruct SZ as (_ & S). destruct (S id g E) as (A & B). assert (P : 0 <= bytes d < 2 ^ 63) by (destruct K as [->| ->]; [exact A|exact B]).
    split; [exact P|]. unfold dev_memsize. apply w64_id. fold (bytes d). change (2 ^ 63) with 9223372036854775808 in *; change (2 ^ 64) with 18446744073709551616; lia.
  Qed.
  Record Inv (s : hstate) : Prop := {
    i_sc : dd_sorted (s_cache s); i_so : dd_sorted (s_off s);
    i_disj : forall id d, dd_find id (s_cache s) = Some d -> dd_find id (s_off s) = None;
    i_mem : s_dmem s = tot (s_cache s); i_lim : 0 <= s_dmem s <= limit;
    i_good : forall id d, dd_find id (s_cache s) = Some d -> good id d;
    i_host : forall id h, dd_find id (s_off s) = Some h -> exists g, gen id = Some g /\ h = d_host g;
    i_q : forall id d, dd_find id (s_cache s) = Some d -> In id (s_q s) }.
  Lemma fresh_inv : Inv fresh.
  Proof.
    destruct SZ as (L & _). split; cbn; try discriminate; try constructor; try lia.
  Qed.

  (** one entry goes to the host *)
  Definition offl (s s' : hstate) : Prop := exists pre x d,
    s_q s = pre ++ x :: s_q s' /\ (forall y, In y pre -> dd_find y (s_cache s) = None) /\
    dd_find x (s_cache s) = Some d /\ s_cache s' = dd_erase x (s_cache s) /\
    (forall y, dd_find y (s_off s') = if y =? x then Some (d_host d) else dd_find y (s_off s)) /\
    s_dmem s' = s_dmem s - bytes d /\ s_glog s' = s_glog s /\ s_blog s' = s_blog s.
  Lemma offl_ok s : Inv s -> s_cache s <> [] -> exists s', offload_oldest s = Ret tt s' /\ offl s s' /\ Inv s'.
  Proof.
    intros I NE. unfold offload_oldest. assert (HQ := i_q _ I).
    assert (GEN : forall q pre, s_q s = pre ++ q -> (forall y, In y pre -> dd_find y (s_cache s) = None) ->
      exists s', offload_oldest_loop q s = Ret tt s' /\ offl s s' /\ Inv s').
    2: { destruct (GEN (s_q s) [] eq_refl) as (s' & H); [intros y []|eauto]. }
    assert (EM : dd_is_empty (s_cache s) = false) by (destruct (s_cache s); [congruence|reflexivity]).
    induction q as [|x q IH]; intros pre EQ SK; cbn [offload_oldest_loop]; rewrite EM.
    - exfalso. destruct (s_cache s) as [|[k v] t] eqn:EC; [congruence|]. assert (F : dd_find k ((k, v) :: t) = Some v) by (cbn; now rewrite Z.eqb_refl).
      assert (X := HQ k v F). rewrite EQ, app_nil_r in X. rewrite (SK _ X) in F. discriminate.
    - destruct (dd_has_key x (s_cache s)) eqn:HK.
      + apply has_key_find in HK. destruct HK as (d & F). pose proof (i_good _ I _ _ F) as GD. destruct (good_bytes _ _ GD) as (B & M).
        assert (FO := i_disj _ I _ _ F). pose proof (emplace_spec x (d_host d) (s_off s) (i_so _ I)) as EP. rewrite FO in EP. destruct EP as (m' & EA & SM & FM & _).
        destruct (erase_tot x d (s_cache s) (i_sc _ I) F) as (ET & EL).
        assert (TP : 0 <= tot (dd_erase x (s_cache s))).
        { assert (GG : forall id e, dd_find id (dd_erase x (s_cache s)) = Some e -> good id e) by (intros id e H; rewrite dd_find_erase in H; destruct (id =? x); [discriminate|eapply i_good; eauto]).
          pose proof (erase_sorted x _ (i_sc _ I)) as SE. revert GG SE. generalize (dd_erase x (s_cache s)). induction d0 as [|[k v] t IHt]; intros GG SE; [cbn; lia|].
          cbn [tot fold_right snd]. fold (tot t). assert (G0 : good k v) by (apply GG; cbn; now rewrite Z.eqb_refl). apply good_bytes in G0. assert (0 <= tot t); [|lia].
          apply IHt; [|now inversion SE]. intros id e H. apply GG. cbn [dd_find]. destruct (Z.eqb_spec id k) as [->|]; auto. rewrite (find_tail _ _ _ SE) in H. discriminate. }
        pose proof (i_mem _ I) as IM. pose proof (i_lim _ I) as IL. destruct SZ as (LM & _).
        eexists. split; [|split].
        * unfold offload_entry, pop_cache, push_offload, obind, olift, modify, dd_get. cbn [set_q s_cache]. rewrite F. unfold copy_to_host, oret. cbn [set_q set_cache set_dmem set_hmem s_cache s_off s_q s_dmem s_hmem s_glog s_blog].
          unfold dd_add_obj. rewrite EA. reflexivity.
        * exists pre, x, d. cbn [set_q set_off set_cache set_dmem set_hmem s_cache s_off s_q s_dmem s_hmem s_glog s_blog]. split; [exact EQ|]. split; [exact SK|]. split; [exact F|]. split; [reflexivity|]. split; [exact FM|].
          split; [|auto]. rewrite M. apply w64_id. change (2 ^ 63) with 9223372036854775808 in *; change (2 ^ 64) with 18446744073709551616; lia.
        * split; cbn [set_q set_off set_cache set_dmem set_hmem s_cache s_off s_q s_dmem s_hmem s_glog s_blog].
          -- now apply erase_sorted, I.
          -- exact SM.
          -- intros id e H. rewrite dd_find_erase in H. rewrite FM. destruct (id =? x); [discriminate|]. eapply i_disj; eauto.
          -- rewrite M, w64_id; [lia|]. change (2 ^ 63) with 9223372036854775808 in *; change (2 ^ 64) with 18446744073709551616; lia.
          -- rewrite M, w64_id; [lia|]. change (2 ^ 63) with 9223372036854775808 in *; change (2 ^ 64) with 18446744073709551616; lia.
          -- intros id e H. rewrite dd_find_erase in H. destruct (id =? x); [discriminate|]. eapply i_good; eauto.
          -- intros id h H. rewrite FM in H. destruct (Z.eqb_spec id x) as [->|].
             ++ injection H as <-. destruct GD as (g & EG & [->| ->]); exists g; auto.
             ++ eapply i_host; eauto.
          -- intros id e H. rewrite dd_find_erase in H. destruct (Z.eqb_spec id x); [discriminate|]. assert (X := HQ id e H). rewrite EQ in X. apply in_app_iff in X. destruct X as [X|[X|X]]; [|congruence|exact X].
             rewrite (SK _ X) in H. discriminate.
      + apply has_key_none in HK. apply (IH (pre ++ [x])); [rewrite EQ, <- app_assoc; reflexivity|]. intros y Hy. apply in_app_iff in Hy. destruct Hy as [Hy|[<-|[]]]; auto.
  Qed.
  (** several entries go, as long as there is not enough room *)
  Inductive freed (sz : Z) : hstate -> hstate -> Prop :=
  | fr_0 s : freed sz s s
  | fr_S s s' s'' : limit < sz + s_dmem s -> offl s s' -> Inv s' -> freed sz s' s'' -> freed sz s s''.
  Lemma space_ok sz turns s : 0 <= sz < 2 ^ 63 -> Inv s -> (dd_count (s_cache s) < turns)%nat ->
    exists s', freed sz s s' /\ Inv s' /\
      ((make_space limit turns sz s = Ret tt s' /\ sz + s_dmem s' <= limit) \/
       (make_space limit turns sz s = Exc s' /\ s_cache s' = [] /\ limit < sz)).
  Proof.
    intros HS. revert s. induction turns as [|turns IH]; intros s I CT; [lia|]. cbn [make_space].
    assert (W : w64 (sz + s_dmem s) = sz + s_dmem s). { apply w64_id. pose proof (i_lim _ I). destruct SZ as (L & _). change (2 ^ 63) with 9223372036854775808 in *; change (2 ^ 64) with 18446744073709551616; lia. }
    rewrite W. destruct (limit <? sz + s_dmem s) eqn:E.
    - destruct (dd_is_empty (s_cache s)) eqn:EM.
      + exists s. split; [constructor|]. split; [auto|]. right. destruct (s_cache s) eqn:C; [|discriminate]. split; [reflexivity|]. split; [reflexivity|].
        pose proof (i_mem _ I) as M. rewrite C in M. cbn in M. lia.
      + assert (NE : s_cache s <> []) by (destruct (s_cache s); [discriminate|congruence]). destruct (offl_ok s I NE) as (s1 & E1 & O1 & I1).
        assert (CT1 : (dd_count (s_cache s1) < turns)%nat).
        { destruct O1 as (pre & x & d & _ & _ & F & C & _). rewrite C. destruct (erase_tot x d _ (i_sc _ I) F) as (_ & L). unfold dd_count in *. lia. }
        destruct (IH s1 I1 CT1) as (s' & FR & I' & R). exists s'. split; [econstructor; eauto; lia|]. split; [exact I'|]. unfold obind. rewrite E1. exact R.
    - exists s. split; [constructor|]. split; [auto|]. left. split; [reflexivity|lia].
  Qed.
  (** keys: nothing is lost, nothing appears *)
  Definition known (s : hstate) (id : Z) : Prop := dd_find id (s_cache s) <> None \/ dd_find id (s_off s) <> None.
  Lemma offl_known s s' id : offl s s' -> (known s' id <-> known s id).
  Proof.
    intros (pre & x & d & _ & _ & F & C & O & _). unfold known. rewrite C, dd_find_erase, O. destruct (Z.eqb_spec id x) as [->|]; [|tauto]. rewrite F. split; intros _; [left|right]; discriminate.
  Qed.
  Lemma freed_known sz s s' id : freed sz s s' -> (known s' id <-> known s id).
  Proof. induction 1 as [|s s' s'' _ O _ _ IH]; [tauto|]. rewrite IH. now apply offl_known. Qed.
  Lemma freed_logs sz s s' : freed sz s s' -> s_glog s' = s_glog s /\ s_blog s' = s_blog s.
  Proof. induction 1 as [|s s' s'' _ O _ _ (A & B)]; [auto|]. destruct O as (? & ? & ? & _ & _ & _ & _ & _ & _ & G & L). split; congruence. Qed.
  Lemma freed_notcached sz s s' id : freed sz s s' -> dd_find id (s_cache s) = None -> dd_find id (s_cache s') = None.
  Proof. induction 1 as [|s s' s'' _ O _ _ IH]; [auto|]. intros H. apply IH. destruct O as (pre & x & d & _ & _ & _ & C & _). rewrite C, dd_find_erase, H. now destruct (id =? x). Qed.

  (** load_or_build_cache: the state is [s] without [id] on the host *)
  Definition loaded (id : Z) (s s1 : hstate) : Prop :=
    s_cache s1 = s_cache s /\ s_off s1 = dd_erase id (s_off s) /\ s_q s1 = s_q s /\ s_dmem s1 = s_dmem s /\ s_blog s1 = s_blog s /\
    s_glog s1 = (if dd_has_key id (s_off s) then s_glog s else s_glog s ++ [id]).
  Lemma load_ok id s : Inv s -> dd_find id (s_cache s) = None ->
    (gen id = None /\ load_or_build_cache alloc gen id s = Exc s) \/
    exists c s1, load_or_build_cache alloc gen id s = Ret c s1 /\ good id c /\ loaded id s s1 /\ Inv s1.
  Proof.
    intros I NC. unfold load_or_build_cache. destruct (dd_has_key id (s_off s)) eqn:HK.
    - right. pose proof HK as HK'. apply has_key_find in HK'. destruct HK' as (h & F). destruct (i_host _ I _ _ F) as (g & EG & ->).
      eexists _, _. split; [unfold pop_offload, obind, olift, dd_get, modify, oret; rewrite F; reflexivity|]. split; [exists g; auto|]. split.
      + unfold loaded. cbn [set_hmem set_off s_cache s_off s_q s_dmem s_glog s_blog]. rewrite HK. repeat split.
      + split; cbn [set_hmem set_off s_cache s_off s_q s_dmem s_glog s_blog]; try apply I.
        * apply erase_sorted, I.
        * intros i d H. rewrite dd_find_erase. destruct (i =? id); [reflexivity|]. eapply i_disj; eauto.
        * intros i h H. rewrite dd_find_erase in H. destruct (i =? id); [discriminate|]. eapply i_host; eauto.
    - destruct (gen id) as [c|] eqn:EG; [right|left; auto]. eexists _, _. split; [reflexivity|]. split; [exists c; auto|]. split.
      + unfold loaded. cbn [set_glog s_cache s_off s_q s_dmem s_glog s_blog]. rewrite HK. apply has_key_none in HK. rewrite erase_notin by auto. repeat split.
      + destruct I; split; cbn [set_glog s_cache s_off s_q s_dmem s_glog s_blog]; auto.
  Qed.
  (** push_new *)
  Definition pushed (id : Z) (c : devc) (s s' : hstate) : Prop :=
    (forall y, dd_find y (s_cache s') = if y =? id then Some c else dd_find y (s_cache s)) /\ s_off s' = s_off s /\
    s_q s' = s_q s ++ [id; id] /\ s_dmem s' = s_dmem s + bytes c /\ s_glog s' = s_glog s /\ s_blog s' = s_blog s ++ [id].
  Lemma push_ok id c s : Inv s -> good id c -> dd_find id (s_cache s) = None -> dd_find id (s_off s) = None -> bytes c + s_dmem s <= limit ->
    exists s', push_new limit id c s = Ret tt s' /\ pushed id c s s' /\ Inv s'.
  Proof.
    intros I G NC NO LE. destruct (good_bytes _ _ G) as (B & M). pose proof (i_lim _ I) as IL. destruct SZ as (LM & _). unfold push_new.
    assert (W : w64 (dev_memsize c + s_dmem s) = bytes c + s_dmem s) by (rewrite M; apply w64_id; change (2 ^ 63) with 9223372036854775808 in *; change (2 ^ 64) with 18446744073709551616; lia).
    assert (W' : w64 (s_dmem s + dev_memsize c) = s_dmem s + bytes c) by (rewrite M; apply w64_id; change (2 ^ 63) with 9223372036854775808 in *; change (2 ^ 64) with 18446744073709551616; lia).
    rewrite W. replace (limit <? bytes c + s_dmem s) with false by lia.
    pose proof (emplace_spec id c (s_cache s) (i_sc _ I)) as EP. rewrite NC in EP. destruct EP as (m' & EA & SM & FM & _). destruct (emplace_tot _ _ _ _ EA) as (ET & _).
    eexists. split; [|split].
    - unfold push_cache, obind, olift, modify, dd_add_obj. cbn [set_dmem s_cache]. rewrite EA, W'. reflexivity.
    - unfold pushed. cbn [set_q set_blog set_cache set_dmem s_cache s_off s_q s_dmem s_glog s_blog]. rewrite <- app_assoc. repeat split. exact FM.
    - pose proof (i_mem _ I) as IM. split; cbn [set_q set_blog set_cache set_dmem s_cache s_off s_q s_dmem s_glog s_blog]; try apply I; auto; try lia.
      + intros i d H. rewrite FM in H. destruct (Z.eqb_spec i id) as [->|]; [auto|]. eapply i_disj; eauto.
      + intros i d H. rewrite FM in H. destruct (Z.eqb_spec i id) as [->|]; [injection H as <-; auto|]. eapply i_good; eauto.
      + intros i d H. rewrite FM in H. rewrite !in_app_iff. destruct (Z.eqb_spec i id) as [->|]; [right; now left|]. left. left. eapply i_q; eauto.
  Qed.
  (** get_cache *)
  Inductive got (id : Z) (s : hstate) : out devc -> Prop :=
  | got_here d : dd_find id (s_cache s) = Some d -> got id s (Ret d s)
  | got_built c s1 s2 s3 : dd_find id (s_cache s) = None -> good id c -> loaded id s s1 -> freed (bytes c) s1 s2 -> pushed id c s2 s3 -> got id s (Ret c s3)
  | got_nogen : dd_find id (s_cache s) = None -> gen id = None -> got id s (Exc s)
  | got_big c s1 s2 : dd_find id (s_cache s) = None -> good id c -> limit < bytes c -> loaded id s s1 -> freed (bytes c) s1 s2 -> got id s (Exc s2).
  Definition Inv_out {A} (o : out A) : Prop := match o with Ret _ s => Inv s | Exc s => Inv s | Bad => False end.
  Lemma get_ok id s : Inv s -> got id s (get_cache alloc gen limit id s) /\ Inv_out (get_cache alloc gen limit id s).
  Proof.
    intros I. unfold get_cache. destruct (dd_has_key id (s_cache s)) eqn:HK.
    - apply has_key_find in HK. destruct HK as (d & F). unfold olift, dd_get. rewrite F. split; [now constructor|exact I].
    - apply has_key_none in HK.
      destruct (load_ok id s I HK) as [(EG & E)|(c & s1 & E & G & LD & I1)].
      + assert (X : build_cache alloc gen limit id s = Exc s) by (unfold build_cache; now apply obind_exc). rewrite (obind_exc _ _ _ _ X). split; [now constructor|exact I].
      + destruct (good_bytes _ _ G) as (B & M).
        destruct (space_ok (bytes c) (S (dd_count (s_cache s1))) s1 B I1 ltac:(lia)) as (s2 & FR & I2 & [(E2 & LE)|(E2 & EM & LT)]).
        2: { assert (X : build_cache alloc gen limit id s = Exc s2) by (unfold build_cache; rewrite (obind_ret _ _ _ _ _ E); apply obind_exc; cbv beta; rewrite M; exact E2).
             rewrite (obind_exc _ _ _ _ X). split; [econstructor; eauto|exact I2]. }
        assert (N1 : ~ known s1 id).
        { intros [K|K]; destruct LD as (LC & LO & _); [rewrite LC in K; congruence|]. rewrite LO, dd_find_erase, Z.eqb_refl in K. congruence. }
        assert (N2 : ~ known s2 id) by (rewrite (freed_known _ _ _ id FR); exact N1).
        assert (NC : dd_find id (s_cache s2) = None) by (destruct (dd_find id (s_cache s2)) eqn:Y; [exfalso; apply N2; left; congruence|reflexivity]).
        assert (NO : dd_find id (s_off s2) = None) by (destruct (dd_find id (s_off s2)) eqn:Y; [exfalso; apply N2; right; congruence|reflexivity]).
        destruct (push_ok id c s2 I2 G NC NO LE) as (s3 & E3 & PU & I3).
        assert (X : build_cache alloc gen limit id s = Ret tt s3).
        { unfold build_cache. rewrite (obind_ret _ _ _ _ _ E). erewrite obind_ret; [exact E3|]. cbv beta. rewrite M. exact E2. }
        rewrite (obind_ret _ _ _ _ _ X). unfold olift, dd_get. assert (FC : dd_find id (s_cache s3) = Some c) by (destruct PU as (PC & _); rewrite PC, Z.eqb_refl; reflexivity).
        rewrite FC. split; [econstructor; eauto|exact I3].
  Qed.

  (** ** Histories *)
  Lemma got_answer id s : Inv s -> match get_cache alloc gen limit id s with
    | Ret d s' => exists g, gen id = Some g /\ d_host d = d_host g
    | Exc s' => gen id = None \/ exists g, gen id = Some g /\ (limit < bytes g \/ limit < bytes_again alloc g)
    | Bad => False end.
  Proof.
    intros I. destruct (get_ok id s I) as (G & _). inversion G as [d F E|c s1 s2 s3 N GD LD FR PU E|N EG E|c s1 s2 N GD LT LD FR E].
    - destruct (i_good _ I _ _ F) as (g & EG & [->| ->]); exists g; auto.
    - destruct GD as (g & EG & [->| ->]); exists g; auto.
    - auto.
    - right. destruct GD as (g & EG & [->| ->]); exists g; auto.
  Qed.
  Lemma reset_inv s : Inv (mkst [] [] [] 0 0 (s_glog s) (s_blog s)).
  Proof. destruct SZ as (L & _). split; cbn; try discriminate; try constructor; try lia. Qed.
  Lemma step_ok o s : Inv s -> exists b s', hstep alloc gen limit o s = Some (b, s') /\ Inv s' /\ answer_ok alloc gen limit o b.
  Proof.
    intros I. destruct o as [id|id|]; cbn [hstep].
    - pose proof (got_answer id s I) as A. destruct (get_ok id s I) as (_ & IO). destruct (get_cache alloc gen limit id s) as [d s'|s'|]; cbn in IO; [| |tauto]; do 2 eexists; (split; [reflexivity|]); (split; [exact IO|exact A]).
    - unfold preload, obind, oret. pose proof (got_answer id s I) as A. destruct (get_ok id s I) as (_ & IO). destruct (get_cache alloc gen limit id s) as [d s'|s'|]; cbn in IO; [| |tauto]; do 2 eexists; (split; [reflexivity|]); (split; [exact IO|first [exact A | exact Logic.I]]).
    - do 2 eexists. split; [reflexivity|]. split; [apply reset_inv|exact Logic.I].
  Qed.
  Lemma run_ok ops : forall s, Inv s -> exists bs s', hrun alloc gen limit ops s = Some (bs, s') /\ Inv s' /\ Forall2 (answer_ok alloc gen limit) ops bs.
  Proof.
    induction ops as [|o ops IH]; intros s I; cbn [hrun]; [exists [], s; auto|]. destruct (step_ok o s I) as (b & s1 & E & I1 & A). rewrite E.
    destruct (IH s1 I1) as (bs & s' & E' & I' & A'). rewrite E'. do 2 eexists. split; [reflexivity|]. split; [exact I'|]. now constructor.
  Qed.
  (** a step that does not throw is a reset, or a get of the id asked for *)
  Lemma step_cases o s b s' : Inv s -> hstep alloc gen limit o s = Some (b, s') -> b <> OThrew ->
    (o = HReset /\ s' = mkst [] [] [] 0 0 (s_glog s) (s_blog s)) \/ exists id d, asked o = [id] /\ got id s (Ret d s').
  Proof.
    intros I E NB. destruct o as [id|id|]; cbn [hstep] in E.
    - right. destruct (get_ok id s I) as (G & _). destruct (get_cache alloc gen limit id s) as [d s1|s1|] eqn:EQ; [| |discriminate]; injection E as <- <-; [|congruence]. exists id, d. split; [reflexivity|exact G].
    - right. unfold preload, obind, oret in E. destruct (get_ok id s I) as (G & _). destruct (get_cache alloc gen limit id s) as [d s1|s1|] eqn:EQ; [| |discriminate]; injection E as <- <-; [|congruence]. exists id, d. split; [reflexivity|exact G].
    - left. injection E as _ <-. auto.
  Qed.
  Lemma run_inv (P : hstate -> list hop -> Prop) :
    (forall o s b s' hist, Inv s -> hstep alloc gen limit o s = Some (b, s') -> b <> OThrew -> P s hist -> P s' (hist ++ [o])) ->
    forall ops s bs s' hist, Inv s -> P s hist -> hrun alloc gen limit ops s = Some (bs, s') -> ~ In OThrew bs -> P s' (hist ++ ops).
  Proof.
    intros ST. induction ops as [|o ops IH]; intros s bs s' hist I HP E NT; cbn [hrun] in E.
    - injection E as _ <-. now rewrite app_nil_r.
    - destruct (hstep alloc gen limit o s) as [[b s1]|] eqn:E1; [|discriminate]. destruct (hrun alloc gen limit ops s1) as [[bs1 s2]|] eqn:E2; [|discriminate]. injection E as <- <-.
      destruct (step_ok o s I) as (b' & s1' & E1' & I1 & _). rewrite E1 in E1'. injection E1' as <- <-.
      change (o :: ops) with ([o] ++ ops). rewrite app_assoc. apply (IH s1 bs1 s2); [exact I1| |exact E2|intros X; apply NT; now right]. apply (ST o s b); auto. intros ->. apply NT. now left.
  Qed.

  (** ** Nothing is generated twice *)
  Lemma loaded_known id s s1 y : dd_find id (s_cache s) = None -> loaded id s s1 -> (known s1 y <-> known s y /\ y <> id).
  Proof.
    intros N (C & O & _). unfold known. rewrite C, O, dd_find_erase. destruct (Z.eqb_spec y id) as [->|]; [rewrite N|]; intuition.
  Qed.
  Lemma pushed_known id c s s' y : pushed id c s s' -> (known s' y <-> y = id \/ known s y).
  Proof.
    intros (C & O & _). unfold known. rewrite C, O. destruct (Z.eqb_spec y id) as [->|]; [|intuition]. split; intros _; [auto|left; discriminate].
  Qed.
  Definition GInv (s : hstate) (hist : list hop) : Prop := exists old recent, s_glog s = old ++ recent /\
    NoDup recent /\ (forall id, In id recent <-> known s id) /\ (forall id, In id recent <-> In id (since_reset hist)).
  Lemma ginv_step o s b s' hist : Inv s -> hstep alloc gen limit o s = Some (b, s') -> b <> OThrew -> GInv s hist -> GInv s' (hist ++ [o]).
  Proof.
    intros I E NB (old & recent & EL & ND & GK & GA). destruct (step_cases o s b s' I E NB) as [(-> & ->)|(id & d & AO & G)].
    { exists (s_glog s), []. cbn [s_glog]. split; [now rewrite app_nil_r|]. split; [constructor|]. split; intros y.
      - split; [intros []|]. intros [X|X]; cbn in X; congruence.
      - unfold since_reset. rewrite fold_left_app. reflexivity. }
    assert (AE : forall y, In y (since_reset (hist ++ [o])) <-> In y (since_reset hist) \/ y = id).
    { intros y. unfold since_reset. rewrite fold_left_app. cbn [fold_left]. destruct o; cbn [asked] in *; try discriminate; injection AO as ->; rewrite in_app_iff; cbn; intuition. }
    inversion G as [d' F E1|c s1 s2 s3 N GD LD FR PU E1| |].
    - subst. exists old, recent. split; [auto|]. split; [auto|]. split; [auto|]. intros y. rewrite AE, GA. split; [auto|]. intros [H| ->]; auto. apply GA, GK. left. congruence.
    - subst. destruct (freed_logs _ _ _ FR) as (LG & _). destruct PU as (PC & PO & PQ & PM & PG & PB) eqn:EPU. clear EPU.
      assert (KN : forall y, known s' y <-> y = id \/ known s y).
      { intros y. assert (PUS : pushed id d s2 s') by (unfold pushed; auto 10). rewrite (pushed_known _ _ _ _ y PUS), (freed_known _ _ _ y FR), (loaded_known _ _ _ y N LD). destruct (Z.eq_dec y id); tauto. }
      assert (GL : s_glog s' = if dd_has_key id (s_off s) then s_glog s else s_glog s ++ [id]) by (rewrite PG, LG; apply LD).
      destruct (dd_has_key id (s_off s)) eqn:HK.
      + assert (K : In id recent) by (apply GK; right; apply has_key_find in HK; destruct HK as (v & ->); discriminate). exists old, recent. rewrite GL.
        split; [auto|]. split; [auto|]. split; intros y; [rewrite KN|rewrite AE, <- GA].
        * rewrite GK. split; [auto|]. intros [->|H]; [now apply GK|auto].
        * split; [auto|]. intros [H| ->]; auto.
      + assert (K : ~ In id recent). { rewrite GK. intros [X|X]; [congruence|]. apply has_key_none in HK. congruence. } exists old, (recent ++ [id]). rewrite GL, EL, app_assoc.
        split; [auto|]. split; [apply (Permutation_NoDup (Permutation_cons_append recent id)); now constructor|]. split; intros y; rewrite in_app_iff; cbn [In]; [rewrite KN, GK|rewrite AE, GA]; intuition.
  Qed.

  (** ** Oldest first *)
  Hypothesis SAME : forall id g, gen id = Some g -> bytes g = bytes_again alloc g.
  Lemma good_same id c c' : good id c -> good id c' -> bytes c = bytes c'.
  Proof.
    intros (g & E & K) (g' & E' & K'). rewrite E in E'. injection E' as <-. pose proof (SAME id g E) as S.
    assert (X : bytes (build_from_host alloc (d_host g)) = bytes_again alloc g) by reflexivity. destruct K as [->| ->], K' as [->| ->]; congruence.
  Qed.
  Definition dup (l : list Z) : list Z := flat_map (fun i => [i; i]) l.
  Definition cached (s : hstate) (ord : list Z) : Prop := NoDup ord /\ forall id, In id ord <-> dd_find id (s_cache s) <> None.
  Definition FInv (s : hstate) : Prop := exists ord pre older,
    s_q s = pre ++ dup ord /\ cached s ord /\ s_blog s = older ++ ord /\
    (pre = [] \/ exists x, pre = [x] /\ dd_find x (s_cache s) = None /\ forall c, good x c -> limit < bytes c + s_dmem s).
  Definition LInv (id : Z) (sz : Z) (s : hstate) : Prop := exists ord pre older,
    s_q s = pre ++ dup ord /\ cached s ord /\ s_blog s = older ++ ord /\
    (pre = [] \/ exists x, pre = [x] /\ dd_find x (s_cache s) = None /\ (forall c, good x c -> limit < bytes c + s_dmem s + sz) /\ (x = id -> limit < sz + s_dmem s)).
  Lemma offl_linv id sz s s' : Inv s -> dd_find id (s_cache s) = None -> limit < sz + s_dmem s -> LInv id sz s -> offl s s' -> LInv id sz s'.
  Proof.
    intros I NI LT (ord & pre & older & EQ & (ND & CI) & EB & PR) (pre0 & x0 & d & EQ0 & SK & F & C & _ & EM & _ & LB).
    assert (PN : forall y, In y pre -> dd_find y (s_cache s) = None) by (destruct PR as [->|(x & -> & N & _)]; [intros y []|intros y [<-|[]]; exact N]).
    destruct ord as [|x ord].
    { exfalso. assert (X : In x0 []) by (apply CI; congruence). destruct X. }
    assert (FX : dd_find x (s_cache s) <> None) by (apply CI; now left).
    cbn [dup flat_map app] in EQ. fold (dup ord) in EQ. rewrite EQ0 in EQ.
    assert (XX : pre0 = pre /\ x0 = x /\ s_q s' = x :: dup ord).
    { clear - EQ PN SK F FX. revert pre EQ PN. induction pre0 as [|a pre0 IH]; intros [|b pre] EQ PN; cbn [app] in EQ.
      - injection EQ as -> ->. auto.
      - injection EQ as -> _. rewrite PN in F by now left. discriminate.
      - injection EQ as -> _. exfalso. apply FX. apply SK. now left.
      - injection EQ as -> EQ. destruct (IH ltac:(intros; apply SK; now right) pre EQ ltac:(intros; apply PN; now right)) as (-> & A & B). auto. }
    destruct XX as (-> & -> & EQ'). exists ord, [x], (older ++ [x]). split; [rewrite EQ'; reflexivity|]. inversion ND as [|? ? NX ND']; subst. split; [split; [auto|]|split].
    - intros y. rewrite C, dd_find_erase. specialize (CI y). cbn [In] in CI. destruct (Z.eqb_spec y x) as [->|]; [split; [contradiction|congruence]|]. rewrite <- CI. intuition congruence.
    - rewrite LB, EB, <- app_assoc. reflexivity.
    - right. exists x. split; [reflexivity|]. split; [rewrite C, dd_find_erase, Z.eqb_refl; reflexivity|]. split.
      + intros c Hc. assert (bytes c = bytes d) by (eapply good_same; eauto; eapply i_good; eauto). lia.
      + intros ->. congruence.
  Qed.
  Lemma freed_linv id sz s s' : Inv s -> dd_find id (s_cache s) = None -> LInv id sz s -> freed sz s s' -> LInv id sz s'.
  Proof.
    intros I N L FR. revert I N L. induction FR as [|s s' s'' LT O I' FR IH]; intros I N L; [exact L|]. apply IH; auto.
    - destruct O as (pre & x & d & _ & _ & _ & C & _). rewrite C, dd_find_erase, N. now destruct (id =? x).
    - eapply offl_linv; eauto.
  Qed.
  Lemma finv_step o s b s' (hist : list hop) : Inv s -> hstep alloc gen limit o s = Some (b, s') -> b <> OThrew -> FInv s -> FInv s'.
  Proof.
    intros I E NB FI. destruct (step_cases o s b s' I E NB) as [(-> & ->)|(id & d & AO & G)].
    - exists [], [], (s_blog s). cbn. split; [reflexivity|]. split; [split; [constructor|]|]. { intros id. cbn. split; [intros []|congruence]. } split; [now rewrite app_nil_r|auto].
    - inversion G as [d' F E1|c s1 s2 s3 N GD LD FR PU E1| |]; subst; [exact FI|].
      destruct (good_bytes _ _ GD) as (BD & _). pose proof LD as (LC & LO & LQ & LM & LB & LG).
      assert (L1 : LInv id (bytes d) s1).
      { destruct FI as (ord & pre & older & EQ & (ND & CI) & EB & PR). exists ord, pre, older. rewrite LQ, LB, LM, LC. split; [exact EQ|]. split; [split; [exact ND|intros y; rewrite LC; apply CI]|]. split; [exact EB|].
        destruct PR as [->|(x & -> & NX & SX)]; [auto|right]. exists x. split; [reflexivity|]. split; [exact NX|]. split; [intros c Hc; specialize (SX c Hc); lia|]. intros ->. specialize (SX d GD). lia. }
      assert (I1 : Inv s1).
      { pose proof I as I0. destruct I. split; rewrite ?LC, ?LO, ?LQ, ?LM; auto.
        - now apply erase_sorted.
        - intros y e H. rewrite dd_find_erase. destruct (y =? id); eauto.
        - intros y e H. rewrite dd_find_erase in H. destruct (y =? id); [discriminate|eauto]. }
      assert (N1 : dd_find id (s_cache s1) = None) by now rewrite LC.
      pose proof (freed_linv id (bytes d) s1 s2 I1 N1 L1 FR) as (ord & pre & older & EQ & (ND & CI) & EB & PR).
      assert (N2 := freed_notcached _ _ _ _ FR N1).
      assert (FIT : bytes d + s_dmem s2 <= limit).
      { destruct (get_ok id s I) as (_ & IO). destruct PU as (PC & PO & PQ & PM & _).
        assert (I3 : Inv s'). { destruct (step_ok o s I) as (b' & s0 & E0 & I0 & _). rewrite E in E0. injection E0 as <- <-. exact I0. }
        pose proof (i_lim _ I3). lia. }
      destruct PU as (PC & PO & PQ & PM & PG & PB).
      exists (ord ++ [id]), pre, older. split; [|split; [split|split]].
      + rewrite PQ, EQ. unfold dup. rewrite flat_map_app, <- app_assoc. reflexivity.
      + apply (Permutation_NoDup (Permutation_cons_append ord id)). constructor; auto. rewrite CI. congruence.
      + intros y. rewrite in_app_iff, PC. cbn [In]. destruct (Z.eqb_spec y id) as [->|]; [split; [discriminate|auto]|]. rewrite <- CI. intuition congruence.
      + rewrite PB, EB. now rewrite <- app_assoc.
      + destruct PR as [->|(x & -> & NX & SX & XI)]; [auto|right]. assert (x <> id) by (intros X; specialize (XI X); lia). exists x. split; [reflexivity|]. split.
        * rewrite PC. destruct (Z.eqb_spec x id); [contradiction|exact NX].
        * intros c Hc. specialize (SX c Hc). rewrite PM. lia.
  Qed.
End Proofs.
