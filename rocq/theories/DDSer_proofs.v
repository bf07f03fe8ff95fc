(** Proofs of C43. *)
From Verif Require Import Base Streams Serialize Serialize_spec Serialize_proofs Containers Containers_spec Containers_proofs SparseXchg SparseXchg_spec SparseXchg_table DDComm DDComm_spec DDComm_main DDComm_final DDSer DDSer_spec.
From Coq Require Import Permutation ZifyBool ZifyNat.

Lemma vals_in {X} k (v : X) (m : dds X) : In v (dds_vals k m) <-> In (k, v) m.
Proof.
  unfold dds_vals. rewrite in_map_iff. split.
  - intros ([k' v'] & E & H). apply filter_In in H as [H Hk]. cbn [fst snd] in *. subst v'. apply k2_eqb_eq in Hk. now subst.
  - intros H. exists (k, v). split; auto. apply filter_In. split; auto. now apply k2_eqb_eq.
Qed.
Lemma mm_insert_perm {X} k (v : X) m : Permutation (mm_insert k v m) ((k, v) :: m).
Proof.
  induction m as [|[k' v'] t IH]; cbn [mm_insert]; [auto|]. destruct (k2_ltb k k'); [auto|]. rewrite IH. apply perm_swap.
Qed.
Lemma dds_build_perm {X} (l : list (key2 * X)) : Permutation (dds_build l) l.
Proof.
  unfold dds_build. assert (G : forall o, Permutation (fold_left (fun m p => dds_add_obj (fst (fst p)) (snd (fst p)) (snd p) m) l o) (l ++ o)).
  { induction l as [|[[a b] v] l IH]; intros o; cbn [fold_left app]; [auto|]. rewrite IH. unfold dds_add_obj. cbn [fst snd]. rewrite mm_insert_perm. symmetry. apply Permutation_middle. }
  rewrite G. now rewrite app_nil_r.
Qed.

Definition mrelk {X Y} (R : X -> Y -> Prop) (p : key2 * X) (q : key2 * Y) : Prop := fst p = fst q /\ R (snd p) (snd q).
Definition by_some {X Y} (f : nat -> X -> res Y) (x : X) (y : Y) : Prop := exists i, f i x = Ok y.
Lemma mapm_ok {X Y} (f : nat -> X -> res Y) (m : dds X) : Forall (fun p => forall i, exists y, f i (snd p) = Ok y) m ->
  exists l, dds_mapm f m = Ok (dds_build l) /\ Forall2 (mrelk (by_some f)) m l.
Proof.
  unfold dds_mapm, dds_build, dds_for_each.
  assert (G : forall n o, Forall (fun p => forall i, exists y, f i (snd p) = Ok y) m -> exists l,
    rfold (fun ip r => v <- f (fst ip) (snd (snd ip)) ;; Ok (dds_add_obj (fst (fst (snd ip))) (snd (fst (snd ip))) v r)) (combine (seq n (length m)) m) o =
    Ok (fold_left (fun m p => dds_add_obj (fst (fst p)) (snd (fst p)) (snd p) m) l o) /\ Forall2 (mrelk (by_some f)) m l).
  { induction m as [|[k x] m IH]; intros n o H; [exists []; split; [reflexivity|constructor]|]. inversion H as [|? ? H1 H2]; subst. destruct (H1 n) as (y & E). cbn [snd] in E.
    destruct (IH (S n) (dds_add_obj (fst k) (snd k) y o) H2) as (l & E2 & F). exists ((k, y) :: l). cbn [length seq combine rfold fst snd fold_left]. rewrite E. cbn [rbind]. split; [exact E2|]. constructor; auto. split; auto. exists n. exact E. }
  intros H. apply (G 0 [] H).
Qed.
Lemma mapm_vals {X Y} (f : X -> Y -> Prop) (m : dds X) l : Forall2 (mrelk f) m l ->
  dds_sorted (dds_build l) /\ (forall k, Forall2 f (dds_vals k m) (dds_vals k (dds_build l))) /\ length (dds_build l) = length m /\
  (forall k y, In (k, y) (dds_build l) -> exists x, In (k, x) m /\ f x y).
Proof.
  intros H. destruct (dds_build_spec l) as [A B]. split; auto. split; [|split].
  - intros k. rewrite B. clear A B. unfold dds_vals. induction H as [|[a x] [b y] m l [E1 E2] _ IH]; cbn [filter map]; [constructor|]. cbn [fst snd] in *. subst b. destruct (k2_eqb k a); auto. cbn [map snd]. constructor; auto.
  - rewrite (Permutation_length (dds_build_perm l)). symmetry. now apply Forall2_length in H.
  - intros k y Hin. apply (Permutation_in _ (dds_build_perm l)) in Hin. clear A B. induction H as [|[a x] [b z] m l [E1 E2] _ IH]; [destruct Hin|]. cbn [fst snd] in *. subst b. destruct Hin as [Hin|Hin].
    + injection Hin as -> ->. exists x. split; auto. now left.
    + destruct (IH Hin) as (x' & I1 & I2). exists x'. split; auto. now right.
Qed.

Lemma Forall2_concat_map {X Y A B} (R : A -> B -> Prop) (f : X -> list A) (g : Y -> list B) xs ys : Forall2 (fun x y => Forall2 R (f x) (g y)) xs ys -> Forall2 R (concat (map f xs)) (concat (map g ys)).
Proof. induction 1; cbn [map concat]; [constructor|]. apply Forall2_app; auto. Qed.
Section P.
Context {T : Type}.
Variables (ser : nat -> nat -> T -> res (list Z)) (deser : nat -> list Z -> res T) (rg : Z -> Z) (sends : list (dds T)).
Hypothesis HI : ids_ok rg sends.
Hypothesis HS : ser_ok ser deser rg sends.

Definition rest (send : dds T) : dds T := filter (fun p => negb (rg (fst (fst p)) =? rg (snd (fst p)))%Z) send.
Lemma keep_rest send : fst (ssc_keep rg send) = rest send.
Proof. unfold ssc_keep. now destruct (tranfer_all_spec (fun l r => (rg l =? rg r)%Z) send [] ltac:(constructor)) as (A & _). Qed.
Lemma rest_vals k (send : dds T) : dds_vals k (rest send) = if (rg (fst k) =? rg (snd k))%Z then [] else dds_vals k send.
Proof.
  unfold rest, dds_vals. induction send as [|[[a b] v] l IH]; cbn [filter map]; [destruct (_ =? _)%Z; reflexivity|]. cbn [fst snd]. destruct k as [k1 k2]. cbn [fst snd] in *.
  destruct (k2_eqb (k1, k2) (a, b)) eqn:E.
  - apply k2_eqb_eq in E. injection E as -> ->. destruct (rg a =? rg b)%Z; cbn [negb]; [exact IH|]. cbn [filter fst]. rewrite (proj2 (k2_eqb_eq (a, b) (a, b)) eq_refl). cbn [map snd]. f_equal. exact IH.
  - destruct (rg a =? rg b)%Z; cbn [negb]; [exact IH|]. cbn [filter fst]. rewrite E. exact IH.
Qed.
Lemma same_vals (send : dds T) : dds_sorted (snd (ssc_keep rg send)) /\ forall k, dds_vals k (snd (ssc_keep rg send)) = if (rg (fst k) =? rg (snd k))%Z then dds_vals k send else [].
Proof. unfold ssc_keep. now destruct (tranfer_all_spec (fun l r => (rg l =? rg r)%Z) send [] ltac:(constructor)) as (_ & A & B). Qed.

(** The serialized multimaps of all the ranks. *)
Definition sr (x : T) (b : list Z) : Prop := exists r i, ser r i x = Ok b.
Definition srel (send : dds T) (d : dds (list Z)) : Prop := exists l, d = dds_build l /\ Forall2 (mrelk sr) (rest send) l.
Lemma rest_in send p : In send sends -> In p (rest send) -> In p send /\ rg (fst (fst p)) <> rg (snd (fst p)).
Proof. intros _ H. unfold rest in H. apply filter_In in H as [H E]. split; auto. destruct p as [[a b] v]. cbn [fst snd] in *. destruct (Z.eqb_spec (rg a) (rg b)); [discriminate|auto]. Qed.
Lemma dsends_ok : exists ds, imapm (fun r send => dds_mapm (ser r) (fst (ssc_keep rg send))) sends = Ok ds /\ Forall2 srel sends ds.
Proof.
  destruct (imapm_ok (fun r send => dds_mapm (ser r) (fst (ssc_keep rg send))) (fun d => d) (fun _ send d => srel send d) sends) as (ds & E & L & Q).
  - intros r send Hs. pose proof (nth_error_In _ _ Hs) as Hin. rewrite keep_rest. destruct (mapm_ok (ser r) (rest send)) as (l & E & F).
    + apply Forall_forall. intros p Hp i. destruct (rest_in send p Hin Hp) as [Hp1 Hp2]. destruct (HS send p Hin Hp1 Hp2 r i) as (b & E & _). eauto.
    + exists (dds_build l). split; auto. exists l. split; auto. clear - F. induction F as [|p q m l [E1 (i & E2)] _ IH]; constructor; auto. split; auto. exists r, i. exact E2.
  - rewrite map_id in E. exists ds. split; auto. clear - L Q. revert ds L Q. induction sends as [|s ss IH]; intros [|d ds] L Q; cbn in L; try lia; constructor; [apply (Q 0); reflexivity|]. apply IH; [lia|]. intros i x y Hx Hy. apply (Q (S i)); auto.
Qed.
Lemma srel_facts send d : srel send d -> dds_sorted d /\ length d <= length send /\ (forall k, Forall2 sr (dds_vals k (rest send)) (dds_vals k d)) /\
  (forall k y, In (k, y) d -> exists x, In (k, x) (rest send) /\ sr x y).
Proof.
  intros (l & -> & H). destruct (mapm_vals sr (rest send) l H) as (A & B & C & D). split; auto. split; [|split; auto]. rewrite C. unfold rest. clear. induction send as [|a l IH]; cbn [filter]; [auto|]. destruct (negb _); cbn [length]; lia.
Qed.
Lemma dsends_comm ds : Forall2 srel sends ds -> comm_ok rg ds.
Proof.
  intros H. destruct HI as (I1 & I2 & I3). pose proof (Forall2_length H) as LL. split; [lia|]. split.
  { assert (X : length (concat ds) <= length (concat sends)); [|lia]. clear - H. induction H as [|s d ss ds HR _ IH]; [auto|]. cbn [concat]. rewrite !app_length. destruct (srel_facts s d HR) as (_ & A & _). lia. }
  intros r d Hd. destruct (Forall2_nth_r _ _ _ _ _ H Hd) as (send & Hs & HR). destruct (srel_facts send d HR) as (A & _ & _ & B). destruct (I3 r send Hs) as [_ C]. split; auto.
  apply Forall_forall. intros [k y] Hin. destruct (B k y Hin) as (x & Hx & (r0 & i0 & E)). pose proof (nth_error_In _ _ Hs) as Hsin. destruct (rest_in send _ Hsin Hx) as [Hx1 Hx2].
  rewrite Forall_forall in C. destruct (C _ Hx1) as (C1 & C2 & C3 & C4). cbn [fst snd] in *. rewrite <- LL. destruct (HS send _ Hsin Hx1 Hx2 r0 i0) as (b & Eb & Sb & _). cbn [snd] in Eb. assert (b = y) by congruence. subst b. auto.
Qed.

Lemma holder k v r send : nth_error sends r = Some send -> In (k, v) send -> rg (fst k) = Z.of_nat r.
Proof. intros Hs Hin. destruct HI as (_ & _ & I3). destruct (I3 r send Hs) as [_ C]. rewrite Forall_forall in C. now apply C in Hin. Qed.
Lemma vals_nil k r send : nth_error sends r = Some send -> rg (fst k) <> Z.of_nat r -> dds_vals k send = [].
Proof.
  intros Hs NE. destruct (dds_vals k send) as [|v l] eqn:E; auto. exfalso. apply NE. apply (holder k v r send Hs). apply vals_in. rewrite E. now left.
Qed.
Lemma only_holder k r send : nth_error sends r = Some send -> rg (fst k) = Z.of_nat r -> concat (map (dds_vals k) sends) = dds_vals k send.
Proof.
  intros Hs HE.
  assert (NIL : forall i s, nth_error sends i = Some s -> i <> r -> dds_vals k s = []) by (intros i s Hi NE; apply (vals_nil k i s Hi); lia).
  clear - Hs NIL. revert r Hs NIL. induction sends as [|s l IH]; intros [|r] Hs NIL; cbn in Hs; try discriminate; cbn [map concat].
  - injection Hs as ->. assert (Z0 : concat (map (dds_vals k) l) = []); [|now rewrite Z0, app_nil_r].
    assert (N : forall s, In s l -> dds_vals k s = []). { intros s Hin. apply In_nth_error in Hin as (i & Hi). apply (NIL (S i) s); auto. }
    clear - N. induction l as [|a l IH]; [reflexivity|]. cbn [map concat]. rewrite (N a (or_introl eq_refl)). apply IH. intros; apply N; now right.
  - rewrite (NIL 0 s eq_refl) by lia. apply (IH r Hs). intros i s' Hi NE. apply (NIL (S i) s' Hi). lia.
Qed.

Lemma end_ok ds out r send sched djunk t cache : Forall2 srel sends ds -> nth_error sends r = Some send ->
  finish sched djunk rg t cache [] = Ok out -> (forall k, dds_vals k out = expected rg ds r k) ->
  exists res, ssc_end deser rg sched djunk t cache send = Ok res /\ dds_sorted res /\ forall k, dds_vals k res = received rg sends r k.
Proof.
  intros HD Hs EF HV.
  assert (EX : forall k, Forall2 (fun x y => forall j, deser j y = Ok x) (if (rg (snd k) =? Z.of_nat r)%Z then concat (map (fun s => dds_vals k (rest s)) sends) else []) (dds_vals k out)).
  { intros k. rewrite HV. unfold expected. destruct (_ =? _)%Z; [|constructor]. apply Forall2_concat_map.
    assert (G : forall s, In s sends -> forall d, srel s d -> Forall2 (fun x y => forall j, deser j y = Ok x) (dds_vals k (rest s)) (dds_vals k d)).
    { intros s Hin d HR. destruct (srel_facts s d HR) as (_ & _ & A & _). specialize (A k).
      assert (GX : forall x, In x (dds_vals k (rest s)) -> forall y, sr x y -> forall j, deser j y = Ok x).
      { intros x Hx y (r0 & i0 & E). apply vals_in in Hx. destruct (rest_in s _ Hin Hx) as [Hx1 Hx2]. destruct (HS s _ Hin Hx1 Hx2 r0 i0) as (b & Eb & _ & Db). cbn [snd] in *. assert (b = y) by congruence. subst b. exact Db. }
      clear - A GX. induction A; constructor. { apply GX; auto. now left. } apply IHA. intros; apply GX; auto. now right. }
    clear - HD G. revert G. induction HD as [|s d l l' HR _ IH]; intros G; constructor; [apply G; auto; now left|]. apply IH. intros; apply G; auto. now right. }
  destruct (mapm_ok deser out) as (l & EM & FM).
  { apply Forall_forall. intros [k y] Hin i. cbn [snd]. apply vals_in in Hin. specialize (EX k). clear - EX Hin. induction EX as [|x z ? ? E _ IH]; [destruct Hin|]. destruct Hin as [->|Hin]; eauto. }
  destruct (mapm_vals (by_some deser) out l FM) as (SO & VL & _ & _).
  destruct (same_vals send) as [SS SV].
  destruct (tranfer_all_spec (fun _ _ => true) (snd (ssc_keep rg send)) (dds_build l) SO) as (_ & TS & TV).
  unfold ssc_end. rewrite EF. cbn [rbind]. rewrite EM. cbn [rbind]. eexists. split; [reflexivity|]. split; [exact TS|].
  intros k. rewrite TV, SV.
  assert (V1 : dds_vals k (dds_build l) = if (rg (snd k) =? Z.of_nat r)%Z then concat (map (fun s => dds_vals k (rest s)) sends) else []).
  { specialize (VL k). specialize (EX k). clear - VL EX. revert VL. generalize (dds_vals k (dds_build l)). induction EX as [|x y l1 l2 E _ IH]; intros l3 F; inversion F as [|? ? ? ? (i & E') F']; subst; auto. f_equal; [specialize (E i); congruence|auto]. }
  rewrite V1. unfold received. assert (V2 : forall s, dds_vals k (rest s) = if (rg (fst k) =? rg (snd k))%Z then [] else dds_vals k s) by (apply rest_vals).
  rewrite (map_ext _ _ V2). destruct (Z.eqb_spec (rg (fst k)) (rg (snd k))) as [E|NE].
  - assert (Z0 : concat (map (fun _ : dds T => @nil T) sends) = []) by (clear; induction sends; cbn; auto). rewrite Z0.
    destruct (Z.eqb_spec (rg (snd k)) (Z.of_nat r)) as [E2|NE2].
    + cbn [app]. symmetry. apply (only_holder k r send Hs). congruence.
    + cbn [app]. apply (vals_nil k r send Hs). congruence.
  - destruct (_ =? _)%Z; now rewrite app_nil_r.
Qed.

Lemma ssc_main sched junk max_mem max ps tabs caches brecv : (Z.of_nat max < 2 ^ 31)%Z -> (forall r, fair3 (sched r)) ->
  ssc_begin ser rg sched junk max_mem max sends = Ok (ps, tabs) ->
  Forall2 (fun t b => bufs_ok (t_send_sizes t) b) tabs caches ->
  Forall2 (fun t b => bufs_ok (t_recv_sizes t) b) tabs brecv ->
  length tabs = length sends /\
  exists bsend, comm_fill tabs ps caches = Ok bsend /\
  (forall r t bs br, nth_error tabs r = Some t -> nth_error bsend r = Some bs -> nth_error brecv r = Some br -> exchange_checks t bs br = Ok tt) /\
  forall n s, xreach tabs bsend (xinit brecv) n s ->
    n <= 5 * length (concat sends) * length sends /\
    (forall l, enabled tabs l s = true -> exists s', xdo tabs bsend l s = Ok s') /\
    (finished tabs s = false -> exists l, enabled tabs l s = true /\ unbuffered l s) /\
    (finished tabs s = true -> forall r t send sch djunk, nth_error tabs r = Some t -> nth_error sends r = Some send -> fair3 sch ->
       exists out, ssc_end deser rg sch djunk t (x_bufs (s r)) send = Ok out /\ dds_sorted out /\
         forall k, dds_vals k out = received rg sends r k).
Proof.
  intros HM HF HB HC HV. unfold ssc_begin in HB. destruct dsends_ok as (ds & E & HD). rewrite E in HB. cbn [rbind] in HB.
  destruct (comm_delivery sched junk max_mem max rg ds ps tabs caches brecv (dsends_comm ds HD) HM HF HB HC HV) as (LT & bsend & EF & CK & MAIN).
  pose proof (Forall2_length HD) as LL. split; [lia|]. exists bsend. split; auto. split; auto. intros n s HX. destruct (MAIN n s HX) as (M1 & M2 & M3 & M4).
  split. { assert (X : length (concat ds) <= length (concat sends)); [|nia]. clear - HD. induction HD as [|s d ss ds HR _ IH]; [auto|]. cbn [concat]. rewrite !app_length. destruct (srel_facts s d HR) as (_ & A & _). lia. }
  split; auto. split; auto. intros FIN r t send sch djunk Ht Hs Hf. destruct (M4 FIN r t sch djunk [] Ht Hf ltac:(constructor)) as (out & EO & _ & VO).
  apply (end_ok ds out r send sch djunk t (x_bufs (s r))); auto.
Qed.
End P.

(** ** When the tables can be built *)
Lemma al8_mono a b : a <= b -> al8 a <= al8 b.
Proof. intros H. unfold al8. apply Nat.mul_le_mono_l. apply Nat.div_le_mono; lia. Qed.
Lemma perm_filter {X} (f : X -> bool) (a b : list X) : Permutation a b -> Permutation (filter f a) (filter f b).
Proof. induction 1; cbn [filter]; [auto| | |eauto using perm_trans]. - destruct (f x); auto. - destruct (f x), (f y); auto. apply perm_swap. Qed.
Lemma list_sum_perm a b : Permutation a b -> list_sum a = list_sum b.
Proof. induction 1; [reflexivity| | |congruence]; rewrite ?DDComm_prep.list_sum_cons in *; lia. Qed.

Lemma ssc_total {T} (ser : nat -> nat -> T -> res (list Z)) deser (rg : Z -> Z) (sends : list (dds T)) (size : T -> nat) sched junk max_mem max :
  ids_ok rg sends -> ser_ok ser deser rg sends -> (forall send p r i b, In send sends -> In p send -> ser r i (snd p) = Ok b -> length b <= size (snd p)) ->
  (Z.of_nat max < 2 ^ 31)%Z -> (forall r, fair3 (sched r)) ->
  (forall r send r', nth_error sends r = Some send -> r' < length sends -> r' <> r ->
     16 + sent_bytes size rg (Z.of_nat r') send <= max_alloc (max_mem r) max /\ 16 + sent_bytes size rg (Z.of_nat r') send <= max_alloc (max_mem r') max) ->
  exists ps tabs, ssc_begin ser rg sched junk max_mem max sends = Ok (ps, tabs).
Proof.
  intros HI HS HZ HM HF HB. unfold ssc_begin. destruct (dsends_ok ser deser rg sends HS) as (ds & E & HD). rewrite E. cbn [rbind].
  pose proof (dsends_comm ser deser rg sends HI HS ds HD) as HC. pose proof (Forall2_length HD) as LL. apply begin_total; auto.
  intros r d r' Hd Hr NE. destruct (Forall2_nth_r _ _ _ _ _ HD Hd) as (send & Hs & (l & -> & F)).
  assert (NR : r' <> r).
  { intros ->. apply NE. unfold to_rank. apply DDComm_group.filter_none. intros [k y] Hin. cbn [fst snd]. destruct (Z.eqb_spec (rg (snd k)) (Z.of_nat r)) as [EQ|]; auto. exfalso.
    apply (Permutation_in _ (dds_build_perm l)) in Hin. apply In_nth_error in Hin as (i & Hi). destruct (Forall2_nth_r _ _ _ _ _ F Hi) as ([k' x] & Hx & (EK & _)). cbn [fst] in EK. subst k'. apply nth_error_In in Hx.
    destruct (rest_in rg sends send _ (nth_error_In _ _ Hs) Hx) as [I1 I2]. cbn [fst snd] in I2. apply I2. rewrite EQ. exact (holder rg sends HI k x r send Hs I1). }
  rewrite <- LL in Hr. destruct (HB r send r' Hs Hr NR) as [B1 B2].
  assert (LE : objs_bytes (to_rank rg (Z.of_nat r') (dds_build l)) <= sent_bytes size rg (Z.of_nat r') send); [|lia].
  unfold objs_bytes, to_rank. rewrite (list_sum_perm _ _ (Permutation_map _ (perm_filter _ _ _ (dds_build_perm l)))).
  assert (E2 : list_sum (map (fun p => 24 + al8 (size (snd p))) (filter (fun p => (rg (snd (fst p)) =? Z.of_nat r')%Z) (rest rg send))) <= sent_bytes size rg (Z.of_nat r') send).
  { unfold sent_bytes, rest. clear. induction send as [|[[a b] v] t IH]; [reflexivity|]. cbn [filter fst snd]. destruct (Z.eqb_spec (rg a) (rg b)) as [EQ|NQ]; cbn [negb filter fst snd].
    - destruct ((rg b =? Z.of_nat r')%Z && negb (rg a =? Z.of_nat r')%Z); cbn [map]; rewrite ?DDComm_prep.list_sum_cons; lia.
    - destruct (Z.eqb_spec (rg b) (Z.of_nat r')) as [E1|]; cbn [andb]; [|exact IH]. replace (rg a =? Z.of_nat r')%Z with false by lia. cbn [negb map]. rewrite !DDComm_prep.list_sum_cons. lia. }
  etransitivity; [|exact E2].
  assert (HZ' : forall p, In p (rest rg send) -> forall r i b, ser r i (snd p) = Ok b -> length b <= size (snd p)).
  { intros p Hp. destruct (rest_in rg sends send p (nth_error_In _ _ Hs) Hp) as [Hp1 _]. intros; eapply HZ; eauto. eapply nth_error_In; eauto. }
  clear - F HZ'. induction F as [|[k x] [k' y] m l [EK (r0 & i0 & EY)] _ IH]; [reflexivity|]. specialize (IH (fun p Hp => HZ' p (or_intror Hp))). cbn [fst snd] in *. subst k'. cbn [filter fst snd]. destruct (_ =? _)%Z; [|exact IH]. cbn [map]. rewrite !DDComm_prep.list_sum_cons. cbn [snd].
  apply Nat.add_le_mono; [|exact IH]. unfold obj_bytes. cbn [snd]. pose proof (al8_mono _ _ (HZ' (k, x) (or_introl eq_refl) _ _ _ EY)) as XX. cbn [snd] in XX. lia.
Qed.

Lemma ssc_cases {T} (ser : nat -> nat -> T -> res (list Z)) deser (rg : Z -> Z) (sends : list (dds T)) sched junk max_mem max :
  ids_ok rg sends -> ser_ok ser deser rg sends -> (Z.of_nat max < 2 ^ 31)%Z -> (forall r, fair3 (sched r)) ->
  (exists ps tabs, ssc_begin ser rg sched junk max_mem max sends = Ok (ps, tabs)) \/ ssc_begin ser rg sched junk max_mem max sends = Throw.
Proof.
  intros HI HS HM HF. unfold ssc_begin. destruct (dsends_ok ser deser rg sends HS) as (ds & E & HD). rewrite E. cbn [rbind].
  destruct (begin_cases sched junk max_mem max rg ds (dsends_comm ser deser rg sends HI HS ds HD) HM HF) as [(L & _ & _ & [(_ & ps & tabs & X)|(_ & X)])|(_ & X)]; eauto.
Qed.
