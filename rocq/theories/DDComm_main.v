(** Proofs: the whole communication. *)
From Verif Require Import Base Streams Streams_proofs Serialize Serialize_spec Serialize_proofs Containers Containers_spec Containers_proofs SparseXchg SparseXchg_spec SparseXchg_table DDComm DDComm_spec DDComm_prep DDComm_group DDComm_ser.
From Coq Require Import ZifyBool ZifyNat.

(** * One rank *)
Definition msg_of (pb : prep * list Z) : cmi * list Z :=
  (CMI (length (snd pb)) (p_snd (fst pb)) (p_rcv (fst pb)) None None None, snd pb).
Definition pb_ok (rg : Z -> Z) (max : nat) (pb : prep * list Z) : Prop :=
  prep_ok rg max (fst pb) /\ length (snd pb) = chunk_total (p_src (fst pb)) + 8 /\
  readable rg (p_src (fst pb)) (p_snd (fst pb)) (snd pb).
Definition of_d (d : dtmp) : key2 * list Z := ((d_snd d, d_rcv d), d_data d).
Definition rank_ok (rg : Z -> Z) (W r : nat) (send : dds (list Z)) : Prop :=
  dds_sorted send /\
    Forall (fun p => (0 <= fst (fst p) < 2 ^ 64)%Z /\ (0 <= snd (fst p) < 2 ^ 64)%Z /\
                     rg (fst (fst p)) = Z.of_nat r /\ (0 <= rg (snd (fst p)) < Z.of_nat W)%Z /\
                     small (length (snd p))) send.
Definition objs_to (r : Z) (ps : list prep) : list dtmp := concat (map p_src (filter (fun p => (p_rcv p =? r)%Z) ps)).

Lemma imapm_ok {X Y Y'} (f : nat -> X -> res Y) (g : Y' -> Y) (Q : nat -> X -> Y' -> Prop) l :
  (forall i x, nth_error l i = Some x -> exists y, f i x = Ok (g y) /\ Q i x y) ->
  exists ys, imapm f l = Ok (map g ys) /\ length ys = length l /\ forall i x y, nth_error l i = Some x -> nth_error ys i = Some y -> Q i x y.
Proof.
  unfold imapm. intros H.
  assert (X0 : forall n, (forall i x, nth_error l i = Some x -> exists y, f (n + i) x = Ok (g y) /\ Q (n + i) x y) ->
    exists ys, PatchData.rmapm (fun ix => f (fst ix) (snd ix)) (combine (seq n (length l)) l) = Ok (map g ys) /\ length ys = length l /\
     forall i x y, nth_error l i = Some x -> nth_error ys i = Some y -> Q (n + i) x y).
  { clear H. induction l as [|a l IH]; intros n H.
    - exists []. split; [reflexivity|]. split; [reflexivity|]. intros [|i]; discriminate.
    - cbn [length seq combine PatchData.rmapm fst snd]. destruct (H 0 a eq_refl) as (y & E & HQ). rewrite Nat.add_0_r in E, HQ. rewrite E. cbn [rbind].
      destruct (IH (S n)) as (ys & E2 & L & HQ2).
      { intros i x Hx. destruct (H (S i) x Hx) as (y' & A & B). exists y'. rewrite <- plus_n_Sm in A, B. auto. }
      rewrite E2. cbn [rbind]. exists (y :: ys). split; [reflexivity|]. split; [cbn; lia|]. intros [|i] x z Hx Hz; cbn in Hx, Hz.
      + injection Hx as <-. injection Hz as <-. now rewrite Nat.add_0_r.
      + rewrite <- plus_n_Sm. apply (HQ2 i); auto. }
  apply (X0 0). exact H.
Qed.

Lemma imapm_inv {X Y} (f : nat -> X -> res Y) l ys : imapm f l = Ok ys -> length ys = length l /\ forall i x y, nth_error l i = Some x -> nth_error ys i = Some y -> f i x = Ok y.
Proof.
  unfold imapm. intros H. apply rmapm_inv in H.
  assert (X0 : forall n l ys, Forall2 (fun (x : nat * X) (y : Y) => f (fst x) (snd x) = Ok y) (combine (seq n (length l)) l) ys ->
     length ys = length l /\ forall i x y, nth_error l i = Some x -> nth_error ys i = Some y -> f (n + i) x = Ok y).
  { clear. intros n l. revert n. induction l as [|a l IH]; intros n ys H; cbn [length seq combine] in H; inversion H; subst.
    - split; [reflexivity|]. intros [|i]; discriminate.
    - destruct (IH (S n) l' H4) as [L HQ]. split; [cbn; lia|]. intros [|i] x z Hx Hz; cbn in Hx, Hz.
      + injection Hx as <-. injection Hz as <-. now rewrite Nat.add_0_r.
      + rewrite <- plus_n_Sm. apply (HQ i); auto. }
  exact (X0 0 l ys H).
Qed.

Lemma combine_seq_nth {X} (l : list X) : forall n k j y, nth_error (combine (seq n (length l)) l) k = Some (j, y) -> j = n + k /\ nth_error l k = Some y.
Proof.
  induction l as [|a l IH]; intros n [|k] j y H; cbn in *; try discriminate.
  - injection H as -> ->. split; auto; lia.
  - destruct (IH (S n) k j y H) as [A B]. split; auto; lia.
Qed.
Lemma combine_seq_in {X} (l : list X) n j y : In (j, y) (combine (seq n (length l)) l) -> exists k, j = n + k /\ nth_error l k = Some y.
Proof. intros H. apply In_nth_error in H as (k & Hk). exists k. now apply combine_seq_nth in Hk. Qed.
Lemma imapm_throw {X Y} (f : nat -> X -> res Y) l : (forall i x, nth_error l i = Some x -> f i x <> UB) ->
  (exists i x, nth_error l i = Some x /\ f i x = Throw) -> imapm f l = Throw.
Proof.
  unfold imapm. intros NU (i & x & Hx & HT). apply rmapm_throw.
  - intros [j y] Hin. cbn [fst snd]. apply (NU j). apply combine_seq_in in Hin as (k & -> & Hk). exact Hk.
  - exists (i, x). split; [|exact HT].
    assert (Z0 : forall n, In (n + i, x) (combine (seq n (length l)) l)).
    { clear - Hx. revert i Hx. induction l as [|a l IH]; intros [|i] Hx n; cbn in *; try discriminate.
      - injection Hx as ->. left. f_equal. lia.
      - right. rewrite <- plus_n_Sm. apply (IH i Hx (S n)). }
    apply (Z0 0).
Qed.

Lemma g_push_count k d m : length (concat (map snd (g_push k d m))) = S (length (concat (map snd m))).
Proof.
  induction m as [|[k' v] t IH]; [reflexivity|]. cbn [g_push]. destruct (k2_eqb k k'); [|destruct (k2_ltb k k')]; cbn [map concat snd]; rewrite ?app_length; cbn [length].
  - lia.
  - reflexivity.
  - rewrite IH. lia.
Qed.
Lemma group_count rg send : length (concat (map snd (group rg send))) = length send.
Proof.
  unfold group, dds_for_each.
  assert (X : forall m, length (concat (map snd (fold_left (fun m p => g_push (rg (fst (fst p)), rg (snd (fst p))) (DTmp (fst (fst p)) (snd (fst p)) (snd p)) m) send m))) = length (concat (map snd m)) + length send).
  { induction send as [|p send IH]; intros m; cbn [fold_left length]; [lia|]. rewrite IH, g_push_count. lia. }
  apply (X []).
Qed.

Lemma filter_groups rg (P : dtmp -> bool) K (Q : key2 -> bool) m : (forall x, P x = true -> gkey rg x = K) -> ginv rg m ->
  filter P (concat (map snd (filter (fun kv => Q (fst kv)) m))) = if Q K then filter P (concat (map snd m)) else [].
Proof.
  intros HP. induction m as [|[k v] t IH]; intros HI; cbn [filter fst map concat snd]; [destruct (Q K); reflexivity|].
  specialize (IH (ginv_tl _ _ _ HI)). destruct HI as [_ H2]. inversion H2 as [|? ? [_ F1] F2]; subst. cbn [fst snd] in F1.
  assert (N : Q k <> Q K -> filter P v = []).
  { intros NE. apply filter_none. intros x Hx. destruct (P x) eqn:PX; auto. apply HP in PX. rewrite Forall_forall in F1. rewrite (F1 x Hx) in PX. congruence. }
  destruct (Q k) eqn:QK.
  - cbn [map concat snd]. rewrite !filter_app, IH. destruct (Q K); auto. rewrite N by congruence. reflexivity.
  - rewrite IH. destruct (Q K); auto. rewrite filter_app, N by congruence. reflexivity.
Qed.

Lemma vals_of_d k l : dds_vals k (map of_d l) = map d_data (filter (fun d => k2_eqb k (d_snd d, d_rcv d)) l).
Proof.
  unfold dds_vals. induction l as [|d l IH]; [reflexivity|]. cbn [map filter]. change (fst (of_d d)) with (d_snd d, d_rcv d). destruct (k2_eqb k (d_snd d, d_rcv d)); cbn [map]; [|exact IH].
  change (snd (of_d d)) with (d_data d). now rewrite IH.
Qed.
Lemma vals_to_d k send : map d_data (filter (fun d => k2_eqb k (d_snd d, d_rcv d)) (map to_d send)) = dds_vals k send.
Proof.
  unfold dds_vals. induction send as [|[[a b] v] l IH]; [reflexivity|]. cbn [map filter]. change (d_snd (to_d (a, b, v)), d_rcv (to_d (a, b, v))) with (a, b). change (fst (a, b, v)) with (a, b). destruct (k2_eqb k (a, b)); cbn [map]; [|exact IH].
  change (d_data (to_d (a, b, v))) with v. cbn [snd]. now rewrite IH.
Qed.

Definition pl_ok (rg : Z -> Z) (W max r : nat) (send : dds (list Z)) (pl : list (prep * list Z)) : Prop :=
  Forall (pb_ok rg max) pl /\ Forall (fun pb => p_snd (fst pb) = Z.of_nat r /\ (0 <= p_rcv (fst pb) < Z.of_nat W)%Z) pl /\
  length pl <= length send /\
  (forall r' k, dds_vals k (map of_d (objs_to r' (map fst pl))) = if (rg (snd k) =? r')%Z then dds_vals k send else []) /\
  (forall pb, In pb pl -> chunk_total (p_src (fst pb)) <= 8 + objs_bytes (to_rank rg (p_rcv (fst pb)) send)).

Lemma concat_len_ge {A B} (f : A -> list B) l : (forall x, In x l -> f x <> []) -> length l <= length (concat (map f l)).
Proof. induction l as [|a l IH]; intros H; cbn [map concat length]; [lia|]. rewrite app_length. pose proof (H a (or_introl eq_refl)). destruct (f a); [congruence|]. cbn. specialize (IH ltac:(intros; apply H; right; auto)). lia. Qed.

Lemma list_sum_perm_filter {A} (f : A -> nat) l : forall (P : A -> bool), list_sum (map f (filter P l)) <= list_sum (map f l).
Proof. intros P. induction l as [|a l IH]; cbn [filter map]; [lia|]. destruct (P a); cbn [map]; rewrite !list_sum_cons; lia. Qed.

Lemma g_push_sum (f : dtmp -> nat) Q k d m : list_sum (map f (concat (map snd (filter (fun kv : key2 * list dtmp => Q (fst kv)) (g_push k d m))))) =
  list_sum (map f (concat (map snd (filter (fun kv => Q (fst kv)) m)))) + if Q k then f d else 0.
Proof.
  induction m as [|[k' v] t IH]; cbn [g_push].
  - cbn [filter fst]. destruct (Q k); cbn [map concat snd app]; rewrite ?list_sum_1; reflexivity.
  - destruct (k2_eqb k k') eqn:E; [|destruct (k2_ltb k k')].
    + apply k2_eqb_eq in E. subst k'. cbn [filter fst]. destruct (Q k); cbn [map concat snd]; [|lia]. rewrite !map_app, !list_sum_app. cbn [map]. rewrite list_sum_1. lia.
    + cbn [filter fst]. destruct (Q k), (Q k'); cbn [map concat snd app]; rewrite ?list_sum_cons; cbn [list_sum fold_right]; lia.
    + cbn [filter fst]. destruct (Q k'); cbn [map concat snd]; rewrite ?map_app, ?list_sum_app, IH; lia.
Qed.
Lemma group_sum rg (f : dtmp -> nat) Q send :
  list_sum (map f (concat (map snd (filter (fun kv : key2 * list dtmp => Q (fst kv)) (group rg send))))) =
  list_sum (map f (map to_d (filter (fun p => Q (rg (fst (fst p)), rg (snd (fst p)))) send))).
Proof.
  unfold group, dds_for_each.
  assert (X : forall m, list_sum (map f (concat (map snd (filter (fun kv : key2 * list dtmp => Q (fst kv)) (fold_left (fun m p => g_push (rg (fst (fst p)), rg (snd (fst p))) (DTmp (fst (fst p)) (snd (fst p)) (snd p)) m) send m))))) =
    list_sum (map f (concat (map snd (filter (fun kv : key2 * list dtmp => Q (fst kv)) m)))) + list_sum (map f (map to_d (filter (fun p => Q (rg (fst (fst p)), rg (snd (fst p)))) send)))).
  { induction send as [|p send IH]; intros m; cbn [fold_left filter map]; [rewrite Nat.add_0_r; reflexivity|]. rewrite IH, g_push_sum. change (DTmp (fst (fst p)) (snd (fst p)) (snd p)) with (to_d p).
    destruct p as [[a b] v]. cbn [fst snd]. destruct (Q (rg a, rg b)); cbn [map]; rewrite ?list_sum_cons; lia. }
  rewrite (X []). reflexivity.
Qed.

Lemma prepare_ok rg W max r send sched junk : rank_ok rg W r send -> (Z.of_nat max + 8 < 2 ^ 32)%Z -> fair3 sched ->
  Forall (fun p => 8 + obj_bytes (snd p) <= max) send ->
  exists pl, prepare sched junk max rg send = Ok (map msg_of pl) /\ pl_ok rg W max r send pl.
Proof.
  intros [HS HA] HM HF HO. destruct (group_ok rg send) as [GI GF].
  assert (IN : forall d, In d (concat (map snd (group rg send))) -> d_ok d /\ rg (d_snd d) = Z.of_nat r /\ (0 <= rg (d_rcv d) < Z.of_nat W)%Z /\ 8 + dbytes d <= max).
  { intros d Hd. apply group_in in Hd. apply in_map_iff in Hd as (p & <- & Hp). rewrite Forall_forall in HA, HO. destruct (HA p Hp) as (A1 & A2 & A3 & A4 & A5). specialize (HO p Hp).
    unfold d_ok, dsmall, dbytes, to_d. cbn [d_snd d_rcv d_data]. repeat split; auto; tauto. }
  destruct (split_all_ok rg max (group rg send)) as (ps & E & P & C & K); auto; [lia| | |].
  { apply Forall_forall. intros d Hd. apply IN in Hd as ((_ & _ & D) & _). exact D. }
  { apply Forall_forall. intros d Hd. now apply IN in Hd. }
  assert (PIN : forall p d, In p ps -> In d (p_src p) -> In d (concat (map snd (group rg send)))).
  { intros p d Hp Hd. specialize (C (fun _ => true)). assert (T : forall A (l : list A), filter (fun _ => true) l = l) by (clear; induction l; cbn; congruence). rewrite !T in C.
    rewrite <- C. apply in_concat. exists (p_src p). split; auto. now apply in_map. }
  unfold prepare. rewrite E. cbn [rbind].
  destruct (imapm_ok (fun i p => b <- serialize_prep (sched i) (junk i) p ;; Ok (CMI (length b) (p_snd p) (p_rcv p) None None None, b)) msg_of
      (fun i p pb => fst pb = p /\ pb_ok rg max pb) ps) as (pl & EP & LP & QP).
  { intros i p Hp. apply nth_error_In in Hp. rewrite Forall_forall in P. destruct (serialize_ok rg max (sched i) (junk i) p (P p Hp)) as (b & EB & LB & RB); auto.
    { apply Forall_forall. intros d Hd. apply (IN d). now apply (PIN p). }
    exists (p, b). rewrite EB. cbn [rbind]. unfold msg_of, pb_ok. cbn [fst snd]. auto. }
  exists pl. split; [exact EP|].
  assert (FP : map fst pl = ps).
  { clear - LP QP. revert ps LP QP. induction pl as [|x pl IH]; intros [|p ps] L Q; cbn in L; try lia; auto. cbn [map]. f_equal.
    - apply (Q 0 p x eq_refl eq_refl).
    - apply IH; [lia|]. intros i a b Ha Hb. apply (Q (S i)); auto. }
  assert (PF : forall pb, In pb pl -> In (fst pb) ps) by (intros pb Hpb; rewrite <- FP; now apply in_map).
  assert (RK : forall p, In p ps -> p_snd p = Z.of_nat r /\ (0 <= p_rcv p < Z.of_nat W)%Z).
  { intros p Hp. rewrite Forall_forall in P. destruct (P p Hp) as (_ & N & _ & GK). destruct (p_src p) as [|d l] eqn:ES; [congruence|]. pose proof (Forall_inv GK) as G1.
    unfold gkey, pkey in G1. injection G1 as G1 G2. rewrite <- G1, <- G2. destruct (IN d) as (_ & A & B & _); auto. apply (PIN p); auto. rewrite ES. left; auto. }
  split; [|split; [|split; [|split]]].
  - apply Forall_forall. intros pb Hpb. apply In_nth_error in Hpb as (i & Hi). assert (Li : i < length ps) by (rewrite <- LP; apply nth_error_Some; congruence).
    destruct (nth_error ps i) as [p|] eqn:Ep; [|apply nth_error_None in Ep; lia]. now destruct (QP i p pb Ep Hi).
  - apply Forall_forall. intros pb Hpb. now apply RK, PF.
  - rewrite LP, <- (group_count rg send). specialize (C (fun _ => true)). assert (T : forall A (l : list A), filter (fun _ => true) l = l) by (clear; induction l; cbn; congruence). rewrite !T in C.
    rewrite <- C. apply concat_len_ge. intros p Hp. rewrite Forall_forall in P. now destruct (P p Hp) as (_ & N & _).
  - intros r' k. rewrite vals_of_d. unfold objs_to. rewrite FP.
    pose proof (C (fun key => (snd key =? r')%Z)) as C'. cbn beta in C'. unfold pkey in C'. cbn [snd] in C'. rewrite C'.
    assert (HP : forall x, k2_eqb k (d_snd x, d_rcv x) = true -> gkey rg x = (rg (fst k), rg (snd k))). { intros x Hx. apply k2_eqb_eq in Hx. subst k. reflexivity. }
    rewrite (filter_groups rg _ _ (fun key => (snd key =? r')%Z) _ HP GI). cbn [snd]. destruct (rg (snd k) =? r')%Z; [|reflexivity]. rewrite (GF _ _ HP). apply vals_to_d.
  - intros pb Hpb. apply PF in Hpb. set (p := fst pb) in *. unfold chunk_total. apply Nat.add_le_mono_l.
    pose proof (C (fun key => (snd key =? p_rcv p)%Z)) as C'. cbn beta in C'. unfold pkey in C'. cbn [snd] in C'.
    assert (Z1 : list_sum (map dbytes (p_src p)) <= list_sum (map dbytes (concat (map p_src (filter (fun p0 => (p_rcv p0 =? p_rcv p)%Z) ps))))).
    { assert (Hin : In p (filter (fun p0 => (p_rcv p0 =? p_rcv p)%Z) ps)) by (apply filter_In; split; auto; apply Z.eqb_refl).
      clear - Hin. induction (filter (fun p0 => (p_rcv p0 =? p_rcv p)%Z) ps) as [|a l IH]; [destruct Hin|]. cbn [map concat]. rewrite map_app, list_sum_app. destruct Hin as [->|Hin]; [lia|]. specialize (IH Hin). lia. }
    rewrite C' in Z1. pose proof (group_sum rg dbytes (fun key => (snd key =? p_rcv p)%Z) send) as GS. cbn beta in GS. cbn [snd] in GS. rewrite GS in Z1.
    unfold objs_bytes, to_rank. rewrite map_map in Z1. exact Z1.
Qed.

Lemma prepare_throw rg W max r send sched junk : rank_ok rg W r send -> (Z.of_nat max + 8 < 2 ^ 32)%Z ->
  Exists (fun p => max < 8 + obj_bytes (snd p)) send -> prepare sched junk max rg send = Throw.
Proof.
  intros [HS HA] HM HO. destruct (group_ok rg send) as [GI GF]. unfold prepare. rewrite (split_all_throw rg); auto; [lia| |].
  - apply Forall_forall. intros d Hd. apply group_in in Hd. apply in_map_iff in Hd as (p & <- & Hp). rewrite Forall_forall in HA. now apply HA in Hp.
  - apply Exists_exists in HO as (p & Hp & HO). apply Exists_exists. exists (to_d p). split; [|exact HO]. apply group_in. now apply in_map.
Qed.
