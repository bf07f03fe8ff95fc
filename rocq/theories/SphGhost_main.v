(** The exchange gives to each patch the expected ghosts. *)
From Verif Require Import Base Par Patch Patch_spec PatchTree PatchTree_spec Sched Sched_spec Sched_hist_proofs Domain Domain_spec Domain_cell
  SerialTree SerialTree_spec SerialTree_main SerialTree_cover SphGhost SphGhost_spec SphGhost_geo.
From Verif Require DDComm_group Domain_main Sched_proofs Sched_step_proofs.
From Coq Require Import Reals Lra ZifyBool.
From Flocq Require Import Core.
Local Open Scope Z_scope.

Lemma flat_map_nil {A B} (h : A -> list B) l : (forall a, In a l -> h a = []) -> flat_map h l = [].
Proof. induction l as [|a l IH]; intros H; cbn [flat_map]; auto. rewrite (H a (or_introl eq_refl)), IH; auto. intros; apply H; right; auto. Qed.
Lemma flat_map_key {A B} (h : Z * A -> list B) k l : NoDup (map fst l) ->
  (forall a, In (k, a) l -> flat_map (fun c => if fst c =? k then h c else []) l = h (k, a)) /\
  (~ In k (map fst l) -> flat_map (fun c => if fst c =? k then h c else []) l = []).
Proof.
  intros ND. split.
  - induction l as [|[k' a'] l IH]; intros a H; [contradiction|]. cbn [map fst] in ND. inversion ND as [|? ? NI ND']; subst. cbn [flat_map fst].
    destruct H as [[= -> ->]|H].
    + rewrite Z.eqb_refl. rewrite flat_map_nil; [apply app_nil_r|]. intros [k2 a2] Hin. cbn [fst]. destruct (k2 =? k) eqn:E; auto.
      apply Z.eqb_eq in E. subst k2. exfalso. apply NI. apply (in_map fst) in Hin. exact Hin.
    + destruct (k' =? k) eqn:E; [|apply IH; auto]. apply Z.eqb_eq in E. subst k'. exfalso. apply NI. apply (in_map fst) in H. exact H.
  - intros NI. apply flat_map_nil. intros [k2 a2] Hin. cbn [fst]. destruct (k2 =? k) eqn:E; auto. apply Z.eqb_eq in E. subst k2.
    exfalso. apply NI. apply (in_map fst) in Hin. exact Hin.
Qed.
Lemma reorder_map {A B} (h : A -> B) ord l : reorder ord (map h l) = map h (reorder ord l).
Proof.
  unfold reorder. induction ord as [|i ord IH]; cbn [flat_map]; [reflexivity|]. rewrite map_app, <- IH. f_equal.
  rewrite nth_error_map. destruct (nth_error l i); reflexivity.
Qed.
Lemma reorder_in {A} ord (l : list A) a : In a (reorder ord l) -> In a l.
Proof. unfold reorder. rewrite in_flat_map. intros (i & _ & H). destruct (nth_error l i) eqn:E; [|contradiction]. destruct H as [<-|[]]. eapply nth_error_In; eauto. Qed.
Lemma flat_map_ext_in {A B} (f h : A -> list B) l : (forall a, In a l -> f a = h a) -> flat_map f l = flat_map h l.
Proof. induction l as [|a l IH]; intros H; cbn [flat_map]; auto. rewrite (H a (or_introl eq_refl)), IH; auto. intros; apply H; right; auto. Qed.

Lemma map_flat_map {A B D} (h : B -> D) (f : A -> list B) l : map h (flat_map f l) = flat_map (fun a => map h (f a)) l.
Proof. induction l as [|a l IH]; cbn [flat_map map]; auto. rewrite map_app, IH. reflexivity. Qed.
(** Extended maximum *)
Lemma omax_assoc a b c : omax a (omax b c) = omax (omax a b) c.
Proof. destruct a, b, c; cbn [omax]; auto. now rewrite Rmax_assoc. Qed.
Lemma omax_l a : omax None a = a. Proof. now destruct a. Qed.
Lemma omax_r a : omax a None = a. Proof. now destruct a. Qed.
Lemma omax_bound x vs : In (Some x) vs -> exists m, fold_right omax None vs = Some m /\ (x <= m)%R.
Proof.
  induction vs as [|v vs IH]; intros H; [contradiction|]. cbn [fold_right]. destruct H as [->|H].
  - destruct (fold_right omax None vs) as [y|]; cbn [omax]; [|exists x; split; auto; lra]. exists (Rmax x y). split; auto. apply Rmax_l.
  - destruct (IH H) as (m & -> & L). destruct v as [v|]; cbn [omax]; [|eauto]. exists (Rmax v m). split; auto. pose proof (Rmax_r v m). lra.
Qed.

(** The cut of an interface. *)
Lemma cut_axis a b lo hi r o x : (a <= x < b)%R -> ((Rmax a (lo - r + - o) <= x < Rmin b (hi + r + - o))%R <-> (lo - r <= x + o < hi + r)%R).
Proof. intros H. unfold Rmax, Rmin. destruct (Rle_dec a (lo - r + - o)), (Rle_dec b (hi + r + - o)); lra. Qed.
Lemma cut_spec SB PB r o x : in_range SB x ->
  (in_range (get_intersect SB (add_offset (expand_all PB r) (vopp o))) x <-> in_range (margin PB r) (vadd x o)).
Proof.
  intros (H1 & H2 & H3). unfold in_range, get_intersect, add_offset, expand_all, vopp, margin, vadd, vsubs, vadds. cbn [fst snd wx wy wz].
  rewrite !cut_axis by auto. reflexivity.
Qed.

Section M.
Variable obj : Type.
Variables (xyz : obj -> vec3 R) (hpart : obj -> R).
Variable W : nat.
Variables (bs : list pcoord) (s : sched obj) (g : pcoord) (box : range R) (h_evol_max Rkern : R).
Notation pos := (fun x => r_cell g box (xyz x)).
Variables (rs : list Z) (fuel : nat) (st : sstate R) (roots : list Z) (orders : nat -> list act) (acc_tf : list (option R)) (fuel' : nat).
Hypothesis HW : (1 <= W)%nat.
Hypothesis HWu : Z.of_nat W <= u32_max.
Hypothesis Hist : sched_history obj pos W bs s.
Hypothesis HG : grid_ok g.
Hypothesis HB : rbox_ok box.
Hypothesis Hin : forall b, In b bs -> inside b g.
Hypothesis Hnext : t_next (s_tree _ s) <= 2 ^ 32.
Hypothesis Hfuel : (65 <= fuel)%nat.
Hypothesis Hbuilt : built_from (r_to_box g box) fuel (s_tree _ s) rs st roots.
Hypothesis Hexec : forall l, (l < Z.to_nat (ss_level st))%nat -> level_execution (length (ss_tree st)) (orders l).
Hypothesis Hacc : interactR_mpi_tree obj hpart s h_evol_max Rkern st orders = Ok acc_tf.
Hypothesis Hfuel' : (length (ss_tree st) < fuel')%nat.

Notation objs p := (patch_objs obj (s_data _ s) p).
Notation range_of p := (interact_range obj hpart h_evol_max Rkern (objs p)).
Notation find_one := (find_one obj hpart s g box h_evol_max Rkern st roots acc_tf fuel').
Let I : sched_ok obj pos W s := proj1 (history_ok obj pos W bs s HW Hist).

Lemma pdat_ok p : In p (s_global _ s) -> valid_patch W p -> get_pdat obj s (p_owner p) (p_id p) = Ok (objs p).
Proof.
  intros Hp Vp. unfold get_pdat, patch_objs. pose proof (proj2 (so_data _ _ _ _ I (p_owner p) (p_id p) Vp) (ex_intro _ p (conj Hp (conj eq_refl eq_refl)))) as H.
  destruct (s_data _ s (p_owner p) (p_id p)); [reflexivity|congruence].
Qed.
Lemma id_inj p q : In p (s_global _ s) -> In q (s_global _ s) -> p_id p = p_id q -> p = q.
Proof. intros Hp Hq E. eapply (Sched_proofs.NoDup_map_inj p_id); eauto. apply (so_nodup _ _ _ _ I). Qed.
Lemma range_get_ok p : In p (s_global _ s) -> valid_patch W p -> range_get obj hpart s h_evol_max Rkern (p_id p) = Ok (range_of p).
Proof.
  intros Hp Vp. unfold range_get. destruct (find _ _) as [q|] eqn:E.
  - apply find_some in E. destruct E as (Hq & Eq). apply Z.eqb_eq in Eq. assert (q = p) by (apply id_inj; auto). subst q. rewrite pdat_ok by auto. reflexivity.
  - apply find_none with (x := p) in E; auto. rewrite Z.eqb_refl in E. discriminate.
Qed.
Lemma p_inside p : In p (s_global _ s) -> valid_patch W p -> inside (p_box p) g.
Proof. intros Hp Vp. eapply Domain_main.patch_inside; eauto. Qed.
Lemma objs_in p x : In p (s_global _ s) -> valid_patch W p -> In x (objs p) -> in_range (r_image g box (p_box p)) (xyz x).
Proof.
  intros Hp Vp Hx. pose proof (so_in _ _ _ _ I p x Hp Vp Hx) as H. cbv beta in H.
  destruct (r_conv g box HG HB (p_box p) (p_inside p Hp Vp)) as (r & E & Hr). rewrite r_to_box_ok in E by auto using p_inside. injection E as <-.
  apply in_rangeb_ok. apply Hr. exact H.
Qed.

Definition expected1 (P : patch) (PB : range R) (r : R) (o : offset) (S : patch) : list (offset * obj) :=
  if (p_id S =? p_id P) && idx_zero (o_idx o) then []
  else map (pair o) (filter (fun x => in_rangeb (margin PB r) (vadd (xyz x) (o_shift o))) (objs S)).
(** What an interface of the sender S brings to P. *)
Definition brings (P S : patch) (i : iface) : list (offset * obj) :=
  if if_recv i =? p_id P then map (pair (if_off i)) (filter (in_cut obj xyz (if_cut i)) (objs S)) else [].

Lemma find_one_ok o S : In S (s_global _ s) -> valid_patch W S ->
  exists l, find_one o S = Ok l /\ (forall i, In i l -> if_sender i = p_id S) /\
    forall P r, In P (s_global _ s) -> valid_patch W P -> range_of P = Some r ->
      flat_map (brings P S) l = expected1 P (r_image g box (p_box P)) r o S.
Proof.
  intros HS VS. destruct Hbuilt as (HP & Hb). pose proof (r_conv g box HG HB) as Hconv.
  destruct (leafs_main obj pos W Rle_bool Rlt_bool _ _ g Hconv bs s rs fuel HW Hist Hin Hnext HP Hfuel st roots Hb
    (interact acc_tf (add_offset (r_image g box (p_box S)) (o_shift o))) fuel' Hfuel') as (calls & Ec & ND & Hsound & Hcompl).
  destruct (field_cover obj pos W Rle_bool Rlt_bool _ _ g Hconv bs s rs fuel HW Hist Hin Hnext HP Hfuel st roots Hb
    (Some 0%R) None omax (range_get obj hpart s h_evol_max Rkern) orders omax_assoc omax_l omax_r) as (f & Ef & Lf & Hf); auto.
  { intros p Hp Vp. eexists. apply range_get_ok; auto. }
  assert (f = acc_tf) by (unfold interactR_mpi_tree in Hacc; congruence). subst f.
  unfold SphGhost.find_one. replace (is_err_mode S) with false by (symmetry; unfold is_err_mode, valid_patch, u32_max in *; lia).
  rewrite (r_to_box_ok g box HG HB) by auto using p_inside. cbn [rbind]. rewrite Ec. cbn [rbind].
  set (cutof := fun (c : Z * snode R) => match range_get obj hpart s h_evol_max Rkern (fst c) with
     | Ok (Some r) => Some (get_intersect (r_image g box (p_box S)) (add_offset (expand_all (sn_min (snd c), sn_max (snd c)) r) (vopp (o_shift o)))) | _ => None end).
  rewrite (rflat_ok _ (fun c => if (fst c =? p_id S) && idx_zero (o_idx o) then [] else [Iface (p_id S) (fst c) o (cutof c)])).
  2:{ intros [id n] Hc. unfold found. cbn [fst]. destruct ((id =? p_id S) && idx_zero (o_idx o)); [reflexivity|].
      destruct (Hsound id n Hc) as (p & i & Hp & Vp & <- & _). unfold cutof. cbn [fst snd]. rewrite range_get_ok by auto. cbn [rbind].
      destruct (range_of p); reflexivity. }
  eexists. split; [reflexivity|]. split.
  { intros i Hi. apply in_flat_map in Hi. destruct Hi as (c & _ & Hi). destruct (_ && _) in Hi; [contradiction|]. destruct Hi as [<-|[]]. reflexivity. }
  intros P r HPg VP HR. rewrite flat_map_flat_map.
  transitivity (flat_map (fun c => if fst c =? p_id P then (if (p_id P =? p_id S) && idx_zero (o_idx o) then []
     else map (pair o) (filter (in_cut obj xyz (cutof c)) (objs S))) else []) calls).
  { apply flat_map_ext_in. intros [id n] _. cbn [fst]. destruct (id =? p_id P) eqn:E.
    - apply Z.eqb_eq in E. subst id. destruct (_ && _); cbn [flat_map]; [reflexivity|]. unfold brings. cbn [if_recv if_off if_cut]. rewrite Z.eqb_refl. apply app_nil_r.
    - destruct (_ && _); cbn [flat_map]; [reflexivity|]. unfold brings. cbn [if_recv]. rewrite E. reflexivity. }
  unfold expected1. rewrite (Z.eqb_sym (p_id S)).
  destruct ((p_id P =? p_id S) && idx_zero (o_idx o)) eqn:Eself.
  { apply flat_map_nil. intros c _. destruct (fst c =? p_id P); reflexivity. }
  destruct (flat_map_key (fun c => map (pair o) (filter (in_cut obj xyz (cutof c)) (objs S))) (p_id P) calls ND) as (K1 & K2).
  destruct (in_dec Z.eq_dec (p_id P) (map fst calls)) as [HinP|Hnot].
  - apply in_map_iff in HinP. destruct HinP as ([id m] & Eid & Hm). cbn [fst] in Eid. subst id. rewrite (K1 m Hm). f_equal. apply filter_ext_in. intros x Hx.
    destruct (Hsound _ _ Hm) as (p & i & Hp & Vp & Eid & Ebx & _). assert (p = P) by (apply id_inj; auto). subst p.
    rewrite (r_to_box_ok g box HG HB) in Ebx by auto using p_inside.
    assert (Ebx' : r_image g box (p_box P) = (sn_min m, sn_max m)) by congruence. clear Ebx.
    unfold cutof. cbn [fst snd]. rewrite range_get_ok by auto. rewrite HR. rewrite <- Ebx'. cbn [in_cut].
    change (in_rangeb (get_intersect (r_image g box (p_box S)) (add_offset (expand_all (r_image g box (p_box P)) r) (vopp (o_shift o)))) (xyz x) =
      in_rangeb (margin (r_image g box (p_box P)) r) (vadd (xyz x) (o_shift o))).
    apply eq_true_iff_eq. rewrite !in_rangeb_ok. apply cut_spec. apply objs_in; auto.
  - rewrite K2 by auto. symmetry. rewrite DDComm_group.filter_none; [reflexivity|]. intros x Hx. apply not_true_is_false. intros Hn. apply Hnot. apply in_rangeb_ok in Hn.
    pose proof (objs_in S x HS VS Hx) as HxS.
    apply (Hcompl P (fst (r_image g box (p_box P))) HPg VP).
    { eexists. split; [apply r_to_box_ok; auto using p_inside|]. apply (image_nonempty g box HG HB); auto using p_inside. }
    intros i m Hm Hv. unfold interact.
    destruct (Hf _ _ Hm P (fst (r_image g box (p_box P))) HPg VP) as (b & vs & y & Eb & Ib & Hw & Ey & Hy & Hnth); auto.
    { eexists. split; [apply r_to_box_ok; auto using p_inside|]. apply (image_nonempty g box HG HB); auto using p_inside. }
    rewrite range_get_ok, HR in Ey by auto. injection Ey as <-. destruct (omax_bound r vs Hy) as (mx & Em & Hle). rewrite Hnth, Em.
    rewrite (r_to_box_ok g box HG HB) in Eb by auto. assert (Eb' : r_image g box b = (sn_min m, sn_max m)) by congruence. rewrite <- Eb'.
    pose proof (image_mono g box HG HB _ _ (p_inside P HPg VP) Ib Hw) as Mono.
    revert Mono Hn HxS. generalize (r_image g box (p_box P)) (r_image g box b) (r_image g box (p_box S)). intros A B S' Mono (N1 & N2 & N3) (X1 & X2 & X3).
    unfold margin, vadd in N1, N2, N3. cbn [fst snd wx wy wz] in N1, N2, N3.
    unfold is_not_empty, get_intersect, expand_all, add_offset, vsubs, vadds, vadd. cbn [fst snd wx wy wz].
    rewrite !Rle_bool_true; auto; apply Rmin_case; apply Rmax_case; lra.
Qed.

(** ** All the ranks *)
Variables (offs : list offset) (ord : Z -> nat -> list nat).
Hypothesis Hord : forall rk n, Permutation (ord rk n) (seq 0 n).
Definition found_in (o : offset) (S : patch) : list iface := ok_or_nil (find_one o S).
Definition ranks : list Z := map Z.of_nat (seq 0 W).
Definition data (rk id : Z) : list obj := match s_data _ s rk id with Some l => l | None => [] end.
Definition contents (rk : Z) (i : iface) : list obj := filter (in_cut obj xyz (if_cut i)) (data rk (if_sender i)).
Definition tabs (rk : Z) (i : iface) : list (Z * id_table) :=
  if (length (contents rk i) =? 0)%nat then [] else [(rk, Table i (get_ids_where obj (in_cut obj xyz (if_cut i)) (data rk (if_sender i))))].
Definition ifs (rk : Z) : list iface := flat_map (fun o => flat_map (found_in o) (local_patches obj s rk)) offs.
Definition all_tables : list (Z * id_table) := flat_map (fun rk => flat_map (tabs rk) (reorder (ord rk (length (ifs rk))) (ifs rk))) ranks.

Lemma local_ok rk S : In rk ranks -> In S (local_patches obj s rk) -> In S (s_global _ s) /\ valid_patch W S /\ p_owner S = rk.
Proof.
  intros Hr HS. apply filter_In in HS. destruct HS as (HS & E). apply Z.eqb_eq in E. apply in_map_iff in Hr. destruct Hr as (k & <- & Hk). apply in_seq in Hk.
  split; auto. split; auto. unfold valid_patch. lia.
Qed.
Lemma found_eq o S : In S (s_global _ s) -> valid_patch W S -> find_one o S = Ok (found_in o S).
Proof. intros HS VS. destruct (find_one_ok o S HS VS) as (l & E & _). unfold found_in. rewrite E. reflexivity. Qed.
Lemma ifs_sender rk i : In rk ranks -> In i (ifs rk) -> exists S, In S (s_global _ s) /\ valid_patch W S /\ p_owner S = rk /\ if_sender i = p_id S.
Proof.
  intros Hr Hi. unfold ifs in Hi. apply in_flat_map in Hi. destruct Hi as (o & _ & Hi). apply in_flat_map in Hi. destruct Hi as (S & HS & Hi).
  destruct (local_ok rk S Hr HS) as (H1 & H2 & H3). exists S. split; auto. split; auto. split; auto. destruct (find_one_ok o S H1 H2) as (l & E & Hs & _).
  unfold found_in in Hi. rewrite E in Hi. auto.
Qed.
Lemma where_len cond (l : list obj) : (length (get_ids_where obj cond l) =? 0)%nat = (length (filter cond l) =? 0)%nat.
Proof.
  apply eq_true_iff_eq. rewrite !Nat.eqb_eq, where_nil. split; [intros ->; reflexivity|]. destruct (filter cond l); [auto|discriminate].
Qed.
Lemma tables_ok : make_interface_caches obj xyz hpart W s g box h_evol_max Rkern st roots acc_tf fuel' offs ord = Ok all_tables.
Proof.
  unfold make_interface_caches, all_tables. apply rflat_ok. intros rk Hr. unfold find_interfaces.
  rewrite (rflat_ok _ (fun o => flat_map (found_in o) (local_patches obj s rk))).
  2:{ intros o _. apply rflat_ok. intros S HS. destruct (local_ok rk S Hr HS) as (H1 & H2 & _). apply found_eq; auto. }
  cbn [rbind]. fold (ifs rk).
  set (tb := fun i => if (length (contents rk i) =? 0)%nat then [] else [Table i (get_ids_where obj (in_cut obj xyz (if_cut i)) (data rk (if_sender i)))]).
  rewrite (rflat_ok _ tb).
  - cbn [rbind]. f_equal. rewrite map_flat_map. apply flat_map_ext_in. intros i _. unfold tb, tabs. destruct (_ =? 0)%nat; reflexivity.
  - intros i Hi. apply reorder_in in Hi. destruct (ifs_sender rk i Hr Hi) as (S & H1 & H2 & H3 & H4). unfold gen_id_table, tb, contents, data. rewrite H4, <- H3.
    pose proof (pdat_ok S H1 H2) as E. unfold get_pdat in E |- *. destruct (s_data _ s (p_owner S) (p_id S)) as [l|]; [|discriminate]. cbn [rbind].
    rewrite where_len. destruct (_ =? 0)%nat; reflexivity.
Qed.

(** ** The merge *)
Definition arrives (P : patch) (t : Z * id_table) : list (offset * obj) :=
  if if_recv (tb_iface (snd t)) =? p_id P then map (pair (if_off (tb_iface (snd t)))) (contents (fst t) (tb_iface (snd t))) else [].
Lemma in_tables rk tb : In (rk, tb) all_tables -> In rk ranks /\ In (tb_iface tb) (ifs rk) /\
  tb_ids tb = get_ids_where obj (in_cut obj xyz (if_cut (tb_iface tb))) (data rk (if_sender (tb_iface tb))) /\ contents rk (tb_iface tb) <> [].
Proof.
  unfold all_tables. intros H. apply in_flat_map in H. destruct H as (rk' & Hr & H). apply in_flat_map in H. destruct H as (i & Hi & H).
  unfold tabs in H. destruct (length (contents rk' i) =? 0)%nat eqn:E; [contradiction|]. destruct H as [[= <- <-]|[]]. cbn [tb_iface tb_ids].
  split; auto. split; [eapply reorder_in; eauto|]. split; auto. intros E'. rewrite E' in E. discriminate.
Qed.
Lemma messages_ok {G} (ghost : offset -> obj -> G) :
  rflat (build_interface obj s ghost) all_tables =
  Ok (map (fun t => (if_recv (tb_iface (snd t)), map (ghost (if_off (tb_iface (snd t)))) (contents (fst t) (tb_iface (snd t))))) all_tables).
Proof.
  rewrite (rflat_ok _ (fun t => [(if_recv (tb_iface (snd t)), map (ghost (if_off (tb_iface (snd t)))) (contents (fst t) (tb_iface (snd t))))])).
  - reflexivity.
  - intros [rk tb] Ht. destruct (in_tables rk tb Ht) as (Hr & Hi & Eids & Hne). cbn [fst snd]. unfold build_interface.
    destruct (ifs_sender rk _ Hr Hi) as (S & H1 & H2 & H3 & H4). rewrite Eids. rewrite where_len.
    unfold contents in *. unfold data in *. rewrite H4, <- H3 in *. pose proof (pdat_ok S H1 H2) as E. unfold get_pdat in E |- *.
    destruct (s_data _ s (p_owner S) (p_id S)) as [l|]; [|discriminate]. cbn [rbind].
    destruct (filter (in_cut obj xyz (if_cut (tb_iface tb))) l) as [|x xs] eqn:Ef; [congruence|]. cbn [length Nat.eqb]. rewrite subset_where, Ef. reflexivity.
Qed.
Lemma arrives_perm P r : In P (s_global _ s) -> valid_patch W P -> range_of P = Some r ->
  Permutation (flat_map (arrives P) all_tables) (expected obj xyz W s offs P (r_image g box (p_box P)) r).
Proof.
  intros HP VP HR. unfold all_tables. rewrite flat_map_flat_map.
  transitivity (flat_map (fun rk => flat_map (fun o => flat_map (expected1 P (r_image g box (p_box P)) r o) (local_patches obj s rk)) offs) ranks).
  { apply perm_flat_map_ext. intros rk Hr. rewrite flat_map_flat_map.
    etransitivity; [apply Permutation_flat_map, (reorder_perm (ifs rk)), Hord|]. unfold ifs. rewrite flat_map_flat_map.
    apply perm_flat_map_ext. intros o _. rewrite flat_map_flat_map. apply perm_flat_map_ext. intros S HS.
    destruct (local_ok rk S Hr HS) as (H1 & H2 & H3). destruct (find_one_ok o S H1 H2) as (l & E & Hs & Hl). rewrite <- (Hl P r HP VP HR).
    unfold found_in. rewrite E. cbn [ok_or_nil]. assert (Ex : forall i, In i l -> flat_map (arrives P) (tabs rk i) = brings P S i); [|rewrite (flat_map_ext_in _ _ _ Ex); reflexivity].
    intros i Hi. unfold tabs. destruct (length (contents rk i) =? 0)%nat eqn:E0; cbn [flat_map].
    - apply Nat.eqb_eq in E0. unfold brings. replace (filter (in_cut obj xyz (if_cut i)) (objs S)) with (contents rk i).
      + destruct (contents rk i); [|discriminate]. destruct (_ =? _); reflexivity.
      + unfold contents, data. rewrite (Hs i Hi), <- H3. reflexivity.
    - rewrite app_nil_r. unfold arrives, brings. cbn [fst snd tb_iface]. destruct (if_recv i =? p_id P); [|reflexivity].
      unfold contents, data. rewrite (Hs i Hi), <- H3. reflexivity. }
  etransitivity; [apply (flat_map_swap (fun rk o => flat_map (expected1 P (r_image g box (p_box P)) r o) (local_patches obj s rk)))|].
  unfold expected. apply perm_flat_map_ext. intros o _. rewrite <- flat_map_flat_map.
  apply (Permutation_flat_map (expected1 P (r_image g box (p_box P)) r o)).
  unfold local_patches, ranks. etransitivity; [apply Sched_step_proofs.filter_parts|].
  - apply FinFun.Injective_map_NoDup; [intros a b; apply Nat2Z.inj|apply seq_NoDup].
  - assert (Ev : forall p, existsb (Z.eqb (p_owner p)) (map Z.of_nat (seq 0 W)) = validb W p); [|rewrite (filter_ext _ _ Ev); reflexivity].
    intros p. apply eq_true_iff_eq. unfold validb. rewrite existsb_exists, andb_true_iff, Z.leb_le, Z.ltb_lt. split.
    + intros (x & Hx & E). apply in_map_iff in Hx. destruct Hx as (k & <- & Hk). apply in_seq in Hk. lia.
    + intros (A & B). exists (p_owner p). split; [|apply Z.eqb_refl]. apply in_map_iff. exists (Z.to_nat (p_owner p)). split; [lia|]. apply in_seq. lia.
Qed.
Lemma merge_ok (net : nat -> list nat) : (forall n, Permutation (net n) (seq 0 n)) ->
  forall P, In P (s_global _ s) -> valid_patch W P ->
  (objs P = [] -> forall G ghost own, @build_comm_merge obj s G ghost own all_tables net P = Ok None) /\
  (objs P <> [] -> exists r L, range_of P = Some r /\ Permutation L (expected obj xyz W s offs P (r_image g box (p_box P)) r) /\
     forall G ghost own, @build_comm_merge obj s G ghost own all_tables net P = Ok (Some (map own (objs P) ++ map (fun c => ghost (fst c) (snd c)) L))).
Proof.
  intros Hnet P HP VP. split.
  - intros E G ghost own. unfold build_comm_merge. rewrite messages_ok. cbn [rbind]. rewrite pdat_ok by auto. rewrite E. reflexivity.
  - intros Hne. assert (HR : exists r, range_of P = Some r) by (destruct (objs P); [congruence|eexists; reflexivity]). destruct HR as (r & HR).
    exists r, (flat_map (arrives P) (reorder (net (length all_tables)) all_tables)). split; auto. split.
    + etransitivity; [apply Permutation_flat_map, (reorder_perm all_tables), Hnet|]. apply arrives_perm; auto.
    + intros G ghost own. unfold build_comm_merge. rewrite messages_ok. cbn [rbind]. rewrite pdat_ok by auto. cbn [rbind].
      destruct (objs P) as [|x0 xs]; [congruence|]. f_equal. f_equal. f_equal. rewrite map_length, reorder_map.
      rewrite map_flat_map. generalize (reorder (net (length all_tables)) all_tables). intros l. induction l as [|t l IH]; cbn [flat_map map]; [reflexivity|].
      rewrite <- IH. f_equal. unfold arrives. cbn [fst snd]. destruct (_ =? _); [|reflexivity]. rewrite map_map. reflexivity.
Qed.
End M.
