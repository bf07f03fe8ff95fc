(** C44: the reattribution of the objects to the patches (ReattributeDataUtility). *)
From Verif Require Import Base Streams Serialize Serialize_spec Containers Containers_spec Layer Layer_spec Patch Patch_spec PatchTree PatchTree_spec SparseXchg SparseXchg_spec DDComm DDComm_spec DDSer LayerSer LayerSer_spec
  Reattr Reattr_spec Reattr_local Reattr_extract Reattr_final.
From Verif Require Import Sched Sched_spec F64 Domain Domain_spec SerialTree SerialTree_spec.
From Verif Require DDComm_xchg Layer_main P_SerialTree P_Layer P_DDSer P_Sched P_Domain.
Local Open Scope nat_scope.

Lemma holds_lays lay P d : Forall2 (holds lay) P d -> d = lays lay P.
Proof. unfold lays. induction 1 as [|[a os] [b L] P d [E S] _ IH]; [reflexivity|]. cbn [map fst snd] in *. subst. f_equal. f_equal. now apply stores_eq. Qed.
Lemma holds_all lay Ps ds : Forall2 (Forall2 (holds lay)) Ps ds -> ds = map (lays lay) Ps.
Proof. induction 1 as [|P d Ps ds H _ IH]; [reflexivity|]. cbn [map]. rewrite (holds_lays lay P d H), IH. reflexivity. Qed.
Lemma lays_holds lay P : Forall (fun p => Forall (shaped lay) (snd p)) P -> Forall2 (holds lay) P (lays lay P).
Proof. induction 1 as [|p P H _ IH]; [constructor|]. constructor; auto. split; [reflexivity|]. cbn [snd]. now apply stores_Lof. Qed.

Section P.
Variables (lay : layout) (ipos pos_ty : nat) (tsz : nat -> nat).
Variable owner : nat -> Z -> list (list Z) -> res (list Z).
Variable uorder : nat -> Z -> list (Z * list nat) -> list (Z * list nat).
Variables (Ea : nat -> Z -> Z -> lenv (list Z)) (Ek : nat -> Z -> lenv (list Z)).
Variables (ssch : nat -> nat -> nat -> nat -> list nat) (sjunk : nat -> nat -> nat -> Z).
Variables (rg : Z -> Z) (own : obj_t -> Z) (Ps : list (list (Z * list obj_t))) (all : list (Z * list obj_t)) (ds : list (dd (layer (list Z)))).
Variables (sched : nat -> nat -> nat -> nat -> list nat) (junk : nat -> nat -> nat -> Z) (max_mem : nat -> nat) (max_comm : nat).
Notation begin := (reattr_begin lay ipos pos_ty tsz owner uorder Ea Ek ssch sjunk rg sched junk max_mem max_comm ds).

(** When every object has a patch, on every schedule of the messages the exchange ends, and then each patch of
    each rank contains exactly its objects that were already there, in order, followed by those that come from the
    other patches, by increasing id of these and in order. *)
Theorem C44_reattribute : forall Ei dsch djunk ex ps tabs caches brecv,
  world tsz lay rg Ps all -> nth_error lay ipos = Some (pos_ty, 1) -> Forall2 (Forall2 (holds lay)) Ps ds ->
  owner_ok ipos own owner Ps -> homes lay own all -> begin_envs_ok uorder Ea Ek ssch ->
  (forall r a b, good_envs (Ei r a b)) -> (forall r i, fair_sched (dsch r i)) ->
  (Z.of_nat max_comm < 2 ^ 31)%Z -> (forall r, fair3 (sched r)) ->
  begin = Ok (ex, ps, tabs) ->
  Forall2 (fun t b => bufs_ok (t_send_sizes t) b) tabs caches ->
  Forall2 (fun t b => bufs_ok (t_recv_sizes t) b) tabs brecv ->
  length tabs = length Ps /\ length ex = length Ps /\
  exists bsend, comm_fill tabs ps caches = Ok bsend /\
  (forall r t bs br, nth_error tabs r = Some t -> nth_error bsend r = Some bs -> nth_error brecv r = Some br -> exchange_checks t bs br = Ok tt) /\
  forall n s, xreach tabs bsend (xinit brecv) n s ->
    n <= 5 * list_sum (map (targets own) all) * length Ps /\
    (forall l, enabled tabs l s = true -> exists s', xdo tabs bsend l s = Ok s') /\
    (finished tabs s = false -> exists l, enabled tabs l s = true /\ unbuffered l s) /\
    (finished tabs s = true -> forall r P t d send sch cjunk, nth_error Ps r = Some P -> nth_error tabs r = Some t -> nth_error ex r = Some (d, send) -> fair3 sch ->
       exists d', reattr_end lay tsz Ei dsch djunk rg r sch cjunk t (x_bufs (s r)) d send = Ok d' /\
         Forall2 (holds lay) (map (fun p => (fst p, after own all (fst p) (snd p))) P) d').
Proof.
  intros Ei dsch djunk ex ps tabs caches brecv HW HPos HD HO HH (HU & HEa & HEk & HSs) HEi HDs HM HF HB HC HV. apply holds_all in HD. subst ds.
  destruct (begin_ex lay ipos pos_ty tsz owner uorder Ea Ek Ei ssch sjunk dsch djunk rg own Ps all HW HPos HO HU HEa HEk HEi HSs HDs HH _ _ _ _ _ _ _ HB) as [[LX _] _].
  destruct (reattr_main lay ipos pos_ty tsz owner uorder Ea Ek Ei ssch sjunk dsch djunk rg own Ps all HW HPos HO HU HEa HEk HEi HSs HDs HH sched junk max_mem max_comm ex ps tabs caches brecv HM HF HB HC HV) as (LT & bsend & EF & CK & M).
  split; auto. split; auto. exists bsend. split; auto. split; auto. intros n s HR. destruct (M n s HR) as (M1 & M2 & M3 & M4). split; auto. split; auto. split; auto.
  intros FIN r P t d send sch cjunk HP Ht He Hs. eexists. split; [exact (M4 FIN r P t (d, send) sch cjunk HP Ht He Hs)|]. apply lays_holds. apply Forall_map. apply Forall_forall. intros p Hp. cbn [snd].
  pose proof (w_objs _ _ _ _ _ HW) as F. assert (FS : forall q, In q all -> Forall (shaped lay) (snd q)). { intros q Hq. rewrite Forall_forall in F. eapply Forall_impl; [|exact (F q Hq)]. now intros o [A _]. }
  unfold after. apply Forall_app. split.
  - apply Forall_forall. intros o Ho. apply filter_In in Ho as [Ho _]. pose proof (FS p (in_rank lay tsz rg Ps all HW r P p HP Hp)) as A. rewrite Forall_forall in A. now apply A.
  - apply Forall_forall. intros o Ho. unfold moved in Ho. apply in_flat_map in Ho as (q & Hq & Ho). destruct (_ =? _)%Z; [destruct Ho|]. apply filter_In in Ho as [Ho _]. pose proof (FS q Hq) as A. rewrite Forall_forall in A. now apply A.
Qed.

(** It starts when what leaves each rank for each other rank (and 16 bytes) fits the limits of both. *)
Theorem C44_total :
  world tsz lay rg Ps all -> nth_error lay ipos = Some (pos_ty, 1) -> Forall2 (Forall2 (holds lay)) Ps ds ->
  owner_ok ipos own owner Ps -> homes lay own all -> begin_envs_ok uorder Ea Ek ssch ->
  (Z.of_nat max_comm < 2 ^ 31)%Z -> (forall r, fair3 (sched r)) ->
  (forall r P r', nth_error Ps r = Some P -> r' < length Ps -> r' <> r ->
     16 + leaving own tsz lay rg r' P <= max_alloc (max_mem r) max_comm /\ 16 + leaving own tsz lay rg r' P <= max_alloc (max_mem r') max_comm) ->
  exists ex ps tabs, begin = Ok (ex, ps, tabs).
Proof.
  intros HW HPos HD HO HH (HU & HEa & HEk & HSs) HM HF HL. apply holds_all in HD. subst ds.
  apply (begin_total lay ipos pos_ty tsz owner uorder Ea Ek ssch sjunk rg own Ps all HW HPos HO HU HEa HEk HSs HH sched junk max_mem max_comm HM HF HL).
Qed.
(** Otherwise there is an exception; nothing else can happen. *)
Theorem C44_ok_or_throw :
  world tsz lay rg Ps all -> nth_error lay ipos = Some (pos_ty, 1) -> Forall2 (Forall2 (holds lay)) Ps ds ->
  owner_ok ipos own owner Ps -> homes lay own all -> begin_envs_ok uorder Ea Ek ssch ->
  (Z.of_nat max_comm < 2 ^ 31)%Z -> (forall r, fair3 (sched r)) ->
  (exists ex ps tabs, begin = Ok (ex, ps, tabs)) \/ begin = Throw.
Proof.
  intros HW HPos HD HO HH (HU & HEa & HEk & HSs) HM HF. apply holds_all in HD. subst ds.
  apply (begin_cases lay ipos pos_ty tsz owner uorder Ea Ek ssch sjunk rg own Ps all HW HPos HO HU HEa HEk HSs HH sched junk max_mem max_comm HM HF).
Qed.
(** An object without a patch (the error value) is always detected. *)
Theorem C44_lost_object :
  world tsz lay rg Ps all -> nth_error lay ipos = Some (pos_ty, 1) -> Forall2 (Forall2 (holds lay)) Ps ds ->
  owner_ok ipos own owner Ps -> begin_envs_ok uorder Ea Ek ssch ->
  (exists p o, In p all /\ In o (snd p) /\ own o = u64_max) -> begin = Throw.
Proof.
  intros HW HPos HD HO (HU & HEa & HEk & HSs) (p & o & Hp & Ho & E). apply holds_all in HD. subst ds.
  apply (begin_throw lay ipos pos_ty tsz owner uorder Ea Ek ssch sjunk rg own Ps all HW HPos HO HU HEa HEk). apply Exists_exists. exists p. split; auto. apply Exists_exists. eauto.
Qed.
End P.

(** No object is lost or duplicated: all the patches together contain the same objects before and after, and each
    patch contains afterwards all its objects and only them. *)
Theorem C44_conservation : forall own (all : list (Z * list obj_t)), dd_sorted all -> Forall (fun p => Forall (fun o => In (own o) (map fst all)) (snd p)) all ->
  Permutation (concat (map (fun p => after own all (fst p) (snd p)) all)) (concat (map snd all)) /\
  forall b os, In (b, os) all -> Permutation (after own all b os) (filter (fun o => (own o =? b)%Z) (concat (map snd all))).
Proof.
  intros own all HS HH. assert (ND : NoDup (map fst all)) by (apply Containers_proofs.sorted_nodup; exact HS). split; [now apply conserved|]. intros b os H. now apply after_perm.
Qed.
(** Doing it again changes nothing. *)
Theorem C44_idempotent : forall own (all : list (Z * list obj_t)),
  let all' := map (fun p => (fst p, after own all (fst p) (snd p))) all in
  Forall (fun p => after own all' (fst p) (snd p) = snd p) all' /\ list_sum (map (targets own) all') = 0.
Proof.
  intros own all all'.
  assert (F : Forall (fun p => Forall (fun o => own o = fst p) (snd p)) all').
  { unfold all'. apply Forall_map. apply Forall_forall. intros p _. cbn [fst snd]. unfold after. apply Forall_app. split; apply Forall_forall; intros o Ho.
    - apply filter_In in Ho as [_ Ho]. now apply Z.eqb_eq.
    - unfold moved in Ho. apply in_flat_map in Ho as (q & _ & Ho). destruct (_ =? _)%Z; [destruct Ho|]. apply filter_In in Ho as [_ Ho]. now apply Z.eqb_eq. }
  assert (M : forall b, moved own b all' = []).
  { intros b. unfold moved. revert F. generalize all'. clear. induction all' as [|[c os] l IH]; intros F; [reflexivity|]. apply Forall_cons_iff in F as [F1 F2]. cbn [flat_map fst snd] in *. rewrite (IH F2), app_nil_r. destruct (Z.eqb_spec c b); auto.
    apply DDComm_group.filter_none. intros o Ho. rewrite Forall_forall in F1. rewrite (F1 o Ho). now apply Z.eqb_neq. }
  split.
  - eapply Forall_impl; [|exact F]. intros [b os] H. cbn [fst snd] in *. unfold after. rewrite M, app_nil_r. clear - H. induction H as [|o os E _ IH]; [reflexivity|]. cbn [filter]. rewrite E, Z.eqb_refl. now f_equal.
  - clear M. induction F as [|[b os] l F _ IH]; [reflexivity|]. cbn [map]. rewrite DDComm_prep.list_sum_cons, IH. unfold targets. cbn [fst snd] in *. rewrite DDComm_group.filter_none; [reflexivity|].
    intros x Hx. apply in_map_iff in Hx as (o & <- & Ho). rewrite Forall_forall in F. rewrite (F o Ho), Z.eqb_refl. reflexivity.
Qed.

(** In double precision, with the arrays built from any state of the scheduler (C39), the kernel computes the
    owners: [posv] reads a position from its bytes, [own] gives to each object the patch that contains it. *)
Theorem C44_owner_binary64 : forall (obj : Type) (pos : obj -> v3) W bs s fma g box rs fuel st roots (posv : list Z -> vec3 f64) lay ipos pos_ty own Ps order mem,
  1 <= W -> sched_history obj pos W bs s -> grid_ok g -> box_ok box -> bs <> [] -> (forall b, In b bs -> inside b g) -> (t_next (s_tree _ s) <= 2 ^ 32)%Z -> 65 <= fuel ->
  built_from (patch_coord_to_domain fma g box) fuel (s_tree _ s) rs st roots ->
  nth_error lay ipos = Some (pos_ty, 1) ->
  (forall P p o, In P Ps -> In p P -> In o (snd p) -> shaped lay o /\
     exists q, In q (s_global _ s) /\ valid_patch W q /\ own o = p_id q /\ forall v, nth ipos o [] = [v] -> f_contains fma g box (p_box q) (posv v)) ->
  (forall r P p, nth_error Ps r = Some P -> In p P -> Permutation (order r (fst p)) (seq 0 (length (snd p))) /\ length (mem r (fst p)) = length (snd p)) ->
  owner_ok ipos own (fun r id vals => compute_patch_owner f_leb f_ltb (order r id) (mem r id) st roots (map posv vals)) Ps.
Proof.
  intros obj pos W bs s fma g box rs fuel st roots posv lay ipos pos_ty own Ps order mem HW H HG HB Hne Hin Hn Hf HBu HPos HQ HOr r P p HP Hp _.
  destruct (HOr r P p HP Hp) as [O1 O2].
  assert (SH : Forall (shaped lay) (snd p)). { apply Forall_forall. intros o Ho. destruct (HQ P p o (nth_error_In _ _ HP) Hp Ho); auto. }
  assert (CN : forall (os : list obj_t) i o, Forall (shaped lay) os -> nth_error os i = Some o -> exists v, nth ipos o [] = [v] /\ nth_error (column ipos os) i = Some v).
  { clear - HPos. unfold column. induction os as [|o1 os IH]; intros [|i] o F E; try discriminate; apply Forall_cons_iff in F as [F1 F2]; cbn [nth_error flat_map] in *.
    - injection E as ->. pose proof (Layer_main.shaped_row lay o ipos _ _ F1 HPos) as L. cbn [length] in L. destruct (nth ipos o []) as [|v [|]]; try (cbn [length] in L; lia). exists v. auto.
    - destruct (IH i o F2 E) as (v & A & B). exists v. split; auto. pose proof (Layer_main.shaped_row lay o1 ipos _ _ F1 HPos) as L. destruct (nth ipos o1 []) as [|v1 [|]]; try (cbn [length] in L; lia). exact B. }
  assert (LC : length (column ipos (snd p)) = length (snd p)).
  { clear - SH HPos. unfold column. induction SH as [|o os F1 _ IH]; [reflexivity|]. cbn [flat_map]. rewrite app_length, IH. pose proof (Layer_main.shaped_row lay o ipos _ _ F1 HPos). cbn [length]. lia. }
  destruct (P_SerialTree.C39_owner obj pos W bs s fma g box rs fuel st roots (map posv (column ipos (snd p))) (order r (fst p)) (mem r (fst p))) as (out & E & LO & HV); auto.
  { now rewrite map_length, LC. } { now rewrite map_length, LC. }
  rewrite E. f_equal. apply DDComm_xchg.nth_error_ext. intros i. rewrite nth_error_map. destruct (nth_error (snd p) i) as [o|] eqn:Eo; cbn [option_map].
  - destruct (CN _ _ _ SH Eo) as (v & V1 & V2). destruct (HQ P p o (nth_error_In _ _ HP) Hp (nth_error_In _ _ Eo)) as (_ & q & Q1 & Q2 & -> & Q4).
    destruct (HV i (posv v)) as [HV1 _]; [now rewrite nth_error_map, V2|]. apply HV1; auto.
  - apply nth_error_None. apply nth_error_None in Eo. rewrite LO, map_length, LC. exact Eo.
Qed.

Print Assumptions C44_reattribute.
Print Assumptions C44_total.
Print Assumptions C44_ok_or_throw.
Print Assumptions C44_lost_object.
Print Assumptions C44_conservation.
Print Assumptions C44_idempotent.
Print Assumptions C44_owner_binary64.

(** ** Two ranks, patches 0 and 2 on rank 0, 1 and 3 on rank 1; the layout of C43_nonvacuous; the first byte of an
    object is the patch that it belongs to. *)
Definition ob (b c : Z) : obj_t := [[[b]]; [[c; c]; [c; 7]]]%Z.
Definition ex_own (o : obj_t) : Z := hd 0%Z (hd [] (hd [] o)).
Definition ex_Ps : list (list (Z * list obj_t)) :=
  [[(0%Z, [ob 0 10; ob 1 11; ob 2 12; ob 1 13]); (2%Z, [ob 0 14])]; [(1%Z, []); (3%Z, [ob 0 15; ob 3 16; ob 1 17])]].
Definition ex_all : list (Z * list obj_t) :=
  [(0%Z, [ob 0 10; ob 1 11; ob 2 12; ob 1 13]); (1%Z, []); (2%Z, [ob 0 14]); (3%Z, [ob 0 15; ob 3 16; ob 1 17])].
Definition ex_owner (r : nat) (id : Z) (vals : list (list Z)) : res (list Z) := Ok (map (hd 0%Z) vals).
Definition ex_uorder (r : nat) (c : Z) (l : list (Z * list nat)) := rev l.
Definition ex_EL : lenv (list Z) := fun _ => P_Layer.ex_env [99%Z].
Definition ex_s4 (r i k n : nat) : list nat := rev (seq 0 n).
Definition ex_ds := map (map (fun p : Z * list obj_t => (fst p, P_DDSer.ex_L (snd p)))) ex_Ps.
Notation ex_begin := (reattr_begin P_DDSer.ex_lay 0 0 P_DDSer.ex_tsz ex_owner ex_uorder (fun _ _ _ => ex_EL) (fun _ _ => ex_EL) ex_s4 (fun _ _ _ => 5%Z)
  P_DDSer.ex_rg P_DDSer.ex_sc P_DDSer.ex_junk (fun _ => 1000) 500).
Definition ex_run : res (bool * list (dd (layer (list Z)))) :=
  '(ex, ps, tabs) <- ex_begin ex_ds ;;
  bsend <- comm_fill tabs ps (P_DDSer.ex_caches t_send_sizes tabs) ;;
  s <- xrun tabs bsend P_DDSer.ex_labels (xinit (P_DDSer.ex_caches t_recv_sizes tabs)) ;;
  out <- imapm (fun r te => reattr_end P_DDSer.ex_lay P_DDSer.ex_tsz (fun _ _ _ => ex_EL) ex_s4 (fun _ _ _ => [3%Z]) P_DDSer.ex_rg r P_DDSer.ex_fin 8%Z (fst te) (x_bufs (s r)) (fst (snd te)) (snd (snd te))) (combine tabs ex) ;;
  Ok (finished tabs s, out).
Definition ex_after : list (list (Z * list obj_t)) :=
  [[(0%Z, [ob 0 10; ob 0 14; ob 0 15]); (2%Z, [ob 2 12])]; [(1%Z, [ob 1 11; ob 1 13; ob 1 17]); (3%Z, [ob 3 16])]].
Example C44_nonvacuous : world P_DDSer.ex_tsz P_DDSer.ex_lay P_DDSer.ex_rg ex_Ps ex_all /\ homes P_DDSer.ex_lay ex_own ex_all /\
  owner_ok 0 ex_own ex_owner ex_Ps /\ begin_envs_ok ex_uorder (fun _ _ _ => ex_EL) (fun _ _ => ex_EL) ex_s4 /\
  Forall2 (Forall2 (holds P_DDSer.ex_lay)) ex_Ps ex_ds /\ (forall r i, fair_sched (ex_s4 r i)) /\
  (exists ex ps tabs, ex_begin ex_ds = Ok (ex, ps, tabs)) /\
  ex_run = Ok (true, map (map (fun p : Z * list obj_t => (fst p, P_DDSer.ex_L (snd p)))) ex_after) /\
  map (map (fun p => (fst p, after ex_own ex_all (fst p) (snd p)))) ex_Ps = ex_after /\
  list_sum (map (targets ex_own) ex_all) = 5 /\ leaving ex_own P_DDSer.ex_tsz P_DDSer.ex_lay P_DDSer.ex_rg 1 (hd [] ex_Ps) = 64 /\
  ex_begin [[(0%Z, P_DDSer.ex_L [ob u64_max 0])]] = Throw.
Proof.
  assert (SH : forall b c, shaped P_DDSer.ex_lay (ob b c) /\ otyped P_DDSer.ex_tsz P_DDSer.ex_lay (ob b c)) by (intros; split; repeat constructor).
  assert (FT : forall n, n < 10 -> fits P_DDSer.ex_lay n /\ (Z.of_nat (layer_bytes P_DDSer.ex_tsz P_DDSer.ex_lay n) < 2 ^ 32)%Z).
  { intros n H. do 10 (destruct n as [|n]; [split; [split; [vm_compute; reflexivity|repeat constructor]|vm_compute; reflexivity]|]). lia. }
  split; [|split; [|split; [|split; [|split; [|split; [|split; [|split; [|split; [|split; [|split]]]]]]]]]].
  - constructor.
    + split; [discriminate|]. repeat constructor.
    + reflexivity.
    + split; [|unfold dd_sorted; cbn [map fst ex_all]; repeat constructor]. cbn [ex_Ps concat app]. unfold ex_all. do 1 constructor. apply perm_swap.
    + intros [|[|r]] P E; cbn in E; [| |destruct r; discriminate]; injection E as <-; (split; [unfold dd_sorted; cbn [map fst]|]; repeat constructor).
    + repeat constructor; cbn [fst]; lia.
    + unfold ex_all. repeat (constructor; [cbn [snd]; repeat (constructor; [apply SH|]); constructor|]). constructor.
    + unfold ex_all. repeat (constructor; [cbn [snd]; apply FT; cbn; lia|]). constructor.
  - constructor.
    + unfold ex_all. repeat (constructor; [cbn [snd]; repeat (constructor; [cbn; auto 6|]); constructor|]). constructor.
    + unfold ex_all. repeat (constructor; [apply FT; vm_compute; lia|]). constructor.
    + vm_compute. reflexivity.
  - intros [|[|r]] P p E Hp _; cbn in E; [| |destruct r; discriminate]; injection E as <-; destruct Hp as [<-|[<-|[]]]; reflexivity.
  - split; [intros; apply Permutation_sym, Permutation_rev|]. split; [intros r a b k; apply P_Layer.ex_env_good|]. split; [intros r a k; apply P_Layer.ex_env_good|]. intros r i k n. apply Permutation_sym, Permutation_rev.
  - unfold ex_ds, ex_Ps. repeat (constructor; [repeat (constructor; [split; [reflexivity|split; [cbn [snd]; repeat (constructor; [apply SH|]); constructor|reflexivity]]|]); constructor|]). constructor.
  - intros r i k n. apply Permutation_sym, Permutation_rev.
  - vm_compute. eauto.
  - vm_compute. reflexivity.
  - vm_compute. reflexivity.
  - vm_compute. reflexivity.
  - vm_compute. reflexivity.
  - vm_compute. reflexivity.
Qed.
