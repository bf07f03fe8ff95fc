(** C36: a PatchDataLayer is a list of whole objects. *)
From Verif Require Import Base Par Scan Scan_spec Scan_proofs Reduction Layer Layer_spec Layer_proofs Layer_fields Layer_main Layer_extra.
From Coq Require Import ZifyBool ZifyNat.
Local Open Scope nat_scope.

(** Every history of calls on any number of layers, with arguments in range, runs without undefined
    behaviour and does what the same calls do on lists of objects; an exception changes nothing; the
    fields of a layer always have the same number of objects. *)
Theorem C36_layers_are_object_lists {A} (cs : list (lop A)) (s : list (slayer A)) (S : list (layer A)) :
  same_layers s S -> args_ok cs s ->
  exists q l Q, run cs S = Ok (Q, l) /\ spec_run cs s q l /\ same_layers q Q /\
    forall h lay os, live q h lay os ->
      exists L, nth_error Q h = Some L /\ stores lay os L /\
        l_get_obj_cnt L = Ok (length os) /\ l_check_obj_cnt L = Ok tt.
Proof.
  intros HR Ha. destruct (run_sim cs s S HR Ha) as (q & l & Q & E & Hq & HQ).
  exists q, l, Q. split; auto. split; auto. split; auto. intros h lay os Hl.
  destruct (same_live _ _ _ _ _ HQ Hl) as (Hg & Hf & Hs & N). eexists. split; [exact N|]. split; [split; auto|].
  assert (C : forall f, In f (colayer 0 lay (fun k => column k os)) -> get_obj_cnt f = Ok (length os)).
  { intros f Hf'. apply in_map_iff in Hf' as ([k [ty nv]] & <- & Hk).
    assert (Nk : nth_error lay k = Some (ty, nv)).
    { clear - Hk. assert (G : forall s0 l k, In (k, (ty, nv)) (combine (seq s0 (length l)) l) -> s0 <= k /\ nth_error l (k - s0) = Some (ty, nv)).
      { intros s0 l. revert s0. induction l as [|d l IH]; intros s0 k0 H; simpl in H. tauto. destruct H as [H|H].
        - injection H as -> ->. rewrite Nat.sub_diag. auto.
        - apply IH in H as (H1 & H2). split; [lia|]. replace (k0 - s0) with (1 + (k0 - 1 - s0)) by lia. simpl.
          rewrite <- H2. f_equal. lia. }
      apply G in Hk as (_ & Hk). rewrite Nat.sub_0_r in Hk. auto. }
    rewrite column_rows, obj_cnt_ok. now rewrite rows_length. eapply rows_ok; eauto. }
  assert (E0 : l_get_obj_cnt (colayer 0 lay (fun k => column k os)) = Ok (length os)).
  { destruct lay as [|[ty nv] lay]; [destruct Hg; congruence|]. apply C. left. reflexivity. }
  split; auto. unfold l_check_obj_cnt. rewrite E0. cbn [rbind]. revert C. generalize (colayer 0 lay (fun k => column k os)).
  clear. intros L. induction L as [|f L IH]; intros C; auto. cbn [rfold]. rewrite (C f) by (left; auto). cbn [rbind].
  rewrite Nat.eqb_refl. cbn [rbind]. apply IH. intros g Hg. apply C. right. auto.
Qed.

(** Selecting objects by a condition on the first value of a field: host and device versions both
    return exactly the numbers of the objects that satisfy it, in increasing order. *)
Theorem C36_selection {A} (e : env A) (cond : A -> bool) (lay : layout) (os : list (object A)) (L : layer A) k f :
  good_env e -> good_layout lay -> fits lay (length os) -> stores lay os L -> nth_error L k = Some f ->
  exists ids, get_ids_vec_where cond f = Ok ids /\ get_ids_where e cond f = Ok ids /\
    StronglySorted lt ids /\
    forall i, In i ids <-> exists o x t, nth_error os i = Some o /\ nth k o [] = x :: t /\ cond x = true.
Proof.
  intros He Hg Hf (Hs & ->) N.
  assert (HN : exists ty nv, nth_error lay k = Some (ty, nv) /\ f = Field ty nv (column k os)).
  { rewrite nth_error_map in N. destruct (nth_error (combine (seq 0 (length lay)) lay) k) as [[k' [ty nv]]|] eqn:C; [|discriminate].
    injection N as <-. clear - C.
    assert (G : forall l s0 k, nth_error (combine (seq s0 (length l)) l) k = Some (k', (ty, nv)) -> k' = s0 + k /\ nth_error l k = Some (ty, nv)).
    { induction l as [|d l IH]; intros s0 [|k0] H; simpl in H; try discriminate.
      - injection H as -> ->. simpl. split; auto.
      - apply IH in H as (-> & H). simpl. split; auto. }
    apply G in C as (-> & C). simpl. eauto. }
  destruct HN as (ty & nv & NL & ->). pose proof (rows_ok _ _ _ _ _ Hg Hf Hs NL) as Hr.
  exists (where_ids cond (rows k os)). rewrite column_rows. split; [apply vec_where_ok; auto|]. split; [apply where_ok; auto|].
  split.
  - unfold where_ids. assert (G : forall (f : nat -> bool) n s0, StronglySorted lt (filter f (seq s0 n))).
    { intros f0. induction n as [|n IH]; intros s0; simpl. constructor. destruct (f0 s0); auto. constructor; auto.
      apply Forall_forall. intros x Hx. apply filter_In in Hx as (Hx & _). apply in_seq in Hx. lia. }
    apply G.
  - intros i. unfold where_ids. rewrite filter_In, in_seq, rows_length. unfold rows. rewrite nth_error_map. split.
    + intros (Hi & H). unfold object in *. destruct (nth_error os i) as [o|] eqn:No; cbn in H; [|discriminate H].
      destruct (nth k o []) as [|x t] eqn:Ex; cbn in H; [discriminate H|]. exists o, x, t. auto.
    + intros (o & x & t & No & Ex & Hc). unfold object in *. rewrite No. simpl. rewrite Ex. simpl. split; auto.
      assert (i < length os) by (apply nth_error_Some; congruence). lia.
Qed.

(** permut_vars moves variable v of every object to position permut[v], and nothing else. *)
Theorem C36_permut_vars {A} (e : env A) permut ty nv (rs : list (list A)) :
  good_env e -> 0 < nv -> Forall (fun r => length r = nv) rs -> rs <> [] ->
  (Z.of_nat (length rs * nv) < 2 ^ 32)%Z -> Permutation permut (seq 0 nv) ->
  exists rs', permut_vars e permut (Field ty nv (concat rs)) = Ok (Field ty nv (concat rs')) /\
    Forall2 (fun r r' => length r' = length r /\
               forall v w, nth_error permut v = Some w -> nth_error r' w = nth_error r v) rs rs'.
Proof. intros He H0 HU Hne HB HP. apply permut_ok; auto. split; auto. Qed.

(** ... but it throws on a field without objects (kernel_call refuses an empty range). *)
Theorem C36_permut_vars_empty_refuted {A} (e : env A) permut ty :
  permut_vars e permut (Field ty (length permut) []) = Throw.
Proof. unfold permut_vars. cbn [f_nvar f_buf]. rewrite Nat.eqb_refl. reflexivity. Qed.

(** Single elements of fields with one variable per object. *)
Theorem C36_insert_element {A} (e : env A) v ty (b : list A) : (Z.of_nat (length b) + 1 < 2 ^ 32)%Z ->
  insert_element e v (Field ty 1 b) = Ok (Field ty 1 (b ++ [v])).
Proof. apply insert_element_ok. Qed.
Theorem C36_extract_element {A} (e e' : env A) p ty ty' (b c : list A) v : nth_error b p = Some v ->
  (Z.of_nat (length b) < 2 ^ 32)%Z -> (Z.of_nat (length c) + 1 < 2 ^ 32)%Z ->
  exists b', extract_element e e' p (Field ty 1 b) (Field ty' 1 c) = Ret (Field ty 1 b', Field ty' 1 (c ++ [v])) /\
    Permutation (v :: b') b.
Proof. apply extract_element_ok. Qed.

(** extract_element is wrong for more than one variable per object: extracting the object (1,2) from
    [(1,2); (3,4)] leaves (4,4): the value 3 is lost. *)
Theorem C36_extract_element_vector_refuted (e e' : env nat) :
  exists c, extract_element e e' 0 (Field 0 2 [1; 2; 3; 4]) (Field 0 2 []) = Ret (Field 0 2 [4; 4], Field 0 2 c) /\
    c = [1; 2].
Proof. exists [1; 2]. split; reflexivity. Qed.

(** extract_elements with a repeated number throws, but only after the first field of the destination
    has grown: the caller is left with a layer whose fields disagree. *)
Definition ex_env {A} (a : A) : env A :=
  {| v_mem := fun _ => a; v_order := seq 0;
     v_compact := {| ce_scan := fun l n => exclusive_sum_fallback (repeat 9%Z n) l n; ce_order := seq 0; ce_garbage := repeat 5 |} |}.
Theorem C36_extract_duplicates_refuted :
  exists L M L' M' : layer nat,
    l_check_obj_cnt L = Ok tt /\ l_check_obj_cnt M = Ok tt /\
    l_extract_elements (fun _ => ex_env 0) (fun _ => ex_env 0) [0; 0] L M = Raise (L', M') /\
    l_check_obj_cnt M' = Throw.
Proof.
  exists [Field 0 1 [1; 2; 3]; Field 1 1 [11; 12; 13]], [Field 0 1 []; Field 1 1 []].
  do 2 eexists. split; [reflexivity|]. split; [reflexivity|]. split; [vm_compute; reflexivity|]. vm_compute. reflexivity.
Qed.

(** expand adds in u32: adding 2^32 - 1 objects to 2 objects leaves 1 object, without an exception. *)
Theorem C36_expand_wraparound_refuted {A} (e : env A) ty x y :
  exists n, 0 < n /\ expand e n (Field ty 1 [x; y]) = Ok (Field ty 1 [x]).
Proof.
  exists (Z.to_nat (2 ^ 32 - 1)). split; [lia|]. unfold expand.
  change (get_obj_cnt (Field ty 1 [x; y])) with (@Ok nat 2). cbn [rbind]. unfold w32n.
  replace (Z.of_nat (2 + Z.to_nat (2 ^ 32 - 1))) with (2 ^ 32 + 1)%Z by lia. reflexivity.
Qed.

(** Non-vacuity: two layers with a scalar field and a field of pairs. *)
Definition ex_lay : layout := [(0, 1); (1, 2)].
Definition obj3 (x y z : nat) : object nat := [[x]; [y; z]].
Definition ex_spec : list (slayer nat) := [(ex_lay, [obj3 1 10 11; obj3 2 20 21; obj3 3 30 31]); (ex_lay, [])].
Definition ex_store : list (layer nat) :=
  [[Field 0 1 [1; 2; 3]; Field 1 2 [10; 11; 20; 21; 30; 31]]; [Field 0 1 []; Field 1 2 []]].
Definition ex_E : lenv nat := fun _ => ex_env 7.
Definition ex_hist : list (lop nat) :=
  [AppendSubset ex_E 0 1 [2; 0]; RemoveIds ex_E 0 [1; 1]; Extract ex_E ex_E 0 1 [1]; IndexRemap ex_E 1 [2; 0; 1];
   Insert ex_E 0 1; KeepIds ex_E 0 [2; 0; 3]; Overwrite ex_E 1 0 2; RemoveIds ex_E 0 [1]; Insert ex_E 1 1].

Lemma ex_env_good {A} (a : A) : good_env (ex_env a).
Proof.
  split; [|split; [|split]]; cbn -[exclusive_sum_fallback]; intros; auto; try apply repeat_length.
  unfold exclusive_sum_fallback. rewrite excl_loop by (rewrite ?firstn_length, ?repeat_length; lia).
  cbn [rmap snd]. rewrite skipn_all2 by (rewrite firstn_length, repeat_length; lia). now rewrite app_nil_r.
Qed.
Lemma ex_good : good_layout ex_lay.
Proof. split; [discriminate|]. repeat constructor. Qed.
Lemma ex_fits n : (Z.of_nat n < 100)%Z -> fits ex_lay n.
Proof. intros H. split; [lia|]. repeat constructor; cbn [snd]; lia. Qed.

Ltac known := repeat match goal with
  | H : live _ _ ?l ?a |- _ => is_var a; unfold live in H; cbn in H; injection H; intros; subst; clear H
  | H : live _ _ _ _ |- _ => clear H
  end.
Ltac valid := repeat constructor.
Tactic Notation "next" tactic3(arg) "by" tactic3(ex) :=
  constructor; [ arg | intros ? Hs; inversion Hs; subst; clear Hs; known; cbn
               | intros Hs; exfalso; inversion Hs; subst; clear Hs; known; ex ].
Tactic Notation "next_throw" tactic3(arg) "by" tactic3(ex) :=
  constructor; [ arg | intros ? Hs; exfalso; inversion Hs; subst; clear Hs; known; ex | intros _ ].
Ltac nodup := repeat (constructor; [simpl; intuition lia|]); constructor.

Example C36_nonvacuous :
  same_layers ex_spec ex_store /\ args_ok ex_hist ex_spec /\
  run ex_hist ex_store = Ok (
    [[Field 0 1 [2; 3]; Field 1 2 [20; 21; 30; 31]];
     [Field 0 1 [2; 1; 1]; Field 1 2 [20; 21; 10; 11; 10; 11]]],
    [true; false; true; true; true; true; true; true; false]).
Proof.
  assert (HE : good_envs ex_E) by (intros k; apply ex_env_good).
  split; [|split].
  - constructor; [|constructor; [|constructor]]; (split; [apply ex_good|split; [apply ex_fits; cbn; lia|]]);
    (split; [repeat constructor|reflexivity]).
  - unfold ex_hist.
    next (split; [discriminate|]; split; auto; do 3 eexists; split; [reflexivity|]; split; [reflexivity|];
          split; [valid|apply ex_fits; cbn; lia]) by idtac.
    next_throw (split; auto; do 2 eexists; split; [reflexivity|]; valid)
      by (idtac; match goal with H : NoDup [1; 1] |- _ => inversion H; subst; simpl in *; tauto end).
    next (split; auto; split; auto; do 3 eexists; split; [reflexivity|]; split; [reflexivity|];
          split; [valid|]; split; [nodup|]; split; [cbn; lia|apply ex_fits; cbn; lia]) by idtac.
    next (split; auto; do 2 eexists; split; [reflexivity|]; valid) by (cbn in *; congruence).
    next (split; auto; do 3 eexists; split; [reflexivity|]; split; [reflexivity|]; apply ex_fits; cbn; lia) by idtac.
    next (split; auto; do 2 eexists; split; [reflexivity|]; split; [valid|apply ex_fits; cbn; lia]) by idtac.
    next (split; [discriminate|]; split; auto; do 3 eexists; split; [reflexivity|]; split; [reflexivity|]; apply ex_fits; cbn; lia)
      by (cbn in *; lia).
    next (split; auto; do 2 eexists; split; [reflexivity|]; valid)
      by (idtac; match goal with H : _ \/ _ |- _ => destruct H as [H|H]; [apply H; nodup|cbn in H; lia] end).
    next_throw (split; auto; do 3 eexists; split; [reflexivity|]; split; [reflexivity|]; apply ex_fits; cbn; lia) by congruence.
    constructor. all: try discriminate. all: match goal with H : _ \/ _ |- _ => cbn in H; lia end.
  - vm_compute. reflexivity.
Qed.

Print Assumptions C36_layers_are_object_lists.
Print Assumptions C36_selection.
Print Assumptions C36_permut_vars.
Print Assumptions C36_permut_vars_empty_refuted.
Print Assumptions C36_insert_element.
Print Assumptions C36_extract_element.
Print Assumptions C36_extract_element_vector_refuted.
Print Assumptions C36_extract_duplicates_refuted.
Print Assumptions C36_expand_wraparound_refuted.
Print Assumptions C36_nonvacuous.
