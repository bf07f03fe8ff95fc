(** Layers: appending subsets and inserting, in terms of objects. *)
From Verif Require Import Base Par Scan Scan_spec Reduction Layer Layer_spec Layer_proofs Layer_fields Layer_main Layer_extra
  Patch Domain PatchData PatchData_spec.
From Coq Require Import ZifyBool ZifyNat.
Local Open Scope nat_scope.

Lemma fits_le lay n m : n <= m -> fits lay m -> fits lay n.
Proof.
  intros H (F1 & F2). split. lia. eapply Forall_impl; [|apply F2]. cbn. intros a Ha. nia.
Qed.

Section L.
Context {A : Type}.
Implicit Types (os ps : list (object A)) (L M : layer A).

Lemma stores_fun lay os L L' : stores lay os L -> stores lay os L' -> L = L'.
Proof. intros (_ & ->) (_ & ->). reflexivity. Qed.

Lemma append_one E lay os ps L M ids : good_envs E -> good_layout lay -> fits lay (length os) ->
  fits lay (length ps + length ids) -> stores lay os L -> stores lay ps M -> valid_ids os ids ->
  exists M', l_append_subset_to E ids L M = Ret (L, M') /\ stores lay (ps ++ pick os ids) M'.
Proof.
  intros HE HG HF HF2 HL HM HV.
  destruct (op_sim (AppendSubset E 0 1 ids) [(lay, os); (lay, ps)] [L; M]) as [(s' & S' & R & Sp & Sm)|(S' & R & Sp & Sm)].
  - constructor; [|constructor; [|constructor]]; cbn; repeat split; auto.
    all: try apply HG; try apply HF; try apply HL; try apply HM.
    all: apply (fits_le _ (length ps) _ (Nat.le_add_r _ _) HF2).
  - cbn. split. lia. split; auto. exists lay, os, ps. repeat split; auto; apply HF2.
  - cbn [run_op] in R. unfold on_layers in R. cbn [nth_error Nat.eqb] in R.
    destruct (l_append_subset_to E ids L M) as [[L' M']|[? ?]|]; try discriminate. injection R as <-.
    inversion Sp as [ | | | | | | | | | | |? ? ? ? ? lay1 os1 ps1 L0 L1| | ]; subst. injection L0 as <- <-. injection L1 as <-.
    cbn in Sm. inversion Sm as [|? ? ? ? (_ & _ & S1) Sm']; subst. inversion Sm' as [|? ? ? ? (_ & _ & S2) _]; subst. cbn [fst snd] in *.
    exists M'. split; auto. now rewrite (stores_fun _ _ _ _ HL S1).
  - inversion Sp.
Qed.
Lemma insert_one E lay os ps L M : good_envs E -> good_layout lay ->
  fits lay (length ps + length os) -> stores lay os L -> stores lay ps M ->
  exists M', l_insert E M L = Ret (M', L) /\ stores lay (ps ++ os) M'.
Proof.
  intros HE HG HF2 HL HM.
  assert (HF : fits lay (length os)) by (eapply fits_le; [|apply HF2]; lia).
  assert (HF' : fits lay (length ps)) by (eapply fits_le; [|apply HF2]; lia).
  destruct (op_sim (Insert E 0 1) [(lay, ps); (lay, os)] [M; L]) as [(s' & S' & R & Sp & Sm)|(S' & R & Sp & Sm)].
  - constructor; [|constructor; [|constructor]]; cbn; auto.
  - cbn. split; auto. exists lay, ps, os. repeat split; auto; apply HF2.
  - cbn [run_op] in R. unfold self_throws, on_layers in R. cbn [nth_error Nat.eqb] in R.
    destruct (l_insert E M L) as [[M' L']|[? ?]|]; try discriminate. injection R as <-.
    inversion Sp as [ | | | | | | |? ? ? ? lay1 os1 ps1 L0 L1 _| | | | | | ]; subst. injection L0 as <- <-. injection L1 as <-.
    cbn in Sm. inversion Sm as [|? ? ? ? (_ & _ & S1) Sm']; subst. inversion Sm' as [|? ? ? ? (_ & _ & S2) _]; subst. cbn [fst snd] in *.
    exists M'. split; auto. now rewrite (stores_fun _ _ _ _ HL S2).
  - inversion Sp; discriminate.
Qed.

Lemma fresh_stores lay : stores lay [] (fresh (A := A) lay).
Proof.
  split; [constructor|]. unfold fresh. generalize 0. induction lay as [|[ty nv] lay IH]; intros k; [reflexivity|].
  cbn [length seq combine map]. rewrite <- IH. reflexivity.
Qed.

Lemma append_all_ok E lay os L : (forall k, good_envs (E k)) -> good_layout lay -> fits lay (length os) -> stores lay os L ->
  forall ids k (pds : list (layer A)), length pds = length ids -> Forall (stores lay []) pds ->
    Forall (fun i => valid_ids os i /\ fits lay (length i)) ids ->
  exists r, append_all E k L ids pds = Ret r /\ Forall2 (fun i M => stores lay (pick os i) M) ids r.
Proof.
  intros HE HG HF HS. induction ids as [|i ids IH]; intros k [|M pds] Hl HP HI; try discriminate.
  - exists []. split; auto.
  - inversion HP; inversion HI as [|? ? (V & F)]; subst. cbn [append_all].
    destruct (append_one (E k) lay os [] L M i) as (M' & R & S'); auto. rewrite R. cbn [app] in S'.
    destruct (IH (S k) pds) as (r & R2 & S2); auto. rewrite R2. exists (M' :: r). split; auto.
Qed.
Lemma insert_all_ok E lay : (forall k, good_envs (E k)) -> good_layout lay ->
  forall oss Ls k ps M, Forall2 (stores lay) oss Ls -> stores lay ps M -> fits lay (length (ps ++ concat oss)) ->
  exists M', insert_all E k M Ls = Ret M' /\ stores lay (ps ++ concat oss) M'.
Proof.
  intros HE HG oss Ls k ps M H. revert k ps M. induction H as [|os L oss Ls HL H IH]; intros k ps M HM HF; cbn [insert_all concat].
  - exists M. rewrite app_nil_r. auto.
  - destruct (insert_one (E k) lay os ps L M) as (M' & R & S'); auto.
    { eapply fits_le; [|apply HF]. cbn [concat]. rewrite !app_length. lia. }
    rewrite R. cbn [concat] in HF. rewrite app_assoc in HF |- *. apply (IH (S k) _ _ S' HF).
Qed.

(** Selecting. *)
Definition mainb (cond : A -> bool) (o : object A) : bool := match o with (v :: _) :: _ => cond v | _ => false end.
Lemma pick_filter {X} (f : X -> bool) (l : list X) :
  pick l (filter (fun i => match nth_error l i with Some x => f x | None => false end) (seq 0 (length l))) = filter f l.
Proof.
  assert (G : forall pre l, pick (pre ++ l) (filter (fun i => match nth_error (pre ++ l) i with Some x => f x | None => false end)
     (seq (length pre) (length l))) = filter f l).
  { clear l. intros pre l. revert pre. induction l as [|x l IH]; intros pre; [reflexivity|].
    cbn [length seq filter]. rewrite nth_error_app2, Nat.sub_diag by lia. cbn [nth_error].
    specialize (IH (pre ++ [x])). rewrite <- app_assoc in IH. cbn [app] in IH. rewrite app_length in IH. cbn [length] in IH.
    rewrite Nat.add_1_r in IH. destruct (f x); [|apply IH].
    unfold pick in *. cbn [flat_map]. rewrite nth_error_app2, Nat.sub_diag by lia. cbn [nth_error app]. now rewrite IH. }
  apply (G [] l).
Qed.
Lemma where_rows (cond : A -> bool) os : where_ids cond (rows 0 os) =
  filter (fun i => match nth_error os i with Some o => mainb cond o | None => false end) (seq 0 (length os)).
Proof.
  unfold where_ids. rewrite rows_length. apply filter_ext. intros i. unfold rows, object in *. rewrite nth_error_map.
  destruct (nth_error os i) as [o|]; cbn; auto. destruct o as [|[|v r] o]; reflexivity.
Qed.
Lemma pick_where cond os : pick os (where_ids cond (rows 0 os)) = filter (mainb cond) os.
Proof. rewrite where_rows. apply pick_filter. Qed.
Lemma where_valid cond os : valid_ids os (where_ids cond (rows 0 os)).
Proof. rewrite where_rows. apply Forall_forall. intros i Hi. apply filter_In in Hi as (Hi & _). apply in_seq in Hi. lia. Qed.
Lemma pick_length {X} (l : list X) ids : Forall (fun i => i < length l) ids -> length (pick l ids) = length ids.
Proof.
  induction 1 as [|i ids Hi H IH]; [reflexivity|]. unfold pick in *. cbn [flat_map]. rewrite app_length.
  destruct (nth_error l i) eqn:E; [|apply nth_error_None in E; lia]. cbn. lia.
Qed.
Lemma filter_length_le {X} (f : X -> bool) l : length (filter f l) <= length l.
Proof. induction l; cbn; [lia|]. destruct (f a); cbn; lia. Qed.
End L.
