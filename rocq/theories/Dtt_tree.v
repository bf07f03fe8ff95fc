(** The dual walk on trees: recursion equation, covering of the pairs of leaves, kinds of the reported pairs. *)
From Verif Require Import Base Karras Karras_spec Traverse_spec.
From Coq Require Import ZifyBool ZifyNat.
Local Open Scope nat_scope.

Definition tpair : Type := tree * tree.
Definition ev : Type := bool * tpair.      (* true: P2P *)
Definition leafb (t : tree) : bool := match t with Leaf _ => true | Node _ _ _ => false end.

(** the pairs visited after (t, u) when it is not accepted; None: it is a P2P pair *)
Definition kids (low : bool) (t u : tree) : option (list tpair) :=
  match t, u with
  | Leaf _, Leaf _ => None
  | Leaf _, Node _ l r => if low then Some [(t, l); (t, r)] else None
  | Node _ l r, Leaf _ => if low then Some [(l, u); (r, u)] else None
  | Node _ l r, Node _ l' r' =>
      if negb low && (leafb l || leafb r || leafb l' || leafb r') then None
      else Some [(l, l'); (r, l'); (l, r'); (r, r')]
  end.
Definition mu (p : tpair) : nat := Nat.max (height (fst p)) (height (snd p)).
(** without lowering only pairs of internal nodes are visited *)
Definition okp (low : bool) (p : tpair) : Prop := low = true \/ (leafb (fst p) = false /\ leafb (snd p) = false).

Lemma kids_mu low t u l p : kids low t u = Some l -> In p l -> mu p < mu (t, u).
Proof.
  destruct t as [k|i a b], u as [k'|i' a' b']; simpl; intros E H; try discriminate.
  - destruct low; [|discriminate]. injection E as <-. destruct H as [<-|[<-|[]]]; unfold mu; cbn [fst snd height]; lia.
  - destruct low; [|discriminate]. injection E as <-. destruct H as [<-|[<-|[]]]; unfold mu; cbn [fst snd height]; lia.
  - destruct (negb low && _); [discriminate|]. injection E as <-.
    destruct H as [<-|[<-|[<-|[<-|[]]]]]; unfold mu; cbn [fst snd height]; lia.
Qed.
Lemma kids_okp low t u l p : kids low t u = Some l -> In p l -> okp low p.
Proof.
  destruct low; [left; reflexivity|]. intros E H. right.
  destruct t as [k|i a b], u as [k'|i' a' b']; simpl in E; try discriminate.
  destruct (leafb a) eqn:E1, (leafb b) eqn:E2, (leafb a') eqn:E3, (leafb b') eqn:E4; simpl in E; try discriminate.
  injection E as <-. destruct H as [<-|[<-|[<-|[<-|[]]]]]; cbn [fst snd]; auto.
Qed.
Lemma self_sub' t : In t (subtrees t). Proof. destruct t; simpl; auto. Qed.
Lemma sub_trans x y z : In x (subtrees y) -> In y (subtrees z) -> In x (subtrees z).
Proof.
  revert x y. induction z as [k|i l IHl r IHr]; intros x y H1 H2.
  - simpl in H2. destruct H2 as [<-|[]]. auto.
  - cbn [subtrees] in H2. destruct H2 as [<-|H2]; auto. cbn [subtrees]. right. apply in_or_app.
    apply in_app_or in H2. destruct H2; [left|right]; eauto.
Qed.
Lemma sub_l i l r : In l (subtrees (Node i l r)). Proof. simpl. right. apply in_or_app. left. apply self_sub'. Qed.
Lemma sub_r i l r : In r (subtrees (Node i l r)). Proof. simpl. right. apply in_or_app. right. apply self_sub'. Qed.
#[export] Hint Resolve self_sub' sub_l sub_r : dtt.
Lemma kids_sub low t u l p : kids low t u = Some l -> In p l -> In (fst p) (subtrees t) /\ In (snd p) (subtrees u).
Proof.
  intros E H. destruct t as [k|i a b], u as [k'|i' a' b']; cbn [kids] in E; try discriminate.
  - destruct low; [|discriminate]. injection E as <-. destruct H as [<-|[<-|[]]]; cbn [fst snd]; auto with dtt.
  - destruct low; [|discriminate]. injection E as <-. destruct H as [<-|[<-|[]]]; cbn [fst snd]; auto with dtt.
  - destruct (negb low && _); [discriminate|]. injection E as <-. destruct H as [<-|[<-|[<-|[<-|[]]]]]; cbn [fst snd]; auto with dtt.
Qed.

Lemma kids_ne low t u : kids low t u <> Some [].
Proof.
  destruct t as [k|i a b], u as [k'|i' a' b']; cbn [kids]; try discriminate; [destruct low; discriminate|destruct low; discriminate|].
  destruct (negb low && _); discriminate.
Qed.
Lemma kids_form low t u L : kids low t u = Some L -> L =
  match t, u with
  | Leaf _, Leaf _ => []
  | Leaf _, Node _ l r => [(t, l); (t, r)]
  | Node _ l r, Leaf _ => [(l, u); (r, u)]
  | Node _ l r, Node _ l' r' => [(l, l'); (r, l'); (l, r'); (r, r')]
  end.
Proof.
  destruct t as [k|i a b], u as [k'|i' a' b']; cbn [kids]; try discriminate; [destruct low; congruence|destruct low; congruence|].
  destruct (negb low && _); congruence.
Qed.
Lemma pair_ind low (P : tpair -> Prop) :
  (forall p, (forall l q, kids low (fst p) (snd p) = Some l -> In q l -> P q) -> P p) -> forall p, P p.
Proof.
  intros H p. remember (mu p) as n. revert p Heqn. induction n as [n IH] using lt_wf_ind. intros p ->.
  apply H. intros l q E Hq. eapply IH; [|reflexivity]. replace p with (fst p, snd p) by (destruct p; reflexivity). eapply kids_mu; eauto.
Qed.

Section Walk.
  Variables (low : bool) (mac : tree -> tree -> bool).
  Fixpoint wk (n : nat) (p : tpair) : list ev :=
    match n with
    | O => []
    | S n =>
        if mac (fst p) (snd p) then [(false, p)]
        else match kids low (fst p) (snd p) with None => [(true, p)] | Some l => flat_map (wk n) l end
    end.
  Lemma flat_map_ext_in {A B} (f g : A -> list B) l : (forall x, In x l -> f x = g x) -> flat_map f l = flat_map g l.
  Proof. induction l as [|x l IH]; simpl; intros H; auto. rewrite (H x), IH; auto. Qed.
  Lemma wk_fuel n m p : mu p < n -> mu p < m -> wk n p = wk m p.
  Proof.
    revert m p. induction n as [|n IH]; intros m p Hn Hm; [lia|]. destruct m as [|m]; [lia|]. cbn [wk].
    destruct (mac _ _); auto. destruct (kids _ _ _) as [l|] eqn:E; auto. apply flat_map_ext_in. intros q Hq.
    assert (mu q < mu p) by (destruct p; eapply kids_mu; eauto). apply IH; lia.
  Qed.
  Definition walk (p : tpair) : list ev := wk (S (mu p)) p.
  Lemma walk_eq p : walk p =
    if mac (fst p) (snd p) then [(false, p)]
    else match kids low (fst p) (snd p) with None => [(true, p)] | Some l => flat_map walk l end.
  Proof.
    unfold walk at 1. cbn [wk]. destruct (mac _ _); auto. destruct (kids _ _ _) as [l|] eqn:E; auto.
    apply flat_map_ext_in. intros q Hq. unfold walk. assert (mu q < mu p) by (destruct p; eapply kids_mu; eauto). apply wk_fuel; lia.
  Qed.

  Lemma walk_sub p e : In e (walk p) -> In (fst (snd e)) (subtrees (fst p)) /\ In (snd (snd e)) (subtrees (snd p)).
  Proof.
    revert e. pattern p; apply (pair_ind low); clear p; intros p IH; cbv beta in *. intros e H. rewrite walk_eq in H.
    destruct (mac _ _); [destruct H as [<-|[]]; auto with dtt|]. destruct (kids _ _ _) as [l|] eqn:E; [|destruct H as [<-|[]]; auto with dtt].
    apply in_flat_map in H. destruct H as (q & Hq & He). destruct (IH l q eq_refl Hq e He) as [H1 H2].
    destruct (kids_sub _ _ _ _ _ E Hq). split; eapply sub_trans; eauto.
  Qed.
  Lemma walk_kind p e : okp low p -> In e (walk p) ->
    okp low (snd e) /\ mac (fst (snd e)) (snd (snd e)) = negb (fst e) /\ (fst e = true -> kids low (fst (snd e)) (snd (snd e)) = None).
  Proof.
    revert e. pattern p; apply (pair_ind low); clear p; intros p IH; cbv beta in *. intros e OK H. rewrite walk_eq in H.
    destruct (mac _ _) eqn:M; [destruct H as [<-|[]]; cbn [fst snd]; repeat split; auto; discriminate|].
    destruct (kids _ _ _) as [l|] eqn:E; [|destruct H as [<-|[]]; cbn [fst snd]; auto].
    apply in_flat_map in H. destruct H as (q & Hq & He). apply (IH l q eq_refl Hq e); auto. eapply kids_okp; eauto.
  Qed.
  Lemma walk_nonempty p : walk p <> [].
  Proof.
    pattern p; apply (pair_ind low); clear p; intros p IH; cbv beta in *. rewrite walk_eq. destruct (mac _ _); [discriminate|].
    destruct (kids _ _ _) as [l|] eqn:E; [|discriminate]. destruct l as [|q l].
    - now apply kids_ne in E.
    - cbn [flat_map]. specialize (IH _ q eq_refl (or_introl eq_refl)). destruct (walk q); [congruence|discriminate].
  Qed.

  (** covering *)
  Definition mem (k : nat) (t : tree) : bool := existsb (Nat.eqb k) (leaves t).
  Lemma mem_in k t : mem k t = true <-> In k (leaves t).
  Proof. unfold mem. rewrite existsb_exists. split; [intros (x & H & E); apply Nat.eqb_eq in E; now subst|]. intros H. exists k. split; auto. apply Nat.eqb_refl. Qed.
  Definition b2n (b : bool) : nat := if b then 1 else 0.
  Lemma mem_node k i l r : NoDup (leaves (Node i l r)) -> b2n (mem k (Node i l r)) = b2n (mem k l) + b2n (mem k r).
  Proof.
    intros ND. unfold mem. cbn [leaves]. rewrite existsb_app.
    destruct (existsb (Nat.eqb k) (leaves l)) eqn:E1, (existsb (Nat.eqb k) (leaves r)) eqn:E2; simpl; auto. exfalso.
    change (mem k l = true) in E1. change (mem k r = true) in E2. apply mem_in in E1. apply mem_in in E2. cbn [leaves] in ND.
    clear - ND E1 E2. induction (leaves l) as [|x s IH]; [destruct E1|]. inversion ND; subst. destruct E1 as [->|E1]; auto. apply H1. apply in_or_app; auto.
  Qed.
  Lemma ND_node i l r : NoDup (leaves (Node i l r)) -> NoDup (leaves l) /\ NoDup (leaves r).
  Proof.
    cbn [leaves]. intros ND. split.
    - induction (leaves l) as [|x s IH]; constructor; inversion ND; subst; auto. intros X. apply H1. apply in_or_app; auto.
    - induction (leaves l) as [|x s IH]; auto. apply IH. now inversion ND.
  Qed.
  Lemma ND_sub x t : NoDup (leaves t) -> In x (subtrees t) -> NoDup (leaves x).
  Proof.
    induction t as [k|i l IHl r IHr]; intros ND H.
    - simpl in H. destruct H as [<-|[]]. auto.
    - cbn [subtrees] in H. destruct H as [<-|H]; auto. destruct (ND_node _ _ _ ND). apply in_app_or in H. destruct H; auto.
  Qed.
  Definition hit (k l : nat) (e : ev) : bool := mem k (fst (snd e)) && mem l (snd (snd e)).
  Definition hits (k l : nat) (L : list ev) : nat := length (filter (hit k l) L).
  Lemma hits_app k l a b : hits k l (a ++ b) = hits k l a + hits k l b.
  Proof. unfold hits. rewrite filter_app, app_length. reflexivity. Qed.
  Lemma walk_cover k l p : NoDup (leaves (fst p)) -> NoDup (leaves (snd p)) ->
    hits k l (walk p) = b2n (mem k (fst p)) * b2n (mem l (snd p)).
  Proof.
    pattern p; apply (pair_ind low); clear p; intros p IH; cbv beta in *. intros N1 N2. rewrite walk_eq.
    assert (ONE : forall b, hits k l [(b, p)] = b2n (mem k (fst p)) * b2n (mem l (snd p))).
    { intros b. unfold hits, hit. cbn [filter fst snd]. destruct (mem k (fst p)), (mem l (snd p)); reflexivity. }
    destruct (mac _ _); auto. destruct p as [t u]. cbn [fst snd] in *.
    destruct (kids low t u) as [L|] eqn:E; auto.
    assert (ND : forall q, In q L -> NoDup (leaves (fst q)) /\ NoDup (leaves (snd q))).
    { intros q Hq. destruct (kids_sub _ _ _ _ _ E Hq) as [S1 S2]. split; [exact (ND_sub _ _ N1 S1)|exact (ND_sub _ _ N2 S2)]. }
    assert (IH' : forall q, In q L -> hits k l (walk q) = b2n (mem k (fst q)) * b2n (mem l (snd q))).
    { intros q Hq. destruct (ND q Hq) as [D1 D2]. exact (IH L q eq_refl Hq D1 D2). }
    clear IH ONE ND. pose proof (kids_form _ _ _ _ E) as F. destruct t as [x|i a b], u as [x'|i' a' b'].
    - discriminate E.
    - rewrite F in *. cbn [flat_map]. rewrite !hits_app. change (hits k l []) with 0.
      rewrite !IH' by (simpl; auto). cbn [fst snd]. rewrite (mem_node l i' a' b' N2). lia.
    - rewrite F in *. cbn [flat_map]. rewrite !hits_app. change (hits k l []) with 0.
      rewrite !IH' by (simpl; auto). cbn [fst snd]. rewrite (mem_node k i a b N1). lia.
    - rewrite F in *. cbn [flat_map]. rewrite !hits_app. change (hits k l []) with 0.
      rewrite !IH' by (simpl; auto). cbn [fst snd]. rewrite (mem_node k i a b N1), (mem_node l i' a' b' N2). lia.
  Qed.
End Walk.

Definition swap {A B} (p : A * B) : B * A := (snd p, fst p).
Definition eswap (e : ev) : ev := (fst e, swap (snd e)).
Lemma kids_swap low t u : match kids low t u, kids low u t with
  | Some l, Some l' => Permutation l' (map swap l) | None, None => True | _, _ => False end.
Proof.
  destruct t as [x|i a b], u as [x'|i' a' b']; cbn [kids]; auto.
  - destruct low; [reflexivity|exact I].
  - destruct low; [reflexivity|exact I].
  - replace (leafb a' || leafb b' || leafb a || leafb b) with (leafb a || leafb b || leafb a' || leafb b') by (destruct (leafb a), (leafb b), (leafb a'), (leafb b'); reflexivity).
    destruct (negb low && _); auto. cbn [map swap fst snd]. unfold swap. cbn [fst snd].
    apply perm_skip. apply perm_swap.
Qed.
Lemma walk_swap low mac p : (forall t u, mac t u = mac u t) -> Permutation (map eswap (walk low mac p)) (walk low mac (swap p)).
Proof.
  intros SY. pattern p; apply (pair_ind low); clear p; intros p IH; cbv beta in *. rewrite (walk_eq low mac p), (walk_eq low mac (swap p)). cbn [swap fst snd].
  rewrite (SY (snd p) (fst p)). destruct (mac (fst p) (snd p)); [reflexivity|].
  pose proof (kids_swap low (fst p) (snd p)) as K.
  destruct (kids low (fst p) (snd p)) as [l|] eqn:E, (kids low (snd p) (fst p)) as [l'|] eqn:E'; try (exfalso; exact K); [|reflexivity].
  rewrite (Permutation_flat_map (walk low mac) K).
  clear - IH. assert (IH' : forall q, In q l -> Permutation (map eswap (walk low mac q)) (walk low mac (swap q))) by (intros; eapply IH; eauto). clear IH.
  induction l as [|q l IHl]; [reflexivity|]. cbn [flat_map map]. rewrite map_app. apply Permutation_app; [apply IH'; simpl; auto|]. apply IHl. intros; apply IH'; simpl; auto.
Qed.
