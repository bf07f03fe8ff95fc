(** make_patch_tree_field: every node gets the reduction of the values of the patches below it, for every
    interleaving of the work items. *)
From Verif Require Import Base Par Patch Patch_spec Patch_proofs PatchTree PatchTree_spec Domain SerialTree SerialTree_spec SerialTree_proofs
  SerialTree_build SerialTree_leafs.
From Coq Require Import ZifyBool ZifyNat.
Local Open Scope Z_scope.

(** The value of node [x]: that of its patch if it is a leaf, the reduction of the values of its children, in
    order, otherwise. *)
Inductive node_value {T} (t : ptree) (get : Z -> res T) (reducer : list T -> T) : Z -> T -> Prop :=
| NV_leaf : forall x n id v, t_map t x = Some n -> n_leaf n = true -> n_linked n = Some id -> get id = Ok v ->
    node_value t get reducer x v
| NV_inner : forall x n vs, t_map t x = Some n -> n_leaf n = false -> Forall2 (node_value t get reducer) (n_childs n) vs ->
    node_value t get reducer x (reducer vs).

Lemma F2_intro {A B} (R : A -> B -> Prop) : forall l1 l2, length l1 = length l2 ->
  (forall k a b, nth_error l1 k = Some a -> nth_error l2 k = Some b -> R a b) -> Forall2 R l1 l2.
Proof.
  induction l1 as [|a l1 IH]; intros [|b l2] HL H; try discriminate; constructor.
  - exact (H 0%nat a b eq_refl eq_refl).
  - apply IH; [now inversion HL|]. intros k. exact (H (S k)).
Qed.
Lemma F2_nth1 {A B} (R : A -> B -> Prop) l1 l2 : Forall2 R l1 l2 -> forall k a, nth_error l1 k = Some a ->
  exists b, nth_error l2 k = Some b /\ R a b.
Proof. induction 1; intros [|k] z Hz; try discriminate; cbn in *; [injection Hz as <-; eauto|auto]. Qed.

Lemma nth_lt {A} (l : list A) i x : nth_error l i = Some x -> (i < length l)%nat.
Proof. intros H. apply nth_error_Some. congruence. Qed.
Lemma F2_length {A B} (R : A -> B -> Prop) l1 l2 : Forall2 R l1 l2 -> length l1 = length l2.
Proof. induction 1; cbn; auto. Qed.

Section K.
Context {C T : Type}.
Variable reducer : list T -> T.
Variable s : sstate C.
Notation N := (length (ss_tree s)).
Variables (kids : nat -> option (list nat)) (rk : nat -> nat) (val : nat -> T -> Prop).
(** The arrays hold a tree: [kids i] are the indices of the children. *)
Hypothesis Harr : forall i, (i < N)%nat -> exists m, nth_error (ss_tree s) i = Some m /\
  match kids i with
  | None => nth_error (sn_childs m) 0 = Some u64_max
  | Some cs => length cs = 8%nat /\ sn_childs m = map Z.of_nat cs /\ (exists c0, nth_error (sn_childs m) 0 = Some c0 /\ c0 <> u64_max) /\
               Forall (fun c => c < N /\ rk c < rk i)%nat cs /\ (forall vs, Forall2 val cs vs -> val i (reducer vs))
  end.
Definition good (l i : nat) : Prop := kids i = None \/ (rk i <= l)%nat.
Definition correct (l : nat) (f : list T) : Prop :=
  length f = N /\ forall i, (i < N)%nat -> good l i -> exists v, nth_error f i = Some v /\ val i v.

Definition kinv (l : nat) (done : list act) (fr : list T * @regs T) : Prop :=
  correct l (fst fr) /\
  (forall i k cs, (i < N)%nat -> kids i = Some cs -> In (Rd i k) done -> exists v, snd fr i k = Some v /\
     ((rk i <= S l)%nat -> exists c, nth_error cs k = Some c /\ val c v)) /\
  (forall i cs, (i < N)%nat -> kids i = Some cs -> In (Wr i) done -> (rk i <= S l)%nat -> exists v, nth_error (fst fr) i = Some v /\ val i v).

Lemma get_regs_ok (r : nat -> option T) ks : (forall k, In k ks -> exists v, r k = Some v) ->
  exists vs, get_regs r ks = Ok vs /\ Forall2 (fun k v => r k = Some v) ks vs.
Proof.
  induction ks as [|k ks IH]; intros H; cbn [get_regs]; [exists []; split; [reflexivity|constructor]|].
  destruct (H k (or_introl eq_refl)) as (v & E). rewrite E. destruct IH as (vs & E2 & F); [intros; apply H; right; auto|].
  rewrite E2. cbn [rbind]. exists (v :: vs). split; [reflexivity|]. constructor; auto.
Qed.

Lemma act_step_ok l done a fr : kinv l done fr ->
  match a with Rd i k => (i < N)%nat /\ (k < 8)%nat | Wr i => (i < N)%nat /\ forall k, (k < 8)%nat -> In (Rd i k) done end ->
  exists fr', act_step reducer s a fr = Ok fr' /\ kinv l (done ++ [a]) fr'.
Proof.
  intros (K1 & K2 & K3) Ha. destruct fr as [f r]. cbn [fst snd] in *.
  assert (Hi : (match a with Rd i _ => i | Wr i => i end < N)%nat) by (destruct a; tauto).
  destruct (Harr _ Hi) as (m & Hm & HA). unfold act_step. rewrite (proj2 (aget_ok _ _ _) Hm). cbn [rbind].
  destruct a as [i k|i].
  - destruct Ha as [_ Hk]. destruct (kids i) as [cs|] eqn:E.
    + destruct HA as (H8 & Hcs & (c0 & Hc0 & Hne) & HF & Hv). rewrite (proj2 (aget_ok _ _ _) Hc0). cbn [rbind].
      destruct (Z.eqb_spec c0 u64_max); [contradiction|].
      destruct (nth_error cs k) as [c|] eqn:Ec; [|apply nth_error_None in Ec; lia].
      rewrite Forall_forall in HF. destruct (HF c (nth_error_In _ _ Ec)) as [Hc Hrk].
      assert (Eg : aget (sn_childs m) k = Ok (Z.of_nat c)) by (apply aget_ok; rewrite Hcs, nth_error_map, Ec; reflexivity). rewrite Eg. cbn [rbind].
      rewrite Nat2Z.id. destruct K1 as [Hlen Hcor].
      destruct (nth_error f c) as [v|] eqn:Ev; [|apply nth_error_None in Ev; lia].
      rewrite (proj2 (aget_ok _ _ _) Ev). cbn [rbind]. eexists; split; [reflexivity|]. split; [split; auto|]. cbn [fst snd]. split.
      * intros i' k' cs' Hi' Ek' Hin. destruct (Nat.eqb_spec i' i) as [->|Ni]; cbn [andb].
        -- destruct (Nat.eqb_spec k' k) as [->|Nk].
           ++ exists v. split; auto. intros Hle. assert (cs' = cs) by congruence. subst cs'. exists c. split; auto.
              destruct (Hcor c Hc) as (v' & E1 & E2); [right; lia|]. congruence.
           ++ apply (K2 i k' cs' Hi' Ek'). apply in_app_iff in Hin. destruct Hin as [|[X|[]]]; auto. congruence.
        -- apply (K2 i' k' cs' Hi' Ek'). apply in_app_iff in Hin. destruct Hin as [|[X|[]]]; auto. congruence.
      * intros i' cs' Hi' Ek' Hin. apply (K3 i' cs' Hi' Ek'). apply in_app_iff in Hin. destruct Hin as [|[X|[]]]; auto. discriminate.
    + rewrite (proj2 (aget_ok _ _ _) HA). cbn [rbind]. rewrite Z.eqb_refl. eexists; split; [reflexivity|]. split; auto. cbn [fst snd]. split.
      * intros i' k' cs' Hi' Ek' Hin. apply (K2 i' k' cs' Hi' Ek'). apply in_app_iff in Hin. destruct Hin as [|[X|[]]]; auto. congruence.
      * intros i' cs' Hi' Ek' Hin. apply (K3 i' cs' Hi' Ek'). apply in_app_iff in Hin. destruct Hin as [|[X|[]]]; auto. discriminate.
  - destruct Ha as [_ Hrd]. destruct (kids i) as [cs|] eqn:E.
    + destruct HA as (H8 & Hcs & (c0 & Hc0 & Hne) & HF & Hv). rewrite (proj2 (aget_ok _ _ _) Hc0). cbn [rbind].
      destruct (Z.eqb_spec c0 u64_max); [contradiction|].
      destruct (get_regs_ok (r i) (seq 0 8)) as (vs & Evs & F).
      { intros k Hk. apply in_seq in Hk. destruct (K2 i k cs Hi E (Hrd k ltac:(lia))) as (v & Ev & _). eauto. }
      rewrite Evs. cbn [rbind]. destruct K1 as [Hlen Hcor]. rewrite aset_lt by lia. cbn [rbind].
      assert (Hval : (rk i <= S l)%nat -> val i (reducer vs)).
      { intros Hle. apply Hv. pose proof (F2_length _ _ _ F) as L8. rewrite seq_length in L8.
        apply F2_intro; [congruence|]. intros k c v Ec Evk.
        assert (Hk : (k < 8)%nat) by (rewrite <- H8; apply nth_error_Some; congruence).
        assert (Erk : r i k = Some v).
        { destruct (F2_nth1 _ _ _ F k k) as (v' & A1 & A2); [apply nth_error_seq; lia|]. congruence. }
        destruct (K2 i k cs Hi E (Hrd k Hk)) as (v' & Ev' & Hc'). destruct (Hc' Hle) as (c' & A1 & A2). congruence. }
      eexists; split; [reflexivity|]. split; [split|]; cbn [fst snd].
      * now rewrite length_upd.
      * intros j Hj Gj. destruct (Nat.eq_dec j i) as [->|Nj].
        -- rewrite nth_error_upd_eq by lia. eexists; split; [reflexivity|]. apply Hval. destruct Gj as [Gj|Gj]; [congruence|lia].
        -- rewrite nth_error_upd_neq by auto. apply Hcor; auto.
      * split.
        -- intros i' k' cs' Hi' Ek' Hin. apply (K2 i' k' cs' Hi' Ek'). apply in_app_iff in Hin. destruct Hin as [|[X|[]]]; auto. discriminate.
        -- intros i' cs' Hi' Ek' Hin Hle. destruct (Nat.eq_dec i' i) as [->|Nj].
           ++ rewrite nth_error_upd_eq by lia. eauto.
           ++ rewrite nth_error_upd_neq by auto. apply (K3 i' cs' Hi' Ek'); auto. apply in_app_iff in Hin. destruct Hin as [|[X|[]]]; auto. congruence.
    + rewrite (proj2 (aget_ok _ _ _) HA). cbn [rbind]. rewrite Z.eqb_refl. eexists; split; [reflexivity|]. split; auto. cbn [fst snd]. split.
      * intros i' k' cs' Hi' Ek' Hin. apply (K2 i' k' cs' Hi' Ek'). apply in_app_iff in Hin. destruct Hin as [|[X|[]]]; auto. discriminate.
      * intros i' cs' Hi' Ek' Hin. apply (K3 i' cs' Hi' Ek'). apply in_app_iff in Hin. destruct Hin as [|[X|[]]]; auto. congruence.
Qed.

Lemma in_all_acts n a : In a (all_acts n) <-> match a with Rd i k => (i < n)%nat /\ (k < 8)%nat | Wr i => (i < n)%nat end.
Proof.
  unfold all_acts. rewrite in_flat_map. split.
  - intros (i & Hi & Ha). apply in_seq in Hi. apply in_app_iff in Ha. destruct Ha as [Ha|[<-|[]]]; [|lia].
    apply in_map_iff in Ha. destruct Ha as (k & <- & Hk). apply in_seq in Hk. lia.
  - destruct a as [i k|i]; intros H; exists i; rewrite in_seq, in_app_iff; (split; [lia|]).
    + left. apply in_map. apply in_seq. lia.
    + right. left. reflexivity.
Qed.

Lemma level_kernel_ok l order f : level_execution N order -> correct l f ->
  exists f', level_kernel reducer s order f = Ok f' /\ correct (S l) f'.
Proof.
  intros (HP & HO) Hc. unfold level_kernel.
  assert (HI : forall todo done fr, order = done ++ todo -> kinv l done fr ->
    exists fr', rfold (act_step reducer s) todo fr = Ok fr' /\ kinv l order fr').
  { induction todo as [|a todo IH]; intros done fr Ho K.
    - rewrite app_nil_r in Ho. subst done. exists fr. split; auto.
    - cbn [rfold]. destruct (act_step_ok l done a fr K) as (fr' & E & K').
      { assert (Ha : In a (all_acts N)) by (eapply Permutation_in; [exact HP|]; rewrite Ho; apply in_app_iff; right; left; auto).
        apply in_all_acts in Ha. destruct a as [i k|i]; auto. split; auto. intros k Hk. exact (HO done todo i Ho k Hk). }
      rewrite E. cbn [rbind]. apply (IH (done ++ [a])); auto. now rewrite <- app_assoc. }
  destruct (HI order [] (f, fun _ _ => None) eq_refl) as ([f' r'] & E & K1 & _ & K3).
  { split; auto. split; intros ? ? ? ? ? ?; contradiction. }
  rewrite E. cbn [rbind fst]. exists f'. split; auto. destruct K1 as [L K1]. split; auto. intros i Hi G.
  destruct (kids i) as [cs|] eqn:Ek; [|apply K1; auto; left; auto].
  destruct G as [G|G]; [congruence|]. apply (K3 i cs Hi Ek); auto. apply (Permutation_in _ (Permutation_sym HP)). now apply in_all_acts.
Qed.

Lemma levels_ok orders : forall n l f, (forall j, (l <= j < l + n)%nat -> level_execution N (orders j)) -> correct l f ->
  exists f', rfold (fun l f => level_kernel reducer s (orders l) f) (seq l n) f = Ok f' /\ correct (l + n) f'.
Proof.
  induction n as [|n IH]; intros l f HO Hc; cbn [seq rfold].
  - exists f. split; auto. now rewrite Nat.add_0_r.
  - destruct (level_kernel_ok l (orders l) f (HO l ltac:(lia)) Hc) as (f' & E & Hc'). rewrite E. cbn [rbind].
    destruct (IH (S l) f') as (f2 & E2 & C2); [intros; apply HO; lia|auto|]. exists f2. split; auto. now rewrite <- Nat.add_succ_comm.
Qed.
End K.

Section S.
Context {C T : Type}.
Variable to_box : pcoord -> res (range C).
Variable t : ptree.
Hypothesis I : tree_ok t.
Variables (ids : list Z) (s : sstate C).
Hypothesis Hser : ser to_box t 0 ids (ss_tree s) (ss_linked s).
Hypothesis HND : NoDup ids.
Hypothesis Hlev : levels t 0 (ss_level s) ids.
Hypothesis Hcomplete : forall x n, t_map t x = Some n -> In x ids.
Hypothesis Hleaf : forall x n, t_map t x = Some n -> n_leaf n = true -> exists id, n_linked n = Some id /\ id <> u64_max.
Hypothesis Hinner : forall x n, t_map t x = Some n -> n_leaf n = false -> n_linked n = Some u64_max.
Hypothesis Hroot : roots_level0 t.
Hypothesis Hleafc : forall x n, t_map t x = Some n -> n_leaf n = true -> nth_error (n_childs n) 0 = Some u64_max.
Hypothesis Hsmall : Z.of_nat (length ids) <= 2 ^ 32.
Variables (t0 : T) (get : Z -> res T) (reducer : list T -> T).
Hypothesis Hget : forall x n id, t_map t x = Some n -> n_leaf n = true -> n_linked n = Some id -> exists v, get id = Ok v.

Definition kids_of (i : nat) : option (list nat) :=
  match nth_error ids i with
  | None => None
  | Some x => match t_map t x with
              | None => None
              | Some n => if n_leaf n then None else Some (map (fun c => index_of c ids) (n_childs n))
              end
  end.
Definition rk_of (i : nat) : nat :=
  match nth_error ids i with
  | None => O
  | Some x => match t_map t x with None => O | Some n => Z.to_nat (ss_level s - n_level n) end
  end.
Definition val_of (i : nat) (v : T) : Prop := exists x, nth_error ids i = Some x /\ node_value t get reducer x v.

Lemma arr_ok i : (i < length (ss_tree s))%nat -> exists m, nth_error (ss_tree s) i = Some m /\
  match kids_of i with
  | None => nth_error (sn_childs m) 0 = Some u64_max
  | Some cs => length cs = 8%nat /\ sn_childs m = map Z.of_nat cs /\ (exists c0, nth_error (sn_childs m) 0 = Some c0 /\ c0 <> u64_max) /\
               Forall (fun c => c < length (ss_tree s) /\ rk_of c < rk_of i)%nat cs /\ (forall vs, Forall2 val_of cs vs -> val_of i (reducer vs))
  end.
Proof.
  intros Hi. pose proof Hser as (HL & _ & HS). rewrite HL in Hi.
  destruct (nth_error ids i) as [x|] eqn:Hx; [|apply nth_error_None in Hx; lia].
  destruct (HS i x Hx) as (n & m & Hn & Hm & _ & _ & _ & Hlf & _). exists m. split; auto.
  unfold kids_of. rewrite Hx, Hn. destruct (n_leaf n) eqn:Hl.
  - rewrite (Hlf eq_refl). eauto.
  - destruct (node_entry to_box t I ids s Hser HND Hcomplete Hleaf Hinner x n Hn) as (m' & Em & _ & _ & H8 & _ & Hcs). specialize (Hcs Hl).
    assert (m' = m).
    { unfold node_at in Em. rewrite (idx_unique ids HND _ _ Hx), Nat2Z.id in Em. apply aget_ok in Em. congruence. }
    subst m'. pose proof (ok_childs_len _ I _ _ Hn) as L8.
    assert (Hchild : forall c, In c (n_childs n) -> exists k, t_map t c = Some k).
    { intros c Hc. apply In_nth_error in Hc. destruct Hc as (k & Hk). destruct (ok_children _ I _ _ Hn Hl) as (_ & Hch).
      destruct (Hch k c Hk) as (k' & Hk' & _). eauto. }
    assert (Hidx : forall c, In c (n_childs n) -> nth_error ids (index_of c ids) = Some c).
    { intros c Hc. apply index_of_nth. destruct (Hchild c Hc). eauto. }
    split; [now rewrite map_length|]. split; [rewrite Hcs, map_map; reflexivity|]. split.
    { rewrite Hcs. destruct (n_childs n) as [|c cs] eqn:Ec; [discriminate|]. cbn [map nth_error]. eexists; split; [reflexivity|].
      pose proof (nth_lt _ _ _ (Hidx c (or_introl eq_refl))) as Lt. unfold idx. change u64_max with (2 ^ 64 - 1). lia. }
    split.
    + rewrite Forall_map, Forall_forall. intros c Hc. specialize (Hidx c Hc). rewrite HL. split; [eapply nth_lt; eauto|].
      destruct (Hchild c Hc) as (k & Hk). unfold rk_of. rewrite Hidx, Hk, Hx, Hn.
      destruct (below_root t I x n Hn) as (r & Hr & D). pose proof (child_level t I Hroot r x n c k Hr D Hn Hl Hc Hk) as Ek.
      destruct Hlev as (_ & HB & _). pose proof (HB c k (Hcomplete _ _ Hk) Hk). lia.
    + intros vs F. exists x. split; auto. apply (NV_inner _ _ _ x n vs Hn Hl). clear - F Hidx.
      revert vs F Hidx. induction (n_childs n) as [|c cs IH]; intros vs F Hidx; inversion F as [|? v ? vs' Hv F']; subst; constructor.
      * destruct Hv as (y & Hy & Hv). rewrite (Hidx c (or_introl eq_refl)) in Hy. injection Hy as <-. auto.
      * apply IH; auto. intros d Hd. apply Hidx. right; auto.
Qed.

Lemma init_ok : exists f, init_field t0 get s = Ok f /\ correct s kids_of rk_of val_of 0 f.
Proof.
  pose proof Hser as (HL & HL2 & HS). unfold init_field.
  assert (G : forall todo done acc, ss_linked s = done ++ todo -> length acc = length done ->
    (forall i, (i < length done)%nat -> kids_of i = None -> exists v, nth_error acc i = Some v /\ val_of i v) ->
    exists f, rfold (fun l acc => match l with None => UB | Some id => v <- (if negb (id =? u64_max) then get id else Ok t0) ;; Ok (acc ++ [v]) end) todo acc = Ok f /\
      length f = length (ss_linked s) /\ (forall i, (i < length (ss_linked s))%nat -> kids_of i = None -> exists v, nth_error f i = Some v /\ val_of i v)).
  { induction todo as [|l todo IH]; intros done acc Hd Ha Hv; cbn [rfold].
    - exists acc. rewrite app_nil_r in Hd. rewrite Hd. auto.
    - assert (Hlt : (length done < length ids)%nat) by (rewrite <- HL2, Hd, app_length; cbn; lia).
      destruct (nth_error ids (length done)) as [x|] eqn:Hx; [|apply nth_error_None in Hx; lia].
      destruct (HS _ _ Hx) as (n & m & Hn & _ & Hlk & _).
      assert (El : l = n_linked n).
      { rewrite Hd, nth_error_app2, Nat.sub_diag in Hlk by lia. cbn in Hlk. congruence. }
      assert (X : exists id v, l = Some id /\ (if negb (id =? u64_max) then get id else Ok t0) = Ok v /\ (n_leaf n = true -> val_of (length done) v)).
      { destruct (n_leaf n) eqn:Hlf.
        - destruct (Hleaf _ _ Hn Hlf) as (id & E & Hne). destruct (Hget _ _ _ Hn Hlf E) as (v & Ev). exists id, v. split; [congruence|].
          destruct (Z.eqb_spec id u64_max); [contradiction|]. cbn [negb]. split; auto. intros _. exists x. split; auto. eapply NV_leaf; eauto.
        - exists u64_max, t0. split; [rewrite El; eauto|]. rewrite Z.eqb_refl. split; [reflexivity|discriminate]. }
      destruct X as (id & v & E1 & E2 & E3). rewrite E1, E2. cbn [rbind].
      apply (IH (done ++ [l]) (acc ++ [v])); [now rewrite <- app_assoc|rewrite !app_length; cbn; lia|].
      intros i Hi Hk. rewrite app_length in Hi. cbn in Hi. destruct (Nat.eq_dec i (length done)) as [->|Ni].
      + exists v. rewrite nth_error_app2, Ha, Nat.sub_diag by lia. split; [reflexivity|]. apply E3. unfold kids_of in Hk. rewrite Hx, Hn in Hk.
        destruct (n_leaf n); auto. discriminate.
      + rewrite nth_error_app1 by lia. apply Hv; auto. lia. }
  destruct (G (ss_linked s) [] [] eq_refl eq_refl) as (f & E & L & Hf); [cbn; lia|]. exists f. split; auto. split; [congruence|].
  intros i Hi [G0|G0].
  - apply Hf; auto. congruence.
  - destruct (arr_ok i Hi) as (m & Hm & HA). destruct (kids_of i) as [cs|] eqn:Ek; [|apply Hf; auto; congruence].
    destruct HA as (H8 & _ & _ & HF & _). destruct cs as [|c cs]; [discriminate|]. inversion HF; subst. lia.
Qed.

Lemma field_ok orders : (forall l, (l < Z.to_nat (ss_level s))%nat -> level_execution (length (ss_tree s)) (orders l)) ->
  exists f, make_patch_tree_field t0 get reducer s orders = Ok f /\ length f = length ids /\
    forall i x, nth_error ids i = Some x -> exists v, nth_error f i = Some v /\ node_value t get reducer x v.
Proof.
  intros HO. unfold make_patch_tree_field. destruct init_ok as (f0 & E0 & C0). rewrite E0. cbn [rbind].
  destruct (levels_ok reducer s kids_of rk_of val_of arr_ok orders (Z.to_nat (ss_level s)) 0 f0) as (f & E & Cf); auto.
  { intros j Hj. apply HO. lia. }
  exists f. split; auto. destruct Cf as [Lf Cf]. pose proof Hser as (HL & _). split; [congruence|]. intros i x Hx.
  destruct (Cf i) as (v & Ev & y & Hy & Hv); [rewrite HL; eapply nth_lt; eauto| |].
  - right. unfold rk_of. rewrite Hx. destruct (t_map t x) as [n|] eqn:Hn; [|lia].
    destruct (below_root t I x n Hn) as (r & Hr & D). destruct (level_bound t I Hroot r x n Hr D Hn) as [LB _]. lia.
  - exists v. split; auto. congruence.
Qed.
End S.

(** With an associative operation the value of a node is the fold of the values of the leaves below it. *)
Section M.
Context {T : Type}.
Variables (t : ptree) (get : Z -> res T) (op : T -> T -> T) (e : T).
Hypothesis I : tree_ok t.
Hypothesis op_assoc : forall a b c, op a (op b c) = op (op a b) c.
Hypothesis op_id_l : forall a, op e a = a.
Hypothesis op_id_r : forall a, op a e = a.
Definition leaf_value (y : Z) (v : T) : Prop := exists n id, t_map t y = Some n /\ n_leaf n = true /\ n_linked n = Some id /\ get id = Ok v.
Lemma fold_app l1 l2 : fold_right op e (l1 ++ l2) = op (fold_right op e l1) (fold_right op e l2).
Proof. induction l1 as [|a l IH]; cbn; [now rewrite op_id_l|]. now rewrite IH, op_assoc. Qed.

Lemma node_value_fold f x : hle t f x -> forall v, node_value t get (fold_right op e) x v ->
  exists ys vs, NoDup ys /\ (forall y, In y ys <-> desc t x y /\ is_leaf_of t y) /\ Forall2 leaf_value ys vs /\ v = fold_right op e vs.
Proof.
  induction 1 as [f x n Hn Hl|f x n Hn Hl Hc IH]; intros v Hv.
  - inversion Hv as [? n' id v' Hn' Hl' Hk Hg|? n' vs Hn' Hl' F]; subst; [|congruence]. assert (n' = n) by congruence. subst n'.
    exists [x], [v]. split; [constructor; [tauto|constructor]|]. split.
    + intros y. split.
      * intros [<-|[]]. split; [constructor|exists n; auto].
      * intros (D & _). destruct (desc_case t _ _ D) as [->|(m & c & Hm & Hml & _)]; [left; auto|congruence].
    + split; [|cbn; now rewrite op_id_r]. constructor; [|constructor]. exists n, id. auto.
  - inversion Hv as [? n' id v' Hn' Hl' Hk Hg|? n' vs Hn' Hl' F]; subst; [congruence|]. assert (n' = n) by congruence. subst n'.
    assert (L : forall cs vs, (forall c, In c cs -> In c (n_childs n)) -> NoDup cs -> Forall2 (node_value t get (fold_right op e)) cs vs ->
      exists ys us, NoDup ys /\ (forall y, In y ys <-> exists c, In c cs /\ desc t c y /\ is_leaf_of t y) /\ Forall2 leaf_value ys us /\
        fold_right op e vs = fold_right op e us).
    { clear Hv F vs. induction cs as [|c cs IHc]; intros vs Hin ND F; inversion F as [|? v ? vs' Hv F']; subst.
      - exists [], []. split; [constructor|]. split; [intros y; split; [intros []|intros (c & [] & _)]|]. split; [constructor|reflexivity].
      - inversion ND as [|? ? NI ND']; subst. destruct (IH c (Hin c (or_introl eq_refl)) v Hv) as (ys1 & us1 & N1 & D1 & F1 & E1).
        destruct (IHc vs') as (ys2 & us2 & N2 & D2 & F2 & E2); auto; [intros; apply Hin; right; auto|].
        exists (ys1 ++ ys2), (us1 ++ us2). split.
        + apply NoDup_app_i2; auto. intros y Hy1 Hy2. apply D1 in Hy1. apply D2 in Hy2. destruct Hy1 as [Ha _], Hy2 as (d & Hd & Hb & _).
          apply NI. rewrite (siblings_disjoint t I x n c d y Hn Hl (Hin c (or_introl eq_refl)) (Hin d (or_intror Hd)) Ha Hb). exact Hd.
        + split; [|split; [now apply Forall2_app|cbn [fold_right]; rewrite fold_app; congruence]].
          intros y. rewrite in_app_iff, D1, D2. split.
          * intros [[A B]|(d & A & B)]; [exists c; split; [left; auto|auto]|exists d; split; [right; auto|auto]].
          * intros (d & [<-|A] & B); [left; auto|right; exists d; auto]. }
    destruct (L (n_childs n) vs) as (ys & us & A1 & A2 & A3 & A4); auto; [apply (ok_children _ I x n Hn Hl)|].
    exists ys, us. split; auto. split; [|split; auto]. intros y. rewrite A2. split.
    + intros (c & Hcin & D & Lf). split; auto. eapply (desc_trans t); [|exact D]. exact (desc_step t x x c n (desc_refl t x) Hn Hl Hcin).
    + intros (D & k & Hk & Hkl). destruct (desc_case t _ _ D) as [->|(m & c & Hm & Hml & Hcin & Dc)]; [congruence|].
      assert (m = n) by congruence. subst m. exists c. split; auto. split; auto. exists k. auto.
Qed.
End M.
