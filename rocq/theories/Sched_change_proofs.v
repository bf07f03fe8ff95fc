(** Proofs about the load balancing change list. *)
From Verif Require Import Base Patch Sched Sched_spec.
Local Open Scope Z_scope.

Lemma nth_error_lt {A} (l : list A) i a : nth_error l i = Some a -> (i < length l)%nat.
Proof. intros H. apply nth_error_Some. congruence. Qed.

Lemma packing_ok order g owners :
  length owners = length g -> packs_ok g -> Permutation order (seq 0 (length g)) ->
  apply_node_patch_packing order g owners = Ok (map (final_owner g owners) (seq 0 (length g))).
Proof.
  intros HL Hp Hperm.
  assert (G : forall todo done cur, NoDup (done ++ todo) ->
    (forall i, In i (done ++ todo) -> (i < length g)%nat) ->
    length cur = length g ->
    (forall i, (i < length g)%nat -> nth i cur 0 = if in_dec Nat.eq_dec i done then final_owner g owners i else nth i owners 0) ->
    exists cur', rfold (packing_body g) todo cur = Ok cur' /\ length cur' = length g /\
      forall i, (i < length g)%nat -> nth i cur' 0 = if in_dec Nat.eq_dec i (done ++ todo) then final_owner g owners i else nth i owners 0).
  { induction todo as [|a todo IH]; intros done cur Hnd Hin Hlen Hcur.
    - exists cur. split; [reflexivity|]. split; auto. intros i Hi. rewrite Hcur by auto. now rewrite app_nil_r.
    - cbn [rfold]. assert (Ha : (a < length g)%nat) by (apply Hin; apply in_or_app; right; left; auto).
      destruct (nth_error g a) as [p|] eqn:Ep; [|apply nth_error_None in Ep; lia].
      assert (B : exists cur1, packing_body g a cur = Ok cur1 /\ length cur1 = length g /\
        forall i, (i < length g)%nat -> nth i cur1 0 = if in_dec Nat.eq_dec i (done ++ [a]) then final_owner g owners i else nth i owners 0).
      { unfold packing_body. unfold aget at 1. rewrite Ep. cbn [rbind].
        assert (Hna : ~ In a done) by (apply NoDup_remove_2 in Hnd; intros F; apply Hnd, in_or_app; auto).
        destruct (Z.eqb_spec (p_pack p) u64_max) as [E|E].
        - exists cur. split; auto. split; auto. intros i Hi. rewrite Hcur by auto.
          destruct (in_dec Nat.eq_dec i done) as [I|I], (in_dec Nat.eq_dec i (done ++ [a])) as [J|J]; auto.
          + exfalso. apply J, in_or_app; auto.
          + apply in_app_or in J. destruct J as [J|[<-|[]]]; [contradiction|].
            unfold final_owner. rewrite Ep. apply Z.eqb_eq in E. now rewrite E.
        - destruct (Hp a p Ep E) as (P0 & q & Hq & Hqp).
          pose proof (nth_error_lt _ _ _ Hq) as Hj.
          rewrite (aget_lt cur _ 0) by lia. cbn [rbind]. rewrite aset_lt by lia.
          eexists. split; [reflexivity|]. split; [now rewrite length_upd|].
          intros i Hi. destruct (Nat.eq_dec i a) as [->|Hia].
          + rewrite nth_upd_eq by lia. destruct (in_dec Nat.eq_dec a (done ++ [a])) as [J|J].
            2: { exfalso; apply J, in_or_app; right; left; auto. }
            unfold final_owner at 1. rewrite Ep. destruct (Z.eqb_spec (p_pack p) u64_max); [contradiction|].
            rewrite Hcur by lia. destruct (in_dec Nat.eq_dec _ done); auto.
            unfold final_owner. rewrite Hq. rewrite Hqp. now rewrite Z.eqb_refl.
          + rewrite nth_upd_neq by auto. rewrite Hcur by auto.
            destruct (in_dec Nat.eq_dec i done) as [I|I], (in_dec Nat.eq_dec i (done ++ [a])) as [J|J]; auto.
            * exfalso. apply J, in_or_app; auto.
            * apply in_app_or in J. destruct J as [J|[J|[]]]; [contradiction|congruence]. }
      destruct B as (cur1 & E1 & L1 & N1). rewrite E1. cbn [rbind].
      destruct (IH (done ++ [a]) cur1) as (cur' & E' & L' & N'); auto.
      + rewrite <- app_assoc. exact Hnd.
      + rewrite <- app_assoc. exact Hin.
      + exists cur'. split; auto. split; auto. rewrite <- app_assoc in N'. exact N'. }
  destruct (G order [] owners) as (cur' & E & L & N); auto.
  - cbn [app]. eapply Permutation_NoDup; [symmetry; exact Hperm|apply seq_NoDup].
  - intros i Hi. cbn [app] in Hi. apply (Permutation_in _ Hperm) in Hi. apply in_seq in Hi; lia.
  - unfold apply_node_patch_packing, par_for. rewrite E. f_equal.
    apply (list_eq_nth 0); [now rewrite map_length, seq_length|].
    intros i Hi. rewrite L in Hi. rewrite N by auto. cbn [app].
    destruct (in_dec Nat.eq_dec i order) as [I|I].
    + rewrite (nth_indep (map _ _) 0 (final_owner g owners 0%nat)) by (rewrite map_length, seq_length; lia).
      rewrite map_nth, seq_nth by lia. reflexivity.
    + exfalso. apply I. apply (Permutation_in _ (Permutation_sym Hperm)), in_seq. lia.
Qed.

Lemma change_loop_ok W : forall g i owners tags,
  (forall p, In p g -> 0 <= p_owner p < Z.of_nat W) ->
  (forall k, (i <= k < i + length g)%nat -> (k < length owners)%nat /\ 0 <= nth k owners 0 < Z.of_nat W) ->
  length tags = W ->
  exists ops, change_loop W i g owners tags = Ok ops /\
    (forall op, In op ops -> exists k p, nth_error g k = Some p /\ co_idx op = (i + k)%nat /\
       co_id op = p_id p /\ co_old op = p_owner p /\ co_new op = nth (i + k) owners 0 /\ co_new op <> co_old op) /\
    (forall k p, nth_error g k = Some p -> nth (i + k) owners 0 <> p_owner p ->
       exists op, In op ops /\ co_idx op = (i + k)%nat) /\
    NoDup (map co_idx ops) /\
    (forall op, In op ops -> nth (Z.to_nat (co_old op)) tags 0 <= co_tag op) /\
    NoDup (map (fun op => (co_old op, co_tag op)) ops).
Proof.
  induction g as [|p g IH]; intros i owners tags Hg Ho Ht.
  - exists []. cbn. split; auto. split; [contradiction|]. split; [intros [|k] q F; discriminate|].
    split; [constructor|]. split; [contradiction|constructor].
  - cbn [change_loop length] in *. destruct (Ho i ltac:(lia)) as (Hi & Hr).
    rewrite (aget_lt owners i 0) by lia. cbn [rbind].
    replace ((nth i owners 0 <? 0) || (Z.of_nat W <=? nth i owners 0)) with false by lia.
    pose proof (Hg p (or_introl eq_refl)) as Hp.
    assert (Hg' : forall q, In q g -> 0 <= p_owner q < Z.of_nat W) by (intros; apply Hg; right; auto).
    assert (Ho' : forall k, (S i <= k < S i + length g)%nat -> (k < length owners)%nat /\ 0 <= nth k owners 0 < Z.of_nat W)
      by (intros; apply Ho; lia).
    destruct (Z.eqb_spec (nth i owners 0) (p_owner p)) as [E|E].
    + destruct (IH (S i) owners tags Hg' Ho' Ht) as (ops & Eo & A & B & C & D & F).
      exists ops. split; auto. split.
      { intros op Hop. destruct (A op Hop) as (k & q & Hq & X). exists (S k), q. cbn [nth_error]. split; auto.
        replace (i + S k)%nat with (S i + k)%nat by lia. exact X. }
      split; auto.
      intros [|k] q Hq Hne; cbn [nth_error] in Hq.
      * injection Hq as <-. rewrite Nat.add_0_r in Hne. congruence.
      * replace (i + S k)%nat with (S i + k)%nat in * by lia. eauto.
    + rewrite (aget_lt tags _ 0) by lia. cbn [rbind]. rewrite aset_lt by lia. cbn [rbind].
      set (tg := nth (Z.to_nat (p_owner p)) tags 0).
      destruct (IH (S i) owners (upd tags (Z.to_nat (p_owner p)) (tg + 1)) Hg' Ho') as (ops & Eo & A & B & C & D & F).
      { now rewrite length_upd. }
      rewrite Eo. cbn [rbind]. eexists. split; [reflexivity|].
      assert (Dt : forall op, In op ops -> nth (Z.to_nat (co_old op)) tags 0 <= co_tag op /\
                                           (co_old op = p_owner p -> tg + 1 <= co_tag op)).
      { intros op Hop. specialize (D op Hop). destruct (A op Hop) as (k & q & Hq & _ & _ & Eold & _).
        assert (Hq2 : 0 <= p_owner q < Z.of_nat W) by (apply Hg'; eapply nth_error_In; eauto).
        destruct (Nat.eq_dec (Z.to_nat (p_owner p)) (Z.to_nat (co_old op))) as [En|En].
        - rewrite <- En in D. rewrite nth_upd_eq in D by lia. rewrite <- En. fold tg. lia.
        - rewrite nth_upd_neq in D by auto. split; auto. intros X. congruence. }
      split; [|split; [|split; [|split]]].
      * intros op [<-|Hop].
        { exists 0%nat, p. cbn. rewrite Nat.add_0_r. auto 10. }
        destruct (A op Hop) as (k & q & Hq & X). exists (S k), q. cbn [nth_error]. split; auto.
        replace (i + S k)%nat with (S i + k)%nat by lia. exact X.
      * intros [|k] q Hq Hne; cbn [nth_error] in Hq.
        { eexists. split; [left; reflexivity|]. cbn. lia. }
        replace (i + S k)%nat with (S i + k)%nat in * by lia. destruct (B k q Hq Hne) as (op & H1 & H2).
        exists op; split; auto. right; auto.
      * cbn [map co_idx]. constructor; auto. intros Hin. apply in_map_iff in Hin. destruct Hin as (op & E1 & E2).
        destruct (A op E2) as (k & q & _ & X & _). lia.
      * intros op [<-|Hop]; [cbn; fold tg; lia|]. apply Dt; auto.
      * cbn [map co_old co_tag]. constructor; auto. intros Hin. apply in_map_iff in Hin.
        destruct Hin as (op & E1 & E2). injection E1 as X Y. destruct (Dt op E2) as (_ & Z). specialize (Z X). lia.
Qed.

Lemma nth_final g owners k : (k < length g)%nat ->
  nth k (map (final_owner g owners) (seq 0 (length g))) 0 = final_owner g owners k.
Proof.
  intros H. rewrite (nth_indep _ 0 (final_owner g owners 0%nat)) by (rewrite map_length, seq_length; lia).
  now rewrite map_nth, seq_nth by lia.
Qed.

Lemma final_in W g owners k : length owners = length g -> packs_ok g ->
  (forall o, In o owners -> 0 <= o < Z.of_nat W) -> (k < length g)%nat ->
  0 <= final_owner g owners k < Z.of_nat W.
Proof.
  intros HL Hp Ho Hk. unfold final_owner. destruct (nth_error g k) as [p|] eqn:E; [|apply nth_error_None in E; lia].
  destruct (Z.eqb_spec (p_pack p) u64_max).
  - apply Ho, nth_In. lia.
  - destruct (Hp k p E n) as (_ & q & Hq & _). apply nth_error_lt in Hq. apply Ho, nth_In. lia.
Qed.

Lemma make_change_list_ok W order g owners :
  (forall p, In p g -> 0 <= p_owner p < Z.of_nat W) ->
  length owners = length g -> (forall o, In o owners -> 0 <= o < Z.of_nat W) ->
  packs_ok g -> Permutation order (seq 0 (length g)) ->
  exists ops, make_change_list W order g owners = Ok ops /\
    (forall op, In op ops -> exists p, nth_error g (co_idx op) = Some p /\
       co_id op = p_id p /\ co_old op = p_owner p /\ co_new op = final_owner g owners (co_idx op) /\
       co_new op <> co_old op) /\
    (forall i p, nth_error g i = Some p -> final_owner g owners i <> p_owner p ->
       exists op, In op ops /\ co_idx op = i) /\
    NoDup (map co_idx ops) /\
    NoDup (map (fun op => (co_old op, co_tag op)) ops).
Proof.
  intros Hg HL Ho Hp Hperm. unfold make_change_list. rewrite packing_ok by auto. cbn [rbind].
  destruct (change_loop_ok W g 0 (map (final_owner g owners) (seq 0 (length g))) (repeat 0 W) Hg)
    as (ops & E & A & B & C & _ & D).
  - intros k Hk. rewrite map_length, seq_length. split; [lia|]. rewrite nth_final by lia.
    apply final_in; auto. lia.
  - apply repeat_length.
  - exists ops. split; auto. split; [|split; [|split]]; auto.
    + intros op Hop. destruct (A op Hop) as (k & p & Hk & X1 & X2 & X3 & X4 & X5).
      pose proof (nth_error_lt _ _ _ Hk). rewrite Nat.add_0_l in *. subst k.
      rewrite nth_final in X4 by lia. exists p. auto.
    + intros i p Hi Hne. pose proof (nth_error_lt _ _ _ Hi). apply (B i p Hi). rewrite Nat.add_0_l, nth_final by lia. auto.
Qed.
