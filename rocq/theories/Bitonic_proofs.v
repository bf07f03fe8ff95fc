(** The kernels of the bitonic sort implement the stages of the network. *)
From Verif Require Import Base Integer Integer_proofs SortSearch_spec Bitonic Bitonic_net Bitonic_sorted.
From Coq Require Import ZifyBool ZifyNat.

Section P.
  Context {K V : Type} (ltb : K -> K -> bool) (dk : K) (dv : V).
  Notation d := (dk, dv).
  Notation gst := (gst ltb). Notation stage := (stage ltb).

  (** order_stencil *)
  Lemma orderV_ok (x : list (K * V)) a b r : a < length x -> b < length x ->
    orderV ltb x a b r = Ok (upd (upd x a (fst (order1 ltb (nth a x d) (nth b x d) r))) b (snd (order1 ltb (nth a x d) (nth b x d) r))).
  Proof.
    intros Ha Hb. unfold orderV. rewrite (aget_lt x a d), (aget_lt x b d) by auto. unfold rbind at 1 2.
    unfold order1. rewrite aset_lt by auto. unfold rbind.
    rewrite aset_lt by (now rewrite length_upd). reflexivity.
  Qed.
  Lemma stage_loop r h a (x : list (K * V)) : a + 2 * h <= length x -> forall n, n <= h ->
    exists y, rfold (fun i x => orderV ltb x (a + i) (a + i + h) r) (seq 0 n) x = Ok y /\ length y = length x /\
      forall k, nth k y d =
        if (a <=? k) && (k <? a + n) then fst (order1 ltb (nth k x d) (nth (k + h) x d) r)
        else if (a + h <=? k) && (k <? a + h + n) then snd (order1 ltb (nth (k - h) x d) (nth k x d) r)
        else nth k x d.
  Proof.
    intros HL. induction n as [|n IH]; intros Hn.
    - exists x. split; [reflexivity|]. split; auto. intros k.
      replace ((a <=? k) && (k <? a + 0)) with false by lia. replace ((a + h <=? k) && (k <? a + h + 0)) with false by lia. reflexivity.
    - destruct IH as (y & E & L & N); [lia|]. rewrite seq_S, rfold_app, E. simpl rbind. simpl rfold.
      rewrite orderV_ok by lia. simpl rbind. eexists; split; [reflexivity|]. split; [now rewrite !length_upd|].
      assert (N1 : nth (a + n) y d = nth (a + n) x d).
      { rewrite N. replace ((a <=? a + n) && (a + n <? a + n)) with false by lia.
        destruct ((a + h <=? a + n) && (a + n <? a + h + n)) eqn:C; [lia|reflexivity]. }
      assert (N2 : nth (a + n + h) y d = nth (a + n + h) x d).
      { rewrite N. replace ((a <=? a + n + h) && (a + n + h <? a + n)) with false by lia.
        replace ((a + h <=? a + n + h) && (a + n + h <? a + h + n)) with false by lia. reflexivity. }
      rewrite N1, N2. intros k.
      destruct (Nat.eq_dec k (a + n + h)) as [->|D1].
      + rewrite nth_upd_eq by (rewrite length_upd; lia).
        replace ((a <=? a + n + h) && (a + n + h <? a + S n)) with false by lia.
        replace ((a + h <=? a + n + h) && (a + n + h <? a + h + S n)) with true by lia.
        replace (a + n + h - h) with (a + n) by lia. reflexivity.
      + rewrite nth_upd_neq by lia. destruct (Nat.eq_dec k (a + n)) as [->|D2].
        * rewrite nth_upd_eq by lia. replace ((a <=? a + n) && (a + n <? a + S n)) with true by lia. reflexivity.
        * rewrite nth_upd_neq by lia. rewrite N.
          replace ((a <=? k) && (k <? a + S n)) with ((a <=? k) && (k <? a + n)) by lia.
          replace ((a + h <=? k) && (k <? a + h + S n)) with ((a + h <=? k) && (k <? a + h + n)) by lia. reflexivity.
  Qed.
  Lemma order_stencil_ok r : forall s (x : list (K * V)) a, a + 2 ^ s <= length x ->
    exists y, order_stencil ltb s x a r = Ok y /\ length y = length x /\
      (forall k, k < 2 ^ s -> nth (a + k) y d = gst 0 s (fun _ => r) (fun k => nth (a + k) x d) k) /\
      (forall k, k < a \/ a + 2 ^ s <= k -> nth k y d = nth k x d).
  Proof.
    induction s as [|s IH]; intros x a HL; simpl order_stencil.
    - exists x. repeat split; auto.
    - rewrite p2S in HL. pose proof (p2 s) as P.
      destruct (stage_loop r (2 ^ s) a x HL (2 ^ s)) as (y & Ey & Ly & Ny); auto. rewrite Ey. simpl rbind.
      destruct (IH y a) as (z & Ez & Lz & Nz & Oz); [lia|]. rewrite Ez. simpl rbind.
      destruct (IH z (a + 2 ^ s)) as (w & Ew & Lw & Nw & Ow); [lia|]. exists w. split; auto. split; [lia|].
      assert (ST : forall k, k < 2 ^ S s -> nth (a + k) y d = stage (fun _ => r) s (fun k => nth (a + k) x d) k).
      { intros k Hk. rewrite Ny. rewrite p2S in Hk. destruct (Nat.lt_ge_cases k (2 ^ s)).
        - replace ((a <=? a + k) && (a + k <? a + 2 ^ s)) with true by lia.
          pose proof (stage_low ltb (fun _ => r) s (fun k => nth (a + k) x d) 0 k H) as E. rewrite Nat.mul_0_l, !Nat.add_0_l in E.
          rewrite E. rewrite Nat.add_assoc. reflexivity.
        - replace ((a <=? a + k) && (a + k <? a + 2 ^ s)) with false by lia.
          replace ((a + 2 ^ s <=? a + k) && (a + k <? a + 2 ^ s + 2 ^ s)) with true by lia.
          assert (H' : k - 2 ^ s < 2 ^ s) by lia.
          pose proof (stage_high ltb (fun _ => r) s (fun k => nth (a + k) x d) 0 (k - 2 ^ s) H') as E. rewrite Nat.mul_0_l, !Nat.add_0_l in E.
          replace (2 ^ s + (k - 2 ^ s)) with k in E by lia. rewrite E. replace (a + k - 2 ^ s) with (a + (k - 2 ^ s)) by lia. reflexivity. }
      split.
      + intros k Hk. cbn [Bitonic_net.gst]. rewrite Nat.add_0_l. rewrite p2S in Hk.
        destruct (Nat.lt_ge_cases k (2 ^ s)) as [H|H].
        * rewrite Ow by lia. rewrite Nz by auto. apply (gst_ext ltb s); auto. intros j Hj. apply ST. rewrite p2S; lia.
        * replace (a + k) with (a + 2 ^ s + (k - 2 ^ s)) by lia. rewrite Nw by lia.
          pose proof (gst_group ltb (fun _ => r) r 0 s (stage (fun _ => r) s (fun k => nth (a + k) x d)) 1 0) as T.
          cbn [Nat.add] in T. change (2 ^ 0) with 1 in T. specialize (T ltac:(lia) ltac:(auto) (k - 2 ^ s) ltac:(lia)).
          replace (1 * 2 ^ s + 0 + (k - 2 ^ s) * 1) with k in T by lia. rewrite T.
          apply (gst_ext ltb s); auto; [|lia]. intros j Hj. rewrite Oz by lia.
          replace (a + 2 ^ s + j) with (a + (2 ^ s + j)) by lia. rewrite ST by (rewrite p2S; lia). f_equal. lia.
      + intros k Hk. rewrite p2S in Hk. rewrite Ow by lia. rewrite Oz by lia. rewrite Ny.
        replace ((a <=? k) && (k <? a + 2 ^ s)) with false by lia.
        replace ((a + 2 ^ s <=? k) && (k <? a + 2 ^ s + 2 ^ s)) with false by lia. reflexivity.
  Qed.

  (** gather and scatter *)
  Lemma gather_ok {A} (dd : A) (m : list A) idx : (forall i, In i idx -> i < length m) ->
    gather m idx = Ok (map (fun i => nth i m dd) idx).
  Proof.
    induction idx as [|i t IH]; intros H; simpl; auto.
    rewrite (aget_lt m i dd) by (apply H; simpl; auto). simpl. rewrite IH by (intros; apply H; simpl; auto). reflexivity.
  Qed.
  Lemma scatter_ok {A} (dd : A) : forall idx vs (m : list A), length vs = length idx -> NoDup idx -> (forall i, In i idx -> i < length m) ->
    exists m', scatter m idx vs = Ok m' /\ length m' = length m /\
      (forall k, k < length idx -> nth (nth k idx 0) m' dd = nth k vs dd) /\
      (forall x, ~ In x idx -> nth x m' dd = nth x m dd).
  Proof.
    induction idx as [|i t IH]; intros [|v vs] m HL ND HI; simpl in HL; try discriminate.
    - exists m. simpl. repeat split; auto. intros; lia.
    - simpl. rewrite aset_lt by (apply HI; simpl; auto). simpl. inversion ND as [|? ? N1 N2]; subst.
      destruct (IH vs (upd m i v)) as (m' & E & L & Nk & No); auto.
      { intros j Hj. rewrite length_upd. apply HI. simpl; auto. }
      rewrite length_upd in L. exists m'. split; auto. split; auto. split.
      + intros [|k] Hk.
        * rewrite No by auto. apply nth_upd_eq. apply HI; simpl; auto.
        * apply Nk. lia.
      + intros x Hx. rewrite No by tauto. apply nth_upd_neq. intros ->. tauto.
  Qed.

  Definition view (st : list K * list V) (x : nat) : K * V := (nth x (fst st) dk, nth x (snd st) dv).

  Lemma land_pow a x : Nat.land (2 ^ a) x =? 0 = negb (bit a x).
  Proof.
    unfold bit. rewrite <- Nat.shiftr_div_pow2, <- Nat.bit0_odd, Nat.shiftr_spec by lia. rewrite Nat.add_0_l.
    destruct (Nat.testbit x a) eqn:E; simpl.
    - apply Nat.eqb_neq. intros H.
      assert (B : Nat.testbit (Nat.land (2 ^ a) x) a = true) by (rewrite Nat.land_spec, E, Nat.pow2_bits_true; reflexivity).
      rewrite H, Nat.bits_0 in B. discriminate.
    - apply Nat.eqb_eq. apply Nat.bits_inj. intros i. rewrite Nat.land_spec, Nat.bits_0.
      destruct (Nat.eq_dec i a) as [->|D]; [rewrite E; apply andb_false_r|].
      rewrite Nat.pow2_bits_false by lia. reflexivity.
  Qed.
  Lemma phase_rev_group a c s q low k : c + s <= S a -> low < 2 ^ c -> k < 2 ^ s ->
    phase_rev a (q * 2 ^ (c + s) + low + k * 2 ^ c) = phase_rev a (q * 2 ^ (c + s) + low).
  Proof.
    intros Hc Hl Hk. unfold phase_rev, bit. do 2 f_equal. replace (S a) with ((c + s) + (S a - (c + s))) by lia.
    rewrite (Nat.pow_add_r 2 (c + s)). pose proof (p2 (c + s)). pose proof (p2 (S a - (c + s))).
    rewrite <- !Nat.div_div by lia. f_equal.
    assert (E : 2 ^ (c + s) = 2 ^ s * 2 ^ c) by (rewrite Nat.pow_add_r; lia). pose proof (p2 c).
    transitivity q; [symmetry|]; [apply Nat.div_unique with (low + k * 2 ^ c)|apply Nat.div_unique with low]; rewrite ?E; nia.
  Qed.

  (** the group of positions of a work item *)
  Definition task (c s x : nat) : nat := (x / 2 ^ (c + s)) * 2 ^ c + x mod 2 ^ c.
  Lemma task_form c s q low k : low < 2 ^ c -> k < 2 ^ s -> task c s (q * 2 ^ (c + s) + low + k * 2 ^ c) = q * 2 ^ c + low.
  Proof.
    intros Hl Hk. unfold task. pose proof (p2 c). assert (E : 2 ^ (c + s) = 2 ^ s * 2 ^ c) by (rewrite Nat.pow_add_r; lia).
    replace ((q * 2 ^ (c + s) + low + k * 2 ^ c) / 2 ^ (c + s)) with q by (apply Nat.div_unique with (low + k * 2 ^ c); rewrite E; nia).
    f_equal. symmetry. apply Nat.mod_unique with (q * 2 ^ s + k); auto. rewrite E. nia.
  Qed.
  Lemma pos_form c s x : exists q low k, low < 2 ^ c /\ k < 2 ^ s /\ x = q * 2 ^ (c + s) + low + k * 2 ^ c.
  Proof.
    pose proof (p2 c). pose proof (p2 s). pose proof (p2 (c + s)).
    exists (x / 2 ^ (c + s)), (x mod 2 ^ c), ((x / 2 ^ c) mod 2 ^ s).
    split; [apply Nat.mod_upper_bound; lia|]. split; [apply Nat.mod_upper_bound; lia|].
    pose proof (Nat.div_mod x (2 ^ c) ltac:(lia)). pose proof (Nat.div_mod (x / 2 ^ c) (2 ^ s) ltac:(lia)).
    rewrite Nat.div_div in H3 by lia. rewrite (Nat.pow_add_r 2 c s). nia.
  Qed.

  Lemma nth_combine_fst {A B} (l : list A) (r : list B) k da db : length l = length r ->
    nth k (combine l r) (da, db) = (nth k l da, nth k r db).
  Proof. apply combine_nth. Qed.

  Lemma order_kernel_ok n a c s t (st : list K * list V) :
    1 <= s -> c + s <= S a -> c + s <= n -> 2 ^ n <= length (fst st) -> 2 ^ n <= length (snd st) -> t < 2 ^ (n - s) ->
    exists st', order_kernel ltb s (2 ^ (c + s - 1)) (2 ^ a) t st = Ok st' /\
      length (fst st') = length (fst st) /\ length (snd st') = length (snd st) /\
      forall x, view st' x = if (x <? 2 ^ n) && (task c s x =? t) then gst c s (phase_rev a) (view st) x else view st x.
  Proof.
    intros Hs Hca Hcn L1 L2 Ht. destruct st as [m id]. simpl fst in *. simpl snd in *.
    pose proof (p2 c) as Pc. pose proof (p2 s) as Ps.
    assert (Ecs : 2 ^ (c + s) = 2 ^ s * 2 ^ c) by (rewrite Nat.pow_add_r; lia).
    set (q := t / 2 ^ c). set (low := t mod 2 ^ c).
    assert (Hlow : low < 2 ^ c) by (apply Nat.mod_upper_bound; lia).
    assert (Et : t = q * 2 ^ c + low) by (pose proof (Nat.div_mod t (2 ^ c) ltac:(lia)); unfold q, low; lia).
    unfold order_kernel. rewrite Nat.shiftr_div_pow2.
    replace (2 ^ (c + s - 1) / 2 ^ (s - 1)) with (2 ^ c).
    2:{ replace (c + s - 1) with (c + (s - 1)) by lia. rewrite Nat.pow_add_r, Nat.div_mul; auto. pose proof (p2 (s - 1)); lia. }
    replace (Nat.land t (2 ^ c - 1)) with low.
    2:{ unfold low. rewrite <- (Nat.land_ones t c). f_equal. rewrite Nat.ones_equiv. lia. }
    set (base := q * 2 ^ (c + s) + low).
    replace (if s =? 1 then t * 2 - low else (t - low) * 2 ^ s + low) with base.
    2:{ unfold base. rewrite Ecs. destruct (Nat.eqb_spec s 1) as [->|]; [change (2 ^ 1) with 2|]; rewrite Et; nia. }
    replace (2 ^ a * 2) with (2 ^ S a) by (rewrite p2S; lia).
    rewrite land_pow. change (negb (bit (S a) base)) with (phase_rev a base).
    set (idx := map (fun k => k * 2 ^ c + base) (seq 0 (2 ^ s))).
    assert (Hmn : exists mm, 2 ^ n = mm * 2 ^ (c + s) /\ 2 ^ (n - s) = mm * 2 ^ c).
    { exists (2 ^ (n - (c + s))). split; rewrite <- Nat.pow_add_r; f_equal; lia. }
    destruct Hmn as (mm & Hm1 & Hm2).
    assert (Hq : q < mm) by nia.
    assert (G : forall k, k < 2 ^ s -> base + k * 2 ^ c < 2 ^ n) by (intros k Hk; unfold base; rewrite Hm1, Ecs; nia).
    assert (HI : forall i, In i idx -> exists k, k < 2 ^ s /\ i = base + k * 2 ^ c).
    { intros i Hi. apply in_map_iff in Hi. destruct Hi as (k & <- & Hk). apply in_seq in Hk. exists k. lia. }
    assert (HI1 : forall i, In i idx -> i < length m) by (intros i Hi; destruct (HI i Hi) as (k & Hk & ->); specialize (G k Hk); lia).
    assert (HI2 : forall i, In i idx -> i < length id) by (intros i Hi; destruct (HI i Hi) as (k & Hk & ->); specialize (G k Hk); lia).
    assert (Lidx : length idx = 2 ^ s) by (unfold idx; now rewrite map_length, seq_length).
    assert (Nidx : forall k, k < 2 ^ s -> nth k idx 0 = base + k * 2 ^ c).
    { intros k Hk. unfold idx. rewrite (nth_indep _ 0 (0 * 2 ^ c + base)) by (rewrite map_length, seq_length; auto).
      rewrite (map_nth (fun k => k * 2 ^ c + base)), seq_nth by auto. lia. }

    assert (ND : NoDup idx).
    { unfold idx. apply FinFun.Injective_map_NoDup; [|apply seq_NoDup]. intros u v E. nia. }
    rewrite (gather_ok dk m idx HI1), (gather_ok dv id idx HI2). simpl rbind.
    set (x0 := combine _ _).
    assert (Lx0 : length x0 = 2 ^ s) by (unfold x0; rewrite combine_length, !map_length, Lidx; lia).
    destruct (order_stencil_ok (phase_rev a base) s x0 0) as (y & Ey & Ly & Ny & _); [lia|].
    rewrite Ey. simpl rbind.
    assert (Lf : length (map fst y) = length idx) by (rewrite map_length; lia).
    assert (Lg : length (map snd y) = length idx) by (rewrite map_length; lia).
    destruct (scatter_ok dk idx (map fst y) m Lf ND HI1) as (m' & Em & Lm & Nm & Om).
    destruct (scatter_ok dv idx (map snd y) id Lg ND HI2) as (id' & Ed & Ld & Nd & Od).
    rewrite Em. simpl rbind. rewrite Ed. simpl rbind. eexists; split; [reflexivity|]. simpl. split; auto. split; auto.
    intros x. unfold view at 1. simpl.
    destruct ((x <? 2 ^ n) && (task c s x =? t)) eqn:C.
    - destruct (pos_form c s x) as (q' & low' & k & Hl' & Hk & Ex).
      assert (T : task c s x = t) by lia. rewrite Ex, task_form in T by auto.
      assert (q' = q /\ low' = low) as [-> ->].
      { split; [unfold q; apply Nat.div_unique with low' | unfold low; apply Nat.mod_unique with q']; auto; rewrite <- T; lia. }
      fold base in Ex. rewrite Ex. rewrite <- Nidx by auto. rewrite Nm, Nd by (rewrite Lidx; auto).
      rewrite Nidx by auto. unfold base.
      rewrite (gst_group ltb (phase_rev a) (phase_rev a base)); auto.
      2:{ intros j Hj. apply phase_rev_group; auto. }
      assert (E : forall z, nth z (map fst y) dk = fst (nth z y d)) by (intros z; change dk with (fst d); apply map_nth).
      assert (E' : forall z, nth z (map snd y) dv = snd (nth z y d)) by (intros z; change dv with (snd d) at 1; apply map_nth).
      rewrite E, E', <- surjective_pairing.
      rewrite <- (Nat.add_0_l k) at 1. rewrite Ny by auto. apply (gst_ext ltb s); auto.
      intros j Hj. simpl. unfold x0. rewrite combine_nth by (now rewrite !map_length). unfold view. simpl.
      rewrite (nth_indep _ dk ((fun i => nth i m dk) 0)) by (rewrite map_length, Lidx; auto). rewrite (map_nth (fun i => nth i m dk)).
      rewrite (nth_indep _ dv ((fun i => nth i id dv) 0)) by (rewrite map_length, Lidx; auto). rewrite (map_nth (fun i => nth i id dv)).
      rewrite Nidx by auto. reflexivity.
    - assert (NI : ~ In x idx).
      { intros Hi. destruct (HI x Hi) as (k & Hk & Ex). unfold base in Ex.
        pose proof (task_form c s q low k Hlow Hk) as T. rewrite <- Ex, <- Et in T. specialize (G k Hk). unfold base in G. lia. }
      rewrite Om, Od by auto. reflexivity.
  Qed.

  Lemma task_bound n c s x : c + s <= n -> x < 2 ^ n -> task c s x < 2 ^ (n - s).
  Proof.
    intros Hn Hx. unfold task. pose proof (p2 c). pose proof (p2 (c + s)).
    assert (E : 2 ^ n = 2 ^ (n - (c + s)) * 2 ^ (c + s)) by (rewrite <- Nat.pow_add_r; f_equal; lia).
    assert (E' : 2 ^ (n - s) = 2 ^ (n - (c + s)) * 2 ^ c) by (rewrite <- Nat.pow_add_r; f_equal; lia).
    rewrite E'. assert (x / 2 ^ (c + s) < 2 ^ (n - (c + s))) by (apply Nat.div_lt_upper_bound; lia).
    pose proof (Nat.mod_upper_bound x (2 ^ c) ltac:(lia)). nia.
  Qed.

  (** every schedule of the work items of one kernel *)
  Lemma par_kernel_ok n a c s : 1 <= s -> c + s <= S a -> c + s <= n -> forall order done (st0 st : list K * list V),
    NoDup (done ++ order) -> (forall t, In t order -> t < 2 ^ (n - s)) ->
    2 ^ n <= length (fst st) -> 2 ^ n <= length (snd st) ->
    (forall x, view st x = if (x <? 2 ^ n) && (if in_dec Nat.eq_dec (task c s x) done then true else false) then gst c s (phase_rev a) (view st0) x else view st0 x) ->
    exists st', par_for order (order_kernel ltb s (2 ^ (c + s - 1)) (2 ^ a)) st = Ok st' /\
      length (fst st') = length (fst st) /\ length (snd st') = length (snd st) /\
      forall x, view st' x = if (x <? 2 ^ n) && (if in_dec Nat.eq_dec (task c s x) (done ++ order) then true else false) then gst c s (phase_rev a) (view st0) x else view st0 x.
  Proof.
    intros Hs Hca Hcn. unfold par_for. induction order as [|t o IH]; intros done st0 st ND HB L1 L2 HV.
    - exists st. rewrite app_nil_r. simpl. auto.
    - simpl rfold. destruct (order_kernel_ok n a c s t st) as (st1 & E1 & M1 & M2 & V1); auto; [apply HB; simpl; auto|].
      rewrite E1. simpl rbind.
      destruct (IH (done ++ [t]) st0 st1) as (st' & E' & M1' & M2' & V'); try lia.
      + now rewrite <- app_assoc.
      + intros; apply HB; simpl; auto.
      + intros x. rewrite V1. destruct (Nat.ltb_spec x (2 ^ n)) as [Hx|]; simpl andb.
        2:{ rewrite HV. replace (x <? 2 ^ n) with false by lia. reflexivity. }
        destruct (Nat.eqb_spec (task c s x) t) as [ET|NT].
        * destruct (in_dec Nat.eq_dec (task c s x) (done ++ [t])) as [_|NI]; [|exfalso; apply NI; rewrite ET; apply in_or_app; simpl; auto].
          destruct (pos_form c s x) as (q & low & k & Hl & Hk & Ex). rewrite Ex.
          apply gst_group_ext; auto. { intros; apply phase_rev_group; auto. }
          intros j Hj. rewrite HV. rewrite !task_form by auto.
          destruct (in_dec Nat.eq_dec (q * 2 ^ c + low) done) as [HD|]; [|now rewrite andb_false_r].
          exfalso. rewrite Ex, task_form in ET by auto. subst t. apply NoDup_remove_2 in ND. apply ND. apply in_or_app; auto.
        * rewrite HV. replace (x <? 2 ^ n) with true by lia. simpl andb.
          destruct (in_dec Nat.eq_dec (task c s x) (done ++ [t])) as [I|NI], (in_dec Nat.eq_dec (task c s x) done) as [I2|NI2]; auto.
          -- apply in_app_or in I. simpl in I. destruct I as [I|[I|[]]]; [tauto|congruence].
          -- exfalso. apply NI. apply in_or_app; auto.
      + exists st'. split; auto. split; [lia|]. split; [lia|]. intros x. rewrite V'. now rewrite <- app_assoc.
  Qed.
  Lemma kernel_sched_ok n a c s order (st : list K * list V) : 1 <= s -> c + s <= S a -> c + s <= n ->
    Permutation order (seq 0 (2 ^ (n - s))) ->
    2 ^ n <= length (fst st) -> 2 ^ n <= length (snd st) ->
    exists st', par_for order (order_kernel ltb s (2 ^ (c + s - 1)) (2 ^ a)) st = Ok st' /\
      length (fst st') = length (fst st) /\ length (snd st') = length (snd st) /\
      forall x, view st' x = if x <? 2 ^ n then gst c s (phase_rev a) (view st) x else view st x.
  Proof.
    intros Hs Hca Hcn HP L1 L2.
    destruct (par_kernel_ok n a c s Hs Hca Hcn order [] st st) as (st' & E & M1 & M2 & V'); auto.
    - simpl. apply (Permutation_NoDup (Permutation_sym HP)). apply seq_NoDup.
    - intros t Ht. apply (Permutation_in _ HP) in Ht. apply in_seq in Ht. lia.
    - intros x. simpl. now rewrite andb_false_r.
    - exists st'. split; auto. split; auto. split; auto. intros x. rewrite V'. simpl app.
      destruct (Nat.ltb_spec x (2 ^ n)); simpl; auto.
      destruct (in_dec Nat.eq_dec (task c s x) order) as [|NI]; auto. exfalso. apply NI.
      apply (Permutation_in _ (Permutation_sym HP)). apply in_seq. split; [lia|]. simpl. now apply task_bound.
  Qed.

  (** the loop on inc *)
  Lemma ninc_range ms b : 1 <= ninc_of ms (2 ^ b) <= S b.
  Proof.
    unfold ninc_of.
    assert (H : forall k, 2 ^ k <= 2 ^ b -> k <= b) by (intros k Hk; apply (Nat.pow_le_mono_r_iff 2); auto; lia).
    pose proof (H 4). pose proof (H 3). pose proof (H 2). pose proof (H 1).
    change (2 ^ 4) with 16 in *. change (2 ^ 3) with 8 in *. change (2 ^ 2) with 4 in *. change (2 ^ 1) with 2 in *.
    repeat match goal with |- context [if ?c then _ else _] => destruct c eqn:? end; lia.
  Qed.
  Lemma shiftr_pow n s : Nat.shiftr (2 ^ n) s = if s <=? n then 2 ^ (n - s) else 0.
  Proof.
    rewrite Nat.shiftr_div_pow2. destruct (Nat.leb_spec s n).
    - replace n with (n - s + s) at 1 by lia. rewrite Nat.pow_add_r. apply Nat.div_mul. pose proof (p2 s); lia.
    - apply Nat.div_small. apply Nat.pow_lt_mono_r; lia.
  Qed.
  Definition sched_ok (order : nat -> nat -> nat -> list nat) := forall l i n, Permutation (order l i n) (seq 0 n).
  Definition upto n (F : nat -> K * V) (G : nat -> K * V) x := if x <? 2 ^ n then F x else G x.

  Lemma inc_loop_ok ms n a order : sched_ok order -> forall fuel b (st : list K * list V), b < fuel -> b <= a -> b < n ->
    2 ^ n <= length (fst st) -> 2 ^ n <= length (snd st) ->
    exists st', inc_loop ltb fuel ms (2 ^ n) order (2 ^ a) (2 ^ b) st = Ok st' /\
      length (fst st') = length (fst st) /\ length (snd st') = length (snd st) /\
      forall x, view st' x = if x <? 2 ^ n then gst 0 (S b) (phase_rev a) (view st) x else view st x.
  Proof.
    intros SO. induction fuel as [|fuel IH]; intros b st Hf Hba Hbn L1 L2; [lia|].
    pose proof (p2 b) as Pb. cbn [inc_loop]. destruct (2 ^ b) as [|ib] eqn:Eib; [lia|]. rewrite <- Eib.
    pose proof (ninc_range ms b) as Hr. set (s := ninc_of ms (2 ^ b)) in *.
    set (c := S b - s).
    assert (Enth : Nat.shiftr (2 ^ n) s = 2 ^ (n - s)) by (rewrite shiftr_pow; replace (s <=? n) with true by lia; reflexivity).
    rewrite Enth. pose proof (p2 (n - s)) as Pt. replace (2 ^ (n - s) =? 0) with false by lia.
    destruct (kernel_sched_ok n a c s (order (2 ^ a) (2 ^ b) (2 ^ (n - s))) st) as (st1 & E1 & M1 & M2 & V1); auto; try lia.
    replace (c + s - 1) with b in E1 by lia. rewrite E1. simpl rbind.
    rewrite shiftr_pow. destruct (Nat.leb_spec s b) as [Hsb|Hsb].
    - destruct (IH (b - s) st1) as (st' & E' & M1' & M2' & V'); try lia.
      exists st'. split; auto. split; [lia|]. split; [lia|]. intros x. rewrite V', V1.
      destruct (Nat.ltb_spec x (2 ^ n)) as [Hx|]; auto.
      replace (S b) with (c + s) by lia. rewrite gst_split. replace (S (b - s)) with c by lia.
      apply (gst_ext ltb n); auto; [lia|]. intros z Hz. rewrite V1. replace (z <? 2 ^ n) with true by lia. reflexivity.
    - exists st1. split; [destruct fuel; reflexivity|]. split; auto. split; auto. intros x. rewrite V1.
      destruct (x <? 2 ^ n); auto. replace (S b) with s by lia. replace c with 0 by lia. reflexivity.
  Qed.

  (** the network seen as a sequence of phases *)
  Fixpoint phases (a k : nat) (F : nat -> K * V) : nat -> K * V :=
    match k with O => F | S k' => phases (S a) k' (gst 0 (S a) (phase_rev a) F) end.
  Lemma phases_ext n k : forall a F G, a + k <= n -> (forall x, x < 2 ^ n -> F x = G x) ->
    forall x, x < 2 ^ n -> phases a k F x = phases a k G x.
  Proof.
    induction k as [|k IH]; intros a F G Hn H x Hx; cbn [phases]; auto.
    apply IH; auto; [lia|]. intros z Hz. apply (gst_ext ltb n); auto. lia.
  Qed.
  Lemma length_loop_ok ms n order : sched_ok order -> n < 33 -> forall k fuel a (st : list K * list V), k <= fuel -> a + k = n ->
    2 ^ n <= length (fst st) -> 2 ^ n <= length (snd st) ->
    exists st', length_loop ltb fuel ms (2 ^ n) order (2 ^ a) st = Ok st' /\
      length (fst st') = length (fst st) /\ length (snd st') = length (snd st) /\
      forall x, view st' x = if x <? 2 ^ n then phases a k (view st) x else view st x.
  Proof.
    intros SO H33. induction k as [|k IH]; intros fuel a st Hf Hak L1 L2.
    - replace a with n by lia. exists st. split.
      + destruct fuel; cbn [length_loop]; rewrite Nat.ltb_irrefl; exact eq_refl.
      + split; auto. split; auto. intros x. destruct (x <? 2 ^ n); auto.
    - destruct fuel as [|fuel]; [lia|]. cbn [length_loop].
      assert (HL : 2 ^ a < 2 ^ n) by (apply Nat.pow_lt_mono_r; lia). replace (2 ^ a <? 2 ^ n) with true by lia.
      destruct (inc_loop_ok ms n a order SO 33 a st) as (st1 & E1 & M1 & M2 & V1); auto; try lia.
      rewrite E1. simpl rbind. replace (2 ^ a * 2) with (2 ^ S a) by (rewrite p2S; lia).
      destruct (IH fuel (S a) st1) as (st' & E' & M1' & M2' & V'); try lia.
      exists st'. split; auto. split; [lia|]. split; [lia|]. intros x. rewrite V', V1.
      destruct (Nat.ltb_spec x (2 ^ n)) as [Hx|]; auto. cbn [phases].
      apply (phases_ext n); auto; [lia|]. intros z Hz. rewrite V1. replace (z <? 2 ^ n) with true by lia. reflexivity.
  Qed.

  (** sortedness and permutation of the phases *)
  Lemma phases_perm n k : forall a F, a + k <= n -> Permutation (map (phases a k F) (seq 0 (2 ^ n))) (map F (seq 0 (2 ^ n))).
  Proof.
    induction k as [|k IH]; intros a F Hn; cbn [phases]; auto.
    rewrite IH by lia. apply gst_perm; [lia|]. intros b q y Hb Hy.
    pose proof (phase_rev_group a b 1 q y 1 ltac:(lia) Hy ltac:(simpl; lia)) as R.
    replace (b + 1) with (S b) in R by lia. rewrite <- R. f_equal. lia.
  Qed.
  Hypothesis SW : strict_weak ltb.
  Lemma phases_inv t k : forall a F, phase_inv a (img ltb t F) -> phase_inv (a + k) (img ltb t (phases a k F)).
  Proof.
    induction k as [|k IH]; intros a F H; cbn [phases].
    - now rewrite Nat.add_0_r.
    - rewrite Nat.add_succ_r. apply (IH (S a)). intros q. destruct (phase_step a _ H q) as (m & Hm & S).
      exists m. split; auto. intros x Hx. rewrite <- S by auto. now apply gst_img.
  Qed.
  Lemma phases_sorted n F i j : i < j -> j < 2 ^ n ->
    ltb (fst (phases 0 n F j)) (fst (phases 0 n F i)) = false.
  Proof.
    intros Hij Hj. set (t := fst (phases 0 n F i)).
    destruct (phases_inv t n 0 F (phase_inv_0 _) 0) as (m & Hm & S). simpl in S.
    pose proof (S i ltac:(lia)) as Si. pose proof (S j Hj) as Sj. unfold img in Si, Sj.
    assert (IR : ltb t t = false) by (destruct SW as [AS _]; destruct (ltb t t) eqn:E; auto; rewrite (AS _ _ E) in E; discriminate).
    fold t in Si. rewrite IR in Si. rewrite Sj. destruct (Nat.ltb_spec i m); [discriminate|].
    destruct (Nat.ltb_spec j m); [lia|reflexivity].
  Qed.
End P.
