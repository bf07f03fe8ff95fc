(** Proofs about the sinks: time reversal, central objects. *)
Require Import Reals Lra.
From Verif Require Import Base Par Scan Scan_spec Riemann Fmm_spec Fmm_reps Sgfmm_util Sink Sink_spec Sink_proofs Sink_accr Sink_forces Sink_cons Sink_step.
From Coq Require Import ZifyBool ZifyNat.
Local Open Scope R_scope.

(** ** Time reversal *)
Lemma list_nth {A} (l l' : list A) n d : length l = n -> length l' = n -> (forall i, (i < n)%nat -> nth i l d = nth i l' d) -> l = l'.
Proof. intros L L' H. apply (nth_ext l l' d d); [congruence|]. intros i Hi. apply H. lia. Qed.
Lemma same_reverse n sk : same_size n sk -> same_size n (reverse sk).
Proof. intros []. constructor; cbn; auto. now rewrite map_length. Qed.
Lemma reverse_at n sk i : same_size n sk -> (i < n)%nat -> sink_at (reverse sk) i = let s := sink_at sk i in mks (s_x s) (rvneg (s_v s)) (s_asph s) (s_aext s) (s_m s) (s_l s) (s_r s).
Proof.
  intros [] Hi. unfold sink_at, reverse. cbn. f_equal. rewrite (nth_indep _ rvzero (rvneg rvzero)) by (rewrite map_length; lia). apply map_nth.
Qed.
Lemma leapfrog_upto G dt n sk : same_size n sk -> exists sk2, nsinks sk2 = n /\ (forall i, (i < n)%nat -> s_x (sink_at sk2 i) = rvadd (s_x (sink_at sk i)) (rvscal dt (half_v G dt sk i)) /\ s_m (sink_at sk2 i) = s_m (sink_at sk i)) /\
  upto n (sinks_leapfrog G dt sk) (fun i => let s := sink_at sk i in
    mks (rvadd (s_x s) (rvscal dt (half_v G dt sk i))) (rvadd (half_v G dt sk i) (rvscal (dt / 2) (rvadd (s_asph s) (ext_acc G sk2 i)))) (s_asph s) (ext_acc G sk2 i) (s_m s) (s_l s) (s_r s)).
Proof.
  intros SS. destruct (predictor_upto G dt n sk SS) as (a & Ea & Sa & Fa). exists a. split; [destruct Sa; auto|]. split; [intros i Hi; rewrite Fa by auto; auto|].
  unfold sinks_leapfrog. rewrite Ea. cbn [rbind]. destruct (ext_upto G n a Sa) as (b & Eb & Sb & Fb). rewrite Eb. cbn [rbind].
  eapply upto_ext; [apply corrector_upto; auto|]. intros i Hi. cbv beta zeta. rewrite Fb by auto. cbv beta zeta. rewrite Fa by auto. reflexivity.
Qed.
Lemma reversible G dt sk : same_size (nsinks sk) sk -> exists sk1 sk2, sinks_leapfrog G dt sk = Ok sk1 /\ sinks_leapfrog G dt (reverse sk1) = Ok sk2 /\
  sk_pos (reverse sk2) = sk_pos sk /\ sk_vel (reverse sk2) = sk_vel sk /\ sk_asph (reverse sk2) = sk_asph sk /\ sk_mass (reverse sk2) = sk_mass sk /\ sk_ang (reverse sk2) = sk_ang sk /\ sk_racc (reverse sk2) = sk_racc sk.
Proof.
  set (n := nsinks sk). intros SS. destruct (leapfrog_upto G dt n sk SS) as (a & Na & Fa & sk1 & E1 & S1 & F1).
  pose proof (same_reverse n sk1 S1) as SR. destruct (leapfrog_upto G dt n (reverse sk1) SR) as (b & Nb & Fb & sk2 & E2 & S2 & F2).
  exists sk1, sk2. split; [exact E1|]. split; [exact E2|].
  assert (X1 : forall i, (i < n)%nat -> ext_acc G (reverse sk1) i = ext_acc G a i).
  { intros i Hi. assert (NR : nsinks (reverse sk1) = n) by (destruct SR; auto). apply ext_acc_same; rewrite ?NR; auto. intros j Hj. rewrite (reverse_at n sk1 j S1 Hj). cbv zeta. cbn [s_x s_m]. rewrite F1 by auto. cbn [s_x s_m].
    destruct (Fa j Hj) as [-> ->]. auto. }
  assert (HV : forall i, (i < n)%nat -> half_v G dt (reverse sk1) i = rvneg (half_v G dt sk i)).
  { intros i Hi. unfold half_v at 1. cbv zeta. rewrite X1, (reverse_at n sk1 i S1 Hi) by auto. cbv zeta. cbn [s_v s_asph]. rewrite F1 by auto. cbn [s_v s_asph]. apply rv3_eq; simpl; ring. }
  assert (XB : forall i, (i < n)%nat -> s_x (sink_at b i) = s_x (sink_at sk i)).
  { intros i Hi. destruct (Fb i Hi) as [-> _]. rewrite HV, (reverse_at n sk1 i S1 Hi) by auto. cbv zeta. cbn [s_x]. rewrite F1 by auto. cbn [s_x]. apply rv3_eq; simpl; ring. }
  assert (X2 : forall i, (i < n)%nat -> ext_acc G b i = ext_acc G sk i).
  { intros i Hi. apply ext_acc_same; [exact Nb|lia|]. intros j Hj. rewrite Nb in Hj. split; [auto|]. destruct (Fb j Hj) as [_ ->]. rewrite (reverse_at n sk1 j S1 Hj). cbv zeta. cbn [s_m]. rewrite F1 by auto. reflexivity. }
  assert (FF2 : forall i, (i < n)%nat -> sink_at (reverse sk2) i = let s := sink_at sk i in mks (s_x s) (s_v s) (s_asph s) (ext_acc G sk i) (s_m s) (s_l s) (s_r s)).
  { intros i Hi. rewrite (reverse_at n sk2 i S2 Hi). cbv zeta. rewrite F2 by auto. cbv zeta. rewrite (reverse_at n sk1 i S1 Hi). cbv zeta. rewrite F1 by auto. cbv zeta. cbn [s_x s_v s_asph s_aext s_m s_l s_r].
    rewrite HV, X2 by auto. f_equal; apply rv3_eq; unfold half_v; simpl; ring. }
  pose proof (same_reverse n sk2 S2) as SR2. destruct SR2 as [P1 P2 P3 P4 P5 P6 P7]. destruct SS as [Q1 Q2 Q3 Q4 Q5 Q6 Q7].
  repeat split.
  - apply (list_nth _ _ n rvzero); auto. intros i Hi. exact (f_equal s_x (FF2 i Hi)).
  - apply (list_nth _ _ n rvzero); auto. intros i Hi. exact (f_equal s_v (FF2 i Hi)).
  - apply (list_nth _ _ n rvzero); auto. intros i Hi. exact (f_equal s_asph (FF2 i Hi)).
  - apply (list_nth _ _ n 0); auto. intros i Hi. exact (f_equal s_m (FF2 i Hi)).
  - apply (list_nth _ _ n rvzero); auto. intros i Hi. exact (f_equal s_l (FF2 i Hi)).
  - apply (list_nth _ _ n 0); auto. intros i Hi. exact (f_equal s_r (FF2 i Hi)).
Qed.

(** ** Central objects *)
Lemma sphere_radius f : accretion_sphere f = match radius f with Some r => Some (rvzero, r) | None => None end.
Proof. destruct f; reflexivity. Qed.
Lemma selected_nil (b : gpart -> bool) parts : selected (map (fun q => if b q then 1%Z else 0%Z) parts) (length parts) = [] <-> filter b parts = [].
Proof.
  pose (d := mkgp rvzero rvzero rvzero rvzero 0%Z). rewrite <- (selected_filter b parts d). split; [intros ->; reflexivity|]. apply map_eq_nil.
Qed.
Section Central.
  Context (e : senv) (EO : senv_ok e).
  Lemma central_patch f Ra t r p parts : radius f = Some Ra -> (Z.of_nat (length parts) < 2 ^ 32)%Z ->
    point_mass_patch e rvzero Ra t r p parts = if forallb (outside f) parts then Ok parts else match filter (outside f) parts with [] => UB | l => Ok l end.
  Proof.
    intros HR HL. unfold point_mass_patch. cbv zeta. pose (d := mkgp rvzero rvzero rvzero rvzero 0%Z).
    rewrite (par_write_ok _ (fun i => if outside f (nth i parts d) then 1%Z else 0%Z) _ (length parts)).
    - cbn [rbind]. replace (map (fun i => if outside f (nth i parts d) then 1%Z else 0%Z) (seq 0 (length parts))) with (map (fun q => if outside f q then 1%Z else 0%Z) parts)
        by (rewrite <- (map_nth_seq parts d) at 1; now rewrite map_map).
      rewrite (compact_ok e EO (outside f)) by auto. cbn [rbind]. rewrite map_map.
      rewrite (map_ext (fun q => (1 - (if outside f q then 1 else 0))%Z) (fun q => if negb (outside f q) then 1%Z else 0%Z)) by (intros q; destruct (outside f q); reflexivity).
      rewrite (compact_ok e EO (fun q => negb (outside f q))) by auto. cbn [rbind].
      assert (FA : forallb (outside f) parts = true <-> filter (fun q => negb (outside f q)) parts = []).
      { clear. induction parts as [|q l IH]; simpl; [tauto|]. destruct (outside f q); simpl; auto. split; discriminate. }
      destruct (forallb (outside f) parts) eqn:B.
      + rewrite (proj2 (selected_nil (fun q => negb (outside f q)) parts)) by (now apply FA). reflexivity.
      + destruct (selected (map (fun q => if negb (outside f q) then 1%Z else 0%Z) parts) (length parts)) as [|i l] eqn:S.
        * apply selected_nil, FA in S. discriminate.
        * cbn [length Nat.ltb Nat.leb]. destruct (selected (map (fun q => if outside f q then 1%Z else 0%Z) parts) (length parts)) as [|j l'] eqn:S'; cbn [opt_ids].
          -- rewrite (proj1 (selected_nil (outside f) parts) S'). reflexivity.
          -- rewrite (keep_ids_ok (j :: l') parts d), <- S', (selected_filter (outside f) parts d).
             ++ destruct (filter (outside f) parts) eqn:EF; auto. apply selected_nil in EF. rewrite EF in S'. discriminate.
             ++ intros i' Hi. rewrite <- S' in Hi. now apply selected_lt in Hi.
    - apply order_ok; auto.
    - apply repeat_length.
    - intros i Hi. rewrite (aget_lt parts i d) by auto. cbn [rbind]. f_equal. unfold outside. rewrite HR. unfold rvdot, rvsub, rvzero. cbn [rx ry rz].
      set (A := _ - 0). set (B := _ - 0). set (C := _ - 0). destruct (Rgt_dec _ _) as [X|X], (Rlt_dec _ _) as [Y|Y]; auto; exfalso; unfold A, B, C in *; clear - X Y; lra.
  Qed.

  Lemma central_one f t w : world_ok w -> (forall rd l, In rd w -> In l rd -> l <> [] -> exists q, In q l /\ outside f q = true) ->
    match accretion_sphere f with Some (c, ra) => for_each_nonempty (point_mass_patch e c ra t) w | None => Ok w end = Ok (map (map (filter (outside f))) w).
  Proof.
    intros WO H. rewrite sphere_radius. destruct (radius f) as [Ra|] eqn:HR.
    - unfold for_each_nonempty. rewrite (over_patches_ok _ (filter (outside f))); auto. intros r p rd l Hrd Hl.
      destruct l as [|q0 l0] eqn:EL; [reflexivity|]. rewrite <- EL in *. rewrite (central_patch f Ra) by (auto; eapply WO; eauto).
      destruct (forallb (outside f) l) eqn:B.
      + f_equal. symmetry. clear - B. induction l as [|q l IH]; auto. simpl in *. apply andb_prop in B. destruct B as [-> B]. now rewrite IH.
      + destruct (H rd l Hrd Hl) as (q & Hq & O); [rewrite EL; discriminate|]. destruct (filter (outside f) l) eqn:EF; auto.
        exfalso. assert (I : In q (filter (outside f) l)) by (apply filter_In; auto). rewrite EF in I. destruct I.
    - f_equal. symmetry. transitivity (map (fun rd : rankdata => rd) w); [|apply map_id]. apply map_ext. intros rd. transitivity (map (fun l : list gpart => l) rd); [|apply map_id]. apply map_ext. intros l.
      induction l as [|q l IH]; auto. simpl. unfold outside at 1. rewrite HR. now rewrite IH.
  Qed.
  Lemma filter_filter {A} (b c : A -> bool) l : filter b (filter c l) = filter (fun x => c x && b x) l.
  Proof. induction l as [|a l IH]; simpl; auto. destruct (c a); simpl; [destruct (b a)|]; rewrite IH; reflexivity. Qed.
  Lemma central_all : forall fs k w, world_ok w -> (forall rd l, In rd w -> In l rd -> l <> [] -> exists q, In q l /\ forall f, In f fs -> outside f q = true) ->
    rfold (fun tf w => match accretion_sphere (snd tf) with Some (c, ra) => for_each_nonempty (point_mass_patch e c ra (fst tf)) w | None => Ok w end) (combine (seq k (length fs)) fs) w
    = Ok (map (map (filter (fun q => forallb (fun f => outside f q) fs))) w).
  Proof.
    induction fs as [|f fs IH]; intros k w WO H.
    - cbn. f_equal. symmetry. transitivity (map (fun rd : rankdata => rd) w); [|apply map_id]. apply map_ext. intros rd. transitivity (map (fun l : list gpart => l) rd); [|apply map_id]. apply map_ext. intros l.
      induction l as [|q l IH]; auto. simpl. now rewrite IH.
    - cbn [length seq combine rfold fst snd]. rewrite central_one; auto.
      + cbn [rbind]. rewrite IH.
        * rewrite map_map. f_equal. apply map_ext. intros rd. rewrite map_map. apply map_ext. intros l. rewrite filter_filter. reflexivity.
        * intros rd l Hrd Hl. apply in_map_iff in Hrd. destruct Hrd as (rd0 & <- & Hrd). apply in_map_iff in Hl. destruct Hl as (l0 & <- & Hl).
          specialize (WO rd0 l0 Hrd Hl). assert (LE : (length (filter (outside f) l0) <= length l0)%nat) by (clear; induction l0 as [|x l IH]; simpl; auto; destruct (outside f x); simpl; lia). lia.
        * intros rd l Hrd Hl NE. apply in_map_iff in Hrd. destruct Hrd as (rd0 & <- & Hrd). apply in_map_iff in Hl. destruct Hl as (l0 & <- & Hl).
          destruct (H rd0 l0 Hrd Hl) as (q & Hq & A). { intros ->. apply NE. reflexivity. }
          exists q. split; [apply filter_In; split; auto; apply A; simpl; auto|intros; apply A; simpl; auto].
      + intros rd l Hrd Hl NE. destruct (H rd l Hrd Hl NE) as (q & Hq & A). exists q. split; auto. apply A. simpl; auto.
  Qed.
  Lemma mapi_ub {A B} (f : nat -> A -> res B) l a : (forall i a, In a l -> f i a = UB \/ exists b, f i a = Ok b) -> In a l -> (forall i, f i a = UB) -> forall i, mapi f i l = UB.
  Proof.
    intros H Ha F. induction l as [|x l IH]; [destruct Ha|]. intros i. cbn [mapi]. destruct (H i x) as [->|(b & E)]; [simpl; auto|reflexivity|].
    destruct Ha as [->|Ha]; [rewrite F in E; discriminate|]. rewrite E. cbn [rbind]. rewrite IH; auto. intros j y Hy. apply H. simpl; auto.
  Qed.
  Lemma mapi_cases {A B} (f : nat -> A -> res B) l : (forall i a, In a l -> f i a = UB \/ exists b, f i a = Ok b) -> forall i, mapi f i l = UB \/ exists b, mapi f i l = Ok b.
  Proof.
    intros H. induction l as [|x l IH]; intros i; cbn [mapi]; [right; eauto|]. destruct (H i x) as [->|(b & ->)]; [simpl; auto|left; reflexivity|]. cbn [rbind].
    destruct (IH ltac:(intros; apply H; simpl; auto) (S i)) as [->|(bs & ->)]; [left; reflexivity|right; cbn [rbind]; eauto].
  Qed.
  Lemma central_ub f Ra w rd l : radius f = Some Ra -> world_ok w -> In rd w -> In l rd -> l <> [] -> (forall q, In q l -> outside f q = false) ->
    point_mass_accrete_particles e [f] w = UB.
  Proof.
    intros HR WO Hrd Hl NE H. unfold point_mass_accrete_particles. cbn [length seq combine rfold fst snd]. rewrite sphere_radius, HR.
    assert (C : forall rd l, In rd w -> In l rd -> forall r p, (match l with [] => Ok [] | _ => point_mass_patch e rvzero Ra 0 r p l end = UB \/ exists b, match l with [] => Ok [] | _ => point_mass_patch e rvzero Ra 0 r p l end = Ok b)).
    { intros rd' l' H1 H2 r p. destruct l' as [|q l1] eqn:E; [right; eauto|]. rewrite <- E in *. rewrite (central_patch f Ra) by (auto; eapply WO; eauto).
      destruct (forallb _ _); [right; eauto|]. destruct (filter _ _); [left; auto|right; eauto]. }
    unfold for_each_nonempty, over_patches. rewrite (mapi_ub _ w rd); auto.
    - intros r rd' H1. apply mapi_cases. intros p l' H2. apply (C rd' l'); auto.
    - intros r. apply (mapi_ub _ rd l); auto.
      + intros p l' H2. apply (C rd l'); auto.
      + intros p. destruct l as [|q l0] eqn:E; [congruence|]. rewrite <- E in *. rewrite (central_patch f Ra) by (auto; eapply WO; eauto).
        assert (FE : filter (outside f) l = []). { clear - H. induction l as [|x l IH]; auto. simpl. rewrite H by (simpl; auto). apply IH. intros; apply H; simpl; auto. }
        rewrite FE. rewrite E at 1. cbn [forallb]. rewrite (H q) by (rewrite E; simpl; auto). reflexivity.
  Qed.
End Central.
