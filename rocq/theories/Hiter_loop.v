(** The loops around the kernel of the iteration. *)
Require Import Reals Lra.
From Verif Require Import Base Par BVH Fmm_spec Ncache Ncache_spec Sphd Sphd_spec Sphker Hiter Hiter_spec Hiter_proofs.
From Coq Require Import ZifyBool ZifyNat.
Local Open Scope R_scope.

Lemma fmax_lt l : forall x c, fold_left Rmax l x < c <-> x < c /\ forall e, In e l -> e < c.
Proof.
  induction l as [|a l IH]; intros x c; cbn [fold_left]; [split; [intros H; split; auto; intros e []|tauto]|]. rewrite IH. split.
  - intros [U V]. pose proof (Rmax_l x a). pose proof (Rmax_r x a). split; [lra|]. intros e [<-|He]; [lra|auto].
  - intros [U V]. split; [apply Rmax_lub_lt; auto; apply V; simpl; auto|]. intros e He. apply V. simpl; auto.
Qed.
Lemma fmin_lt l : forall x c, c <= fold_left Rmin l x <-> c <= x /\ forall e, In e l -> c <= e.
Proof.
  induction l as [|a l IH]; intros x c; cbn [fold_left]; [split; [intros H; split; auto; intros e []|tauto]|]. rewrite IH. split.
  - intros [U V]. pose proof (Rmin_l x a). pose proof (Rmin_r x a). split; [lra|]. intros e [<-|He]; [lra|auto].
  - intros [U V]. split; [apply Rmin_glb; auto; apply V; simpl; auto|]. intros e He. apply V. simpl; auto.
Qed.
Lemma rank_max_gen ls : (forall l, In l ls -> l <> []) -> forall m0, exists M, rfold (fun l m => x <- compute_max l ;; Ok (Rmax m x)) ls m0 = Ok M /\
  forall c, M < c <-> m0 < c /\ forall l, In l ls -> forall e, In e l -> e < c.
Proof.
  induction ls as [|l ls IH]; intros H m0; cbn [rfold].
  - exists m0. split; auto. intros c. split; [intros X; split; auto; intros l []|tauto].
  - destruct l as [|x l]; [now elim (H [] (or_introl eq_refl))|]. cbn [compute_max rbind]. destruct (IH (fun l' Hl => H l' (or_intror Hl)) (Rmax m0 (fold_left Rmax l x))) as (M & -> & C). exists M. split; auto.
    intros c. rewrite C. split.
    + intros [U V]. pose proof (Rmax_l m0 (fold_left Rmax l x)). pose proof (Rmax_r m0 (fold_left Rmax l x)). split; [lra|]. intros l' [<-|Hl]; [|eapply V; eauto]. assert (X : fold_left Rmax l x < c) by lra. apply fmax_lt in X. intros e [<-|He]; [exact (proj1 X)|now apply (proj2 X)].
    + intros [U V]. split; [|intros; eapply V; simpl; eauto]. apply Rmax_lub_lt; auto. apply fmax_lt. split; [apply (V (x :: l)); simpl; auto|intros e He; apply (V (x :: l)); simpl; auto].
Qed.
Lemma rank_min_gen ls : (forall l, In l ls -> l <> []) -> forall m0, exists M, rfold (fun l m => x <- compute_min l ;; Ok (Rmin m x)) ls m0 = Ok M /\
  forall c, c <= M <-> c <= m0 /\ forall l, In l ls -> forall e, In e l -> c <= e.
Proof.
  induction ls as [|l ls IH]; intros H m0; cbn [rfold].
  - exists m0. split; auto. intros c. split; [intros X; split; auto; intros l []|tauto].
  - destruct l as [|x l]; [now elim (H [] (or_introl eq_refl))|]. cbn [compute_min rbind]. destruct (IH (fun l' Hl => H l' (or_intror Hl)) (Rmin m0 (fold_left Rmin l x))) as (M & -> & C). exists M. split; auto.
    intros c. rewrite C. split.
    + intros [U V]. pose proof (Rmin_l m0 (fold_left Rmin l x)). pose proof (Rmin_r m0 (fold_left Rmin l x)). split; [lra|]. intros l' [<-|Hl]; [|eapply V; eauto]. assert (X : c <= fold_left Rmin l x) by lra. apply fmin_lt in X. intros e [<-|He]; [exact (proj1 X)|now apply (proj2 X)].
    + intros [U V]. split; [|intros; eapply V; simpl; eauto]. apply Rmin_glb; auto. apply fmin_lt. split; [apply (V (x :: l)); simpl; auto|intros e He; apply (V (x :: l)); simpl; auto].
Qed.
Lemma f64_big : 100 < f64_max.
Proof.
  unfold f64_max. assert (A : 1 <= 2 ^ 971) by (apply pow_R1_Rle; lra). assert (B : 2 ^ 7 <= 2 ^ 53) by (apply Rle_pow; [lra|lia]). replace (2 ^ 7) with 128 in B by ring.
  assert (C : 101 * 1 <= (2 ^ 53 - 1) * 2 ^ 971) by (apply Rmult_le_compat; lra). lra.
Qed.

Section Loop.
  Context (K : kernel) (m htol p epsilon_h : R).
  Hypothesis CO : config_ok K m htol p.
  Hypothesis EP : 0 < epsilon_h <= 100.
  Notation item := (h_item K m htol p).
  Notation Pok := (patch_ok htol (Rkern K)).
  Notation Run := (run K m htol p).

  Definition Good (k : nat) (P : hpatch) (s : list R * list R) : Prop := Pok P /\ hp_hold P <> [] /\ goods K m htol p P k s.
  Definition run1 (ps : list hpatch) (ss : list (list R * list R)) : list (list R * list R) := map (fun ps => Run (fst ps) (snd ps)) (combine ps ss).
  Definition orders (o : nat -> list nat) (k0 : nat) (ps : list hpatch) : Prop := forall k P, nth_error ps k = Some P -> Permutation (o (k0 + k)%nat) (seq 0 (length (hp_hold P))).
  Lemma once_ok k ps ss : Forall2 (Good k) ps ss -> forall o k0, orders o k0 ps -> once item o k0 ps ss = Ok (run1 ps ss).
  Proof.
    induction 1 as [|P s ps ss (H1 & H2 & H3) HF IH]; intros o k0 HO; [reflexivity|]. cbn [once].
    pose proof (HO 0%nat P eq_refl) as PM. rewrite Nat.add_0_r in PM. rewrite (run_ok K m htol p CO P H1); auto; [|apply H3|apply (goods_reach K m htol p P k), H3]. cbn [rbind]. rewrite IH; [reflexivity|].
    intros k' P' HP. specialize (HO (S k') P' HP). now rewrite Nat.add_succ_r in HO.
  Qed.
  Lemma run1_good k ps ss : Forall2 (Good k) ps ss -> Forall2 (Good (S k)) ps (run1 ps ss).
  Proof. induction 1 as [|P s ps ss (H1 & H2 & H3) HF IH]; cbn; constructor; auto. cbn [fst snd]. split; [exact H1|split; [exact H2|]]. now apply goods_run. Qed.
  Lemma eps_nonempty k ps ss : Forall2 (Good k) ps ss -> forall l, In l (map snd ss) -> l <> [].
  Proof.
    intros HF l Hl. apply in_map_iff in Hl as (s & <- & Hs). induction HF as [|P s' ps ss (H1 & H2 & (_ & H3 & _)) HF IH]; [destruct Hs|]. destruct Hs as [<-|Hs]; auto.
    intros E. rewrite E in H3. destruct (hp_hold P); [congruence|discriminate].
  Qed.
  (** all the eps of a state are in a set *)
  Definition all_eps (Q : R -> Prop) (ss : list (list R * list R)) : Prop := forall l, In l (map snd ss) -> forall e, In e l -> Q e.
  Lemma h_loop_ok ps : forall fuel k ss mx, Forall2 (Good k) ps ss ->
    exists ss' mx', (forall ord it, (forall j, orders (ord j) 0 ps) -> h_loop snd item epsilon_h ord ps fuel it ss mx = Ok (ss', mx')) /\
      exists k', (k' <= k + fuel)%nat /\ Forall2 (Good k') ps ss' /\ (fuel = O -> ss' = ss /\ mx' = mx) /\ (fuel <> O -> (mx' < epsilon_h <-> all_eps (fun e => e < epsilon_h) ss')).
  Proof.
    induction fuel as [|fuel IH]; intros k ss mx HG.
    - exists ss, mx. split; [reflexivity|]. exists k. repeat split; auto; try lia; congruence.
    - pose proof (run1_good _ _ _ HG) as HG'. destruct (rank_max_gen _ (eps_nonempty _ _ _ HG') (- f64_max)) as (M & EM & CM).
      assert (CM' : M < epsilon_h <-> all_eps (fun e => e < epsilon_h) (run1 ps ss)).
      { rewrite CM. unfold all_eps. pose proof f64_big. split; [tauto|]. intros X. split; [lra|auto]. }
      destruct (Rlt_dec M epsilon_h) as [L|L].
      + exists (run1 ps ss), M. split.
        * intros ord it HO. cbn [h_loop]. rewrite (once_ok k) by auto. cbn [rbind]. unfold get_rank_max. rewrite EM. cbn [rbind]. destruct (Rlt_dec _ _); [reflexivity|contradiction].
        * exists (S k). repeat split; auto; try lia; try congruence; apply CM'.
      + destruct (IH (S k) (run1 ps ss) M HG') as (ss' & mx' & E & k' & K1 & K2 & K3 & K4). exists ss', mx'. split.
        * intros ord it HO. cbn [h_loop]. rewrite (once_ok k) by auto. cbn [rbind]. unfold get_rank_max. rewrite EM. cbn [rbind]. destruct (Rlt_dec _ _); [contradiction|]. now apply E.
        * exists k'. split; [lia|]. split; auto. split; [congruence|]. intros _. destruct fuel as [|fuel]; [|apply K4; discriminate].
          destruct (K3 eq_refl) as [-> ->]. exact CM'.
  Qed.
  Definition kept (e : R) : Prop := 0 <= e < epsilon_h.
  Lemma all_eps_both ss : all_eps kept ss <-> all_eps (fun e => e < epsilon_h) ss /\ all_eps (fun e => 0 <= e) ss.
  Proof.
    unfold all_eps. split.
    - intros H. split; intros l Hl e He; apply (H l Hl e He).
    - intros [A B] l Hl e He. split; [apply (B l Hl e He)|apply (A l Hl e He)].
  Qed.
  Lemma loop_rank_ok N ps ss : Forall2 (Good 0) ps ss ->
    exists ss' b, (forall ord, (forall j, orders (ord j) 0 ps) -> loop_rank snd item epsilon_h N ord ps ss = Ok (ss', b)) /\
      exists k, (k <= N)%nat /\ Forall2 (Good k) ps ss' /\ (b = true <-> N <> O /\ all_eps kept ss').
  Proof.
    intros HG. destruct (h_loop_ok ps N 0 ss f64_max HG) as (ss' & mx & E & k & K1 & K2 & K3 & K4).
    destruct (rank_min_gen _ (eps_nonempty _ _ _ K2) f64_max) as (M & EM & CM).
    exists ss', ((if Rlt_dec mx epsilon_h then true else false) && negb (if Rlt_dec M 0 then true else false)). split.
    - intros ord HO. unfold loop_rank. rewrite (E ord 0%nat HO). cbn [rbind fst snd]. unfold get_rank_min. rewrite EM. reflexivity.
    - exists k. split; [lia|]. split; auto. rewrite all_eps_both. assert (CM' : 0 <= M <-> all_eps (fun e => 0 <= e) ss').
      { rewrite CM. unfold all_eps. pose proof f64_big. split; [tauto|]. intros X. split; [lra|auto]. }
      destruct N as [|N].
      + destruct (K3 eq_refl) as [-> ->]. pose proof f64_big. destruct (Rlt_dec f64_max epsilon_h); [lra|]. split; [discriminate|]. intros [X _]. congruence.
      + rewrite <- CM', <- K4 by discriminate. destruct (Rlt_dec mx epsilon_h), (Rlt_dec M 0); cbn; split; intros X; try discriminate; try lra; auto. repeat split; auto; lra.
  Qed.
  Lemma loop_ranks_ok N ranks sss : Forall2 (Forall2 (Good 0)) ranks sss ->
    exists sss' b, (forall ord rk0, (forall rk ps, nth_error ranks rk = Some ps -> forall j, orders (ord (rk0 + rk)%nat j) 0 ps) -> loop_ranks snd item epsilon_h N ord rk0 ranks sss = Ok (sss', b)) /\
      Forall2 (fun ps ss' => exists k, (k <= N)%nat /\ Forall2 (Good k) ps ss') ranks sss' /\ (b = true <-> ranks = [] \/ N <> O /\ forall ss, In ss sss' -> all_eps kept ss).
  Proof.
    induction 1 as [|ps ss ranks sss H HF IH].
    - exists [], true. split; [reflexivity|]. split; [constructor|]. split; auto.
    - destruct IH as (sss' & b & E & G & C). destruct (loop_rank_ok N ps ss H) as (ss' & b1 & E1 & k & K1 & K2 & K3). exists (ss' :: sss'), (b1 && b). split; [|split].
      + intros ord rk0 HO. cbn [loop_ranks]. rewrite E1; [|intros j; specialize (HO 0%nat ps eq_refl j); now rewrite Nat.add_0_r in HO]. cbn [rbind]. rewrite E; [reflexivity|].
        intros rk ps' HP j. specialize (HO (S rk) ps' HP j). now rewrite Nat.add_succ_r in HO.
      + constructor; auto. exists k. auto.
      + rewrite Bool.andb_true_iff, K3, C. split.
        * intros [[X1 X2] [X3|[_ X3]]]; right; (split; [exact X1|]).
          -- subst ranks. inversion G; subst. intros s [<-|[]]; auto.
          -- intros s [<-|Hs]; auto.
        * intros [X|[X1 X2]]; [discriminate|]. split; [split; [exact X1|apply X2; simpl; auto]|]. right. split; [exact X1|]. intros s Hs. apply X2. simpl; auto.
  Qed.
  Lemma Good_start P : 1 <= htol -> Pok P -> hp_hold P <> [] -> Good 0 P (start (hp_hold P)).
  Proof. intros HT HP HN. split; [exact HP|split; [exact HN|]]. apply goods_start; auto. Qed.
  Lemma Good_reach k P s : Good k P s -> in_reach htol (hp_hold P) (fst s).
  Proof. intros (A & B & C). eapply goods_reach; eauto. Qed.
  Lemma Good_converged N k P s : Good k P s -> (k <= N)%nat -> epsilon_h <= (p - 1) / p ^ N -> (forall e, In e (snd s) -> kept e) -> patch_converged K m htol epsilon_h P (fst s).
  Proof.
    intros G HN HE HK. split; [eapply Good_reach; eauto|]. destruct G as (A & B & C & D & F). intros i Hi. apply (good_newton K m htol p CO P A N k i _ (h_of (snd s) i)); auto; [|lra]. apply HK. unfold h_of. apply nth_In. lia.
  Qed.
End Loop.

Section Sub.
  Context (K : kernel) (m htol p epsilon_h : R) (N : nat).
  Hypothesis CO : config_ok K m htol p.
  Hypothesis EP : 0 < epsilon_h <= 100.
  Hypothesis HT : 1 <= htol.
  Hypothesis HE : epsilon_h <= (p - 1) / p ^ N.
  Notation item := (h_item K m htol p).
  Notation Pok := (patch_ok htol (Rkern K)).
  Notation starts := (Forall2 (Forall2 (Good K m htol p 0))).
  Lemma zip_good cs : forall h, Forall2 (fun cr h => Pok (mkhp (fst cr) (snd cr) h)) cs h -> (forall x, In x h -> x <> []) ->
    Forall2 (Good K m htol p 0) (zip_patches cs h) (map start h) /\ map hp_hold (zip_patches cs h) = h.
  Proof.
    intros h HF. induction HF as [|[c r] x cs h H HF IH]; intros HN; cbn; [split; [constructor|reflexivity]|]. destruct IH as [I1 I2]; [intros; apply HN; simpl; auto|]. split; [|now rewrite I2].
    constructor; auto. change (start x) with (start (hp_hold (mkhp c r x))). apply Good_start; auto. apply HN. simpl; auto.
  Qed.
  Lemma zip_ranks_good cs : forall hs, Forall2 (Forall2 (fun cr h => Pok (mkhp (fst cr) (snd cr) h))) cs hs -> hs_ok hs -> 
    starts (zip_ranks cs hs) (map (map start) hs) /\ map (map hp_hold) (zip_ranks cs hs) = hs.
  Proof.
    intros hs HF. induction HF as [|c h cs hs H HF IH]; intros HO; cbn; [split; [constructor|reflexivity]|]. destruct IH as [I1 I2]; [intros l x Hl Hx; apply (HO l x); simpl; auto|].
    destruct (zip_good c h H) as [J1 J2]; [intros x Hx; apply (HO h x); simpl; auto|]. split; [constructor; auto|now rewrite I2, J2].
  Qed.
  Lemma nth_hold ranks hs rk ps k P : map (map hp_hold) ranks = hs -> nth_error ranks rk = Some ps -> nth_error ps k = Some P -> exists l, nth_error hs rk = Some l /\ nth_error l k = Some (hp_hold P).
  Proof. intros <- A B. exists (map hp_hold ps). split; [now rewrite nth_error_map, A|now rewrite nth_error_map, B]. Qed.
  Definition reached (P : hpatch) (h : list R) : Prop := in_reach htol (hp_hold P) h.
  Lemma reached_pos P h : P.(hp_hold) <> [] -> in_reach htol (hp_hold P) h -> h <> [] /\ forall x, In x h -> 0 < x.
  Proof.
    intros HN [L R0]. split; [intros ->; destruct (hp_hold P); [congruence|discriminate]|]. intros x Hx. destruct (In_nth h x 0 Hx) as (i & Hi & <-). apply R0. lia.
  Qed.
  Lemma f2_trans {A} (Q : A -> A -> Prop) : (forall x y z, Q x y -> Q y z -> Q x z) -> forall a b c, Forall2 Q a b -> Forall2 Q b c -> Forall2 Q a c.
  Proof. intros HQ a b c H. revert c. induction H as [|x y a b H HF IH]; intros c Hc; inversion Hc; subst; constructor; eauto. Qed.
  Lemma same_shape_trans a b c : same_shape a b -> same_shape b c -> same_shape a c.
  Proof. apply f2_trans. intros x y z. apply f2_trans. congruence. Qed.
  Lemma same_shape_refl a : same_shape a a.
  Proof. induction a as [|l a IH]; constructor; auto. induction l; constructor; auto. Qed.
  Lemma same_shape_nth a b rk l k h : same_shape a b -> nth_error b rk = Some l -> nth_error l k = Some h -> exists l' h', nth_error a rk = Some l' /\ nth_error l' k = Some h' /\ length h' = length h.
  Proof.
    intros H. revert rk. induction H as [|x y a b H HF IH]; intros [|rk] A B; try discriminate.
    - injection A as <-. exists x. clear - H B. revert k B. induction H as [|u v x y E H IH]; intros [|k] B; try discriminate.
      + injection B as <-. exists u. auto.
      + destruct (IH k B) as (h' & X & Y & Z). exists h'. auto.
    - destruct (IH rk A B) as (l' & h' & X). exists l', h'. exact X.
  Qed.
  Lemma after_shape ranks sss' : Forall2 (fun ps ss' => exists k, (k <= N)%nat /\ Forall2 (Good K m htol p k) ps ss') ranks sss' ->
    same_shape (map (map hp_hold) ranks) (map (map fst) sss') /\ hs_ok (map (map fst) sss').
  Proof.
    intros HF. induction HF as [|ps ss ranks sss (k & Hk & H) HF [IH1 IH2]]; cbn; [split; [constructor|intros l h []]|].
    assert (X : Forall2 (fun h h' => length h = length h') (map hp_hold ps) (map fst ss) /\ forall h, In h (map fst ss) -> h <> [] /\ forall x, In x h -> 0 < x).
    { clear - H CO. induction H as [|P s ps ss G HF [I1 I2]]; cbn; [split; [constructor|intros h []]|]. pose proof (Good_reach _ _ _ _ _ _ _ G) as R0. split.
      - constructor; auto. symmetry. apply R0.
      - intros h [<-|Hh]; auto. apply (reached_pos P); auto. apply G. }
    destruct X as [X1 X2]. split; [constructor; auto|]. intros l h [<-|Hl] Hh; auto. eapply IH2; eauto.
  Qed.
  Lemma after_converged ranks sss' : Forall2 (fun ps ss' => exists k, (k <= N)%nat /\ Forall2 (Good K m htol p k) ps ss') ranks sss' -> (forall ss, In ss sss' -> all_eps (kept epsilon_h) ss) ->
    Forall2 (Forall2 (fun P h => Pok P /\ patch_converged K m htol epsilon_h P h)) ranks (map (map fst) sss').
  Proof.
    intros HF HA. induction HF as [|ps ss ranks sss (k & Hk & H) HF IH]; cbn; constructor; [|apply IH; intros; apply HA; simpl; auto].
    assert (A : all_eps (kept epsilon_h) ss) by (apply HA; simpl; auto). clear - H A CO EP HE Hk. unfold all_eps in A. induction H as [|P s ps ss G HF IH]; cbn; constructor.
    - split; [apply G|]. eapply Good_converged; eauto. intros e He. apply (A (snd s)); simpl; auto.
    - apply IH. intros l Hl. apply A. simpl; auto.
  Qed.
  Lemma subcycles_ok rebuild hs0 : rebuild_ok htol (Rkern K) hs0 rebuild -> forall fuel hstep hs, same_shape hs0 hs -> hs_ok hs ->
    exists out, (forall ord, orders_ok ord hs0 -> subcycles K m htol p epsilon_h N rebuild ord fuel hstep hs = Ok out) /\
      forall ranks hs', out = Some (ranks, hs') -> same_shape hs0 hs' /\ Forall2 (Forall2 (fun P h => Pok P /\ patch_converged K m htol epsilon_h P h)) ranks hs'.
  Proof.
    intros RB. induction fuel as [|fuel IH]; intros hstep hs SH HO; [exists None; split; [reflexivity|discriminate]|].
    destruct (RB hstep hs SH HO) as (cs & E & F). destruct (zip_ranks_good cs hs F HO) as [Z1 Z2].
    destruct (loop_ranks_ok K m htol p epsilon_h CO EP N _ _ Z1) as (sss' & b & E2 & G & C).
    destruct (after_shape _ _ G) as [S1 S2]. rewrite Z2 in S1. pose proof (same_shape_trans _ _ _ SH S1) as S3.
    assert (EO : forall ord, orders_ok ord hs0 -> loop_ranks snd item epsilon_h N (ord hstep) 0 (zip_ranks cs hs) (map (map start) hs) = Ok (sss', b)).
    { intros ord OK. apply E2. intros rk ps HP j k P HPk. destruct (nth_hold _ _ _ _ _ _ Z2 HP HPk) as (l & X & Y). destruct (same_shape_nth _ _ _ _ _ _ SH X Y) as (l' & h' & U & V & W). rewrite Nat.add_0_l, <- W. eapply OK; eauto. }
    destruct b.
    - exists (Some (zip_ranks cs hs, map (map fst) sss')). split.
      + intros ord OK. cbn [subcycles]. rewrite E. cbn [rbind]. rewrite (EO ord OK). reflexivity.
      + intros ranks hs' [= <- <-]. split; auto. apply after_converged; auto. destruct (proj1 C eq_refl) as [X|[_ X]]; auto. rewrite X in G. inversion G. intros ss [].
    - destruct (IH (S hstep) _ S3 S2) as (out & E3 & P). exists out. split; auto. intros ord OK. cbn [subcycles]. rewrite E. cbn [rbind]. rewrite (EO ord OK). cbn [rbind fst snd]. apply E3, OK.
  Qed.
End Sub.
