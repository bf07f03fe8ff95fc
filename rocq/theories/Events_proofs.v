(** Proofs about the event handlers. *)
From Verif Require Import Base Events Events_spec.

Inductive hb (rt : nat -> option command) : nat -> nat -> Prop :=
| hb_refl x : hb rt x x
| hb_dep x y c d : rt y = Some c -> In d (c_deps c) -> hb rt x d -> hb rt x y.

Definition rt_le (rt rt' : nat -> option command) : Prop :=
  forall e c, rt e = Some c -> exists c', rt' e = Some c' /\ c_deps c' = c_deps c /\ c_sub c' = c_sub c.
Lemma hb_le rt rt' x y : rt_le rt rt' -> hb rt x y -> hb rt' x y.
Proof.
  intros L H. induction H as [|x y c d Hc Hd _ IH]; [constructor|].
  destruct (L y c Hc) as (c' & A & B & _). eapply hb_dep; eauto. now rewrite B.
Qed.

Record rt_ok (s : sys) : Prop := {
  r_next : forall e c, y_rt s e = Some c -> e < y_next s;
  r_all : forall e, e < y_next s -> exists c, y_rt s e = Some c;
  r_sub : forall e c x, y_rt s e = Some c -> c_sub c x = true -> is_done s x = true;
  r_subc : forall e c x cx d, y_rt s e = Some c -> c_sub c x = true -> y_rt s x = Some cx -> In d (c_deps cx) -> c_sub c d = true;
  r_start : forall e c, y_rt s e = Some c -> c_phase c <> Pending ->
    (forall d, In d (c_deps c) -> c_start c d = true) /\
    (forall x, c_sub c x = true -> c_start c x = true) /\
    (forall x, c_start c x = true -> is_done s x = true) /\
    (forall x cx d, c_start c x = true -> y_rt s x = Some cx -> In d (c_deps cx) -> c_start c d = true)
}.

Lemma done_closed s : rt_ok s -> forall x y, hb (y_rt s) x y -> is_done s y = true -> is_done s x = true.
Proof.
  intros R x y H. induction H as [|x y c d Hc Hd _ IH]; auto. intros Hy. apply IH.
  unfold is_done in Hy. rewrite Hc in Hy. destruct (c_phase c) eqn:E; try discriminate.
  destruct (r_start _ R y c Hc) as (A & _ & B & _); [congruence|]. auto.
Qed.
Lemma sub_closed s e c : rt_ok s -> y_rt s e = Some c -> forall x y, hb (y_rt s) x y -> c_sub c y = true -> c_sub c x = true.
Proof. intros R Hc x y H. induction H as [|x y cy d Hy Hd _ IH]; auto. intros. apply IH. eapply r_subc; eauto. Qed.
Lemma start_closed s e c : rt_ok s -> y_rt s e = Some c -> c_phase c <> Pending ->
  forall x y, hb (y_rt s) x y -> c_start c y = true -> c_start c x = true.
Proof.
  intros R Hc Hp x y H. induction H as [|x y cy d Hy Hd _ IH]; auto. intros. apply IH.
  destruct (r_start _ R e c Hc Hp) as (_ & _ & _ & D). eapply D; eauto.
Qed.

(** [x] is complete when command [y] starts. *)
Definition ordered (s : sys) (x y : nat) : Prop :=
  exists c, y_rt s y = Some c /\ (c_sub c x = true \/ exists d, In d (c_deps c) /\ hb (y_rt s) x d).

Lemma ordered_start s x y c : rt_ok s -> ordered s x y -> y_rt s y = Some c -> c_phase c <> Pending -> c_start c x = true.
Proof.
  intros R (c' & Hc' & H) Hc Hp. assert (c' = c) by congruence. subst c'.
  destruct (r_start _ R y c Hc Hp) as (A & B & _ & _). destruct H as [H|(d & H1 & H2)]; auto.
  eapply start_closed; eauto.
Qed.

Definition covered_by (s : sys) (k : akind) (h : handler) (e : nat) : Prop :=
  is_done s e = true \/ (exists w, In w (write_events h) /\ hb (y_rt s) e w) \/
  (k = READ /\ exists w, In w (read_events h) /\ hb (y_rt s) e w).

Definition open_ok (s : sys) (b : nat) (o : open_access) : Prop :=
  let '(k, d, n0, done0) := o in
  up_to_date (y_hs s b) = false /\ last_access (y_hs s b) = k /\ n0 <= y_next s /\
  (forall w, In w (write_events (y_hs s b)) -> In w d) /\
  (k = WRITE -> forall w, In w (read_events (y_hs s b)) -> In w d) /\
  (forall x, done0 x = true -> is_done s x = true) /\
  (forall a c x, n0 <= a -> y_rt s a = Some c -> done0 x = true -> c_sub c x = true) /\
  (forall k' acts e, In (b, k', acts) (y_log s) -> conflict k' k -> In e acts ->
     done0 e = true \/ exists w, In w d /\ hb (y_rt s) e w).

Record sys_ok (s : sys) : Prop := {
  k_rt : rt_ok s;
  k_open : forall b o, y_open s b = Some o -> open_ok s b o;
  k_closed : forall b, y_open s b = None -> up_to_date (y_hs s b) = true;
  k_cov : forall b k acts e, In (b, k, acts) (y_log s) -> In e acts -> covered_by s k (y_hs s b) e;
  k_ord : forall i j b k k' acts acts' x y, i < j -> nth_error (y_log s) i = Some (b, k, acts) ->
    nth_error (y_log s) j = Some (b, k', acts') -> conflict k k' -> In x acts -> In y acts' -> ordered s x y
}.

(** * Steps of the runtime *)
Lemma is_done_rt s s' : y_rt s' = y_rt s -> is_done s' = is_done s.
Proof. intros E. unfold is_done. now rewrite E. Qed.

Lemma runtime_ok s s' : sys_ok s -> rt_ok s' -> rt_le (y_rt s) (y_rt s') -> y_hs s' = y_hs s -> y_open s' = y_open s ->
  y_log s' = y_log s -> y_next s <= y_next s' -> (forall x, is_done s x = true -> is_done s' x = true) ->
  (forall a c, y_rt s' a = Some c -> (exists c0, y_rt s a = Some c0) \/ (forall x, is_done s x = true -> c_sub c x = true)) ->
  sys_ok s'.
Proof.
  intros I R L Eh Eo El Hn Hd Hnew. constructor; auto.
  - intros b [[[k d] n0] done0] Ho. rewrite Eo in Ho. destruct (k_open _ I b _ Ho) as (A1 & A2 & A3 & A4 & A5 & A6 & A7 & A8).
    unfold open_ok. rewrite Eh, El. split; auto. split; auto. split; [lia|]. split; auto. split; auto. split; auto. split.
    + intros a c x Ha Hc Hx. destruct (Hnew a c Hc) as [(c0 & H0)|H0]; auto.
      destruct (L a c0 H0) as (c' & B1 & B2 & B3). assert (c' = c) by congruence. subst c'. rewrite B3. eapply A7; eauto.
    + intros k' acts e H1 H2 H3. destruct (A8 k' acts e H1 H2 H3) as [H|(w & W1 & W2)]; auto. right. exists w. split; auto. eapply hb_le; eauto.
  - intros b Hb. rewrite Eh. apply (k_closed _ I). now rewrite <- Eo.
  - intros b k acts e H1 H2. rewrite El in H1. rewrite Eh. destruct (k_cov _ I b k acts e H1 H2) as [H|[(w & W1 & W2)|(K & w & W1 & W2)]].
    + left; auto.
    + right; left. exists w. split; auto. eapply hb_le; eauto.
    + right; right. split; auto. exists w. split; auto. eapply hb_le; eauto.
  - intros i j b k k' acts acts' x y Hij Hi Hj Hc Hx Hy. rewrite El in Hi, Hj.
    destruct (k_ord _ I i j b k k' acts acts' x y Hij Hi Hj Hc Hx Hy) as (c & C1 & C2).
    destruct (L y c C1) as (c' & B1 & B2 & B3). exists c'. split; auto. rewrite B2, B3. destruct C2 as [C2|(d & D1 & D2)]; auto.
    right. exists d. split; auto. eapply hb_le; eauto.
Qed.

Lemma submit_ok s deps : sys_ok s -> (forall d, In d deps -> d < y_next s) ->
  sys_ok (Sys (y_hs s) (rt_set (y_rt s) (y_next s) (Command deps (is_done s) Pending (fun _ => false)))
                (S (y_next s)) (y_open s) (y_log s)).
Proof.
  intros I Hd. pose proof (k_rt _ I) as R. set (s' := Sys _ _ _ _ _). set (e0 := y_next s) in *.
  assert (Fresh : y_rt s e0 = None) by (destruct (y_rt s e0) eqn:E; auto; apply (r_next _ R) in E; unfold e0 in E; lia).
  assert (Same : forall x, x <> e0 -> y_rt s' x = y_rt s x).
  { intros x Hx. cbn [s' y_rt]. unfold rt_set. destruct (Nat.eqb_spec x e0); [contradiction|auto]. }
  assert (Newc : y_rt s' e0 = Some (Command deps (is_done s) Pending (fun _ => false))) by (cbn [s' y_rt]; unfold rt_set; now rewrite Nat.eqb_refl).
  assert (DoneE : forall x, is_done s' x = is_done s x).
  { intros x. unfold is_done. destruct (Nat.eq_dec x e0) as [->|Hx]; [rewrite Newc, Fresh; reflexivity|now rewrite Same]. }
  assert (Ne : forall x c, y_rt s x = Some c -> x <> e0) by (intros x c Hx ->; congruence).
  assert (Dn : forall x, is_done s x = true -> x <> e0) by (intros x Hx ->; unfold is_done in Hx; rewrite Fresh in Hx; discriminate).
  apply (runtime_ok s); auto.
  - constructor.
    + intros e c He. cbn [s' y_next]. fold e0. destruct (Nat.eq_dec e e0) as [->|Hx]; [lia|]. rewrite Same in He by auto. apply (r_next _ R) in He. unfold e0; lia.
    + intros e He. destruct (Nat.eq_dec e e0) as [->|Hx]; [eauto|]. rewrite Same by auto. apply (r_all _ R). cbn [s' y_next] in He. unfold e0 in *; lia.
    + intros e c x He Hs. rewrite DoneE. destruct (Nat.eq_dec e e0) as [->|Hx]; [rewrite Newc in He; injection He as <-; exact Hs|].
      rewrite Same in He by auto. eapply r_sub; eauto.
    + intros e c x cx d He Hs Hx Hin. destruct (Nat.eq_dec e e0) as [->|Hne].
      * rewrite Newc in He. injection He as <-. cbn [c_sub] in *. rewrite Same in Hx by auto.
        apply (done_closed s R d x); auto. eapply hb_dep; eauto. constructor.
      * rewrite Same in He by auto. assert (x <> e0) by (apply Dn; eapply r_sub; eauto). rewrite Same in Hx by auto. eapply r_subc; eauto.
    + intros e c He Hp. destruct (Nat.eq_dec e e0) as [->|Hne]; [rewrite Newc in He; injection He as <-; cbn in Hp; congruence|].
      rewrite Same in He by auto. destruct (r_start _ R e c He Hp) as (A1 & A2 & A3 & A4). split; auto. split; auto. split.
      * intros x Hx. rewrite DoneE. auto.
      * intros x cx d Hx Hcx Hin. assert (x <> e0) by auto. rewrite Same in Hcx by auto. eapply A4; eauto.
  - intros e c He. exists c. rewrite Same by eauto. auto.
  - cbn. lia.
  - intros x Hx. now rewrite DoneE.
  - intros a c Ha. destruct (Nat.eq_dec a e0) as [->|Hne].
    + right. rewrite Newc in Ha. injection Ha as <-. auto.
    + left. rewrite Same in Ha by auto. eauto.
Qed.

Lemma start_ok s e c : sys_ok s -> y_rt s e = Some c -> c_phase c = Pending -> (forall d, In d (c_deps c) -> is_done s d = true) ->
  sys_ok (Sys (y_hs s) (rt_set (y_rt s) e (Command (c_deps c) (c_sub c) Running (is_done s))) (y_next s) (y_open s) (y_log s)).
Proof.
  intros I He Hp Hd. pose proof (k_rt _ I) as R. set (s' := Sys _ _ _ _ _).
  set (c1 := Command (c_deps c) (c_sub c) Running (is_done s)) in *.
  assert (Same : forall x, x <> e -> y_rt s' x = y_rt s x).
  { intros x Hx. cbn [s' y_rt]. unfold rt_set. destruct (Nat.eqb_spec x e); [contradiction|auto]. }
  assert (Newc : y_rt s' e = Some c1) by (cbn [s' y_rt]; unfold rt_set; now rewrite Nat.eqb_refl).
  assert (DoneE : forall x, is_done s' x = is_done s x).
  { intros x. unfold is_done. destruct (Nat.eq_dec x e) as [->|Hx]; [rewrite Newc, He, Hp; reflexivity|now rewrite Same]. }
  assert (Old : forall x cx, y_rt s' x = Some cx -> exists c0, y_rt s x = Some c0 /\ c_deps cx = c_deps c0 /\ c_sub cx = c_sub c0).
  { intros x cx Hx. destruct (Nat.eq_dec x e) as [->|Hne]; [rewrite Newc in Hx; injection Hx as <-; exists c; auto|rewrite Same in Hx by auto; eauto]. }
  apply (runtime_ok s); auto.
  - constructor.
    + intros x cx Hx. destruct (Old x cx Hx) as (c0 & H0 & _). apply (r_next _ R) in H0. exact H0.
    + intros x Hx. destruct (Nat.eq_dec x e) as [->|Hne]; [eauto|]. rewrite Same by auto. apply (r_all _ R). exact Hx.
    + intros x cx y Hx Hy. rewrite DoneE. destruct (Old x cx Hx) as (c0 & H0 & _ & E). rewrite E in Hy. eapply r_sub; eauto.
    + intros x cx y cy d Hx Hy Hcy Hin. destruct (Old x cx Hx) as (c0 & H0 & _ & E). destruct (Old y cy Hcy) as (c2 & H2 & E2 & _).
      rewrite E in *. rewrite E2 in Hin. eapply r_subc; eauto.
    + intros x cx Hx Hpx. destruct (Nat.eq_dec x e) as [->|Hne].
      * rewrite Newc in Hx. injection Hx as <-. cbn [c1 c_deps c_start c_sub]. split; auto. split; [intros; eapply r_sub; eauto|].
        split; [intros; now rewrite DoneE|]. intros y cy d Hy Hcy Hin. destruct (Old y cy Hcy) as (c2 & H2 & E2 & _). rewrite E2 in Hin.
        apply (done_closed s R d y); auto. eapply hb_dep; eauto. constructor.
      * rewrite Same in Hx by auto. destruct (r_start _ R x cx Hx Hpx) as (A1 & A2 & A3 & A4). split; auto. split; auto. split.
        -- intros y Hy. rewrite DoneE. auto.
        -- intros y cy d Hy Hcy Hin. destruct (Old y cy Hcy) as (c2 & H2 & E2 & _). rewrite E2 in Hin. eapply A4; eauto.
  - intros x cx Hx. destruct (Nat.eq_dec x e) as [->|Hne].
    + exists c1. rewrite Newc. assert (cx = c) by congruence. subst cx. auto.
    + exists cx. rewrite Same by auto. auto.
  - intros x Hx. now rewrite DoneE.
  - intros a ca Ha. left. destruct (Old a ca Ha) as (c0 & H0 & _). eauto.
Qed.

Lemma finish_ok s e c : sys_ok s -> y_rt s e = Some c -> c_phase c = Running ->
  sys_ok (Sys (y_hs s) (rt_set (y_rt s) e (Command (c_deps c) (c_sub c) Done (c_start c))) (y_next s) (y_open s) (y_log s)).
Proof.
  intros I He Hp. pose proof (k_rt _ I) as R. set (s' := Sys _ _ _ _ _).
  set (c1 := Command (c_deps c) (c_sub c) Done (c_start c)) in *.
  assert (Same : forall x, x <> e -> y_rt s' x = y_rt s x).
  { intros x Hx. cbn [s' y_rt]. unfold rt_set. destruct (Nat.eqb_spec x e); [contradiction|auto]. }
  assert (Newc : y_rt s' e = Some c1) by (cbn [s' y_rt]; unfold rt_set; now rewrite Nat.eqb_refl).
  assert (DoneE : forall x, is_done s x = true -> is_done s' x = true).
  { intros x. unfold is_done. destruct (Nat.eq_dec x e) as [->|Hx]; [rewrite Newc; reflexivity|now rewrite Same]. }
  assert (Old : forall x cx, y_rt s' x = Some cx -> exists c0, y_rt s x = Some c0 /\ c_deps cx = c_deps c0 /\ c_sub cx = c_sub c0 /\
      c_start cx = c_start c0 /\ (c_phase cx <> Pending -> c_phase c0 <> Pending)).
  { intros x cx Hx. destruct (Nat.eq_dec x e) as [->|Hne].
    - rewrite Newc in Hx; injection Hx as <-; exists c. split; auto. split; auto. split; auto. split; auto. intros _. rewrite Hp; discriminate.
    - rewrite Same in Hx by auto. exists cx. auto. }
  apply (runtime_ok s); auto.
  - constructor.
    + intros x cx Hx. destruct (Old x cx Hx) as (c0 & H0 & _). apply (r_next _ R) in H0. exact H0.
    + intros x Hx. destruct (Nat.eq_dec x e) as [->|Hne]; [eauto|]. rewrite Same by auto. apply (r_all _ R). exact Hx.
    + intros x cx y Hx Hy. destruct (Old x cx Hx) as (c0 & H0 & _ & E & _). rewrite E in Hy. apply DoneE. eapply r_sub; eauto.
    + intros x cx y cy d Hx Hy Hcy Hin. destruct (Old x cx Hx) as (c0 & H0 & _ & E & _). destruct (Old y cy Hcy) as (c2 & H2 & E2 & _).
      rewrite E in *. rewrite E2 in Hin. eapply r_subc; eauto.
    + intros x cx Hx Hpx. destruct (Old x cx Hx) as (c0 & H0 & E1 & E2 & E3 & E4).
      destruct (r_start _ R x c0 H0 (E4 Hpx)) as (A1 & A2 & A3 & A4). rewrite E1, E2, E3. split; auto. split; auto. split; auto.
      intros y cy d Hy Hcy Hin. destruct (Old y cy Hcy) as (c2 & H2 & F2 & _). rewrite F2 in Hin. eapply A4; eauto.
  - intros x cx Hx. destruct (Nat.eq_dec x e) as [->|Hne].
    + exists c1. rewrite Newc. assert (cx = c) by congruence. subst cx. auto.
    + exists cx. rewrite Same by auto. auto.
  - intros a ca Ha. left. destruct (Old a ca Ha) as (c0 & H0 & _). eauto.
Qed.

(** * Steps of the host *)
Lemma rt_ok_host s s' : y_rt s' = y_rt s -> y_next s' = y_next s -> rt_ok s -> rt_ok s'.
Proof.
  intros E N R. pose proof (is_done_rt s s' E) as D. destruct R as [A1 A2 A3 A4 A5]. constructor; rewrite ?E, ?N, ?D; auto.
Qed.

Lemma filter_cov s k h e : rt_ok s -> covered_by s k h e -> covered_by s k (filter_events (is_done s) h) e.
Proof.
  intros R [H|[(w & W1 & W2)|(K & w & W1 & W2)]].
  - left; auto.
  - destruct (is_done s w) eqn:E; [left; eapply done_closed; eauto|]. right; left. exists w. split; auto. cbn. apply filter_In. now rewrite E.
  - destruct (is_done s w) eqn:E; [left; eapply done_closed; eauto|]. right; right. split; auto. exists w. split; auto. cbn. apply filter_In. now rewrite E.
Qed.

Lemma hset_eq hs b h : hset hs b h b = h.
Proof. unfold hset. now rewrite Nat.eqb_refl. Qed.
Lemma hset_neq hs b h x : x <> b -> hset hs b h x = hs x.
Proof. intros H. unfold hset. destruct (Nat.eqb_spec x b); congruence. Qed.
Lemma oset_eq o b v : open_set o b v b = v.
Proof. unfold open_set. now rewrite Nat.eqb_refl. Qed.
Lemma oset_neq o b v x : x <> b -> open_set o b v x = o x.
Proof. intros H. unfold open_set. destruct (Nat.eqb_spec x b); congruence. Qed.

(** What changes when only the handler of buffer [b], its open access and the log for it change. *)
Lemma access_ok s b k d h : sys_ok s -> access k (is_done s) (y_hs s b) = Ok (d, h) ->
  sys_ok (Sys (hset (y_hs s) b h) (y_rt s) (y_next s) (open_set (y_open s) b (Some (k, d, y_next s, is_done s))) (y_log s)).
Proof.
  intros I E. pose proof (k_rt _ I) as R. set (s' := Sys _ _ _ _ _).
  assert (D : is_done s' = is_done s) by reflexivity.
  assert (Hup : up_to_date (y_hs s b) = true).
  { destruct k; cbn [access] in E; unfold read_access, write_access in E; destruct (up_to_date (y_hs s b)); auto; discriminate. }
  set (hf := filter_events (is_done s) (y_hs s b)).
  assert (Hh : h = Handler (read_events hf) (write_events hf) k false /\
     d = match k with READ => write_events hf | WRITE => write_events hf ++ read_events hf end).
  { destruct k; cbn [access] in E; unfold read_access, write_access in E; rewrite Hup in E; cbn [negb] in E; injection E as <- <-; auto. }
  destruct Hh as (-> & ->).
  constructor.
  - apply (rt_ok_host s); auto.
  - intros b' o Ho. cbn [s' y_open] in Ho. destruct (Nat.eq_dec b' b) as [->|Hb].
    + rewrite oset_eq in Ho. injection Ho as <-. unfold open_ok. cbn [s' y_hs y_next y_rt y_log]. rewrite hset_eq. cbn [up_to_date last_access write_events read_events].
      split; auto. split; auto. split; auto. split; [destruct k; auto; intros; apply in_or_app; auto|].
      split; [intros ->; intros; apply in_or_app; auto|]. split; auto. split.
      * intros a c x Ha Hc _. apply (r_next _ R) in Hc. lia.
      * intros k' acts e Hl Hcf He. pose proof (k_cov _ I b k' acts e Hl He) as Cv. apply filter_cov in Cv; auto. fold hf in Cv.
        destruct Cv as [H|[(w & W1 & W2)|(K & w & W1 & W2)]]; auto.
        -- right. exists w. split; auto. destruct k; auto. apply in_or_app; auto.
        -- right. exists w. split; auto. destruct Hcf as [Hcf|Hcf]; [congruence|]. subst k. apply in_or_app; auto.
    + rewrite oset_neq in Ho by auto. pose proof (k_open _ I b' o Ho) as X. destruct o as [[[k1 d1] n1] done1].
      unfold open_ok in *. cbn [s' y_hs y_next y_rt y_log]. rewrite hset_neq by auto. exact X.
  - intros b' Hb'. cbn [s' y_open y_hs] in *. destruct (Nat.eq_dec b' b) as [->|Hb]; [rewrite oset_eq in Hb'; discriminate|].
    rewrite oset_neq in Hb' by auto. rewrite hset_neq by auto. now apply (k_closed _ I).
  - intros b' k' acts e Hl He. cbn [s' y_hs y_log] in *. destruct (Nat.eq_dec b' b) as [->|Hb].
    + rewrite hset_eq. pose proof (k_cov _ I b k' acts e Hl He) as Cv. apply filter_cov in Cv; auto.
    + rewrite hset_neq by auto. exact (k_cov _ I b' k' acts e Hl He).
  - exact (k_ord _ I).
Qed.

Lemma wait_ok s b : sys_ok s ->
  (forall e, In e (read_events (y_hs s b)) \/ In e (write_events (y_hs s b)) -> is_done s e = true) ->
  sys_ok (Sys (hset (y_hs s) b (wait_all (y_hs s b))) (y_rt s) (y_next s) (y_open s) (y_log s)).
Proof.
  intros I Hd. pose proof (k_rt _ I) as R. constructor.
  - apply (rt_ok_host s); auto.
  - intros b' o Ho. cbn [y_open] in Ho. pose proof (k_open _ I b' o Ho) as X. destruct o as [[[k1 d1] n1] done1]. unfold open_ok in *.
    cbn [y_hs y_next y_rt y_log]. destruct (Nat.eq_dec b' b) as [->|Hb]; [|rewrite hset_neq by auto; exact X].
    rewrite hset_eq. destruct X as (A1 & A2 & A3 & A4 & A5 & A6 & A7 & A8). cbn [wait_all up_to_date last_access read_events write_events].
    split; auto. split; auto. split; auto. split; [intros w []|]. split; [intros _ w []|]. auto.
  - intros b' Hb'. cbn [y_open y_hs] in *. destruct (Nat.eq_dec b' b) as [->|Hb]; [rewrite hset_eq|rewrite hset_neq by auto]; now apply (k_closed _ I).
  - intros b' k' acts e Hl He. cbn [y_hs y_log] in *. destruct (Nat.eq_dec b' b) as [->|Hb].
    + left. change (is_done s e = true). destruct (k_cov _ I b k' acts e Hl He) as [H|[(w & W1 & W2)|(K & w & W1 & W2)]]; auto; eapply done_closed; eauto.
    + rewrite hset_neq by auto. exact (k_cov _ I b' k' acts e Hl He).
  - exact (k_ord _ I).
Qed.

Lemma nth_error_snoc {A} (l : list A) a i x : nth_error (l ++ [a]) i = Some x -> (i < length l /\ nth_error l i = Some x) \/ (i = length l /\ x = a).
Proof.
  intros H. destruct (Nat.lt_ge_cases i (length l)) as [Hi|Hi].
  - left. rewrite nth_error_app1 in H by auto. auto.
  - right. rewrite nth_error_app2 in H by auto. destruct (i - length l) as [|n] eqn:E; cbn in H; [|destruct n; discriminate].
    injection H as <-. split; auto. lia.
Qed.

Lemma complete_ok s b k d n0 done0 acts evs h : sys_ok s -> y_open s b = Some (k, d, n0, done0) ->
    (forall a, In a acts -> n0 <= a /\ exists c, y_rt s a = Some c /\
       forall x, In x d -> In x (c_deps c) \/ c_sub c x = true) ->
    (forall a, In a acts -> In a evs \/ is_done s a = true) ->
    (k = WRITE -> forall x, In x d -> is_done s x = true \/
       exists e c, In e evs /\ y_rt s e = Some c /\ In x (c_deps c)) ->
    complete_state (is_done s) evs (y_hs s b) = Ok h ->
    sys_ok (Sys (hset (y_hs s) b h) (y_rt s) (y_next s) (open_set (y_open s) b None) (y_log s ++ [(b, k, acts)])).
Proof.
  intros I Ho Ha Hb Hc E. pose proof (k_rt _ I) as R.
  destruct (k_open _ I b _ Ho) as (A1 & A2 & A3 & A4 & A5 & A6 & A7 & A8).
  unfold complete_state in E. rewrite A1 in E. cbn [filter_events last_access] in E. rewrite A2 in E.
  set (hf := filter_events (is_done s) (y_hs s b)) in *.
  assert (Hh : h = match k with READ => Handler (read_events hf ++ evs) (write_events hf) READ true | WRITE => Handler [] evs WRITE true end).
  { destruct k; injection E as <-; reflexivity. }
  clear E. set (s' := Sys _ _ _ _ _).
  constructor.
  - apply (rt_ok_host s); auto.
  - intros b' o Hb'. cbn [s' y_open] in Hb'. destruct (Nat.eq_dec b' b) as [->|Hne]; [rewrite oset_eq in Hb'; discriminate|].
    rewrite oset_neq in Hb' by auto. pose proof (k_open _ I b' o Hb') as X. destruct o as [[[k1 d1] n1] done1].
    unfold open_ok in *. cbn [s' y_hs y_next y_rt y_log]. rewrite hset_neq by auto.
    destruct X as (X1 & X2 & X3 & X4 & X5 & X6 & X7 & X8). repeat (split; [assumption|]).
    intros k' acts' e Hl. apply in_app_iff in Hl. destruct Hl as [Hl|[Hl|[]]]; [eapply X8; eauto|]. injection Hl as E1 _ _. congruence.
  - intros b' Hb'. cbn [s' y_open y_hs] in *. destruct (Nat.eq_dec b' b) as [->|Hne].
    + rewrite hset_eq, Hh. destruct k; auto.
    + rewrite oset_neq in Hb' by auto. rewrite hset_neq by auto. now apply (k_closed _ I).
  - intros b' k' acts' e Hl He. cbn [s' y_hs y_log] in *. apply in_app_iff in Hl.
    destruct (Nat.eq_dec b' b) as [->|Hne].
    + rewrite hset_eq. destruct Hl as [Hl|[Hl|[]]].
      * pose proof (k_cov _ I b k' acts' e Hl He) as Cv0. pose proof (filter_cov _ _ _ _ R Cv0) as Cv. fold hf in Cv.
        rewrite Hh. destruct k.
        -- destruct Cv as [H|[(w & W1 & W2)|(K & w & W1 & W2)]]; [left; auto|right; left; exists w; auto|].
           right; right. split; auto. exists w. split; auto. cbn. apply in_or_app; auto.
        -- assert (Wd : forall w, In w d -> hb (y_rt s) e w -> covered_by s' k' (Handler [] evs WRITE true) e).
           { intros w Hw Hhb. destruct (Hc eq_refl w Hw) as [Hd|(e' & c & E1 & E2 & E3)].
             - left. change (is_done s e = true). eapply done_closed; eauto.
             - right; left. exists e'. split; auto. eapply hb_dep; eauto. }
           destruct Cv0 as [H|[(w & W1 & W2)|(K & w & W1 & W2)]]; [left; auto| |]; eapply Wd; eauto.
      * injection Hl as <- <-. rewrite Hh. destruct (Hb e He) as [H|H]; [|left; auto]. destruct k.
        -- right; right. split; auto. exists e. split; [apply in_or_app; auto|constructor].
        -- right; left. exists e. split; auto. constructor.
    + rewrite hset_neq by auto. destruct Hl as [Hl|[Hl|[]]]; [exact (k_cov _ I b' k' acts' e Hl He)|]. injection Hl as E1 _ _. congruence.
  - intros i j b' k1 k2 acts1 acts2 x y Hij Hi Hj Hcf Hx Hy. cbn [s' y_log] in Hi, Hj.
    apply nth_error_snoc in Hj. destruct Hj as [(Hj & Hj')|(-> & Hj')].
    + apply nth_error_snoc in Hi. destruct Hi as [(Hi & Hi')|(-> & _)]; [|lia].
      exact (k_ord _ I i j b' k1 k2 acts1 acts2 x y Hij Hi' Hj' Hcf Hx Hy).
    + injection Hj' as -> -> ->. apply nth_error_snoc in Hi. destruct Hi as [(Hi & Hi')|(-> & _)]; [|lia].
      apply nth_error_In in Hi'. destruct (Ha y Hy) as (Hn & c & C1 & C2). exists c. split; auto.
      destruct (A8 k1 acts1 x Hi' Hcf Hx) as [H|(w & W1 & W2)].
      * left. eapply A7; eauto.
      * destruct (C2 w W1) as [H|H]; [right; exists w; auto|]. left. eapply sub_closed; eauto.
Qed.

Lemma init_ok : sys_ok init_sys.
Proof.
  constructor; cbn; try discriminate; try contradiction; auto.
  - constructor; cbn; try discriminate. intros; lia.
  - intros [|i]; discriminate.
Qed.

Lemma reach_ok s : reach s -> sys_ok s.
Proof.
  induction 1 as [|s s' _ I St]; [apply init_ok|]. inversion St; subst.
  - now apply access_ok.
  - now apply submit_ok.
  - eapply complete_ok; eauto.
  - now apply wait_ok.
  - eapply start_ok; eauto.
  - eapply finish_ok; eauto.
Qed.

(** * kernel_call *)
Lemma access_cases k done h : (up_to_date h = true /\ exists d h', access k done h = Ok (d, h') /\ up_to_date h' = false /\ last_access h' = k) \/
  (up_to_date h = false /\ access k done h = Throw).
Proof.
  destruct (up_to_date h) eqn:E; [left|right]; split; auto.
  - destruct k; cbn [access]; unfold read_access, write_access; rewrite E; cbn [negb]; eauto.
  - destruct k; cbn [access]; unfold read_access, write_access; rewrite E; reflexivity.
Qed.
Lemma access_events k done h d h' : access k done h = Ok (d, h') ->
  (forall e, In e d \/ In e (read_events h') \/ In e (write_events h') -> In e (read_events h) \/ In e (write_events h)).
Proof.
  intros E e He. destruct (up_to_date h) eqn:U; [|destruct k; cbn [access] in E; unfold read_access, write_access in E; rewrite U in E; discriminate].
  destruct k; cbn [access] in E; unfold read_access, write_access in E; rewrite U in E; cbn [negb] in E; injection E as <- <-;
    cbn in He; rewrite ?in_app_iff, ?filter_In in He; tauto.
Qed.

Lemma ev_bound s : reach s -> forall b e, In e (read_events (y_hs s b)) \/ In e (write_events (y_hs s b)) -> e < y_next s.
Proof.
  induction 1 as [|s s' Rs IH St]; [cbn; tauto|]. intros b' e He. inversion St; subst; cbn [y_hs y_next] in *.
  - destruct (Nat.eq_dec b' b) as [->|Hne]; [rewrite hset_eq in He|rewrite hset_neq in He by auto; now apply (IH b')].
    apply (IH b). eapply access_events; eauto.
  - apply IH in He. lia.
  - destruct (Nat.eq_dec b' b) as [->|Hne]; [rewrite hset_eq in He|rewrite hset_neq in He by auto; now apply (IH b')].
    unfold complete_state in H4. destruct (up_to_date (y_hs s b)); [discriminate|]. cbn [filter_events last_access] in H4.
    destruct (last_access (y_hs s b)); injection H4 as <-; cbn in He; rewrite ?in_app_iff, ?filter_In in He.
    + destruct He as [[He|He]|He]; [apply (IH b); left; exact (proj1 He)|auto|apply (IH b); right].
      try (apply filter_In in He); exact (proj1 He).
    + destruct He as [[]|He]; auto.
  - destruct (Nat.eq_dec b' b) as [->|Hne]; [rewrite hset_eq in He; destruct He as [[]|[]]|rewrite hset_neq in He by auto; now apply (IH b')].
  - now apply (IH b').
  - now apply (IH b').
Qed.

Lemma accesses_reach k : forall bs s, reach s -> NoDup bs -> (forall b, In b bs -> y_open s b = None) ->
  exists ds s', accesses k (is_done s) bs (y_hs s) = Ok (ds, y_hs s') /\ reach s' /\
    y_rt s' = y_rt s /\ y_next s' = y_next s /\ y_log s' = y_log s /\
    (forall x, In x ds -> x < y_next s) /\
    (forall b, In b bs -> exists d, y_open s' b = Some (k, d, y_next s, is_done s) /\ forall x, In x d -> In x ds) /\
    (forall b, ~ In b bs -> y_open s' b = y_open s b).
Proof.
  induction bs as [|b bs IH]; intros s Rs ND Ho; cbn [accesses].
  - exists [], s. split; auto. split; auto. split; auto. split; auto. split; auto. split; [intros x []|]. split; [intros b []|auto].
  - inversion ND as [|? ? N1 N2]; subst. pose proof (reach_ok s Rs) as I.
    assert (Hu : up_to_date (y_hs s b) = true) by (apply (k_closed _ I), Ho; left; auto).
    destruct (access_cases k (is_done s) (y_hs s b)) as [(_ & d & h & E & _ & _)|(X & _)]; [|congruence].
    rewrite E. cbn [rbind].
    set (s1 := Sys (hset (y_hs s) b h) (y_rt s) (y_next s) (open_set (y_open s) b (Some (k, d, y_next s, is_done s))) (y_log s)).
    assert (R1 : reach s1) by (eapply R_step; [exact Rs|]; apply S_access; auto).
    destruct (IH s1 R1 N2) as (ds & s' & E' & R' & A1 & A2 & A3 & A4 & A5 & A6).
    { intros b' Hb'. cbn [s1 y_open]. rewrite oset_neq; [apply Ho; right; auto|intros ->; contradiction]. }
    change (is_done s1) with (is_done s) in *. cbn [s1 y_hs y_rt y_next y_log] in *.
    rewrite E'. cbn [rbind]. exists (d ++ ds), s'. split; auto. split; auto. split; auto. split; auto. split; auto. split.
    + intros x Hx. apply in_app_iff in Hx. destruct Hx as [Hx|Hx]; auto. apply (ev_bound s Rs b). eapply access_events; eauto.
    + split.
      * intros b' [<-|Hb'].
        -- exists d. rewrite A6 by auto. cbn [s1 y_open]. rewrite oset_eq. split; auto. intros; apply in_or_app; auto.
        -- destruct (A5 b' Hb') as (d' & D1 & D2). exists d'. split; auto. intros; apply in_or_app; auto.
      * intros b' Hb'. cbn [In] in Hb'. rewrite A6 by tauto. cbn [s1 y_open]. apply oset_neq. intros ->. apply Hb'; left; reflexivity.
Qed.

Lemma complete_ext done done' evs h : (forall x, done x = done' x) -> complete_state done evs h = complete_state done' evs h.
Proof.
  intros H. unfold complete_state, filter_events. cbn.
  rewrite (filter_ext (fun e => negb (done e)) (fun e => negb (done' e)) (fun x => f_equal negb (H x)) (read_events h)).
  rewrite (filter_ext (fun e => negb (done e)) (fun e => negb (done' e)) (fun x => f_equal negb (H x)) (write_events h)). reflexivity.
Qed.

Lemma completes_reach k e c deps done : forall bs s, reach s -> NoDup bs -> y_rt s e = Some c -> c_deps c = deps ->
  (forall x, done x = is_done s x) ->
  (forall b, In b bs -> exists d n0 done0, y_open s b = Some (k, d, n0, done0) /\ n0 <= e /\ forall x, In x d -> In x deps) ->
  exists s', completes done e bs (y_hs s) = Ok (y_hs s') /\ reach s' /\ y_rt s' = y_rt s /\ y_next s' = y_next s /\
    y_log s' = y_log s ++ map (fun b => (b, k, [e])) bs /\
    (forall b, In b bs -> y_open s' b = None) /\ (forall b, ~ In b bs -> y_open s' b = y_open s b).
Proof.
  induction bs as [|b bs IH]; intros s Rs ND Hc Hd Hdn Ho; cbn [completes].
  - exists s. split; auto. split; auto. split; auto. split; auto. split; [cbn; now rewrite app_nil_r|]. split; [intros b []|auto].
  - inversion ND as [|? ? N1 N2]; subst. pose proof (reach_ok s Rs) as I.
    destruct (Ho b (or_introl eq_refl)) as (d & n0 & done0 & O1 & O2 & O3).
    destruct (k_open _ I b _ O1) as (Hu & Hl & _).
    assert (exists h, complete_state (is_done s) [e] (y_hs s b) = Ok h) as (h & E).
    { unfold complete_state. rewrite Hu. cbn [filter_events last_access]. destruct (last_access (y_hs s b)); eauto. }
    rewrite (complete_ext done (is_done s)) by auto. rewrite E. cbn [rbind].
    set (s1 := Sys (hset (y_hs s) b h) (y_rt s) (y_next s) (open_set (y_open s) b None) (y_log s ++ [(b, k, [e])])).
    assert (R1 : reach s1).
    { eapply R_step; [exact Rs|]. eapply (S_complete s b k d n0 done0 [e] [e] h); auto.
      - intros a [<-|[]]. split; auto. exists c. split; auto.
      - intros a' [<-|[]]. apply (r_next _ (k_rt _ I)) in Hc. exact Hc.
      - intros _ x Hx. right. exists e, c. split; [left; auto|]. split; auto. }
    destruct (IH s1 R1 N2 Hc eq_refl) as (s' & E' & R' & A1 & A2 & A3 & A4 & A5).
    { intros x. apply Hdn. }
    { intros b' Hb'. cbn [s1 y_open]. rewrite oset_neq; [apply Ho; right; auto|intros ->; contradiction]. }
    cbn [s1 y_hs y_rt y_next y_log] in *. exists s'. split; auto. split; auto. split; auto. split; auto. split.
    { rewrite A3. cbn [map]. now rewrite <- app_assoc. }
    split.
    + intros b' [<-|Hb']; auto. rewrite A5 by auto. cbn [s1 y_open]. apply oset_eq.
    + intros b' Hb'. cbn [In] in Hb'. rewrite A5 by tauto. cbn [s1 y_open]. apply oset_neq. intros ->. apply Hb'; left; reflexivity.
Qed.

Lemma accesses_throw k done : forall bs hs, (exists b, In b bs /\ up_to_date (hs b) = false) \/ ~ NoDup bs -> accesses k done bs hs = Throw.
Proof.
  induction bs as [|b bs IH]; intros hs H; cbn [accesses].
  - exfalso. destruct H as [(b & [] & _)|H]; apply H; constructor.
  - destruct (access_cases k done (hs b)) as [(U & d & h & E & U' & _)|(U & E)]; rewrite E; cbn [rbind]; [|reflexivity].
    rewrite IH; [reflexivity|]. destruct H as [(b' & [<-|Hb'] & Hu)|H].
    + congruence.
    + left. exists b'. split; auto. destruct (Nat.eq_dec b' b) as [->|Hne]; [now rewrite hset_eq|now rewrite hset_neq].
    + destruct (in_dec Nat.eq_dec b bs) as [Hin|Hin].
      * left. exists b. split; auto. now rewrite hset_eq.
      * right. intros N. apply H. constructor; auto.
Qed.
Lemma accesses_out k done : forall bs hs, accesses k done bs hs = Throw \/
  exists ds hs', accesses k done bs hs = Ok (ds, hs') /\ (forall b, In b bs -> up_to_date (hs' b) = false) /\ (forall b, ~ In b bs -> hs' b = hs b).
Proof.
  induction bs as [|b bs IH]; intros hs; cbn [accesses].
  - right. exists [], hs. split; auto. split; [intros b []|auto].
  - destruct (access_cases k done (hs b)) as [(U & d & h & E & U' & _)|(U & E)]; rewrite E; cbn [rbind]; [|auto].
    destruct (IH (hset hs b h)) as [->|(ds & hs' & -> & A & B)]; cbn [rbind]; auto. right. exists (d ++ ds), hs'. split; auto.
    split.
    + intros b' [<-|Hb']; auto. destruct (in_dec Nat.eq_dec b bs) as [Hin|Hin]; auto. rewrite B by auto. now rewrite hset_eq.
    + intros b' Hb'. cbn [In] in Hb'. rewrite B by tauto. apply hset_neq. intros ->. apply Hb'; left; reflexivity.
Qed.
