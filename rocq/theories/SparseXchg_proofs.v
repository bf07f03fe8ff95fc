(** The exchange as a transition system: invariant, progress, termination. *)
From Verif Require Import Base Streams Serialize Serialize_proofs SparseXchg SparseXchg_spec.
From Coq Require Import ZifyBool ZifyNat.

(** ** generic lists *)
Lemma upd_app1 {A} (l1 l2 : list A) j v : j < length l1 -> upd (l1 ++ l2) j v = upd l1 j v ++ l2.
Proof. revert j; induction l1 as [|a l1 IH]; intros [|j] H; cbn in *; try lia; auto. f_equal. apply IH. lia. Qed.
Lemma upd_app2 {A} (l1 l2 : list A) j v : length l1 <= j -> upd (l1 ++ l2) j v = l1 ++ upd l2 (j - length l1) v.
Proof. revert j; induction l1 as [|a l1 IH]; intros j H; cbn in *; [now rewrite Nat.sub_0_r|]. destruct j as [|j]; [lia|]. cbn. f_equal. apply IH. lia. Qed.
Lemma find_idx_some {A} (p : A -> bool) l j : find_idx p l = Some j -> exists q, nth_error l j = Some q /\ p q = true.
Proof.
  revert j; induction l as [|a l IH]; intros j; cbn [find_idx]; [discriminate|]. destruct (p a) eqn:E.
  - intros H; injection H as <-. exists a; auto.
  - destruct (find_idx p l) as [k|]; cbn; [|discriminate]. intros H; injection H as <-. apply IH; auto.
Qed.
Lemma find_idx_in {A} (p : A -> bool) l q : In q l -> p q = true -> exists j, find_idx p l = Some j.
Proof.
  induction l as [|a l IH]; cbn [In find_idx]; [tauto|]. intros H E. destruct (p a) eqn:Ea; [eauto|].
  destruct H as [->|H]; [congruence|]. destruct (IH H E) as (j & ->). cbn. eauto.
Qed.
Definition fset (f : nat -> bool) (i : nat) (v : bool) : nat -> bool := fun k => if k =? i then v else f k.
Lemma fset_eq f i v : fset f i v i = v. Proof. unfold fset. now rewrite Nat.eqb_refl. Qed.
Lemma fset_neq f i v k : k <> i -> fset f i v k = f k. Proof. unfold fset. intros. now replace (k =? i) with false by lia. Qed.
Lemma xset_eq s r v : xset s r v r = v. Proof. unfold xset. now rewrite Nat.eqb_refl. Qed.
Lemma xset_neq s r v x : x <> r -> xset s r v x = s x. Proof. unfold xset. intros. now replace (x =? r) with false by lia. Qed.

Lemma bytes_at_len bufs o n b : nth_error bufs (fst o) = Some b -> snd o + n <= length b -> length (bytes_at bufs o n) = n.
Proof. intros H L. unfold bytes_at. rewrite (nth_error_nth _ _ _ H). rewrite firstn_length, skipn_length. lia. Qed.
Lemma bytes_at_ext bufs bufs' o o' n b b' : nth_error bufs (fst o) = Some b -> nth_error bufs' (fst o') = Some b' ->
  (forall q, q < n -> nth_error b (snd o + q) = nth_error b' (snd o' + q)) -> bytes_at bufs o n = bytes_at bufs' o' n.
Proof.
  intros H H' E. unfold bytes_at. rewrite (nth_error_nth _ _ _ H), (nth_error_nth _ _ _ H').
  apply list_eq_nth_error. intros q. destruct (Nat.lt_ge_cases q n) as [L|L].
  - rewrite !nth_error_firstn_skipn by auto. auto.
  - rewrite !(proj2 (nth_error_None _ _)); auto; rewrite firstn_length; lia.
Qed.

Section X.
Variables (tabs : list table) (bsend brecv : list (list (list Z))).
Variables (N : nat) (src dst sz : nat -> nat) (tg : nat -> Z) (so ro : nat -> nat * nat).
Let W := length tabs.
Definition dat (i : nat) : list Z := bytes_at (nth (src i) bsend []) (so i) (sz i).

Record xctx : Prop := {
  cx_src : forall i, i < N -> src i < W;
  cx_dst : forall i, i < N -> dst i < W;
  cx_len : forall r t, nth_error tabs r = Some t -> length (t_all t) = N;
  cx_msg : forall r t i, nth_error tabs r = Some t -> i < N -> exists m, nth_error (t_all t) i = Some m /\
     m_snd m = Z.of_nat (src i) /\ m_rcv m = Z.of_nat (dst i) /\ m_size m = sz i /\ m_tag m = Some (tg i) /\
     (src i = r -> m_soff m = Some (so i)) /\ (dst i = r -> m_roff m = Some (ro i));
  cx_bs : length bsend = W;
  cx_sin : forall i, i < N -> exists b, nth_error (nth (src i) bsend []) (fst (so i)) = Some b /\ snd (so i) + sz i <= length b;
  cx_rin : forall i, i < N -> exists b, nth_error (nth (dst i) brecv []) (fst (ro i)) = Some b /\ snd (ro i) + sz i <= length b;
  cx_disj : forall i j, i < N -> j < N -> i <> j -> dst i = dst j -> fst (ro i) = fst (ro j) ->
     snd (ro i) + sz i <= snd (ro j) \/ snd (ro j) + sz j <= snd (ro i);
  cx_tag : forall i j, i < N -> j < N -> src i = src j -> tg i = tg j -> i = j;
  cx_small : forall i, i < N -> (Z.of_nat (sz i) < 2 ^ 31)%Z }.

Definition sreq (M D : nat -> bool) (r i : nat) : list req :=
  if src i =? r then [Req (KSend (dat i)) (Z.of_nat (dst i)) (tg i) (M i) (D i)] else [].
Definition rreq (M D : nat -> bool) (r i : nat) : list req :=
  if dst i =? r then [Req (KRecv (fst (ro i)) (snd (ro i)) (sz i)) (Z.of_nat (src i)) (tg i) (M i) (D i)] else [].
Fixpoint reqs (MS MR DS DR : nat -> bool) (r n : nat) : list req :=
  match n with
  | 0 => []
  | S n' => reqs MS MR DS DR r n' ++ sreq MS DS r n' ++ rreq MR DR r n'
  end.

Lemma reqs_ext MS MR DS DR MS' MR' DS' DR' r n :
  (forall i, i < n -> src i = r -> MS' i = MS i /\ DS' i = DS i) -> (forall i, i < n -> dst i = r -> MR' i = MR i /\ DR' i = DR i) ->
  reqs MS' MR' DS' DR' r n = reqs MS MR DS DR r n.
Proof.
  intros E F. induction n as [|n IH]; cbn [reqs]; [reflexivity|]. rewrite IH by (intros; (apply E || apply F); auto; lia).
  unfold sreq, rreq. destruct (Nat.eqb_spec (src n) r) as [H|H].
  - destruct (E n ltac:(lia) H) as [-> ->]. destruct (Nat.eqb_spec (dst n) r) as [H'|H']; [|reflexivity]. destruct (F n ltac:(lia) H') as [-> ->]. reflexivity.
  - destruct (Nat.eqb_spec (dst n) r) as [H'|H']; [|reflexivity]. destruct (F n ltac:(lia) H') as [-> ->]. reflexivity.
Qed.

Lemma reqs_nth_send MS MR DS DR r n j q : nth_error (reqs MS MR DS DR r n) j = Some q -> is_send q = true ->
  exists i, i < n /\ src i = r /\ q = Req (KSend (dat i)) (Z.of_nat (dst i)) (tg i) (MS i) (DS i) /\
    forall a b, upd (reqs MS MR DS DR r n) j (Req (KSend (dat i)) (Z.of_nat (dst i)) (tg i) a b)
                = reqs (fset MS i a) MR (fset DS i b) DR r n.
Proof.
  induction n as [|n IH]; cbn [reqs]; [destruct j; discriminate|]. intros H S.
  destruct (Nat.lt_ge_cases j (length (reqs MS MR DS DR r n))) as [L|L].
  - rewrite nth_error_app1 in H by auto. destruct (IH H S) as (i & Hi & Hs & Hq & Hu). exists i. split; [lia|]. split; [auto|]. split; [auto|].
    intros a b. rewrite upd_app1 by auto. rewrite Hu. f_equal. unfold sreq. rewrite !fset_neq by lia. reflexivity.
  - rewrite nth_error_app2 in H by auto. unfold sreq in H at 1. destruct (Nat.eqb_spec (src n) r) as [E|E].
    + cbn [app] in H. destruct (j - length (reqs MS MR DS DR r n)) as [|k] eqn:Ek; cbn [nth_error] in H.
      * injection H as <-. exists n. split; [lia|]. split; [auto|]. split; [reflexivity|]. intros a b. rewrite upd_app2 by auto. rewrite Ek.
        unfold sreq. replace (src n =? r) with true by lia. cbn [app upd]. rewrite !fset_eq. f_equal. symmetry.
        apply reqs_ext; intros i Hi _; rewrite ?fset_neq by lia; auto.
      * exfalso. unfold rreq in H. destruct (dst n =? r); [|destruct k; discriminate]. destruct k as [|k]; cbn in H; [|destruct k; discriminate].
        injection H as <-. discriminate S.
    + exfalso. cbn [app] in H. unfold rreq in H. destruct (dst n =? r); [|destruct (j - _); discriminate].
      destruct (j - _) as [|k]; cbn in H; [injection H as <-; discriminate S|destruct k; discriminate].
Qed.
Lemma reqs_nth_recv MS MR DS DR r n j q : nth_error (reqs MS MR DS DR r n) j = Some q -> is_send q = false ->
  exists i, i < n /\ dst i = r /\ q = Req (KRecv (fst (ro i)) (snd (ro i)) (sz i)) (Z.of_nat (src i)) (tg i) (MR i) (DR i) /\
    forall a b, upd (reqs MS MR DS DR r n) j (Req (KRecv (fst (ro i)) (snd (ro i)) (sz i)) (Z.of_nat (src i)) (tg i) a b)
                = reqs MS (fset MR i a) DS (fset DR i b) r n.
Proof.
  induction n as [|n IH]; cbn [reqs]; [destruct j; discriminate|]. intros H S.
  destruct (Nat.lt_ge_cases j (length (reqs MS MR DS DR r n))) as [L|L].
  - rewrite nth_error_app1 in H by auto. destruct (IH H S) as (i & Hi & Hs & Hq & Hu). exists i. split; [lia|]. split; [auto|]. split; [auto|].
    intros a b. rewrite upd_app1 by auto. rewrite Hu. f_equal. unfold rreq. rewrite !fset_neq by lia. reflexivity.
  - rewrite nth_error_app2 in H by auto.
    destruct (Nat.lt_ge_cases (j - length (reqs MS MR DS DR r n)) (length (sreq MS DS r n))) as [L2|L2].
    + exfalso. rewrite nth_error_app1 in H by auto. unfold sreq in H. destruct (src n =? r); [|destruct (j - _); discriminate].
      destruct (j - _) as [|k]; cbn in H; [injection H as <-; discriminate S|destruct k; discriminate].
    + rewrite nth_error_app2 in H by auto. set (k := j - length (reqs MS MR DS DR r n) - length (sreq MS DS r n)) in *.
      unfold rreq in H. destruct (Nat.eqb_spec (dst n) r) as [E|E]; [|destruct k; discriminate].
      destruct k as [|k'] eqn:Ek; cbn in H; [|destruct k'; discriminate]. injection H as <-.
      exists n. split; [lia|]. split; [auto|]. split; [reflexivity|]. intros a b. rewrite upd_app2 by auto. rewrite upd_app2 by auto. fold k. rewrite Ek.
      unfold rreq. replace (dst n =? r) with true by lia. cbn [upd]. rewrite !fset_eq. f_equal.
      symmetry. apply reqs_ext; intros i Hi _; rewrite ?fset_neq by lia; auto.
Qed.
Lemma reqs_in_send MS MR DS DR r n i : i < n -> src i = r -> In (Req (KSend (dat i)) (Z.of_nat (dst i)) (tg i) (MS i) (DS i)) (reqs MS MR DS DR r n).
Proof.
  induction n as [|n IH]; [lia|]. intros H E. cbn [reqs]. apply in_or_app. destruct (Nat.eq_dec i n) as [->|D]; [right|left; apply IH; auto; lia].
  apply in_or_app. left. unfold sreq. replace (src n =? r) with true by lia. left; reflexivity.
Qed.
Lemma reqs_in_recv MS MR DS DR r n i : i < n -> dst i = r ->
  In (Req (KRecv (fst (ro i)) (snd (ro i)) (sz i)) (Z.of_nat (src i)) (tg i) (MR i) (DR i)) (reqs MS MR DS DR r n).
Proof.
  induction n as [|n IH]; [lia|]. intros H E. cbn [reqs]. apply in_or_app. destruct (Nat.eq_dec i n) as [->|D]; [right|left; apply IH; auto; lia].
  apply in_or_app. right. unfold rreq. replace (dst n =? r) with true by lia. left; reflexivity.
Qed.

Definition invf (M DS DR : nat -> bool) (s : xsys) : Prop :=
  (forall r, r < W -> x_pc (s r) <= N) /\
  (forall r, r < W -> x_reqs (s r) = reqs M M DS DR r (x_pc (s r))) /\
  (forall i, i < N -> M i = true -> i < x_pc (s (src i)) /\ i < x_pc (s (dst i))) /\
  (forall i, i < N -> DS i = true -> i < x_pc (s (src i))) /\
  (forall i, i < N -> DR i = true -> M i = true) /\
  (forall r, r < W -> map (@length Z) (x_bufs (s r)) = map (@length Z) (nth r brecv [])) /\
  (forall i, i < N -> M i = true -> bytes_at (x_bufs (s (dst i))) (ro i) (sz i) = dat i).
Definition inv (s : xsys) : Prop := exists M DS DR, invf M DS DR s.

Lemma inv_init : xctx -> inv (xinit brecv).
Proof.
  intros C. exists (fun _ => false), (fun _ => false), (fun _ => false). unfold invf, xinit. cbn [x_pc x_reqs x_bufs].
  split; [lia|]. split; [reflexivity|]. split; [discriminate|]. split; [discriminate|]. split; [discriminate|]. split; [reflexivity|discriminate].
Qed.

Lemma len_nth (l l' : list (list Z)) b x : map (@length Z) l = map (@length Z) l' -> nth_error l' b = Some x ->
  exists y, nth_error l b = Some y /\ length y = length x.
Proof.
  intros E H. assert (F : nth_error (map (@length Z) l) b = Some (length x)) by (rewrite E, nth_error_map, H; reflexivity).
  rewrite nth_error_map in F. destruct (nth_error l b) as [y|]; [|discriminate]. cbn in F. injection F as F. eauto.
Qed.

Definition qw (q : req) : nat := (if q_matched q then 0 else 1) + (if q_done q then 0 else 1).
Definition rw (st : rst) : nat := 5 * (N - x_pc st) + list_sum (map qw (x_reqs st)).
Definition sw (s : xsys) : nat := list_sum (map (fun r => rw (s r)) (seq 0 W)).
Lemma sum_xset s r v : r < W -> sw (xset s r v) + rw (s r) = sw s + rw v.
Proof.
  intros H. unfold sw. assert (G : forall n k, (k <= r < k + n -> list_sum (map (fun x => rw (xset s r v x)) (seq k n)) + rw (s r)
      = list_sum (map (fun x => rw (s x)) (seq k n)) + rw v) /\
    (~ (k <= r < k + n) -> list_sum (map (fun x => rw (xset s r v x)) (seq k n)) = list_sum (map (fun x => rw (s x)) (seq k n)))).
  { induction n as [|n IH]; intros k; cbn [seq map list_sum fold_right]; [lia|]. fold (list_sum (map (fun x => rw (xset s r v x)) (seq (S k) n))).
    fold (list_sum (map (fun x => rw (s x)) (seq (S k) n))). destruct (IH (S k)) as [A B]. destruct (Nat.eq_dec k r) as [->|D].
    - rewrite xset_eq. split; [intros _; rewrite B by lia; lia|lia].
    - rewrite xset_neq by auto. split; intros K; [specialize (A ltac:(lia)); lia|rewrite B by lia; lia]. }
  apply (G W 0). lia.
Qed.
Lemma sum_upd (l : list req) j q q' : nth_error l j = Some q -> list_sum (map qw (upd l j q')) + qw q = list_sum (map qw l) + qw q'.
Proof.
  revert j; induction l as [|a l IH]; intros [|j] H; cbn [nth_error upd map list_sum fold_right] in *; try discriminate.
  - injection H as <-. lia.
  - fold (list_sum (map qw (upd l j q'))). fold (list_sum (map qw l)). specialize (IH j H). lia.
Qed.

(** every enabled step succeeds, keeps the invariant and decreases the measure *)
Lemma step_post : xctx -> forall r s M DS DR, invf M DS DR s -> enabled tabs (LPost r) s = true ->
  exists s', xdo tabs bsend (LPost r) s = Ok s' /\ invf M DS DR s' /\ sw s' < sw s.
Proof.
  intros C r s M DS DR (I1 & I2 & I3 & I4 & I5 & I6 & I7) E. cbn [enabled] in E.
  destruct (nth_error tabs r) as [t|] eqn:Et; [|discriminate]. apply andb_prop in E as [E _].
  assert (Hr : r < W) by (apply nth_error_Some; congruence). rewrite (cx_len C r t Et) in E. apply Nat.ltb_lt in E.
  cbn [xdo]. rewrite (proj2 (aget_ok _ _ _) Et). cbn [rbind].
  rewrite (aget_lt _ _ []) by (rewrite (cx_bs C); auto). cbn [rbind].
  set (i := x_pc (s r)) in *. destruct (cx_msg C r t i Et E) as (m & Hm & Ms & Mr & Mz & Mt & So & Ro).
  rewrite (proj2 (aget_ok _ _ _) Hm). cbn [rbind]. pose proof (cx_small C i E) as Hz.
  assert (Fs : src i = r -> M i = false /\ DS i = false).
  { intros Q. split; [destruct (M i) eqn:F|destruct (DS i) eqn:F]; auto; exfalso.
    - destruct (I3 i E F) as [A B]. rewrite Q in A. fold i in A. lia.
    - pose proof (I4 i E F) as A. rewrite Q in A. fold i in A. lia. }
  assert (Fr : dst i = r -> M i = false /\ DR i = false).
  { intros Q. assert (F0 : M i = false). { destruct (M i) eqn:F; auto. destruct (I3 i E F) as [A B]. rewrite Q in B. fold i in B. lia. }
    split; [auto|]. destruct (DR i) eqn:F; auto. apply I5 in F; [congruence|auto]. }
  assert (PM : post_msg r (nth r bsend []) m (s r) = Ok (Rst (i + 1) (reqs M M DS DR r (S i)) (x_bufs (s r)))).
  { unfold post_msg. rewrite Ms, Mr, Mz, Mt.
    assert (A1 : (if (Z.of_nat (src i) =? Z.of_nat r)%Z then
           off <- ref (m_soff m) ;; b <- vat (nth r bsend []) (fst off) ;; _ <- narrow_i32 (sz i) ;;
           data <- read_at (snd off) (sz i) b ;; tag <- ref (Some (tg i)) ;;
           Ok [Req (KSend data) (Z.of_nat (dst i)) tag false false] else Ok []) = Ok (sreq M DS r i)).
    { unfold sreq. destruct (Nat.eqb_spec (src i) r) as [D|D].
      - replace (_ =? _)%Z with true by lia. rewrite (So D). cbn [ref rbind]. destruct (cx_sin C i E) as (b & Hb & Lb). rewrite D in Hb.
        unfold vat. rewrite Hb. cbn [ref rbind]. unfold narrow_i32. replace (_ <? _)%Z with true by lia. cbn [rbind].
        unfold read_at. replace (_ <=? _) with true by lia. cbn [rbind]. destruct (Fs D) as [-> ->].
        unfold dat, bytes_at. rewrite D, (nth_error_nth _ _ _ Hb). reflexivity.
      - replace (_ =? _)%Z with false by lia. reflexivity. }
    rewrite A1. cbn [rbind].
    assert (A2 : (if (Z.of_nat (dst i) =? Z.of_nat r)%Z then
           off <- ref (m_roff m) ;; b <- vat (x_bufs (s r)) (fst off) ;; _ <- narrow_i32 (sz i) ;; tag <- ref (Some (tg i)) ;;
           Ok [Req (KRecv (fst off) (snd off) (sz i)) (Z.of_nat (src i)) tag false false] else Ok []) = Ok (rreq M DR r i)).
    { unfold rreq. destruct (Nat.eqb_spec (dst i) r) as [D|D].
      - replace (_ =? _)%Z with true by lia. rewrite (Ro D). cbn [ref rbind]. destruct (cx_rin C i E) as (b & Hb & Lb). rewrite D in Hb.
        destruct (len_nth _ _ _ _ (I6 r Hr) Hb) as (y & Hy & Ly). unfold vat. rewrite Hy. cbn [ref rbind]. unfold narrow_i32. replace (_ <? _)%Z with true by lia. cbn [rbind].
        destruct (Fr D) as [-> ->]. reflexivity.
      - replace (_ =? _)%Z with false by lia. reflexivity. }
    rewrite A2. cbn [rbind]. rewrite (I2 r Hr). reflexivity. }
  rewrite PM. cbn [rbind]. eexists. split; [reflexivity|]. split.
  - assert (PC : forall x, x_pc (s x) <= x_pc (xset s r (Rst (i + 1) (reqs M M DS DR r (S i)) (x_bufs (s r))) x)).
    { intros x. destruct (Nat.eq_dec x r) as [->|D]; [rewrite xset_eq; cbn [x_pc]; fold i; lia|rewrite xset_neq by auto; lia]. }
    assert (BF : forall x, x_bufs (xset s r (Rst (i + 1) (reqs M M DS DR r (S i)) (x_bufs (s r))) x) = x_bufs (s x)).
    { intros x. destruct (Nat.eq_dec x r) as [->|D]; [rewrite xset_eq; reflexivity|rewrite xset_neq by auto; reflexivity]. }
    split; [|split; [|split; [|split; [|split; [|split]]]]].
    + intros x Hx. destruct (Nat.eq_dec x r) as [->|D]; [rewrite xset_eq; cbn [x_pc]; lia|rewrite xset_neq by auto; auto].
    + intros x Hx. destruct (Nat.eq_dec x r) as [->|D]; [rewrite xset_eq; cbn [x_pc x_reqs]; now rewrite Nat.add_1_r|rewrite xset_neq by auto; auto].
    + intros k Hk Mk. destruct (I3 k Hk Mk). pose proof (PC (src k)). pose proof (PC (dst k)). lia.
    + intros k Hk Mk. pose proof (I4 k Hk Mk). pose proof (PC (src k)). lia.
    + auto.
    + intros x Hx. rewrite BF. auto.
    + intros k Hk Mk. rewrite BF. auto.
  - pose proof (sum_xset s r (Rst (i + 1) (reqs M M DS DR r (S i)) (x_bufs (s r))) Hr) as SX.
    enough (rw (Rst (i + 1) (reqs M M DS DR r (S i)) (x_bufs (s r))) < rw (s r)) by lia.
    unfold rw. cbn [x_pc x_reqs reqs]. rewrite !map_app, !list_sum_app, (I2 r Hr). fold i.
    assert (list_sum (map qw (sreq M DS r i)) <= 2) by (unfold sreq; destruct (_ =? _); cbn [map list_sum fold_right]; [unfold qw; destruct (q_matched _), (q_done _); lia|lia]).
    assert (list_sum (map qw (rreq M DR r i)) <= 2) by (unfold rreq; destruct (_ =? _); cbn [map list_sum fold_right]; [unfold qw; destruct (q_matched _), (q_done _); lia|lia]).
    lia.
Qed.

Lemma send_to_inv d t q : send_to d t q = true -> is_send q = true /\ q_matched q = false /\ q_peer q = d /\ q_tag q = t.
Proof. unfold send_to. intros H. repeat (apply andb_prop in H as [H ?]). destruct (q_matched q); try discriminate. repeat split; auto; lia. Qed.
Lemma recv_from_inv d t q : recv_from d t q = true -> is_send q = false /\ q_matched q = false /\ q_peer q = d /\ q_tag q = t.
Proof. unfold recv_from. intros H. repeat (apply andb_prop in H as [H ?]). destruct (is_send q), (q_matched q); try discriminate. repeat split; auto; lia. Qed.

Lemma step_match : xctx -> forall a b tag s M DS DR, invf M DS DR s -> enabled tabs (LMatch a b tag) s = true ->
  exists s' M', xdo tabs bsend (LMatch a b tag) s = Ok s' /\ invf M' DS DR s' /\ sw s' < sw s.
Proof.
  intros C a b tag s M DS DR (I1 & I2 & I3 & I4 & I5 & I6 & I7) E. cbn [enabled] in E. fold W in E.
  apply andb_prop in E as [E E3]. apply andb_prop in E as [E1 E2]. apply Nat.ltb_lt in E1, E2.
  cbn [xdo]. destruct (find_idx (send_to (Z.of_nat b) tag) (x_reqs (s a))) as [js|] eqn:Fs; [|discriminate].
  destruct (find_idx (recv_from (Z.of_nat a) tag) (x_reqs (s b))) as [jr|] eqn:Fr; [|discriminate]. clear E3.
  apply find_idx_some in Fs as (qs & Ns & Ps). apply find_idx_some in Fr as (qr & Nr & Pr).
  apply send_to_inv in Ps as (Ps1 & Ps2 & Ps3 & Ps4). apply recv_from_inv in Pr as (Pr1 & Pr2 & Pr3 & Pr4).
  rewrite (proj2 (aget_ok _ _ _) Ns), (proj2 (aget_ok _ _ _) Nr). cbn [rbind].
  pose proof Ns as Ns'. pose proof Nr as Nr'. rewrite (I2 a E1) in Ns'. rewrite (I2 b E2) in Nr'.
  apply reqs_nth_send in Ns' as (i & Li & Si & Qs & Us); [|auto]. apply reqs_nth_recv in Nr' as (k & Lk & Sk & Qr & Ur); [|auto].
  assert (Hi : i < N) by (pose proof (I1 a E1); lia). assert (Hk : k < N) by (pose proof (I1 b E2); lia).
  subst qs qr. cbn [q_matched q_peer q_tag] in Ps2, Ps3, Ps4, Pr2, Pr3, Pr4.
  assert (k = i) as -> by (apply (cx_tag C); auto; lia || congruence).
  assert (Di : dst i = b) by lia.
  destruct (cx_rin C i Hi) as (x0 & Hx0 & Lx0). rewrite Di in Hx0. destruct (len_nth _ _ _ _ (I6 b E2) Hx0) as (x & Hx & Lx).
  destruct (cx_sin C i Hi) as (y & Hy & Ly). assert (LD : length (dat i) = sz i) by (unfold dat; eapply bytes_at_len; eauto).
  unfold deliver. cbn [q_kind]. rewrite LD, Nat.ltb_irrefl. rewrite (proj2 (aget_ok _ _ _) Hx). cbn [rbind].
  destruct (write_at_ok (snd (ro i)) (dat i) x) as (x' & Wx & Lx' & W1 & W2); [lia|]. rewrite Wx. cbn [rbind].
  assert (Hb : fst (ro i) < length (x_bufs (s b))) by (apply nth_error_Some; congruence).
  rewrite aset_lt by auto. cbn [rbind].
  set (bufs' := upd (x_bufs (s b)) (fst (ro i)) x').
  set (s1 := xset s a (Rst (x_pc (s a)) (upd (x_reqs (s a)) js (set_matched (Req (KSend (dat i)) (Z.of_nat (dst i)) (tg i) (M i) (DS i)))) (x_bufs (s a)))).
  cbv zeta. set (s2 := xset s1 b (Rst (x_pc (s1 b)) (upd (x_reqs (s1 b)) jr (set_matched (Req (KRecv (fst (ro i)) (snd (ro i)) (sz i)) (Z.of_nat (src i)) (tg i) (M i) (DR i)))) bufs')).
  exists s2, (fset M i true). split; [reflexivity|].
  unfold set_matched in s1, s2. cbn [q_kind q_peer q_tag q_done] in s1, s2.
  assert (DSi : fset DS i (DS i) = DS \/ True) by auto.
  assert (R1 : forall x, x < W -> x_pc (s1 x) = x_pc (s x) /\ x_bufs (s1 x) = x_bufs (s x) /\ x_reqs (s1 x) = reqs (fset M i true) M DS DR x (x_pc (s x))).
  { intros r Hr. unfold s1. destruct (Nat.eq_dec r a) as [->|D].
    - rewrite xset_eq. cbn [x_pc x_reqs x_bufs]. split; [auto|]. split; [auto|]. rewrite (I2 a E1), Us. apply reqs_ext; auto.
      intros k Hk' _. split; auto. unfold fset. destruct (Nat.eqb_spec k i) as [->|]; auto.
    - rewrite xset_neq by auto. split; [auto|]. split; [auto|]. rewrite (I2 r Hr). apply reqs_ext; auto.
      intros k Hk' Hs. split; auto. unfold fset. destruct (Nat.eqb_spec k i) as [->|]; auto. congruence. }
  assert (R2 : forall x, x < W -> x_pc (s2 x) = x_pc (s x) /\ x_bufs (s2 x) = (if x =? b then bufs' else x_bufs (s x)) /\
                x_reqs (s2 x) = reqs (fset M i true) (fset M i true) DS DR x (x_pc (s x))).
  { intros r Hr. unfold s2. destruct (R1 r Hr) as (P1 & P2 & P3). destruct (Nat.eq_dec r b) as [->|D].
    - rewrite xset_eq. cbn [x_pc x_reqs x_bufs]. rewrite Nat.eqb_refl. split; [auto|]. split; [auto|]. rewrite P3.
      assert (Nr2 : nth_error (reqs (fset M i true) M DS DR b (x_pc (s b))) jr = Some (Req (KRecv (fst (ro i)) (snd (ro i)) (sz i)) (Z.of_nat (src i)) (tg i) (M i) (DR i))).
      { rewrite <- P3. unfold s1. destruct (Nat.eq_dec b a) as [->|D]; [|rewrite xset_neq by auto; auto]. rewrite xset_eq. cbn [x_reqs].
        rewrite nth_error_upd_neq; auto. intros ->. rewrite Ns in Nr. discriminate. }
      apply reqs_nth_recv in Nr2 as (k & Lk2 & Sk2 & Qk & Uk); [|reflexivity].
      assert (k = i) as -> by (apply (cx_tag C); [pose proof (I1 b E2); lia|auto| |]; injection Qk; intros; (lia || congruence)).
      rewrite Uk. apply reqs_ext; auto. intros k Hk' _. split; auto. unfold fset. destruct (Nat.eqb_spec k i) as [->|]; auto.
    - rewrite xset_neq by auto. replace (r =? b) with false by lia. split; [auto|]. split; [auto|]. rewrite P3. apply reqs_ext; auto.
      intros k Hk' Hs. split; auto. unfold fset. destruct (Nat.eqb_spec k i) as [->|]; auto. congruence. }
  assert (LB : map (@length Z) bufs' = map (@length Z) (x_bufs (s b))).
  { unfold bufs'. apply list_eq_nth_error. intros k. rewrite !nth_error_map. destruct (Nat.eq_dec (fst (ro i)) k) as [<-|D].
    - rewrite nth_error_upd_eq by auto. rewrite Hx. cbn. congruence.
    - rewrite nth_error_upd_neq by auto. reflexivity. }
  split.
  - split; [|split; [|split; [|split; [|split; [|split]]]]].
    + intros r Hr. destruct (R2 r Hr) as (-> & _). auto.
    + intros r Hr. destruct (R2 r Hr) as (-> & _ & ->). reflexivity.
    + intros k Hk' Mk. destruct (R2 (src k) (cx_src C k Hk')) as (-> & _). destruct (R2 (dst k) (cx_dst C k Hk')) as (-> & _).
      unfold fset in Mk. destruct (Nat.eqb_spec k i) as [->|]; [|auto]. rewrite Si, Di. auto.
    + intros k Hk' Mk. destruct (R2 (src k) (cx_src C k Hk')) as (-> & _). auto.
    + intros k Hk' Mk. unfold fset. destruct (k =? i); auto.
    + intros r Hr. destruct (R2 r Hr) as (_ & -> & _). destruct (Nat.eqb_spec r b) as [->|]; auto. rewrite LB. auto.
    + intros k Hk' Mk. destruct (R2 (dst k) (cx_dst C k Hk')) as (_ & -> & _). unfold fset in Mk.
      destruct (Nat.eqb_spec k i) as [->|D].
      * rewrite Di, Nat.eqb_refl. unfold bytes_at. rewrite (nth_error_nth bufs' (fst (ro i)) [] (x := x')) by (unfold bufs'; now apply nth_error_upd_eq).
        apply list_eq_nth_error. intros q. destruct (Nat.lt_ge_cases q (sz i)) as [L|L].
        { rewrite nth_error_firstn_skipn by auto. apply W1. lia. }
        { rewrite !(proj2 (nth_error_None _ _)); auto; rewrite ?firstn_length; lia. }
      * destruct (Nat.eqb_spec (dst k) b) as [Db|Db]; [|auto]. rewrite <- (I7 k Hk' Mk), Db.
        destruct (cx_rin C k Hk') as (z0 & Hz0 & Lz0). rewrite Db in Hz0. destruct (len_nth _ _ _ _ (I6 b E2) Hz0) as (z & Hz & Lz).
        destruct (Nat.eq_dec (fst (ro i)) (fst (ro k))) as [F|F].
        { rewrite F in Hx. assert (z = x) by congruence. subst z.
          apply bytes_at_ext with (b := x') (b' := x); auto.
          - unfold bufs'. rewrite <- F. now apply nth_error_upd_eq.
          - intros q Lq. apply W2. destruct (cx_disj C i k Hi Hk' ltac:(auto) ltac:(congruence) F); lia. }
        { apply bytes_at_ext with (b := z) (b' := z); auto. unfold bufs'. rewrite nth_error_upd_neq by auto. auto. }
  - assert (RW : forall r r' , x_reqs r' = x_reqs r -> x_pc r' = x_pc r -> rw r' = rw r) by (intros r r' H1 H2; unfold rw; congruence).
    pose proof (sum_xset s a (Rst (x_pc (s a)) (upd (x_reqs (s a)) js (Req (KSend (dat i)) (Z.of_nat (dst i)) (tg i) true (DS i))) (x_bufs (s a))) E1) as X1.
    fold s1 in X1.
    pose proof (sum_xset s1 b (Rst (x_pc (s1 b)) (upd (x_reqs (s1 b)) jr (Req (KRecv (fst (ro i)) (snd (ro i)) (sz i)) (Z.of_nat (src i)) (tg i) true (DR i))) bufs') E2) as X2.
    fold s2 in X2.
    pose proof (sum_upd (x_reqs (s a)) js _ (Req (KSend (dat i)) (Z.of_nat (dst i)) (tg i) true (DS i)) Ns) as Y1.
    assert (Nr2 : nth_error (x_reqs (s1 b)) jr = Some (Req (KRecv (fst (ro i)) (snd (ro i)) (sz i)) (Z.of_nat (src i)) (tg i) (M i) (DR i))).
    { unfold s1. destruct (Nat.eq_dec b a) as [->|D]; [|rewrite xset_neq by auto; auto]. rewrite xset_eq. cbn [x_reqs].
      rewrite nth_error_upd_neq; auto. intros ->. rewrite Ns in Nr. discriminate. }
    pose proof (sum_upd (x_reqs (s1 b)) jr _ (Req (KRecv (fst (ro i)) (snd (ro i)) (sz i)) (Z.of_nat (src i)) (tg i) true (DR i)) Nr2) as Y2.
    unfold rw in X1, X2. cbn [x_pc x_reqs] in X1, X2. unfold qw in Y1 at 2 4, Y2 at 2 4. cbn [q_matched q_done] in Y1, Y2. rewrite Ps2 in Y1, Y2. clear - X1 X2 Y1 Y2. lia.
Qed.

Lemma step_done : xctx -> forall r j s M DS DR, invf M DS DR s -> enabled tabs (LDone r j) s = true ->
  exists s' DS' DR', xdo tabs bsend (LDone r j) s = Ok s' /\ invf M DS' DR' s' /\ sw s' < sw s.
Proof.
  intros C r j s M DS DR (I1 & I2 & I3 & I4 & I5 & I6 & I7) E. cbn [enabled] in E. fold W in E. apply andb_prop in E as [E1 E]. apply Nat.ltb_lt in E1.
  destruct (nth_error (x_reqs (s r)) j) as [q|] eqn:Nq; [|discriminate]. apply andb_prop in E as [E2 E3].
  cbn [xdo]. rewrite (proj2 (aget_ok _ _ _) Nq). cbn [rbind].
  set (s' := xset s r (Rst (x_pc (s r)) (upd (x_reqs (s r)) j (set_done q)) (x_bufs (s r)))).
  assert (SW : sw s' < sw s).
  { pose proof (sum_xset s r (Rst (x_pc (s r)) (upd (x_reqs (s r)) j (set_done q)) (x_bufs (s r))) E1) as X. fold s' in X.
    pose proof (sum_upd (x_reqs (s r)) j q (set_done q) Nq) as Y. unfold rw in X. cbn [x_pc x_reqs] in X.
    assert (Z1 : qw q = qw (set_done q) + 1) by (unfold qw, set_done; cbn [q_matched q_done]; destruct (q_done q); [discriminate|lia]).
    clear - X Y Z1. lia. }
  assert (R0 : forall x, x_pc (s' x) = x_pc (s x) /\ x_bufs (s' x) = x_bufs (s x)).
  { intros x. unfold s'. destruct (Nat.eq_dec x r) as [->|D]; [rewrite xset_eq; auto|rewrite xset_neq by auto; auto]. }
  pose proof Nq as Nq'. rewrite (I2 r E1) in Nq'. destruct (is_send q) eqn:S.
  - apply reqs_nth_send in Nq' as (i & Li & Si & Qi & Ui); [|auto].
    assert (Hi : i < N) by (pose proof (I1 r E1); lia).
    exists s', (fset DS i true), DR. split; [reflexivity|]. split; [|auto]. split; [|split; [|split; [|split; [|split; [|split]]]]].
    + intros x Hx. destruct (R0 x) as [-> _]. auto.
    + intros x Hx. destruct (R0 x) as [-> _]. unfold s'. destruct (Nat.eq_dec x r) as [->|D].
      * rewrite xset_eq. cbn [x_reqs]. rewrite (I2 r E1). rewrite Qi. unfold set_done. cbn [q_kind q_peer q_tag q_matched]. rewrite Ui.
        apply reqs_ext; auto. intros k Hk _. split; auto. unfold fset. destruct (Nat.eqb_spec k i) as [->|]; auto.
      * rewrite xset_neq by auto. rewrite (I2 x Hx). apply reqs_ext; auto. intros k Hk Hs. split; auto. unfold fset. destruct (Nat.eqb_spec k i) as [->|]; auto. congruence.
    + intros k Hk Mk. destruct (R0 (src k)) as [-> _]. destruct (R0 (dst k)) as [-> _]. auto.
    + intros k Hk Mk. destruct (R0 (src k)) as [-> _]. unfold fset in Mk. destruct (Nat.eqb_spec k i) as [->|]; auto. congruence.
    + auto.
    + intros x Hx. destruct (R0 x) as [_ ->]. auto.
    + intros k Hk Mk. destruct (R0 (dst k)) as [_ ->]. auto.
  - apply reqs_nth_recv in Nq' as (i & Li & Si & Qi & Ui); [|auto].
    assert (Hi : i < N) by (pose proof (I1 r E1); lia).
    assert (Mi : M i = true) by (subst q; cbn in E3; destruct (M i); auto; discriminate).
    exists s', DS, (fset DR i true). split; [reflexivity|]. split; [|auto]. split; [|split; [|split; [|split; [|split; [|split]]]]].
    + intros x Hx. destruct (R0 x) as [-> _]. auto.
    + intros x Hx. destruct (R0 x) as [-> _]. unfold s'. destruct (Nat.eq_dec x r) as [->|D].
      * rewrite xset_eq. cbn [x_reqs]. rewrite (I2 r E1). rewrite Qi. unfold set_done. cbn [q_kind q_peer q_tag q_matched]. rewrite Ui.
        apply reqs_ext; auto. intros k Hk _. split; auto. unfold fset. destruct (Nat.eqb_spec k i) as [->|]; auto.
      * rewrite xset_neq by auto. rewrite (I2 x Hx). apply reqs_ext; auto. intros k Hk Hs. split; auto. unfold fset. destruct (Nat.eqb_spec k i) as [->|]; auto. congruence.
    + intros k Hk Mk. destruct (R0 (src k)) as [-> _]. destruct (R0 (dst k)) as [-> _]. auto.
    + intros k Hk Mk. destruct (R0 (src k)) as [-> _]. auto.
    + intros k Hk Mk. unfold fset in Mk. destruct (Nat.eqb_spec k i) as [->|]; auto.
    + intros x Hx. destruct (R0 x) as [_ ->]. auto.
    + intros k Hk Mk. destruct (R0 (dst k)) as [_ ->]. auto.
Qed.

Lemma step_any : xctx -> forall l s, inv s -> enabled tabs l s = true ->
  exists s', xdo tabs bsend l s = Ok s' /\ inv s' /\ sw s' < sw s.
Proof.
  intros C l s (M & DS & DR & I) E. destruct l as [r|a b t|r j].
  - destruct (step_post C r s M DS DR I E) as (s' & A & B & D). exists s'. split; [auto|]. split; [exists M, DS, DR; auto|auto].
  - destruct (step_match C a b t s M DS DR I E) as (s' & M' & A & B & D). exists s'. split; [auto|]. split; [exists M', DS, DR; auto|auto].
  - destruct (step_done C r j s M DS DR I E) as (s' & DS' & DR' & A & B & D). exists s'. split; [auto|]. split; [exists M, DS', DR'; auto|auto].
Qed.

(** ** progress *)
Lemma remain_pos l : remain_count l <> 0 -> exists j q, nth_error l j = Some q /\ q_done q = false.
Proof.
  unfold remain_count. intros H. destruct (filter (fun q => negb (q_done q)) l) as [|q f] eqn:E; [cbn in H; lia|].
  assert (I : In q (filter (fun q => negb (q_done q)) l)) by (rewrite E; left; auto). apply filter_In in I as [I D].
  apply In_nth_error in I as (j & Hj). exists j, q. split; auto. now destruct (q_done q).
Qed.
Definition posted_open (M : nat -> bool) (s : xsys) (i : nat) : bool :=
  negb (M i) && ((i <? x_pc (s (src i))) || (i <? x_pc (s (dst i)))).
Lemma least (P : nat -> bool) n : (exists i, i < n /\ P i = true) -> exists i, i < n /\ P i = true /\ forall j, j < i -> P j = false.
Proof.
  induction n as [|n IH]; intros (i & Hi & Pi); [lia|].
  destruct (existsb P (seq 0 n)) eqn:E.
  - apply existsb_exists in E as (x & Hx & Px). apply in_seq in Hx. destruct IH as (y & A & B & D); [exists x; split; auto; lia|]. exists y. split; [lia|auto].
  - assert (F : forall j, j < n -> P j = false).
    { intros j Hj. destruct (P j) eqn:Pj; auto. rewrite <- E. symmetry. apply existsb_exists. exists j. split; auto. apply in_seq. lia. }
    exists i. assert (i = n) as -> by (destruct (Nat.eq_dec i n); auto; rewrite F in Pi by lia; discriminate). auto.
Qed.
Lemma finished_iff s : finished tabs s = true <-> forall r t, nth_error tabs r = Some t -> x_pc (s r) = length (t_all t) /\ remain_count (x_reqs (s r)) = 0.
Proof.
  unfold finished. rewrite forallb_forall. split.
  - intros H r t Ht. assert (I : In (r, t) (combine (seq 0 (length tabs)) tabs)).
    { apply nth_error_In with (n := r). assert (r < length tabs) by (apply nth_error_Some; congruence).
      assert (G : forall (l : list table) k0 r t, nth_error l r = Some t -> nth_error (combine (seq k0 (length l)) l) r = Some (k0 + r, t)).
      { induction l as [|a l IH]; intros k0 [|r'] t' H'; cbn in H' |- *; try discriminate. - injection H' as <-. f_equal. f_equal. lia. - rewrite (IH (S k0) r' t' H'). f_equal. f_equal. lia. }
      apply (G tabs 0 r t Ht). }
    apply H in I. cbn [fst snd] in I. lia.
  - intros H [r t] I. cbn [fst snd]. apply In_nth_error in I as (k & Hk).
    assert (G : forall (l : list table) k0 k r t, nth_error (combine (seq k0 (length l)) l) k = Some (r, t) -> r = k0 + k /\ nth_error l k = Some t).
    { induction l as [|a l IH]; intros k0 [|k'] r' t' H'; cbn in H' |- *; try discriminate. - injection H' as <- <-. split; [lia|auto]. - apply IH in H' as [-> E]. split; [lia|auto]. }
    apply G in Hk as [E1 E2]. cbn in E1. subst r. apply H in E2. lia.
Qed.

Lemma progress : xctx -> forall s, inv s -> finished tabs s = false -> exists l, enabled tabs l s = true /\ unbuffered l s.
Proof.
  intros C s (M & DS & DR & (I1 & I2 & I3 & I4 & I5 & I6 & I7)) NF.
  (* a matched but unreported request *)
  destruct (existsb (fun r => existsb (fun q => negb (q_done q) && q_matched q) (x_reqs (s r))) (seq 0 W)) eqn:X.
  { apply existsb_exists in X as (r & Hr & X). apply in_seq in Hr. apply existsb_exists in X as (q & Hq & X). apply andb_prop in X as [X1 X2].
    apply In_nth_error in Hq as (j & Hj). exists (LDone r j). cbn [enabled unbuffered]. fold W. rewrite Hj. split; [|eauto].
    rewrite X1, X2. replace (r <? W) with true by lia. reflexivity. }
  assert (ND : forall r q, r < W -> In q (x_reqs (s r)) -> q_done q = false -> q_matched q = false).
  { intros r q Hr Hq Hd. destruct (q_matched q) eqn:Hm; auto. rewrite <- X. symmetry. apply existsb_exists. exists r. split; [apply in_seq; lia|].
    apply existsb_exists. exists q. split; auto. now rewrite Hd, Hm. }
  (* a rank that may go on *)
  destruct (existsb (fun r => (x_pc (s r) <? N) && (remain_count (x_reqs (s r)) <? inflight_lim)) (seq 0 W)) eqn:Y.
  { apply existsb_exists in Y as (r & Hr & Y). apply in_seq in Hr. exists (LPost r). cbn [enabled unbuffered]. split; auto.
    destruct (nth_error tabs r) as [t|] eqn:Et; [|apply nth_error_None in Et; unfold W in *; lia]. rewrite (cx_len C r t Et). auto. }
  assert (NB : forall r, r < W -> x_pc (s r) < N -> inflight_lim <= remain_count (x_reqs (s r))).
  { intros r Hr Hp. destruct (Nat.lt_ge_cases (remain_count (x_reqs (s r))) inflight_lim) as [L|L]; auto. exfalso.
    assert (Z : existsb (fun r => (x_pc (s r) <? N) && (remain_count (x_reqs (s r)) <? inflight_lim)) (seq 0 W) = true).
    { apply existsb_exists. exists r. split; [apply in_seq; lia|]. lia. } congruence. }
  clear X Y.
  (* an open request gives an open message below pc *)
  assert (OP : forall r, r < W -> remain_count (x_reqs (s r)) <> 0 -> exists i, i < x_pc (s r) /\ (src i = r \/ dst i = r) /\ M i = false).
  { intros r Hr Hc. apply remain_pos in Hc as (j & q & Hj & Hd). pose proof (ND r q Hr (nth_error_In _ _ Hj) Hd) as Hm.
    rewrite (I2 r Hr) in Hj. destruct (is_send q) eqn:S.
    - apply reqs_nth_send in Hj as (i & Li & Si & Qi & _); auto. subst q. cbn in Hm. eauto.
    - apply reqs_nth_recv in Hj as (i & Li & Si & Qi & _); auto. subst q. cbn in Hm. eauto. }
  (* some open message exists *)
  assert (EX : exists i, i < N /\ posted_open M s i = true).
  { assert (K : exists r, r < W /\ remain_count (x_reqs (s r)) <> 0).
    { destruct (existsb (fun r => negb (remain_count (x_reqs (s r)) =? 0)) (seq 0 W)) eqn:Z.
      - apply existsb_exists in Z as (r & Hr & Z). apply in_seq in Hr. exists r. split; lia.
      - exfalso. assert (ZZ : forall r, r < W -> remain_count (x_reqs (s r)) = 0).
        { intros r Hr. destruct (Nat.eq_dec (remain_count (x_reqs (s r))) 0); auto. exfalso.
          assert (existsb (fun r => negb (remain_count (x_reqs (s r)) =? 0)) (seq 0 W) = true) by (apply existsb_exists; exists r; split; [apply in_seq; lia|lia]). congruence. }
        assert (finished tabs s = true); [|congruence]. apply finished_iff. intros r t Ht. assert (Hr : r < W) by (apply nth_error_Some; congruence).
        rewrite (cx_len C r t Ht). split; [|auto]. pose proof (I1 r Hr). destruct (Nat.eq_dec (x_pc (s r)) N); auto.
        pose proof (NB r Hr ltac:(lia)). rewrite (ZZ r Hr) in H0. unfold inflight_lim in H0. lia. }
    destruct K as (r & Hr & Hc). destruct (OP r Hr Hc) as (i & Li & Hi & Mi). exists i. split; [pose proof (I1 r Hr); lia|].
    unfold posted_open. rewrite Mi. cbn [negb andb]. destruct Hi as [<-|<-]; lia. }
  destruct (least _ _ EX) as (i & Hi & Pi & Lst). unfold posted_open in Pi. apply andb_prop in Pi as [Mi Pi]. assert (Mi' : M i = false) by (destruct (M i); auto; discriminate).
  assert (BOTH : forall r, r < W -> (src i = r \/ dst i = r) -> i < x_pc (s r)).
  { intros r Hr _. destruct (Nat.lt_ge_cases i (x_pc (s r))) as [L|L]; auto. exfalso.
    pose proof (NB r Hr ltac:(lia)) as B. destruct (OP r Hr ltac:(unfold inflight_lim in B; lia)) as (k & Lk & Hk & Mk).
    specialize (Lst k ltac:(lia)). unfold posted_open in Lst. rewrite Mk in Lst. cbn [negb andb] in Lst. destruct Hk as [<-|<-]; lia. }
  pose proof (BOTH (src i) (cx_src C i Hi) (or_introl eq_refl)) as B1. pose proof (BOTH (dst i) (cx_dst C i Hi) (or_intror eq_refl)) as B2.
  exists (LMatch (src i) (dst i) (tg i)). split; [|exact I]. cbn [enabled]. fold W.
  pose proof (cx_src C i Hi). pose proof (cx_dst C i Hi). replace (src i <? W) with true by lia. replace (dst i <? W) with true by lia. cbn [andb].
  pose proof (reqs_in_send M M DS DR (src i) (x_pc (s (src i))) i B1 eq_refl) as Q1. rewrite <- (I2 (src i)) in Q1 by auto.
  pose proof (reqs_in_recv M M DS DR (dst i) (x_pc (s (dst i))) i B2 eq_refl) as Q2. rewrite <- (I2 (dst i)) in Q2 by auto.
  destruct (find_idx_in (send_to (Z.of_nat (dst i)) (tg i)) _ _ Q1) as (j1 & ->); [unfold send_to; cbn; rewrite Mi'; cbn; lia|].
  destruct (find_idx_in (recv_from (Z.of_nat (src i)) (tg i)) _ _ Q2) as (j2 & ->); [unfold recv_from; cbn; rewrite Mi'; cbn; lia|]. reflexivity.
Qed.

Lemma final_bytes : xctx -> forall s, inv s -> finished tabs s = true -> forall i, i < N ->
  bytes_at (x_bufs (s (dst i))) (ro i) (sz i) = dat i /\ length (dat i) = sz i.
Proof.
  intros C s (M & DS & DR & (I1 & I2 & I3 & I4 & I5 & I6 & I7)) F i Hi. rewrite finished_iff in F.
  assert (LD : length (dat i) = sz i) by (destruct (cx_sin C i Hi) as (y & Hy & Ly); unfold dat; eapply bytes_at_len; eauto).
  split; [|auto]. apply I7; auto. pose proof (cx_dst C i Hi) as Hd.
  destruct (nth_error tabs (dst i)) as [t|] eqn:Et; [|apply nth_error_None in Et; unfold W in *; lia].
  destruct (F _ _ Et) as [P R]. rewrite (cx_len C _ _ Et) in P. apply I5; auto.
  pose proof (reqs_in_recv M M DS DR (dst i) (x_pc (s (dst i))) i ltac:(lia) eq_refl) as Q. rewrite <- (I2 (dst i)) in Q by auto.
  destruct (DR i) eqn:D; auto. exfalso. unfold remain_count in R.
  assert (IN : In (Req (KRecv (fst (ro i)) (snd (ro i)) (sz i)) (Z.of_nat (src i)) (tg i) (M i) false) (filter (fun q => negb (q_done q)) (x_reqs (s (dst i))))) by (apply filter_In; auto).
  destruct (filter _ _); [destruct IN|discriminate R].
Qed.
Lemma final_sizes : forall s, inv s -> forall r, r < W -> map (@length Z) (x_bufs (s r)) = map (@length Z) (nth r brecv []).
Proof. intros s (M & DS & DR & (I1 & I2 & I3 & I4 & I5 & I6 & I7)). auto. Qed.

Lemma sw_init : sw (xinit brecv) = 5 * N * W.
Proof.
  unfold sw, xinit, rw. cbn [x_pc x_reqs map list_sum fold_right].
  assert (G : forall n k, list_sum (map (fun _ : nat => 5 * (N - 0) + 0) (seq k n)) = 5 * N * n).
  { induction n as [|n IH]; intros k0; [cbn; lia|]. cbn [seq map list_sum fold_right]. fold (list_sum (map (fun _ : nat => 5 * (N - 0) + 0) (seq (S k0) n))). rewrite IH. lia. }
  apply G.
Qed.
Lemma reach_inv : xctx -> forall n s, xreach tabs bsend (xinit brecv) n s -> inv s /\ n + sw s <= 5 * N * W.
Proof.
  intros C n s R. induction R as [|n s l s' R [I B] E D].
  - split; [now apply inv_init|]. rewrite sw_init. lia.
  - destruct (step_any C l s I E) as (s2 & D2 & I2 & L). assert (s2 = s') by congruence. subst s2. split; [auto|lia].
Qed.
End X.
