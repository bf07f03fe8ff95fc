From Verif Require Import Base Integer DeviceBuffer DeviceBuffer_spec DeviceBuffer_proofs.
From Coq Require Import ZifyBool ZifyNat.
Local Open Scope Z_scope.

Section Main.
Variable A : Type.
Variable E : dev_env.
Hypothesis HE : env_ok E.

Definition buf_inv (b : dbuf A) : Prop :=
  0 <= size b /\ req E (size b) <= st_bytes b <= 2 * req E (size b) /\
  length (mem b) = cap E (st_bytes b).

Lemma buf_size_mem b : buf_inv b -> size b <= len (mem b).
Proof.
  intros (H1 & H2 & H3). pose proof (req_ge E HE (size b)).
  pose proof (cap_ge E HE (size b) (st_bytes b) H1 ltac:(lia)). unfold len. lia.
Qed.

Definition prefix_eq (n : Z) (b b' : dbuf A) : Prop :=
  firstn (Z.to_nat n) (mem b') = firstn (Z.to_nat n) (mem b).

Lemma overlay_prefix (m src : list A) n : 0 <= n <= len m -> n <= len src ->
  firstn (Z.to_nat n) (overlay m 0 (sub src 0 n)) = firstn (Z.to_nat n) src.
Proof.
  intros H1 H2. apply list_eq_nth_error. intros i. rewrite !nth_error_firstn'.
  destruct (i <? Z.to_nat n)%nat eqn:C; auto. apply Nat.ltb_lt in C.
  assert (L : length (sub src 0 n) = Z.to_nat n) by (rewrite sub_length; lia).
  rewrite overlay_nth; try lia.
  2:{ unfold len in *. rewrite L. lia. }
  rewrite L. replace ((Z.to_nat 0 <=? i)%nat && _) with true by (symmetry; lia).
  rewrite sub_nth. replace (i - Z.to_nat 0 <? Z.to_nat (n - 0))%nat with true by (symmetry; lia).
  f_equal. lia.
Qed.

Lemma copy_from_ok o (b other : dbuf A) n : good_oracle o -> buf_inv b -> buf_inv other ->
  0 <= n <= size b -> n <= size other ->
  copy_from E o b other n =
    Ok (Build_dbuf (st_bytes b) (overlay (mem b) 0 (sub (mem other) 0 n)) (size b)).
Proof.
  intros Ho Hb Hb2 Hn Hn2. unfold copy_from.
  pose proof (buf_size_mem _ Hb). pose proof (buf_size_mem _ Hb2).
  replace (negb _) with false by (symmetry; lia).
  destruct (0 <? n) eqn:Hz.
  - rewrite safe_copy_ok; auto; try lia. 
  - assert (n = 0) by lia. subst n. destruct b as [sb mb szb]. simpl. f_equal.
Qed.

Lemma buf_inv_mem b m : buf_inv b -> length m = length (mem b) -> buf_inv (Build_dbuf (st_bytes b) m (size b)).
Proof. intros (H1 & H2 & H3) L. split; [|split]; simpl; auto; congruence. Qed.

Lemma resize_ok o (b : dbuf A) n keep : good_oracle o -> buf_inv b -> fits E n ->
  (exists b', resize E o b n keep = Ok b' /\ buf_inv b' /\ size b' = n /\
     (keep = true -> prefix_eq (Z.min n (size b)) b b')) \/
  (resize E o b n keep = Throw /\ may_refuse E o n).
Proof.
  intros Ho Hb Hf. pose proof Hf as (Hn & _). pose proof Hb as (Hs & Hbytes & Hmem).
  unfold resize. rewrite (fits_alloc E HE n Hf), (fits_alloc_half E HE n Hf), (get_alignment_eq E HE).
  pose proof (align_pos E HE) as Hal.
  destruct (st_bytes b <? req E n) eqn:Hgrow.
  - set (wanted := req E (n + n / 2)).
    set (mp := e_max E - e_max E mod alignment E).
    set (ns := if e_max E <? wanted then Z.max mp (req E n) else wanted).
    assert (Hn2 : 0 <= n / 2) by (apply Z.div_pos; lia).
    assert (Hw : req E n <= wanted) by (apply req_mono; auto; lia).
    assert (Hw2 : wanted <= 2 * req E n) by (apply req_half; auto).
    pose proof (Z.mod_pos_bound (e_max E) (alignment E) Hal) as Hmod.
    assert (Hmax : 0 <= e_max E) by (destruct HE as (_ & _ & _ & _ & ?); lia).
    assert (Hmod2 : e_max E mod alignment E <= e_max E) by (apply Z.mod_le; lia).
    pose proof (req_nonneg E HE n Hn) as Hrn.
    destruct (e_max E <? ns) eqn:Hbig.
    { right. split; auto. right. change (e_max E < req E n).
      unfold ns in Hbig. destruct (e_max E <? wanted) eqn:C; unfold mp in *; lia. }
    assert (Hns : req E n <= ns <= 2 * req E n).
    { unfold ns in *. destruct (e_max E <? wanted) eqn:C; unfold mp in *; lia. }
    assert (Hnsm : ns mod alignment E = 0).
    { unfold ns. destruct (e_max E <? wanted).
      - destruct (Z.max_spec mp (req E n)) as [(_ & ->)|(_ & ->)].
        + apply req_mult; auto.
        + unfold mp. pose proof (Z.div_mod (e_max E) (alignment E) ltac:(lia)) as D.
          replace (e_max E - e_max E mod alignment E) with (e_max E / alignment E * alignment E)
            by (clear -D; lia).
          apply Z.mod_mul; clear -Hal; lia.
      - apply req_mult; auto. }
    clearbody ns. clear Hmod Hmod2 mp Hw Hw2 wanted.
    destruct (create_usm_ok E HE o ns) as [(m & R & L)|(R & Hp & Hr)]; auto; try lia.
    + rewrite R. simpl.
      assert (Hnb : buf_inv (Build_dbuf ns m n)) by (unfold buf_inv; simpl; auto).
      assert (Hlt : size b < n).
      { apply (req_lt_inv E HE). lia. }
      destruct keep.
      * rewrite copy_from_ok; auto; simpl; try lia.
        left. eexists; split; eauto. split; [|split]; auto.
        -- apply buf_inv_mem with (b := Build_dbuf ns m n); auto. simpl. apply overlay_length; try lia.
           pose proof (buf_size_mem _ Hb). pose proof (buf_size_mem _ Hnb). unfold len in *. simpl in *.
           rewrite sub_length; unfold len; lia.
        -- intros _. unfold prefix_eq; simpl. rewrite Z.min_r by lia.
           pose proof (buf_size_mem _ Hb). pose proof (buf_size_mem _ Hnb). simpl in *.
           apply overlay_prefix; lia.
      * left. eexists; split; eauto. split; [|split]; auto. discriminate.
    + rewrite R. simpl. right. split; auto. destruct Hr; [left; auto|]. lia.
  - destruct (2 * req E n <? st_bytes b) eqn:Hshr.
    + pose proof (req_nonneg E HE n Hn) as Hrn.
      assert (Hlt : n < size b) by (apply (req_lt_inv E HE); lia).
      destruct (create_usm_ok E HE o (req E n)) as [(m & R & L)|(R & Hp & Hr)]; auto.
      { apply req_mult; auto. }
      * rewrite R. simpl.
        assert (Hnb : buf_inv (Build_dbuf (req E n) m n)) by (unfold buf_inv; cbn [size st_bytes mem]; auto with zarith).
        destruct keep.
        -- rewrite copy_from_ok; auto; simpl; try lia.
           left. eexists; split; eauto.
           pose proof (buf_size_mem _ Hb). pose proof (buf_size_mem _ Hnb). simpl in *.
           split; [|split]; auto.
           ++ apply buf_inv_mem with (b := Build_dbuf (req E n) m n); auto. simpl.
              apply overlay_length; try lia. unfold len in *. rewrite sub_length; unfold len; lia.
           ++ intros _. unfold prefix_eq; simpl. rewrite Z.min_l by lia. apply overlay_prefix; lia.
        -- left. eexists; split; eauto. split; [|split]; auto. discriminate.
      * rewrite R. simpl. right. split; auto.
    + left. eexists; split; eauto. split; [|split]; simpl; auto.
      * unfold buf_inv; cbn [size st_bytes mem]. split; [|split]; auto. lia.
      * intros _. reflexivity.
Qed.

(** ** Agreement with the expected contents *)
Definition cont (b : dbuf A) : list A := firstn (Z.to_nat (size b)) (mem b).
Definition buf_rel (a : arr A) (b : dbuf A) : Prop :=
  0 <= size b /\ len a = size b /\ agrees a (cont b).
Lemma agrees_nth (a : arr A) l : agrees a l <->
  length a = length l /\ forall i x, nth_error a i = Some (Some x) -> nth_error l i = Some x.
Proof.
  unfold agrees. revert l; induction a as [|x a IH]; intros [|v l]; simpl; split; intros H.
  - split; auto. intros [|i] y; discriminate.
  - constructor.
  - inversion H.
  - destruct H; discriminate.
  - inversion H.
  - destruct H; discriminate.
  - inversion H; subst. apply IH in H5 as (L & N). split. lia.
    intros [|i] y Hi; simpl in *; auto. injection Hi as ->. congruence.
  - destruct H as (L & N). constructor.
    + destruct x; auto. specialize (N 0%nat a0 eq_refl). simpl in N. congruence.
    + apply IH. split. lia. intros i y Hi. apply (N (S i)). auto.
Qed.
Lemma cont_length b : buf_inv b -> length (cont b) = Z.to_nat (size b).
Proof.
  intros Hb. pose proof (buf_size_mem _ Hb). unfold cont, len in *. rewrite firstn_length. lia.
Qed.
Lemma buf_rel_nth a b : buf_inv b -> (buf_rel a b <->
  len a = size b /\ forall i x, nth_error a i = Some (Some x) -> nth_error (mem b) i = Some x).
Proof.
  intros Hb. pose proof (buf_size_mem _ Hb). destruct Hb as (H0 & Hb).
  unfold buf_rel. rewrite agrees_nth. split.
  - intros (_ & L & L2 & N). split; auto. intros i x Hi. specialize (N i x Hi).
    unfold cont in N. rewrite nth_error_firstn' in N. destruct (i <? _)%nat; congruence.
  - intros (L & N). split; auto. split; auto. split.
    + unfold cont, len in *. rewrite firstn_length. lia.
    + intros i x Hi. unfold cont. rewrite nth_error_firstn'.
      assert (i < length a)%nat by (apply nth_error_Some; congruence).
      unfold len in *. replace (i <? Z.to_nat (size b))%nat with true by (symmetry; lia). auto.
Qed.

Lemma rel_resized a b b' n : buf_inv b -> buf_inv b' -> buf_rel a b -> size b' = n ->
  prefix_eq (Z.min n (size b)) b b' -> buf_rel (resized a n) b'.
Proof.
  intros Hb Hb' Hr Hn Hp. apply buf_rel_nth in Hr as (L & N); auto. apply buf_rel_nth; auto.
  pose proof Hb' as (Hn0 & _). rewrite Hn in Hn0. unfold resized, len in *. split.
  - rewrite app_length, firstn_length, repeat_length. lia.
  - intros i x Hi. destruct (Nat.ltb_spec i (length (firstn (Z.to_nat n) a))) as [Hlt|Hge].
    + rewrite nth_error_app1 in Hi by auto. rewrite nth_error_firstn' in Hi.
      rewrite firstn_length in Hlt.
      replace (i <? Z.to_nat n)%nat with true in Hi by (symmetry; lia). apply N in Hi.
      assert (G : nth_error (firstn (Z.to_nat (Z.min n (size b))) (mem b')) i =
                  nth_error (firstn (Z.to_nat (Z.min n (size b))) (mem b)) i) by (rewrite Hp; auto).
      rewrite !nth_error_firstn' in G.
      replace (i <? Z.to_nat (Z.min n (size b)))%nat with true in G by (symmetry; lia). congruence.
    + rewrite nth_error_app2 in Hi by auto. apply nth_error_In in Hi. apply repeat_spec in Hi. discriminate.
Qed.
Lemma rel_unspec b n : buf_inv b -> size b = n -> buf_rel (repeat None (Z.to_nat n)) b.
Proof.
  intros Hb Hn. apply buf_rel_nth; auto. pose proof Hb as (H0 & _). unfold len. rewrite repeat_length. split. lia.
  intros i x Hi. apply nth_error_In, repeat_spec in Hi. discriminate.
Qed.
Lemma rel_overlay a b pos (la : arr A) (l : list A) : buf_inv b -> buf_rel a b ->
  0 <= pos -> pos + len la <= len a -> length la = length l ->
  (forall i x, nth_error la i = Some (Some x) -> nth_error l i = Some x) ->
  buf_inv (Build_dbuf (st_bytes b) (overlay (mem b) pos l) (size b)) /\
  buf_rel (overlay a pos la) (Build_dbuf (st_bytes b) (overlay (mem b) pos l) (size b)).
Proof.
  intros Hb Hr Hp Hl HL HN. apply buf_rel_nth in Hr as (L & N); auto.
  pose proof (buf_size_mem _ Hb).
  assert (Hl2 : pos + len l <= len (mem b)) by (unfold len in *; lia).
  assert (Hi : buf_inv (Build_dbuf (st_bytes b) (overlay (mem b) pos l) (size b))).
  { apply buf_inv_mem; auto. apply overlay_length; auto. }
  split; auto. apply buf_rel_nth; auto. simpl. split.
  - unfold len. rewrite overlay_length; auto.
  - intros i x. rewrite !overlay_nth by auto. rewrite HL. destruct (_ && _); auto.
Qed.

Definition store_inv (s : store A) : Prop := Forall (fun x => match x with Some b => buf_inv b | None => True end) s.
Definition store_rel (sp : sstate A) (s : store A) : Prop :=
  Forall2 (fun x y => match x, y with Some a, Some b => buf_rel a b | None, None => True | _, _ => False end) sp s.

Lemma store_live sp s h a : store_rel sp s -> store_inv s -> live sp h a ->
  exists b, lookup s h = Ok b /\ nth_error s h = Some (Some b) /\ buf_rel a b /\ buf_inv b.
Proof.
  intros Hr Hi Hl. unfold live in Hl. unfold lookup. revert sp s Hr Hi Hl.
  induction h as [|h IH]; intros sp s Hr Hi Hl; destruct Hr as [|x y sp s Hxy Hr]; simpl in *; try discriminate.
  - injection Hl as ->. inversion Hi; subst. destruct y; [|tauto]. eauto.
  - inversion Hi; subst. eapply IH; eauto.
Qed.
Lemma Forall2_upd {B C} (R : B -> C -> Prop) l1 l2 h x y : Forall2 R l1 l2 -> R x y -> Forall2 R (upd l1 h x) (upd l2 h y).
Proof. intros H; revert h; induction H; intros [|h] Hxy; simpl; constructor; auto. Qed.
Lemma Forall_upd {B} (P : B -> Prop) l h x : Forall P l -> P x -> Forall P (upd l h x).
Proof. intros H; revert h; induction H; intros [|h] Hx; simpl; constructor; auto. Qed.
Lemma store_upd sp s h a b : store_rel sp s -> store_inv s -> buf_rel a b -> buf_inv b ->
  store_rel (upd sp h (Some a)) (upd s h (Some b)) /\ store_inv (upd s h (Some b)).
Proof. intros. split. apply Forall2_upd; auto. apply Forall_upd; auto. Qed.

Definition bytes_of (x : option (dbuf A)) : Z := match x with Some b => st_bytes b | None => 0 end.
Lemma held_upd (p : prog A) h x y c : nth_error (p_store p) h = Some x ->
  held (Build_prog (upd (p_store p) h y) c) = held p - bytes_of x + bytes_of y.
Proof.
  unfold held; simpl. generalize (p_store p) as s. intros s; revert h; induction s as [|z s IH]; intros [|h] H; simpl in *; try discriminate.
  - injection H as ->. unfold bytes_of. destruct x, y; lia.
  - specialize (IH h H). destruct z; lia.
Qed.
Lemma held_app (p : prog A) (b : dbuf A) c : held (Build_prog (p_store p ++ [Some b]) c) = held p + st_bytes b.
Proof.
  unfold held; simpl. induction (p_store p) as [|z s IH]; simpl. lia. destruct z; lia.
Qed.

Definition prog_rel (sp : sstate A) (p : prog A) : Prop :=
  store_rel sp (p_store p) /\ store_inv (p_store p) /\ p_alloc p = held p.

Lemma prog_replace sp p h a b b' : prog_rel sp p -> nth_error (p_store p) h = Some (Some b) ->
  buf_rel a b' -> buf_inv b' -> prog_rel (upd sp h (Some a)) (replace p h b b').
Proof.
  intros (Hr & Hi & Hc) Hn Ha Hb. destruct (store_upd sp (p_store p) h a b' Hr Hi Ha Hb).
  split; [|split]; simpl; auto. unfold replace. rewrite (held_upd p h (Some b) (Some b') _ Hn). simpl. lia.
Qed.

Lemma narrow_i32 x : 0 <= x < 2 ^ 64 -> narrow_or_throw i32_t size_t x = if x <? 2 ^ 31 then Ok (it_cast i32_t x) else Throw.
Proof.
  intros H. unfold narrow_or_throw, can_narrow, i32_t, size_t, it_max, cast_unsigned. simpl it_signed. simpl it_width. cbv iota.
  replace ((2 ^ (32 - 1) - 1) mod 2 ^ 32) with (2 ^ 31 - 1) by reflexivity.
  destruct (x <=? 2 ^ 31 - 1) eqn:C, (x <? 2 ^ 31) eqn:D; auto; lia.
Qed.

(** ** One call *)
Lemma step_ok c sp p : prog_rel sp p -> arg_ok E c sp ->
  (exists p' sp', run_op E c p = Ok p' /\ spec_op E c sp (Some sp') /\ prog_rel sp' p') \/
  (run_op E c p = Throw /\ spec_op E c sp None).
Proof.
  intros Hp Ha. pose proof Hp as (Hr & Hi & Hc). destruct c; cbn [arg_ok run_op] in Ha |- *.
  - (* Create *)
    destruct Ha as (Hf & Ho). unfold create. rewrite (fits_alloc E HE n Hf).
    pose proof Hf as (Hn & _). pose proof (req_nonneg E HE n Hn) as Hrn.
    destruct (create_usm_ok E HE o (req E n)) as [(m & R & L)|(R & Hpos & Hx)]; auto.
    { apply req_mult; auto. }
    + rewrite R. simpl. left. do 2 eexists. split; [reflexivity|]. split; [constructor|].
      assert (Hb : buf_inv (Build_dbuf (req E n) m n)) by (unfold buf_inv; cbn [size st_bytes mem]; auto with zarith).
      split; [|split]; simpl.
      * apply Forall2_app; auto. constructor; auto. apply rel_unspec; auto.
      * apply Forall_app; split; auto.
      * rewrite held_app. simpl. lia.
    + rewrite R. simpl. right. split; auto. constructor. auto.
  - (* Destroy *)
    destruct Ha as (a & Hl). destruct (store_live sp (p_store p) h a Hr Hi Hl) as (b & R & Hn & Hab & Hb).
    rewrite R. simpl. left. do 2 eexists. split; [reflexivity|]. split; [econstructor; eauto|].
    split; [|split]; simpl.
    + apply Forall2_upd; auto.
    + apply Forall_upd; auto.
    + rewrite (held_upd p h (Some b) None _ Hn). simpl. lia.
  - (* Resize *)
    destruct Ha as (Hf & Ho & a & Hl). destruct (store_live sp (p_store p) h a Hr Hi Hl) as (b & R & Hn & Hab & Hb).
    rewrite R. simpl. destruct (resize_ok o b n keep Ho Hb Hf) as [(b' & R' & Hb' & Hs & Hk)|(R' & Hm)]; rewrite R'; simpl.
    + left. destruct keep.
      * do 2 eexists. split; [reflexivity|]. split; [econstructor; eauto|].
        eapply prog_replace; eauto. exact (rel_resized a b b' n Hb Hb' Hab Hs (Hk eq_refl)).
      * do 2 eexists. split; [reflexivity|]. split; [econstructor; eauto|].
        eapply prog_replace; eauto. apply rel_unspec; auto.
    + right. split; auto. econstructor; eauto.
  - (* Append *)
    destruct Ha as (Ho & a & a2 & Hl & Hl2 & Hf & La & Lb).
    destruct (store_live sp (p_store p) h a Hr Hi Hl) as (b & R & Hn & Hab & Hb).
    destruct (store_live sp (p_store p) other a2 Hr Hi Hl2) as (b2 & R2 & Hn2 & Hab2 & Hb2).
    rewrite R, R2. simpl. destruct (Nat.eqb_spec h other) as [He|He].
    { subst other. right. split; auto. econstructor; eauto. }
    pose proof Hab as (H0 & HL & _). pose proof Hab2 as (H02 & HL2 & _).
    unfold append. rewrite !w32_id by lia.
    destruct (size b2 =? 0) eqn:Hz.
    + simpl. left. do 2 eexists. split; [reflexivity|]. split; [econstructor; eauto|].
      assert (a2 = []) by (destruct a2; auto; unfold len in HL2; simpl in HL2; lia). subst a2.
      rewrite app_nil_r. eapply prog_replace; eauto.
    + unfold expand. rewrite w32_id by lia.
      rewrite w64_id. 2:{ destruct Hf as (_ & Hf). destruct HE as (Hsz & _). pose proof (align_pos E HE). nia. }
      rewrite HL, HL2 in Hf.
      destruct (resize_ok o b (size b + size b2) true Ho Hb Hf) as [(b' & R' & Hb' & Hs & Hk)|(R' & Hm)]; rewrite R'; simpl.
      * specialize (Hk eq_refl). rewrite Z.min_r in Hk by lia.
        pose proof (buf_size_mem _ Hb'). pose proof (buf_size_mem _ Hb2). pose proof (buf_size_mem _ Hb).
        rewrite safe_copy_ok; auto; try lia. rewrite Z.add_0_l. simpl.
        left. do 2 eexists. split; [reflexivity|]. split; [econstructor; eauto|].
        assert (Lsub : length (sub (mem b2) 0 (size b2)) = Z.to_nat (size b2)).
        { rewrite sub_length; try lia. }
        assert (Hb'' : buf_inv (Build_dbuf (st_bytes b') (overlay (mem b') (size b) (sub (mem b2) 0 (size b2))) (size b'))).
        { apply buf_inv_mem; auto. apply overlay_length; try lia. unfold len in *. rewrite Lsub. lia. }
        apply prog_replace; auto. apply buf_rel_nth; auto. cbn [mem size].
        apply buf_rel_nth in Hab as (_ & N); auto. apply buf_rel_nth in Hab2 as (_ & N2); auto.
        split. unfold len in *. rewrite app_length. lia.
        intros i x Hx. rewrite overlay_nth; try lia. 2:{ unfold len in *. rewrite Lsub. lia. }
        rewrite Lsub. destruct (Nat.ltb_spec i (length a)) as [Hlt|Hge].
        -- rewrite nth_error_app1 in Hx by auto. apply N in Hx. unfold len in *.
           replace ((Z.to_nat (size b) <=? i)%nat && _) with false by (symmetry; lia).
           assert (G : nth_error (firstn (Z.to_nat (size b)) (mem b')) i =
                       nth_error (firstn (Z.to_nat (size b)) (mem b)) i) by (rewrite Hk; auto).
           rewrite !nth_error_firstn' in G.
           replace (i <? Z.to_nat (size b))%nat with true in G by (symmetry; lia). congruence.
        -- rewrite nth_error_app2 in Hx by auto.
           assert (Hi2 : (i - length a < length a2)%nat) by (apply nth_error_Some; congruence).
           apply N2 in Hx. unfold len in *.
           replace ((Z.to_nat (size b) <=? i)%nat && _) with true by (symmetry; lia).
           rewrite sub_nth.
           replace (i - Z.to_nat (size b) <? Z.to_nat (size b2 - 0))%nat with true by (symmetry; lia).
           rewrite <- Hx. f_equal. lia.
      * right. split; auto. eapply S_append_fail; eauto. rewrite HL, HL2. auto.
  - (* Fill *)
    destruct Ha as (Ho & (a & Hl) & Hst & Hsp). destruct (store_live sp (p_store p) h a Hr Hi Hl) as (b & R & Hn & Hab & Hb).
    rewrite R. cbn [rbind]. unfold fill. pose proof Hab as (H0 & HL & _). pose proof (buf_size_mem _ Hb) as Hm.
    assert (Hfail : ~ (0 <= start <= stop /\ stop <= len a /\ stop - start < 2 ^ 31) ->
              spec_op E (Fill o h v start stop) sp None).
    { intros Hx. exact (S_fill_fail E o h v start stop a sp Hl Hx). }
    destruct (Z_le_gt_dec start stop) as [Hle|Hgt].
    + rewrite (w64_id (stop - start)) by lia. rewrite (w64_id (start + _)) by lia.
      destruct (negb (start + (stop - start) <=? size b)) eqn:C1.
      { right. split; [reflexivity|]. apply Hfail. lia. }
      rewrite narrow_i32 by lia. destruct (stop - start <? 2 ^ 31) eqn:C2; cbn [rbind].
      2:{ right. split; [reflexivity|]. apply Hfail. lia. }
      rewrite safe_fill_ok; [|assumption|lia|lia|lia]. cbn [rbind].
      left. eexists. eexists. split; [reflexivity|].
      split; [apply (S_fill E o h v start stop a sp Hl); lia|].
      destruct (rel_overlay a b start (repeat (Some v) (Z.to_nat (stop - start))) (repeat v (Z.to_nat (stop - start)))) as (I1 & I2); try assumption; try lia.
      * unfold len. rewrite repeat_length. unfold len in *. lia.
      * now rewrite !repeat_length.
      * intros i x Hx. pose proof (nth_error_In _ _ Hx) as Hin. apply repeat_spec in Hin. injection Hin as ->.
        assert (Hlt : (i < length (repeat (Some v) (Z.to_nat (stop - start))))%nat).
        { apply nth_error_Some. rewrite Hx. discriminate. }
        rewrite repeat_length in Hlt. clear - Hlt. revert i Hlt.
        generalize (Z.to_nat (stop - start)) as k.
        induction k as [|k IH]; intros [|i] Hlt; simpl; auto; try lia. apply IH. lia.
      * apply prog_replace; assumption.
    + right.
      assert (Hw : w64 (stop - start) = 2 ^ 64 + (stop - start)).
      { unfold w64, wrapZ. symmetry. apply Z.mod_unique with (-1); lia. }
      rewrite Hw. split; [|apply Hfail; lia].
      destruct (negb _) eqn:C1; [reflexivity|].
      rewrite narrow_i32 by lia. destruct (_ <? 2 ^ 31) eqn:C2; [|reflexivity]. exfalso. lia.
  - (* SetVal *)
    destruct Ha as (Hi0 & a & Hl). destruct (store_live sp (p_store p) h a Hr Hi Hl) as (b & R & Hn & Hab & Hb).
    rewrite R. simpl. unfold set_val_at_idx. pose proof Hab as (H0 & HL & _). pose proof (buf_size_mem _ Hb).
    destruct (size b <=? idx) eqn:C.
    { right. split; auto. eapply S_set_fail; eauto. lia. }
    simpl. unfold len in H. rewrite aset_lt by lia. simpl.
    left. do 2 eexists. split; [reflexivity|]. split; [eapply S_set; eauto; lia|].
    assert (Hu : upd (mem b) (Z.to_nat idx) v = overlay (mem b) idx [v]).
    { apply list_eq_nth_error. intros i. rewrite overlay_nth; unfold len; simpl; try lia.
      destruct (Nat.eq_dec (Z.to_nat idx) i) as [He|He].
      - subst i. rewrite nth_error_upd_eq by lia.
        replace ((Z.to_nat idx <=? Z.to_nat idx)%nat && _) with true by (symmetry; lia).
        now rewrite Nat.sub_diag.
      - rewrite nth_error_upd_neq by auto.
        replace ((Z.to_nat idx <=? i)%nat && _) with false by (symmetry; lia). auto. }
    rewrite Hu.
    destruct (rel_overlay a b idx [Some v] [v]) as (I1 & I2); auto.
    + unfold len in *; simpl; lia.
    + intros [|[|i]] x Hx; simpl in *; congruence.
    + apply prog_replace; auto.
  - (* CopyFromVec *)
    destruct Ha as (Ho & Hsz & a & Hl). destruct (store_live sp (p_store p) h a Hr Hi Hl) as (b & R & Hn & Hab & Hb).
    rewrite R. simpl. unfold copy_from_stdvec. pose proof Hab as (H0 & HL & _). pose proof (buf_size_mem _ Hb).
    destruct ((Z.of_nat (length vec) <? sz) || (size b <? sz)) eqn:C.
    { right. split; auto. eapply S_fromvec_fail; eauto. unfold len in *; lia. }
    assert (Lv : 0 <= sz <= len vec) by (unfold len in *; lia).
    assert (Lsub : length (firstn (Z.to_nat sz) vec) = Z.to_nat sz) by (rewrite firstn_length; unfold len in *; lia).
    assert (Hrw : (if 0 <? sz then m <- safe_copy E o vec 0 0 sz (mem b);; Ok {| st_bytes := st_bytes b; mem := m; size := size b |} else Ok b)
       = Ok (Build_dbuf (st_bytes b) (overlay (mem b) 0 (firstn (Z.to_nat sz) vec)) (size b))).
    { destruct (0 <? sz) eqn:Z0.
      - rewrite safe_copy_ok; auto; try lia. simpl. repeat f_equal. unfold sub. simpl. f_equal. lia.
      - assert (sz = 0) by lia. subst sz. simpl. destruct b; reflexivity. }
    rewrite Hrw. simpl.
    left. do 2 eexists. split; [reflexivity|]. split; [eapply S_fromvec; eauto; lia|].
    destruct (rel_overlay a b 0 (map Some (firstn (Z.to_nat sz) vec)) (firstn (Z.to_nat sz) vec)) as (I1 & I2); auto; try lia.
    + unfold len. rewrite map_length, Lsub. unfold len in *. lia.
    + now rewrite map_length.
    + intros i x Hx. rewrite nth_error_map in Hx. destruct (nth_error _ i); simpl in Hx; congruence.
    + apply prog_replace; auto.
  - (* CopyFrom *)
    destruct Ha as (Ho & Hsz & a & a2 & Hl & Hl2).
    destruct (store_live sp (p_store p) h a Hr Hi Hl) as (b & R & Hn & Hab & Hb).
    destruct (store_live sp (p_store p) other a2 Hr Hi Hl2) as (b2 & R2 & Hn2 & Hab2 & Hb2).
    rewrite R, R2. simpl. pose proof Hab as (H0 & HL & _). pose proof Hab2 as (H02 & HL2 & _).
    destruct (Z_le_gt_dec n (size b)) as [Hle|Hgt]; [destruct (Z_le_gt_dec n (size b2)) as [Hle2|Hgt2]|].
    2,3: right; split; [unfold copy_from; replace (negb _) with true by (symmetry; lia); auto|eapply S_from_fail; eauto; lia].
    pose proof (buf_size_mem _ Hb). pose proof (buf_size_mem _ Hb2).
    rewrite copy_from_ok; auto. simpl.
    left. do 2 eexists. split; [reflexivity|]. split; [eapply S_from; eauto; lia|].
    apply buf_rel_nth in Hab2 as (_ & N2); auto.
    destruct (rel_overlay a b 0 (sub a2 0 n) (sub (mem b2) 0 n)) as (I1 & I2); auto; try lia.
    + unfold len in *. rewrite sub_length; unfold len; lia.
    + rewrite !sub_length; unfold len in *; lia.
    + intros i x. rewrite !sub_nth. destruct (_ <? _)%nat; try discriminate. apply N2.
    + apply prog_replace; auto.
  - (* CopyRange *)
    destruct Ha as (Ho & Hb0 & He0 & Hoff & a & a2 & Hl & Hl2).
    destruct (store_live sp (p_store p) h a Hr Hi Hl) as (b & R & Hn & Hab & Hb).
    destruct (store_live sp (p_store p) dest a2 Hr Hi Hl2) as (b2 & R2 & Hn2 & Hab2 & Hb2).
    rewrite R, R2. simpl. pose proof Hab as (H0 & HL & _). pose proof Hab2 as (H02 & HL2 & _).
    destruct (Nat.eqb_spec h dest) as [He|He].
    { subst dest. right. split; auto. eapply S_range_self; eauto. }
    pose proof (buf_size_mem _ Hb). pose proof (buf_size_mem _ Hb2).
    unfold copy_range_offset.
    destruct (e0 <? b0) eqn:C1; [right; split; auto; eapply S_range_fail; eauto; lia|].
    destruct (size b <? e0) eqn:C2; [right; split; auto; eapply S_range_fail; eauto; lia|].
    destruct (size b2 <? off) eqn:C3; [right; split; auto; eapply S_range_fail; eauto; lia|].
    destruct (size b2 - off <? e0 - b0) eqn:C4; [right; split; auto; eapply S_range_fail; eauto; lia|].
    assert (Hrw : (if b0 =? e0 then Ok b2 else m <- safe_copy E o (mem b) b0 off (e0 - b0) (mem b2);;
        Ok {| st_bytes := st_bytes b2; mem := m; size := size b2 |})
       = Ok (Build_dbuf (st_bytes b2) (overlay (mem b2) off (sub (mem b) b0 e0)) (size b2))).
    { destruct (b0 =? e0) eqn:Z0.
      - assert (b0 = e0) by lia. subst b0. unfold sub. rewrite Z.sub_diag. simpl firstn. destruct b2 as [sb mb szb]. simpl.
        f_equal. f_equal. unfold overlay. simpl. rewrite Nat.add_0_r. now rewrite firstn_skipn.
      - rewrite safe_copy_ok; auto; try lia. simpl. do 2 f_equal. unfold sub. do 2 f_equal. lia. }
    rewrite Hrw. simpl.
    left. do 2 eexists. split; [reflexivity|]. split; [eapply S_range; eauto; lia|].
    apply buf_rel_nth in Hab as (_ & N); auto.
    destruct (rel_overlay a2 b2 off (sub a b0 e0) (sub (mem b) b0 e0)) as (I1 & I2); auto; try lia.
    + unfold len in *. rewrite sub_length; unfold len; lia.
    + rewrite !sub_length; unfold len in *; lia.
    + intros i x. rewrite !sub_nth. destruct (_ <? _)%nat; try discriminate. apply N.
    + apply prog_replace; auto.
Qed.

Lemma run_ok cs : forall sp p, prog_rel sp p -> args_ok E cs sp ->
  exists q l p', run E cs p = Ok (p', l) /\ spec_run E cs sp q l /\ prog_rel q p'.
Proof.
  induction cs as [|c t IH]; intros sp p Hp Ha.
  - exists sp, [], p. repeat split; auto; try apply Hp. constructor.
  - inversion Ha as [|c' t' s' Hok Hn Ht]; subst.
    destruct (step_ok c sp p Hp Hok) as [(p' & sp' & R & S & Hp')|(R & S)]; simpl; rewrite R.
    + destruct (IH sp' p' Hp' (Hn _ S)) as (q & l & pf & R2 & S2 & Hq).
      exists q, (true :: l), pf. rewrite R2. simpl. split; auto. split; auto. econstructor; eauto.
    + destruct (IH sp p Hp (Ht S)) as (q & l & pf & R2 & S2 & Hq).
      exists q, (false :: l), pf. rewrite R2. simpl. split; auto. split; auto. eapply SR_throw; eauto.
Qed.

Lemma to_vec_ok o d a b : good_oracle o -> buf_inv b -> buf_rel a b ->
  copy_to_stdvec E o d b = Ok (cont b).
Proof.
  intros Ho Hb Hr. pose proof (buf_size_mem _ Hb). pose proof Hr as (H0 & HL & _). unfold copy_to_stdvec.
  destruct (0 <? size b) eqn:C.
  - rewrite safe_copy_ok; auto; try lia. 2:{ unfold len; rewrite repeat_length; lia. }
    f_equal. unfold overlay, cont, sub. cbn [Z.to_nat firstn app skipn].
    replace (Z.to_nat (0 + size b - 0)) with (Z.to_nat (size b)) by lia.
    rewrite skipn_all2. now rewrite app_nil_r.
    rewrite repeat_length, firstn_length. unfold len in *. lia.
  - assert (size b = 0) by lia. unfold cont. rewrite H1. reflexivity.
Qed.
End Main.
