(** Proofs about Lookback.v: safety under every schedule, progress, termination. *)
From Verif Require Import Base Integer Integer_proofs Scan Scan_spec Scan_proofs Lookback.
From Coq Require Import ZifyBool ZifyNat.
Local Open Scope nat_scope.

Lemma unpack_pack a b : (0 <= a < 2 ^ 32)%Z -> (0 <= b < 2 ^ 32)%Z -> unpack32 (pack32 a b) = (a, b).
Proof.
  intros Ha Hb. unfold unpack32, pack32, w64, w32, wrapZ.
  rewrite (Z.mod_small (a * 2 ^ 32)) by nia. rewrite (Z.mod_small (a * 2 ^ 32 + b)) by nia.
  rewrite Z.div_add_l by lia. rewrite (Z.div_small b) by lia. rewrite Z.add_0_r, (Z.mod_small a) by lia.
  rewrite Z.add_comm, Z_mod_plus_full, (Z.mod_small b) by lia. reflexivity.
Qed.

Definition id_of (ph : phase) : option nat :=
  match ph with
  | PIdle => None
  | PRead g _ | PPublish g _ | PLook g _ _ _ | PFinal g _ _ | PWrite g _ _ _ | PDone g => Some g
  end.

Section Kernel.
Variable c : config.
Variables inp out0 : list Z.
Hypothesis Hvar : c_var c = Shifted \/ c_var c = InPlace.
Hypothesis Hdyn : c_ids c = Dyn.
Hypothesis HG : 0 < c_G c.
Hypothesis Hcover : c_len c <= c_N c * c_G c.
Hypothesis Hinp : c_len c <= length inp.
Hypothesis Hout : c_len c <= length out0.
Hypothesis Hsame : c_var c = InPlace -> out0 = inp.

Let G := c_G c.
Let N := c_N c.
Let len := c_len c.

Definition lv (gid : nat) : Z :=
  match c_var c with
  | Shifted => if (0 <? gid) && (gid <? len) then nth (gid - 1) inp 0%Z else 0%Z
  | _ => if gid <? len then nth gid inp 0%Z else 0%Z
  end.
Definition lsum (a n : nat) : Z := zsum (map lv (seq a n)).
Definition Aval (g : nat) : Z := pack32 STATE_A (w32 (lsum (g * G) G)).
Definition Pval (g : nat) : Z := pack32 STATE_P (w32 (lsum 0 (g * G + G))).
Definition Xval : Z := pack32 STATE_X 0.
Definition target (gid : nat) : Z := prefix inp gid.

Lemma lsum_split a n m : lsum a (n + m) = (lsum a n + lsum (a + n) m)%Z.
Proof. unfold lsum. now rewrite seq_app, map_app, zsum_app. Qed.

Lemma lv_read s gid (owner_unwritten : c_var c = InPlace -> gid < len -> nth gid (s_out s) 0%Z = nth gid out0 0%Z)
  (L1 : s_in s = inp) (L2 : len <= length (s_out s)) :
  lane_value c s gid = Ok (lv gid).
Proof.
  unfold lane_value, lv. destruct Hvar as [E|E]; rewrite E.
  - fold len. destruct ((0 <? gid) && (gid <? len)) eqn:B; auto.
    rewrite L1. apply aget_lt. fold len in Hinp. lia.
  - fold len. destruct (gid <? len) eqn:B; auto. rewrite (aget_lt _ _ 0%Z) by lia.
    rewrite owner_unwritten by (auto; lia). rewrite Hsame; auto.
Qed.

Lemma fold_zsum l a : fold_left Z.add l a = (a + zsum l)%Z.
Proof. revert a; induction l as [|v t IH]; intros a; simpl; [lia|]. rewrite IH. lia. Qed.

Lemma firstn_seq k a n : k <= n -> firstn k (seq a n) = seq a k.
Proof. intros H. replace n with (k + (n - k)) by lia. rewrite seq_app, firstn_app, seq_length, Nat.sub_diag.
  simpl. rewrite app_nil_r, firstn_all2; auto. rewrite seq_length; lia. Qed.

Lemma group_sum_ok g : group_sum c (map lv (seq (g * G) G)) = w32 (lsum (g * G) G).
Proof.
  unfold group_sum, group_scan. fold G.
  assert (EG : S (G - 1) = G) by (fold G in HG; lia).
  assert (HGp : 0 < G) by exact HG.
  destruct (c_var c); rewrite ?EG, ?fold_zsum, ?firstn_map, ?firstn_seq by lia; auto.
  rewrite w32_w32_add. unfold lsum.
  replace (seq (g * G) G) with (seq (g * G) (G - 1) ++ [g * G + (G - 1)])
    by (rewrite <- seq_S; f_equal; lia).
  rewrite map_app, zsum_app, app_nth2 by (rewrite map_length, seq_length; lia).
  rewrite map_length, seq_length, Nat.sub_diag. simpl. f_equal. lia.
Qed.

Lemma lsum_shifted_prefix gid : c_var c = Shifted -> gid < len -> w32 (lsum 0 (S gid)) = prefix inp gid.
Proof.
  intros E. induction gid as [|gid IH]; intros H.
  - unfold lsum. simpl. unfold lv. rewrite E. simpl. reflexivity.
  - replace (S (S gid)) with (S gid + 1) by lia. rewrite lsum_split. rewrite <- w32_w32_add, IH by lia.
    fold len in Hinp. rewrite prefix_S by lia. f_equal. f_equal. unfold lsum. simpl. unfold lv. rewrite E.
    replace ((0 <? S gid) && (S gid <? len)) with true by lia. replace (S gid - 1) with gid by lia. lia.
Qed.
Lemma lsum_inplace_prefix gid : c_var c = InPlace -> gid <= len -> w32 (lsum 0 gid) = prefix inp gid.
Proof.
  intros E. induction gid as [|gid IH]; intros H; [reflexivity|].
  replace (S gid) with (gid + 1) by lia. rewrite lsum_split, <- w32_w32_add, IH by lia.
  replace (gid + 1) with (S gid) by lia. fold len in Hinp. rewrite prefix_S by lia. f_equal. f_equal.
  unfold lsum. simpl. unfold lv. rewrite E.
  replace (gid <? len) with true by lia. lia.
Qed.

Lemma group_scan_ok g lane : lane < G -> g * G + lane < len ->
  w32 (group_scan c (map lv (seq (g * G) G)) lane + w32 (lsum 0 (g * G))) = target (g * G + lane).
Proof.
  intros Hl Hg. unfold group_scan, target. rewrite w32_add_w32.
  destruct Hvar as [E|E]; rewrite E; rewrite ?fold_zsum, ?firstn_map, ?firstn_seq by lia;
    rewrite w32_w32_add.
  - rewrite <- lsum_shifted_prefix by auto. replace (S (g * G + lane)) with (g * G + S lane) by lia.
    rewrite lsum_split. f_equal. unfold lsum. simpl. lia.
  - rewrite <- lsum_inplace_prefix by (auto; lia). rewrite lsum_split. f_equal. unfold lsum. simpl. lia.
Qed.

(* ---------------- invariant ---------------- *)
Definition hist (ph : phase) : list Z :=
  match ph with
  | PLook g _ _ _ => [Aval g; Xval]
  | PFinal g _ _ => if g =? 0 then [Xval] else [Aval g; Xval]
  | PWrite g _ _ _ | PDone g => Pval g :: (if g =? 0 then [Xval] else [Aval g; Xval])
  | _ => [Xval]
  end.
Definition vals_ok (g : nat) (vals : list Z) := vals = map lv (seq (g * G) G).
Definition phase_ok (ph : phase) : Prop :=
  match ph with
  | PIdle | PDone _ => True
  | PRead g vals => length vals <= G /\ vals = map lv (seq (g * G) (length vals))
  | PPublish g vals => vals_ok g vals
  | PLook g vals accum ptr1 => vals_ok g vals /\ 1 <= ptr1 <= g /\ accum = w32 (lsum (ptr1 * G) (g * G - ptr1 * G))
  | PFinal g vals accum => vals_ok g vals /\ accum = w32 (lsum 0 (g * G))
  | PWrite g vals accum lane => vals_ok g vals /\ accum = w32 (lsum 0 (g * G)) /\ lane <= G
  end.
Definition written (ph : phase) (lane : nat) : bool :=
  match ph with
  | PWrite _ _ _ l => lane <? l
  | PDone _ => true
  | _ => false
  end.
Definition idle_count (l : list phase) := length (filter (fun ph => match ph with PIdle => true | _ => false end) l).

Record Inv (s : state) : Prop := {
  I_lp : length (s_phase s) = N;
  I_lt : length (s_tiles s) = N;
  I_lo : length (s_out s) = length out0;
  I_in : s_in s = inp;
  I_cnt : s_counter s + idle_count (s_phase s) = N;
  I_inj : forall p q ph1 ph2 g, nth_error (s_phase s) p = Some ph1 -> nth_error (s_phase s) q = Some ph2 ->
            id_of ph1 = Some g -> id_of ph2 = Some g -> p = q;
  I_own : forall g, g < s_counter s -> exists p ph, nth_error (s_phase s) p = Some ph /\ id_of ph = Some g;
  I_lt_id : forall p ph g, nth_error (s_phase s) p = Some ph -> id_of ph = Some g -> g < s_counter s;
  I_ph : forall p ph, nth_error (s_phase s) p = Some ph -> phase_ok ph;
  I_tile : forall p ph g, nth_error (s_phase s) p = Some ph -> id_of ph = Some g ->
             nth_error (s_tiles s) g = Some (hist ph);
  I_tile0 : forall g, s_counter s <= g < N -> nth_error (s_tiles s) g = Some [Xval];
  I_out : forall gid, gid < len -> forall p ph, nth_error (s_phase s) p = Some ph -> id_of ph = Some (gid / G) ->
             nth gid (s_out s) 0%Z = if written ph (gid mod G) then target gid else nth gid out0 0%Z;
  I_out0 : forall gid, len <= gid \/ s_counter s <= gid / G -> nth gid (s_out s) 0%Z = nth gid out0 0%Z }.

Lemma idle_upd l p ph ph' : nth_error l p = Some ph ->
  idle_count (upd l p ph') + (match ph with PIdle => 1 | _ => 0 end)
  = idle_count l + (match ph' with PIdle => 1 | _ => 0 end).
Proof.
  unfold idle_count. revert p. induction l as [|a t IH]; intros [|p] H; simpl in *; try discriminate.
  - injection H as ->. destruct ph, ph'; simpl; lia.
  - specialize (IH p H). destruct a; simpl; lia.
Qed.

Lemma Inv_init : Inv (init c inp out0).
Proof.
  assert (R : forall A (x : A) n i y, nth_error (repeat x n) i = Some y -> y = x /\ i < n).
  { intros A x n. induction n as [|n IH]; intros [|i] y H; simpl in H; try discriminate.
    - injection H as ->. split; auto; lia.
    - apply IH in H. split; try lia; tauto. }
  unfold init. split; simpl.
  - apply repeat_length.
  - apply repeat_length.
  - reflexivity.
  - reflexivity.
  - unfold idle_count. fold N. clear. induction N; simpl; lia.
  - intros p q ph1 ph2 g H1 H2 I1. apply R in H1 as [-> _]. discriminate.
  - intros; lia.
  - intros p ph g H1 I1. apply R in H1 as [-> _]. discriminate.
  - intros p ph H1. apply R in H1 as [-> _]. exact I.
  - intros p ph g H1 I1. apply R in H1 as [-> _]. discriminate.
  - intros g Hg. fold N. assert (Hg' : g < N) by lia. clear - Hg'. revert g Hg'. induction N; intros [|g] H; simpl; try lia; auto.
    apply IHn; lia.
  - intros gid _ p ph H1 I1. apply R in H1 as [-> _]. discriminate.
  - auto.
Qed.

(** Replacing the phase of [p] by one with the same id, with the right tile and output changes. *)
Lemma Inv_advance s p ph ph' g tiles' out' :
  Inv s -> nth_error (s_phase s) p = Some ph -> id_of ph = Some g -> id_of ph' = Some g -> phase_ok ph' ->
  length tiles' = N -> nth_error tiles' g = Some (hist ph') ->
  (forall g', g' <> g -> nth_error tiles' g' = nth_error (s_tiles s) g') ->
  length out' = length out0 ->
  (forall gid, gid < len -> gid / G = g -> nth gid out' 0%Z = if written ph' (gid mod G) then target gid else nth gid out0 0%Z) ->
  (forall gid, len <= gid \/ gid / G <> g -> nth gid out' 0%Z = nth gid (s_out s) 0%Z) ->
  Inv (set_phase p ph' (mkSt (s_counter s) tiles' (s_in s) out' (s_phase s))).
Proof.
  intros IV Hp Hid Hid' Hok Lt Ht Ht' Lo Ho Ho'. destruct IV.
  assert (Hlt : p < length (s_phase s)) by (apply nth_error_Some; congruence).
  assert (Q : forall q phq, nth_error (upd (s_phase s) p ph') q = Some phq ->
     (q = p /\ phq = ph') \/ (q <> p /\ nth_error (s_phase s) q = Some phq)).
  { intros q phq H. destruct (Nat.eq_dec q p) as [->|Hq].
    - rewrite nth_error_upd_eq in H by auto. injection H as <-. auto.
    - rewrite nth_error_upd_neq in H by auto. auto. }
  unfold set_phase. split; simpl; auto.
  - now rewrite length_upd.
  - pose proof (idle_upd _ p ph ph' Hp) as HI.
    destruct ph; simpl in Hid; try discriminate; destruct ph'; simpl in Hid'; try discriminate; lia.
  - intros p1 q1 ph1 ph2 g1 H1 H2 I1 I2. apply Q in H1. apply Q in H2.
    destruct H1 as [[-> ->]|[N1 H1]], H2 as [[-> ->]|[N2 H2]]; auto.
    + eapply (I_inj0 p q1 ph ph2 g1); eauto. congruence.
    + eapply (I_inj0 p1 p ph1 ph g1); eauto. congruence.
    + eapply I_inj0; eauto.
  - intros g1 Hg1. destruct (I_own0 g1 Hg1) as (p1 & ph1 & H1 & I1).
    destruct (Nat.eq_dec p1 p) as [->|Hq].
    + exists p, ph'. rewrite nth_error_upd_eq by auto. split; auto. congruence.
    + exists p1, ph1. rewrite nth_error_upd_neq by auto. auto.
  - intros q phq g1 H1 I1. apply Q in H1 as [[-> ->]|[N1 H1]].
    + apply (I_lt_id0 p ph); auto. congruence.
    + eauto.
  - intros q phq H1. apply Q in H1 as [[-> ->]|[N1 H1]]; eauto.
  - intros q phq g1 H1 I1. apply Q in H1 as [[-> ->]|[N1 H1]].
    + congruence.
    + rewrite Ht'; eauto. intros ->. apply N1. eapply I_inj0; eauto.
  - intros g1 Hg1. rewrite Ht'; auto. intros ->. pose proof (I_lt_id0 p ph g Hp Hid). lia.
  - intros gid Hgid q phq H1 I1. apply Q in H1 as [[-> ->]|[N1 H1]].
    + apply Ho; auto. congruence.
    + rewrite Ho'; eauto. right. intros E. apply N1. eapply (I_inj0 q p phq ph g); eauto. congruence.
  - intros gid Hgid. destruct (Nat.lt_ge_cases gid len) as [Hl|Hl].
    + destruct Hgid as [|Hgid]; [lia|]. rewrite Ho'; auto. right. intros E.
      pose proof (I_lt_id0 p ph g Hp Hid). lia.
    + rewrite Ho'; auto.
Qed.

Lemma w32_sum_ok a b : w32 (w32 a + w32 b) = w32 (a + b).
Proof. now rewrite w32_w32_add, w32_add_w32. Qed.

Lemma sz : (0 <= STATE_X < 2 ^ 32 /\ 0 <= STATE_A < 2 ^ 32 /\ 0 <= STATE_P < 2 ^ 32)%Z.
Proof. unfold STATE_X, STATE_A, STATE_P. lia. Qed.

(** A load from a published tile. *)
Lemma load_hist s p ph g stale : Inv s -> nth_error (s_phase s) p = Some ph -> id_of ph = Some g ->
  exists v, tile_load g stale s = Ok v /\ (v = Xval \/ (v = Aval g /\ g <> 0) \/ v = Pval g) /\
    (stale = 0 -> (exists g', ph = PDone g') -> v = Pval g).
Proof.
  intros IV Hp Hid. pose proof (I_tile s IV p ph g Hp Hid) as Ht.
  unfold tile_load. rewrite (proj2 (aget_ok _ _ _) Ht). cbn [rbind].
  assert (F1 : forall A (x : A) n, aget [x] (Nat.min n 0) = Ok x) by (intros; now rewrite Nat.min_0_r).
  destruct ph; simpl in Hid; try discriminate; injection Hid as ->; cbn [hist].
  - exists Xval. simpl. rewrite F1. split; auto. split; auto. intros _ [? ?]; discriminate.
  - exists Xval. simpl. rewrite F1. split; auto. split; auto. intros _ [? ?]; discriminate.
  - assert (g <> 0) by (destruct (I_ph s IV p _ Hp) as (_ & ? & _); lia).
    destruct stale as [|[|?]]; cbn [length Nat.sub Nat.min aget nth_error];
      [exists (Aval g)|exists Xval|exists Xval]; (split; [reflexivity|]); (split; [auto|]); intros _ [? ?]; discriminate.
  - destruct (Nat.eqb_spec g 0).
    + exists Xval. simpl. rewrite F1. split; auto. split; auto. intros _ [? ?]; discriminate.
    + destruct stale as [|[|?]]; cbn [length Nat.sub Nat.min aget nth_error];
      [exists (Aval g)|exists Xval|exists Xval]; (split; [reflexivity|]); (split; [auto|]); intros _ [? ?]; discriminate.
  - destruct (Nat.eqb_spec g 0); destruct stale as [|[|[|?]]]; cbn [length Nat.sub Nat.min aget nth_error];
      eexists; (split; [reflexivity|]); (split; [auto|]); intros ? [? ?]; congruence.
  - destruct (Nat.eqb_spec g 0); destruct stale as [|[|[|?]]]; cbn [length Nat.sub Nat.min aget nth_error];
      eexists; (split; [reflexivity|]); (split; [auto|]); intros; auto; lia.
Qed.

Lemma div_lane g lane : lane < G -> (g * G + lane) / G = g /\ (g * G + lane) mod G = lane.
Proof.
  intros H. assert (HGp : 0 < G) by exact HG. split.
  - rewrite Nat.div_add_l by lia. rewrite Nat.div_small by lia. lia.
  - rewrite Nat.add_comm, Nat.mod_add by lia. apply Nat.mod_small; lia.
Qed.

Definition weight (ph : phase) : nat :=
  match ph with
  | PIdle => N + 2 * G + 6
  | PRead _ vals => (G - length vals) + N + G + 5
  | PPublish _ _ => N + G + 4
  | PLook _ _ _ ptr1 => ptr1 + G + 3
  | PFinal _ _ _ => G + 3
  | PWrite _ _ _ lane => (G - lane) + 1
  | PDone _ => 0
  end.
Definition measure (s : state) : nat := list_sum (map weight (s_phase s)).

Lemma measure_upd l p ph ph' : nth_error l p = Some ph -> weight ph' < weight ph ->
  list_sum (map weight (upd l p ph')) < list_sum (map weight l).
Proof.
  revert p. induction l as [|a t IH]; intros [|p] H HW; simpl in *; try discriminate.
  - injection H as ->. lia.
  - specialize (IH p H HW). lia.
Qed.

Definition blocked (s : state) (p stale : nat) : Prop :=
  nth_error (s_phase s) p = None \/ (exists g, nth_error (s_phase s) p = Some (PDone g)) \/
  (exists g vals a ptr1, nth_error (s_phase s) p = Some (PLook g vals a ptr1) /\
     tile_load (ptr1 - 1) stale s = Ok Xval).

(** Main lemma: every step keeps the invariant, and either makes progress or leaves the
    state unchanged; it is unchanged only for a finished group or a spin on an unpublished tile. *)
Lemma step_ok s p stale : Inv s ->
  exists s', step c (p, stale) s = Ok s' /\ Inv s' /\ ((s' = s /\ blocked s p stale) \/ measure s' < measure s).
Proof.
  intros IV. unfold step. destruct (nth_error (s_phase s) p) as [ph|] eqn:Hp.
  2:{ exists s. split; auto. split; auto. left. split; auto. left. auto. }
  assert (HGp : 0 < G) by exact HG.
  assert (Hlt : p < length (s_phase s)) by (apply nth_error_Some; congruence).
  pose proof (I_ph s IV p ph Hp) as Hok.
  assert (AdvP : forall ph', id_of ph <> None -> id_of ph' = id_of ph -> phase_ok ph' -> hist ph' = hist ph ->
     (forall lane, written ph' lane = written ph lane) -> weight ph' < weight ph ->
     Inv (set_phase p ph' s) /\ measure (set_phase p ph' s) < measure s).
  { intros ph' Hi Hi' Ho Hh Hw HW. destruct (id_of ph) as [g|] eqn:Eg; [|tauto]. split.
    - replace s with (mkSt (s_counter s) (s_tiles s) (s_in s) (s_out s) (s_phase s)) by (destruct s; auto).
      apply (Inv_advance s p ph ph' g); auto.
      + apply (I_lt s IV).
      + rewrite Hh. apply (I_tile s IV p); auto.
      + apply (I_lo s IV).
      + intros gid Hg E. rewrite Hw. apply (I_out s IV gid Hg p); auto. congruence.
    - unfold measure, set_phase. simpl. now apply (measure_upd _ p ph). }
  destruct ph as [|g vals|g vals|g vals accum ptr1|g vals accum|g vals accum lane|g].
  - (* PIdle *)
    rewrite Hdyn. eexists. split; [reflexivity|].
    assert (Hc : s_counter s < N).
    { pose proof (I_cnt s IV). pose proof (idle_upd _ p PIdle (PDone 0) Hp) as HH. cbv iota beta in HH. lia. }
    split.
    + destruct IV. unfold set_phase. simpl.
      assert (Q : forall q phq, nth_error (upd (s_phase s) p (PRead (s_counter s) [])) q = Some phq ->
         (q = p /\ phq = PRead (s_counter s) []) \/ (q <> p /\ nth_error (s_phase s) q = Some phq)).
      { intros q phq H. destruct (Nat.eq_dec q p) as [->|Hq].
        - rewrite nth_error_upd_eq in H by auto. injection H as <-. auto.
        - rewrite nth_error_upd_neq in H by auto. auto. }
      split; simpl; auto.
      * now rewrite length_upd.
      * pose proof (idle_upd _ p PIdle (PRead (s_counter s) []) Hp) as HH. cbv iota beta in HH. lia.
      * intros p1 q1 ph1 ph2 g1 H1 H2 I1 I2. apply Q in H1. apply Q in H2.
        destruct H1 as [[-> ->]|[N1 H1]], H2 as [[-> ->]|[N2 H2]]; auto.
        -- simpl in I1. injection I1 as <-. pose proof (I_lt_id0 q1 ph2 _ H2 I2). lia.
        -- simpl in I2. injection I2 as <-. pose proof (I_lt_id0 p1 ph1 _ H1 I1). lia.
        -- eapply I_inj0; eauto.
      * intros g1 Hg1. destruct (Nat.eq_dec g1 (s_counter s)) as [->|].
        -- exists p. eexists. rewrite nth_error_upd_eq by auto. split; reflexivity.
        -- destruct (I_own0 g1) as (p1 & ph1 & H1 & I1); [lia|]. exists p1, ph1. split; auto.
           rewrite nth_error_upd_neq; auto. intros ->. assert (ph1 = PIdle) by congruence. subst ph1. discriminate.
      * intros q phq g1 H1 I1. apply Q in H1 as [[-> ->]|[N1 H1]].
        -- simpl in I1. injection I1 as <-. lia.
        -- pose proof (I_lt_id0 q phq g1 H1 I1). lia.
      * intros q phq H1. apply Q in H1 as [[-> ->]|[N1 H1]]; eauto. simpl. split; [lia|reflexivity].
      * intros q phq g1 H1 I1. apply Q in H1 as [[-> ->]|[N1 H1]]; eauto.
        simpl in I1. injection I1 as <-. simpl. apply I_tile2. lia.
      * intros g1 Hg1. apply I_tile2. lia.
      * intros gid Hgid q phq H1 I1. apply Q in H1 as [[-> ->]|[N1 H1]]; eauto.
        simpl in I1. injection I1 as I1. simpl. apply I_out2. right. lia.
      * intros gid Hgid. apply I_out2. lia.
    + right. unfold measure, set_phase. simpl. apply (measure_upd _ p PIdle); auto. simpl. lia.
  - (* PRead *)
    destruct Hok as [Hl Hv]. fold G. destruct (length vals <? G) eqn:El.
    + rewrite lv_read.
      * cbn [rbind]. eexists. split; [reflexivity|]. match goal with |- Inv ?x /\ _ => assert (K : Inv x /\ measure x < measure s) end.
        { apply AdvP; simpl; auto; try discriminate.
          - rewrite app_length. simpl. split; [lia|].
            replace (length vals + 1) with (S (length vals)) by lia. rewrite seq_S, map_app. simpl. f_equal. exact Hv.
          - rewrite app_length. simpl. lia. }
        tauto.
      * intros EI Hg. destruct (div_lane g (length vals)) as [D M]; [lia|].
        pose proof (I_out s IV _ Hg p _ Hp) as HO. rewrite D in HO. specialize (HO eq_refl). simpl in HO. exact HO.
      * apply (I_in s IV).
      * rewrite (I_lo s IV). exact Hout.
    + eexists. split; [reflexivity|]. match goal with |- Inv ?x /\ _ => assert (K : Inv x /\ measure x < measure s) end.
      { apply AdvP; simpl; auto; try discriminate; [|lia]. unfold vals_ok. rewrite Hv at 1. f_equal. f_equal. lia. }
      tauto.
  - (* PPublish *)
    simpl in Hok. pose proof (I_lt_id s IV p _ g Hp eq_refl) as Hgc.
    pose proof (I_cnt s IV) as Hcn.
    destruct (Nat.eqb_spec g 0) as [->|Hg0].
    + eexists. split; [reflexivity|]. match goal with |- Inv ?x /\ _ => assert (K : Inv x /\ measure x < measure s) end.
      { apply AdvP; simpl; auto; try discriminate; lia. }
      tauto.
    + assert (Hgt : g < length (s_tiles s)) by (rewrite (I_lt s IV); lia).
      pose proof (I_tile s IV p _ g Hp eq_refl) as Ht. simpl in Ht.
      unfold tile_store, aget. rewrite Ht. cbn [rbind]. rewrite aset_lt by auto. cbn [rbind].
      eexists. split; [reflexivity|]. split.
      * unfold set_phase. simpl. apply (Inv_advance s p (PPublish g vals) (PLook g vals 0%Z g) g); auto.
        -- simpl. split; auto. split; [lia|]. rewrite Nat.sub_diag. reflexivity.
        -- rewrite length_upd. apply (I_lt s IV).
        -- rewrite nth_error_upd_eq by auto. simpl. unfold Aval. rewrite Hok, group_sum_ok. reflexivity.
        -- intros g' Hg'. apply nth_error_upd_neq. auto.
        -- apply (I_lo s IV).
        -- intros gid Hg E. simpl. pose proof (I_out s IV gid Hg p _ Hp) as HO. rewrite E in HO. apply (HO eq_refl).
      * right. unfold measure, set_phase. simpl. apply (measure_upd _ p (PPublish g vals)); auto. simpl. lia.
  - (* PLook *)
    simpl in Hok. destruct Hok as (Hv & Hptr & Hacc).
    pose proof (I_lt_id s IV p _ g Hp eq_refl) as Hgc.
    replace (ptr1 =? 0) with false by lia.
    destruct (I_own s IV (ptr1 - 1)) as (q & phq & Hq & Iq); [lia|].
    destruct (load_hist s q phq (ptr1 - 1) stale IV Hq Iq) as (v & Ev & Hcase & _).
    rewrite Ev. cbn [rbind]. pose proof sz as (SX & SA & SP).
    destruct Hcase as [->|[[-> Hn]| ->]].
    + unfold Xval. rewrite unpack_pack by (auto; lia). cbn.
      exists s. split; auto. split; auto. left. split; auto. right. right. exists g, vals, accum, ptr1. auto.
    + unfold Aval. rewrite unpack_pack by (auto; apply w32_range). cbn [STATE_A STATE_X STATE_P Z.eqb Pos.eqb].
      eexists. split; [reflexivity|]. match goal with |- Inv ?x /\ _ => assert (K : Inv x /\ measure x < measure s) end.
      { apply AdvP; simpl; auto; try discriminate; [|lia]. split; auto. split; [lia|].
        rewrite Hacc, w32_sum_ok. f_equal.
        replace (g * G - (ptr1 - 1) * G) with (G + (g * G - ptr1 * G)) by nia.
        rewrite lsum_split. replace ((ptr1 - 1) * G + G) with (ptr1 * G) by nia. lia. }
      tauto.
    + unfold Pval. rewrite unpack_pack by (auto; apply w32_range). cbn [STATE_A STATE_X STATE_P Z.eqb Pos.eqb].
      eexists. split; [reflexivity|]. match goal with |- Inv ?x /\ _ => assert (K : Inv x /\ measure x < measure s) end.
      { apply AdvP; simpl; auto; try discriminate; try lia.
        - split; auto. rewrite Hacc, w32_sum_ok. f_equal.
          replace ((ptr1 - 1) * G + G) with (ptr1 * G) by nia.
          replace (g * G) with (ptr1 * G + (g * G - ptr1 * G)) at 2 by nia. rewrite lsum_split. simpl. lia.
        - replace (g =? 0) with false by lia. reflexivity. }
      tauto.
  - (* PFinal *)
    simpl in Hok. destruct Hok as (Hv & Hacc).
    pose proof (I_lt_id s IV p _ g Hp eq_refl) as Hgc. pose proof (I_cnt s IV) as Hcn.
    assert (Hgt : g < length (s_tiles s)) by (rewrite (I_lt s IV); lia).
    pose proof (I_tile s IV p _ g Hp eq_refl) as Ht. simpl in Ht.
    unfold tile_store, aget. rewrite Ht. cbn [rbind]. rewrite aset_lt by auto. cbn [rbind].
    eexists. split; [reflexivity|]. split.
    + unfold set_phase. simpl. apply (Inv_advance s p (PFinal g vals accum) (PWrite g vals accum 0) g); auto.
      * simpl. repeat split; auto; lia.
      * rewrite length_upd. apply (I_lt s IV).
      * rewrite nth_error_upd_eq by auto. simpl. unfold Pval. rewrite Hv, group_sum_ok, Hacc, w32_sum_ok.
        rewrite lsum_split. reflexivity.
      * intros g' Hg'. apply nth_error_upd_neq. auto.
      * apply (I_lo s IV).
      * intros gid Hg E. simpl. pose proof (I_out s IV gid Hg p _ Hp) as HO. rewrite E in HO. apply (HO eq_refl).
    + right. unfold measure, set_phase. simpl. apply (measure_upd _ p (PFinal g vals accum)); auto. simpl. lia.
  - (* PWrite *)
    simpl in Hok. destruct Hok as (Hv & Hacc & Hlane). fold G. fold len.
    destruct (lane <? G) eqn:EL.
    + destruct (div_lane g lane) as [D M]; [lia|].
      assert (Split : forall gid, gid / G = g -> gid mod G = lane -> gid = g * G + lane).
      { intros gid E1 E2. pose proof (Nat.div_mod gid G). lia. }
      destruct (g * G + lane <? len) eqn:Eg.
      * rewrite aset_lt by (rewrite (I_lo s IV); fold len in Hout; lia). cbn [rbind].
        eexists. split; [reflexivity|]. split.
        -- unfold set_phase. simpl.
           apply (Inv_advance s p (PWrite g vals accum lane) (PWrite g vals accum (S lane)) g); auto.
           ++ simpl. repeat split; auto; lia.
           ++ apply (I_lt s IV).
           ++ apply (I_tile s IV p _ g Hp eq_refl).
           ++ rewrite length_upd. apply (I_lo s IV).
           ++ intros gid Hgid E. pose proof (I_out s IV gid Hgid p _ Hp) as HO. rewrite E in HO.
              specialize (HO eq_refl). simpl in HO. simpl.
              destruct (Nat.eq_dec gid (g * G + lane)) as [->|Hne].
              ** rewrite nth_upd_eq by (rewrite (I_lo s IV); fold len in Hout; lia).
                 rewrite M. replace (lane <? S lane) with true by lia.
                 rewrite Hv, Hacc. apply group_scan_ok; lia.
              ** rewrite nth_upd_neq by auto. rewrite HO.
                 assert (gid mod G <> lane) by (intros ?; apply Hne; auto).
                 replace (gid mod G <? S lane) with (gid mod G <? lane) by lia. reflexivity.
           ++ intros gid Hgid. apply nth_upd_neq. intros <-. rewrite D in Hgid. lia.
        -- right. unfold measure, set_phase. simpl. apply (measure_upd _ p (PWrite g vals accum lane)); auto. simpl. lia.
      * eexists. split; [reflexivity|]. split.
        -- replace s with (mkSt (s_counter s) (s_tiles s) (s_in s) (s_out s) (s_phase s)) by (destruct s; auto).
           apply (Inv_advance s p (PWrite g vals accum lane) (PWrite g vals accum (S lane)) g); auto.
           ++ simpl. repeat split; auto; lia.
           ++ apply (I_lt s IV).
           ++ apply (I_tile s IV p _ g Hp eq_refl).
           ++ apply (I_lo s IV).
           ++ intros gid Hgid E. pose proof (I_out s IV gid Hgid p _ Hp) as HO. rewrite E in HO.
              specialize (HO eq_refl). simpl in HO. simpl. rewrite HO.
              assert (gid mod G <> lane) by (intros ?; assert (gid = g * G + lane) by auto; lia).
              replace (gid mod G <? S lane) with (gid mod G <? lane) by lia. reflexivity.
        -- right. unfold measure, set_phase. simpl. apply (measure_upd _ p (PWrite g vals accum lane)); auto. simpl. lia.
    + assert (lane = G) by lia. subst lane. eexists. split; [reflexivity|]. split.
      * replace s with (mkSt (s_counter s) (s_tiles s) (s_in s) (s_out s) (s_phase s)) by (destruct s; auto).
        apply (Inv_advance s p (PWrite g vals accum G) (PDone g) g); auto.
        -- simpl. exact I.
        -- apply (I_lt s IV).
        -- apply (I_tile s IV p _ g Hp eq_refl).
        -- apply (I_lo s IV).
        -- intros gid Hgid E. pose proof (I_out s IV gid Hgid p _ Hp) as HO. rewrite E in HO.
           specialize (HO eq_refl). simpl in HO. simpl. rewrite HO.
           pose proof (Nat.mod_upper_bound gid G). replace (gid mod G <? G) with true by lia. reflexivity.
      * right. unfold measure, set_phase. simpl. apply (measure_upd _ p (PWrite g vals accum G)); auto. simpl. lia.
  - exists s. split; auto. split; auto. left. split; auto. right. left. eauto.
Qed.

Lemma run_ok sched : exists s, run c sched (init c inp out0) = Ok s /\ Inv s.
Proof.
  unfold run. apply rfold_inv; [apply Inv_init|]. intros [p stale] s _ IV.
  destruct (step_ok s p stale IV) as (s' & E & IV' & _). eauto.
Qed.

Lemma done_out s : Inv s -> done s ->
  firstn len (s_out s) = excl_spec inp len /\ skipn len (s_out s) = skipn len out0.
Proof.
  intros IV HD. assert (HGp : 0 < G) by exact HG.
  assert (Hc : s_counter s = N).
  { pose proof (I_cnt s IV) as H. replace (idle_count (s_phase s)) with 0 in H; [lia|].
    unfold idle_count. unfold done in HD. clear - HD. induction (s_phase s) as [|a t IH]; auto. simpl.
    destruct (HD a) as [g ->]; [simpl; auto|]. apply IH. intros ph Hph. apply HD. simpl; auto. }
  fold len in Hout. pose proof (I_lo s IV) as HL. split.
  - apply (list_eq_nth 0%Z).
    + rewrite firstn_length, length_excl_spec. lia.
    + intros i Hi. rewrite firstn_length in Hi.
      assert (Hi' : i < len) by lia. rewrite nth_excl_spec by auto.
      assert (Hg : i / G < s_counter s).
      { rewrite Hc. apply Nat.div_lt_upper_bound; [lia|]. fold len N G in Hcover. lia. }
      destruct (I_own s IV _ Hg) as (p & ph & Hp & Iph).
      destruct (HD ph) as [g ->]; [eapply nth_error_In; eauto|].
      pose proof (I_out s IV i Hi' p _ Hp Iph) as HO. simpl in HO. unfold target in HO. rewrite <- HO.
      rewrite <- (firstn_skipn len (s_out s)) at 2. rewrite app_nth1; auto. rewrite firstn_length. lia.
  - apply (list_eq_nth 0%Z); [rewrite !skipn_length; lia|].
    intros i Hi. rewrite skipn_length in Hi.
    assert (NS : forall (l : list Z) i, nth i (skipn len l) 0%Z = nth (len + i) l 0%Z).
    { clear. generalize len. intros m l. revert m. induction l as [|a l IH]; intros [|m] i; simpl; auto; destruct i; auto. }
    rewrite !NS. apply (I_out0 s IV). lia.
Qed.

(** Progress by groups that already started. *)
Lemma progress_running s p ph : Inv s -> nth_error (s_phase s) p = Some ph -> ph <> PIdle ->
  (forall g, ph <> PDone g) ->
  exists q phq, nth_error (s_phase s) q = Some phq /\ phq <> PIdle /\ ~ blocked s q 0.
Proof.
  intros IV. 
  assert (Min : forall n p ph g, nth_error (s_phase s) p = Some ph -> id_of ph = Some g -> g <= n ->
     (forall g', ph <> PDone g') -> exists q phq, nth_error (s_phase s) q = Some phq /\ phq <> PIdle /\ ~ blocked s q 0).
  { induction n as [n IH] using lt_wf_ind. intros p0 ph0 g Hp Hid Hle Hnd.
    destruct ph0 as [|g0 vals|g0 vals|g0 vals accum ptr1|g0 vals accum|g0 vals accum lane|g0];
      simpl in Hid; try discriminate; injection Hid as ->;
      try (exists p0; eexists; split; [exact Hp|]; split; [discriminate|];
           intros [B|[[? B]|(? & ? & ? & ? & B & _)]]; congruence).
    destruct (I_ph s IV p0 _ Hp) as (Hv & Hptr & Hacc).
    pose proof (I_lt_id s IV p0 _ g Hp eq_refl) as Hgc.
    destruct (I_own s IV (ptr1 - 1)) as (q & phq & Hq & Iq); [lia|].
    assert (Dec : (exists g', phq = PDone g') \/ (forall g', phq <> PDone g')).
    { destruct phq; try (right; intros; discriminate). left; eauto. }
    destruct Dec as [Dn|Nd].
    - exists p0. eexists. split; [exact Hp|]. split; [discriminate|].
      intros [B|[[? B]|(g2 & v2 & a2 & t2 & B & L)]]; try congruence.
      rewrite Hp in B. injection B as <- <- <- <-.
      destruct (load_hist s q phq (ptr1 - 1) 0 IV Hq Iq) as (v & Ev & _ & HP).
      specialize (HP eq_refl Dn). rewrite L in Ev. injection Ev as <-.
      pose proof sz as (SX & SA & SP).
      assert (unpack32 Xval = unpack32 (Pval (ptr1 - 1))) by congruence.
      unfold Xval, Pval in H. rewrite !unpack_pack in H by (auto; try lia; apply w32_range). discriminate.
    - apply (IH (ptr1 - 1)) with (p := q) (ph := phq) (g := ptr1 - 1); auto. lia. }
  intros Hp Hi Hnd. destruct (id_of ph) as [g|] eqn:Eg.
  - apply (Min g p ph g); auto.
  - destruct ph; simpl in Eg; try discriminate. tauto.
Qed.

Lemma not_done_progress s : Inv s -> ~ done s -> exists q, q < N /\ ~ blocked s q 0.
Proof.
  intros IV HD.
  assert (E : exists p ph, nth_error (s_phase s) p = Some ph /\ forall g, ph <> PDone g).
  { destruct (Exists_dec (fun ph => forall g, ph <> PDone g) (s_phase s)) as [X|X].
    - intros ph. destruct ph; try (left; intros; discriminate). right. intros H. apply (H g). reflexivity.
    - apply Exists_exists in X as (ph & Hin & Hn). apply In_nth_error in Hin as [p Hp]. eauto.
    - exfalso. apply HD. intros ph Hin. destruct ph as [|?|?|?|?|?|g]; eauto; exfalso; apply X; apply Exists_exists;
        eexists; (split; [exact Hin|]); intros; discriminate. }
  destruct E as (p & ph & Hp & Hn).
  assert (Lt : forall q x, nth_error (s_phase s) q = Some x -> q < N).
  { intros q x Hq. rewrite <- (I_lp s IV). apply nth_error_Some. congruence. }
  destruct ph.
  1:{ exists p. split; [eapply Lt; eauto|]. intros [B|[[? B]|(? & ? & ? & ? & B & _)]]; congruence. }
  all: try (destruct (progress_running s p _ IV Hp ltac:(discriminate) Hn) as (q & phq & Hq & _ & Hb);
    exists q; split; [eapply Lt; eauto|exact Hb]).
Qed.

(** Termination under every fair schedule. *)
Lemma fair_terminates (sched : nat -> nat * nat) :
  (forall p n, p < N -> exists m, n <= m /\ sched m = (p, 0)) ->
  exists n s, run c (map sched (seq 0 n)) (init c inp out0) = Ok s /\ done s.
Proof.
  intros Fair.
  assert (DoneDec : forall s, done s \/ ~ done s).
  { intros s. unfold done. induction (s_phase s) as [|a t IH].
    - left. simpl; tauto.
    - destruct IH as [IH|IH].
      + destruct a as [|?|?|?|?|?|g]; try (right; intros H; destruct (H _ (or_introl eq_refl)) as [? X]; discriminate).
        left. intros ph [<-|Hin]; eauto.
      + right. intros H. apply IH. intros ph Hin. apply H. simpl; auto. }
  assert (RunS : forall n s, run c (map sched (seq 0 n)) (init c inp out0) = Ok s ->
     run c (map sched (seq 0 (S n))) (init c inp out0) = step c (sched n) s).
  { intros n s E. unfold run in *. rewrite seq_S, map_app, rfold_app, E. cbn [rbind map rfold]. simpl plus.
    destruct (step c (sched n) s); reflexivity. }
  assert (M : forall k n s, measure s <= k -> run c (map sched (seq 0 n)) (init c inp out0) = Ok s -> Inv s ->
     exists n' s', run c (map sched (seq 0 n')) (init c inp out0) = Ok s' /\ done s').
  { induction k as [k IH] using lt_wf_ind. intros n s Hk E IV.
    destruct (DoneDec s) as [D|D]; [eauto|].
    destruct (not_done_progress s IV D) as (q & Hq & Hb).
    destruct (Fair q n Hq) as (m & Hm & Em).
    (* walk from n to m *)
    assert (W : forall d, (exists n' s', n <= n' /\ n' <= n + d /\ run c (map sched (seq 0 n')) (init c inp out0) = Ok s' /\ Inv s' /\ measure s' < measure s)
       \/ run c (map sched (seq 0 (n + d))) (init c inp out0) = Ok s).
    { induction d as [|d IHd].
      - right. now rewrite Nat.add_0_r.
      - destruct IHd as [(n' & s' & H1 & H2 & H3 & H4)|H].
        + left. exists n', s'. split; [lia|]. split; [lia|]. tauto.
        + pose proof (RunS _ _ H) as R. destruct (sched (n + d)) as [p0 st0].
          destruct (step_ok s p0 st0 IV) as (s' & Es & IV' & [[-> _]|Hlt]).
          * right. replace (n + S d) with (S (n + d)) by lia. congruence.
          * left. exists (S (n + d)), s'. split; [lia|]. split; [lia|]. split; [congruence|]. auto. }
    destruct (W (m - n)) as [(n' & s' & H1 & H2 & H3 & H4 & H5)|H].
    - apply (IH (measure s')) with (n := n') (s := s'); auto. lia.
    - replace (n + (m - n)) with m in H by lia. pose proof (RunS _ _ H) as R. rewrite Em in R.
      destruct (step_ok s q 0 IV) as (s' & Es & IV' & [[_ B]|Hlt]); [tauto|].
      rewrite Es in R. apply (IH (measure s')) with (n := S m) (s := s'); auto. lia. }
  apply (M (measure (init c inp out0)) 0 (init c inp out0)); auto. apply Inv_init.
Qed.

End Kernel.
