(** The direct sum: reference loop and tiles of 32 particles. *)
Require Import Reals Lra.
From Verif Require Import Fmm_tensors Fmm_ops Fmm_spec Fmm_orders Fmm_store Fmm_reps.
From Verif Require Import Base Par Karras Traverse Reduction Scan Scan_spec SortSearch SortSearch_spec BVH BVH_spec Dtt Dtt_spec
  Interleave Sgfmm Sgfmm_util Sgfmm_tree Sgfmm_down Sgfmm_field Sgfmm_part Sgfmm_spec Sgfmm_main Sgmm Sgmm_spec Sgmm_proofs Sgmm_main.
From Coq Require Import ZifyBool ZifyNat.
Local Open Scope nat_scope.

Lemma upd_each {A} (d : A) (body : nat -> list A -> res (list A)) (h : nat -> A -> A) K ids : NoDup ids ->
  (forall l, In l ids -> l < K /\ forall F, length F = K -> body l F = Ok (upd F l (h l (nth l F d)))) ->
  forall F, length F = K -> exists F', rfold body ids F = Ok F' /\ length F' = K /\
    (forall l, In l ids -> nth l F' d = h l (nth l F d)) /\ (forall l, ~ In l ids -> nth l F' d = nth l F d).
Proof.
  induction ids as [|j ids IH]; intros ND H F L; cbn [rfold].
  - exists F. split; auto. split; auto. split; [intros j []|auto].
  - apply NoDup_cons_iff in ND; destruct ND as [NI ND']. destruct (H j (or_introl eq_refl)) as (Hj & E). rewrite E by auto. cbn [rbind].
    destruct (IH ND' (fun x Hx => H x (or_intror Hx)) (upd F j (h j (nth j F d)))) as (F' & E' & L' & A1 & A2); [now rewrite length_upd|].
    exists F'. split; auto. split; auto. split.
    + intros x [<-|Hx].
      * rewrite A2 by auto. apply nth_upd_eq. lia.
      * rewrite A1 by auto. f_equal. apply nth_upd_neq. intros ->. auto.
    + intros x Hx. rewrite A2 by (intros X; apply Hx; simpl; auto). apply nth_upd_neq. intros ->. apply Hx. simpl; auto.
Qed.
Lemma in_perm (l : list nat) K : Permutation l (seq 0 K) -> NoDup l /\ forall x, In x l <-> x < K.
Proof.
  intros P. split; [apply (Permutation_NoDup (Permutation_sym P)), seq_NoDup|]. intros x. split; intros H.
  - apply (Permutation_in _ P), in_seq in H. lia.
  - apply (Permutation_in _ (Permutation_sym P)), in_seq. lia.
Qed.

Section Direct.
  Context (xyz : list (vec R)) (gm eps : R).
  Notation n := (length xyz).
  Notation pnt := (pnt xyz).
  (** terms of particle j on particle i *)
  Definition term (i j : nat) (c : ix) : R := if i =? j then 0%R else comp (plummer_term gm (eps * eps) (pnt i) (pnt j)) c.
  Lemma term_sum G i c : (G * Rsum (fun j => term i j c) (seq 0 n))%R = Rsum (fun j => softened G gm eps (position xyz i) (position xyz j) c) (filter (fun j => negb (j =? i)) (seq 0 n)).
  Proof.
    rewrite Rsum_filter, <- Rsum_scal_l. apply Rsum_ext. intros j _. unfold term, ind. rewrite (Nat.eqb_sym j i). destruct (i =? j); cbn [negb]; [ring|]. apply plummer_eq.
  Qed.

  Theorem direct_ref_ok G axyz : length axyz = n -> exists ax', direct_ref xyz G gm (eps * eps) axyz = Ok ax' /\ direct_sum xyz G gm eps axyz ax'.
  Proof.
    intros LA. unfold direct_ref.
    assert (IT : forall i, i < n -> exists f, direct_ref_item xyz gm (eps * eps) i = Ok f /\ forall c, comp f c = Rsum (fun j => term i j c) (seq 0 n)).
    { intros i Hi. unfold direct_ref_item. destruct (add_fold xyz (fun j => if i =? j then mkv 0 0 0 else plummer_term gm (eps * eps) (pnt i) (pnt j))
        (fun j f => if i =? j then Ok f else xj <- aget xyz j ;; xi <- aget xyz i ;; Ok (v3add f (plummer_term gm (eps * eps) (tov xi) (tov xj)))) (seq 0 n)) with (f := mkv 0 0 0) as (f & E & C).
      - intros j f Hj. apply in_seq in Hj. destruct (i =? j); [|rewrite !aget_xyz by lia; reflexivity]. f_equal. apply comp_ext. intros c. rewrite comp_add. destruct c; cbn; ring.
      - exists f. split; auto. intros c. rewrite C. replace (comp (mkv 0 0 0) c) with 0%R by (destruct c; reflexivity). rewrite Rplus_0_l. apply Rsum_ext. intros j _. unfold term.
        destruct (i =? j); [destruct c; reflexivity|reflexivity]. }
    set (S := fun i c => (G * Rsum (fun j => term i j c) (seq 0 n))%R).
    match goal with |- exists ax', rfold ?bd (seq 0 n) axyz = Ok ax' /\ _ => destruct (add_each bd (fun i => mkv (S i X0) (S i X1) (S i X2)) n (seq 0 n)) with (ax := axyz) as (ax' & E & L & A1 & _); auto end.
    - apply seq_NoDup.
    - intros i Hi. apply in_seq in Hi. split; [lia|]. intros ax L. destruct (IT i) as (f & E & C); [lia|]. rewrite E. cbn [rbind]. rewrite (aget_lt ax i z3) by lia. cbn [rbind]. rewrite aset_lt by lia.
      do 2 f_equal. apply comp_ext. intros c. rewrite !comp_add, comp_scal, C. destruct c; reflexivity.
    - exists ax'. split; auto. split; [congruence|]. intros i c Hi. change (mkv 0 0 0) with z3. rewrite A1 by (apply in_seq; lia). rewrite comp_add, <- term_sum. f_equal. destruct c; reflexivity.
  Qed.

  (** ** one work group *)
  Definition tile (offset : nat) : list (vec3 * R) := map (fun l => if offset + l <? n then (pnt (offset + l), gm) else (mkv 0 0 0, 0%R)) (seq 0 group_size).
  Lemma load_ok offset order s : Permutation order (seq 0 group_size) -> length s = group_size -> rfold (load_item xyz gm offset) order s = Ok (tile offset).
  Proof.
    intros P L. destruct (in_perm _ _ P) as [ND IN].
    destruct (upd_each (mkv 0 0 0, 0%R) (load_item xyz gm offset) (fun l _ => if offset + l <? n then (pnt (offset + l), gm) else (mkv 0 0 0, 0%R)) group_size order ND) with (F := s) as (s' & E & L' & A & _); auto.
    - intros l Hl. apply IN in Hl. split; auto. intros F LF. unfold load_item. destruct (Nat.ltb_spec (offset + l) n); [rewrite aget_xyz by auto; cbn [rbind]|]; apply aset_lt; lia.
    - etransitivity; [exact E|]. f_equal. apply (nth_ext _ _ (mkv 0 0 0, 0%R) (mkv 0 0 0, 0%R)); [unfold tile; now rewrite map_length, seq_length|]. intros l Hl. rewrite L' in Hl. rewrite A by (now apply IN).
      unfold tile. set (v := fun l => if offset + l <? n then (pnt (offset + l), gm) else (mkv 0 0 0, 0%R)). change (v l = nth l (map v (seq 0 group_size)) (mkv 0 0 0, 0%R)).
      rewrite (nth_indep _ _ (v 0)) by (now rewrite map_length, seq_length). rewrite map_nth, seq_nth by auto. reflexivity.
  Qed.
  Lemma tile_nth offset i : i < group_size -> aget (tile offset) i = Ok (if offset + i <? n then (pnt (offset + i), gm) else (mkv 0 0 0, 0%R)).
  Proof.
    intros Hi. unfold aget, tile. rewrite nth_error_map. rewrite (nth_error_nth' _ 0) by (now rewrite seq_length). rewrite seq_nth by auto. reflexivity.
  Qed.
  Lemma plummer_zero e2 x y c : comp (plummer_term 0 e2 x y) c = 0%R.
  Proof. unfold plummer_term. rewrite comp_scal. ring. Qed.

  Lemma accum_ok g offset my order force : Permutation order (seq 0 group_size) -> length my = group_size -> length force = group_size ->
    (forall l, l < group_size -> g * group_size + l < n -> nth l my z3 = pnt (g * group_size + l)) ->
    exists force', rfold (accum_item (eps * eps) g offset my (tile offset)) order force = Ok force' /\ length force' = group_size /\
      forall l c, l < group_size -> g * group_size + l < n ->
        comp (nth l force' z3) c = (comp (nth l force z3) c + Rsum (fun j => if j <? n then term (g * group_size + l) j c else 0%R) (seq offset group_size))%R.
  Proof.
    intros P LM LF HM. destruct (in_perm _ _ P) as [ND IN].
    set (fin := fun l f0 => fold_left (fun f i => if g * group_size + l =? offset + i then f else
       let e := if offset + i <? n then (pnt (offset + i), gm) else (mkv 0 0 0, 0%R) in v3add f (plummer_term (snd e) (eps * eps) (nth l my z3) (fst e))) (seq 0 group_size) f0).
    destruct (upd_each z3 (accum_item (eps * eps) g offset my (tile offset)) fin group_size order ND) with (F := force) as (F' & E & L' & A & _); auto.
    - intros l Hl. apply IN in Hl. split; auto. intros F LF'. unfold accum_item. rewrite (aget_lt my l z3) by lia. cbn [rbind]. rewrite (aget_lt F l z3) by lia. cbn [rbind].
      assert (FO : forall ids f0, (forall i, In i ids -> i < group_size) -> rfold (fun i f => e <- aget (tile offset) i ;; Ok (if g * group_size + l =? offset + i then f else v3add f (plummer_term (snd e) (eps * eps) (nth l my z3) (fst e)))) ids f0 =
        Ok (fold_left (fun f i => if g * group_size + l =? offset + i then f else
       let e := if offset + i <? n then (pnt (offset + i), gm) else (mkv 0 0 0, 0%R) in v3add f (plummer_term (snd e) (eps * eps) (nth l my z3) (fst e))) ids f0)).
      { induction ids as [|i ids IH]; intros f0 HI; [reflexivity|]. cbn [rfold fold_left]. rewrite tile_nth by (apply HI; simpl; auto). cbn [rbind]. apply IH. intros; apply HI; simpl; auto. }
      rewrite FO by (intros i Hi; apply in_seq in Hi; lia). cbn [rbind]. rewrite aset_lt by lia. reflexivity.
    - exists F'. split; auto. split; auto. intros l c Hl Hg. rewrite A by (now apply IN). unfold fin.
      assert (FO : forall ids f0, comp (fold_left (fun f i => if g * group_size + l =? offset + i then f else
       let e := if offset + i <? n then (pnt (offset + i), gm) else (mkv 0 0 0, 0%R) in v3add f (plummer_term (snd e) (eps * eps) (nth l my z3) (fst e))) ids f0) c =
        (comp f0 c + Rsum (fun j => if j <? n then term (g * group_size + l) j c else 0%R) (map (fun i => (offset + i)%nat) ids))%R).
      { induction ids as [|i ids IH]; intros f0; cbn [fold_left map]; [cbn; ring|]. rewrite IH, Rsum_cons. rewrite HM by auto. unfold term at 2.
        destruct (Nat.ltb_spec (offset + i) n) as [H1|H1]; destruct (Nat.eqb_spec (g * group_size + l) (offset + i)) as [H2|H2]; cbn [fst snd]; rewrite ?comp_add, ?plummer_zero; ring. }
      rewrite FO. f_equal. f_equal. clear. assert (G : forall k a, map (fun i => offset + i) (seq a k) = seq (offset + a) k).
      { induction k as [|k IH]; intros a; [reflexivity|]. cbn [seq map]. f_equal. rewrite IH. f_equal. lia. }
      rewrite G. now rewrite Nat.add_0_r.
  Qed.

  Definition upto (m i : nat) (c : ix) : R := Rsum (fun j => if j <? n then term i j c else 0%R) (seq 0 m).
  Lemma upto_all m i c : n <= m -> upto m i c = Rsum (fun j => term i j c) (seq 0 n).
  Proof.
    intros H. unfold upto. replace m with (n + (m - n)) by lia. rewrite seq_app, Rsum_app.
    rewrite (Rsum_ext _ _ (fun j => term i j c) (seq 0 n)) by (intros j Hj; apply in_seq in Hj; replace (j <? n) with true by lia; auto).
    rewrite (Rsum_ext _ _ (fun _ => 0%R) (seq (0 + n) (m - n))) by (intros j Hj; apply in_seq in Hj; replace (j <? n) with false by lia; auto).
    rewrite Rsum_zero. ring.
  Qed.
  Lemma tile_loop_ok g my (o1 o2 : nat -> list nat) : (Z.of_nat n < 2 ^ 31)%Z -> (forall k, Permutation (o1 k) (seq 0 group_size)) -> (forall k, Permutation (o2 k) (seq 0 group_size)) ->
    length my = group_size -> (forall l, l < group_size -> g * group_size + l < n -> nth l my z3 = pnt (g * group_size + l)) ->
    forall fuel k s force, n <= (k + fuel) * group_size -> k * group_size <= n + group_size -> length s = group_size -> length force = group_size ->
    (forall l c, l < group_size -> g * group_size + l < n -> comp (nth l force z3) c = upto (k * group_size) (g * group_size + l) c) ->
    exists force', tile_loop xyz fuel gm (eps * eps) g my o1 o2 (Z.of_nat (k * group_size)) s force = Ok force' /\ length force' = group_size /\
      forall l c, l < group_size -> g * group_size + l < n -> comp (nth l force' z3) c = Rsum (fun j => term (g * group_size + l) j c) (seq 0 n).
  Proof.
    intros SZ P1 P2 LM HM. change (2 ^ 31)%Z with 2147483648%Z in SZ. assert (GS : group_size = 32) by reflexivity.
    induction fuel as [|fuel IH]; intros k s force HF HK LS LF HI; cbn [tile_loop].
    - replace (Z.of_nat (k * group_size) <? Z.of_nat n)%Z with false by lia. exists force. split; auto. split; auto. intros l c Hl Hg. rewrite HI by auto. apply upto_all. lia.
    - destruct (Z.ltb_spec (Z.of_nat (k * group_size)) (Z.of_nat n)) as [HL|HL].
      + rewrite Nat2Z.id. rewrite load_ok by auto. cbn [rbind]. destruct (accum_ok g (k * group_size) my (o2 (k * group_size)) force (P2 _) LM LF HM) as (f1 & E1 & L1 & A1). rewrite E1. cbn [rbind].
        replace (w32 (Z.of_nat (k * group_size) + Z.of_nat group_size)) with (Z.of_nat (S k * group_size)).
        2:{ rewrite Dtt_segs.w32_small; [lia|]. change (2 ^ 32)%Z with 4294967296%Z. lia. }
        apply (IH (S k)); auto; try lia. intros l c Hl Hg. rewrite A1, HI by auto. unfold upto. replace (S k * group_size) with (k * group_size + group_size) by lia.
        rewrite seq_app, Rsum_app. reflexivity.
      + exists force. split; auto. split; auto. intros l c Hl Hg. rewrite HI by auto. apply upto_all. lia.
  Qed.

  Lemma my_ok g : exists my, rfold (fun l acc => p <- (if g * group_size + l <? n then p <- aget xyz (g * group_size + l) ;; Ok (tov p) else Ok (mkv 0 0 0)) ;; Ok (acc ++ [p])) (seq 0 group_size) [] = Ok my /\
    length my = group_size /\ forall l, l < group_size -> g * group_size + l < n -> nth l my z3 = pnt (g * group_size + l).
  Proof.
    set (v := fun l => if g * group_size + l <? n then pnt (g * group_size + l) else mkv 0 0 0).
    assert (G : forall ids acc, rfold (fun l acc => p <- (if g * group_size + l <? n then p <- aget xyz (g * group_size + l) ;; Ok (tov p) else Ok (mkv 0 0 0)) ;; Ok (acc ++ [p])) ids acc = Ok (acc ++ map v ids)).
    { induction ids as [|l ids IH]; intros acc; cbn [rfold map]; [now rewrite app_nil_r|]. unfold v at 1. destruct (Nat.ltb_spec (g * group_size + l) n).
      - rewrite aget_xyz by auto. cbn [rbind]. rewrite IH, <- app_assoc. reflexivity.
      - cbn [rbind]. rewrite IH, <- app_assoc. reflexivity. }
    exists (map v (seq 0 group_size)). split; [apply (G _ [])|]. split; [now rewrite map_length, seq_length|]. intros l Hl Hg.
    rewrite (nth_indep _ _ (v 0)) by (now rewrite map_length, seq_length). rewrite map_nth, seq_nth by auto. unfold v. cbn [Nat.add]. replace (g * group_size + l <? n) with true by lia. reflexivity.
  Qed.

  Theorem group_run_ok G g o1 o2 o3 scr : (Z.of_nat n < 2 ^ 31)%Z -> (forall k, Permutation (o1 k) (seq 0 group_size)) -> (forall k, Permutation (o2 k) (seq 0 group_size)) ->
    Permutation o3 (seq 0 group_size) -> length scr = group_size -> forall ax, length ax = n ->
    exists ax', group_run xyz G gm (eps * eps) o1 o2 o3 scr g ax = Ok ax' /\ length ax' = n /\
      (forall i, i / group_size = g -> i < n -> nth i ax' z3 = v3add (nth i ax z3) (mkv (G * Rsum (fun j => term i j X0) (seq 0 n)) (G * Rsum (fun j => term i j X1) (seq 0 n)) (G * Rsum (fun j => term i j X2) (seq 0 n)))) /\
      (forall i, ~ (i / group_size = g /\ i < n) -> nth i ax' z3 = nth i ax z3).
  Proof.
    intros SZ P1 P2 P3 LS ax LA. assert (GS : group_size = 32) by reflexivity. unfold group_run. destruct (my_ok g) as (my & EM & LM & HM). rewrite EM. cbn [rbind].
    destruct (tile_loop_ok g my o1 o2 SZ P1 P2 LM HM (n / group_size + 2) 0 scr (repeat (mkv 0 0 0) group_size)) as (force & EF & LF & HF); auto.
    { rewrite GS. pose proof (Nat.mul_succ_div_gt n 32). lia. }
    { lia. }
    { intros l c Hl Hg. cbn [Nat.mul]. unfold upto. cbn [seq Rsum fold_right]. rewrite GS in Hl. change (comp (nth l (repeat z3 group_size) z3) c = 0%R). rewrite nth_repeat. destruct c; reflexivity. }
    change (Z.of_nat (0 * group_size)) with 0%Z in EF. rewrite EF. cbn [rbind]. destruct (in_perm _ _ P3) as [ND IN].
    set (val := fun i => v3add (nth i ax z3) (mkv (G * Rsum (fun j => term i j X0) (seq 0 n)) (G * Rsum (fun j => term i j X1) (seq 0 n)) (G * Rsum (fun j => term i j X2) (seq 0 n)))).
    assert (W : forall ids a, NoDup ids -> (forall l, In l ids -> l < group_size) -> length a = n -> (forall l, In l ids -> nth (g * group_size + l) a z3 = nth (g * group_size + l) ax z3) -> exists a',
      rfold (fun l ax => if g * group_size + l <? n then f <- aget force l ;; a <- aget ax (g * group_size + l) ;; aset ax (g * group_size + l) (v3add a (vscal G f)) else Ok ax) ids a = Ok a' /\ length a' = n /\
      (forall l, In l ids -> g * group_size + l < n -> nth (g * group_size + l) a' z3 = val (g * group_size + l)) /\ (forall i, (forall l, In l ids -> g * group_size + l < n -> i <> g * group_size + l) -> nth i a' z3 = nth i a z3)).
    { induction ids as [|l ids IH]; intros a NDi HI L EQ; cbn [rfold].
      - exists a. split; auto. split; auto. split; [intros l []|auto].
      - apply NoDup_cons_iff in NDi. destruct NDi as [NI NDi]. destruct (Nat.ltb_spec (g * group_size + l) n) as [H|H].
        + rewrite (aget_lt force l z3) by (rewrite LF; apply HI; simpl; auto). cbn [rbind]. rewrite (aget_lt a _ z3) by lia. cbn [rbind]. rewrite aset_lt by lia. cbn [rbind].
          destruct (IH (upd a (g * group_size + l) (v3add (nth (g * group_size + l) a z3) (vscal G (nth l force z3))))) as (a' & E' & L' & B1 & B2); auto.
          { intros; apply HI; simpl; auto. } { now rewrite length_upd. }
          { intros l' Hl'. rewrite nth_upd_neq; [apply EQ; simpl; auto|]. intros X. apply NI. replace l with l' by lia. auto. }
          exists a'. split; auto. split; auto. split.
          * intros l' [<-|Hl'] Hg; auto. rewrite B2 by (intros l' Hl' _ X; apply NI; replace l with l' by lia; auto). rewrite nth_upd_eq by lia. rewrite EQ by (simpl; auto). unfold val. f_equal.
            apply comp_ext. intros c. rewrite comp_scal, HF by (auto; apply HI; simpl; auto). destruct c; reflexivity.
          * intros i Hi. rewrite B2 by (intros; apply Hi; simpl; auto). apply nth_upd_neq. intros X. apply (Hi l); simpl; auto.
        + cbn [rbind]. destruct (IH a) as (a' & E' & L' & B1 & B2); auto. { intros; apply HI; simpl; auto. } { intros; apply EQ; simpl; auto. }
          exists a'. split; auto. split; auto. split; [intros l' [<-|Hl'] Hg; auto; lia|]. intros i Hi. apply B2. intros; apply Hi; simpl; auto. }
    destruct (W o3 ax ND) as (a' & E' & L' & B1 & B2); auto. { intros l Hl. now apply IN. }
    exists a'. split; auto. split; auto. split.
    - intros i Hi Hn. pose proof (Nat.div_mod i 32). pose proof (Nat.mod_upper_bound i 32). rewrite GS in *. specialize (B1 (i mod 32)). rewrite <- Hi in B1. replace (i / 32 * 32 + i mod 32) with i in B1 by lia. apply B1; auto. apply IN. lia.
    - intros i Hi. apply B2. intros l Hl Hg X. apply Hi. apply IN in Hl. subst i. split; auto. rewrite GS in *. rewrite Nat.div_add_l by lia. rewrite Nat.div_small by lia. lia.
  Qed.

  Lemma group_count_eq : (Z.of_nat n < 2 ^ 31)%Z -> group_count xyz = (n + 31) / 32.
  Proof.
    intros H. unfold group_count. change (2 ^ 31)%Z with 2147483648%Z in H. change (Z.of_nat group_size) with 32%Z. rewrite Dtt_segs.w32_small by (change (2 ^ 32)%Z with 4294967296%Z; lia).
    apply Nat2Z.inj. rewrite Z2Nat.id by (apply Z.div_pos; lia). rewrite Nat2Z.inj_div. f_equal. lia.
  Qed.
  Theorem direct_tiled_ok env G axyz : (Z.of_nat n < 2 ^ 31)%Z -> direct_env_ok env -> length axyz = n ->
    exists ax', direct_tiled xyz env G gm (eps * eps) axyz = Ok ax' /\ direct_sum xyz G gm eps axyz ax'.
  Proof.
    intros SZ [V1 V2 V3 V4 V5] LA. unfold direct_tiled. specialize (V1 (group_count xyz)). rewrite group_count_eq in * by auto. destruct (in_perm _ _ V1) as [ND IN].
    set (S := fun i c => (G * Rsum (fun j => term i j c) (seq 0 n))%R).
    match goal with |- exists ax', rfold ?bd ?gs axyz = Ok ax' /\ _ => destruct (add_groups bd (fun _ i => mkv (S i X0) (S i X1) (S i X2)) (fun g => filter (fun i => i / group_size =? g) (seq 0 n)) n gs) with (ax := axyz) as (ax' & E & L & A1 & _); auto end.
    - intros k k' j _ _ H1 H2. apply filter_In in H1, H2. lia.
    - intros g Hg ax L. destruct (group_run_ok G g (de_load env g) (de_accum env g) (de_write env g) (de_scr env g) SZ (V2 g) (V3 g) (V4 g) (V5 g) ax L) as (a1 & E1 & L1 & B1 & B2). exists a1. split; auto. split; auto. split.
      + intros j Hj. apply filter_In in Hj. destruct Hj as [H1 H2]. apply in_seq in H1. rewrite B1 by lia. reflexivity.
      + intros j Hj. apply B2. intros [H1 H2]. apply Hj. apply filter_In. split; [apply in_seq; lia|lia].
    - exists ax'. split; auto. split; [congruence|]. intros i c Hi. change (mkv 0 0 0) with z3. rewrite (A1 (i / group_size) i).
      + rewrite comp_add, <- term_sum. f_equal. destruct c; reflexivity.
      + apply IN. change group_size with 32. pose proof (Nat.div_mod i 32). pose proof (Nat.div_mod (n + 31) 32). pose proof (Nat.mod_upper_bound (n + 31) 32). pose proof (Nat.mod_upper_bound i 32). lia.
      + apply filter_In. split; [apply in_seq; lia|apply Nat.eqb_refl].
  Qed.
End Direct.
