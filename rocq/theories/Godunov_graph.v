(** The graphs: generic part, then which cells are linked. *)
Require Import Reals.
From Verif Require Import Base Par Scan Scan_spec Dtt_segs Ncache_spec Ncache_main Riemann Riemann_spec Godunov Godunov_spec.
From Coq Require Import ZifyBool ZifyNat.
Local Open Scope nat_scope.

(** ** compute_neigh_graph *)
Lemma map_fst_combine {A B} (a : list A) : forall b : list B, length a = length b -> map fst (combine a b) = a.
Proof. induction a; intros [|y b] H; cbn in *; try lia; auto. f_equal. apply IHa. lia. Qed.
Section Gr.
  Variables (segs : nat -> list nat) (n : nat).
  Definition gr : ngraph := mkgraph (map (fun i => Z.of_nat (pos segs i)) (seq 0 (n + 1))) (flat_map segs (seq 0 n)) (pos segs n) n.

  Lemma gather_links_ok links : forall l k, k + l <= length links ->
    gather_links links (seq k l) = Ok (combine (firstn l (skipn k links)) (seq k l)).
  Proof.
    induction l as [|l IH]; intros k H; [reflexivity|]. cbn [seq gather_links].
    rewrite (aget_lt _ _ 0) by lia. cbn [rbind]. rewrite IH by lia. cbn [rbind].
    f_equal. assert (E : skipn k links = nth k links 0 :: skipn (S k) links).
    { assert (H' : k < length links) by lia. clear - H'. revert k H'. induction links as [|x t IH]; intros k H; cbn in H; [lia|]. destruct k; [reflexivity|]. cbn [skipn nth]. apply IH. lia. }
    rewrite E. reflexivity.
  Qed.
  Lemma seg_of i : i < n -> firstn (length (segs i)) (skipn (pos segs i) (flat_map segs (seq 0 n))) = segs i.
  Proof.
    intros Hi. apply list_eq_nth_error. intros x. destruct (Nat.lt_ge_cases x (length (segs i))) as [L|G].
    - rewrite nth_error_firstn', nth_error_skipn' by auto. now apply nth_flat.
    - rewrite (proj2 (nth_error_None (segs i) x)) by auto. apply nth_error_None. rewrite firstn_length. lia.
  Qed.
  Lemma links_gr i : i < n -> for_each_object_link_id gr i = Ok (combine (segs i) (seq (pos segs i) (length (segs i)))).
  Proof.
    intros Hi. unfold for_each_object_link_id, gr. cbn [node_link_offset node_links].
    assert (RD : forall j, j <= n -> aget (map (fun i => Z.of_nat (pos segs i)) (seq 0 (n + 1))) j = Ok (Z.of_nat (pos segs j))).
    { intros j Hj. apply aget_ok. rewrite nth_error_map, nth_error_seq by lia. reflexivity. }
    rewrite !RD by lia. cbn [rbind]. replace (i + 1) with (S i) by lia. rewrite pos_S.
    replace (Z.to_nat (Z.of_nat (pos segs i + length (segs i))) - Z.to_nat (Z.of_nat (pos segs i))) with (length (segs i)) by lia. rewrite Nat2Z.id.
    pose proof (pos_seg segs i n Hi). rewrite gather_links_ok by exact H. now rewrite seg_of.
  Qed.
  Lemma links_gr' i : i < n -> for_each_object_link gr i = Ok (segs i).
  Proof. intros Hi. unfold for_each_object_link. rewrite links_gr by auto. cbn [rbind]. f_equal. apply map_fst_combine. now rewrite seq_length. Qed.

End Gr.
Section Compute.
  Variables (segs : nat -> list nat) (n : nat) (scan : list Z -> nat -> res (list Z)) (o1 o2 : list nat) (jz : nat -> list Z) (jn : nat -> list nat)
    (find : nat -> res (list nat)).
  Hypothesis SC : scan_spec scan.
  Hypothesis O1 : Permutation o1 (seq 0 n).
  Hypothesis O2 : Permutation o2 (seq 0 n).
  Hypothesis JZ : forall k, length (jz k) = k.
  Hypothesis JN : forall k, length (jn k) = k.
  Hypothesis BD : (Z.of_nat (pos segs n) < 2 ^ 32)%Z.
  Hypothesis FI : forall i, i < n -> find i = Ok (segs i).
  Notation gr := (gr segs n).
  Theorem compute_ok : compute_neigh_graph scan o1 o2 jz jn n find = Ok gr.
  Proof.
    unfold compute_neigh_graph.
    assert (E1 : par_for o1 (fun id_a out => ids <- find id_a ;; c <- rfold (fun _ c => Ok (w32 (c + 1))) ids 0%Z ;; aset out id_a c) (jz (n + 1))
       = par_write (fun i => if i <? n then Ok (Z.of_nat (length (segs i))) else UB) o1 (jz (n + 1))).
    { unfold par_write, par_for. assert (HB : forall i, In i o1 -> i < n) by (intros i Hi; apply (Permutation_in _ O1), in_seq in Hi; lia). clear O1.
      generalize (jz (n + 1)). induction o1 as [|i o IH]; intros b; [reflexivity|]. cbn [rfold]. assert (Hi : i < n) by (apply HB; now left).
      rewrite FI by auto. cbn [rbind]. replace (i <? n) with true by lia. pose proof (pos_seg segs i n Hi). rewrite count_leaf_fold by lia. cbn [rbind].
      replace (0 + Z.of_nat (length (segs i)))%Z with (Z.of_nat (length (segs i))) by lia.
      destruct (aset b i _); cbn [rbind]; auto. apply IH. intros; apply HB; now right. }
    rewrite E1. rewrite (par_write_prefix _ (fun i => Z.of_nat (length (segs i))) o1 n) by (try exact O1; first [rewrite JZ; lia|intros i Hi; now replace (i <? n) with true by lia]).
    cbn [rbind]. set (cn := map _ (seq 0 n) ++ _). assert (LC : length cn = n + 1) by (unfold cn; rewrite app_length, map_length, seq_length, skipn_length, JZ; lia).
    rewrite aset_lt by lia. cbn [rbind]. assert (CN : forall j, j < n -> nth j (upd cn n 0%Z) 0%Z = Z.of_nat (length (segs j))).
    { intros j Hj. rewrite nth_upd_neq by lia. apply nth_error_nth. unfold cn. rewrite nth_error_app1 by (rewrite map_length, seq_length; lia). rewrite nth_error_map, nth_error_seq by lia. reflexivity. }
    rewrite SC by (rewrite ?length_upd; lia). cbn [rbind].
    assert (RD : forall i, i <= n -> aget (excl_spec (upd cn n 0%Z) (n + 1)) i = Ok (Z.of_nat (pos segs i))).
    { intros i Hi. rewrite <- (app_nil_r (excl_spec _ _)). apply (scan_read segs _ n); auto; rewrite ?length_upd; lia. }
    rewrite RD by lia. cbn [rbind]. rewrite Nat2Z.id.
    rewrite (segs_kernel segs n 0 _ o2 (jn (pos segs n))); auto.
    - cbn [rbind firstn app]. unfold gr. f_equal. f_equal. apply list_eq_nth_error. intros x. destruct (Nat.lt_ge_cases x (n + 1)) as [L|G].
      + rewrite nth_error_map, nth_error_seq by lia. cbn [option_map]. apply aget_ok. apply RD. lia.
      + rewrite !(proj2 (nth_error_None _ x)); auto; [rewrite map_length, seq_length|rewrite length_excl]; lia.
    - intros i b Hi Lb. cbn [Nat.add] in *. rewrite RD by lia. cbn [rbind]. rewrite FI by auto. cbn [rbind]. pose proof (pos_seg segs i n Hi).
      destruct (fill_leaf_fold (segs i) b (pos segs i)) as (c & E); [lia|lia|]. rewrite E. reflexivity.
  Qed.
End Compute.

(** ** Geometry *)
Definition box_of (q : cube) : gbox := (q_lo q, gadd (q_lo q) (q_side q, q_side q, q_side q)).
Definition meetsb (d : dirn) (q q' : cube) : bool :=
  is_volume_not_null (get_intersect (box_of q') (gadd (fst (box_of q)) (offset_check d), gadd (snd (box_of q)) (offset_check d))).
Lemma meetsb_iff d q q' : meetsb d q q' = true <-> shifted_meets d q q'.
Proof.
  destruct q as [[[x y] z] s], q' as [[[x' y'] z'] s']. unfold meetsb, shifted_meets, lo, hi, box_of, get_intersect, gadd.
  destruct (offset_check d) as [[u v] w]. cbn [q_lo q_side fst snd gmap2 is_volume_not_null]. split.
  - intros H [| |]; cbn [gc]; lia.
  - intros H. pose proof (H AX) as HX. pose proof (H AY) as HY. pose proof (H AZ) as HZ. cbn [gc] in *. lia.
Qed.
Lemma meets_touches d q q' : disjoint q q' -> (0 < q_side q)%Z -> (0 < q_side q')%Z -> (shifted_meets d q q' <-> touches d q q').
Proof.
  intros (c & D) S S'. unfold shifted_meets, touches. unfold lo, hi in *. split.
  - intros H. assert (HX := H AX). assert (HY := H AY). assert (HZ := H AZ). clear H.
    destruct d; cbn [offset_check upward axis_of] in *; (destruct c; cbn [gc] in *; [ | | ]); (split; [lia|]); intros c' Hc; destruct c'; cbn [gc] in *; try congruence; try lia.
  - intros (E & H). assert (HX : AX <> axis_of d -> _) by exact (H AX). assert (HY : AY <> axis_of d -> _) by exact (H AY). assert (HZ : AZ <> axis_of d -> _) by exact (H AZ). clear H D.
    intros c'. destruct d; cbn [offset_check upward axis_of] in *; destruct c'; cbn [gc] in *;
      try (specialize (HX ltac:(discriminate))); try (specialize (HY ltac:(discriminate))); try (specialize (HZ ltac:(discriminate))); lia.
Qed.
Lemma touches_irrefl d q : (0 < q_side q)%Z -> ~ touches d q q.
Proof. intros S (E & _). unfold lo, hi in E. destruct (upward d); lia. Qed.

Section Blocks.
  Variables (bmin bmax : list gvec).
  Hypothesis BO : blocks_ok bmin bmax.
  Notation nb := (length bmin).
  Notation blk := (block bmin bmax).
  Notation cel := (cell bmin bmax).
  Lemma blk_side i : i < nb -> exists h, (0 < h)%Z /\ q_side (blk i) = (2 * h)%Z /\ nth i bmax gzero = gadd (nth i bmin gzero) (2 * h, 2 * h, 2 * h)%Z.
  Proof.
    intros Hi. destruct (bo_cube _ _ BO i Hi) as (h & P & E). exists h. split; auto. split; auto. unfold block. cbn [q_side]. rewrite E.
    destruct (nth i bmin gzero) as [[x y] z]. unfold gadd. cbn [gmap2 gc]. lia.
  Qed.
  Lemma box_blk i : i < nb -> (nth i bmin gzero, nth i bmax gzero) = box_of (blk i).
  Proof. intros Hi. destruct (blk_side i Hi) as (h & P & S & E). unfold box_of. rewrite S. cbn [block q_lo]. now rewrite E. Qed.
  Lemma div8 b k : k < 8 -> (b * 8 + k) / 8 = b.
  Proof. lia. Qed.
  Lemma mod8 b k : k < 8 -> (b * 8 + k) mod 8 = k.
  Proof. intros. lia. Qed.
  Lemma cel_side a : a / 8 < nb -> (0 < q_side (cel a))%Z /\ q_side (blk (a / 8)) = (2 * q_side (cel a))%Z.
  Proof. intros H. destruct (blk_side _ H) as (h & P & S & _). unfold cell. cbn [q_side]. rewrite S. lia. Qed.
  (** offsets of the cell in its block *)
  Definition koff (c : axis) (k : nat) : Z := match c with AX => Z.of_nat k mod 2 | AY => (Z.of_nat k / 2) mod 2 | AZ => (Z.of_nat k / 4) mod 2 end%Z.
  Lemma koff_01 c k : (koff c k = 0 \/ koff c k = 1)%Z.
  Proof. destruct c; unfold koff; lia. Qed.
  Lemma koff_inj k k' : k < 8 -> k' < 8 -> (forall c, koff c k = koff c k') -> k = k'.
  Proof. intros H H' E. pose proof (E AX). pose proof (E AY). pose proof (E AZ). unfold koff in *. lia. Qed.
  Lemma cel_lo c a : a / 8 < nb -> lo c (cel a) = (lo c (blk (a / 8)) + q_side (cel a) * koff c (a mod 8))%Z.
  Proof.
    intros H. unfold lo, cell. cbn [q_lo q_side]. destruct (q_lo (blk (a / 8))) as [[x y] z]. unfold gadd. destruct c; cbn [gmap2 gc koff]; lia.
  Qed.
  Lemma cel_in_blk c a : a / 8 < nb -> (lo c (blk (a / 8)) <= lo c (cel a) /\ hi c (cel a) <= hi c (blk (a / 8)))%Z.
  Proof.
    intros H. pose proof (cel_lo c a H) as E. destruct (cel_side a H) as (P & S). unfold hi. fold (lo c (cel a)) (lo c (blk (a / 8))). rewrite S, E.
    destruct (koff_01 c (a mod 8)) as [->| ->]; lia.
  Qed.
  Lemma cells_disjoint a b : a / 8 < nb -> b / 8 < nb -> a <> b -> disjoint (cel a) (cel b).
  Proof.
    intros Ha Hb N. destruct (Nat.eq_dec (a / 8) (b / 8)) as [E|D].
    - assert (M : a mod 8 <> b mod 8) by lia. destruct (cel_side a Ha) as (P & S). destruct (cel_side b Hb) as (P' & S').
      assert (EX : exists c, koff c (a mod 8) <> koff c (b mod 8)).
      { destruct (Z.eq_dec (koff AX (a mod 8)) (koff AX (b mod 8))) as [X|]; [|eauto]. destruct (Z.eq_dec (koff AY (a mod 8)) (koff AY (b mod 8))) as [Y|]; [|eauto].
        destruct (Z.eq_dec (koff AZ (a mod 8)) (koff AZ (b mod 8))) as [Z|]; [|eauto]. exfalso. apply M, koff_inj; try lia. intros [| |]; auto. }
      destruct EX as (c & K). exists c. unfold hi. fold (lo c (cel a)) (lo c (cel b)). rewrite !cel_lo by auto. rewrite E in *.
      destruct (koff_01 c (a mod 8)) as [A|A], (koff_01 c (b mod 8)) as [B|B]; rewrite A, B in *; try congruence; lia.
    - destruct (bo_disj _ _ BO _ _ Ha Hb D) as (c & K). exists c. pose proof (cel_in_blk c a Ha). pose proof (cel_in_blk c b Hb). lia.
  Qed.
  Lemma blk_meets d a b : a / 8 < nb -> b / 8 < nb -> shifted_meets d (cel a) (cel b) -> shifted_meets d (blk (a / 8)) (blk (b / 8)).
  Proof. intros Ha Hb H c. specialize (H c). pose proof (cel_in_blk c a Ha). pose proof (cel_in_blk c b Hb). lia. Qed.

  Lemma flat_map_ext_in {A B} (f g : A -> list B) l : (forall x, In x l -> f x = g x) -> flat_map f l = flat_map g l.
  Proof. induction l as [|x l IH]; intros H; [reflexivity|]. cbn [flat_map]. rewrite H by now left. rewrite IH; auto. intros; apply H; now right. Qed.
  (** *** one block *)
  Lemma rfilter_ok {A} (f : A -> res bool) (g : A -> bool) l : (forall x, In x l -> f x = Ok (g x)) -> rfilter f l = Ok (filter g l).
  Proof.
    induction l as [|x l IH]; intros H; [reflexivity|]. cbn [rfilter filter]. rewrite H by now left. cbn [rbind]. rewrite IH by (intros; apply H; now right). cbn [rbind].
    destruct (g x); reflexivity.
  Qed.
  Definition bseg (cand : nat -> list nat) (d : dirn) (a : nat) : list nat := filter (fun b => meetsb d (blk a) (blk b) && negb (b =? a)) (cand a).
  Lemma find_block_ok cand d a : a < nb -> (forall b, In b (cand a) -> b < nb) ->
    find_block_neigh bmin bmax (offset_check d) cand a = Ok (bseg cand d a).
  Proof.
    intros Ha C. pose proof (bo_len _ _ BO) as L. unfold find_block_neigh. rewrite (aget_lt bmin a gzero), (aget_lt bmax a gzero) by lia. cbn [rbind].
    apply rfilter_ok. intros b Hb. specialize (C b Hb). rewrite (aget_lt bmin b gzero), (aget_lt bmax b gzero) by lia. cbn [rbind].
    pose proof (box_blk a Ha) as BA. unfold meetsb. rewrite <- !box_blk by auto. reflexivity.
  Qed.
  Lemma local_ok i x y z : i < nb -> x < 2 -> y < 2 -> z < 2 ->
    local_cell (nth i bmin gzero) (nth i bmax gzero) x y z = box_of (cel (i * 8 + get_index x y z)).
  Proof.
    intros Hi Hx Hy Hz. destruct (blk_side i Hi) as (h & P & S & E). rewrite E. unfold local_cell, box_of, cell, get_index, Nside.
    rewrite div8, mod8 by lia. rewrite S. cbn [q_lo q_side]. replace (2 * h / 2)%Z with h by lia. cbn [block q_lo].
    destruct (nth i bmin gzero) as [[u v] w]. unfold gadd, gsub, gmul, gdiv, vec_of. cbn [gmap2].
    assert (QQ : forall u, Z.quot (u + 2 * h - u) (Z.of_nat 2) = h) by (intros u0; replace (u0 + 2 * h - u0)%Z with (h * 2)%Z by lia; apply Z.quot_mul; discriminate).
    rewrite !QQ.
    assert (X : x = 0 \/ x = 1) by lia. assert (Y : y = 0 \/ y = 1) by lia. assert (W : z = 0 \/ z = 1) by lia.
    destruct X as [->| ->], Y as [->| ->], W as [->| ->]; cbn [Nat.add Nat.mul]; change (Z.of_nat 0) with 0%Z; change (Z.of_nat 1) with 1%Z; change (Z.of_nat 2) with 2%Z;
      change (Z.of_nat 3) with 3%Z; change (Z.of_nat 4) with 4%Z; change (Z.of_nat 5) with 5%Z; change (Z.of_nat 6) with 6%Z; change (Z.of_nat 7) with 7%Z;
      repeat match goal with |- context [Z.modulo ?p ?q] => let v := eval vm_compute in (Z.modulo p q) in change (Z.modulo p q) with v
        | |- context [Z.div ?p ?q] => let v := eval vm_compute in (Z.div p q) in change (Z.div p q) with v end; f_equal; (f_equal; [f_equal|]); lia.
  Qed.
  Definition ks : list nat := [0; 4; 2; 6; 1; 5; 3; 7].
  Definition okb (d : dirn) (a idx : nat) : bool := meetsb d (cel a) (cel idx) && negb (a =? idx).
  Lemma block_cells_ok d a bb : bb < nb ->
    block_cells (gadd (fst (box_of (cel a))) (offset_check d), gadd (snd (box_of (cel a))) (offset_check d)) a bb (nth bb bmin gzero) (nth bb bmax gzero)
      = filter (okb d a) (map (fun k => bb * 8 + k) ks).
  Proof.
    intros Hb. unfold block_cells, block_size.
    transitivity (flat_map (fun lx => flat_map (fun ly => flat_map (fun lz => let idx := bb * 8 + get_index lx ly lz in if okb d a idx then [idx] else []) (seq 0 2)) (seq 0 2)) (seq 0 2)).
    - apply flat_map_ext_in. intros x Hx. apply flat_map_ext_in. intros y Hy. apply flat_map_ext_in. intros z Hz. apply in_seq in Hx, Hy, Hz.
      rewrite local_ok by (auto; unfold Nside in *; lia). reflexivity.
    - generalize (okb d a). intros P. unfold ks, get_index, Nside. cbn [seq flat_map app map filter Nat.add Nat.mul].
      assert (Q : forall (b : bool) (x : nat) l, (if b then [x] else []) ++ l = if b then x :: l else l) by (intros [|]; reflexivity).
      rewrite !app_nil_r, <- !app_assoc, !Q. reflexivity.
  Qed.
  Definition cseg (others : nat -> list nat) (d : dirn) (a : nat) : list nat :=
    flat_map (fun bb => filter (okb d a) (map (fun k => bb * 8 + k) ks)) (a / 8 :: others (a / 8)).
  Lemma coord_ok k : k < 8 -> exists x y z, get_coord k = (x, y, z) /\ x < 2 /\ y < 2 /\ z < 2 /\ get_index x y z = k.
  Proof. intros H. do 8 (destruct k as [|k]; [do 3 eexists; split; [reflexivity|cbn; lia]|]). lia. Qed.
  Lemma find_cell_ok g others d a : a / 8 < nb -> for_each_object_link g (a / 8) = Ok (others (a / 8)) -> (forall b, In b (others (a / 8)) -> b < nb) ->
    find_cell_neigh bmin bmax g (offset_check d) a = Ok (cseg others d a).
  Proof.
    intros Ha G O. pose proof (bo_len _ _ BO) as L. unfold find_cell_neigh, block_size. rewrite (aget_lt bmin (a / 8) gzero), (aget_lt bmax (a / 8) gzero) by lia. cbn [rbind].
    destruct (coord_ok (a mod 8)) as (x & y & z & -> & X & Y & Z & I); [apply Nat.mod_upper_bound; lia|].
    rewrite local_ok, I by auto. replace (a / 8 * 8 + a mod 8) with a by lia. rewrite G. cbn [rbind].
    unfold cseg. change (flat_map ?f ?l) with ([] ++ flat_map f l). generalize (@nil nat) as acc.
    assert (O' : forall b, In b (a / 8 :: others (a / 8)) -> b < nb) by (intros b [<-|H]; auto). revert O'. generalize (a / 8 :: others (a / 8)) as l.
    induction l as [|b l IH]; intros Hl acc; cbn [rfold flat_map]; [now rewrite app_nil_r|].
    assert (Hb : b < nb) by (apply Hl; now left). rewrite (aget_lt bmin b gzero), (aget_lt bmax b gzero) by lia. cbn [rbind].
    rewrite block_cells_ok by auto. rewrite IH by (intros; apply Hl; now right). now rewrite app_assoc.
  Qed.
End Blocks.

(** ** The two graphs *)
Section Graphs.
  Variables (bmin bmax : list gvec) (nreal : nat) (env : gd_env).
  Hypothesis BO : blocks_ok bmin bmax.
  Hypothesis EO : gd_env_ok bmin bmax nreal env.
  Notation nb := (length bmin).
  Notation blk := (block bmin bmax).
  Notation cel := (cell bmin bmax).
  Definition bl (d : dirn) (a : nat) : list nat := bseg bmin bmax (ge_cand env d) d a.
  Definition nbs (d : dirn) (a : nat) : list nat := cseg bmin bmax (bl d) d a.
  Lemma bl_in d a b : a < nb -> (In b (bl d a) <-> b < nb /\ b <> a /\ shifted_meets d (blk a) (blk b)).
  Proof.
    intros Ha. destruct (gk_cand _ _ _ _ EO d a Ha) as (ND & LT & C). unfold bl, bseg. rewrite filter_In. split.
    - intros (H & B). apply andb_true_iff in B. destruct B as (M & N). apply meetsb_iff in M. split; [auto|]. split; [|exact M]. intros ->. rewrite Nat.eqb_refl in N. discriminate.
    - intros (H & N & M). split; [now apply C|]. apply andb_true_iff. split; [now apply meetsb_iff|]. now apply negb_true_iff, Nat.eqb_neq.
  Qed.
  Lemma bl_nd d a : a < nb -> NoDup (bl d a).
  Proof. intros Ha. destruct (gk_cand _ _ _ _ EO d a Ha) as (ND & _). now apply NoDup_filter. Qed.
  Lemma NoDup_app' {A} (l l' : list A) : NoDup l -> NoDup l' -> (forall x, In x l -> ~ In x l') -> NoDup (l ++ l').
  Proof.
    induction l as [|x l IH]; intros N N' D; [exact N'|]. inversion N; subst. cbn [app]. constructor.
    - rewrite in_app_iff. intros [X|X]; [contradiction|]. eapply D; [now left|exact X].
    - apply IH; auto. intros y Hy. apply D. now right.
  Qed.
  Lemma NoDup_flat {A B} (f : A -> list B) (l : list A) : NoDup l -> (forall x, In x l -> NoDup (f x)) ->
    (forall x x' y, In x l -> In x' l -> In y (f x) -> In y (f x') -> x = x') -> NoDup (flat_map f l).
  Proof.
    induction l as [|x l IH]; intros N F D; [constructor|]. inversion N as [|? ? NI N']; subst. cbn [flat_map]. apply NoDup_app'.
    - apply F. now left.
    - apply IH; auto. intros; apply F; now right. intros; eapply D; eauto; now right.
    - intros y Hy X. apply in_flat_map in X. destruct X as (x' & Hx' & Y). assert (x = x') by (eapply D; eauto; [now left|now right]). now subst.
  Qed.
  Lemma ks_in k : In k ks <-> k < 8.
  Proof. unfold ks. cbn [In]. lia. Qed.
  Lemma in_blk_cells bb x : In x (map (fun k => bb * 8 + k) ks) <-> x / 8 = bb.
  Proof.
    rewrite in_map_iff. split.
    - intros (k & <- & H). apply ks_in in H. lia.
    - intros <-. exists (x mod 8). split; [lia|]. apply ks_in. lia.
  Qed.
  Lemma nbs_nd d a : a < nb * 8 -> NoDup (nbs d a).
  Proof.
    intros Ha. assert (Ha' : a / 8 < nb) by lia. unfold nbs, cseg. apply NoDup_flat.
    - constructor; [|now apply bl_nd]. intros X. apply bl_in in X; auto. destruct X as (_ & X & _). congruence.
    - intros bb _. apply NoDup_filter. apply FinFun.Injective_map_NoDup; [intros u v E; lia|]. unfold ks. repeat constructor; cbn [In]; lia.
    - intros x x' y _ _ X X'. apply filter_In in X, X'. destruct X as (X & _), X' as (X' & _). apply in_blk_cells in X, X'. congruence.
  Qed.
  Lemma nbs_in d a b : a < nb * 8 -> (In b (nbs d a) <-> b < nb * 8 /\ touches d (cel a) (cel b)).
  Proof.
    intros Ha. assert (Ha' : a / 8 < nb) by lia. unfold nbs, cseg. rewrite in_flat_map. destruct (cel_side bmin bmax BO a Ha') as (SA & _). split.
    - intros (bb & HB & X). apply filter_In in X. destruct X as (X & K). apply in_blk_cells in X. subst bb. apply andb_true_iff in K. destruct K as (M & N). apply meetsb_iff in M.
      apply negb_true_iff, Nat.eqb_neq in N. assert (LB : b / 8 < nb) by (destruct HB as [<-|HB]; [auto|apply bl_in in HB; tauto]).
      destruct (cel_side bmin bmax BO b LB) as (SB & _). split; [lia|]. apply meets_touches; auto. now apply cells_disjoint.
    - intros (Hb & T). assert (LB : b / 8 < nb) by lia. destruct (cel_side bmin bmax BO b LB) as (SB & _).
      assert (N : a <> b) by (intros ->; eapply touches_irrefl; eauto). assert (M : shifted_meets d (cel a) (cel b)) by (apply meets_touches; auto; now apply cells_disjoint).
      exists (b / 8). split.
      + destruct (Nat.eq_dec (a / 8) (b / 8)) as [E|D]; [left; congruence|]. right. apply bl_in; auto. split; [auto|]. split; [congruence|]. now apply blk_meets.
      + apply filter_In. split; [now apply in_blk_cells|]. apply andb_true_iff. split; [now apply meetsb_iff|]. now apply negb_true_iff, Nat.eqb_neq.
  Qed.
  Lemma block_graph_ok d : block_graph env bmin bmax d = Ok (gr (bl d) nb).
  Proof.
    unfold block_graph. apply compute_ok; try apply EO.
    - eapply fewer_pos; [exact (gk_fewb _ _ _ _ EO d)| |].
      + intros i Hi. now apply bl_nd.
      + intros i j Hi Hj. apply bl_in in Hj; auto. intuition.
    - intros i Hi. apply find_block_ok; auto. intros b Hb. destruct (gk_cand _ _ _ _ EO d i Hi) as (_ & LT & _). auto.
  Qed.
  Lemma nbs_few d : (Z.of_nat (pos (nbs d) (nb * 8)) < 2 ^ 32)%Z.
  Proof.
    eapply fewer_pos; [exact (gk_fewc _ _ _ _ EO d)| |].
    - intros i Hi. now apply nbs_nd.
    - intros i j Hi Hj. apply nbs_in in Hj; auto. intuition.
  Qed.
  Lemma cell_graph_ok d : cell_graph env bmin bmax d = Ok (gr (nbs d) (nb * 8)).
  Proof.
    unfold cell_graph. rewrite block_graph_ok. cbn [rbind]. change block_size with 8. apply compute_ok; try apply EO.
    - apply nbs_few.
    - intros i Hi. assert (i / 8 < nb) by lia. apply find_cell_ok; auto.
      + now apply links_gr'.
      + intros b Hb. apply bl_in in Hb; auto. tauto.
  Qed.
End Graphs.
