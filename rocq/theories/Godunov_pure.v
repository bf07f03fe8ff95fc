(** What the kernels of the step compute, as functions of the cells. *)
Require Import Reals Lra.
From Verif Require Import Base Par Scan Scan_spec Dtt_segs Riemann Riemann_spec Riemann_proofs Godunov Godunov_spec Godunov_graph.
From Coq Require Import ZifyBool ZifyNat.
Local Open Scope R_scope.

(** ** Sums *)
Definition rsum {A} (f : A -> R) (l : list A) : R := fold_right (fun x s => f x + s) 0 l.
Lemma rsum_perm {A} (f : A -> R) l l' : Permutation l l' -> rsum f l = rsum f l'.
Proof. induction 1; cbn [rsum fold_right] in *; try (unfold rsum in *; lra). Qed.
Lemma rsum_map {A B} (f : B -> R) (g : A -> B) l : rsum f (map g l) = rsum (fun x => f (g x)) l.
Proof. induction l; cbn [rsum map fold_right]; [reflexivity|]. unfold rsum in IHl. now rewrite IHl. Qed.
Lemma cadd_comm a b : cadd a b = cadd b a.
Proof. apply cons_ext; cbn; ring. Qed.
Lemma cadd_assoc a b c : cadd a (cadd b c) = cadd (cadd a b) c.
Proof. apply cons_ext; cbn; ring. Qed.
Lemma cadd_0l a : cadd czero a = a.
Proof. apply cons_ext; cbn; ring. Qed.
Lemma csum_perm {A} (f : A -> cons) l l' : Permutation l l' -> csum f l = csum f l'.
Proof.
  induction 1; cbn [csum fold_right] in *; auto.
  - unfold csum in *. now rewrite IHPermutation.
  - rewrite !cadd_assoc. f_equal. apply cadd_comm.
  - congruence.
Qed.
Lemma csum_map {A B} (f : B -> cons) (g : A -> B) l : csum f (map g l) = csum (fun x => f (g x)) l.
Proof. induction l; cbn [csum map fold_right]; [reflexivity|]. unfold csum in IHl. now rewrite IHl. Qed.
Lemma csum_app {A} (f : A -> cons) l l' : csum f (l ++ l') = cadd (csum f l) (csum f l').
Proof. induction l; cbn [csum app fold_right]; [now rewrite cadd_0l|]. unfold csum in IHl. now rewrite IHl, cadd_assoc. Qed.
Lemma csum_flat {A B} (f : B -> cons) (g : A -> list B) l : csum f (flat_map g l) = csum (fun x => csum f (g x)) l.
Proof. induction l; [reflexivity|]. cbn [flat_map]. rewrite csum_app, IHl. reflexivity. Qed.
Lemma csum_ext {A} (f g : A -> cons) l : (forall x, In x l -> f x = g x) -> csum f l = csum g l.
Proof. induction l as [|x l IH]; intros H; [reflexivity|]. cbn [csum fold_right]. rewrite H by now left. f_equal. apply IH. intros; apply H; now right. Qed.
Lemma csum_scal {A} k (f : A -> cons) l : csum (fun x => cscal k (f x)) l = cscal k (csum f l).
Proof. induction l; [apply cons_ext; cbn; ring|]. cbn [csum fold_right]. unfold csum in IHl. rewrite IHl. apply cons_ext; cbn; ring. Qed.
Lemma csum_add {A} (f g : A -> cons) l : csum (fun x => cadd (f x) (g x)) l = cadd (csum f l) (csum g l).
Proof. induction l; [apply cons_ext; cbn; ring|]. cbn [csum fold_right]. unfold csum in IHl. rewrite IHl. apply cons_ext; cbn; ring. Qed.
Lemma csum_neg {A} (f : A -> cons) l : csum (fun x => cneg (f x)) l = cneg (csum f l).
Proof. induction l; [apply cons_ext; cbn; ring|]. cbn [csum fold_right]. unfold csum in IHl. rewrite IHl. apply cons_ext; cbn; ring. Qed.
Lemma csum_zero {A} (l : list A) : csum (fun _ => czero) l = czero.
Proof. induction l; [reflexivity|]. cbn [csum fold_right]. unfold csum in IHl. rewrite IHl. apply cadd_0l. Qed.

(** ** Real boxes *)
Definition rlo (dx : R) (q : cube) : rv3 := mkrv (IZR (lo AX q) * dx) (IZR (lo AY q) * dx) (IZR (lo AZ q) * dx).
Definition rhi (dx : R) (q : cube) : rv3 := mkrv (IZR (hi AX q) * dx) (IZR (hi AY q) * dx) (IZR (hi AZ q) * dx).
Definition rbx (dx : R) (q : cube) : rbox := (rlo dx q, rhi dx q).
Definition hreal (dx : R) (q : cube) : R := IZR (q_side q) * dx.
Definition shiftR (A B : rbox) : rv3 := rvsub (get_center (rintersect A B)) (get_center A).
Lemma rintersect_sym A B : rintersect A B = rintersect B A.
Proof. unfold rintersect, rvmap2. f_equal; apply rv_ext; cbn; auto using Rmax_comm, Rmin_comm. Qed.
Definition surfR (dx : R) (A B : rbox) : R :=
  let fix_ c := if Rlt_dec c (dx / 2) then 1 else c in
  let f := rintersect A B in
  fix_ (rx (snd f) - rx (fst f)) * fix_ (ry (snd f) - ry (fst f)) * fix_ (rz (snd f) - rz (fst f)).

(** ** Gradients, from the size and state of the cell and of its neighbours *)
Definition view : Type := R * prim.
Definition gterm (d : dirn) (fld : prim -> R) (a b : view) : R :=
  let fac := if Rlt_dec (fst a) (fst b) then 3 / 2 else 1 in
  let fac := if Rlt_dec (fst b) (fst a) then 3 / 4 else fac in
  dir_sign d * (1 / (fac * fst a)) * (fld (snd b) - fld (snd a)).
Definition gdirL (d : dirn) (fld : prim -> R) (a : view) (L : list view) : R :=
  if (0 <? length L)%nat then rsum (gterm d fld a) L / INR (length L) else 0.
Definition grad3L (mode : slope_mode) (fld : prim -> R) (a : view) (L : dirn -> list view) : rv3 :=
  let g d := gdirL d fld a (L d) in
  mkrv (slope_function mode (g xm) (g xp)) (slope_function mode (g ym) (g yp)) (slope_function mode (g zm) (g zp)).
Definition gradL (mode : slope_mode) (a : view) (L : dirn -> list view) : grad5 :=
  let vx := grad3L mode (fun p => rx (p_vel p)) a L in
  let vy := grad3L mode (fun p => ry (p_vel p)) a L in
  let vz := grad3L mode (fun p => rz (p_vel p)) a L in
  mkgrad (grad3L mode p_rho a L) (mkrv (rx vx) (rx vy) (rx vz)) (mkrv (ry vx) (ry vy) (ry vz)) (mkrv (rz vx) (rz vy) (rz vz)) (grad3L mode p_press a L).
Lemma gdirL_perm d fld a L L' : Permutation L L' -> gdirL d fld a L = gdirL d fld a L'.
Proof. intros P. unfold gdirL. now rewrite (Permutation_length P), (rsum_perm _ _ _ P). Qed.
Lemma gradL_perm mode a L L' : (forall d, Permutation (L d) (L' d)) -> gradL mode a L = gradL mode a L'.
Proof. intros P. unfold gradL, grad3L. rewrite !(gdirL_perm _ _ _ _ _ (P _)). reflexivity. Qed.

Lemma aget_map {A} (f : nat -> A) n i : (i < n)%nat -> aget (map f (seq 0 n)) i = Ok (f i).
Proof. intros H. apply aget_ok. now rewrite nth_error_map, nth_error_seq. Qed.
Lemma rfold_add {A} (g : A -> R -> res R) (f : A -> R) l : (forall x acc, In x l -> g x acc = Ok (acc + f x)) -> forall acc, rfold g l acc = Ok (acc + rsum f l).
Proof.
  induction l as [|x l IH]; intros H acc; cbn [rfold rsum fold_right]; [f_equal; ring|]. rewrite H by now left. cbn [rbind].
  rewrite IH by (intros; apply H; now right). f_equal. unfold rsum. ring.
Qed.

Section Pure.
  Variables (bmin bmax : list gvec) (nreal : nat) (env : gd_env) (m : rmode) (mode : slope_mode) (gamma dx dt : R) (pdat ghosts : list cons).
  Hypothesis BO : blocks_ok bmin bmax.
  Hypothesis EO : gd_env_ok bmin bmax nreal env.
  Hypothesis NR : (nreal <= length bmin)%nat.
  Hypothesis LP : length pdat = (nreal * 8)%nat.
  Hypothesis LD : length (pdat ++ ghosts) = (length bmin * 8)%nat.
  Notation nb := (length bmin).
  Notation N := (length bmin * 8)%nat.
  Notation blk := (block bmin bmax).
  Notation cel := (cell bmin bmax).
  Notation U := (pdat ++ ghosts).
  Notation nei := (nbs bmin bmax env).

  Definition szs : list (R * rv3) := map (fun i => (IZR (q_side (blk i) / 2) * dx, rlo dx (blk i))) (seq 0 nb).
  Lemma sizes_ok : par_write (cell_aabb_item dx bmin bmax) (ge_aabb env) (ge_jbox env nb) = Ok szs.
  Proof. clear NR LP LD.
    apply par_write_ok; [apply EO|apply EO|]. intros i Hi. pose proof (bo_len _ _ BO) as L. unfold cell_aabb_item.
    rewrite (aget_lt bmin i gzero), (aget_lt bmax i gzero) by lia. cbn [rbind]. destruct (blk_side bmin bmax BO i Hi) as (h & P & S & E).
    rewrite E, S. replace (2 * h / 2)%Z with h by lia. unfold rlo, lo, block. cbn [q_lo]. destruct (nth i bmin gzero) as [[x y] z]. unfold gadd, to_rv3. cbn [gmap2 gc rx rvscal rvsub].
    f_equal. f_equal. rewrite plus_IZR, mult_IZR. lra.
  Qed.
  Definition hc (a : nat) : R := hreal dx (cel a).
  Lemma size_at a : (a < N)%nat -> aget szs (a / block_size)%nat = Ok (hc a, rlo dx (blk (a / 8)%nat)).
  Proof. clear NR LP LD. intros H. unfold szs. change block_size with 8%nat. rewrite aget_map by lia. reflexivity. Qed.
  Lemma aabb_ok a : (a < N)%nat -> get_cell_aabb szs a = Ok (rbx dx (cel a)).
  Proof. clear NR LP LD.
    intros H. unfold get_cell_aabb. rewrite size_at by auto. cbn [rbind fst snd]. change block_size with 8%nat.
    assert (HB : (a / 8 < nb)%nat) by lia. destruct (coord_ok (a mod 8)) as (x & y & z & E & X & Y & Z & I); [apply Nat.mod_upper_bound; lia|]. rewrite E.
    assert (KX : koff AX (a mod 8) = Z.of_nat x /\ koff AY (a mod 8) = Z.of_nat y /\ koff AZ (a mod 8) = Z.of_nat z).
    { unfold koff. unfold get_index, Nside in I. lia. }
    destruct KX as (KX & KY & KZ).
    assert (CL : forall c, IZR (lo c (cel a)) * dx = IZR (lo c (blk (a / 8)%nat)) * dx + IZR (koff c (a mod 8)) * hc a).
    { intros c. rewrite (cel_lo bmin bmax c a HB), plus_IZR, mult_IZR. unfold hc, hreal. ring. }
    assert (CH : forall c, IZR (hi c (cel a)) * dx = IZR (lo c (cel a)) * dx + hc a).
    { intros c. unfold hi. fold (lo c (cel a)). rewrite plus_IZR. unfold hc, hreal. ring. }
    unfold rbx, rlo, rhi. rewrite !CH, !CL, KX, KY, KZ. rewrite <- !INR_IZR_INZ. reflexivity.
  Qed.
  Lemma shifts_ok a b : (a < N)%nat -> (b < N)%nat -> get_shifts szs a b = Ok (shiftR (rbx dx (cel a)) (rbx dx (cel b)), shiftR (rbx dx (cel b)) (rbx dx (cel a))).
  Proof. clear NR LP LD. intros Ha Hb. unfold get_shifts. rewrite !aabb_ok by auto. cbn [rbind]. unfold shiftR. now rewrite (rintersect_sym (rbx dx (cel b))). Qed.
  Lemma surface_ok a b : (a < N)%nat -> (b < N)%nat -> get_face_surface dx szs a b = Ok (surfR dx (rbx dx (cel a)) (rbx dx (cel b))).
  Proof. clear NR LP LD. intros Ha Hb. unfold get_face_surface. rewrite !aabb_ok by auto. reflexivity. Qed.

  Definition w (a : nat) : prim := cons_to_prim (nth a U czero) gamma.
  Definition vw (a : nat) : view := (hc a, w a).
  Definition Ws : list prim := map w (seq 0 N).
  Lemma prims_ok : par_write (cons_to_prim_item gamma U) (ge_prim env) (ge_jprim env N) = Ok Ws.
  Proof. apply par_write_ok; [apply EO|apply EO|]. intros i Hi. unfold cons_to_prim_item. rewrite (aget_lt _ i czero) by lia. reflexivity. Qed.

  Definition gs : six ngraph := mk6 (gr (nei xp) N) (gr (nei xm) N) (gr (nei yp) N) (gr (nei ym) N) (gr (nei zp) N) (gr (nei zm) N).
  Lemma gs_at d : get6 gs d = gr (nei d) N.
  Proof. now destruct d. Qed.
  Lemma graphs_ok : build6 (cell_graph env bmin bmax) = Ok gs.
  Proof. unfold build6. rewrite !(cell_graph_ok bmin bmax nreal env BO EO). reflexivity. Qed.
  Lemma nei_lt d a b : (a < N)%nat -> In b (nei d a) -> (b < N)%nat.
  Proof. intros Ha Hb. apply (nbs_in bmin bmax nreal env BO EO) in Hb; tauto. Qed.

  Lemma gdir_ok d fld a : (a < N)%nat -> get_gradient_dir szs (get6 gs d) d fld Ws a = Ok (gdirL d fld (vw a) (map vw (nei d a))).
  Proof.
    intros Ha. unfold get_gradient_dir. rewrite size_at by auto. cbn [rbind fst]. rewrite gs_at, links_gr' by auto. cbn [rbind].
    rewrite (rfold_add _ (fun b => gterm d fld (vw a) (vw b))).
    - cbn [rbind]. unfold gdirL. rewrite map_length, rsum_map. destruct (0 <? length (nei d a))%nat; [|reflexivity]. f_equal. now rewrite Rplus_0_l.
    - intros b acc Hb. assert (HbN := nei_lt d a b Ha Hb). rewrite size_at by auto. cbn [rbind fst]. unfold Ws. rewrite !aget_map by auto. reflexivity.
  Qed.
  Definition G (a : nat) : grad5 := gradL mode (vw a) (fun d => map vw (nei d a)).
  Lemma grad_ok a : (a < N)%nat -> grad_item mode szs gs Ws a = Ok (G a).
  Proof. intros Ha. unfold grad_item, get_3d_grad. rewrite !gdir_ok by auto. reflexivity. Qed.
  Definition Gs : list grad5 := map G (seq 0 N).
  Lemma grads_ok : par_write (grad_item mode szs gs Ws) (ge_grad env) (jgrad env N) = Ok Gs.
  Proof. apply par_write_ok; [apply EO| |apply grad_ok]. unfold jgrad. rewrite map_length. apply EO. Qed.

  Definition side (a b : nat) : prim := face_state gamma (dt / 2) (w a) (G a) (shiftR (rbx dx (cel a)) (rbx dx (cel b))).
  Definition facep (a b : nat) : prim * prim := (side a b, side b a).
  Lemma val_ok a b : (a < N)%nat -> (b < N)%nat -> link_field_val gamma (dt / 2) szs Ws Gs a b = Ok (facep a b).
  Proof. intros Ha Hb. unfold link_field_val. rewrite shifts_ok by auto. cbn [rbind]. unfold Ws, Gs. rewrite !aget_map by auto. reflexivity. Qed.
  Lemma pos_map {A B} (f : nat -> A -> B) (segs : nat -> list A) n : pos (fun i => map (f i) (segs i)) n = pos segs n.
  Proof. unfold pos. generalize (seq 0 n). induction l as [|i l IH]; [reflexivity|]. cbn [flat_map]. rewrite !app_length, map_length, IH. reflexivity. Qed.
  Lemma fill_seg {A} (f : nat -> res A) (g : nat -> A) : forall l p out, (forall b, In b l -> f b = Ok (g b)) -> (p + length l <= length out)%nat ->
    rfold (fun (x : nat * nat) out => v <- f (fst x) ;; aset out (snd x) v) (combine l (seq p (length l))) out = Ok (writel p (map g l) out).
  Proof.
    induction l as [|b l IH]; intros p out H L; cbn [length seq combine rfold map] in *; [now rewrite writel_nil|]. cbn [fst snd]. rewrite H by now left. cbn [rbind].
    rewrite aset_lt by lia. cbn [rbind]. rewrite IH; [|intros; apply H; now right|rewrite length_upd; lia]. f_equal. apply writel_cons. rewrite map_length. lia.
  Qed.
  Definition fsegs (d : dirn) (a : nat) : list (prim * prim) := map (facep a) (nei d a).
  Definition flist (d : dirn) : list (prim * prim) := flat_map (fsegs d) (seq 0 N).
  Lemma faces_d_ok d : par_for (ge_face env d) (face_item (link_field_val gamma (dt / 2) szs Ws Gs) (get6 gs d)) (jface env (link_count (get6 gs d))) = Ok (flist d).
  Proof.
    assert (PM : forall k, pos (fsegs d) k = pos (nei d) k) by (intros; apply pos_map).
    assert (LJ : length (jface env (link_count (get6 gs d))) = (0 + pos (fsegs d) N)%nat).
    { unfold jface. rewrite map_length, (gk_jprim _ _ _ _ EO), gs_at. cbn [link_count gr Nat.add]. now rewrite PM. }
    rewrite (segs_kernel (fsegs d) N 0 _ _ _ (gk_face _ _ _ _ EO d) LJ); [reflexivity|].
    intros a b Ha Lb. unfold face_item. rewrite gs_at, links_gr by auto. cbn [rbind]. unfold seg_step. cbn [Nat.add]. rewrite PM. unfold fsegs.
    apply fill_seg.
    - intros c Hc. apply val_ok; auto. eapply nei_lt; eauto.
    - pose proof (pos_seg (nei d) a N Ha). rewrite Lb, PM. cbn [Nat.add]. lia.
  Qed.
  Definition faces : six (list (prim * prim)) := mk6 (flist xp) (flist xm) (flist yp) (flist ym) (flist zp) (flist zm).
  Lemma faces_at d : get6 faces d = flist d.
  Proof. now destruct d. Qed.
  Theorem godunov_faces_ok : godunov_faces env mode gamma dx dt bmin bmax U = Ok (szs, gs, faces).
  Proof.
    unfold godunov_faces. change block_size with 8%nat. rewrite graphs_ok. cbn [rbind]. rewrite sizes_ok. cbn [rbind]. rewrite prims_ok. cbn [rbind]. rewrite grads_ok. cbn [rbind].
    unfold build6. rewrite !faces_d_ok. reflexivity.
  Qed.

  Definition F (d : dirn) (a b : nat) : cons := flux m d (side a b) (side b a) gamma.
  Definition xlist (d : dirn) : list cons := flat_map (fun a => map (F d a) (nei d a)) (seq 0 N).
  Definition fluxes : six (list cons) := mk6 (xlist xp) (xlist xm) (xlist yp) (xlist ym) (xlist zp) (xlist zm).
  Lemma fluxes_at d : get6 fluxes d = xlist d.
  Proof. now destruct d. Qed.
  Lemma flux_d_ok d : par_write (flux_item m d gamma (get6 faces d)) (ge_flux env d) (jcons env (link_count (get6 gs d))) = Ok (xlist d).
  Proof.
    rewrite gs_at, faces_at. cbn [link_count gr].
    assert (LF : length (flist d) = pos (nei d) N) by exact (pos_map (fun a => facep a) (nei d) N).
    set (dflt := (mkprim 0 0 (mkrv 0 0 0), mkprim 0 0 (mkrv 0 0 0))).
    rewrite (par_write_ok _ (fun k => let f := nth k (flist d) dflt in flux m d (fst f) (snd f) gamma) _ (pos (nei d) N)).
    - f_equal. assert (E : xlist d = map (fun f => flux m d (fst f) (snd f) gamma) (flist d)).
      { unfold xlist, flist. generalize (seq 0 N). induction l as [|a l IH]; [reflexivity|]. cbn [flat_map]. rewrite map_app, IH. f_equal. unfold fsegs. rewrite map_map. reflexivity. }
      rewrite E, <- LF. apply list_eq_nth_error. intros k. rewrite !nth_error_map. destruct (Nat.lt_ge_cases k (length (flist d))) as [L|X].
      + rewrite nth_error_seq by auto. rewrite (nth_error_nth' _ dflt L). reflexivity.
      + rewrite !(proj2 (nth_error_None _ k)) by (rewrite ?seq_length; auto). reflexivity.
    - exact (gk_flux _ _ _ _ EO d _ (cell_graph_ok bmin bmax nreal env BO EO d)).
    - unfold jcons. rewrite map_length. apply EO.
    - intros k Hk. unfold flux_item. rewrite (aget_lt _ k dflt) by lia. reflexivity.
  Qed.
  Definition S (a b : nat) : R := surfR dx (rbx dx (cel a)) (rbx dx (cel b)).
  Definition part (d : dirn) (a b : nat) : cons := cscal (S a b) (F d a b).
  Lemma sub_fold {A} (g : A -> cons -> res cons) (f : A -> cons) l : (forall x acc, In x l -> g x acc = Ok (csub acc (f x))) -> forall acc, rfold g l acc = Ok (csub acc (csum f l)).
  Proof.
    induction l as [|x l IH]; intros H acc; cbn [rfold csum fold_right]; [f_equal; apply cons_ext; cbn; ring|]. rewrite H by now left. cbn [rbind].
    rewrite IH by (intros; apply H; now right). f_equal. unfold csum. apply cons_ext; cbn; ring.
  Qed.
  Lemma in_combine_nth (l : list nat) p b k : In (b, k) (combine l (seq p (length l))) -> exists x, (x < length l)%nat /\ k = (p + x)%nat /\ nth_error l x = Some b.
  Proof.
    revert p. induction l as [|y l IH]; intros p H; cbn [length seq combine In] in *; [tauto|]. destruct H as [H|H].
    - injection H as -> ->. exists 0%nat. cbn. split; [lia|]. split; [lia|reflexivity].
    - destruct (IH _ H) as (x & L & E & X). exists (Datatypes.S x). cbn. split; [lia|]. split; [lia|exact X].
  Qed.
  Lemma nth_seg {B} (f : nat -> nat -> B) d a b k : (a < N)%nat -> In (b, k) (combine (nei d a) (seq (pos (nei d) a) (length (nei d a)))) ->
    aget (flat_map (fun a => map (f a) (nei d a)) (seq 0 N)) k = Ok (f a b).
  Proof.
    intros Ha H. destruct (in_combine_nth _ _ _ _ H) as (x & L & -> & X). apply aget_ok. rewrite <- (pos_map f (nei d) a).
    rewrite (nth_flat (fun a => map (f a) (nei d a)) N a x) by (auto; rewrite map_length; auto). now rewrite nth_error_map, X.
  Qed.
  Lemma add_flux_ok d a acc : (a < N)%nat -> add_flux dx szs (get6 gs d) (get6 fluxes d) a acc = Ok (csub acc (csum (part d a) (nei d a))).
  Proof.
    intros Ha. unfold add_flux. rewrite gs_at, fluxes_at, links_gr by auto. cbn [rbind].
    rewrite (sub_fold _ (fun l => part d a (fst l))).
    - f_equal. f_equal. rewrite <- (csum_map (part d a) fst). now rewrite map_fst_combine by (now rewrite seq_length).
    - intros [b k] acc' H. cbn [fst snd]. assert (Hb : (b < N)%nat) by (apply in_combine_l in H; eapply nei_lt; eauto).
      rewrite surface_ok by auto. cbn [rbind]. unfold xlist. rewrite (nth_seg (F d) d a b k Ha H). reflexivity.
  Qed.
  Definition dirs : list dirn := [xp; xm; yp; ym; zp; zm].
  Definition outflow (a : nat) : cons := csum (fun d => csum (part d a) (nei d a)) dirs.
  Definition V (a : nat) : R := hc a * hc a * hc a.
  Definition dts (a : nat) : cons := cscal (1 / V a) (cneg (outflow a)).
  Lemma sum_flux_ok a : (a < N)%nat -> sum_flux_item dx szs gs fluxes a = Ok (dts a).
  Proof.
    intros Ha. unfold sum_flux_item. rewrite size_at by auto. cbn [rbind fst]. repeat (rewrite add_flux_ok by auto; cbn [rbind]).
    f_equal. unfold dts, V, outflow, dirs. cbn [csum fold_right]. apply cons_ext; cbn; ring.
  Qed.
  Definition newU (a : nat) : cons := cadd (nth a pdat czero) (cscal dt (dts a)).
  Theorem godunov_step_ok : godunov_step env m mode gamma dx dt bmin bmax pdat ghosts nreal = Ok (map newU (seq 0 (nreal * 8))).
  Proof.
    unfold godunov_step. rewrite godunov_faces_ok. cbn [rbind fst snd]. unfold godunov_update. change block_size with 8%nat.
    assert (FX : build6 (fun d => par_write (flux_item m d gamma (get6 faces d)) (ge_flux env d) (jcons env (link_count (get6 gs d)))) = Ok fluxes).
    { unfold build6. rewrite !flux_d_ok. reflexivity. }
    rewrite FX. cbn [rbind].
    rewrite (par_write_ok _ dts _ (nreal * 8)); [|apply EO|unfold jcons; rewrite map_length; apply EO|intros i Hi; apply sum_flux_ok; lia].
    cbn [rbind].
    (* each work item reads and writes its own entry *)
    assert (GEN : forall o l, NoDup o -> (forall i, In i o -> (i < nreal * 8)%nat) -> length l = (nreal * 8)%nat ->
      exists l', par_for o (integrate_item dt (map dts (seq 0 (nreal * 8)))) l = Ok l' /\ length l' = (nreal * 8)%nat /\
        (forall i, In i o -> nth_error l' i = Some (cadd (nth i l czero) (cscal dt (dts i)))) /\ (forall i, ~ In i o -> nth_error l' i = nth_error l i)).
    { unfold par_for. induction o as [|i o IH]; intros l ND HB HL; cbn [rfold].
      - exists l. split; [reflexivity|]. split; [auto|]. split; [intros i []|auto].
      - inversion ND as [|? ? NI ND']; subst. assert (Hi : (i < nreal * 8)%nat) by (apply HB; now left).
        unfold integrate_item at 1. rewrite (aget_lt l i czero) by lia. cbn [rbind]. rewrite aget_map by auto. cbn [rbind]. rewrite aset_lt by lia. cbn [rbind].
        set (l1 := upd l i _). destruct (IH l1 ND') as (l' & E & L' & P & Q); [intros; apply HB; now right|unfold l1; now rewrite length_upd|].
        exists l'. split; [exact E|]. split; [exact L'|]. split.
        + intros j [<-|Hj].
          * rewrite Q by auto. unfold l1. rewrite nth_error_upd_eq by lia. reflexivity.
          * rewrite P by auto. unfold l1. rewrite nth_upd_neq by (intros ->; contradiction). reflexivity.
        + intros j Hj. rewrite Q by (intros X; apply Hj; now right). unfold l1. apply nth_error_upd_neq. intros ->. apply Hj. now left. }
    destruct (GEN (ge_int env) pdat) as (l' & E & L' & P & _); auto.
    { eapply Permutation_NoDup; [symmetry; apply (gk_int _ _ _ _ EO)|apply seq_NoDup]. }
    { intros i Hi. apply (Permutation_in _ (gk_int _ _ _ _ EO)), in_seq in Hi. lia. }
    rewrite E. f_equal. apply list_eq_nth_error. intros i. destruct (Nat.lt_ge_cases i (nreal * 8)) as [L|X].
    - rewrite P by (apply (Permutation_in _ (Permutation_sym (gk_int _ _ _ _ EO))); apply in_seq; lia). rewrite nth_error_map, nth_error_seq by auto. reflexivity.
    - rewrite !(proj2 (nth_error_None _ i)); auto; rewrite ?map_length, ?seq_length; lia.
  Qed.
End Pure.
