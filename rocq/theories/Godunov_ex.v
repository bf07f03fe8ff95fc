(** Concrete meshes that meet the hypotheses of the theorems on the Godunov step. *)
Require Import Reals Lra.
From Verif Require Import Base Par Scan Scan_spec Dtt_segs Riemann Riemann_spec Riemann_proofs Riemann_pos Godunov Godunov_spec Godunov_graph Godunov_pure Godunov_cons Godunov_cover Godunov_pos.
From Coq Require Import ZifyBool ZifyNat.
Local Open Scope nat_scope.

(** ** First order: the face values are the cell values *)
Lemma first_order_faces lattice cells m gamma dx dt p : patch_ok lattice cells p -> m <> HLLC -> (1 < gamma)%R ->
  (forall b, b < local_count p -> gas_state (nth b (gp_pdat p ++ gp_ghosts p) czero)) -> faces_ok m SlopeNone gamma dx dt p.
Proof.
  intros K HM G1 GS sizes gs0 faces0 E d a links b k f Ha HL HI HF.
  assert (Ha' : a < length (gp_bmin p) * 8) by (pose proof (pk_nreal _ _ _ K); unfold own_count in Ha; lia).
  rewrite (godunov_faces_ok (gp_bmin p) (gp_bmax p) (gp_nreal p) (gp_env p) SlopeNone gamma dx dt (gp_pdat p) (gp_ghosts p) (pk_blocks _ _ _ K) (pk_env _ _ _ K) (pk_nreal _ _ _ K) (pk_pdat _ _ _ K) (pk_data _ _ _ K)) in E.
  injection E as <- <- <-. rewrite gs_at, links_gr in HL by exact Ha'. injection HL as <-. rewrite faces_at in HF.
  assert (HF' := nth_seg (gp_bmin p) (gp_bmax p) (gp_nreal p) (gp_env p) (gp_pdat p) (gp_ghosts p) (pk_nreal _ _ _ K) (pk_pdat _ _ _ K) (pk_data _ _ _ K)
    (facep (gp_bmin p) (gp_bmax p) (gp_env p) SlopeNone gamma dx dt (gp_pdat p) (gp_ghosts p)) d a b k Ha' HI).
  unfold flist, fsegs in HF. rewrite HF' in HF. injection HF as <-.
  assert (Hb : b < local_count p).
  { apply in_combine_l in HI. apply (nbs_in _ _ _ _ (pk_blocks _ _ _ K) (pk_env _ _ _ K)) in HI; [|exact Ha']. unfold local_count. tauto. }
  assert (SE : forall i j, side (gp_bmin p) (gp_bmax p) (gp_env p) SlopeNone gamma dx dt (gp_pdat p) (gp_ghosts p) i j = w gamma (gp_pdat p) (gp_ghosts p) i) by (intros i j; apply face_state_0).
  unfold face_ok, facep. rewrite !SE. split; [apply cons_prim; auto|]. split; [apply cons_prim; auto|]. congruence.
Qed.

(** ** An environment that works for every mesh *)
Definition env0 (nb nreal : nat) (fl : dirn -> list nat) : gd_env := {|
  ge_cand := fun _ _ => seq 0 nb; ge_scan := fun buf len => Ok (excl_spec buf len);
  ge_bc := fun _ => seq 0 nb; ge_bf := fun _ => seq 0 nb; ge_cc := fun _ => seq 0 (nb * 8); ge_cf := fun _ => rev (seq 0 (nb * 8));
  ge_aabb := seq 0 nb; ge_prim := seq 0 (nb * 8); ge_grad := rev (seq 0 (nb * 8)); ge_face := fun _ => seq 0 (nb * 8); ge_flux := fl;
  ge_sum := seq 0 (nreal * 8); ge_int := rev (seq 0 (nreal * 8));
  ge_jz := fun n => repeat 7%Z n; ge_jn := fun n => repeat 9 n; ge_jbox := fun n => repeat (0%R, mkrv 0 0 0) n; ge_jprim := fun n => repeat (mkprim 0 0 (mkrv 0 0 0)) n |}.
Definition std_env (bmin bmax : list gvec) (nreal : nat) : gd_env :=
  env0 (length bmin) nreal (fun d => match cell_graph (env0 (length bmin) nreal (fun _ => [])) bmin bmax d with Ok g => seq 0 (link_count g) | _ => [] end).
Lemma few_small (P : nat -> nat -> Prop) n : (forall a b, P a b -> a < n /\ b < n) -> (Z.of_nat n * Z.of_nat n < 2 ^ 32)%Z -> few P.
Proof.
  intros H B L ND I. assert (LE : length L <= length (list_prod (seq 0 n) (seq 0 n))).
  { apply NoDup_incl_length; auto. intros [a b] X. specialize (H _ _ (I _ X)). cbn [fst snd] in H. apply in_prod; apply in_seq; lia. }
  rewrite prod_length, seq_length in LE. lia.
Qed.
Lemma std_env_ok bmin bmax nreal : (Z.of_nat (length bmin * 8) * Z.of_nat (length bmin * 8) < 2 ^ 32)%Z -> gd_env_ok bmin bmax nreal (std_env bmin bmax nreal).
Proof.
  intros B. split; cbn [std_env env0 ge_cand ge_scan ge_bc ge_bf ge_cc ge_cf ge_aabb ge_prim ge_grad ge_face ge_flux ge_sum ge_int ge_jz ge_jn ge_jbox ge_jprim]; intros; try apply Permutation_refl; try (symmetry; apply Permutation_rev); try apply repeat_length.
  - split; [apply seq_NoDup|]. split; [intros b Hb; apply in_seq in Hb; lia|]. intros b Hb _. apply in_seq. lia.
  - intros buf len _ _. reflexivity.
  - change (cell_graph (env0 (length bmin) nreal (fun _ => [])) bmin bmax d) with (cell_graph (std_env bmin bmax nreal) bmin bmax d). rewrite H. apply Permutation_refl.
  - apply (few_small _ (length bmin)); [tauto|]. nia.
  - apply (few_small _ (length bmin * 8)); [tauto|exact B].
Qed.

(** ** Two patches: a coarse block of cells of side 2 and a fine one of cells of side 1 beside it *)
Definition ex_corner (i : nat) : gvec := match i with O => (0, 0, 0)%Z | _ => (4, 0, 0)%Z end.
Definition ex_side (i : nat) : Z := match i with O => 4%Z | _ => 2%Z end.
Definition ex_top (i : nat) : gvec := gadd (ex_corner i) (ex_side i, ex_side i, ex_side i).
Definition ex_u (g : nat) : cons := mkcons (INR g + 1) (INR g + 10) (mkrv 1 0 (-1)).
Definition ex_perm (k : nat) (i : nat) : nat := (i + 8 * k) mod 16.
Definition ex_mins (k : nat) : list gvec := match k with O => [ex_corner 0; ex_corner 1] | _ => [ex_corner 1; ex_corner 0] end.
Definition ex_maxs (k : nat) : list gvec := match k with O => [ex_top 0; ex_top 1] | _ => [ex_top 1; ex_top 0] end.
Definition ex_patch (k : nat) : gpatch := mkgpatch (ex_mins k) (ex_maxs k) 1
  (map (fun i => ex_u (ex_perm k i)) (seq 0 8)) (map (fun i => ex_u (ex_perm k i)) (seq 8 8)) (std_env (ex_mins k) (ex_maxs k) 1) (fun i => (ex_perm k i, gzero)).
Definition ex_cells : list gcell := map (fun g => mkgcell (cell (ex_mins 0) (ex_maxs 0) g) (ex_u g)) (seq 0 16).
Definition ex_lattice (t : gvec) : Prop := t = gzero.

Lemma ex_gas g : gas_state (ex_u g).
Proof.
  unfold ex_u. pose proof (pos_INR g). split; cbn; [lra|]. unfold dotp. cbn. assert ((1 * 1 + 0 * 0 + -1 * -1) / (2 * (INR g + 1)) <= 1)%R; [|lra].
  apply (Rmult_le_reg_r (2 * (INR g + 1))); [lra|]. unfold Rdiv. rewrite Rmult_assoc, Rinv_l by lra. lra.
Qed.
Lemma ex_blocks k : k < 2 -> blocks_ok (ex_mins k) (ex_maxs k).
Proof.
  intros Hk. destruct k as [|[|k]]; [| |lia]; (split; [reflexivity| |]).
  - intros i Hi. cbn in Hi. destruct i as [|[|i]]; [exists 2%Z|exists 1%Z|lia]; split; (reflexivity || lia).
  - intros i j Hi Hj N. cbn in Hi, Hj. exists AX. destruct i as [|[|i]], j as [|[|j]]; try lia; cbn; lia.
  - intros i Hi. cbn in Hi. destruct i as [|[|i]]; [exists 1%Z|exists 2%Z|lia]; split; (reflexivity || lia).
  - intros i j Hi Hj N. cbn in Hi, Hj. exists AX. destruct i as [|[|i]], j as [|[|j]]; try lia; cbn; lia.
Qed.
Lemma ex_U_at k i : k < 2 -> i < 16 -> nth i (gp_pdat (ex_patch k) ++ gp_ghosts (ex_patch k)) czero = ex_u (ex_perm k i).
Proof.
  intros Hk Hi. unfold ex_patch. cbn [gp_pdat gp_ghosts]. rewrite <- map_app, <- seq_app. apply nth_error_nth. rewrite nth_error_map, nth_error_seq by lia. reflexivity.
Qed.
Lemma ex_cells_at g : g < 16 -> gcell_of ex_cells g = mkgcell (cell (ex_mins 0) (ex_maxs 0) g) (ex_u g).
Proof. intros Hg. unfold gcell_of, ex_cells. apply nth_error_nth. rewrite nth_error_map, nth_error_seq by lia. reflexivity. Qed.
Lemma ex_patch_ok k : k < 2 -> patch_ok ex_lattice ex_cells (ex_patch k).
Proof.
  intros Hk. assert (LB : length (ex_mins k) = 2) by (destruct k as [|[|]]; reflexivity). assert (LC : local_count (ex_patch k) = 16) by (unfold local_count; cbn [ex_patch gp_bmin]; now rewrite LB).
  split; try (now apply ex_blocks).
  - cbn [ex_patch gp_bmin gp_bmax gp_nreal gp_env]. apply std_env_ok. rewrite LB. reflexivity.
  - cbn [ex_patch gp_nreal gp_bmin]. lia.
  - reflexivity.
  - rewrite LC. reflexivity.
  - intros i Hi. rewrite LC in Hi. rewrite ex_U_at by auto. cbn [ex_patch gp_img fst snd]. assert (EP : ex_perm k i < 16) by (unfold ex_perm; lia). rewrite ex_cells_at by auto.
    split; [exact EP|]. split; [reflexivity|]. split; [|reflexivity]. unfold image. cbn [fst snd]. rewrite ex_cells_at by auto. cbn [gl_cube].
    unfold local_cube. cbn [ex_patch gp_bmin gp_bmax].
    destruct k as [|[|k]]; [| |lia]; do 16 (destruct i as [|i]; [vm_compute; reflexivity|]); lia.
  - reflexivity.
  - intros i d g t _ Hg Ht _. exists (ex_perm k g). change (length ex_cells) with 16 in Hg. rewrite LC. cbn [ex_patch gp_img]. unfold ex_perm. split; [lia|].
    rewrite Ht. f_equal. destruct k as [|[|k]]; lia.
Qed.
Lemma ex_sim_ok : sim_ok ex_lattice ex_cells [ex_patch 0; ex_patch 1].
Proof.
  split; [|split].
  - split; [reflexivity|]. split; [intros t ->; reflexivity|intros t t' -> ->; reflexivity].
  - intros p [<-|[<-|[]]]; apply ex_patch_ok; lia.
  - apply Permutation_refl.
Qed.
Lemma ex_faces_ok k : k < 2 -> faces_ok Rusanov SlopeNone (5 / 3) 1 (1 / 100) (ex_patch k).
Proof.
  intros Hk. eapply first_order_faces; [apply ex_patch_ok; auto|discriminate|lra|]. intros b Hb. assert (LC : local_count (ex_patch k) = 16) by (destruct k as [|[|]]; reflexivity). rewrite LC in Hb.
  rewrite ex_U_at by auto. apply ex_gas.
Qed.
(** a fine cell and a coarse cell touch *)
Lemma ex_touch : touches xp (cell (ex_mins 0) (ex_maxs 0) 1) (cell (ex_mins 0) (ex_maxs 0) 8).
Proof. split; [reflexivity|]. intros [| |] H; [exfalso; apply H; reflexivity| |]; vm_compute; split; reflexivity. Qed.

(** ** A block in the middle of 27 *)
Definition dig (k : nat) : Z := (Z.of_nat ((k + 1) mod 3) - 1)%Z.
Definition m_corner (i : nat) : gvec := (2 * dig (i mod 3), 2 * dig ((i / 3) mod 3), 2 * dig (i / 9))%Z.
Definition m_mins : list gvec := map m_corner (seq 0 27).
Definition m_maxs : list gvec := map (fun i => gadd (m_corner i) (2, 2, 2)%Z) (seq 0 27).
Lemma m_min_at i : i < 27 -> nth i m_mins gzero = m_corner i.
Proof. intros H. apply nth_error_nth. unfold m_mins. rewrite nth_error_map, nth_error_seq by lia. reflexivity. Qed.
Lemma m_max_at i : i < 27 -> nth i m_maxs gzero = gadd (m_corner i) (2, 2, 2)%Z.
Proof. intros H. apply nth_error_nth. unfold m_maxs. rewrite nth_error_map, nth_error_seq by lia. reflexivity. Qed.
Lemma m_blocks : blocks_ok m_mins m_maxs.
Proof.
  split; [reflexivity| |].
  - intros i Hi. exists 1%Z. split; [lia|]. now rewrite m_min_at, m_max_at.
  - intros i j Hi Hj N. change (length m_mins) with 27 in *. unfold disjoint, lo, hi, block. cbn [q_lo q_side]. rewrite !m_min_at, !m_max_at by auto.
    assert (S : forall k, gc AX (gadd (m_corner k) (2, 2, 2)%Z) = (gc AX (m_corner k) + 2)%Z) by (intros; apply gc_add). rewrite !S.
    assert (D : i mod 3 <> j mod 3 \/ (i / 3) mod 3 <> (j / 3) mod 3 \/ i / 9 <> j / 9) by lia.
    assert (DI : forall k k', k < 3 -> k' < 3 -> k <> k' -> (2 * dig k + 2 <= 2 * dig k' \/ 2 * dig k' + 2 <= 2 * dig k)%Z) by (intros; unfold dig; lia).
    destruct D as [D|[D|D]]; [exists AX|exists AY|exists AZ]; cbn [m_corner gc].
    + destruct (DI (i mod 3) (j mod 3)); try lia; apply Nat.mod_upper_bound; lia.
    + destruct (DI ((i / 3) mod 3) ((j / 3) mod 3)); try lia; apply Nat.mod_upper_bound; lia.
    + destruct (DI (i / 9) (j / 9)); lia.
Qed.
Definition m_find (p : gvec) : nat :=
  let '(x, y, z) := p in
  let g c := Z.to_nat ((c / 2) mod 3)%Z in let k c := Z.to_nat (c mod 2)%Z in
  8 * (g x + 3 * g y + 9 * g z) + (k x + 2 * k y + 4 * k z).
Lemma m_surrounded a : a < 8 -> surrounded m_mins m_maxs a.
Proof.
  intros Ha d p (E & H). exists (m_find p). destruct p as [[x y] z].
  assert (CO : exists u v w, (u, v, w) = q_lo (cell m_mins m_maxs a) /\ q_side (cell m_mins m_maxs a) = 1%Z /\ (0 <= u <= 1 /\ 0 <= v <= 1 /\ 0 <= w <= 1)%Z).
  { do 8 (destruct a as [|a]; [do 3 eexists; split; [vm_compute; reflexivity|split; [reflexivity|lia]]|]). lia. }
  destruct CO as (u & v & w & EQ & ES & R). unfold lo, hi in *. rewrite <- EQ, ES in *. cbn [q_lo q_side] in *.
  pose proof (H AX) as HX. pose proof (H AY) as HY. pose proof (H AZ) as HZ. clear H Ha EQ ES.
  assert (XR : (-1 <= x <= 2 /\ -1 <= y <= 2 /\ -1 <= z <= 2)%Z).
  { destruct d; cbn [axis_of upward gc] in *; try (specialize (HX ltac:(discriminate))); try (specialize (HY ltac:(discriminate))); try (specialize (HZ ltac:(discriminate))); lia. }
  clear HX HY HZ E.
  assert (X : x = (-1)%Z \/ x = 0%Z \/ x = 1%Z \/ x = 2%Z) by lia. assert (Y : y = (-1)%Z \/ y = 0%Z \/ y = 1%Z \/ y = 2%Z) by lia. assert (Z : z = (-1)%Z \/ z = 0%Z \/ z = 1%Z \/ z = 2%Z) by lia. clear XR R.
  destruct X as [->|[->|[->| ->]]], Y as [->|[->|[->| ->]]], Z as [->|[->|[->| ->]]]; (split; [apply Nat.ltb_lt; vm_compute; reflexivity|]); intros [| |]; vm_compute; split; congruence.
Qed.
