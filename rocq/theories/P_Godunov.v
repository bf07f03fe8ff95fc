(** C54: one step of the Godunov scheme on an adaptive mesh. *)
Require Import Reals Lra.
From Verif Require Import Base Par Scan Scan_spec Dtt_segs Riemann Riemann_spec Riemann_proofs Riemann_pos Godunov Godunov_spec Godunov_graph Godunov_pure Godunov_cons Godunov_cover Godunov_pos Godunov_ex.
From Coq Require Import ZifyBool ZifyNat.
Local Open Scope nat_scope.

(** The neighbour graph of direction d lists for every cell, once each, exactly the cells that share a face with it on
    that side: same block or not, finer, equal or coarser. *)
Theorem C54_cell_graph : forall bmin bmax nreal env d, blocks_ok bmin bmax -> gd_env_ok bmin bmax nreal env ->
  exists g, cell_graph env bmin bmax d = Ok g /\
    forall a, a < length bmin * 8 -> exists l, for_each_object_link g a = Ok l /\ NoDup l /\
      forall b, In b l <-> b < length bmin * 8 /\ touches d (cell bmin bmax a) (cell bmin bmax b).
Proof.
  intros bmin bmax nreal env d BO EO. exists (gr (nbs bmin bmax env d) (length bmin * 8)). split; [eapply cell_graph_ok; eauto|].
  intros a Ha. exists (nbs bmin bmax env d a). split; [now apply links_gr'|]. split; [eapply nbs_nd; eauto|]. intros b. eapply nbs_in; eauto.
Qed.

(** The surfaces used in the flux sum of a surrounded cell add up, on each side, to the area of the cell's face. *)
Theorem C54_face_areas : forall bmin bmax nreal env dxfact d a, blocks_ok bmin bmax -> gd_env_ok bmin bmax nreal env -> (0 < dxfact)%R ->
  a < length bmin * 8 -> surrounded bmin bmax a ->
  exists sizes g l area,
    par_write (cell_aabb_item dxfact bmin bmax) (ge_aabb env) (ge_jbox env (length bmin)) = Ok sizes /\
    cell_graph env bmin bmax d = Ok g /\ for_each_object_link g a = Ok l /\
    (forall b, In b l -> get_face_surface dxfact sizes a b = Ok (area b)) /\
    fold_right Rplus 0%R (map area l) = ((dxfact * IZR (q_side (cell bmin bmax a))) * (dxfact * IZR (q_side (cell bmin bmax a))))%R.
Proof.
  intros bmin bmax nreal env dx d a BO EO DX Ha SU.
  exists (szs bmin bmax dx), (gr (nbs bmin bmax env d) (length bmin * 8)), (nbs bmin bmax env d a), (fun b => surfR dx (rbx dx (cell bmin bmax a)) (rbx dx (cell bmin bmax b))).
  split; [eapply sizes_ok; eauto|]. split; [eapply cell_graph_ok; eauto|]. split; [now apply links_gr'|]. split.
  - intros b Hb. apply (nbs_in _ _ _ _ BO EO) in Hb; auto. apply surface_ok; auto; tauto.
  - pose proof (areas bmin bmax nreal env dx BO EO DX a Ha SU d) as A. unfold hc, hreal in A. rewrite (Rmult_comm dx). rewrite <- A. clear.
    induction (nbs bmin bmax env d a) as [|b l IH]; [reflexivity|]. cbn [map fold_right rsum]. unfold rsum in IH. now rewrite IH.
Qed.

(** Conservation, for the whole simulation: any number of patches with ghosts, periodic or not, any refinement, any
    slope limiter, any solver.  If the ghosts are complete and the values computed at the faces are usable, the step
    succeeds in every patch and total mass, energy and momentum do not change. *)
Theorem C54_conservation : forall lattice cells ps m mode gamma dxfact dt,
  sim_ok lattice cells ps -> (forall p, In p ps -> faces_ok m mode gamma dxfact dt p) -> (1 < gamma)%R -> (0 < dxfact)%R ->
  exists new : gpatch -> list cons,
    (forall p, In p ps -> step_patch m mode gamma dxfact dt p = Ok (new p) /\ length (new p) = own_count p) /\
    csum (fun p => content dxfact (gp_bmin p) (gp_bmax p) (own_count p) (new p)) ps =
    csum (fun p => content dxfact (gp_bmin p) (gp_bmax p) (own_count p) (gp_pdat p)) ps.
Proof. intros. eapply conservation; eauto. Qed.

(** Without slopes, and with Rusanov or HLL, the values at the faces are always usable. *)
Theorem C54_conservation_first_order : forall lattice cells ps m gamma dxfact dt,
  sim_ok lattice cells ps -> m <> HLLC -> (1 < gamma)%R -> (0 < dxfact)%R ->
  (forall g, g < length cells -> gas_state (gl_U (gcell_of cells g))) ->
  exists new : gpatch -> list cons,
    (forall p, In p ps -> step_patch m SlopeNone gamma dxfact dt p = Ok (new p) /\ length (new p) = own_count p) /\
    csum (fun p => content dxfact (gp_bmin p) (gp_bmax p) (own_count p) (new p)) ps =
    csum (fun p => content dxfact (gp_bmin p) (gp_bmax p) (own_count p) (gp_pdat p)) ps.
Proof.
  intros lattice cells ps m gamma dx dt SO HM G1 DX GS. eapply conservation; eauto. intros p Hp. assert (K : patch_ok lattice cells p) by now apply SO.
  eapply first_order_faces; eauto. intros b Hb. destruct (pk_img _ _ _ K b Hb) as (L & _ & _ & E). rewrite E. auto.
Qed.

(** A gas in the same state everywhere stays in that state, whatever the refinement around the cells. *)
Theorem C54_uniform : forall bmin bmax nreal env m mode gamma dxfact dt pdat ghosts u,
  blocks_ok bmin bmax -> gd_env_ok bmin bmax nreal env -> nreal <= length bmin ->
  length pdat = nreal * 8 -> length (pdat ++ ghosts) = length bmin * 8 -> (1 < gamma)%R -> (0 < dxfact)%R ->
  (forall a, a < nreal * 8 -> surrounded bmin bmax a) ->
  gas_state u -> (forall b, b < length bmin * 8 -> nth b (pdat ++ ghosts) czero = u) ->
  godunov_step env m mode gamma dxfact dt bmin bmax pdat ghosts nreal = Ok pdat.
Proof.
  intros bmin bmax nreal env m mode gamma dx dt pdat ghosts u BO EO NR LP LD G1 DX SU GU UN.
  apply (uniform bmin bmax nreal env m mode gamma dx dt pdat ghosts BO EO NR LP LD G1 DX SU) with (u0 := u); auto. intros b Hb. now rewrite UN.
Qed.

(** First order, Rusanov or HLL: if no signal (speed at most lam) crosses a sixth of a cell in one step, densities and
    pressures stay positive. *)
Theorem C54_positivity : forall bmin bmax nreal env m gamma dxfact dt pdat ghosts lam,
  blocks_ok bmin bmax -> gd_env_ok bmin bmax nreal env -> nreal <= length bmin ->
  length pdat = nreal * 8 -> length (pdat ++ ghosts) = length bmin * 8 -> (1 < gamma)%R -> (0 < dxfact)%R -> m <> HLLC -> (0 < dt)%R ->
  (forall a, a < nreal * 8 -> surrounded bmin bmax a) ->
  (forall b, b < length bmin * 8 -> exists p c, physical p /\ nth b (pdat ++ ghosts) czero = conserved gamma p /\ is_sound_speed gamma p c /\
     forall d, (Rabs (dotp (p_vel p) (normal d)) + c <= lam)%R) ->
  (forall a, a < nreal * 8 -> (6 * (dt * lam) <= dxfact * IZR (q_side (cell bmin bmax a)))%R) ->
  exists new, godunov_step env m SlopeNone gamma dxfact dt bmin bmax pdat ghosts nreal = Ok new /\ length new = nreal * 8 /\
    forall u, In u new -> gas_state u.
Proof.
  intros bmin bmax nreal env m gamma dx dt pdat ghosts lam BO EO NR LP LD G1 DX HM DT SU ST CFL.
  eexists. split; [apply godunov_step_ok; auto|]. split; [now rewrite map_length, seq_length|].
  intros u Hu. apply in_map_iff in Hu. destruct Hu as (a & <- & Ha). apply in_seq in Ha.
  apply (positive bmin bmax nreal env m SlopeNone gamma dx dt pdat ghosts BO EO NR LP LD G1 DX SU) with (lam := lam); auto; try lia.
  - intros b Hb. destruct (ST b Hb) as (p & c & Hp & -> & _). now apply gas_conserved.
  - intros b d Hb. destruct (ST b Hb) as (p & c & Hp & E & SS & L). unfold w. rewrite E, c2p_conserved by auto. rewrite (cs_uniq _ _ _ SS). apply L.
  - unfold hc, hreal. rewrite Rmult_comm with (r2 := dx). apply CFL. lia.
Qed.

(** ** The hypotheses can be met *)
(** a coarse block and a fine one, owned by two patches, each with the other as ghost; sixteen different states *)
Example C54_nonvacuous_conservation :
  sim_ok ex_lattice ex_cells [ex_patch 0; ex_patch 1] /\
  (forall p, In p [ex_patch 0; ex_patch 1] -> faces_ok Rusanov SlopeNone (5 / 3) 1 (1 / 100) p) /\
  q_side (cell (ex_mins 0) (ex_maxs 0) 1) = 2%Z /\ q_side (cell (ex_mins 0) (ex_maxs 0) 8) = 1%Z /\
  touches xp (cell (ex_mins 0) (ex_maxs 0) 1) (cell (ex_mins 0) (ex_maxs 0) 8) /\ ex_u 1 <> ex_u 8.
Proof.
  split; [apply ex_sim_ok|]. split; [intros p [<-|[<-|[]]]; apply ex_faces_ok; lia|]. split; [reflexivity|]. split; [reflexivity|]. split; [apply ex_touch|].
  intros H. apply (f_equal c_rho) in H. cbn in H. lra.
Qed.
(** a block in the middle of 27 *)
Definition m_u : cons := mkcons 1 2 (mkrv 1 0 0).
Definition m_pdat : list cons := repeat m_u 8.
Definition m_ghosts : list cons := repeat m_u 208.
Lemma m_nth b : b < 216 -> nth b (m_pdat ++ m_ghosts) czero = m_u.
Proof.
  intros H. unfold m_pdat, m_ghosts. rewrite <- repeat_app. replace (8 + 208) with 216 by reflexivity. apply nth_error_nth. rewrite nth_error_repeat by auto. reflexivity.
Qed.
Example C54_nonvacuous_uniform : godunov_step (std_env m_mins m_maxs 1) HLLC VanLeer_std (5 / 3) 1 (1 / 7) m_mins m_maxs m_pdat m_ghosts 1 = Ok m_pdat.
Proof.
  apply C54_uniform with (u := m_u).
  - apply m_blocks.
  - apply std_env_ok. reflexivity.
  - cbn. lia.
  - reflexivity.
  - unfold m_pdat, m_ghosts. rewrite app_length, !repeat_length. reflexivity.
  - lra.
  - lra.
  - intros a Ha. apply m_surrounded. lia.
  - split; cbn; [lra|]. unfold dotp; cbn. lra.
  - intros b Hb. change (length m_mins * 8) with 216 in Hb. now apply m_nth.
Qed.
Example C54_nonvacuous_positivity : exists new, godunov_step (std_env m_mins m_maxs 1) HLL SlopeNone (5 / 3) 1 (1 / 24) m_mins m_maxs m_pdat m_ghosts 1 = Ok new /\ length new = 8 /\ forall u, In u new -> gas_state u.
Proof.
  apply C54_positivity with (lam := 3%R).
  - apply m_blocks.
  - apply std_env_ok. reflexivity.
  - cbn. lia.
  - reflexivity.
  - unfold m_pdat, m_ghosts. rewrite app_length, !repeat_length. reflexivity.
  - lra.
  - lra.
  - discriminate.
  - lra.
  - intros a Ha. apply m_surrounded. lia.
  - intros b Hb. change (length m_mins * 8) with 216 in Hb. rewrite m_nth by auto.
    exists (mkprim 1 1 (mkrv 1 0 0)), (sqrt (5 / 3)). assert (0 < sqrt (5 / 3))%R by (apply sqrt_lt_R0; lra). assert (SQ : (sqrt (5 / 3) * sqrt (5 / 3) = 5 / 3)%R) by (apply sqrt_sqrt; lra).
    split; [split; cbn; lra|]. split; [unfold conserved, m_u, energy, dotp; cbn; f_equal; [lra|apply rv_ext; cbn; lra]|]. split; [split; [auto|cbn; rewrite SQ; lra]|].
    intros d. assert (sqrt (5 / 3) <= 2)%R by nra. assert (forall x, -1 <= x <= 1 -> Rabs x <= 1)%R by (intros x Hx; apply Rabs_le; lra).
    assert (RR : (Rabs (dotp (mkrv 1 0 0) (normal d)) <= 1)%R) by (apply H1; destruct d; unfold dotp; cbn; lra). cbn [p_vel]. lra.
  - intros a Ha. assert (SI : q_side (cell m_mins m_maxs a) = 1%Z) by (do 8 (destruct a as [|a]; [vm_compute; reflexivity|]); lia). rewrite SI. lra.
Qed.
Print Assumptions C54_cell_graph.
Print Assumptions C54_face_areas.
Print Assumptions C54_conservation.
Print Assumptions C54_conservation_first_order.
Print Assumptions C54_uniform.
Print Assumptions C54_positivity.
