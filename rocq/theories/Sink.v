(** Model of the sink particles of the SPH solver: src/shammodels/sph/src/modules/SinkParticlesFlagAccreteHard.cpp,
    SinkParticlesAccreteQuantities.cpp, SinkParticlesEvictAccretedParticles.cpp, SinkParticlesUpdate.cpp, the parts of
    ExternalForces.cpp that concern them, point_mass_accrete_particles, and the order in which
    src/shammodels/sph/src/Solver.cpp:1940-2625 calls them in one time step.

    Simplifications.  Scalars are real numbers (no rounding; x / 0 is the unspecified real number of Coq).  A row of a
    PatchDataLayer is a record: the fields used here and [gp_rest] for all the others.  The vectors of sinks are
    synchronised data: every rank holds the same copy and does the same update from values that come out of collectives,
    so there is one copy in the model.  allreduce_sum adds the contributions by rank. *)
Require Import Reals.
From Verif Require Import Base Par Scan Riemann.
Local Open Scope R_scope.

Definition rvzero : rv3 := mkrv 0 0 0.
Definition rvdot (a b : rv3) : R := rx a * rx b + ry a * ry b + rz a * rz b.
Definition rvlen (a : rv3) : R := sqrt (rvdot a a).
Definition rvcross (a b : rv3) : rv3 :=
  mkrv (ry a * rz b - rz a * ry b) (rz a * rx b - rx a * rz b) (rx a * ry b - ry a * rx b).
(** v / k *)
Definition rvdiv (a : rv3) (k : R) : rv3 := mkrv (rx a / k) (ry a / k) (rz a / k).

(** one particle: xyz, vxyz, axyz, axyz_ext, other fields *)
Record gpart := mkgp { gp_x : rv3; gp_v : rv3; gp_a : rv3; gp_ext : rv3; gp_rest : Z }.
(** the patches of one rank, in the order of for_each, and all the ranks *)
Definition rankdata : Type := list (list gpart).
Definition world : Type := list rankdata.
(** sink_edges_helper.hpp:43-51 [SinkEdges] *)
Record sinks := mksk { sk_pos : list rv3; sk_vel : list rv3; sk_asph : list rv3; sk_aext : list rv3; sk_mass : list R; sk_ang : list rv3; sk_racc : list R }.

(** Schedules: [sv_order r p t n] is the order in which kernel number t runs its n work items on patch p of rank r;
    [sv_scan] is scan_exclusive, [sv_garb] the content of a new buffer of u32. *)
Record senv := { sv_order : nat -> nat -> nat -> nat -> list nat; sv_scan : list Z -> nat -> res (list Z); sv_garb : nat -> list nat }.

(** for_each over the ranks and their patches *)
Fixpoint mapi {A B} (f : nat -> A -> res B) (i : nat) (l : list A) : res (list B) :=
  match l with
  | [] => Ok []
  | a :: l' => b <- f i a ;; bs <- mapi f (S i) l' ;; Ok (b :: bs)
  end.
Definition over_patches {A B} (f : nat -> nat -> A -> res B) (w : list (list A)) : res (list (list B)) := mapi (fun r => mapi (f r) 0%nat) 0%nat w.

(** ** SinkParticlesFlagAccreteHard *)
(** SinkParticlesFlagAccreteHard.cpp:78-87, the loop on the sinks with its break *)
Fixpoint flag_loop (sp : list rv3) (sr : list R) (r_a : rv3) (cnt i : nat) : res Z :=
  match cnt with
  | O => Ok u32_max
  | S c =>
      acc_radii <- aget sr i ;;
      s <- aget sp i ;;
      let d := rvsub r_a s in
      if Rle_dec (rvdot d d) (acc_radii * acc_radii) then Ok (Z.of_nat i) else flag_loop sp sr r_a c (S i)
  end.
(** SinkParticlesFlagAccreteHard.cpp:26-92 *)
Definition flag_patch (e : senv) (sk : sinks) (r p : nat) (parts : list gpart) : res (list Z) :=
  par_write (fun id_a => q <- aget parts id_a ;; flag_loop (sk_pos sk) (sk_racc sk) (gp_x q) (length (sk_pos sk)) 0%nat)
    (sv_order e r p 0%nat (length parts)) (repeat 0%Z (length parts)).
Definition flag_accrete_hard (e : senv) (sk : sinks) (w : world) : res (list (list (list Z))) :=
  if negb (length (sk_pos sk) =? length (sk_racc sk))%nat then Throw
  else if (2 ^ 32 <=? Z.of_nat (length (sk_pos sk)))%Z then Throw
  else over_patches (flag_patch e sk) w.

(** ** SinkParticlesAccreteQuantities *)
(** what is accreted: mass, m r, p, m a, l *)
Record accr := mkac { ac_m : R; ac_mr : rv3; ac_p : rv3; ac_ma : rv3; ac_l : rv3 }.
Definition ac_zero := mkac 0 rvzero rvzero rvzero rvzero.
(** shamalgs::primitives::sum on a device buffer: the terms are added in some order *)
Definition dev_sum (order : list nat) (buf : list rv3) : res rv3 :=
  rfold (fun i s => v <- aget buf i ;; Ok (rvadd s v)) order rvzero.
(** SinkParticlesAccreteQuantities.cpp:105-125, the kernel: accretion_p, accretion_mr, accretion_ma, accretion_l *)
Definition accrete_item (m dt : R) (r_sink v_sink : rv3) (parts : list gpart) (id_acc : list nat) (id_a : nat) : res (rv3 * rv3 * rv3 * rv3) :=
  i_a <- aget id_acc id_a ;;
  q <- aget parts i_a ;;
  let r := gp_x q in
  let v := gp_v q in
  let a := gp_a q in
  let ap := rvscal m v in
  let amr := rvscal m r in
  let ama := rvscal m a in
  let v := rvadd v (rvdiv (rvscal dt a) 2) in
  Ok (ap, amr, ama, rvscal m (rvcross (rvsub r r_sink) (rvsub v v_sink))).
(** SinkParticlesAccreteQuantities.cpp:66-142, the body of the loop on the patches *)
Definition accrete_patch (e : senv) (m dt : R) (i_sink : nat) (r_sink v_sink : rv3) (r p : nat) (parts : list gpart) (table : list Z) (s : accr) : res accr :=
  let n := length parts in
  acc_flag <- par_write (fun id_a => t <- aget table id_a ;; Ok (if (t =? Z.of_nat i_sink)%Z then 1%Z else 0%Z)) (sv_order e r p 1%nat n) (repeat 0%Z n) ;;
  ids <- stream_compact_excl_scan (sv_scan e) (sv_order e r p 2%nat n) (sv_garb e) acc_flag n ;;
  if (0 <? length ids)%nat then
    let na := length ids in
    let acc_mass := m * INR na in
    bufs <- par_write (accrete_item m dt r_sink v_sink parts ids) (sv_order e r p 3%nat na) (repeat (rvzero, rvzero, rvzero, rvzero) na) ;;
    acc_pxyz <- dev_sum (sv_order e r p 4%nat na) (map (fun b => let '(x, _, _, _) := b in x) bufs) ;;
    acc_mxyz <- dev_sum (sv_order e r p 5%nat na) (map (fun b => let '(_, x, _, _) := b in x) bufs) ;;
    acc_maxyz <- dev_sum (sv_order e r p 6%nat na) (map (fun b => let '(_, _, x, _) := b in x) bufs) ;;
    acc_lxyz <- dev_sum (sv_order e r p 7%nat na) (map (fun b => let '(_, _, _, x) := b in x) bufs) ;;
    Ok (mkac (ac_m s + acc_mass) (rvadd (ac_mr s) acc_mxyz) (rvadd (ac_p s) acc_pxyz) (rvadd (ac_ma s) acc_maxyz) (rvadd (ac_l s) acc_lxyz))
  else Ok s.
Fixpoint accrete_patches (e : senv) (m dt : R) (i_sink : nat) (r_sink v_sink : rv3) (r p : nat) (pt : list (list gpart * list Z)) (s : accr) : res accr :=
  match pt with
  | [] => Ok s
  | (parts, table) :: pt' => s' <- accrete_patch e m dt i_sink r_sink v_sink r p parts table s ;; accrete_patches e m dt i_sink r_sink v_sink r (S p) pt' s'
  end.
(** the contributions of all the ranks *)
Definition accrete_ranks (e : senv) (m dt : R) (i_sink : nat) (r_sink v_sink : rv3) (w : world) (tables : list (list (list Z))) : res (list accr) :=
  mapi (fun r '(ps, ts) => accrete_patches e m dt i_sink r_sink v_sink r 0%nat (combine ps ts) ac_zero) 0%nat (combine w tables).
(** shamalgs::collective::allreduce_sum *)
Definition allreduce_sum (l : list R) : R := fold_left Rplus l 0.
Definition allreduce_sumv (l : list rv3) : rv3 := fold_left rvadd l rvzero.
(** SinkParticlesAccreteQuantities.cpp:52-185, one sink *)
Definition accrete_sink (e : senv) (m dt : R) (w : world) (tables : list (list (list Z))) (i_sink : nat) (sk : sinks) : res sinks :=
  r_sink <- aget (sk_pos sk) i_sink ;;
  v_sink <- aget (sk_vel sk) i_sink ;;
  acs <- accrete_ranks e m dt i_sink r_sink v_sink w tables ;;
  let sum_acc_mass := allreduce_sum (map ac_m acs) in
  if Rle_dec sum_acc_mass 0 then Ok sk else
  let sum_acc_pxyz := allreduce_sumv (map ac_p acs) in
  let sum_acc_mxyz := allreduce_sumv (map ac_mr acs) in
  let sum_acc_maxyz := allreduce_sumv (map ac_ma acs) in
  let sum_acc_lxyz := allreduce_sumv (map ac_l acs) in
  old_mass <- aget (sk_mass sk) i_sink ;;
  old_pos <- aget (sk_pos sk) i_sink ;;
  old_vel <- aget (sk_vel sk) i_sink ;;
  old_acc <- aget (sk_asph sk) i_sink ;;
  old_ang <- aget (sk_ang sk) i_sink ;;
  let new_mass := old_mass + sum_acc_mass in
  let new_pos := rvdiv (rvadd sum_acc_mxyz (rvscal old_mass old_pos)) (old_mass + sum_acc_mass) in
  let new_vel := rvdiv (rvadd sum_acc_pxyz (rvscal old_mass old_vel)) (old_mass + sum_acc_mass) in
  let new_acc := rvdiv (rvadd sum_acc_maxyz (rvscal old_mass old_acc)) (old_mass + sum_acc_mass) in
  let new_ang := rvsub (rvadd old_ang sum_acc_lxyz) (rvscal new_mass (rvcross (rvsub new_pos old_pos) (rvsub new_vel old_vel))) in
  Ok (mksk (upd (sk_pos sk) i_sink new_pos) (upd (sk_vel sk) i_sink new_vel) (upd (sk_asph sk) i_sink new_acc) (sk_aext sk)
    (upd (sk_mass sk) i_sink new_mass) (upd (sk_ang sk) i_sink new_ang) (sk_racc sk)).
(** SinkParticlesAccreteQuantities.cpp:50-53 *)
Definition accrete_quantities (e : senv) (m dt : R) (w : world) (tables : list (list (list Z))) (sk : sinks) : res sinks :=
  if (2 ^ 32 <=? Z.of_nat (length (sk_pos sk)))%Z then Throw
  else rfold (accrete_sink e m dt w tables) (seq 0 (length (sk_pos sk))) sk.

(** ** SinkParticlesEvictAccretedParticles *)
(** PatchDataLayer::keep_ids on rows: row k of the result is row ids[k] (C36 proves this of the fields) *)
Definition keep_ids (ids : list nat) (parts : list gpart) : res (list gpart) := mapi (fun _ i => aget parts i) 0%nat ids.
(** SinkParticlesEvictAccretedParticles.cpp:48-66, the kernel: keep_flag and the atomic accr_flag *)
Definition evict_item (table : list Z) (id_a : nat) (s : list Z * Z) : res (list Z * Z) :=
  t <- aget table id_a ;;
  let keep := (t =? u32_max)%Z in
  k <- aset (fst s) id_a (if keep then 1%Z else 0%Z) ;;
  Ok (k, if keep then snd s else Z.lor (snd s) 1).
(** SinkParticlesEvictAccretedParticles.cpp:40-79 *)
Definition evict_patch (e : senv) (r p : nat) (pt : list gpart * list Z) : res (list gpart) :=
  let '(parts, table) := pt in
  let n := length parts in
  '(keep_flag, accr_flag) <- par_for (sv_order e r p 8%nat n) (evict_item table) (repeat 0%Z n, 0%Z) ;;
  if negb (accr_flag =? 0)%Z then
    ids <- stream_compact_excl_scan (sv_scan e) (sv_order e r p 9%nat n) (sv_garb e) keep_flag n ;;
    keep_ids ids parts
  else Ok parts.
Definition evict_accreted (e : senv) (w : world) (tables : list (list (list Z))) : res world :=
  over_patches (evict_patch e) (map (fun '(ps, ts) => combine ps ts) (combine w tables)).
(** Solver.cpp:725-757, the node "sink accretion" *)
Definition sink_accretion (e : senv) (m dt : R) (w : world) (sk : sinks) : res (world * sinks) :=
  tables <- flag_accrete_hard e sk w ;;
  sk' <- accrete_quantities e m dt w tables sk ;;
  w' <- evict_accreted e w tables ;;
  Ok (w', sk').

(** ** SinkParticlesUpdate *)
(** SinkParticlesUpdate.cpp:119-137, the kernel: axyz_sync and axyz_ext *)
Definition sph_force_item (G m sink_mass sink_racc : R) (sink_pos : rv3) (q : gpart) : rv3 * gpart :=
  let r_a := gp_x q in
  let delta := rvsub r_a sink_pos in
  let d := rvlen delta in
  let force := rvdiv (rvscal G delta) (d * d * d) in
  let force := if Rlt_dec d sink_racc then rvzero else force in
  (rvscal m force, mkgp (gp_x q) (gp_v q) (gp_a q) (rvadd (gp_ext q) (rvscal sink_mass (rvneg force))) (gp_rest q)).
Definition sph_force_patch (e : senv) (G m sink_mass sink_racc : R) (sink_pos : rv3) (t r p : nat) (parts : list gpart) : res (list gpart * rv3) :=
  let n := length parts in
  '(sync, parts') <- par_for (sv_order e r p (10 + 2 * t)%nat n)
     (fun id_a s => q <- aget (snd s) id_a ;; let '(f, q') := sph_force_item G m sink_mass sink_racc sink_pos q in
                    s1 <- aset (fst s) id_a f ;; s2 <- aset (snd s) id_a q' ;; Ok (s1, s2)) (repeat rvzero n, parts) ;;
  s <- dev_sum (sv_order e r p (11 + 2 * t)%nat n) sync ;;
  Ok (parts', s).
(** SinkParticlesUpdate.cpp:97-149, one sink on one rank *)
Definition sph_force_rank (e : senv) (G m sink_mass sink_racc : R) (sink_pos : rv3) (t r : nat) (rd : rankdata) : res (rankdata * rv3) :=
  l <- mapi (sph_force_patch e G m sink_mass sink_racc sink_pos t r) 0%nat rd ;;
  Ok (map fst l, fold_left rvadd (map snd l) rvzero).
(** one rank: all the sinks; result_acc_sinks *)
Definition sph_force_all (e : senv) (G m : R) (sk : sinks) (r : nat) (rd : rankdata) : res (rankdata * list rv3) :=
  rfold (fun t '(rd, acc) =>
    x <- aget (sk_pos sk) t ;; mm <- aget (sk_mass sk) t ;; ra <- aget (sk_racc sk) t ;;
    '(rd', f) <- sph_force_rank e G m mm ra x t r rd ;; Ok (rd', acc ++ [f])) (seq 0 (length (sk_pos sk))) (rd, []).
(** SinkParticlesUpdate.cpp:69-165; vector_allgatherv concatenates the vectors of the ranks *)
Definition compute_sph_forces (e : senv) (G m : R) (w : world) (sk : sinks) : res (world * sinks) :=
  if (length (sk_pos sk) =? 0)%nat then Ok (w, sk) else
  l <- mapi (sph_force_all e G m sk) 0%nat w ;;
  let gathered := concat (map snd l) in
  let ns := length (sk_pos sk) in
  asph <- mapi (fun _ id_s => rfold (fun rid s => v <- aget gathered (rid * ns + id_s) ;; Ok (rvadd s v)) (seq 0 (length w)) rvzero) 0%nat (seq 0 ns) ;;
  Ok (map fst l, mksk (sk_pos sk) (sk_vel sk) asph (sk_aext sk) (sk_mass sk) (sk_ang sk) (sk_racc sk)).
(** SinkParticlesUpdate.cpp:167-199; [eps] is epsilon_grav_sink = 1e-9 *)
Definition eps_sink : R := 1 / 10 ^ 9.
Definition ext_force_on (G : R) (sk : sinks) (i : nat) : res rv3 :=
  rfold (fun j s =>
    xi <- aget (sk_pos sk) i ;; xj <- aget (sk_pos sk) j ;; mj <- aget (sk_mass sk) j ;;
    let rij := rvsub xi xj in
    let rij_scal := rvlen rij in
    Ok (rvsub s (rvdiv (rvscal (G * mj) rij) (rij_scal * rij_scal * rij_scal + eps_sink)))) (seq 0 (length (sk_pos sk))) rvzero.
Definition compute_ext_forces (G : R) (sk : sinks) : res sinks :=
  if (length (sk_pos sk) =? 0)%nat then Ok sk else
  l <- mapi (fun _ i => ext_force_on G sk i) 0%nat (seq 0 (length (sk_pos sk))) ;;
  Ok (mksk (sk_pos sk) (sk_vel sk) (sk_asph sk) l (sk_mass sk) (sk_ang sk) (sk_racc sk)).
(** vel[i] += (dt / 2) * (acc_sph[i] + acc_ext[i]), for all the sinks *)
Definition kick_sinks (dt : R) (n : nat) (sk : sinks) : res sinks :=
  l <- mapi (fun _ i => v <- aget (sk_vel sk) i ;; a <- aget (sk_asph sk) i ;; b <- aget (sk_aext sk) i ;;
                        Ok (rvadd v (rvscal (dt / 2) (rvadd a b)))) 0%nat (seq 0 n) ;;
  Ok (mksk (sk_pos sk) l (sk_asph sk) (sk_aext sk) (sk_mass sk) (sk_ang sk) (sk_racc sk)).
(** SinkParticlesUpdate.cpp:24-48 [predictor_step] *)
Definition sink_predictor (G dt : R) (sk : sinks) : res sinks :=
  if (length (sk_pos sk) =? 0)%nat then Ok sk else
  sk <- compute_ext_forces G sk ;;
  sk <- kick_sinks dt (length (sk_pos sk)) sk ;;
  l <- mapi (fun _ i => x <- aget (sk_pos sk) i ;; v <- aget (sk_vel sk) i ;; Ok (rvadd x (rvscal dt v))) 0%nat (seq 0 (length (sk_pos sk))) ;;
  Ok (mksk l (sk_vel sk) (sk_asph sk) (sk_aext sk) (sk_mass sk) (sk_ang sk) (sk_racc sk)).
(** SinkParticlesUpdate.cpp:50-67 [corrector_step] *)
Definition sink_corrector (dt : R) (sk : sinks) : res sinks :=
  if (length (sk_vel sk) =? 0)%nat then Ok sk else kick_sinks dt (length (sk_vel sk)) sk.

(** ** Central objects that accrete: ExternalForces.cpp:604-705 [point_mass_accrete_particles] *)
(** the forces of ext_force_config.ext_forces: those which accrete have a centre (only PN_PW stores it) and Racc *)
Inductive ext_force := PointMass (Racc : R) | PN_PW (central_pos : rv3) (Racc : R) | LenseThirring (Racc : R) | OtherForce.
(** ExternalForces.cpp:624-640 *)
Definition accretion_sphere (f : ext_force) : option (rv3 * R) :=
  match f with
  | PointMass Racc => Some (rvzero, Racc)
  | PN_PW _ Racc => Some (rvzero, Racc)
  | LenseThirring Racc => Some (rvzero, Racc)
  | OtherForce => None
  end.
(** the optional returned by stream_compact on sycl::buffer: empty when nothing is selected *)
Definition opt_ids (ids : list nat) : option (list nat) := match ids with [] => None | _ => Some ids end.
(** ExternalForces.cpp:642-704, one patch; dereferencing an empty optional is undefined *)
Definition point_mass_patch (e : senv) (centre : rv3) (Racc : R) (t r p : nat) (parts : list gpart) : res (list gpart) :=
  let n := length parts in
  let acc_rad2 := Racc * Racc in
  flags <- par_write (fun id_a => q <- aget parts id_a ;; let d := rvsub (gp_x q) centre in
                                  Ok (if Rgt_dec (rvdot d d) acc_rad2 then 1%Z else 0%Z)) (sv_order e r p (3 * t)%nat n) (repeat 0%Z n) ;;
  keep <- stream_compact_excl_scan (sv_scan e) (sv_order e r p (3 * t + 1)%nat n) (sv_garb e) flags n ;;
  acc <- stream_compact_excl_scan (sv_scan e) (sv_order e r p (3 * t + 2)%nat n) (sv_garb e) (map (fun f => (1 - f)%Z) flags) n ;;
  if (0 <? length acc)%nat then
    match opt_ids keep with
    | Some ids => keep_ids ids parts
    | None => UB
    end
  else Ok parts.
Definition for_each_nonempty {A} (f : nat -> nat -> list A -> res (list A)) : list (list (list A)) -> res (list (list (list A))) :=
  over_patches (fun r p l => match l with [] => Ok [] | _ => f r p l end).
Definition point_mass_accrete_particles (e : senv) (forces : list ext_force) (w : world) : res world :=
  rfold (fun tf w => match accretion_sphere (snd tf) with
                     | Some (c, ra) => for_each_nonempty (point_mass_patch e c ra (fst tf)) w
                     | None => Ok w
                     end) (combine (seq 0 (length forces)) forces) w.

(** ** The gas *)
Definition on_gas (f : gpart -> gpart) (w : world) : world := map (map (map f)) w.
(** Solver.cpp:390-525 leapfrog predictor: half_step1 (vxyz), full_step_xyz, half_step2, with ForwardEuler.hpp:61-63 *)
Definition half_kick (dt : R) (q : gpart) : gpart := mkgp (gp_x q) (rvadd (gp_v q) (rvscal (dt / 2) (gp_a q))) (gp_a q) (gp_ext q) (gp_rest q).
Definition drift (dt : R) (q : gpart) : gpart := mkgp (rvadd (gp_x q) (rvscal dt (gp_v q))) (gp_v q) (gp_a q) (gp_ext q) (gp_rest q).
Definition gas_predictor (dt : R) (w : world) : world := on_gas (fun q => half_kick dt (drift dt (half_kick dt q))) w.
(** ExternalForces.cpp:65-68 axyz_ext is reset *)
Definition reset_ext (w : world) : world := on_gas (fun q => mkgp (gp_x q) (gp_v q) (gp_a q) rvzero (gp_rest q)) w.
(** One turn of the corrector loop (Solver.cpp:2410-2507): prepare_corrector saves axyz, update_derivs computes the SPH
    accelerations ([hydro r p i] for particle i of patch p of rank r, a parameter here; C50 is about them) and adds
    axyz_ext (ExternalForces.cpp:360-378), then the leapfrog corrector (integrators.cpp:104-113) *)
Fixpoint imap {A B} (f : nat -> A -> B) (i : nat) (l : list A) : list B :=
  match l with [] => [] | a :: l' => f i a :: imap f (S i) l' end.
Definition forces : Type := nat -> nat -> nat -> rv3.
Definition gas_imap {B} (f : nat -> nat -> nat -> gpart -> B) (w : world) : list (list (list B)) :=
  imap (fun r => imap (fun p => imap (f r p) 0%nat) 0%nat) 0%nat w.
Definition corrector_turn (dt : R) (hydro : forces) (w : world) : world :=
  gas_imap (fun r p i q =>
    let a_old := gp_a q in
    let a := rvadd (hydro r p i) (gp_ext q) in
    mkgp (gp_x q) (rvadd (gp_v q) (rvscal (dt / 2) (rvsub a a_old))) a (gp_ext q) (gp_rest q)) w.

(** ** One time step, without other external forces, with open boundaries. *)
(** Solver.cpp:2011-2035, then 2039 (the particles go to the patches that contain them now: [redistribute], arbitrary
    here, see C44) *)
Definition sph_step_begin (e1 e2 : senv) (G m dt : R) (redistribute : world -> world) (w : world) (sk : sinks) : res (world * sinks) :=
  '(w, sk) <- sink_accretion e1 m dt w sk ;;
  sk <- sink_predictor G dt sk ;;
  let w := gas_predictor dt w in
  sk <- compute_ext_forces G sk ;;
  '(w, sk) <- compute_sph_forces e2 G m (reset_ext w) sk ;;
  Ok (redistribute w, sk).
(** the corrector loop (Solver.cpp:2080-2625, [turns]: the SPH accelerations of each turn), and 2620 *)
Definition sph_step_end (dt : R) (turns : list forces) (w : world) (sk : sinks) : res (world * sinks) :=
  let w := fold_left (fun w h => corrector_turn dt h w) turns w in
  sk <- sink_corrector dt sk ;;
  Ok (w, sk).
