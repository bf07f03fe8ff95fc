(** Model of one Godunov step on an AMR patch (gas part): block graph, cell graph, gradients, interpolation to the
    faces, fluxes, flux sum and time integration.
    src/shammodels/ramses/src/modules/{FindBlockNeigh,BlockNeighToCellNeigh,ComputeCellAABB,ConsToPrimGas,
    SlopeLimitedGradient,InterpolateToFace,NodeComputeFlux,SumFluxHydro,TimeIntegrator}.cpp,
    details/compute_neigh_graph.hpp, src/shammodels/common/include/shammodels/common/amr/{NeighGraph,AMRBlock,
    NeighGraphLinkField}.hpp and src/shammath/include/shammath/AABB.hpp.

    Simplifications.  Grid coordinates are integers without overflow; floating-point numbers are real numbers (no
    rounding).  Buffers that always go together are one list of tuples: rho, rhoetot, rhovel ([cons]), rho, press,
    vel ([prim]), the three gradients ([grad5]), the three face fields and the three flux fields.  A gradient of a
    vector field is three gradients of its components (every operation is component-wise).  Kernels run their work
    items in any order; the objects met by the walk of the radix tree are given by the environment.  The debug
    assertions on the sign of the pressures are not modelled.  Dust is not modelled here. *)
Require Import Reals.
From Verif Require Import Base Par Riemann.
Local Open Scope nat_scope.

(** ** i64_3 and AABB *)
Definition gvec : Type := Z * Z * Z.
Definition gmap2 (f : Z -> Z -> Z) (a b : gvec) : gvec :=
  let '(x, y, z) := a in let '(x', y', z') := b in (f x x', f y y', f z z').
Definition gadd := gmap2 Z.add.
Definition gsub := gmap2 Z.sub.
Definition gmul := gmap2 Z.mul.
(** division by the scalar Nside: truncating *)
Definition gdiv (a : gvec) (k : Z) : gvec := let '(x, y, z) := a in (Z.quot x k, Z.quot y k, Z.quot z k).
Definition gbox : Type := gvec * gvec.                                 (* lower, upper *)
(** AABB.hpp:234-236 *)
Definition get_intersect (a b : gbox) : gbox := (gmap2 Z.max (fst a) (fst b), gmap2 Z.min (snd a) (snd b)).
(** AABB.hpp:280-282 *)
Definition is_volume_not_null (a : gbox) : bool :=
  let '((lx, ly, lz), (ux, uy, uz)) := a in (lx <? ux)%Z && (ly <? uy)%Z && (lz <? uz)%Z.

(** ** AMRBlock (AMRBlock.hpp:40-44, 63-65, 101-104) with NsideBlockPow = 1 *)
Definition Nside : nat := 2.
Definition block_size : nat := 8.
Definition get_index (x y z : nat) : nat := x + Nside * y + Nside * Nside * z.
Definition get_coord (i : nat) : nat * nat * nat :=
  let tmp := Nat.shiftr i 1 in (i mod Nside, tmp mod Nside, Nat.shiftr tmp 1).

(** Direction and offset_check (NeighGraph.hpp:118-137) *)
Definition offset_check (d : dirn) : gvec :=
  match d with
  | xp => (1, 0, 0) | xm => (-1, 0, 0) | yp => (0, 1, 0) | ym => (0, -1, 0) | zp => (0, 0, 1) | zm => (0, 0, -1)
  end%Z.
(** one object per direction: std::array<unique_ptr<AMRGraph>, 6> and the six face edges *)
Record six (A : Type) := mk6 { s_xp : A; s_xm : A; s_yp : A; s_ym : A; s_zp : A; s_zm : A }.
Arguments mk6 {A}. Arguments s_xp {A}. Arguments s_xm {A}. Arguments s_yp {A}.
Arguments s_ym {A}. Arguments s_zp {A}. Arguments s_zm {A}.
Definition get6 {A} (s : six A) (d : dirn) : A :=
  match d with xp => s_xp s | xm => s_xm s | yp => s_yp s | ym => s_ym s | zp => s_zp s | zm => s_zm s end.
Definition build6 {A} (f : dirn -> res A) : res (six A) :=
  a <- f xp ;; b <- f xm ;; c <- f yp ;; d <- f ym ;; e <- f zp ;; g <- f zm ;; Ok (mk6 a b c d e g).

(** ** NeighGraph (NeighGraph.hpp:32-94) *)
Record ngraph := mkgraph { node_link_offset : list Z; node_links : list nat; link_count : nat; obj_cnt : nat }.
Fixpoint gather_links (links : list nat) (ids : list nat) : res (list (nat * nat)) :=
  match ids with
  | [] => Ok []
  | i :: t => v <- aget links i ;; r <- gather_links links t ;; Ok ((v, i) :: r)
  end.
(** for_each_object_link_id (lines 77-83): the pairs (id_b, link_id) given to the functor *)
Definition for_each_object_link_id (g : ngraph) (cell_id : nat) : res (list (nat * nat)) :=
  min_ids <- aget (node_link_offset g) cell_id ;;
  max_ids <- aget (node_link_offset g) (cell_id + 1) ;;
  gather_links (node_links g) (seq (Z.to_nat min_ids) (Z.to_nat max_ids - Z.to_nat min_ids)).
(** for_each_object_link and for_each_object_link_cnt (lines 68-74, 86-93) *)
Definition for_each_object_link (g : ngraph) (cell_id : nat) : res (list nat) :=
  l <- for_each_object_link_id g cell_id ;; Ok (map fst l).

(** compute_neigh_graph (compute_neigh_graph.hpp:41-112) and compute_neigh_graph_deprecated (127-195);
    [find id_a] lists the ids given to the functor by for_each_other_index *)
Definition compute_neigh_graph (scan : list Z -> nat -> res (list Z)) (o1 o2 : list nat) (jz : nat -> list Z) (jn : nat -> list nat)
    (graph_nodes : nat) (find : nat -> res (list nat)) : res ngraph :=
  counts <- par_for o1 (fun id_a out =>
      ids <- find id_a ;; c <- rfold (fun _ c => Ok (w32 (c + 1))) ids 0%Z ;; aset out id_a c) (jz (graph_nodes + 1)) ;;
  counts <- aset counts graph_nodes 0%Z ;;                             (* set_val_at_idx *)
  offsets <- scan counts (graph_nodes + 1) ;;
  link_cnt <- aget offsets graph_nodes ;;
  links <- par_for o2 (fun id_a out =>
      next_link_idx <- aget offsets id_a ;;
      ids <- find id_a ;;
      st <- rfold (fun id_b (s : list nat * Z) => l <- aset (fst s) (Z.to_nat (snd s)) id_b ;; Ok (l, w32 (snd s + 1))) ids (out, next_link_idx) ;;
      Ok (fst st)) (jn (Z.to_nat link_cnt)) ;;
  Ok (mkgraph offsets links (Z.to_nat link_cnt) graph_nodes).

(** keep the candidates that pass a test *)
Fixpoint rfilter {A} (f : A -> res bool) (l : list A) : res (list A) :=
  match l with
  | [] => Ok []
  | x :: t => b <- f x ;; r <- rfilter f t ;; Ok (if b : bool then x :: r else r)
  end.
(** AMRBlockFinder::for_each_other_index (FindBlockNeigh.cpp:47-74); [cand] is what the walk gives to the functor *)
Definition find_block_neigh (bmin bmax : list gvec) (dir_offset : gvec) (cand : nat -> list nat) (id_a : nat) : res (list nat) :=
  lo <- aget bmin id_a ;; up <- aget bmax id_a ;;
  let check_aabb := (gadd lo dir_offset, gadd up dir_offset) in
  rfilter (fun id_b =>
    lb <- aget bmin id_b ;; ub <- aget bmax id_b ;;
    Ok (is_volume_not_null (get_intersect (lb, ub) check_aabb) && negb (id_b =? id_a))) (cand id_a).

Definition vec_of (x y z : nat) : gvec := (Z.of_nat x, Z.of_nat y, Z.of_nat z).
(** the cell of local coordinates l in the block (lo, up): BlockNeighToCellNeigh.cpp:101-103 and 125-129 *)
Definition local_cell (lo up : gvec) (x y z : nat) : gbox :=
  let delta_cell := gdiv (gsub up lo) (Z.of_nat Nside) in
  (gadd lo (gmul (vec_of x y z) delta_cell), gadd lo (gmul (vec_of (x + 1) (y + 1) (z + 1)) delta_cell)).
(** lines 121-143: the three nested loops over one block *)
Definition block_cells (shifted : gbox) (id_a block_b : nat) (lo up : gvec) : list nat :=
  flat_map (fun lx => flat_map (fun ly => flat_map (fun lz =>
    let idx := block_b * block_size + get_index lx ly lz in
    if is_volume_not_null (get_intersect (local_cell lo up lx ly lz) shifted) && negb (id_a =? idx) then [idx] else [])
    (seq 0 Nside)) (seq 0 Nside)) (seq 0 Nside).
(** AMRLowering::for_each_other_index = for_each_other_index_safe (lines 81-145, 266-272) *)
Definition find_cell_neigh (bmin bmax : list gvec) (block_graph : ngraph) (dir_offset : gvec) (id_a : nat) : res (list nat) :=
  let block_id := id_a / block_size in
  let cell_loc_id := id_a mod block_size in
  lo <- aget bmin block_id ;; up <- aget bmax block_id ;;
  let '(x, y, z) := get_coord cell_loc_id in
  let current := local_cell lo up x y z in
  let shifted := (gadd (fst current) dir_offset, gadd (snd current) dir_offset) in
  others <- for_each_object_link block_graph block_id ;;
  rfold (fun block_b acc =>
    lb <- aget bmin block_b ;; ub <- aget bmax block_b ;;
    Ok (acc ++ block_cells shifted id_a block_b lb ub)) (block_id :: others) [].

(** the objects the step reads from outside: schedules, new memory, tree walks *)
Record gd_env := {
  ge_cand : dirn -> nat -> list nat;                                   (* blocks met by the walk *)
  ge_scan : list Z -> nat -> res (list Z);
  ge_bc : dirn -> list nat; ge_bf : dirn -> list nat;                  (* block graph: count, fill *)
  ge_cc : dirn -> list nat; ge_cf : dirn -> list nat;                  (* cell graph *)
  ge_aabb : list nat; ge_prim : list nat; ge_grad : list nat;
  ge_face : dirn -> list nat; ge_flux : dirn -> list nat; ge_sum : list nat; ge_int : list nat;
  ge_jz : nat -> list Z; ge_jn : nat -> list nat; ge_jbox : nat -> list (R * rv3); ge_jprim : nat -> list prim }.

(** ** NodeComputeCellAABB (ComputeCellAABB.cpp:43-70): block_cell_sizes and cell0block_aabb_lower of one block *)
Local Open Scope R_scope.
Definition to_rv3 (k : R) (v : gvec) : rv3 := let '(x, y, z) := v in mkrv (IZR x * k) (IZR y * k) (IZR z * k).
Definition cell_aabb_item (dxfact : R) (bmin bmax : list gvec) (i : nat) : res (R * rv3) :=
  let one_over_Nside := 1 / 2 in
  lower <- aget bmin i ;; upper <- aget bmax i ;;
  let lower_flt := to_rv3 dxfact lower in
  let upper_flt := to_rv3 dxfact upper in
  let block_cell_size := rvscal one_over_Nside (rvsub upper_flt lower_flt) in
  Ok (rx block_cell_size, lower_flt).

(** ConsToPrimGas.cpp:52-67 *)
Definition cons_to_prim_item (gamma : R) (U : list cons) (i : nat) : res prim :=
  u <- aget U i ;; Ok (cons_to_prim u gamma).

(** ** SlopeLimitedGradientUtilities.hpp *)
Inductive slope_mode := SlopeNone | VanLeer_f | VanLeer_std | VanLeer_sym | Minmod.
(** lines 31-51 *)
Definition slope_van_leer_f (sL sR : R) : R :=
  let st := sL + sR in
  let f := sL / st in
  let f := if Rle_dec 0 f then if Rle_dec f 1 then f else 0 else 0 in
  (4 * f * (1 - f)) * st * (1 / 2).
(** lines 94-115 *)
Definition slope_function (mode : slope_mode) (sL sR : R) : R :=
  match mode with
  | SlopeNone => 0
  | VanLeer_f => slope_van_leer_f sL sR
  | VanLeer_std => van_leer_slope sL sR
  | VanLeer_sym => van_leer_slope_symetric sL sR
  | Minmod => minmod sL sR
  end.
Definition dir_sign (d : dirn) : R := match d with xp | yp | zp => 1 | _ => -1 end.
(** get_gradient_dir (lines 150-172); [sizes] is block_cell_sizes, [field] the component *)
Definition get_gradient_dir (sizes : list (R * rv3)) (g : ngraph) (d : dirn) (field : prim -> R) (W : list prim) (id : nat) : res R :=
  cur <- aget sizes (id / block_size)%nat ;;
  let cell_center_dist := fst cur in
  links <- for_each_object_link g id ;;
  acc <- rfold (fun id_b acc =>
      nb <- aget sizes (id_b / block_size)%nat ;;
      let fac := if Rlt_dec (fst cur) (fst nb) then 3 / 2 else 1 in
      let fac := if Rlt_dec (fst nb) (fst cur) then 3 / 4 else fac in
      let inv_dist := 1 / (fac * cell_center_dist) in
      fb <- aget W id_b ;; fa <- aget W id ;;
      Ok (acc + dir_sign d * inv_dist * (field fb - field fa))) links 0 ;;
  Ok (if (0 <? length links)%nat then acc / INR (length links) else 0).
(** get_3d_grad (lines 174-183) *)
Definition get_3d_grad (mode : slope_mode) (sizes : list (R * rv3)) (gs : six ngraph) (field : prim -> R) (W : list prim) (id : nat) : res rv3 :=
  let gd d := get_gradient_dir sizes (get6 gs d) d field W id in
  lx <- gd xm ;; ux <- gd xp ;; ly <- gd ym ;; uy <- gd yp ;; lz <- gd zm ;; uz <- gd zp ;;
  Ok (mkrv (slope_function mode lx ux) (slope_function mode ly uy) (slope_function mode lz uz)).
Record grad5 := mkgrad { g_rho : rv3; g_dxv : rv3; g_dyv : rv3; g_dzv : rv3; g_P : rv3 }.
(** the three gradient nodes on one cell (Solver.cpp:1058-1094, SlopeLimitedGradient.cpp) *)
Definition grad_item (mode : slope_mode) (sizes : list (R * rv3)) (gs : six ngraph) (W : list prim) (id : nat) : res grad5 :=
  gr <- get_3d_grad mode sizes gs p_rho W id ;;
  vx <- get_3d_grad mode sizes gs (fun p => rx (p_vel p)) W id ;;
  vy <- get_3d_grad mode sizes gs (fun p => ry (p_vel p)) W id ;;
  vz <- get_3d_grad mode sizes gs (fun p => rz (p_vel p)) W id ;;
  gP <- get_3d_grad mode sizes gs p_press W id ;;
  Ok (mkgrad gr (mkrv (rx vx) (rx vy) (rx vz)) (mkrv (ry vx) (ry vy) (ry vz)) (mkrv (rz vx) (rz vy) (rz vz)) gP).

(** ** InterpolateToFace.cpp *)
Definition rbox : Type := rv3 * rv3.
Definition rvmap2 (f : R -> R -> R) (a b : rv3) : rv3 := mkrv (f (rx a) (rx b)) (f (ry a) (ry b)) (f (rz a) (rz b)).
Definition rdot (a b : rv3) : R := rx a * rx b + ry a * ry b + rz a * rz b.
Definition rintersect (a b : rbox) : rbox := (rvmap2 Rmax (fst a) (fst b), rvmap2 Rmin (snd a) (snd b)).
(** AABB.hpp:174 *)
Definition get_center (a : rbox) : rv3 := rvscal (1 / 2) (rvadd (fst a) (snd a)).
(** get_cell_aabb (InterpolateToFace.cpp:38-56, SumFluxHydro.cpp:26-46) *)
Definition get_cell_aabb (sizes : list (R * rv3)) (id : nat) : res rbox :=
  b <- aget sizes (id / block_size)%nat ;;
  let delta_cell := fst b in
  let '(x, y, z) := get_coord (id mod block_size)%nat in
  let offset := mkrv (INR x * delta_cell) (INR y * delta_cell) (INR z * delta_cell) in
  let aabb_min := rvadd (snd b) offset in
  Ok (aabb_min, rvadd aabb_min (mkrv delta_cell delta_cell delta_cell)).
(** get_shifts (lines 58-71) *)
Definition get_shifts (sizes : list (R * rv3)) (id_a id_b : nat) : res (rv3 * rv3) :=
  a <- get_cell_aabb sizes id_a ;; b <- get_cell_aabb sizes id_b ;;
  let face_center := get_center (rintersect a b) in
  Ok (rvsub face_center (get_center a), rvsub face_center (get_center b)).
(** one side of RhoInterpolate, VelInterpolate, PressInterpolate::get_link_field_val (lines 119-153, 228-263, 341-374) *)
Definition face_state (gamma dt_interp : R) (p : prim) (g : grad5) (shift : rv3) : prim :=
  let v := p_vel p in
  let div := rx (g_dxv g) + ry (g_dyv g) + rz (g_dzv g) in
  let dt_rho := - (rdot v (g_rho g) + p_rho p * div) in
  let rho_face := p_rho p + rdot (g_rho g) shift + dt_rho * dt_interp in
  let along w := rvadd (rvadd (rvscal (rx w) (g_dxv g)) (rvscal (ry w) (g_dyv g))) (rvscal (rz w) (g_dzv g)) in
  let dt_v := rvneg (rvadd (along v) (rvscal (1 / p_rho p) (g_P g))) in
  let vel_face := rvadd (rvadd v (along shift)) (rvscal dt_interp dt_v) in
  let dtP := - (gamma * p_press p * div + rdot v (g_P g)) in
  let P_face := p_press p + rdot (g_P g) shift + dtP * dt_interp in
  mkprim rho_face P_face vel_face.
Definition link_field_val (gamma dt_interp : R) (sizes : list (R * rv3)) (W : list prim) (G : list grad5) (id_a id_b : nat) : res (prim * prim) :=
  sh <- get_shifts sizes id_a id_b ;;
  pa <- aget W id_a ;; pb <- aget W id_b ;; ga <- aget G id_a ;; gb <- aget G id_b ;;
  Ok (face_state gamma dt_interp pa ga (fst sh), face_state gamma dt_interp pb gb (snd sh)).
(** ddupdate_link_field (NeighGraphLinkField.hpp:93-102) *)
Definition face_item (val : nat -> nat -> res (prim * prim)) (g : ngraph) (id_a : nat) (out : list (prim * prim)) : res (list (prim * prim)) :=
  links <- for_each_object_link_id g id_a ;;
  rfold (fun l out => v <- val id_a (fst l) ;; aset out (snd l) v) links out.

(** NodeComputeFlux.cpp:62-83 *)
Definition flux_item (m : rmode) (d : dirn) (gamma : R) (faces : list (prim * prim)) (link_id : nat) : res cons :=
  f <- aget faces link_id ;; Ok (flux m d (fst f) (snd f) gamma).

(** ** SumFluxHydro.cpp *)
(** get_face_surface (lines 48-73) *)
Definition get_face_surface (dxfact : R) (sizes : list (R * rv3)) (id_a id_b : nat) : res R :=
  a <- get_cell_aabb sizes id_a ;; b <- get_cell_aabb sizes id_b ;;
  let face := rintersect a b in
  let delta_face := rvsub (snd face) (fst face) in
  let smd := dxfact / 2 in
  let fix_ c := if Rlt_dec c smd then 1 else c in
  Ok (fix_ (rx delta_face) * fix_ (ry delta_face) * fix_ (rz delta_face)).
(** add_flux (lines 118-129) *)
Definition add_flux (dxfact : R) (sizes : list (R * rv3)) (g : ngraph) (fl : list cons) (id_a : nat) (acc : cons) : res cons :=
  links <- for_each_object_link_id g id_a ;;
  rfold (fun l acc =>
    S_ij <- get_face_surface dxfact sizes id_a (fst l) ;;
    f <- aget fl (snd l) ;;
    Ok (csub acc (cscal S_ij f))) links acc.
(** operator() (lines 77-145) *)
Definition sum_flux_item (dxfact : R) (sizes : list (R * rv3)) (gs : six ngraph) (fl : six (list cons)) (id_a : nat) : res cons :=
  b <- aget sizes (id_a / block_size)%nat ;;
  let V_i := fst b in
  let V_i := V_i * V_i * V_i in
  let add d acc := add_flux dxfact sizes (get6 gs d) (get6 fl d) id_a acc in
  a <- add xp (mkcons 0 0 (mkrv 0 0 0)) ;; a <- add xm a ;; a <- add yp a ;; a <- add ym a ;; a <- add zp a ;; a <- add zm a ;;
  Ok (cscal (1 / V_i) a).
(** TimeIntegrator.cpp:66-73 *)
Definition integrate_item (dt : R) (dts : list cons) (id_a : nat) (U : list cons) : res (list cons) :=
  u <- aget U id_a ;; d <- aget dts id_a ;; aset U id_a (cadd u (cscal dt d)).

(** ** The step.  [bmin], [bmax], [U]: the merged patch, its own blocks first, then the ghosts; [nreal]: number of own
    blocks (block_counts), length bmin is block_counts_with_ghost. *)
Definition block_graph (env : gd_env) (bmin bmax : list gvec) (d : dirn) : res ngraph :=
  compute_neigh_graph (ge_scan env) (ge_bc env d) (ge_bf env d) (ge_jz env) (ge_jn env) (length bmin)
    (find_block_neigh bmin bmax (offset_check d) (ge_cand env d)).
Definition cell_graph (env : gd_env) (bmin bmax : list gvec) (d : dirn) : res ngraph :=
  bg <- block_graph env bmin bmax d ;;
  compute_neigh_graph (ge_scan env) (ge_cc env d) (ge_cf env d) (ge_jz env) (ge_jn env) (length bmin * block_size)%nat
    (find_cell_neigh bmin bmax bg (offset_check d)).
Definition jgrad (env : gd_env) (n : nat) : list grad5 :=
  map (fun p => mkgrad (p_vel p) (p_vel p) (p_vel p) (p_vel p) (p_vel p)) (ge_jprim env n).
Definition jcons (env : gd_env) (n : nat) : list cons := map (fun p => mkcons (p_rho p) (p_press p) (p_vel p)) (ge_jprim env n).
Definition jface (env : gd_env) (n : nat) : list (prim * prim) := map (fun p => (p, p)) (ge_jprim env n).
(** everything up to the faces: returns the cell sizes, the graphs and the face states *)
Definition godunov_faces (env : gd_env) (mode : slope_mode) (gamma dxfact dt : R) (bmin bmax : list gvec) (U : list cons)
    : res (list (R * rv3) * six ngraph * six (list (prim * prim))) :=
  let cell_count := (length bmin * block_size)%nat in
  gs <- build6 (cell_graph env bmin bmax) ;;
  sizes <- par_write (cell_aabb_item dxfact bmin bmax) (ge_aabb env) (ge_jbox env (length bmin)) ;;
  W <- par_write (cons_to_prim_item gamma U) (ge_prim env) (ge_jprim env cell_count) ;;
  G <- par_write (grad_item mode sizes gs W) (ge_grad env) (jgrad env cell_count) ;;
  faces <- build6 (fun d => par_for (ge_face env d) (face_item (link_field_val gamma (dt / 2) sizes W G) (get6 gs d)) (jface env (link_count (get6 gs d)))) ;;
  Ok (sizes, gs, faces).
(** from the faces to the new values of the patch's own cells [pdat] *)
Definition godunov_update (env : gd_env) (m : rmode) (gamma dxfact dt : R) (nreal : nat)
    (sizes : list (R * rv3)) (gs : six ngraph) (faces : six (list (prim * prim))) (pdat : list cons) : res (list cons) :=
  fl <- build6 (fun d => par_write (flux_item m d gamma (get6 faces d)) (ge_flux env d) (jcons env (link_count (get6 gs d)))) ;;
  dts <- par_write (sum_flux_item dxfact sizes gs fl) (ge_sum env) (jcons env (nreal * block_size)%nat) ;;
  par_for (ge_int env) (integrate_item dt dts) pdat.
Definition godunov_step (env : gd_env) (m : rmode) (mode : slope_mode) (gamma dxfact dt : R)
    (bmin bmax : list gvec) (pdat ghosts : list cons) (nreal : nat) : res (list cons) :=
  r <- godunov_faces env mode gamma dxfact dt bmin bmax (pdat ++ ghosts) ;;
  godunov_update env m gamma dxfact dt nreal (fst (fst r)) (snd (fst r)) (snd r) pdat.
