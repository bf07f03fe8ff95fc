(** Specification vocabulary for the Godunov step: the mesh, which cells share a face, totals. *)
Require Import Reals.
From Verif Require Import Base Scan_spec Riemann Riemann_spec Godunov.
Local Open Scope nat_scope.

(** ** Geometry, in grid units *)
Inductive axis := AX | AY | AZ.
Definition gc (c : axis) (v : gvec) : Z := let '(x, y, z) := v in match c with AX => x | AY => y | AZ => z end.
Definition axis_of (d : dirn) : axis := match d with xp | xm => AX | yp | ym => AY | zp | zm => AZ end.
Definition upward (d : dirn) : bool := match d with xp | yp | zp => true | _ => false end.

(** a cube: lower corner and side *)
Record cube := mkcube { q_lo : gvec; q_side : Z }.
Definition lo (c : axis) (q : cube) : Z := gc c (q_lo q).
Definition hi (c : axis) (q : cube) : Z := (gc c (q_lo q) + q_side q)%Z.
Definition translate (t : gvec) (q : cube) : cube := mkcube (gadd (q_lo q) t) (q_side q).
(** [q'] lies against the face of [q] that looks in direction [d], on a common face of positive area *)
Definition touches (d : dirn) (q q' : cube) : Prop :=
  (if upward d then hi (axis_of d) q = lo (axis_of d) q' else hi (axis_of d) q' = lo (axis_of d) q) /\
  forall c, c <> axis_of d -> (lo c q < hi c q' /\ lo c q' < hi c q)%Z.
Definition disjoint (q q' : cube) : Prop := exists c, (hi c q <= lo c q' \/ hi c q' <= lo c q)%Z.
Definition contains (q : cube) (p : gvec) : Prop := forall c, (lo c q <= gc c p < hi c q)%Z.

(** ** Patches: block [i] is the cube between bmin[i] and bmax[i]; it has eight cells, x running fastest *)
Definition gzero : gvec := (0, 0, 0)%Z.
Definition block (bmin bmax : list gvec) (i : nat) : cube :=
  mkcube (nth i bmin gzero) (gc AX (nth i bmax gzero) - gc AX (nth i bmin gzero))%Z.
Definition cell (bmin bmax : list gvec) (a : nat) : cube :=
  let b := block bmin bmax (a / 8) in
  let h := (q_side b / 2)%Z in
  let k := Z.of_nat (a mod 8) in
  mkcube (gadd (q_lo b) (h * (k mod 2), h * ((k / 2) mod 2), h * ((k / 4) mod 2))%Z) h.
Record blocks_ok (bmin bmax : list gvec) : Prop := {
  bo_len : length bmax = length bmin;
  bo_cube : forall i, i < length bmin -> exists h, (0 < h)%Z /\
    nth i bmax gzero = gadd (nth i bmin gzero) (2 * h, 2 * h, 2 * h)%Z;
  bo_disj : forall i j, i < length bmin -> j < length bmin -> i <> j -> disjoint (block bmin bmax i) (block bmin bmax j) }.
(** fewer than 2^32 links: they are numbered with 32-bit integers *)
Definition few (P : nat -> nat -> Prop) : Prop :=
  forall L : list (nat * nat), NoDup L -> (forall p, In p L -> P (fst p) (snd p)) -> (Z.of_nat (length L) < 2 ^ 32)%Z.
(** the exclusive scan of the library *)
Definition scan_spec (scan : list Z -> nat -> res (list Z)) : Prop :=
  forall buf len, 0 < len -> len <= length buf -> scan buf len = Ok (excl_spec buf len).
(** cells at distance one in direction d *)
Definition shifted_meets (d : dirn) (q q' : cube) : Prop :=
  forall c, (Z.max (lo c q + gc c (offset_check d)) (lo c q') < Z.min (hi c q + gc c (offset_check d)) (hi c q'))%Z.

(** The environment: every schedule is a permutation of the work items; the walk of the tree gives every block that
    meets the box it looks for, once (this is what the tree traversal guarantees); new memory has the asked size. *)
Record gd_env_ok (bmin bmax : list gvec) (nreal : nat) (env : gd_env) : Prop := {
  gk_cand : forall d a, a < length bmin -> NoDup (ge_cand env d a) /\
    (forall b, In b (ge_cand env d a) -> b < length bmin) /\
    (forall b, b < length bmin -> shifted_meets d (block bmin bmax a) (block bmin bmax b) -> In b (ge_cand env d a));
  gk_scan : scan_spec (ge_scan env);
  gk_bc : forall d, Permutation (ge_bc env d) (seq 0 (length bmin)); gk_bf : forall d, Permutation (ge_bf env d) (seq 0 (length bmin));
  gk_cc : forall d, Permutation (ge_cc env d) (seq 0 (length bmin * 8)); gk_cf : forall d, Permutation (ge_cf env d) (seq 0 (length bmin * 8));
  gk_aabb : Permutation (ge_aabb env) (seq 0 (length bmin));
  gk_prim : Permutation (ge_prim env) (seq 0 (length bmin * 8)); gk_grad : Permutation (ge_grad env) (seq 0 (length bmin * 8));
  gk_face : forall d, Permutation (ge_face env d) (seq 0 (length bmin * 8));
  gk_flux : forall d g, cell_graph env bmin bmax d = Ok g -> Permutation (ge_flux env d) (seq 0 (link_count g));
  gk_sum : Permutation (ge_sum env) (seq 0 (nreal * 8)); gk_int : Permutation (ge_int env) (seq 0 (nreal * 8));
  gk_jz : forall n, length (ge_jz env n) = n; gk_jn : forall n, length (ge_jn env n) = n;
  gk_jbox : forall n, length (ge_jbox env n) = n; gk_jprim : forall n, length (ge_jprim env n) = n;
  gk_fewb : forall d, few (fun a b => a < length bmin /\ b < length bmin /\ a <> b /\ shifted_meets d (block bmin bmax a) (block bmin bmax b));
  gk_fewc : forall d, few (fun a b => a < length bmin * 8 /\ b < length bmin * 8 /\ touches d (cell bmin bmax a) (cell bmin bmax b)) }.

(** ** Totals *)
Definition czero : cons := mkcons 0 0 (mkrv 0 0 0).
Definition csum {A} (f : A -> cons) (l : list A) : cons := fold_right (fun x s => cadd (f x) s) czero l.
Definition volume (dxfact : R) (q : cube) : R := let s := (dxfact * IZR (q_side q))%R in (s * s * s)%R.
(** volume-integrated mass, energy and momentum of the first [n] cells *)
Definition content (dxfact : R) (bmin bmax : list gvec) (n : nat) (U : list cons) : cons :=
  csum (fun a => cscal (volume dxfact (cell bmin bmax a)) (nth a U czero)) (seq 0 n).

(** the two states at a face are usable: positive densities and pressures, and for HLLC a mild jump *)
Definition face_ok (m : rmode) (gamma : R) (d : dirn) (f : prim * prim) : Prop :=
  let '(pL, pR) := f in
  physical pL /\ physical pR /\
  (m = HLLC -> exists aL aR, is_sound_speed gamma pL aL /\ is_sound_speed gamma pR aR /\
     (Rabs (p_press pR - p_press pL) < gamma * Rmin (p_press pL) (p_press pR))%R /\
     (dotp (p_vel pL) (normal d) - dotp (p_vel pR) (normal d) <= Rmin aL aR)%R).

(** ** A simulation: cells of a periodic (or not) domain, spread over patches with ghosts *)
Record gcell := mkgcell { gl_cube : cube; gl_U : cons }.
Record gpatch := mkgpatch { gp_bmin : list gvec; gp_bmax : list gvec; gp_nreal : nat; gp_pdat : list cons; gp_ghosts : list cons;
  gp_env : gd_env; gp_img : nat -> nat * gvec }.                      (* local cell -> global cell, displacement *)
Definition local_cube (p : gpatch) (i : nat) : cube := cell (gp_bmin p) (gp_bmax p) i.
Definition local_count (p : gpatch) : nat := length (gp_bmin p) * 8.
Definition own_count (p : gpatch) : nat := gp_nreal p * 8.
Definition gcell_of (cells : list gcell) (g : nat) : gcell := nth g cells (mkgcell (mkcube gzero 0) czero).
(** image of global cell [g] displaced by [t] *)
Definition image (cells : list gcell) (gt : nat * gvec) : cube := translate (snd gt) (gl_cube (gcell_of cells (fst gt))).
(** [lattice]: the displacements by which the domain repeats; only (0,0,0) if it does not *)
Definition is_lattice (lattice : gvec -> Prop) : Prop :=
  lattice gzero /\ (forall t, lattice t -> lattice (gsub gzero t)) /\ (forall t t', lattice t -> lattice t' -> lattice (gadd t t')).
(** cells whose gradients matter: the patch's own ones and those that touch them *)
Definition near_own (p : gpatch) (i : nat) : Prop :=
  i < local_count p /\ (i < own_count p \/ exists a d, a < own_count p /\ touches d (local_cube p a) (local_cube p i)).
Record patch_ok (lattice : gvec -> Prop) (cells : list gcell) (p : gpatch) : Prop := {
  pk_blocks : blocks_ok (gp_bmin p) (gp_bmax p);
  pk_env : gd_env_ok (gp_bmin p) (gp_bmax p) (gp_nreal p) (gp_env p);
  pk_nreal : gp_nreal p <= length (gp_bmin p);
  pk_pdat : length (gp_pdat p) = own_count p;
  pk_data : length (gp_pdat p ++ gp_ghosts p) = local_count p;
  (* every local cell is a copy of a global cell *)
  pk_img : forall i, i < local_count p -> fst (gp_img p i) < length cells /\ lattice (snd (gp_img p i)) /\
    local_cube p i = image cells (gp_img p i) /\
    nth i (gp_pdat p ++ gp_ghosts p) czero = gl_U (gcell_of cells (fst (gp_img p i)));
  pk_own : forall i, i < own_count p -> snd (gp_img p i) = gzero;
  (* the ghosts contain every copy that touches a cell of [near_own] *)
  pk_complete : forall i d g t, near_own p i -> g < length cells -> lattice t -> touches d (local_cube p i) (image cells (g, t)) ->
    exists j, j < local_count p /\ gp_img p j = (g, t) }.
Definition sim_ok (lattice : gvec -> Prop) (cells : list gcell) (ps : list gpatch) : Prop :=
  is_lattice lattice /\ (forall p, In p ps -> patch_ok lattice cells p) /\
  Permutation (flat_map (fun p => map (fun i => fst (gp_img p i)) (seq 0 (own_count p))) ps) (seq 0 (length cells)).
(** the values the step of patch [p] computes at the faces of the patch's own cells are usable *)
Definition faces_ok (m : rmode) (mode : slope_mode) (gamma dxfact dt : R) (p : gpatch) : Prop :=
  forall sizes gs faces,
    godunov_faces (gp_env p) mode gamma dxfact dt (gp_bmin p) (gp_bmax p) (gp_pdat p ++ gp_ghosts p) = Ok (sizes, gs, faces) ->
    forall d a links b k f, a < own_count p -> for_each_object_link_id (get6 gs d) a = Ok links -> In (b, k) links ->
      aget (get6 faces d) k = Ok f -> face_ok m gamma d f.
Definition step_patch (m : rmode) (mode : slope_mode) (gamma dxfact dt : R) (p : gpatch) : res (list cons) :=
  godunov_step (gp_env p) m mode gamma dxfact dt (gp_bmin p) (gp_bmax p) (gp_pdat p) (gp_ghosts p) (gp_nreal p).

(** ** One patch surrounded on all sides *)
(** every unit cube lying against cell [a] is inside some cell of the (merged) patch *)
Definition surrounded (bmin bmax : list gvec) (a : nat) : Prop :=
  forall d p, touches d (cell bmin bmax a) (mkcube p 1) ->
    exists b, b < length bmin * 8 /\ contains (cell bmin bmax b) p.
