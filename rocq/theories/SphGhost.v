(** Model of the exchange of ghost particles of the SPH solver: BasicSPHGhostHandler (BasicSPHGhosts.hpp/.cpp) and
    SPHUtilities::build_interf_cache (SPHUtilities.hpp:79-104).

    Simplifications: double precision is replaced by real numbers; the statistics (volume_ratio, part_cnt_ratio,
    send_count_stats), the timers and the warnings are not modelled; products and sums of i32 are exact; the range of
    a patch without particle, which is lowest() in the code, is [None]: a box grown by it contains nothing and meets
    nothing.  The exchange of the messages between ranks is that of C43: every message reaches the rank of its
    receiver, in some order. *)
From Verif Require Import Base Par Patch PatchTree Sched Domain SerialTree.
From Coq Require Import Reals.
From Flocq Require Import Core.
Local Open Scope Z_scope.

(** ** Boxes in real coordinates *)
(** CoordRangeTransform.hpp:66-82, CoordRangeTransform.cpp:98-114: (c - source_min) * (dest_delt / source_delt) + dest_min. *)
Definition r_axis (slo shi : Z) (dlo dhi : R) (c : Z) : R :=
  (IZR (w64 (c - slo)) * ((dhi - dlo) / IZR (w64 (shi - slo))) + dlo)%R.
Definition r_transform (src : v3 * v3) (dst : range R) (c : v3) : vec3 R :=
  W3 (r_axis (vx (fst src)) (vx (snd src)) (wx (fst dst)) (wx (snd dst)) (vx c))
     (r_axis (vy (fst src)) (vy (snd src)) (wy (fst dst)) (wy (snd dst)) (vy c))
     (r_axis (vz (fst src)) (vz (snd src)) (wz (fst dst)) (wz (snd dst)) (vz c)).
(** PatchCoordTransform::to_obj_coord (PatchCoordTransform.hpp:40-57) of the patch grid [pbox] to the box [box]. *)
Definition r_to_box (pbox : pcoord) (box : range R) (b : pcoord) : res (range R) :=
  let src := get_patch_range pbox in
  _ <- check_ranges Z.geb (to_vec (fst src)) (to_vec (snd src)) ;;
  _ <- check_ranges (fun a b => Rle_bool b a) (fst box) (snd box) ;;
  let '(p0, p1) := get_patch_range b in
  Ok (r_transform src box p0, r_transform src box p1).

Definition vadd (a b : vec3 R) : vec3 R := W3 (wx a + wx b)%R (wy a + wy b)%R (wz a + wz b)%R.
Definition vopp (a : vec3 R) : vec3 R := W3 (- wx a)%R (- wy a)%R (- wz a)%R.
Definition vsub (a b : vec3 R) : vec3 R := W3 (wx a - wx b)%R (wy a - wy b)%R (wz a - wz b)%R.
Definition vadds (a : vec3 R) (r : R) : vec3 R := W3 (wx a + r)%R (wy a + r)%R (wz a + r)%R.
Definition vsubs (a : vec3 R) (r : R) : vec3 R := W3 (wx a - r)%R (wy a - r)%R (wz a - r)%R.

(** CoordRange.hpp:48-50, 69-71, 79, 81. *)
Definition expand_all (b : range R) (r : R) : range R := (vsubs (fst b) r, vadds (snd b) r).
Definition get_intersect (a b : range R) : range R :=
  (W3 (Rmax (wx (fst a)) (wx (fst b))) (Rmax (wy (fst a)) (wy (fst b))) (Rmax (wz (fst a)) (wz (fst b))),
   W3 (Rmin (wx (snd a)) (wx (snd b))) (Rmin (wy (snd a)) (wy (snd b))) (Rmin (wz (snd a)) (wz (snd b)))).
Definition is_not_empty (b : range R) : bool :=
  Rle_bool (wx (fst b)) (wx (snd b)) && Rle_bool (wy (fst b)) (wy (snd b)) && Rle_bool (wz (fst b)) (wz (snd b)).
Definition add_offset (b : range R) (off : vec3 R) : range R := (vadd (fst b) off, vadd (snd b) off).

(** ** The offsets of the images *)
(** offset, offset_speed and periodicity_index of InterfaceBuildInfos (BasicSPHGhosts.hpp:70-76). *)
Record offset := Offset { o_idx : v3; o_shift : vec3 R; o_speed : vec3 R }.
Definition vzero : vec3 R := W3 0%R 0%R 0%R.

(** BasicSPHGhostHandlerConfig (hpp:40-55). *)
Inductive ghost_config :=
| Free
| Periodic
| ShearingPeriodic (shear_base shear_dir : v3) (shear_value shear_speed : R).

(** for (i32 k = -n; k <= n; k++) *)
Definition pm (n : Z) : list Z := map (fun k => Z.of_nat k - n) (seq 0 (Z.to_nat (2 * n + 1))).
(** The three nested loops (cpp:279-281, 203-205). *)
Definition idx_box (nx ny nz : Z) : list v3 :=
  flat_map (fun x => flat_map (fun y => map (fun z => V3 x y z) (pm nz)) (pm ny)) (pm nx).

(** cpp:283-284, 312-318: the offset of one periodic image. *)
Definition periodic_offset (bsize : vec3 R) (i : v3) : offset :=
  Offset i (W3 (IZR (vx i) * wx bsize)%R (IZR (vy i) * wy bsize)%R (IZR (vz i) * wz bsize)%R) vzero.

Definition idot (a b : v3) : Z := vx a * vx b + vy a * vy b + vz a * vz b.
(** compute_shift_infos (cpp:160-182). *)
Definition compute_shift_infos (ioff base dir : v3) (value speed : R) (bsize : vec3 R) : offset :=
  let d := idot ioff base in
  Offset ioff
    (W3 (IZR (d * vx dir) * value + wx bsize * IZR (vx ioff))%R
        (IZR (d * vy dir) * value + wy bsize * IZR (vy ioff))%R
        (IZR (d * vz dir) * value + wz bsize * IZR (vz ioff))%R)
    (W3 (IZR (d * vx dir) * speed)%R (IZR (d * vy dir) * speed)%R (IZR (d * vz dir) * speed)%R).
(** int(q): truncation, undefined when the value does not fit in an i32. *)
Definition to_int (q : R) : res Z :=
  let z := Ztrunc q in if (- 2 ^ 31 <=? z) && (z <? 2 ^ 31) then Ok z else UB.
Fixpoint rflat {A B} (f : A -> res (list B)) (l : list A) : res (list B) :=
  match l with [] => Ok [] | a :: l => r <- f a ;; rs <- rflat f l ;; Ok (r ++ rs) end.
(** for_each_patch_shift (cpp:184-248): the offsets, in order.  A division by zero gives a value that does not fit. *)
Definition for_each_patch_shift (base dir : v3) (value speed : R) (bsize : vec3 R) : res (list offset) :=
  let sz := (wx bsize * IZR (vx dir) + wy bsize * IZR (vy dir) + wz bsize * IZR (vz dir))%R in
  rflat (fun i =>
           if Req_bool sz 0 then UB else
           k <- to_int (IZR (idot i base) * value / sz)%R ;;
           let df := - k in
           let off := V3 (vx i + vx dir * df) (vy i + vy dir * df) (vz i + vz dir * df) in
           Ok [compute_shift_infos off base dir value speed bsize])
        (idx_box (1 + Z.abs (vx dir)) (1 + Z.abs (vy dir)) (1 + Z.abs (vz dir))).
(** The three branches of find_interfaces (cpp:275-440); bsize is get_bounding_box_size. *)
Definition offsets (cfg : ghost_config) (bsize : vec3 R) : res (list offset) :=
  match cfg with
  | Periodic => Ok (map (periodic_offset bsize) (idx_box 1 1 1))
  | ShearingPeriodic base dir value speed => for_each_patch_shift base dir value speed bsize
  | Free => Ok [Offset (V3 0 0 0) vzero vzero]
  end.
Definition idx_zero (i : v3) : bool := (vx i =? 0) && (vy i =? 0) && (vz i =? 0).

(** The elements of [l] taken in the order [ord]. *)
Definition reorder {A} (ord : list nat) (l : list A) : list A :=
  flat_map (fun i => match nth_error l i with Some a => [a] | None => [] end) ord.

Section Ghost.
Variable obj : Type.
Variables (xyz : obj -> vec3 R) (hpart : obj -> R).
Variable W : nat.                       (* world size *)
Variable s : sched obj.
Variables (pbox : pcoord) (box : range R).
Variables (h_evol_max Rkern : R).
Notation to_box := (r_to_box pbox box).

(** ** Interaction range of the patches (SPHUtilities.hpp:86-93) *)
Definition compute_max (o : obj) (l : list obj) : R := fold_left (fun m x => Rmax m (hpart x)) l (hpart o).
Definition interact_range (l : list obj) : option R :=
  match l with [] => None | o :: l => Some (compute_max o l * h_evol_max * Rkern)%R end.
(** sched.patch_data.get_pdat on the rank [rk]: the map throws when it has no such patch. *)
Definition get_pdat (rk id : Z) : res (list obj) := match s_data _ s rk id with Some l => Ok l | None => Throw end.
(** interactR_patch.get (map_owned_to_patch_field_simple: each patch on its rank, then gathered). *)
Definition range_get (id : Z) : res (option R) :=
  match find (fun p => p_id p =? id) (s_global _ s) with
  | Some p => l <- get_pdat (p_owner p) id ;; Ok (interact_range l)
  | None => Throw
  end.
(** sham::max, with lowest() as the smallest value. *)
Definition omax (a b : option R) : option R :=
  match a, b with None, x => x | x, None => x | Some a, Some b => Some (Rmax a b) end.
(** SPHUtilities.hpp:95-101. *)
Definition interactR_mpi_tree (st : sstate R) (orders : nat -> list act) : res (list (option R)) :=
  make_patch_tree_field (Some 0%R) range_get (fold_right omax None) st orders.

(** ** find_interfaces *)
Record iface := Iface { if_sender : Z; if_recv : Z; if_off : offset; if_cut : option (range R) }.
Variables (st : sstate R) (roots : list Z) (acc_tf : list (option R)) (fuel : nat).

(** cpp:299-305 (also 360-366, 413-419): [acc_tf] has one value per node (C40). *)
Definition interact (sender_off : range R) (i : Z) (n : snode R) : bool :=
  match nth_error acc_tf (Z.to_nat i) with
  | Some (Some r) => is_not_empty (get_intersect (expand_all (sn_min n, sn_max n) r) sender_off)
  | _ => false
  end.
(** cpp:306-327 (also 367-389, 420-439). *)
Definition found (sender_id : Z) (sender_box : range R) (o : offset) (c : Z * snode R) : res (list iface) :=
  let '(id, n) := c in
  if (id =? sender_id) && idx_zero (o_idx o) then Ok []
  else
    r <- range_get id ;;
    Ok [Iface sender_id id o
          (match r with
           | None => None
           | Some r => Some (get_intersect sender_box (add_offset (expand_all (sn_min n, sn_max n) r) (vopp (o_shift o))))
           end)].
(** One sender and one offset (cpp:287-330). *)
Definition find_one (o : offset) (p : patch) : res (list iface) :=
  if is_err_mode p then Ok []
  else
    sender_box <- to_box (p_box p) ;;
    calls <- host_for_each_leafs fuel st roots (interact (add_offset sender_box (o_shift o))) ;;
    rflat (found (p_id p) sender_box o) calls.
(** find_interfaces on the rank [rk].  The iterations of the parallel loop insert in the map in an order which is
    given by [ord]. *)
Definition local_patches (rk : Z) : list patch := filter (fun p => p_owner p =? rk) (s_global _ s).
Definition find_interfaces (offs : list offset) (ord : nat -> list nat) (rk : Z) : res (list iface) :=
  l <- rflat (fun o => rflat (find_one o) (local_patches rk)) offs ;;
  Ok (reorder (ord (length l)) l).

(** ** gen_id_table_interfaces (cpp:468-538) *)
(** PatchDataField::get_ids_where: the ids that satisfy the condition, in increasing order. *)
Definition get_ids_where (cond : obj -> bool) (l : list obj) : list nat :=
  filter (fun i => match nth_error l i with Some x => cond x | None => false end) (seq 0 (length l)).
Definition in_cut (cut : option (range R)) (x : obj) : bool :=
  match cut with
  | Some c => is_in_patch_converted Rle_bool Rlt_bool (xyz x) (fst c) (snd c)
  | None => false
  end.
Record id_table := Table { tb_iface : iface; tb_ids : list nat }.
Definition gen_id_table (rk : Z) (i : iface) : res (list id_table) :=
  src <- get_pdat rk (if_sender i) ;;
  let ids := get_ids_where (in_cut (if_cut i)) src in
  if (length ids =? 0)%nat then Ok [] else Ok [Table i ids].
(** make_interface_cache on all the ranks; each table with the rank that holds it. *)
Definition make_interface_caches (offs : list offset) (ord : Z -> nat -> list nat) : res (list (Z * id_table)) :=
  rflat (fun rk => ifs <- find_interfaces offs (ord rk) rk ;; tbs <- rflat (gen_id_table rk) ifs ;; Ok (map (pair rk) tbs))
        (map Z.of_nat (seq 0 W)).

(** ** Building, exchanging and merging one set of fields.  [ghost o x] is the record sent for the particle x with
    the offset o; [own x] the record of a particle of the patch itself. *)
Section Fields.
Context {G : Type}.
Variables (ghost : offset -> obj -> G) (own : obj -> G).
(** append_subset_to: the elements at the given ids. *)
Fixpoint subset (l : list obj) (ids : list nat) : res (list obj) :=
  match ids with [] => Ok [] | i :: ids => x <- aget l i ;; xs <- subset l ids ;; Ok (x :: xs) end.
(** build_interface_native (hpp:138-160) with the function of build_position_interf_field (hpp:283-316) or of
    communicate_merge_ghosts_fields (Solver.cpp:1472-1557): receiver and contents of the message. *)
Definition build_interface (t : Z * id_table) : res (list (Z * list G)) :=
  let '(rk, tb) := t in
  if (length (tb_ids tb) =? 0)%nat then Throw
  else
    src <- get_pdat rk (if_sender (tb_iface tb)) ;;
    xs <- subset src (tb_ids tb) ;;
    Ok [(if_recv (tb_iface tb), map (ghost (if_off (tb_iface tb))) xs)].
(** merge_native (hpp:441-466) for one patch, after the exchange: the messages arrive in the order [net]. *)
Definition build_comm_merge (tables : list (Z * id_table)) (net : nat -> list nat) (p : patch) : res (option (list G)) :=
  msgs <- rflat build_interface tables ;;
  let recv := reorder (net (length msgs)) msgs in
  pdat <- get_pdat (p_owner p) (p_id p) ;;
  match pdat with
  | [] => Ok None
  | _ => Ok (Some (map own pdat ++ flat_map (fun m => if fst m =? p_id p then snd m else []) recv))
  end.
End Fields.
End Ghost.

(** ** Solver::build_ghost_cache (Solver.cpp:984-997), with the serial patch tree built from the patch tree
    (Solver::gen_serial_patch_tree).  [rs] is the order of the set of roots, [orders] gives the executions of the
    kernels of the tree field, [ord] the insertions in the maps of interfaces.  get_bounding_box_size is the
    difference of the bounds of the box. *)
Definition build_ghost_cache {obj} (xyz : obj -> vec3 R) (hpart : obj -> R) (W : nat) (s : sched obj) (pbox : pcoord) (box : range R)
    (h_evol_max Rkern : R) (cfg : ghost_config) (fuel : nat) (rs : list Z) (orders : nat -> nat -> list act) (ord : Z -> nat -> list nat)
  : res (list (Z * id_table)) :=
  sr <- build_from_patch_tree (r_to_box pbox box) fuel (t_with_roots rs (s_tree _ s)) ;;
  let '(st, roots) := sr in
  acc_tf <- interactR_mpi_tree obj hpart s h_evol_max Rkern st (orders (length (ss_tree st))) ;;
  offs <- offsets cfg (vsub (snd box) (fst box)) ;;
  make_interface_caches obj xyz hpart W s pbox box h_evol_max Rkern st roots acc_tf (S (length (ss_tree st))) offs ord.
