(** From patch coordinates (integers) to positions: PatchCoord::get_patch_range,
    shammath::CoordRangeTransform, PatchCoordTransform, SimulationBoxInfo::patch_coord_to_domain and the
    test Patch::is_in_patch_converted; PatchScheduler::make_patch_base_grid.  Definitions only. *)
From Verif Require Import Base Integer Patch F64.
From Flocq Require Import BinarySingleNaN.
Local Open Scope Z_scope.

(** sycl::vec<T,3>; CoordRange<T> (CoordRange.hpp:29-35). *)
Record vec3 (C : Type) := W3 { wx : C; wy : C; wz : C }.
Arguments W3 {C}. Arguments wx {C}. Arguments wy {C}. Arguments wz {C}.
Definition range (C : Type) : Type := vec3 C * vec3 C.

(** Patch.hpp:210-217 [is_in_patch_converted], for a component type with its <= and <. *)
Definition is_in_patch_converted {C} (leb ltb : C -> C -> bool) (val lo hi : vec3 C) : bool :=
  leb (wx lo) (wx val) && ltb (wx val) (wx hi) && leb (wy lo) (wy val) && ltb (wy val) (wy hi)
  && leb (wz lo) (wz val) && ltb (wz val) (wz hi).

(** PatchCoord.hpp:135-139 [get_patch_range]: the upper bound is exclusive. *)
Definition get_patch_range (b : pcoord) : v3 * v3 :=
  (cmin b, V3 (w64 (vx (cmax b) + 1)) (w64 (vy (cmax b) + 1)) (w64 (vz (cmax b) + 1))).

(** CoordRange.cpp:36-... [check_throw_ranges]: throws when lower >= upper on some axis. *)
Definition check_ranges {C} (geb : C -> C -> bool) (lo hi : vec3 C) : res unit :=
  if geb (wx lo) (wx hi) then Throw else if geb (wy lo) (wy hi) then Throw
  else if geb (wz lo) (wz hi) then Throw else Ok tt.
Definition to_vec (v : v3) : vec3 Z := W3 (vx v) (vy v) (vz v).

(** ** Double precision positions: CoordRangeTransform<u64_3, f64_3>. *)
Record crt := { tr_fact : vec3 f64; tr_dmin : vec3 f64; tr_smin : v3 }.

(** CoordRangeTransform.cpp:98-114 (constructor), one axis: fact = dest_delt / (f64) source_delt. *)
Definition axis_fact (slo shi : Z) (dlo dhi : f64) : f64 :=
  f_div (f_sub dhi dlo) (f_of_Z (w64 (shi - slo))).
Definition make_crt (src : v3 * v3) (dst : range f64) : res crt :=
  _ <- check_ranges Z.geb (to_vec (fst src)) (to_vec (snd src)) ;;
  _ <- check_ranges (fun a b => f_leb b a) (fst dst) (snd dst) ;;
  let '(s0, s1) := src in
  let '(d0, d1) := dst in
  Ok {| tr_fact := W3 (axis_fact (vx s0) (vx s1) (wx d0) (wx d1))
                      (axis_fact (vy s0) (vy s1) (wy d0) (wy d1))
                      (axis_fact (vz s0) (vz s1) (wz d0) (wz d1));
        tr_dmin := d0; tr_smin := s0 |}.

(** CoordRangeTransform.hpp:66-82 [transform], mode multiply, one coordinate:
    convert(c - source_min) * fact + dest_min.  The compiler may contract the product and the sum
    ([fma] = true) or not. *)
Definition crt_axis (fma : bool) (fact dmin : f64) (smin c : Z) : f64 :=
  let d := f_of_Z (w64 (c - smin)) in
  if fma then f_fma d fact dmin else f_add (f_mul d fact) dmin.
Definition crt_transform (fma : bool) (t : crt) (c : v3) : vec3 f64 :=
  W3 (crt_axis fma (wx (tr_fact t)) (wx (tr_dmin t)) (vx (tr_smin t)) (vx c))
     (crt_axis fma (wy (tr_fact t)) (wy (tr_dmin t)) (vy (tr_smin t)) (vy c))
     (crt_axis fma (wz (tr_fact t)) (wz (tr_dmin t)) (vz (tr_smin t)) (vz c)).

(** SimBox.hpp:286-298 [get_patch_transform] (the box that was never set is the largest finite range,
    CoordRange.hpp:92-111) and 300-308 [patch_coord_to_domain] with PatchCoordTransform.hpp:40-57. *)
Definition f_max : f64 := @Bmax_float 53 1024 Hprec Hmax.
Definition vec_eqb (a b : vec3 f64) : bool := f_eqb (wx a) (wx b) && f_eqb (wy a) (wy b) && f_eqb (wz a) (wz b).
Definition is_err_range (r : range f64) : bool :=
  vec_eqb (W3 (Bopp f_max) (Bopp f_max) (Bopp f_max)) (fst r) && vec_eqb (W3 f_max f_max f_max) (snd r).
Definition get_patch_transform (pbox : pcoord) (box : range f64) : res crt :=
  if is_err_range box then Throw else make_crt (get_patch_range pbox) box.
Definition patch_coord_to_domain (fma : bool) (pbox : pcoord) (box : range f64) (b : pcoord)
  : res (range f64) :=
  t <- get_patch_transform pbox box ;;
  let '(p0, p1) := get_patch_range b in
  Ok (crt_transform fma t p0, crt_transform fma t p1).

(** ** Integer positions (AMR grids): CoordRangeTransform<u64_3, u64_3>, CoordRangeTransform.cpp:185-220,
    and CoordRangeTransform.hpp:66-82 in both modes. *)
Record crt_u64 := { tu_mult : bool; tu_fact : vec3 Z; tu_dmin : vec3 Z; tu_smin : v3 }.
(** CoordRangeTransform.cpp:25-56 [check_divisor_throw]; the divisor is never zero here. *)
Definition check_divisor (val div : vec3 Z) : res unit :=
  if (wx val mod wx div =? 0) && (wy val mod wy div =? 0) && (wz val mod wz div =? 0) then Ok tt else Throw.
Definition vdelt (lo hi : vec3 Z) : vec3 Z :=
  W3 (w64 (wx hi - wx lo)) (w64 (wy hi - wy lo)) (w64 (wz hi - wz lo)).
Definition vdiv (a b : vec3 Z) : vec3 Z := W3 (wx a / wx b) (wy a / wy b) (wz a / wz b).
Definition make_crt_u64 (src : v3 * v3) (dst : range Z) : res crt_u64 :=
  _ <- check_ranges Z.geb (to_vec (fst src)) (to_vec (snd src)) ;;
  _ <- check_ranges Z.geb (fst dst) (snd dst) ;;
  let sd := vdelt (to_vec (fst src)) (to_vec (snd src)) in
  let dd := vdelt (fst dst) (snd dst) in
  let cx := wx dd >=? wx sd in
  let cy := wy dd >=? wy sd in
  let cz := wz dd >=? wz sd in
  if Bool.eqb cx cy && Bool.eqb cz cy then
    if cx then _ <- check_divisor dd sd ;;
               Ok {| tu_mult := true; tu_fact := vdiv dd sd; tu_dmin := fst dst; tu_smin := fst src |}
    else _ <- check_divisor sd dd ;;
         Ok {| tu_mult := false; tu_fact := vdiv sd dd; tu_dmin := fst dst; tu_smin := fst src |}
  else Throw.
Definition crt_u64_axis (mult : bool) (fact dmin smin c : Z) : Z :=
  let d := w64 (c - smin) in
  w64 ((if mult then w64 (d * fact) else d / fact) + dmin).
Definition crt_u64_transform (t : crt_u64) (c : v3) : vec3 Z :=
  W3 (crt_u64_axis (tu_mult t) (wx (tu_fact t)) (wx (tu_dmin t)) (vx (tu_smin t)) (vx c))
     (crt_u64_axis (tu_mult t) (wy (tu_fact t)) (wy (tu_dmin t)) (vy (tu_smin t)) (vy c))
     (crt_u64_axis (tu_mult t) (wz (tu_fact t)) (wz (tu_dmin t)) (vz (tu_smin t)) (vz c)).
(** (the unset box is [0, 2^64-1]) *)
Definition is_err_range_u64 (r : range Z) : bool :=
  let e v x := (wx v =? x) && (wy v =? x) && (wz v =? x) in e (fst r) 0 && e (snd r) u64_max.
Definition patch_coord_to_domain_u64 (pbox : pcoord) (box : range Z) (b : pcoord) : res (range Z) :=
  t <- (if is_err_range_u64 box then Throw else make_crt_u64 (get_patch_range pbox) box) ;;
  let '(p0, p1) := get_patch_range b in
  Ok (crt_u64_transform t p0, crt_u64_transform t p1).

(** ** The grid of root patches: PatchScheduler.cpp:55-97 [make_patch_base_grid] (returns the bounding
    box and the root patches, in order).  max_axis_patch_coord_length = 2^21
    (PatchScheduler.hpp:91-92, LoadBalanceStrategy/HilbertCurve).  roundup_pow2_clz: see Integer.v. *)
Definition axis_len : Z := 2 ^ 21.
Definition zrange (n : Z) : list Z := map Z.of_nat (seq 0 (Z.to_nat n)).
Definition base_box (sz x y z : Z) : pcoord :=
  PC (V3 (w64 (sz * x)) (w64 (sz * y)) (w64 (sz * z)))
     (V3 (w64 (w64 (sz * w32 (x + 1)) - 1)) (w64 (w64 (sz * w32 (y + 1)) - 1)) (w64 (w64 (sz * w32 (z + 1)) - 1))).
Definition make_patch_base_grid (nx ny nz : Z) : res (pcoord * list pcoord) :=
  let m := Z.max (Z.max (Z.max 0 nx) ny) nz in
  r <- roundup_pow2_clz 32 (Z.to_N m) ;;
  if (r =? 0)%N then UB else
  let sz := axis_len / Z.of_N r in
  Ok (PC (V3 0 0 0) (V3 (w64 (w64 (sz * nx) - 1)) (w64 (w64 (sz * ny) - 1)) (w64 (w64 (sz * nz) - 1))),
      flat_map (fun x => flat_map (fun y => map (fun z => base_box sz x y z) (zrange nz)) (zrange ny)) (zrange nx)).
