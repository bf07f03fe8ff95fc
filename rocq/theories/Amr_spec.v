(** Specification vocabulary for the change of the AMR grid: points of space, cells, totals,
    blocks in Morton order.  Nothing here refers to the functions which split, merge or move blocks. *)
From Verif Require Import Base Morton Amr.
From Coq Require Import ZArith Reals.
Local Open Scope Z_scope.

(** The unit cube with lower corner p is in the block *)
Definition in_block (b : block) (p : Z3) : bool :=
  (px (bmin b) <=? px p) && (px p <? px (bmax b)) && (py (bmin b) <=? py p) && (py p <? py (bmax b)) &&
  (pz (bmin b) <=? pz p) && (pz p <? pz (bmax b)).
(** in how many blocks of the patch the unit cube p is: 1 everywhere in the patch for a tiling *)
Definition cover (st : list block) (p : Z3) : nat := length (filter (fun b => in_block b p) st).

(** A block with non empty even sides (blocks of the grid have power of two sides, at least 2 when
    the criterion splits them) and eight cells *)
Definition good (b : block) : Prop :=
  (forall f, f = px \/ f = py \/ f = pz -> f (bmin b) < f (bmax b) /\ Z.even (f (bmax b) - f (bmin b)) = true) /\
  length (cells b) = 8%nat.

(** Real points.  The cell (i,j,k), i,j,k in {0,1}, of a block is its octant: the half open box from
    bmin + (i,j,k) * delta, delta half of the side of the block, and it has the index i + 2 j + 4 k
    (AMRBlock.hpp, utils_get_cell_coords). *)
Definition R3 : Type := (R * R * R)%type.
Definition in_half (lo hi : Z) (i : bool) (x : R) : Prop :=
  let d := ((IZR hi - IZR lo) / 2)%R in
  let i := (if i then 1 else 0)%R in
  (IZR lo + i * d <= x < IZR lo + (i + 1) * d)%R.
Definition in_cell (b : block) (i j k : bool) (p : R3) : Prop :=
  in_half (px (bmin b)) (px (bmax b)) i (fst (fst p)) /\
  in_half (py (bmin b)) (py (bmax b)) j (snd (fst p)) /\
  in_half (pz (bmin b)) (pz (bmax b)) k (snd p).
Definition cell_index (i j k : bool) : nat := (Nat.b2n i + 2 * Nat.b2n j + 4 * Nat.b2n k)%nat.
(** the patch has a cell which contains the point p, with the value v *)
Definition value_at (st : list block) (p : R3) (v : cell) : Prop :=
  exists b i j k, In b st /\ in_cell b i j k p /\ nth_error (cells b) (cell_index i j k) = Some v.

(** Totals: the sum over the cells of volume times value, one component at a time *)
Definition comps : list (cell -> R) :=
  [fun '(d, _, _) => d; fun '(_, (x, _, _), _) => x; fun '(_, (_, y, _), _) => y; fun '(_, (_, _, z), _) => z; fun '(_, _, e) => e].
Definition rsum (l : list R) : R := fold_right Rplus 0%R l.
Definition cell_volume (b : block) : R :=
  (IZR ((px (bmax b) - px (bmin b)) * (py (bmax b) - py (bmin b)) * (pz (bmax b) - pz (bmin b))) / 8)%R.
Definition total (f : cell -> R) (st : list block) : R :=
  rsum (map (fun b => cell_volume b * rsum (map f (cells b)))%R st).

(** Blocks in Morton order, as AMRSortBlocks leaves the leaves of an octree: the blocks are cubes
    aligned on their own side, a power of two on the Morton grid, and each begins, along the Morton
    curve, where the one before it ends.  [corner]: lower corner of the patch, [scale]: Morton grid units
    per unit of coordinate (2^21 over the side of the patch, CoordRangeTransform). *)
Definition to_grid (scale corner x : Z) : N := Z.to_N ((x - corner) * scale).
Definition morton_of (scale : Z) (corner p : Z3) : N :=
  icoord_to_morton_64 (to_grid scale (px corner) (px p)) (to_grid scale (py corner) (py p)) (to_grid scale (pz corner) (pz p)).
Definition aligned_cube (scale : Z) (corner : Z3) (b : block) (j : N) : Prop :=
  forall f, f = px \/ f = py \/ f = pz ->
    (f (bmax b) - f (bmin b)) * scale = 2 ^ Z.of_N j /\ 0 <= f (bmin b) - f corner /\
    (exists q, (f (bmin b) - f corner) * scale = q * 2 ^ Z.of_N j) /\ (f (bmax b) - f corner) * scale <= 2 ^ 21.
Definition morton_order (scale : Z) (corner : Z3) (st : list block) : Prop :=
  0 < scale /\
  (forall b, In b st -> exists j, aligned_cube scale corner b j) /\
  (forall i b b', nth_error st i = Some b -> nth_error st (S i) = Some b' ->
     exists j, aligned_cube scale corner b j /\
       morton_of scale corner (bmin b') = (morton_of scale corner (bmin b) + 8 ^ j)%N).

(** Eight blocks, in this order, are the octants of the box with lower corner c and half sides k3 *)
Definition oct : list (bool * bool * bool) :=
  [(false, false, false); (true, false, false); (false, true, false); (true, true, false);
   (false, false, true); (true, false, true); (false, true, true); (true, true, true)].
Definition plus3 (a b : Z3) : Z3 := zip3 Z.add a b.
Definition dbl (k3 : Z3) : Z3 := plus3 k3 k3.
Definition sub_lo (c k3 : Z3) (i j k : bool) : Z3 :=
  (px c + (if i then px k3 else 0), py c + (if j then py k3 else 0), pz c + (if k then pz k3 else 0)).
Definition octants (bs : list block) (c k3 : Z3) : Prop :=
  0 < px k3 /\ 0 < py k3 /\ 0 < pz k3 /\
  map coords bs = map (fun '(i, j, k) => (sub_lo c k3 i j k, plus3 (sub_lo c k3 i j k) k3)) oct.
Definition eight_from (st : list block) (g : nat) : list block := firstn 8 (skipn g st).

(** No two groups of consecutive blocks which could both be merged share a block *)
Definition lone_octants (st : list block) : Prop :=
  forall a b c k3 c' k3', (a < b < a + 8)%nat -> octants (eight_from st a) c k3 -> octants (eight_from st b) c' k3' -> False.
Definition apart (ids : list nat) : Prop :=
  forall a b, In a ids -> In b ids -> (a < b)%nat -> (a + 8 <= b)%nat.

(** A complete schedule of the merge kernel: every work item does its eight reads and its write *)
Definition complete (n : nat) (sched : list nat) : Prop :=
  Forall (fun i => (i < n)%nat) sched /\ forall i, (i < n)%nat -> (9 <= count_occ Nat.eq_dec sched i)%nat.
