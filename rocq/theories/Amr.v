(** Model of the change of the AMR grid of the Ramses solver on the default path
    (src/shammodels/ramses/src/modules/AMRGridRefinementHandler.cpp, update_refinement_old:
    SolverConfig.hpp:122 sets old_amr by default) for one patch: the flags, the selection of the
    groups to merge, the split of blocks, the merge of blocks and the compaction.
    Simplifications, for the whole file: the coordinates (i64) are integers without bound; the
    fields rho, rho_vel, rhoE hold real numbers, so no rounding; the three field buffers, indexed
    by block * 8 + cell, are one list of blocks with their eight cells, as every kernel below moves
    the three fields with the same indices.  A vector operation acts on each coordinate. *)
From Verif Require Import Base Par Scan_spec.
From Coq Require Import ZArith Reals.
Local Open Scope Z_scope.

(** TgridVec = i64_3 *)
Definition Z3 : Type := (Z * Z * Z)%type.
Definition px (v : Z3) : Z := fst (fst v).
Definition py (v : Z3) : Z := snd (fst v).
Definition pz (v : Z3) : Z := snd v.
Definition map3 (f : Z -> Z) (v : Z3) : Z3 := (f (px v), f (py v), f (pz v)).
Definition zip3 (f : Z -> Z -> Z) (a b : Z3) : Z3 := (f (px a) (px b), f (py a) (py b), f (pz a) (pz b)).
Definition eqb3 (a b : Z3) : bool := (px a =? px b) && (py a =? py b) && (pz a =? pz b).

(** The conserved variables of one cell: rho, the three components of rho_vel, rhoE
    (fields 2, 3, 4 of the patch, AMRGridRefinementHandler.cpp:478-489). *)
Definition cell : Type := (R * (R * R * R) * R)%type.
Definition czero : cell := (0%R, (0%R, 0%R, 0%R), 0%R).
Definition cadd (a b : cell) : cell :=
  let '(d, (x, y, z), e) := a in let '(d', (x', y', z'), e') := b in
  ((d + d')%R, ((x + x')%R, (y + y')%R, (z + z')%R), (e + e')%R).
Definition cdiv8 (a : cell) : cell :=
  let '(d, (x, y, z), e) := a in ((d / 8)%R, ((x / 8)%R, (y / 8)%R, (z / 8)%R), (e / 8)%R).

(** A block: AMRBlockCoord (src/shamrock/include/shamrock/amr/AMRCell.hpp:27-31) and its cells *)
Record block := mkB { bmin : Z3; bmax : Z3; cells : list cell }.

(** src/shamrock/include/shamrock/amr/AMRCell.hpp:33-35 (C++ division truncates towards zero) *)
Definition get_split_coord (mn mx : Z3) : Z3 := zip3 (fun a b => Z.quot (b - a) 2 + a) mn mx.

(** the lambdas get_coord and get_coord_ref: AMRCell.hpp:44-54, AMRGridRefinementHandler.cpp:504-512 *)
Definition get_coord (i : nat) : nat * nat * nat :=
  let tmp := Nat.shiftr i 1 in (Nat.modulo i 2, Nat.modulo tmp 2, Nat.shiftr tmp 1).

(** AMRCell.hpp:36-65 *)
Definition get_split (mn mx : Z3) : list (Z3 * Z3) :=
  let splts := get_split_coord mn mx in
  let szs := [mn; splts; mx] in
  map (fun i => let '(lx, ly, lz) := get_coord i in
         ((px (nth lx szs mn), py (nth ly szs mn), pz (nth lz szs mn)),
          (px (nth (S lx) szs mn), py (nth (S ly) szs mn), pz (nth (S lz) szs mn)))) (seq 0 8).

(** AMRCell.hpp:69-71 and :73-81 *)
Definition get_merge2 (a b : Z3 * Z3) : Z3 * Z3 := (zip3 Z.min (fst a) (fst b), zip3 Z.max (snd a) (snd b)).
Definition get_merge (o : list (Z3 * Z3)) : Z3 * Z3 :=
  let at_ i := nth i o ((0, 0, 0), (0, 0, 0)) in
  get_merge2 (get_merge2 (get_merge2 (at_ 0%nat) (at_ 1%nat)) (get_merge2 (at_ 2%nat) (at_ 3%nat)))
             (get_merge2 (get_merge2 (at_ 4%nat) (at_ 5%nat)) (get_merge2 (at_ 6%nat) (at_ 7%nat))).

(** AMRCell.hpp:83-101 *)
Definition are_mergeable (o : list (Z3 * Z3)) : bool :=
  let m := get_merge o in
  let s := get_split (fst m) (snd m) in
  forallb (fun i => eqb3 (fst (nth i o ((0, 0, 0), (0, 0, 0)))) (fst (nth i s ((0, 0, 0), (0, 0, 0)))) &&
                    eqb3 (snd (nth i o ((0, 0, 0), (0, 0, 0)))) (snd (nth i s ((0, 0, 0), (0, 0, 0))))) (seq 0 8).

Definition coords (b : block) : Z3 * Z3 := (bmin b, bmax b).

(** AMRGridRefinementHandler.cpp:64-76: the flags of the criterion, with the guard.  [crit] is the
    user criterion (refine_criterion), a function of the block. *)
Definition guard (rd : bool * bool) : bool * bool :=
  let '(r, d) := rd in (r, if r && d then false else d).
Definition crit_flags (crit : block -> bool * bool) (st : list block) : list bool * list bool :=
  let fl := map (fun b => guard (crit b)) st in (map fst fl, map snd fl).

(** AMRGridRefinementHandler.cpp:97-122: the kernel which keeps the merge flags of the groups of
    eight.  The work item [gid] reads the flags gid .. gid+7 one after the other, then overwrites
    the flag gid, while the other items run: its state is the number of flags read so far and the
    conjunction of them.  A schedule is a list of item ids: each occurrence lets the item do its
    next access.  An item which has done all of its accesses does nothing. *)
Definition prog : Type := (nat * bool)%type.
Definition item_step (st : list block) (gid : nat) (s : list bool * list prog) : res (list bool * list prog) :=
  let '(flags, pr) := s in
  '(k, acc) <- aget pr gid ;;
  if (Nat.leb (gid + 8) (length st)) && (Nat.ltb k 8) then
    f <- aget flags (gid + k) ;;
    pr' <- aset pr gid (S k, acc && f) ;; Ok (flags, pr')
  else if Nat.eqb k 9 then Ok s
  else
    let do_merge :=
      if Nat.leb (gid + 8) (length st) then acc && are_mergeable (map coords (firstn 8 (skipn gid st))) else false in
    flags' <- aset flags gid do_merge ;;
    pr' <- aset pr gid (9%nat, acc) ;; Ok (flags', pr').
Definition merge_kernel (sched : list nat) (st : list block) (flags : list bool) : res (list bool * list prog) :=
  rfold (item_step st) sched (flags, repeat (0%nat, true) (length st)).
(** all the items have written their flag: the kernel is over *)
Definition all_done (pr : list prog) : Prop := Forall (fun p => fst p = 9%nat) pr.

(** stream_compact of the flags (its implementations are the subject of C07) *)
Definition flagged (flags : list bool) : list nat := filter (fun i => nth i flags false) (seq 0 (length flags)).

(** src/shammodels/common/include/shammodels/common/amr/AMRBlock.hpp:52-73 with Nside = 2, and get_index_block, AMRGridRefinementHandler.cpp:514-521 *)
Definition get_index (x y z : nat) : nat := (x + 2 * y + 2 * 2 * z)%nat.

(** apply_refine, AMRGridRefinementHandler.cpp:497-585: [old] are the saved cells of the block, [new] the
    cells of the eight new blocks before the writes. *)
Definition refine_write (old : list cell) (loc_id sub : nat) (new : list (list cell)) : res (list (list cell)) :=
  let '(lx, ly, lz) := get_coord loc_id in
  let '(sx, sy, sz) := get_coord sub in
  let gx := (lx * 2 + sx)%nat in let gy := (ly * 2 + sy)%nat in let gz := (lz * 2 + sz)%nat in
  let b := get_index (Nat.shiftr gx 1) (Nat.shiftr gy 1) (Nat.shiftr gz 1) in
  v <- aget old loc_id ;;
  cs <- aget new b ;;
  cs' <- aset cs (get_index (Nat.modulo gx 2) (Nat.modulo gy 2) (Nat.modulo gz 2)) v ;;
  aset new b cs'.
Definition apply_refine (old : list cell) (new : list (list cell)) : res (list (list cell)) :=
  rfold (fun loc_id n => rfold (refine_write old loc_id) (seq 0 8) n) (seq 0 8) new.

(** one work item of internal_refine_grid_old, AMRGridRefinementHandler.cpp:201-234.  The item
    reads and writes its own eight blocks only, so it is taken as one step. *)
Definition block_ids (idx start tid : nat) : list nat :=
  idx :: map (fun pid => (start + tid * 7 + pid)%nat) (seq 0 7).
Fixpoint rmapM {A B} (f : A -> res B) (l : list A) : res (list B) :=
  match l with [] => Ok [] | a :: t => b <- f a ;; bs <- rmapM f t ;; Ok (b :: bs) end.
Definition refine_item (refs : list nat) (start : nat) (tid : nat) (st : list block) : res (list block) :=
  idx <- aget refs tid ;;
  cur <- aget st idx ;;
  let ids := block_ids idx start tid in
  olds <- rmapM (aget st) ids ;;
  new <- apply_refine (cells cur) (map cells olds) ;;
  let bcoords := get_split (bmin cur) (bmax cur) in
  rfold (fun pid s => i <- aget ids pid ;; c <- aget bcoords pid ;; n <- aget new pid ;;
                      aset s i (mkB (fst c) (snd c) n)) (seq 0 8) st.

(** internal_refine_grid_old, AMRGridRefinementHandler.cpp:165-254 for one patch.  [fresh]: the unspecified contents
    of the blocks that expand() adds; [order]: the order of the work items. *)
Definition internal_refine (order : list nat) (fresh : list block) (refs : list nat) (st : list block) : res (list block) :=
  match refs with
  | [] => Ok st
  | _ => par_for order (refine_item refs (length st)) (st ++ fresh)
  end.

(** apply_derefine, AMRGridRefinementHandler.cpp:587-627: the sum over the eight old blocks of the
    cell of the same index, over eight. *)
Definition apply_derefine (olds : list (list cell)) : res (list cell) :=
  rmapM (fun cid =>
    s <- rfold (fun cs acc => v <- aget cs cid ;; Ok (cadd acc v)) olds czero ;;
    Ok (cdiv8 s)) (seq 0 8).

(** one work item of internal_derefine_grid_old, AMRGridRefinementHandler.cpp:292-328 *)
Definition derefine_item (derefs : list nat) (tid : nat) (s : list block * list bool) : res (list block * list bool) :=
  let '(st, keep) := s in
  idx <- aget derefs tid ;;
  olds <- rmapM (fun pid => aget st (idx + pid)%nat) (seq 0 8) ;;
  let m := get_merge (map coords olds) in
  keep' <- rfold (fun pid k => aset k (idx + pid)%nat false) (seq 1 7) keep ;;
  cs <- apply_derefine (map cells olds) ;;
  st' <- aset st idx (mkB (fst m) (snd m) cs) ;;
  Ok (st', keep').

(** internal_derefine_grid_old, AMRGridRefinementHandler.cpp:258-366 for one patch: the
    merges, then stream_compact of the flags and index_remap_resize (the blocks which are kept,
    in order). *)
Definition kept_blocks (st : list block) (keep : list bool) : list block :=
  map fst (filter snd (combine st keep)).
Definition internal_derefine (order : list nat) (derefs : list nat) (st : list block) : res (list block) :=
  match derefs with
  | [] => Ok st
  | _ =>
    '(st', keep) <- par_for order (derefine_item derefs) (st, repeat true (length st)) ;;
    match kept_blocks st' keep with [] => Throw | r => Ok r end
  end.

(** update_refinement_old, AMRGridRefinementHandler.cpp:642-662 with gen_refine_block_changes_old,
    AMRGridRefinementHandler.cpp:29-163, for one patch, before the blocks are sorted again (the sort
    only permutes the blocks, C03).  The orders of the work items of the last two kernels depend on
    the number of items. *)
Definition update (sched : list nat) (order : nat -> list nat) (fresh : list block)
    (crit : block -> bool * bool) (st : list block) : res (list block) :=
  let '(rf, df) := crit_flags crit st in
  '(df', _) <- merge_kernel sched st df ;;
  let refs := flagged rf in
  let derefs := flagged df' in
  st1 <- internal_refine (order (length refs)) (firstn (7 * length refs) fresh) refs st ;;
  internal_derefine (order (length derefs)) derefs st1.

(** CellGenIterator::next and the domain of make_base_grid,
    src/shammodels/ramses/src/modules/AMRSetup.cpp:53-73 and :93-103: the blocks of the base grid
    and the bounds which are given to the scheduler. *)
Definition base_block (n sz : Z3) (it : Z) : Z3 * Z3 :=
  let x := Z.rem it (px n) in let y := Z.rem (Z.quot it (px n)) (py n) in let z := Z.quot it (px n * py n) in
  ((px sz * x, py sz * y, pz sz * z), (px sz * (x + 1), py sz * (y + 1), pz sz * (z + 1))).
Definition base_domain (bmn n sz : Z3) : Z3 * Z3 :=
  (bmn, zip3 Z.add bmn (zip3 Z.mul sz n)).
