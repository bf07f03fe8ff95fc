(** Model of the enforcement of the 2:1 balance in the new AMR path of the Ramses solver
    (src/shammodels/ramses/src/modules/AMRGridRefinementHandler.cpp, update_refinement_new), for one patch:
    enforce_two_to_one_refinement_new and enforce_two_to_one_derefinement_new.
    Simplifications, for the whole file: the six graphs of neighbours (xp, xm, yp, ym, zp, zm) of a block, which are always read
    one after the other by the same function, are one list of ids (an id at or above the number of blocks of the patch is a ghost);
    flags (u32, 0 or 1) are booleans; block coordinates (i64) are integers without bound; levels (u64) wrap. *)
From Verif Require Import Base Par Amr.
From Coq Require Import ZArith.
Local Open Scope Z_scope.

(** AMRGridRefinementHandler.cpp:800-848, one work item of a sweep: what remains to do.  Each step of an item makes one access
    to the shared flags: its own flag at the start, then for each link the flag of the neighbour, and if needed the write of that
    flag and then the write of acc_changed.  The items run in any interleaving, given by a list of item ids. *)
Inductive pc : Type := Start | Links (l : list nat) | WriteFlag (n : nat) (l : list nat) | WriteChanged (l : list nat).
Definition b2Z (b : bool) : Z := if b then 1 else 0.
Definition ref_step (cnt : nat) (lev : list Z) (graph : list (list nat)) (i : nat)
    (s : list bool * bool * list pc) : res (list bool * bool * list pc) :=
  let '(flags, changed, pcs) := s in
  p <- aget pcs i ;;
  match p with
  | Start =>
      f <- aget flags i ;;
      if f then l <- aget graph i ;; pcs' <- aset pcs i (Links l) ;; Ok (flags, changed, pcs')
      else pcs' <- aset pcs i (Links []) ;; Ok (flags, changed, pcs')
  | Links [] => Ok s
  | Links (n :: l) =>
      if Nat.leb cnt n then pcs' <- aset pcs i (Links l) ;; Ok (flags, changed, pcs')
      else
        cur <- aget lev i ;; f <- aget flags n ;; ln <- aget lev n ;;
        let cur_future := w64 (cur + 1) in
        let neigh_future := w64 (ln + b2Z f) in
        let next := if (w64 (neigh_future + 1) <? cur_future) && negb f then WriteFlag n l else Links l in
        pcs' <- aset pcs i next ;; Ok (flags, changed, pcs')
  | WriteFlag n l => flags' <- aset flags n true ;; pcs' <- aset pcs i (WriteChanged l) ;; Ok (flags', changed, pcs')
  | WriteChanged l => pcs' <- aset pcs i (Links l) ;; Ok (flags, true, pcs')
  end.
Definition ref_sweep (cnt : nat) (lev : list Z) (graph : list (list nat)) (sched : list nat) (flags : list bool)
    : res (list bool * bool * list pc) :=
  rfold (ref_step cnt lev graph) sched (flags, false, repeat Start cnt).

(** AMRGridRefinementHandler.cpp:776-868: at most 100 sweeps, until one changes nothing.  [sched p] is the
    interleaving of the sweep p.  Also returns how many sweeps were done. *)
Fixpoint ref_loop (fuel pass cnt : nat) (lev : list Z) (graph : list (list nat)) (sched : nat -> list nat) (flags : list bool)
    : res (list bool * nat) :=
  match fuel with
  | O => Ok (flags, pass)
  | S fuel' =>
      '(r, _) <- ref_sweep cnt lev graph (sched pass) flags ;;
      let '(flags', changed) := r in
      if changed then ref_loop fuel' (S pass) cnt lev graph sched flags' else Ok (flags', S pass)
  end.
Definition enforce_refinement (cnt : nat) (lev : list Z) (graph : list (list nat)) (sched : nat -> list nat) (flags : list bool) :=
  ref_loop 100 0 cnt lev graph sched flags.

(** The geometry check, AMRGridRefinementHandler.cpp:969-1011: as are_mergeable, with the octants in the order where z is
    fastest. *)
Definition get_coord_z (i : nat) : nat * nat * nat :=
  let tmp := Nat.shiftr i 1 in (Nat.shiftr tmp 1, Nat.modulo tmp 2, Nat.modulo i 2).
Definition get_split_z (mn mx : Z3) : list (Z3 * Z3) :=
  let split := zip3 (fun a b => a + Z.quot (b - a) 2) mn mx in
  let szs := [mn; split; mx] in
  map (fun i => let '(lx, ly, lz) := get_coord_z i in
         ((px (nth lx szs mn), py (nth ly szs mn), pz (nth lz szs mn)),
          (px (nth (S lx) szs mn), py (nth (S ly) szs mn), pz (nth (S lz) szs mn)))) (seq 0 8).
Definition same_box (a b : Z3 * Z3) : bool := eqb3 (fst a) (fst b) && eqb3 (snd a) (snd b).
Definition are_mergeable_z (o : list (Z3 * Z3)) : bool :=
  let m := get_merge o in
  let s := get_split_z (fst m) (snd m) in
  forallb (fun i => same_box (nth i o ((0, 0, 0), (0, 0, 0))) (nth i s ((0, 0, 0), (0, 0, 0)))) (seq 0 8).

(** AMRGridRefinementHandler.cpp:999-1016: what the work item [id] checks besides the eight flags *)
Definition mergeable_at (boxes : list (Z3 * Z3)) (lev : list Z) (ref : list bool) (id : nat) : bool :=
  are_mergeable_z (firstn 8 (skipn id boxes)) &&
  forallb (fun l => nth id lev 0 =? nth (id + l) lev 0) (seq 0 8) &&
  negb (nth id ref false).

(** AMRGridRefinementHandler.cpp:957-1022, the kernel which keeps the merge flags: in place, as in Amr.v (item_step):
    the work item reads the eight flags one after the other, then overwrites its own, in any interleaving. *)
Definition item_step (cnt : nat) (ok : nat -> bool) (gid : nat) (s : list bool * list prog) : res (list bool * list prog) :=
  let '(flags, pr) := s in
  '(k, acc) <- aget pr gid ;;
  if (Nat.leb (gid + 8) cnt) && (Nat.ltb k 8) then
    f <- aget flags (gid + k) ;;
    pr' <- aset pr gid (S k, acc && f) ;; Ok (flags, pr')
  else if Nat.eqb k 9 then Ok s
  else
    let do_merge := if Nat.leb (gid + 8) cnt then acc && ok gid else false in
    flags' <- aset flags gid do_merge ;;
    pr' <- aset pr gid (9%nat, acc) ;; Ok (flags', pr').
Definition merge_kernel (sched : list nat) (cnt : nat) (ok : nat -> bool) (flags : list bool) : res (list bool * list prog) :=
  rfold (item_step cnt ok) sched (flags, repeat (0%nat, true) cnt).

(** AMRGridRefinementHandler.cpp:1086-1130: the new flag of the block [lid], from the flags [old] of the sweep before *)
Definition der_check (cnt : nat) (lev : list Z) (ref old : list bool) (lid nid : nat) (flag : bool) : res bool :=
  if Nat.ltb nid cnt then
    ln <- aget lev nid ;; r <- aget ref nid ;; d <- aget old nid ;; ll <- aget lev lid ;;
    let neigh_future := w64 (ln + b2Z r - b2Z d) in
    let my_future := w64 (ll - 1) in
    Ok (if w64 (my_future + 1) <? neigh_future then false else flag)
  else Ok flag.
Definition der_item (cnt : nat) (lev : list Z) (graph : list (list nat)) (ref old : list bool) (lid : nat) : res bool :=
  f <- aget old lid ;;
  if (f : bool) then
    rfold (fun i fl => l <- aget graph (lid + i) ;; rfold (der_check cnt lev ref old lid) l fl) (seq 0 8) f
  else Ok f.

(** AMRGridRefinementHandler.cpp:1052-1157: at most 100 sweeps with two buffers, until one changes nothing.  acc_changed, to which all the
    items only write 1, is whether some flag changed.  [order p]: the order of the items of the sweep p;
    [other]: the contents of the second buffer. *)
Fixpoint der_loop (fuel pass cnt : nat) (lev : list Z) (graph : list (list nat)) (ref : list bool) (order : nat -> list nat)
    (old other : list bool) : res (list bool) :=
  match fuel with
  | O => Ok old
  | S fuel' =>
      new <- par_write (der_item cnt lev graph ref old) (order pass) other ;;
      if existsb (fun i => xorb (nth i old false) (nth i new false)) (seq 0 cnt)
      then der_loop fuel' (S pass) cnt lev graph ref order new old else Ok new
  end.
Definition enforce_derefinement (boxes : list (Z3 * Z3)) (lev : list Z) (graph : list (list nat)) (ref : list bool)
    (msched : list nat) (order : nat -> list nat) (other der : list bool) : res (list bool) :=
  let cnt := length boxes in
  '(der0, _) <- merge_kernel msched cnt (mergeable_at boxes lev ref) der ;;
  der_loop 100 0 cnt lev graph ref order der0 other.

(** update_refinement_new, AMRGridRefinementHandler.cpp:2601-2604: the flags which are given to the split and to the merge *)
Definition balance (boxes : list (Z3 * Z3)) (lev : list Z) (graph : list (list nat)) (sched : nat -> list nat) (msched : list nat)
    (order : nat -> list nat) (other refine derefine : list bool) : res (list bool * list bool) :=
  '(ref, _) <- enforce_refinement (length boxes) lev graph sched refine ;;
  der <- enforce_derefinement boxes lev graph ref msched order other derefine ;;
  Ok (ref, der).
