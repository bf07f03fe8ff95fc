(** Decoupled look-back scans.  Definitions only.
    src/shamalgs/include/shamalgs/details/numeric/scanDecoupledLookback.hpp and
    src/shamalgs/include/shamalgs/atomic/DynamicIdGenerator.hpp.

    The kernel is modelled as a concurrent program: one sequential process per work-group (its
    main thread; the other lanes only take part in the group collectives and in the per-lane loads
    and stores, which are separate steps here).  A schedule is a list of pairs (group, staleness):
    at each point the named group performs its next atomic step.  The tile states are relaxed
    atomics: a load may return any value the cell has held ([staleness] counts how far back),
    which over-approximates C++ coherence.  T = u32, group ids are [nat]. *)
From Verif Require Import Base Integer Scan.
Local Open Scope nat_scope.

(** src/shambackends/include/shambackends/math.hpp:613-615. *)
Definition pack32 (a b : Z) : Z := (w64 (w64 (a * 2 ^ 32) + b))%Z.
Definition unpack32 (v : Z) : Z * Z := (w32 (v / 2 ^ 32), w32 v)%Z.
Definition STATE_X : Z := 0%Z.
Definition STATE_A : Z := 1%Z.
Definition STATE_P : Z := 2%Z.

(** Which kernel: [Shifted]: lines 270-385 (sycl::buffer) and 391-517 (USM), input and output are
    two buffers; [InPlace]: lines 523-642; [InPlaceShifted]: lines 232-264 with [scan] (165-197). *)
Inductive variant := Shifted | InPlace | InPlaceShifted.

(** How a work-group gets its tile: [Dyn]: fetch_add on the counter (DynamicIdGenerator.hpp:101-124),
    [Static]: get_group_linear_id (lines 250, 691). *)
Inductive id_mode := Dyn | Static.

Record config := mkCfg { c_var : variant; c_ids : id_mode; c_G : nat (* group_size *);
                         c_N : nat (* number of groups *); c_len : nat }.

Inductive phase :=
| PIdle                                              (* not started *)
| PRead (g : nat) (vals : list Z)                    (* lanes read their value, one by one *)
| PPublish (g : nat) (vals : list Z)                 (* lines 339-353 *)
| PLook (g : nat) (vals : list Z) (accum : Z) (ptr1 : nat)   (* 355-366; ptr1 = tile_ptr + 1 *)
| PFinal (g : nat) (vals : list Z) (accum : Z)       (* 369-371 *)
| PWrite (g : nat) (vals : list Z) (accum : Z) (lane : nat)  (* 378-380, lane by lane *)
| PDone (g : nat).

Record state := mkSt {
  s_counter : nat;                (* DynamicIdGenerator::group_id[0] *)
  s_tiles : list (list Z);        (* each tile: values stored so far, newest first *)
  s_in : list Z; s_out : list Z;
  s_phase : list phase }.

Definition set_phase (p : nat) (ph : phase) (s : state) : state :=
  mkSt (s_counter s) (s_tiles s) (s_in s) (s_out s) (upd (s_phase s) p ph).

(** The value a lane feeds to the group scan: line 323 / 445-446 ([Shifted]), 580 ([InPlace]),
    254 ([InPlaceShifted]). *)
Definition lane_value (c : config) (s : state) (gid : nat) : res Z :=
  match c_var c with
  | Shifted => if (0 <? gid) && (gid <? c_len c) then aget (s_in s) (gid - 1) else Ok 0%Z
  | InPlace => if gid <? c_len c then aget (s_out s) gid else Ok 0%Z
  | InPlaceShifted => if (0 <? gid) && (gid <? c_len c) then aget (s_out s) (gid - 1) else Ok 0%Z
  end.
(** inclusive_scan_over_group (327, 450, 174) / exclusive_scan_over_group (584), per lane. *)
Definition group_scan (c : config) (vals : list Z) (lane : nat) : Z :=
  match c_var c with
  | InPlace => w32 (fold_left Z.add (firstn lane vals) 0%Z)
  | _ => w32 (fold_left Z.add (firstn (S lane) vals) 0%Z)
  end.
(** local_scan_buf[0], stored by the last lane: 331-333, 454-456, 177-179 / 588-590. *)
Definition group_sum (c : config) (vals : list Z) : Z :=
  match c_var c with
  | InPlace => w32 (group_scan c vals (c_G c - 1) + nth (c_G c - 1) vals 0%Z)
  | _ => group_scan c vals (c_G c - 1)
  end.

Definition tile_store (g : nat) (v : Z) (s : state) : res state :=
  h <- aget (s_tiles s) g ;;
  t <- aset (s_tiles s) g (v :: h) ;;
  Ok (mkSt (s_counter s) t (s_in s) (s_out s) (s_phase s)).
Definition tile_load (g : nat) (stale : nat) (s : state) : res Z :=
  h <- aget (s_tiles s) g ;;
  aget h (Nat.min stale (length h - 1)).

(** One atomic step of work-group [p]. *)
Definition step (c : config) (ps : nat * nat) (s : state) : res state :=
  let '(p, stale) := ps in
  match nth_error (s_phase s) p with
  | None => Ok s                        (* no such group: nothing is scheduled *)
  | Some PIdle =>
      let g := match c_ids c with Dyn => s_counter s | Static => p end in
      Ok (set_phase p (PRead g []) (mkSt (S (s_counter s)) (s_tiles s) (s_in s) (s_out s) (s_phase s)))
  | Some (PRead g vals) =>
      if length vals <? c_G c then
        v <- lane_value c s (g * c_G c + length vals) ;;
        Ok (set_phase p (PRead g (vals ++ [v])) s)
      else Ok (set_phase p (PPublish g vals) s)
  | Some (PPublish g vals) =>
      if g =? 0 then Ok (set_phase p (PFinal g vals 0%Z) s)
      else s' <- tile_store g (pack32 STATE_A (group_sum c vals)) s ;;
           Ok (set_phase p (PLook g vals 0%Z g) s')
  | Some (PLook g vals accum ptr1) =>
      if ptr1 =? 0 then UB (* tile_ptr wrapped to 2^32 - 1: out of bounds *) else
      v <- tile_load (ptr1 - 1) stale s ;;
      let '(st, val) := unpack32 v in
      if (st =? STATE_X)%Z then Ok s (* do .. while *)
      else
        let accum := w32 (accum + val) in
        if (st =? STATE_P)%Z then Ok (set_phase p (PFinal g vals accum) s)
        else Ok (set_phase p (PLook g vals accum (ptr1 - 1)) s)
  | Some (PFinal g vals accum) =>
      s' <- tile_store g (pack32 STATE_P (w32 (accum + group_sum c vals))) s ;;
      Ok (set_phase p (PWrite g vals accum 0) s')
  | Some (PWrite g vals accum lane) =>
      if lane <? c_G c then
        let gid := g * c_G c + lane in
        if gid <? c_len c then
          o <- aset (s_out s) gid (w32 (group_scan c vals lane + accum)) ;;
          Ok (set_phase p (PWrite g vals accum (S lane)) (mkSt (s_counter s) (s_tiles s) (s_in s) o (s_phase s)))
        else Ok (set_phase p (PWrite g vals accum (S lane)) s)
      else Ok (set_phase p (PDone g) s)
  | Some (PDone g) => Ok s
  end.

(** buf_fill_discard of the tiles and of the id counter (lines 212, 291, 409-410, 544;
    DynamicIdGenerator.hpp:141-143). [out0]: the buffer written to, before the kernel: the
    uninitialised result buffer for [Shifted], the data itself for the in-place variants. *)
Definition init (c : config) (inp out0 : list Z) : state :=
  mkSt 0 (repeat [pack32 STATE_X 0] (c_N c)) inp out0 (repeat PIdle (c_N c)).
Definition run (c : config) (sched : list (nat * nat)) (s : state) : res state := rfold (step c) sched s.
Definition done (s : state) : Prop := forall ph, In ph (s_phase s) -> exists g, ph = PDone g.

(** Number of groups launched: lines 273-276, 394-397, 527-530 ([group_cnt + group_cnt % 4]). *)
Definition lookback_groups (len group_size : N) : res N :=
  c <- group_count len group_size ;;
  Ok ((c + c mod 4) mod 2 ^ 32)%N.
