(** Model of src/shamrock/include/shamrock/scheduler/loadbalance/LoadBalanceStrategy.hpp.

    Torder is any type with a comparison; Tweight is u64.  std::sort is any function [srt] (see the
    hypotheses in the theorems).  Doubles are IEEE binary64 (F64.v). *)
From Verif Require Import Base F64.
Local Open Scope Z_scope.

Section LB.
Variable Torder : Type.

(** TileWithLoad (lines 28-32), LoadBalancedTile (lines 36-48) *)
Record tile := Tile { ordering_val : Torder; load_value : Z }.
Record lbtile := LBTile { b_order : Torder; b_load : Z; b_accum : Z; b_index : nat; b_owner : Z }.
Definition mk_lbtile (t : tile) (i : nat) : lbtile := LBTile (ordering_val t) (load_value t) 0 i 0.

(** the OpenMP loop at lines 81-84 *)
Definition init_tiles (v : list tile) : list lbtile := map (fun '(t, i) => mk_lbtile t i) (combine v (seq 0 (length v))).

(** the accumulation loop (lines 90-95 with [inc] = load_value, lines 160-166 with [inc] = 1); u64 wraps *)
Fixpoint accumulate (inc : lbtile -> Z) (accum : Z) (l : list lbtile) : list lbtile :=
  match l with
  | [] => []
  | t :: l' => LBTile (b_order t) (b_load t) accum (b_index t) (b_owner t) :: accumulate inc (w64 (accum + inc t)) l'
  end.

(** sycl::clamp: undefined when lo > hi *)
Definition clamp (x lo hi : Z) : res Z := if hi <? lo then UB else Ok (Z.min (Z.max x lo) hi).

(** lines 99-107: owner of a tile *)
Definition tile_owner (target : f64) (wsize : Z) (accum : Z) : res Z :=
  if f_eqb target f_zero then Ok 0
  else v <- f_to_i32 (f_div (f_of_Z accum) target) ;; clamp v 0 (wsize - 1).

(** a loop computing one value per element *)
Fixpoint rmapl {A B} (f : A -> res B) (l : list A) : res (list B) :=
  match l with [] => Ok [] | a :: t => b <- f a ;; r <- rmapl f t ;; Ok (b :: r) end.

(** lb_startegy_parallel_sweep (lines 74-128) and lb_startegy_roundrobin (lines 139-198), which only differ by
    the increment.  An empty list reads res[size - 1] out of bounds. *)
Definition lb_strategy (srt : list lbtile -> list lbtile) (inc : lbtile -> Z) (v : list tile) (wsize : Z) : res (list Z) :=
  let res0 := accumulate inc 0 (srt (init_tiles v)) in
  last <- (if (length res0 =? 0)%nat then UB else aget res0 (length res0 - 1)) ;;
  let target := f_div (f_of_Z (b_accum last)) (f_of_Z wsize) in
  owners <- rmapl (fun t => o <- tile_owner target wsize (b_accum t) ;; Ok (b_index t, o)) res0 ;;
  rfold (fun '(i, o) out => aset out i o) owners (repeat 0 (length res0)).
Definition parallel_sweep srt := lb_strategy srt b_load.
Definition roundrobin srt := lb_strategy srt (fun _ => 1).

(** compute_LB_metric (lines 217-259): only the field [max] is used by the choice of the strategy *)
Definition f_max (x y : f64) : f64 := if f_ltb x y then y else x.
Definition load_per_node (v : list tile) (owners : list Z) (wsize : Z) : res (list Z) :=
  rfold (fun '(i, t) loads =>
           o <- aget owners i ;;
           if o <? 0 then UB else
           x <- aget loads (Z.to_nat o) ;; aset loads (Z.to_nat o) (w64 (x + load_value t)))
        (combine (seq 0 (length v)) v) (repeat 0 (Z.to_nat wsize)).
Definition metric_max (v : list tile) (owners : list Z) (wsize : Z) (weight : f64) : res f64 :=
  loads <- load_per_node v owners wsize ;;
  Ok (f_mul (fold_left (fun m x => f_max m (f_of_Z x)) loads f_ninf) weight).

(** load_balance (lines 274-318); the literal 0.95 is the double nearest to 95/100 *)
Definition load_balance (srt : list lbtile -> list lbtile) (v : list tile) (world_size : Z) : res (list Z) :=
  r1 <- parallel_sweep srt v world_size ;;
  m1 <- metric_max v r1 world_size (f_of_Z 1) ;;
  r2 <- roundrobin srt v world_size ;;
  m2 <- metric_max v r2 world_size (f_div (f_of_Z 95) (f_of_Z 100)) ;;
  Ok (if f_ltb m2 m1 then r2 else r1).
End LB.
Arguments Tile {Torder}. Arguments ordering_val {Torder}. Arguments load_value {Torder}.
Arguments b_order {Torder}. Arguments b_load {Torder}. Arguments b_accum {Torder}. Arguments b_index {Torder}. Arguments b_owner {Torder}.
Arguments init_tiles {Torder}. Arguments accumulate {Torder}. Arguments lb_strategy {Torder}. Arguments LBTile {Torder}.
Arguments parallel_sweep {Torder}. Arguments roundrobin {Torder}. Arguments load_per_node {Torder}. Arguments metric_max {Torder}.
Arguments load_balance {Torder}.
