(** The time control of a run: evolve_until of the SPH solver.  The physics of a step is abstract (the time step
    it asks for next is any sequence), the times are IEEE doubles. *)
From Coq Require Import ZArith List Bool Lia.
From Flocq Require Import Core BinarySingleNaN.
From Verif Require Import Base F64.
Import ListNotations.
Local Open Scope Z_scope.

(** src/shammodels/sph/include/shammodels/sph/Solver.hpp:56-62 *)
Record ev_res := EvRes { reach_target_time : bool; reach_niter_max : bool; reach_max_walltime : bool; iter_count : Z }.

(** The arguments (Solver.hpp:305-306) and what the run meets: [e_cfl k] is the time step asked for by the k-th call
    of evolve_once (src/shammodels/sph/src/Solver.cpp:3253, next_cfl), [e_wt k] the k-th value of synced_wtime
    (Solver.hpp:322-327; the maximum over the ranks, hence the same on each).
    The scalars are doubles: the solvers instantiated are those of f64_3. *)
Record ev_env := EvEnv { e_target : f64; e_niter_max : Z; e_max_walltime : f64; e_cfl : nat -> f64; e_wt : nat -> f64 }.

(** How a call ends: [Returns r t tr], at time [t] after the steps [tr] (the time and the time step each evolve_once
    starts from, as it logs them, src/shammodels/sph/src/Solver.cpp:1963); an exception; undefined behaviour; or
    [Running], when it has not ended within the given number of turns of the loop. *)
Inductive ev_out :=
| Returns (r : ev_res) (t : f64) (tr : list (f64 * f64))
| Running (t : f64) (tr : list (f64 * f64))
| Throws
| Undefined.

(** Solver.hpp:308-309 *)
Definition niter_limit_active (e : ev_env) : bool := 0 <=? e_niter_max e.
Definition walltime_limit_active (e : ev_env) : bool := f_leb f_zero (e_max_walltime e).

Definition i32_max : Z := 2 ^ 31 - 1.

(** step, Solver.hpp:329-342: the time step given to evolve_once *)
Definition clamp_dt (target t dt : f64) : f64 := if f_ltb target (f_add t dt) then f_sub target t else dt.

(** get_remaining_iters (max_walltime - global_walltime, 0.25), Solver.hpp:395-404 *)
Definition remaining_iters (sec_per_iter delta : f64) : res Z :=
  if f_ltb f_zero sec_per_iter then
    let tmp := f_div (f_mul (f_div (f_of_Z 1) (f_of_Z 4)) delta) sec_per_iter in
    if f_ltb (f_of_Z i32_max) tmp then Ok i32_max else f_to_i32 tmp
  else Ok 1000.

(** the loop, Solver.hpp:351-423, with evolve_once reduced to its effect on the time and the time step
    (src/shammodels/sph/src/Solver.cpp:1956-1957, 3253-3254).  i32 additions that overflow are undefined.
    Logging is left out. *)
Fixpoint ev_loop (fuel : nat) (e : ev_env) (start : f64) (t dt : f64) (iter next : Z) (rd : nat) (tr : list (f64 * f64))
  : ev_out :=
  match fuel with
  | O => Running t tr
  | S fuel' =>
    if f_ltb t (e_target e) then
      if f_ltb (e_target e) t then Throws else
      let dt1 := clamp_dt (e_target e) t dt in
      let t1 := f_add t dt1 in
      let dt2 := e_cfl e (length tr) in
      let tr1 := tr ++ [(t, dt1)] in
      if iter =? i32_max then Undefined else
      let it := iter + 1 in
      if niter_limit_active e && (e_niter_max e <=? it) then Returns (EvRes false true false it) t1 tr1
      else if walltime_limit_active e && (next <=? it) then
        let g := e_wt e rd in
        if f_leb (e_max_walltime e) g then Returns (EvRes false false true it) t1 tr1
        else
          let spi := f_div (f_sub g start) (f_of_Z it) in
          match remaining_iters spi (f_sub (e_max_walltime e) g) with
          | Ok r => if i32_max <? it + Z.max 1 r then Undefined
                    else ev_loop fuel' e start t1 dt2 it (it + Z.max 1 r) (S rd) tr1
          | _ => Undefined
          end
      else ev_loop fuel' e start t1 dt2 it next rd tr1
    else Returns (EvRes true false false iter) t tr
  end.

(** evolve_until, Solver.hpp:305-434 (344-349 set the loop up) *)
Definition evolve_until (fuel : nat) (e : ev_env) (t0 dt0 : f64) : ev_out :=
  let start := if walltime_limit_active e then e_wt e 0 else f_zero in
  let next := if walltime_limit_active e then 1 else i32_max in
  ev_loop fuel e start t0 dt0 0 next 1 [].
