(** What a user of evolve_until relies on, apart from the model. *)
From Coq Require Import ZArith List Reals.
From Flocq Require Import Core BinarySingleNaN.
From Verif Require Import Base F64.
Import ListNotations.

(** [run t tr t']: from the time [t], the steps [tr] follow each other and end at [t'] *)
Inductive run : f64 -> list (f64 * f64) -> f64 -> Prop :=
| run_nil t : run t [] t
| run_cons t d tr t' : run (f_add t d) tr t' -> run t ((t, d) :: tr) t'.

(** a time or a time step: a finite nonnegative double that is not absurdly large (below 2^999) *)
Definition sane (x : f64) : Prop := is_finite x = true /\ (0 <= fval x <= bpow radix2 999)%R.

(** the time step proposed to the k-th step: the one the solver holds at the call, then those of the CFL *)
Definition offered (dt0 : f64) (cfl : nat -> f64) (k : nat) : f64 := match k with O => dt0 | S k' => cfl k' end.

(** the distance from x to the next double *)
Definition ulp64 (x : R) : R := ulp radix2 fexp64 x.
