(** Model of src/shammath/include/shammath/sfc/hilbert.hpp (integer part). *)
From Verif Require Import Base Morton.
Open Scope N_scope.

(** u64 X[3] *)
Definition getX (X : vec3) (i : nat) : N := let '(a, b, c) := X in match i with O => a | S O => b | _ => c end.
Definition setX (X : vec3) (i : nat) (v : N) : vec3 :=
  let '(a, b, c) := X in match i with O => (v, b, c) | S O => (a, v, c) | _ => (a, b, v) end.

(** for (Q = M; Q > 1; Q >>= 1) body; [fuel] bounds the number of iterations, running out of it is UB. *)
Fixpoint for_Q {S} (fuel : nat) (Q : N) (body : N -> S -> S) (s : S) : res S :=
  if 1 <? Q then
    match fuel with
    | O => UB
    | Datatypes.S f => for_Q f (N.shiftr Q 1) body (body Q s)
    end
  else Ok s.

(** The inner loop (hilbert.hpp:46-54). *)
Definition hil_step (Q P : N) (X : vec3) (i : nat) : vec3 :=
  if negb (N.land (getX X i) Q =? 0) then setX X 0 (N.lxor (getX X 0) P)
  else
    let t := N.land (N.lxor (getX X 0) (getX X i)) P in
    let X := setX X 0 (N.lxor (getX X 0) t) in
    setX X i (N.lxor (getX X i) t).
Definition hil_body (Q : N) (X : vec3) : vec3 :=
  let P := Q - 1 in
  fold_left (hil_step Q P) [0; 1; 2]%nat X.

(** compute_hilbert_index_3d<bits> (hilbert.hpp:36-72; copy at 148-185).  M = 1 << (bits-1) is an int
    expression: bits <= 31. *)
Definition compute_hilbert_index_3d (bits : N) (x y z : N) : res N :=
  let M := N.shiftl 1 (bits - 1) in
  let X := (x, y, z) in
  X <- for_Q (N.to_nat bits) M hil_body X ;;
  let X := setX X 1 (N.lxor (getX X 1) (getX X 0)) in
  let X := setX X 2 (N.lxor (getX X 2) (getX X 1)) in
  t <- for_Q (N.to_nat bits) M (fun Q t => if negb (N.land (getX X 2) Q =? 0) then N.lxor t (Q - 1) else t) 0 ;;
  let X := fold_left (fun X i => setX X i (N.lxor (getX X i) t)) [0; 1; 2]%nat X in
  let X := setX X 0 (shl 64 (expand_bits_64_2 (getX X 0)) 2) in
  let X := setX X 1 (shl 64 (expand_bits_64_2 (getX X 1)) 1) in
  let X := setX X 2 (expand_bits_64_2 (getX X 2)) in
  Ok (((getX X 0 + getX X 1) mod 2 ^ 64 + getX X 2) mod 2 ^ 64).

(** HilbertCurve<u64,3>::icoord_to_hilbert (hilbert.hpp:85-87). *)
Definition icoord_to_hilbert (x y z : N) : res N := compute_hilbert_index_3d 21 x y z.
Definition hilbert_max_val : N := 2097152 - 1.

(** HilbertCurve<quad_hilbert_num,3>::icoord_to_hilbert (hilbert.hpp:116-141). *)
Definition quad_divisor : N := hilbert_max_val + 1.
Definition quad_max_val : N := quad_divisor * quad_divisor - 1.
Definition quad_icoord_to_hilbert (x y z : N) : res (N * N) :=
  u <- compute_hilbert_index_3d 21 (x / quad_divisor) (y / quad_divisor) (z / quad_divisor) ;;
  l <- compute_hilbert_index_3d 21 (x mod quad_divisor) (y mod quad_divisor) (z mod quad_divisor) ;;
  Ok (u, l).
