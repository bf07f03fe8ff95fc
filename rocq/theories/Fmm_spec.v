(** Specification vocabulary of the fast multipole operators: tensors as functions of a word of
    coordinate indices, contractions as sums over all words, moments of a set of point masses. *)
Require Import Reals List Factorial.
From Verif Require Import Fmm_tensors.
Import ListNotations.
Local Open Scope R_scope.

(** a coordinate axis *)
Inductive ix : Type := X0 | X1 | X2.
Definition word := list ix.
Definition ixs : list ix := [X0; X1; X2].
Definition ix_eqb (a b : ix) : bool :=
  match a, b with X0, X0 | X1, X1 | X2, X2 => true | _, _ => false end.
Definition comp (v : vec3) (i : ix) : R := match i with X0 => vx v | X1 => vy v | X2 => vz v end.

(** number of occurrences of an axis in a word *)
Definition cnt (i : ix) (w : word) : nat := length (filter (ix_eqb i) w).

(** all the words of a given length: 3^n of them *)
Fixpoint words (n : nat) : list word :=
  match n with O => [[]] | S k => flat_map (fun i => map (cons i) (words k)) ixs end.
Definition Rsum {A} (f : A -> R) (l : list A) : R := fold_right (fun a s => f a + s) 0 l.
(** sum over every choice of n indices *)
Definition csum (n : nat) (f : word -> R) : R := Rsum f (words n).
(** sum for n = 0 .. k *)
Definition nsum (k : nat) (f : nat -> R) : R := Rsum f (seq 0 (S k)).
Definition ifact (n : nat) : R := / INR (fact n).
Definition sgn (n : nat) : R := (-1) ^ n.

(** component [w] of the tensor power v (x) v (x) ... (x) v *)
Definition vprod (v : vec3) (w : word) : R := fold_right (fun i r => comp v i * r) 1 w.

(** The component of a stored symmetric tensor with the given indices, in any order: the stored
    component [v_0..01..12..2] with as many 0s, 1s and 2s as the word. *)
Definition at1 (t : st1) (w : word) : R :=
  match cnt X0 w, cnt X1 w with
  | 1, 0 => v_0 t
  | 0, 1 => v_1 t
  | _, _ => v_2 t
  end%nat.
Definition at2 (t : st2) (w : word) : R :=
  match cnt X0 w, cnt X1 w with
  | 2, 0 => v_00 t
  | 1, 1 => v_01 t
  | 1, 0 => v_02 t
  | 0, 2 => v_11 t
  | 0, 1 => v_12 t
  | _, _ => v_22 t
  end%nat.
Definition at3 (t : st3) (w : word) : R :=
  match cnt X0 w, cnt X1 w with
  | 3, 0 => v_000 t
  | 2, 1 => v_001 t
  | 2, 0 => v_002 t
  | 1, 2 => v_011 t
  | 1, 1 => v_012 t
  | 1, 0 => v_022 t
  | 0, 3 => v_111 t
  | 0, 2 => v_112 t
  | 0, 1 => v_122 t
  | _, _ => v_222 t
  end%nat.
Definition at4 (t : st4) (w : word) : R :=
  match cnt X0 w, cnt X1 w with
  | 4, 0 => v_0000 t
  | 3, 1 => v_0001 t
  | 3, 0 => v_0002 t
  | 2, 2 => v_0011 t
  | 2, 1 => v_0012 t
  | 2, 0 => v_0022 t
  | 1, 3 => v_0111 t
  | 1, 2 => v_0112 t
  | 1, 1 => v_0122 t
  | 1, 0 => v_0222 t
  | 0, 4 => v_1111 t
  | 0, 3 => v_1112 t
  | 0, 2 => v_1122 t
  | 0, 1 => v_1222 t
  | _, _ => v_2222 t
  end%nat.
Definition at5 (t : st5) (w : word) : R :=
  match cnt X0 w, cnt X1 w with
  | 5, 0 => v_00000 t
  | 4, 1 => v_00001 t
  | 4, 0 => v_00002 t
  | 3, 2 => v_00011 t
  | 3, 1 => v_00012 t
  | 3, 0 => v_00022 t
  | 2, 3 => v_00111 t
  | 2, 2 => v_00112 t
  | 2, 1 => v_00122 t
  | 2, 0 => v_00222 t
  | 1, 4 => v_01111 t
  | 1, 3 => v_01112 t
  | 1, 2 => v_01122 t
  | 1, 1 => v_01222 t
  | 1, 0 => v_02222 t
  | 0, 5 => v_11111 t
  | 0, 4 => v_11112 t
  | 0, 3 => v_11122 t
  | 0, 2 => v_11222 t
  | 0, 1 => v_12222 t
  | _, _ => v_22222 t
  end%nat.

(** The component of a collection of tensors of rank lo .. hi: the rank is the length of the word *)
Definition at00 (c : col00) (w : word) : R :=
  match length w with
  | 0 => c00_t0 c
  | _ => 0%R
  end%nat.
Definition at01 (c : col01) (w : word) : R :=
  match length w with
  | 0 => c01_t0 c
  | 1 => at1 (c01_t1 c) w
  | _ => 0%R
  end%nat.
Definition at02 (c : col02) (w : word) : R :=
  match length w with
  | 0 => c02_t0 c
  | 1 => at1 (c02_t1 c) w
  | 2 => at2 (c02_t2 c) w
  | _ => 0%R
  end%nat.
Definition at03 (c : col03) (w : word) : R :=
  match length w with
  | 0 => c03_t0 c
  | 1 => at1 (c03_t1 c) w
  | 2 => at2 (c03_t2 c) w
  | 3 => at3 (c03_t3 c) w
  | _ => 0%R
  end%nat.
Definition at04 (c : col04) (w : word) : R :=
  match length w with
  | 0 => c04_t0 c
  | 1 => at1 (c04_t1 c) w
  | 2 => at2 (c04_t2 c) w
  | 3 => at3 (c04_t3 c) w
  | 4 => at4 (c04_t4 c) w
  | _ => 0%R
  end%nat.
Definition at05 (c : col05) (w : word) : R :=
  match length w with
  | 0 => c05_t0 c
  | 1 => at1 (c05_t1 c) w
  | 2 => at2 (c05_t2 c) w
  | 3 => at3 (c05_t3 c) w
  | 4 => at4 (c05_t4 c) w
  | 5 => at5 (c05_t5 c) w
  | _ => 0%R
  end%nat.
Definition at11 (c : col11) (w : word) : R :=
  match length w with
  | 1 => at1 (c11_t1 c) w
  | _ => 0%R
  end%nat.
Definition at12 (c : col12) (w : word) : R :=
  match length w with
  | 1 => at1 (c12_t1 c) w
  | 2 => at2 (c12_t2 c) w
  | _ => 0%R
  end%nat.
Definition at13 (c : col13) (w : word) : R :=
  match length w with
  | 1 => at1 (c13_t1 c) w
  | 2 => at2 (c13_t2 c) w
  | 3 => at3 (c13_t3 c) w
  | _ => 0%R
  end%nat.
Definition at14 (c : col14) (w : word) : R :=
  match length w with
  | 1 => at1 (c14_t1 c) w
  | 2 => at2 (c14_t2 c) w
  | 3 => at3 (c14_t3 c) w
  | 4 => at4 (c14_t4 c) w
  | _ => 0%R
  end%nat.
Definition at15 (c : col15) (w : word) : R :=
  match length w with
  | 1 => at1 (c15_t1 c) w
  | 2 => at2 (c15_t2 c) w
  | 3 => at3 (c15_t3 c) w
  | 4 => at4 (c15_t4 c) w
  | 5 => at5 (c15_t5 c) w
  | _ => 0%R
  end%nat.

(** Sum over all the ways to share the letters of [w] between a first and a second word
    (2^|w| of them): the binomial expansion of a product of sums *)
Fixpoint shuffle (f g : word -> R) (w : word) : R :=
  match w with
  | [] => f [] * g []
  | i :: w' => shuffle (fun a => f (i :: a)) g w' + shuffle f (fun b => g (i :: b)) w'
  end.

(** point masses *)
Definition pmass := (R * vec3)%type.
Definition vsub (a b : vec3) : vec3 := mkv (vx a - vx b) (vy a - vy b) (vz a - vz b).
Definition vadd (a b : vec3) : vec3 := mkv (vx a + vx b) (vy a + vy b) (vz a + vz b).
(** the multipole moments of a set of point masses about [c] *)
Definition moment (P : list pmass) (c : vec3) (w : word) : R :=
  Rsum (fun mx => fst mx * vprod (vsub (snd mx) c) w) P.

(** move one coordinate of a vector *)
Definition setc (v : vec3) (i : ix) (t : R) : vec3 :=
  match i with
  | X0 => mkv t (vy v) (vz v) | X1 => mkv (vx v) t (vz v) | X2 => mkv (vx v) (vy v) t
  end.
Definition norm2 (v : vec3) : R := vx v * vx v + vy v * vy v + vz v * vz v.

(** [D] is the family of the partial derivatives of 1/|r| up to order [n], at every r <> 0:
    each member is the partial derivative of the previous one *)
Definition potential_derivatives (n : nat) (D : vec3 -> word -> R) : Prop :=
  (forall r, 0 < norm2 r -> D r [] = / sqrt (norm2 r)) /\
  (forall r w i, 0 < norm2 r -> (length w < n)%nat ->
     derivable_pt_lim (fun t => D (setc r i t) w) (comp r i) (D r (i :: w))).

(** the i-th component of the gradient of 1/|r|, expanded to order n around r, at r + e *)
Definition taylor (D : vec3 -> word -> R) (n : nat) (r e : vec3) (i : ix) : R :=
  nsum n (fun k => ifact k * csum k (fun w => D r (i :: w) * vprod e w)).
