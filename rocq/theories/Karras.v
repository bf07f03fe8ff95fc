(** Model of src/shamtree/src/KarrasRadixTree.cpp (construction of the radix tree from sorted Morton codes)
    and of sham::karras_delta (src/shambackends/include/shambackends/math.hpp:825-828).
    The same kernel is in src/shamtree/src/kernels/karras_alg.cpp (older RadixTree class).

    The code buffer is a function [m] with its length [len]; it is only read at checked indices. *)
From Verif Require Import Base Morton.
Local Open Scope Z_scope.

(** conversions to u32 / i32 wrap; int arithmetic that leaves the range is undefined behaviour *)
Definition u32w (x : Z) : Z := x mod 2 ^ 32.
Definition i32w (x : Z) : Z := (x + 2 ^ 31) mod 2 ^ 32 - 2 ^ 31.
Definition i32c (x : Z) : res Z := if (- 2 ^ 31 <=? x) && (x <? 2 ^ 31) then Ok x else UB.

(** karras_delta (math.hpp:825-828): y is compared as u32 with morton_length - 1 *)
Definition karras_delta (w : N) (len : Z) (m : Z -> N) (x y : Z) : res Z :=
  if (u32w y >? u32w (len - 1)) || (y <? 0) then Ok (-1)
  else if (0 <=? x) && (x <? len) && (y <? len) then Ok (Z.of_N (clz_xor w (m x) (m y))) else UB.

(** int -> float conversion (binary32, round to nearest, ties to even) of a non negative integer *)
Definition fl32 (l : Z) : Z :=
  if l <? 2 ^ 24 then l
  else let e := Z.log2 l - 23 in
       let q := l / 2 ^ e in let r := l mod 2 ^ e in
       let up := (2 ^ (e - 1) <? r) || ((2 ^ (e - 1) =? r) && Z.odd q) in
       (if up then q + 1 else q) * 2 ^ e.
(** sycl::ceil(l / div) with div = 2^k: the division by a power of two is exact *)
Definition ceil_half (l k : Z) : Z := (fl32 l + 2 ^ k - 1) / 2 ^ k.

Record cell := mkcell { lchild : Z; lflag : bool; rchild : Z; rflag : bool; endrange : Z }.

Section Kernel.
  Variable w : N.
  Variable len : Z.
  Variable m : Z -> N.
  Notation DELTA := (karras_delta w len m).

  (** lines 90-93 *)
  Fixpoint lmax_loop (fuel : nat) (i d dmin lmax : Z) : res Z :=
    match fuel with
    | O => UB
    | S f =>
        p <- i32c (lmax * d) ;;
        v <- DELTA i (i32w (i + p)) ;;
        if v >? dmin then lmax2 <- i32c (lmax * 2) ;; lmax_loop f i d dmin lmax2
        else Ok lmax
    end.
  (** lines 96-103 *)
  Fixpoint l_loop (fuel : nat) (i d dmin l t : Z) : res Z :=
    if t >? 0 then
      match fuel with
      | O => UB
      | S f =>
          p <- i32c ((l + t) * d) ;;
          v <- DELTA i (i32w (i + p)) ;;
          l_loop f i d dmin (if v >? dmin then l + t else l) (t / 2)
      end
    else Ok l.
  (** lines 110-124; [k] is the exponent of div *)
  Fixpoint split_loop (fuel : nat) (i d dnode l s t k : Z) : res Z :=
    match fuel with
    | O => UB
    | S f =>
        p <- i32c ((s + t) * d) ;;
        v <- DELTA i (i32w (i + p)) ;;
        let s' := if v >? dnode then s + t else s in
        if t <=? 1 then Ok s' else split_loop f i d dnode l s' (ceil_half l (k + 1)) (k + 1)
    end.
  (** lines 72-142 *)
  Definition karras_cell (i : Z) : res cell :=
    a <- DELTA i (i32w (i + 1)) ;;
    b <- DELTA i (i32w (i - 1)) ;;
    let d := Z.sgn (a - b) in
    dmin <- DELTA i (i32w (i - d)) ;;
    lmax <- lmax_loop 40 i d dmin 2 ;;
    l <- l_loop 40 i d dmin 0 (lmax / 2) ;;
    let j := u32w (i + l * d) in
    dnode <- DELTA i (i32w j) ;;
    s <- split_loop 40 i d dnode l 0 (ceil_half l 1) 1 ;;
    let gamma := i32w (i + s * d + Z.min d 0) in
    Ok (mkcell gamma (Z.min i j =? u32w gamma) (gamma + 1) (Z.max i j =? u32w (gamma + 1)) j).
End Kernel.

(** __karras_alg (lines 45-143): one work item per internal cell, in any order.  The five output
    buffers (all written at index i by work item i) are modelled by one list of records, resized to
    internal_cell_count by karras_tree_from_morton_set (lines 153-180); [old] is their previous content. *)
Definition karras_alg (w : N) (m : list N) (order : list nat) (old : list cell) : res (list cell) :=
  if (length m - 1 =? 0)%nat then Ok old
  else par_for order (fun i out =>
         c <- karras_cell w (Z.of_nat (length m)) (fun k => nth (Z.to_nat k) m 0%N) (Z.of_nat i) ;;
         aset out i c) old.
