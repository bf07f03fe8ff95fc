(** Model of src/shamalgs/src/details/algorithm/bitonicSort_updated_usm.cpp.

    [K] and [V] are the key and value types, [ltb] is the operator < of the keys.  The u32 / i32 index
    arithmetic is done on nat: since len is a power of two below 2^32, every value that is computed is
    at most 2^31 (length << 1 <= len, all indices < len), so nothing wraps. *)
From Verif Require Import Base Integer.

Section Bitonic.
  Context {K V : Type} (ltb : K -> K -> bool).

  (** OrderingPrimitive::_order / _orderV (lines 29-52): the new values of the two elements. *)
  Definition order1 (p q : K * V) (reverse : bool) : (K * V) * (K * V) :=
    let swap := xorb reverse (ltb (fst p) (fst q)) in
    (if swap then q else p, if swap then p else q).
  (** The local arrays x[] and vx[] of a work item are modelled by one list of pairs. *)
  Definition orderV (x : list (K * V)) (a b : nat) (reverse : bool) : res (list (K * V)) :=
    p <- aget x a ;; q <- aget x b ;;
    let '(p', q') := order1 p q reverse in
    x <- aset x a p' ;; aset x b q'.

  (** order_stencil<2^s> (lines 57-105).  order_stencil<2> is the case s = 1. *)
  Fixpoint order_stencil (s : nat) (x : list (K * V)) (a : nat) (reverse : bool) : res (list (K * V)) :=
    match s with
    | O => Ok x
    | S s' =>
        let h := 2 ^ s' in
        x <- rfold (fun i x => orderV x (a + i) (a + i + h) reverse) (seq 0 h) x ;;
        x <- order_stencil s' x a reverse ;;
        order_stencil s' x (a + h) reverse
    end.

  Fixpoint gather {A} (m : list A) (idx : list nat) : res (list A) :=
    match idx with [] => Ok [] | i :: t => v <- aget m i ;; r <- gather m t ;; Ok (v :: r) end.
  Fixpoint scatter {A} (m : list A) (idx : list nat) (vs : list A) : res (list A) :=
    match idx, vs with
    | i :: t, v :: r => m <- aset m i v ;; scatter m t r
    | _, _ => Ok m
    end.

  (** order_kernel<2^s> (lines 111-281).  order_kernel<4> (lines 214-252) is written without loop:
      _order(0,2), _order(1,3), _order(0,1), _order(2,3), which is order_stencil<4>; order_kernel<2>
      (lines 254-281) calls _order(0,1) and computes i as (t << 1) - low. *)
  Definition order_kernel (s : nat) (inc length : nat) (t : nat) (st : list K * list V) : res (list K * list V) :=
    let '(m, id) := st in
    let _inc := Nat.shiftr inc (s - 1) in
    let _dir := length * 2 in
    let low := Nat.land t (_inc - 1) in
    let i := if s =? 1 then t * 2 - low else (t - low) * 2 ^ s + low in
    let reverse := Nat.land _dir i =? 0 in
    let idx := map (fun k => k * _inc + i) (seq 0 (2 ^ s)) in
    x <- gather m idx ;;
    v <- gather id idx ;;
    xv <- order_stencil s (combine x v) 0 reverse ;;
    m <- scatter m idx (map fst xv) ;;
    id <- scatter id idx (map snd xv) ;;
    Ok (m, id).

  (** The choice of the kernel (lines 303-391). *)
  Definition ninc_of (maxstencil inc : nat) : nat :=
    if (32 <=? maxstencil) && (16 <=? inc) then 5
    else if (16 <=? maxstencil) && (8 <=? inc) then 4
    else if (8 <=? maxstencil) && (4 <=? inc) then 3
    else if (4 <=? maxstencil) && (2 <=? inc) then 2
    else 1.

  (** sort_by_key_bitonic_updated_usm (lines 284-396).  [order length inc n] is the order in which the n
      work items of the kernel submitted at (length, inc) run; kernel_call refuses an empty range. *)
  Fixpoint inc_loop (fuel : nat) (maxstencil len : nat) (order : nat -> nat -> nat -> list nat) (length inc : nat)
    (st : list K * list V) : res (list K * list V) :=
    match inc with
    | O => Ok st
    | _ =>
        match fuel with
        | O => UB
        | S f =>
            let ninc := ninc_of maxstencil inc in
            let nThreads := Nat.shiftr len ninc in
            st <- (if nThreads =? 0 then Throw
                   else par_for (order length inc nThreads) (order_kernel ninc inc length) st) ;;
            inc_loop f maxstencil len order length (Nat.shiftr inc ninc) st
        end
    end.
  Fixpoint length_loop (fuel : nat) (maxstencil len : nat) (order : nat -> nat -> nat -> list nat) (length : nat)
    (st : list K * list V) : res (list K * list V) :=
    if length <? len then
      match fuel with
      | O => UB
      | S f =>
          st <- inc_loop 33 maxstencil len order length length st ;;
          length_loop f maxstencil len order (length * 2) st
      end
    else Ok st.
  Definition sort_by_key (maxstencil len : nat) (order : nat -> nat -> nat -> list nat) (keys : list K) (vals : list V)
    : res (list K * list V) :=
    if negb (is_pow_of_two 32 (N.of_nat len)) then Throw
    else length_loop 33 maxstencil len order 1 (keys, vals).
End Bitonic.
