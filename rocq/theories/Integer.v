(** Model of src/shambase/include/shambase/integer.hpp, endian.hpp, narrowing.hpp.
    Unsigned words of [w] bits are [N] values below 2^w. *)
From Verif Require Import Base.
Local Open Scope N_scope.

(** [v - 1] and [v + 1] on an unsigned [w]-bit word. *)
Definition wpred (w v : N) : N := (v + (2 ^ w - 1)) mod 2 ^ w.
Definition wsucc (w v : N) : N := (v + 1) mod 2 ^ w.

(** integer.hpp:35-38 [is_pow_of_two_fast] (unsigned T; signed instantiations are not modelled). *)
Definition is_pow_of_two_fast (w v : N) : bool := N.land v (wpred w v) =? 0.

(** integer.hpp:48-51 [is_pow_of_two]: [v && !(v & (v - 1))]. *)
Definition is_pow_of_two (w v : N) : bool :=
  negb (v =? 0) && negb (negb (N.land v (wpred w v) =? 0)).

(** One line [v |= v >> s] of integer.hpp:96-101 and 107-113. *)
Definition smear (v s : N) : N := N.lor v (N.shiftr v s).

(** integer.hpp:92-118 [roundup_pow2], 32-bit branch (94-103) and 64-bit branch (105-116). *)
Definition roundup_pow2_32 (v : N) : N :=
  let v := wpred 32 v in
  let v := smear v 1 in let v := smear v 2 in let v := smear v 4 in
  let v := smear v 8 in let v := smear v 16 in
  wsucc 32 v.
Definition roundup_pow2_64 (v : N) : N :=
  let v := wpred 64 v in
  let v := smear v 1 in let v := smear v 2 in let v := smear v 4 in
  let v := smear v 8 in let v := smear v 16 in let v := smear v 32 in
  wsucc 64 v.

(** src/shambackends/include/shambackends/math.hpp:804-813 [roundup_pow2_clz] on an unsigned word of w
    bits, with math.hpp:741-772 [clz] (sycl::clz: clz(0) = w).  [1U << s] is a 32-bit shift whatever T
    is: s >= 32 is UB. *)
Definition roundup_pow2_clz (w v : N) : res N :=
  if 2 ^ (w - 1) <? v then Ok 0
  else if is_pow_of_two w v then Ok v
  else let s := w - (w - N.size v) in
       if s <? 32 then Ok (2 ^ s mod 2 ^ w) else UB.

(** integer.hpp:125-127 [group_count] on u32 (wraps modulo 2^32; division by zero is UB). *)
Definition group_count (len group_size : N) : res N :=
  if group_size =? 0 then UB
  else Ok (((len + group_size + (2 ^ 32 - 1)) mod 2 ^ 32) / group_size).

(** integer.hpp:137-140 [select_bit]: [(value >> bitnum) & 1]; shifting by >= w bits is UB. *)
Definition select_bit (w value bitnum : N) : res N :=
  if bitnum <? w then Ok (N.land (N.shiftr value bitnum) 1) else UB.

(** integer.hpp:148-151 [most_sig_bit_mask] and 160-163 [is_most_sig_bit_set] (on the
    unsigned representation of the value). *)
Definition most_sig_bit_mask (w : N) : N := (N.shiftl 1 (w - 1)) mod 2 ^ w.
Definition is_most_sig_bit_set (w x : N) : bool := negb (N.land x (most_sig_bit_mask w) =? 0).

(** integer.hpp:173-185 [pow_constexpr<power>]: C++ [%] and [/] truncate toward zero; when no
    branch is selected the function falls off its end (UB).  [fuel] bounds the template
    recursion. The value type is modelled by [Z]. *)
Fixpoint pow_constexpr (fuel : nat) (power : Z) (a : Z) : res Z :=
  match fuel with
  | O => UB
  | S fuel =>
    if Z.eqb power 0 then Ok 1%Z
    else if Z.eqb (Z.rem power 2) 0 then
      (tmp <- pow_constexpr fuel (Z.quot power 2) a ;; Ok (tmp * tmp)%Z)
    else if Z.eqb (Z.rem power 2) 1 then
      (tmp <- pow_constexpr fuel (Z.quot (power - 1) 2) a ;; Ok (tmp * tmp * a)%Z)
    else UB
  end.

(** integer.hpp:76-80 [xor_swap] applied to two cells of a byte array; the cells may alias,
    as in C++. *)
Definition xor_swap_cells (mem : list N) (i j : nat) : res (list N) :=
  a <- aget mem i ;; b <- aget mem j ;; mem <- aset mem i (N.lxor a b) ;;
  b <- aget mem j ;; a <- aget mem i ;; mem <- aset mem j (N.lxor b a) ;;
  a <- aget mem i ;; b <- aget mem j ;; aset mem i (N.lxor a b).

(** endian.hpp:44-68 [endian_swap]: the object is its byte list; [sz = sizeof(a)]. *)
Definition endian_steps (sz : nat) : nat :=
  if Nat.even sz then Nat.div sz 2 else Nat.div (sz - 1) 2.
Definition endian_swap (bytes : list N) : res (list N) :=
  let sz := length bytes in
  rfold (fun i mem => xor_swap_cells mem i (sz - 1 - i)%nat) (seq 0 (endian_steps sz)) bytes.

(* ------------------------------------------------------------------ *)
(** ** narrowing.hpp *)
Local Open Scope Z_scope.

(** An integral C++ type: signedness and bit width. *)
Record itype := { it_signed : bool; it_width : Z }.
Definition it_min (t : itype) : Z := if it_signed t then - 2 ^ (it_width t - 1) else 0.
Definition it_max (t : itype) : Z :=
  if it_signed t then 2 ^ (it_width t - 1) - 1 else 2 ^ it_width t - 1.
(** [static_cast<t>(v)]: two's complement wrap (C++20). *)
Definition it_cast (t : itype) (v : Z) : Z :=
  let m := v mod 2 ^ it_width t in
  if it_signed t then (if m <? 2 ^ (it_width t - 1) then m else m - 2 ^ it_width t) else m.
(** [static_cast<std::make_unsigned_t<t>>(v)]. *)
Definition cast_unsigned (t : itype) (v : Z) : Z := v mod 2 ^ it_width t.

(** narrowing.hpp [can_narrow<U,T>] : the four constexpr branches. *)
Definition can_narrow (U T : itype) (val : Z) : bool :=
  if it_signed T then
    if it_signed U then (it_min U <=? val) && (val <=? it_max U)
    else (0 <=? val) && (cast_unsigned T val <=? it_max U)
  else
    if it_signed U then val <=? cast_unsigned U (it_max U)
    else val <=? it_max U.

(** narrowing.hpp [narrow_or_throw]. *)
Definition narrow_or_throw (U T : itype) (val : Z) : res Z :=
  if can_narrow U T val then Ok (it_cast U val) else Throw.
