(** Model of src/shammath/include/shammath/sfc/bmi.hpp, morton.hpp (integer part),
    src/shamtree/src/kernels/compute_ranges.cpp.

    u32 / u64 values are elements of N; the operations wrap at the width of the type. *)
From Verif Require Import Base.
Open Scope N_scope.

Definition shl (w x s : N) : N := N.shiftl x s mod 2 ^ w.
(** x = (x | x << s) & m *)
Definition spread (w s m x : N) : N := N.land (N.lor x (shl w x s)) m.
(** x = (x | x >> s) & m *)
Definition gather (s m x : N) : N := N.land (N.lor x (N.shiftr x s)) m.

(** expand_bits<u64,2> (bmi.hpp:31-40). *)
Definition expand_bits_64_2 (x : N) : N :=
  let x := N.land x 0x1fffff in
  let x := spread 64 32 0x1f00000000ffff x in
  let x := spread 64 16 0x1f0000ff0000ff x in
  let x := spread 64 8 0x100f00f00f00f00f x in
  let x := spread 64 4 0x10c30c30c30c30c3 x in
  spread 64 2 0x1249249249249249 x.

(** expand_bits<u32,2> (bmi.hpp:43-51). *)
Definition expand_bits_32_2 (x : N) : N :=
  let x := N.land x 0x3ff in
  let x := spread 32 16 0x30000ff x in
  let x := spread 32 8 0x300f00f x in
  let x := spread 32 4 0x30c30c3 x in
  spread 32 2 0x9249249 x.

(** expand_bits<u32,1> (bmi.hpp:54-61). *)
Definition expand_bits_32_1 (x : N) : N :=
  let x := spread 32 8 0x00FF00FF x in
  let x := spread 32 4 0x0F0F0F0F x in
  let x := spread 32 2 0x33333333 x in
  spread 32 1 0x55555555 x.

(** expand_bits<u64,1> (bmi.hpp:64-72). *)
Definition expand_bits_64_1 (x : N) : N :=
  let x := spread 64 16 0x0000FFFF0000FFFF x in
  let x := spread 64 8 0x00FF00FF00FF00FF x in
  let x := spread 64 4 0x0F0F0F0F0F0F0F0F x in
  let x := spread 64 2 0x3333333333333333 x in
  spread 64 1 0x5555555555555555 x.

(** contract_bits<u64,2> (bmi.hpp:87-96). *)
Definition contract_bits_64_2 (x : N) : N :=
  let x := gather 2 0x30c30c30c30c30c3 x in
  let x := gather 4 0xf00f00f00f00f00f x in
  let x := gather 8 0x00ff0000ff0000ff x in
  let x := gather 16 0xffff00000000ffff x in
  gather 32 0x00000000ffffffff x.

(** contract_bits<u64,1> (bmi.hpp:98-106). *)
Definition contract_bits_64_1 (x : N) : N :=
  let x := gather 1 0x3333333333333333 x in
  let x := gather 2 0x0f0f0f0f0f0f0f0f x in
  let x := gather 4 0x00ff00ff00ff00ff x in
  let x := gather 8 0x0000ffff0000ffff x in
  gather 16 0x00000000ffffffff x.

(** contract_bits<u32,2> (bmi.hpp:113-120). *)
Definition contract_bits_32_2 (x : N) : N :=
  let x := gather 2 0x30C30C3 x in
  let x := gather 4 0xF00F00F x in
  let x := gather 8 0xFF0000FF x in
  gather 16 0xFFFF x.

(** contract_bits<u32,1> (bmi.hpp:122-129). *)
Definition contract_bits_32_1 (x : N) : N :=
  let x := gather 1 0x33333333 x in
  let x := gather 2 0x0f0f0f0f x in
  let x := gather 4 0x00ff00ff x in
  gather 8 0x0000ffff x.

Definition vec3 := (N * N * N)%type.

(** MortonCodes<u64,3> (morton.hpp:114-180). *)
Definition max_val_64 : N := 2097152 - 1.
Definition val_count_64 : N := 2097152.
Definition err_code_64 : N := 18446744073709551615.
Definition icoord_to_morton_64 (x y z : N) : N :=
  let xx := expand_bits_64_2 x in
  let yy := expand_bits_64_2 y in
  let zz := expand_bits_64_2 z in
  (((xx * 4) mod 2 ^ 64 + (yy * 2) mod 2 ^ 64) mod 2 ^ 64 + zz) mod 2 ^ 64.
Definition morton_to_icoord_64 (morton : N) : vec3 :=
  (contract_bits_64_2 (N.shiftr (N.land morton 0x4924924924924924) 2) mod 2 ^ 32,
   contract_bits_64_2 (N.shiftr (N.land morton 0x2492492492492492) 1) mod 2 ^ 32,
   contract_bits_64_2 (N.shiftr (N.land morton 0x1249249249249249) 0) mod 2 ^ 32).

(** a >> b on u32: undefined when b >= 32. *)
Definition shr32 (a b : N) : res N := if b <? 32 then Ok (N.shiftr a b) else UB.
(** clz_ - k on u32 *)
Definition sub32 (a b : N) : N := (a + (2 ^ 32 - b)) mod 2 ^ 32.
Definition get_offset_64 (clz_ : N) : res vec3 :=
  a <- shr32 2097152 (((clz_ + 1) mod 2 ^ 32) / 3) ;;
  b <- shr32 2097152 (sub32 clz_ 0 / 3) ;;
  c <- shr32 2097152 (sub32 clz_ 1 / 3) ;;
  Ok (a, b, c).

(** MortonCodes<u32,3> (morton.hpp:46-112); the coordinates are u16. *)
Definition max_val_32 : N := 1024 - 1.
Definition val_count_32 : N := 1024.
Definition err_code_32 : N := 4294967295.
Definition icoord_to_morton_32 (x y z : N) : N :=
  let xx := expand_bits_32_2 x in
  let yy := expand_bits_32_2 y in
  let zz := expand_bits_32_2 z in
  (((xx * 4) mod 2 ^ 32 + (yy * 2) mod 2 ^ 32) mod 2 ^ 32 + zz) mod 2 ^ 32.
Definition morton_to_icoord_32 (morton : N) : vec3 :=
  (contract_bits_32_2 (N.shiftr (N.land morton 0x24924924) 2) mod 2 ^ 16,
   contract_bits_32_2 (N.shiftr (N.land morton 0x12492492) 1) mod 2 ^ 16,
   contract_bits_32_2 (N.shiftr (N.land morton 0x09249249) 0) mod 2 ^ 16).
Definition get_offset_32 (clz_ : N) : res vec3 :=
  a <- shr32 1024 (sub32 clz_ 0 / 3) ;;
  b <- shr32 1024 (sub32 clz_ 1 / 3) ;;
  c <- shr32 1024 (sub32 clz_ 2 / 3) ;;
  Ok (a mod 2 ^ 16, b mod 2 ^ 16, c mod 2 ^ 16).

(** is_morton_bounding_box (morton.hpp:66-69, 134-137). *)
Definition is_morton_bounding_box (max_val : N) (mn mx : vec3) : bool :=
  let '(a, b, c) := mn in let '(d, e, f) := mx in
  (a =? 0) && (b =? 0) && (c =? 0) && (d =? max_val) && (e =? max_val) && (f =? max_val).

(** clz of a w-bit word; sham::clz_xor (shambackends/math.hpp). *)
Definition clz (w x : N) : N := w - N.size x.
Definition clz_xor (w a b : N) : N := clz w (N.lxor a b).

(** get_mask (compute_ranges.cpp:77-87); shifting by the width is undefined. *)
Definition get_mask (w clz_ : N) : res N :=
  if (w - clz_ <? w) && (clz_ <=? w) then Ok (shl w (2 ^ w - 1) (w - clz_)) else UB.

(** component-wise sums and differences of u32_3 / u16_3 values ([cw] is the component width) *)
Definition vadd (cw : N) (a b : vec3) : vec3 :=
  let '(a0, a1, a2) := a in let '(b0, b1, b2) := b in
  ((a0 + b0) mod 2 ^ cw, (a1 + b1) mod 2 ^ cw, (a2 + b2) mod 2 ^ cw).
Definition vsub (cw : N) (a b : vec3) : vec3 :=
  let '(a0, a1, a2) := a in let '(b0, b1, b2) := b in
  ((a0 + (2 ^ cw - b0)) mod 2 ^ cw, (a1 + (2 ^ cw - b1)) mod 2 ^ cw, (a2 + (2 ^ cw - b2)) mod 2 ^ cw).

(** The body of sycl_compute_cell_ranges for one internal cell (compute_ranges.cpp:73-109), given the
    codes of its first and last leaves: the boxes (min,max) of the cell, of its right child and of its
    left child when they are leaves. *)
Definition cell_boxes (w cw : N) (get_offset : N -> res vec3) (morton_to_icoord : N -> vec3) (m1 m2 : N)
  : res ((vec3 * vec3) * (vec3 * vec3) * (vec3 * vec3)) :=
  let clz_ := clz_xor w m1 m2 in
  clz_offset <- get_offset clz_ ;;
  clz_offset_1 <- get_offset ((clz_ + 1) mod 2 ^ 32) ;;
  mask <- get_mask w clz_ ;;
  let min_cell := morton_to_icoord (N.land m1 mask) in
  let tmp := vsub cw clz_offset clz_offset_1 in
  Ok ((min_cell, vadd cw clz_offset min_cell),
      (vadd cw min_cell tmp, vadd cw (vadd cw clz_offset_1 min_cell) tmp),
      (min_cell, vadd cw clz_offset_1 min_cell)).
Definition cell_boxes_64 := cell_boxes 64 32 get_offset_64 morton_to_icoord_64.
Definition cell_boxes_32 := cell_boxes 32 16 get_offset_32 morton_to_icoord_32.
