(** Generated by tools/gen_fmm.py from /repo. The symmetric tensors of rank 1 to 5 in
    dimension 3 and their collections.

    Simplification: the scalar type T (f32 or f64) is the real line, so rounding, overflow and the
    NaN / infinity results are not modelled.  A device buffer of T is a function nat -> R. *)
Require Import Reals List.
Import ListNotations.
Local Open Scope R_scope.

(** sycl::vec<T, 3> *)
Record vec3 : Type := mkv { vx : R; vy : R; vz : R }.

(** [acc[offset + k] = v;], one assignment after the other *)
Definition upd (acc : nat -> R) (i : nat) (v : R) : nat -> R :=
  fun j => if Nat.eqb j i then v else acc j.
Definition assigns (acc : nat -> R) (offset : nat) (l : list (nat * R)) : nat -> R :=
  fold_left (fun a kv => upd a (offset + fst kv)%nat (snd kv)) l acc.

(** src/shammath/include/shammath/symtensors.hpp:23 *)
Record st1 : Type := mk1 { v_0 : R; v_1 : R; v_2 : R }.

(** compo_cnt, src/shammath/include/shammath/symtensors.hpp:25 *)
Definition compo_cnt1 : nat := 3.

(** src/shammath/include/shammath/symtensors.hpp:91 *)
Record st2 : Type := mk2 { v_00 : R; v_01 : R; v_02 : R; v_11 : R; v_12 : R; v_22 : R }.

(** compo_cnt, src/shammath/include/shammath/symtensors.hpp:93 *)
Definition compo_cnt2 : nat := 6.

(** src/shammath/include/shammath/symtensors.hpp:192 *)
Record st3 : Type := mk3 { v_000 : R; v_001 : R; v_002 : R; v_011 : R; v_012 : R; v_022 : R; v_111 : R; v_112 : R; v_122 : R; v_222 : R }.

(** compo_cnt, src/shammath/include/shammath/symtensors.hpp:194 *)
Definition compo_cnt3 : nat := 10.

(** src/shammath/include/shammath/symtensors.hpp:354 *)
Record st4 : Type := mk4 { v_0000 : R; v_0001 : R; v_0002 : R; v_0011 : R; v_0012 : R; v_0022 : R; v_0111 : R; v_0112 : R; v_0122 : R; v_0222 : R; v_1111 : R; v_1112 : R; v_1122 : R; v_1222 : R; v_2222 : R }.

(** compo_cnt, src/shammath/include/shammath/symtensors.hpp:356 *)
Definition compo_cnt4 : nat := 15.

(** src/shammath/include/shammath/symtensors.hpp:589 *)
Record st5 : Type := mk5 { v_00000 : R; v_00001 : R; v_00002 : R; v_00011 : R; v_00012 : R; v_00022 : R; v_00111 : R; v_00112 : R; v_00122 : R; v_00222 : R; v_01111 : R; v_01112 : R; v_01122 : R; v_01222 : R; v_02222 : R; v_11111 : R; v_11112 : R; v_11122 : R; v_11222 : R; v_12222 : R; v_22222 : R }.

(** compo_cnt, src/shammath/include/shammath/symtensors.hpp:591 *)
Definition compo_cnt5 : nat := 21.

(** src/shammath/include/shammath/symtensors.hpp:31-33 *)
Definition inner11 (s : st1) (t : st1) : R :=
  ((((v_0 s) * (v_0 t)) + ((v_1 s) * (v_1 t))) + ((v_2 s) * (v_2 t))).

(** src/shammath/include/shammath/symtensors.hpp:35-37 *)
Definition innerS1 (s : st1) (scal : R) : st1 :=
  (mk1 ((v_0 s) * scal) ((v_1 s) * scal) ((v_2 s) * scal)).

(** src/shammath/include/shammath/symtensors.hpp:39-46 *)
Definition scale1 (s : st1) (scal : R) : st1 :=
  let n_v_0 := ((v_0 s) * scal) in
  let n_v_1 := ((v_1 s) * scal) in
  let n_v_2 := ((v_2 s) * scal) in
  (mk1 n_v_0 n_v_1 n_v_2).

(** src/shammath/include/shammath/symtensors.hpp:48-54 *)
Definition muls1 (s : st1) (scal : R) : st1 :=
  (mk1 ((v_0 s) * scal) ((v_1 s) * scal) ((v_2 s) * scal)).

(** src/shammath/include/shammath/symtensors.hpp:56-63 *)
Definition acc1 (s : st1) (other : st1) : st1 :=
  let n_v_0 := ((v_0 s) + (v_0 other)) in
  let n_v_1 := ((v_1 s) + (v_1 other)) in
  let n_v_2 := ((v_2 s) + (v_2 other)) in
  (mk1 n_v_0 n_v_1 n_v_2).

(** src/shammath/include/shammath/symtensors.hpp:65-67 *)
Definition add1 (s : st1) (t2 : st1) : st1 :=
  (mk1 ((v_0 s) + (v_0 t2)) ((v_1 s) + (v_1 t2)) ((v_2 s) + (v_2 t2))).

(** src/shammath/include/shammath/symtensors.hpp:69-71 *)
Definition sub1 (s : st1) (t2 : st1) : st1 :=
  (mk1 ((v_0 s) - (v_0 t2)) ((v_1 s) - (v_1 t2)) ((v_2 s) - (v_2 t2))).

(** src/shammath/include/shammath/symtensors.hpp:74-78 *)
Definition store1 (s : st1) (acc : nat -> R) (offset : nat) : nat -> R :=
  assigns acc offset [(0%nat, v_0 s); (1%nat, v_1 s); (2%nat, v_2 s)].

(** src/shammath/include/shammath/symtensors.hpp:81-87 *)
Definition load1 (acc : nat -> R) (offset : nat) : st1 :=
  mk1 (acc (offset + 0)%nat) (acc (offset + 1)%nat) (acc (offset + 2)%nat).

(** src/shammath/include/shammath/symtensors.hpp:102-105 *)
Definition inner22 (s : st2) (t : st2) : R :=
  (((((((v_00 s) * (v_00 t)) + ((2 * (v_01 s)) * (v_01 t))) + ((2 * (v_02 s)) * (v_02 t))) + ((v_11 s) * (v_11 t))) + ((2 * (v_12 s)) * (v_12 t))) + ((v_22 s) * (v_22 t))).

(** src/shammath/include/shammath/symtensors.hpp:107-112 *)
Definition inner21 (s : st2) (t : st1) : st1 :=
  (mk1 ((((v_00 s) * (v_0 t)) + ((v_01 s) * (v_1 t))) + ((v_02 s) * (v_2 t))) ((((v_01 s) * (v_0 t)) + ((v_11 s) * (v_1 t))) + ((v_12 s) * (v_2 t))) ((((v_02 s) * (v_0 t)) + ((v_12 s) * (v_1 t))) + ((v_22 s) * (v_2 t)))).

(** src/shammath/include/shammath/symtensors.hpp:114-117 *)
Definition innerS2 (s : st2) (scal : R) : st2 :=
  (mk2 ((v_00 s) * scal) ((v_01 s) * scal) ((v_02 s) * scal) ((v_11 s) * scal) ((v_12 s) * scal) ((v_22 s) * scal)).

(** src/shammath/include/shammath/symtensors.hpp:119-129 *)
Definition scale2 (s : st2) (scal : R) : st2 :=
  let n_v_00 := ((v_00 s) * scal) in
  let n_v_01 := ((v_01 s) * scal) in
  let n_v_02 := ((v_02 s) * scal) in
  let n_v_11 := ((v_11 s) * scal) in
  let n_v_12 := ((v_12 s) * scal) in
  let n_v_22 := ((v_22 s) * scal) in
  (mk2 n_v_00 n_v_01 n_v_02 n_v_11 n_v_12 n_v_22).

(** src/shammath/include/shammath/symtensors.hpp:131-134 *)
Definition muls2 (s : st2) (scal : R) : st2 :=
  (mk2 ((v_00 s) * scal) ((v_01 s) * scal) ((v_02 s) * scal) ((v_11 s) * scal) ((v_12 s) * scal) ((v_22 s) * scal)).

(** src/shammath/include/shammath/symtensors.hpp:136-146 *)
Definition acc2 (s : st2) (other : st2) : st2 :=
  let n_v_00 := ((v_00 s) + (v_00 other)) in
  let n_v_01 := ((v_01 s) + (v_01 other)) in
  let n_v_02 := ((v_02 s) + (v_02 other)) in
  let n_v_11 := ((v_11 s) + (v_11 other)) in
  let n_v_12 := ((v_12 s) + (v_12 other)) in
  let n_v_22 := ((v_22 s) + (v_22 other)) in
  (mk2 n_v_00 n_v_01 n_v_02 n_v_11 n_v_12 n_v_22).

(** src/shammath/include/shammath/symtensors.hpp:148-156 *)
Definition add2 (s : st2) (t2 : st2) : st2 :=
  (mk2 ((v_00 s) + (v_00 t2)) ((v_01 s) + (v_01 t2)) ((v_02 s) + (v_02 t2)) ((v_11 s) + (v_11 t2)) ((v_12 s) + (v_12 t2)) ((v_22 s) + (v_22 t2))).

(** src/shammath/include/shammath/symtensors.hpp:158-166 *)
Definition sub2 (s : st2) (t2 : st2) : st2 :=
  (mk2 ((v_00 s) - (v_00 t2)) ((v_01 s) - (v_01 t2)) ((v_02 s) - (v_02 t2)) ((v_11 s) - (v_11 t2)) ((v_12 s) - (v_12 t2)) ((v_22 s) - (v_22 t2))).

(** src/shammath/include/shammath/symtensors.hpp:169-176 *)
Definition store2 (s : st2) (acc : nat -> R) (offset : nat) : nat -> R :=
  assigns acc offset [(0%nat, v_00 s); (1%nat, v_01 s); (2%nat, v_02 s); (3%nat, v_11 s); (4%nat, v_12 s); (5%nat, v_22 s)].

(** src/shammath/include/shammath/symtensors.hpp:179-188 *)
Definition load2 (acc : nat -> R) (offset : nat) : st2 :=
  mk2 (acc (offset + 0)%nat) (acc (offset + 1)%nat) (acc (offset + 2)%nat) (acc (offset + 3)%nat) (acc (offset + 4)%nat) (acc (offset + 5)%nat).

(** src/shammath/include/shammath/symtensors.hpp:207-211 *)
Definition inner33 (s : st3) (t : st3) : R :=
  (((((((((((v_000 s) * (v_000 t)) + ((3 * (v_001 s)) * (v_001 t))) + ((3 * (v_002 s)) * (v_002 t))) + ((3 * (v_011 s)) * (v_011 t))) + ((6 * (v_012 s)) * (v_012 t))) + ((3 * (v_022 s)) * (v_022 t))) + ((v_111 s) * (v_111 t))) + ((3 * (v_112 s)) * (v_112 t))) + ((3 * (v_122 s)) * (v_122 t))) + ((v_222 s) * (v_222 t))).

(** src/shammath/include/shammath/symtensors.hpp:213-221 *)
Definition inner32 (s : st3) (t : st2) : st1 :=
  (mk1 (((((((v_000 s) * (v_00 t)) + ((2 * (v_001 s)) * (v_01 t))) + ((2 * (v_002 s)) * (v_02 t))) + ((v_011 s) * (v_11 t))) + ((2 * (v_012 s)) * (v_12 t))) + ((v_022 s) * (v_22 t))) (((((((v_001 s) * (v_00 t)) + ((2 * (v_011 s)) * (v_01 t))) + ((2 * (v_012 s)) * (v_02 t))) + ((v_111 s) * (v_11 t))) + ((2 * (v_112 s)) * (v_12 t))) + ((v_122 s) * (v_22 t))) (((((((v_002 s) * (v_00 t)) + ((2 * (v_012 s)) * (v_01 t))) + ((2 * (v_022 s)) * (v_02 t))) + ((v_112 s) * (v_11 t))) + ((2 * (v_122 s)) * (v_12 t))) + ((v_222 s) * (v_22 t)))).

(** src/shammath/include/shammath/symtensors.hpp:223-232 *)
Definition inner31 (s : st3) (t : st1) : st2 :=
  (mk2 ((((v_000 s) * (v_0 t)) + ((v_001 s) * (v_1 t))) + ((v_002 s) * (v_2 t))) ((((v_001 s) * (v_0 t)) + ((v_011 s) * (v_1 t))) + ((v_012 s) * (v_2 t))) ((((v_002 s) * (v_0 t)) + ((v_012 s) * (v_1 t))) + ((v_022 s) * (v_2 t))) ((((v_011 s) * (v_0 t)) + ((v_111 s) * (v_1 t))) + ((v_112 s) * (v_2 t))) ((((v_012 s) * (v_0 t)) + ((v_112 s) * (v_1 t))) + ((v_122 s) * (v_2 t))) ((((v_022 s) * (v_0 t)) + ((v_122 s) * (v_1 t))) + ((v_222 s) * (v_2 t)))).

(** src/shammath/include/shammath/symtensors.hpp:234-246 *)
Definition innerS3 (s : st3) (scal : R) : st3 :=
  (mk3 ((v_000 s) * scal) ((v_001 s) * scal) ((v_002 s) * scal) ((v_011 s) * scal) ((v_012 s) * scal) ((v_022 s) * scal) ((v_111 s) * scal) ((v_112 s) * scal) ((v_122 s) * scal) ((v_222 s) * scal)).

(** src/shammath/include/shammath/symtensors.hpp:248-262 *)
Definition scale3 (s : st3) (scal : R) : st3 :=
  let n_v_000 := ((v_000 s) * scal) in
  let n_v_001 := ((v_001 s) * scal) in
  let n_v_002 := ((v_002 s) * scal) in
  let n_v_011 := ((v_011 s) * scal) in
  let n_v_012 := ((v_012 s) * scal) in
  let n_v_022 := ((v_022 s) * scal) in
  let n_v_111 := ((v_111 s) * scal) in
  let n_v_112 := ((v_112 s) * scal) in
  let n_v_122 := ((v_122 s) * scal) in
  let n_v_222 := ((v_222 s) * scal) in
  (mk3 n_v_000 n_v_001 n_v_002 n_v_011 n_v_012 n_v_022 n_v_111 n_v_112 n_v_122 n_v_222).

(** src/shammath/include/shammath/symtensors.hpp:264-276 *)
Definition muls3 (s : st3) (scal : R) : st3 :=
  (mk3 ((v_000 s) * scal) ((v_001 s) * scal) ((v_002 s) * scal) ((v_011 s) * scal) ((v_012 s) * scal) ((v_022 s) * scal) ((v_111 s) * scal) ((v_112 s) * scal) ((v_122 s) * scal) ((v_222 s) * scal)).

(** src/shammath/include/shammath/symtensors.hpp:278-292 *)
Definition acc3 (s : st3) (other : st3) : st3 :=
  let n_v_000 := ((v_000 s) + (v_000 other)) in
  let n_v_001 := ((v_001 s) + (v_001 other)) in
  let n_v_002 := ((v_002 s) + (v_002 other)) in
  let n_v_011 := ((v_011 s) + (v_011 other)) in
  let n_v_012 := ((v_012 s) + (v_012 other)) in
  let n_v_022 := ((v_022 s) + (v_022 other)) in
  let n_v_111 := ((v_111 s) + (v_111 other)) in
  let n_v_112 := ((v_112 s) + (v_112 other)) in
  let n_v_122 := ((v_122 s) + (v_122 other)) in
  let n_v_222 := ((v_222 s) + (v_222 other)) in
  (mk3 n_v_000 n_v_001 n_v_002 n_v_011 n_v_012 n_v_022 n_v_111 n_v_112 n_v_122 n_v_222).

(** src/shammath/include/shammath/symtensors.hpp:294-306 *)
Definition add3 (s : st3) (t2 : st3) : st3 :=
  (mk3 ((v_000 s) + (v_000 t2)) ((v_001 s) + (v_001 t2)) ((v_002 s) + (v_002 t2)) ((v_011 s) + (v_011 t2)) ((v_012 s) + (v_012 t2)) ((v_022 s) + (v_022 t2)) ((v_111 s) + (v_111 t2)) ((v_112 s) + (v_112 t2)) ((v_122 s) + (v_122 t2)) ((v_222 s) + (v_222 t2))).

(** src/shammath/include/shammath/symtensors.hpp:308-320 *)
Definition sub3 (s : st3) (t2 : st3) : st3 :=
  (mk3 ((v_000 s) - (v_000 t2)) ((v_001 s) - (v_001 t2)) ((v_002 s) - (v_002 t2)) ((v_011 s) - (v_011 t2)) ((v_012 s) - (v_012 t2)) ((v_022 s) - (v_022 t2)) ((v_111 s) - (v_111 t2)) ((v_112 s) - (v_112 t2)) ((v_122 s) - (v_122 t2)) ((v_222 s) - (v_222 t2))).

(** src/shammath/include/shammath/symtensors.hpp:323-334 *)
Definition store3 (s : st3) (acc : nat -> R) (offset : nat) : nat -> R :=
  assigns acc offset [(0%nat, v_000 s); (1%nat, v_001 s); (2%nat, v_002 s); (3%nat, v_011 s); (4%nat, v_012 s); (5%nat, v_022 s); (6%nat, v_111 s); (7%nat, v_112 s); (8%nat, v_122 s); (9%nat, v_222 s)].

(** src/shammath/include/shammath/symtensors.hpp:337-350 *)
Definition load3 (acc : nat -> R) (offset : nat) : st3 :=
  mk3 (acc (offset + 0)%nat) (acc (offset + 1)%nat) (acc (offset + 2)%nat) (acc (offset + 3)%nat) (acc (offset + 4)%nat) (acc (offset + 5)%nat) (acc (offset + 6)%nat) (acc (offset + 7)%nat) (acc (offset + 8)%nat) (acc (offset + 9)%nat).

(** src/shammath/include/shammath/symtensors.hpp:374-380 *)
Definition inner44 (s : st4) (t : st4) : R :=
  ((((((((((((((((v_0000 s) * (v_0000 t)) + ((4 * (v_0001 s)) * (v_0001 t))) + ((4 * (v_0002 s)) * (v_0002 t))) + ((6 * (v_0011 s)) * (v_0011 t))) + ((12 * (v_0012 s)) * (v_0012 t))) + ((6 * (v_0022 s)) * (v_0022 t))) + ((4 * (v_0111 s)) * (v_0111 t))) + ((12 * (v_0112 s)) * (v_0112 t))) + ((12 * (v_0122 s)) * (v_0122 t))) + ((4 * (v_0222 s)) * (v_0222 t))) + ((v_1111 s) * (v_1111 t))) + ((4 * (v_1112 s)) * (v_1112 t))) + ((6 * (v_1122 s)) * (v_1122 t))) + ((4 * (v_1222 s)) * (v_1222 t))) + ((v_2222 s) * (v_2222 t))).

(** src/shammath/include/shammath/symtensors.hpp:382-396 *)
Definition inner43 (s : st4) (t : st3) : st1 :=
  (mk1 (((((((((((v_0000 s) * (v_000 t)) + ((3 * (v_0001 s)) * (v_001 t))) + ((3 * (v_0002 s)) * (v_002 t))) + ((3 * (v_0011 s)) * (v_011 t))) + ((6 * (v_0012 s)) * (v_012 t))) + ((3 * (v_0022 s)) * (v_022 t))) + ((v_0111 s) * (v_111 t))) + ((3 * (v_0112 s)) * (v_112 t))) + ((3 * (v_0122 s)) * (v_122 t))) + ((v_0222 s) * (v_222 t))) (((((((((((v_0001 s) * (v_000 t)) + ((3 * (v_0011 s)) * (v_001 t))) + ((3 * (v_0012 s)) * (v_002 t))) + ((3 * (v_0111 s)) * (v_011 t))) + ((6 * (v_0112 s)) * (v_012 t))) + ((3 * (v_0122 s)) * (v_022 t))) + ((v_1111 s) * (v_111 t))) + ((3 * (v_1112 s)) * (v_112 t))) + ((3 * (v_1122 s)) * (v_122 t))) + ((v_1222 s) * (v_222 t))) (((((((((((v_0002 s) * (v_000 t)) + ((3 * (v_0012 s)) * (v_001 t))) + ((3 * (v_0022 s)) * (v_002 t))) + ((3 * (v_0112 s)) * (v_011 t))) + ((6 * (v_0122 s)) * (v_012 t))) + ((3 * (v_0222 s)) * (v_022 t))) + ((v_1112 s) * (v_111 t))) + ((3 * (v_1122 s)) * (v_112 t))) + ((3 * (v_1222 s)) * (v_122 t))) + ((v_2222 s) * (v_222 t)))).

(** src/shammath/include/shammath/symtensors.hpp:398-413 *)
Definition inner42 (s : st4) (t : st2) : st2 :=
  (mk2 (((((((v_0000 s) * (v_00 t)) + ((2 * (v_0001 s)) * (v_01 t))) + ((2 * (v_0002 s)) * (v_02 t))) + ((v_0011 s) * (v_11 t))) + ((2 * (v_0012 s)) * (v_12 t))) + ((v_0022 s) * (v_22 t))) (((((((v_0001 s) * (v_00 t)) + ((2 * (v_0011 s)) * (v_01 t))) + ((2 * (v_0012 s)) * (v_02 t))) + ((v_0111 s) * (v_11 t))) + ((2 * (v_0112 s)) * (v_12 t))) + ((v_0122 s) * (v_22 t))) (((((((v_0002 s) * (v_00 t)) + ((2 * (v_0012 s)) * (v_01 t))) + ((2 * (v_0022 s)) * (v_02 t))) + ((v_0112 s) * (v_11 t))) + ((2 * (v_0122 s)) * (v_12 t))) + ((v_0222 s) * (v_22 t))) (((((((v_0011 s) * (v_00 t)) + ((2 * (v_0111 s)) * (v_01 t))) + ((2 * (v_0112 s)) * (v_02 t))) + ((v_1111 s) * (v_11 t))) + ((2 * (v_1112 s)) * (v_12 t))) + ((v_1122 s) * (v_22 t))) (((((((v_0012 s) * (v_00 t)) + ((2 * (v_0112 s)) * (v_01 t))) + ((2 * (v_0122 s)) * (v_02 t))) + ((v_1112 s) * (v_11 t))) + ((2 * (v_1122 s)) * (v_12 t))) + ((v_1222 s) * (v_22 t))) (((((((v_0022 s) * (v_00 t)) + ((2 * (v_0122 s)) * (v_01 t))) + ((2 * (v_0222 s)) * (v_02 t))) + ((v_1122 s) * (v_11 t))) + ((2 * (v_1222 s)) * (v_12 t))) + ((v_2222 s) * (v_22 t)))).

(** src/shammath/include/shammath/symtensors.hpp:415-427 *)
Definition inner41 (s : st4) (t : st1) : st3 :=
  (mk3 ((((v_0000 s) * (v_0 t)) + ((v_0001 s) * (v_1 t))) + ((v_0002 s) * (v_2 t))) ((((v_0001 s) * (v_0 t)) + ((v_0011 s) * (v_1 t))) + ((v_0012 s) * (v_2 t))) ((((v_0002 s) * (v_0 t)) + ((v_0012 s) * (v_1 t))) + ((v_0022 s) * (v_2 t))) ((((v_0011 s) * (v_0 t)) + ((v_0111 s) * (v_1 t))) + ((v_0112 s) * (v_2 t))) ((((v_0012 s) * (v_0 t)) + ((v_0112 s) * (v_1 t))) + ((v_0122 s) * (v_2 t))) ((((v_0022 s) * (v_0 t)) + ((v_0122 s) * (v_1 t))) + ((v_0222 s) * (v_2 t))) ((((v_0111 s) * (v_0 t)) + ((v_1111 s) * (v_1 t))) + ((v_1112 s) * (v_2 t))) ((((v_0112 s) * (v_0 t)) + ((v_1112 s) * (v_1 t))) + ((v_1122 s) * (v_2 t))) ((((v_0122 s) * (v_0 t)) + ((v_1122 s) * (v_1 t))) + ((v_1222 s) * (v_2 t))) ((((v_0222 s) * (v_0 t)) + ((v_1222 s) * (v_1 t))) + ((v_2222 s) * (v_2 t)))).

(** src/shammath/include/shammath/symtensors.hpp:429-446 *)
Definition innerS4 (s : st4) (scal : R) : st4 :=
  (mk4 ((v_0000 s) * scal) ((v_0001 s) * scal) ((v_0002 s) * scal) ((v_0011 s) * scal) ((v_0012 s) * scal) ((v_0022 s) * scal) ((v_0111 s) * scal) ((v_0112 s) * scal) ((v_0122 s) * scal) ((v_0222 s) * scal) ((v_1111 s) * scal) ((v_1112 s) * scal) ((v_1122 s) * scal) ((v_1222 s) * scal) ((v_2222 s) * scal)).

(** src/shammath/include/shammath/symtensors.hpp:448-467 *)
Definition scale4 (s : st4) (scal : R) : st4 :=
  let n_v_0000 := ((v_0000 s) * scal) in
  let n_v_0001 := ((v_0001 s) * scal) in
  let n_v_0002 := ((v_0002 s) * scal) in
  let n_v_0011 := ((v_0011 s) * scal) in
  let n_v_0012 := ((v_0012 s) * scal) in
  let n_v_0022 := ((v_0022 s) * scal) in
  let n_v_0111 := ((v_0111 s) * scal) in
  let n_v_0112 := ((v_0112 s) * scal) in
  let n_v_0122 := ((v_0122 s) * scal) in
  let n_v_0222 := ((v_0222 s) * scal) in
  let n_v_1111 := ((v_1111 s) * scal) in
  let n_v_1112 := ((v_1112 s) * scal) in
  let n_v_1122 := ((v_1122 s) * scal) in
  let n_v_1222 := ((v_1222 s) * scal) in
  let n_v_2222 := ((v_2222 s) * scal) in
  (mk4 n_v_0000 n_v_0001 n_v_0002 n_v_0011 n_v_0012 n_v_0022 n_v_0111 n_v_0112 n_v_0122 n_v_0222 n_v_1111 n_v_1112 n_v_1122 n_v_1222 n_v_2222).

(** src/shammath/include/shammath/symtensors.hpp:469-486 *)
Definition muls4 (s : st4) (scal : R) : st4 :=
  (mk4 ((v_0000 s) * scal) ((v_0001 s) * scal) ((v_0002 s) * scal) ((v_0011 s) * scal) ((v_0012 s) * scal) ((v_0022 s) * scal) ((v_0111 s) * scal) ((v_0112 s) * scal) ((v_0122 s) * scal) ((v_0222 s) * scal) ((v_1111 s) * scal) ((v_1112 s) * scal) ((v_1122 s) * scal) ((v_1222 s) * scal) ((v_2222 s) * scal)).

(** src/shammath/include/shammath/symtensors.hpp:488-507 *)
Definition acc4 (s : st4) (other : st4) : st4 :=
  let n_v_0000 := ((v_0000 s) + (v_0000 other)) in
  let n_v_0001 := ((v_0001 s) + (v_0001 other)) in
  let n_v_0002 := ((v_0002 s) + (v_0002 other)) in
  let n_v_0011 := ((v_0011 s) + (v_0011 other)) in
  let n_v_0012 := ((v_0012 s) + (v_0012 other)) in
  let n_v_0022 := ((v_0022 s) + (v_0022 other)) in
  let n_v_0111 := ((v_0111 s) + (v_0111 other)) in
  let n_v_0112 := ((v_0112 s) + (v_0112 other)) in
  let n_v_0122 := ((v_0122 s) + (v_0122 other)) in
  let n_v_0222 := ((v_0222 s) + (v_0222 other)) in
  let n_v_1111 := ((v_1111 s) + (v_1111 other)) in
  let n_v_1112 := ((v_1112 s) + (v_1112 other)) in
  let n_v_1122 := ((v_1122 s) + (v_1122 other)) in
  let n_v_1222 := ((v_1222 s) + (v_1222 other)) in
  let n_v_2222 := ((v_2222 s) + (v_2222 other)) in
  (mk4 n_v_0000 n_v_0001 n_v_0002 n_v_0011 n_v_0012 n_v_0022 n_v_0111 n_v_0112 n_v_0122 n_v_0222 n_v_1111 n_v_1112 n_v_1122 n_v_1222 n_v_2222).

(** src/shammath/include/shammath/symtensors.hpp:509-526 *)
Definition add4 (s : st4) (t2 : st4) : st4 :=
  (mk4 ((v_0000 s) + (v_0000 t2)) ((v_0001 s) + (v_0001 t2)) ((v_0002 s) + (v_0002 t2)) ((v_0011 s) + (v_0011 t2)) ((v_0012 s) + (v_0012 t2)) ((v_0022 s) + (v_0022 t2)) ((v_0111 s) + (v_0111 t2)) ((v_0112 s) + (v_0112 t2)) ((v_0122 s) + (v_0122 t2)) ((v_0222 s) + (v_0222 t2)) ((v_1111 s) + (v_1111 t2)) ((v_1112 s) + (v_1112 t2)) ((v_1122 s) + (v_1122 t2)) ((v_1222 s) + (v_1222 t2)) ((v_2222 s) + (v_2222 t2))).

(** src/shammath/include/shammath/symtensors.hpp:528-545 *)
Definition sub4 (s : st4) (t2 : st4) : st4 :=
  (mk4 ((v_0000 s) - (v_0000 t2)) ((v_0001 s) - (v_0001 t2)) ((v_0002 s) - (v_0002 t2)) ((v_0011 s) - (v_0011 t2)) ((v_0012 s) - (v_0012 t2)) ((v_0022 s) - (v_0022 t2)) ((v_0111 s) - (v_0111 t2)) ((v_0112 s) - (v_0112 t2)) ((v_0122 s) - (v_0122 t2)) ((v_0222 s) - (v_0222 t2)) ((v_1111 s) - (v_1111 t2)) ((v_1112 s) - (v_1112 t2)) ((v_1122 s) - (v_1122 t2)) ((v_1222 s) - (v_1222 t2)) ((v_2222 s) - (v_2222 t2))).

(** src/shammath/include/shammath/symtensors.hpp:548-564 *)
Definition store4 (s : st4) (acc : nat -> R) (offset : nat) : nat -> R :=
  assigns acc offset [(0%nat, v_0000 s); (1%nat, v_0001 s); (2%nat, v_0002 s); (3%nat, v_0011 s); (4%nat, v_0012 s); (5%nat, v_0022 s); (6%nat, v_0111 s); (7%nat, v_0112 s); (8%nat, v_0122 s); (9%nat, v_0222 s); (10%nat, v_1111 s); (11%nat, v_1112 s); (12%nat, v_1122 s); (13%nat, v_1222 s); (14%nat, v_2222 s)].

(** src/shammath/include/shammath/symtensors.hpp:567-585 *)
Definition load4 (acc : nat -> R) (offset : nat) : st4 :=
  mk4 (acc (offset + 0)%nat) (acc (offset + 1)%nat) (acc (offset + 2)%nat) (acc (offset + 3)%nat) (acc (offset + 4)%nat) (acc (offset + 5)%nat) (acc (offset + 6)%nat) (acc (offset + 7)%nat) (acc (offset + 8)%nat) (acc (offset + 9)%nat) (acc (offset + 10)%nat) (acc (offset + 11)%nat) (acc (offset + 12)%nat) (acc (offset + 13)%nat) (acc (offset + 14)%nat).

(** src/shammath/include/shammath/symtensors.hpp:615-626 *)
Definition inner55 (s : st5) (t : st5) : R :=
  (((((((((((((((((((v_00000 s) * (v_00000 t)) + ((5 * (v_00001 s)) * (v_00001 t))) + ((5 * (v_00002 s)) * (v_00002 t))) + ((10 * (v_00011 s)) * (v_00011 t))) + ((20 * (v_00012 s)) * (v_00012 t))) + ((10 * (v_00022 s)) * (v_00022 t))) + ((10 * (v_00111 s)) * (v_00111 t))) + ((30 * (v_00112 s)) * (v_00112 t))) + ((30 * (v_00122 s)) * (v_00122 t))) + ((10 * (v_00222 s)) * (v_00222 t))) + ((5 * (v_01111 s)) * (v_01111 t))) + ((20 * (v_01112 s)) * (v_01112 t))) + ((30 * (v_01122 s)) * (v_01122 t))) + ((20 * (v_01222 s)) * (v_01222 t))) + ((5 * (v_02222 s)) * (v_02222 t))) + ((v_11111 s) * (v_11111 t))) + (5 * (((((v_11112 s) * (v_11112 t)) + ((2 * (v_11122 s)) * (v_11122 t))) + ((2 * (v_11222 s)) * (v_11222 t))) + ((v_12222 s) * (v_12222 t))))) + ((v_22222 s) * (v_22222 t))).

(** src/shammath/include/shammath/symtensors.hpp:628-645 *)
Definition inner54 (s : st5) (t : st4) : st1 :=
  (mk1 ((((((((((((((((v_00000 s) * (v_0000 t)) + ((4 * (v_00001 s)) * (v_0001 t))) + ((4 * (v_00002 s)) * (v_0002 t))) + ((6 * (v_00011 s)) * (v_0011 t))) + ((12 * (v_00012 s)) * (v_0012 t))) + ((6 * (v_00022 s)) * (v_0022 t))) + ((4 * (v_00111 s)) * (v_0111 t))) + ((12 * (v_00112 s)) * (v_0112 t))) + ((12 * (v_00122 s)) * (v_0122 t))) + ((4 * (v_00222 s)) * (v_0222 t))) + ((v_01111 s) * (v_1111 t))) + ((4 * (v_01112 s)) * (v_1112 t))) + ((6 * (v_01122 s)) * (v_1122 t))) + ((4 * (v_01222 s)) * (v_1222 t))) + ((v_02222 s) * (v_2222 t))) ((((((((((((((((v_00001 s) * (v_0000 t)) + ((4 * (v_00011 s)) * (v_0001 t))) + ((4 * (v_00012 s)) * (v_0002 t))) + ((6 * (v_00111 s)) * (v_0011 t))) + ((12 * (v_00112 s)) * (v_0012 t))) + ((6 * (v_00122 s)) * (v_0022 t))) + ((4 * (v_01111 s)) * (v_0111 t))) + ((12 * (v_01112 s)) * (v_0112 t))) + ((12 * (v_01122 s)) * (v_0122 t))) + ((4 * (v_01222 s)) * (v_0222 t))) + ((v_11111 s) * (v_1111 t))) + ((4 * (v_11112 s)) * (v_1112 t))) + ((6 * (v_11122 s)) * (v_1122 t))) + ((4 * (v_11222 s)) * (v_1222 t))) + ((v_12222 s) * (v_2222 t))) ((((((((((((((((v_00002 s) * (v_0000 t)) + ((4 * (v_00012 s)) * (v_0001 t))) + ((4 * (v_00022 s)) * (v_0002 t))) + ((6 * (v_00112 s)) * (v_0011 t))) + ((12 * (v_00122 s)) * (v_0012 t))) + ((6 * (v_00222 s)) * (v_0022 t))) + ((4 * (v_01112 s)) * (v_0111 t))) + ((12 * (v_01122 s)) * (v_0112 t))) + ((12 * (v_01222 s)) * (v_0122 t))) + ((4 * (v_02222 s)) * (v_0222 t))) + ((v_11112 s) * (v_1111 t))) + ((4 * (v_11122 s)) * (v_1112 t))) + ((6 * (v_11222 s)) * (v_1122 t))) + ((4 * (v_12222 s)) * (v_1222 t))) + ((v_22222 s) * (v_2222 t)))).

(** src/shammath/include/shammath/symtensors.hpp:647-673 *)
Definition inner53 (s : st5) (t : st3) : st2 :=
  (mk2 (((((((((((v_00000 s) * (v_000 t)) + ((3 * (v_00001 s)) * (v_001 t))) + ((3 * (v_00002 s)) * (v_002 t))) + ((3 * (v_00011 s)) * (v_011 t))) + ((6 * (v_00012 s)) * (v_012 t))) + ((3 * (v_00022 s)) * (v_022 t))) + ((v_00111 s) * (v_111 t))) + ((3 * (v_00112 s)) * (v_112 t))) + ((3 * (v_00122 s)) * (v_122 t))) + ((v_00222 s) * (v_222 t))) (((((((((((v_00001 s) * (v_000 t)) + ((3 * (v_00011 s)) * (v_001 t))) + ((3 * (v_00012 s)) * (v_002 t))) + ((3 * (v_00111 s)) * (v_011 t))) + ((6 * (v_00112 s)) * (v_012 t))) + ((3 * (v_00122 s)) * (v_022 t))) + ((v_01111 s) * (v_111 t))) + ((3 * (v_01112 s)) * (v_112 t))) + ((3 * (v_01122 s)) * (v_122 t))) + ((v_01222 s) * (v_222 t))) (((((((((((v_00002 s) * (v_000 t)) + ((3 * (v_00012 s)) * (v_001 t))) + ((3 * (v_00022 s)) * (v_002 t))) + ((3 * (v_00112 s)) * (v_011 t))) + ((6 * (v_00122 s)) * (v_012 t))) + ((3 * (v_00222 s)) * (v_022 t))) + ((v_01112 s) * (v_111 t))) + ((3 * (v_01122 s)) * (v_112 t))) + ((3 * (v_01222 s)) * (v_122 t))) + ((v_02222 s) * (v_222 t))) (((((((((((v_00011 s) * (v_000 t)) + ((3 * (v_00111 s)) * (v_001 t))) + ((3 * (v_00112 s)) * (v_002 t))) + ((3 * (v_01111 s)) * (v_011 t))) + ((6 * (v_01112 s)) * (v_012 t))) + ((3 * (v_01122 s)) * (v_022 t))) + ((v_11111 s) * (v_111 t))) + ((3 * (v_11112 s)) * (v_112 t))) + ((3 * (v_11122 s)) * (v_122 t))) + ((v_11222 s) * (v_222 t))) (((((((((((v_00012 s) * (v_000 t)) + ((3 * (v_00112 s)) * (v_001 t))) + ((3 * (v_00122 s)) * (v_002 t))) + ((3 * (v_01112 s)) * (v_011 t))) + ((6 * (v_01122 s)) * (v_012 t))) + ((3 * (v_01222 s)) * (v_022 t))) + ((v_11112 s) * (v_111 t))) + ((3 * (v_11122 s)) * (v_112 t))) + ((3 * (v_11222 s)) * (v_122 t))) + ((v_12222 s) * (v_222 t))) (((((((((((v_00022 s) * (v_000 t)) + ((3 * (v_00122 s)) * (v_001 t))) + ((3 * (v_00222 s)) * (v_002 t))) + ((3 * (v_01122 s)) * (v_011 t))) + ((6 * (v_01222 s)) * (v_012 t))) + ((3 * (v_02222 s)) * (v_022 t))) + ((v_11122 s) * (v_111 t))) + ((3 * (v_11222 s)) * (v_112 t))) + ((3 * (v_12222 s)) * (v_122 t))) + ((v_22222 s) * (v_222 t)))).

(** src/shammath/include/shammath/symtensors.hpp:675-697 *)
Definition inner52 (s : st5) (t : st2) : st3 :=
  (mk3 (((((((v_00000 s) * (v_00 t)) + ((2 * (v_00001 s)) * (v_01 t))) + ((2 * (v_00002 s)) * (v_02 t))) + ((v_00011 s) * (v_11 t))) + ((2 * (v_00012 s)) * (v_12 t))) + ((v_00022 s) * (v_22 t))) (((((((v_00001 s) * (v_00 t)) + ((2 * (v_00011 s)) * (v_01 t))) + ((2 * (v_00012 s)) * (v_02 t))) + ((v_00111 s) * (v_11 t))) + ((2 * (v_00112 s)) * (v_12 t))) + ((v_00122 s) * (v_22 t))) (((((((v_00002 s) * (v_00 t)) + ((2 * (v_00012 s)) * (v_01 t))) + ((2 * (v_00022 s)) * (v_02 t))) + ((v_00112 s) * (v_11 t))) + ((2 * (v_00122 s)) * (v_12 t))) + ((v_00222 s) * (v_22 t))) (((((((v_00011 s) * (v_00 t)) + ((2 * (v_00111 s)) * (v_01 t))) + ((2 * (v_00112 s)) * (v_02 t))) + ((v_01111 s) * (v_11 t))) + ((2 * (v_01112 s)) * (v_12 t))) + ((v_01122 s) * (v_22 t))) (((((((v_00012 s) * (v_00 t)) + ((2 * (v_00112 s)) * (v_01 t))) + ((2 * (v_00122 s)) * (v_02 t))) + ((v_01112 s) * (v_11 t))) + ((2 * (v_01122 s)) * (v_12 t))) + ((v_01222 s) * (v_22 t))) (((((((v_00022 s) * (v_00 t)) + ((2 * (v_00122 s)) * (v_01 t))) + ((2 * (v_00222 s)) * (v_02 t))) + ((v_01122 s) * (v_11 t))) + ((2 * (v_01222 s)) * (v_12 t))) + ((v_02222 s) * (v_22 t))) (((((((v_00111 s) * (v_00 t)) + ((2 * (v_01111 s)) * (v_01 t))) + ((2 * (v_01112 s)) * (v_02 t))) + ((v_11111 s) * (v_11 t))) + ((2 * (v_11112 s)) * (v_12 t))) + ((v_11122 s) * (v_22 t))) (((((((v_00112 s) * (v_00 t)) + ((2 * (v_01112 s)) * (v_01 t))) + ((2 * (v_01122 s)) * (v_02 t))) + ((v_11112 s) * (v_11 t))) + ((2 * (v_11122 s)) * (v_12 t))) + ((v_11222 s) * (v_22 t))) (((((((v_00122 s) * (v_00 t)) + ((2 * (v_01122 s)) * (v_01 t))) + ((2 * (v_01222 s)) * (v_02 t))) + ((v_11122 s) * (v_11 t))) + ((2 * (v_11222 s)) * (v_12 t))) + ((v_12222 s) * (v_22 t))) (((((((v_00222 s) * (v_00 t)) + ((2 * (v_01222 s)) * (v_01 t))) + ((2 * (v_02222 s)) * (v_02 t))) + ((v_11222 s) * (v_11 t))) + ((2 * (v_12222 s)) * (v_12 t))) + ((v_22222 s) * (v_22 t)))).

(** src/shammath/include/shammath/symtensors.hpp:699-717 *)
Definition inner51 (s : st5) (t : st1) : st4 :=
  (mk4 ((((v_00000 s) * (v_0 t)) + ((v_00001 s) * (v_1 t))) + ((v_00002 s) * (v_2 t))) ((((v_00001 s) * (v_0 t)) + ((v_00011 s) * (v_1 t))) + ((v_00012 s) * (v_2 t))) ((((v_00002 s) * (v_0 t)) + ((v_00012 s) * (v_1 t))) + ((v_00022 s) * (v_2 t))) ((((v_00011 s) * (v_0 t)) + ((v_00111 s) * (v_1 t))) + ((v_00112 s) * (v_2 t))) ((((v_00012 s) * (v_0 t)) + ((v_00112 s) * (v_1 t))) + ((v_00122 s) * (v_2 t))) ((((v_00022 s) * (v_0 t)) + ((v_00122 s) * (v_1 t))) + ((v_00222 s) * (v_2 t))) ((((v_00111 s) * (v_0 t)) + ((v_01111 s) * (v_1 t))) + ((v_01112 s) * (v_2 t))) ((((v_00112 s) * (v_0 t)) + ((v_01112 s) * (v_1 t))) + ((v_01122 s) * (v_2 t))) ((((v_00122 s) * (v_0 t)) + ((v_01122 s) * (v_1 t))) + ((v_01222 s) * (v_2 t))) ((((v_00222 s) * (v_0 t)) + ((v_01222 s) * (v_1 t))) + ((v_02222 s) * (v_2 t))) ((((v_01111 s) * (v_0 t)) + ((v_11111 s) * (v_1 t))) + ((v_11112 s) * (v_2 t))) ((((v_01112 s) * (v_0 t)) + ((v_11112 s) * (v_1 t))) + ((v_11122 s) * (v_2 t))) ((((v_01122 s) * (v_0 t)) + ((v_11122 s) * (v_1 t))) + ((v_11222 s) * (v_2 t))) ((((v_01222 s) * (v_0 t)) + ((v_11222 s) * (v_1 t))) + ((v_12222 s) * (v_2 t))) ((((v_02222 s) * (v_0 t)) + ((v_12222 s) * (v_1 t))) + ((v_22222 s) * (v_2 t)))).

(** src/shammath/include/shammath/symtensors.hpp:719-726 *)
Definition innerS5 (s : st5) (scal : R) : st5 :=
  (mk5 ((v_00000 s) * scal) ((v_00001 s) * scal) ((v_00002 s) * scal) ((v_00011 s) * scal) ((v_00012 s) * scal) ((v_00022 s) * scal) ((v_00111 s) * scal) ((v_00112 s) * scal) ((v_00122 s) * scal) ((v_00222 s) * scal) ((v_01111 s) * scal) ((v_01112 s) * scal) ((v_01122 s) * scal) ((v_01222 s) * scal) ((v_02222 s) * scal) ((v_11111 s) * scal) ((v_11112 s) * scal) ((v_11122 s) * scal) ((v_11222 s) * scal) ((v_12222 s) * scal) ((v_22222 s) * scal)).

(** src/shammath/include/shammath/symtensors.hpp:728-753 *)
Definition scale5 (s : st5) (scal : R) : st5 :=
  let n_v_00000 := ((v_00000 s) * scal) in
  let n_v_00001 := ((v_00001 s) * scal) in
  let n_v_00002 := ((v_00002 s) * scal) in
  let n_v_00011 := ((v_00011 s) * scal) in
  let n_v_00012 := ((v_00012 s) * scal) in
  let n_v_00022 := ((v_00022 s) * scal) in
  let n_v_00111 := ((v_00111 s) * scal) in
  let n_v_00112 := ((v_00112 s) * scal) in
  let n_v_00122 := ((v_00122 s) * scal) in
  let n_v_00222 := ((v_00222 s) * scal) in
  let n_v_01111 := ((v_01111 s) * scal) in
  let n_v_01112 := ((v_01112 s) * scal) in
  let n_v_01122 := ((v_01122 s) * scal) in
  let n_v_01222 := ((v_01222 s) * scal) in
  let n_v_02222 := ((v_02222 s) * scal) in
  let n_v_11111 := ((v_11111 s) * scal) in
  let n_v_11112 := ((v_11112 s) * scal) in
  let n_v_11122 := ((v_11122 s) * scal) in
  let n_v_11222 := ((v_11222 s) * scal) in
  let n_v_12222 := ((v_12222 s) * scal) in
  let n_v_22222 := ((v_22222 s) * scal) in
  (mk5 n_v_00000 n_v_00001 n_v_00002 n_v_00011 n_v_00012 n_v_00022 n_v_00111 n_v_00112 n_v_00122 n_v_00222 n_v_01111 n_v_01112 n_v_01122 n_v_01222 n_v_02222 n_v_11111 n_v_11112 n_v_11122 n_v_11222 n_v_12222 n_v_22222).

(** src/shammath/include/shammath/symtensors.hpp:755-762 *)
Definition muls5 (s : st5) (scal : R) : st5 :=
  (mk5 ((v_00000 s) * scal) ((v_00001 s) * scal) ((v_00002 s) * scal) ((v_00011 s) * scal) ((v_00012 s) * scal) ((v_00022 s) * scal) ((v_00111 s) * scal) ((v_00112 s) * scal) ((v_00122 s) * scal) ((v_00222 s) * scal) ((v_01111 s) * scal) ((v_01112 s) * scal) ((v_01122 s) * scal) ((v_01222 s) * scal) ((v_02222 s) * scal) ((v_11111 s) * scal) ((v_11112 s) * scal) ((v_11122 s) * scal) ((v_11222 s) * scal) ((v_12222 s) * scal) ((v_22222 s) * scal)).

(** src/shammath/include/shammath/symtensors.hpp:764-789 *)
Definition acc5 (s : st5) (other : st5) : st5 :=
  let n_v_00000 := ((v_00000 s) + (v_00000 other)) in
  let n_v_00001 := ((v_00001 s) + (v_00001 other)) in
  let n_v_00002 := ((v_00002 s) + (v_00002 other)) in
  let n_v_00011 := ((v_00011 s) + (v_00011 other)) in
  let n_v_00012 := ((v_00012 s) + (v_00012 other)) in
  let n_v_00022 := ((v_00022 s) + (v_00022 other)) in
  let n_v_00111 := ((v_00111 s) + (v_00111 other)) in
  let n_v_00112 := ((v_00112 s) + (v_00112 other)) in
  let n_v_00122 := ((v_00122 s) + (v_00122 other)) in
  let n_v_00222 := ((v_00222 s) + (v_00222 other)) in
  let n_v_01111 := ((v_01111 s) + (v_01111 other)) in
  let n_v_01112 := ((v_01112 s) + (v_01112 other)) in
  let n_v_01122 := ((v_01122 s) + (v_01122 other)) in
  let n_v_01222 := ((v_01222 s) + (v_01222 other)) in
  let n_v_02222 := ((v_02222 s) + (v_02222 other)) in
  let n_v_11111 := ((v_11111 s) + (v_11111 other)) in
  let n_v_11112 := ((v_11112 s) + (v_11112 other)) in
  let n_v_11122 := ((v_11122 s) + (v_11122 other)) in
  let n_v_11222 := ((v_11222 s) + (v_11222 other)) in
  let n_v_12222 := ((v_12222 s) + (v_12222 other)) in
  let n_v_22222 := ((v_22222 s) + (v_22222 other)) in
  (mk5 n_v_00000 n_v_00001 n_v_00002 n_v_00011 n_v_00012 n_v_00022 n_v_00111 n_v_00112 n_v_00122 n_v_00222 n_v_01111 n_v_01112 n_v_01122 n_v_01222 n_v_02222 n_v_11111 n_v_11112 n_v_11122 n_v_11222 n_v_12222 n_v_22222).

(** src/shammath/include/shammath/symtensors.hpp:791-800 *)
Definition add5 (s : st5) (t2 : st5) : st5 :=
  (mk5 ((v_00000 s) + (v_00000 t2)) ((v_00001 s) + (v_00001 t2)) ((v_00002 s) + (v_00002 t2)) ((v_00011 s) + (v_00011 t2)) ((v_00012 s) + (v_00012 t2)) ((v_00022 s) + (v_00022 t2)) ((v_00111 s) + (v_00111 t2)) ((v_00112 s) + (v_00112 t2)) ((v_00122 s) + (v_00122 t2)) ((v_00222 s) + (v_00222 t2)) ((v_01111 s) + (v_01111 t2)) ((v_01112 s) + (v_01112 t2)) ((v_01122 s) + (v_01122 t2)) ((v_01222 s) + (v_01222 t2)) ((v_02222 s) + (v_02222 t2)) ((v_11111 s) + (v_11111 t2)) ((v_11112 s) + (v_11112 t2)) ((v_11122 s) + (v_11122 t2)) ((v_11222 s) + (v_11222 t2)) ((v_12222 s) + (v_12222 t2)) ((v_22222 s) + (v_22222 t2))).

(** src/shammath/include/shammath/symtensors.hpp:802-811 *)
Definition sub5 (s : st5) (t2 : st5) : st5 :=
  (mk5 ((v_00000 s) - (v_00000 t2)) ((v_00001 s) - (v_00001 t2)) ((v_00002 s) - (v_00002 t2)) ((v_00011 s) - (v_00011 t2)) ((v_00012 s) - (v_00012 t2)) ((v_00022 s) - (v_00022 t2)) ((v_00111 s) - (v_00111 t2)) ((v_00112 s) - (v_00112 t2)) ((v_00122 s) - (v_00122 t2)) ((v_00222 s) - (v_00222 t2)) ((v_01111 s) - (v_01111 t2)) ((v_01112 s) - (v_01112 t2)) ((v_01122 s) - (v_01122 t2)) ((v_01222 s) - (v_01222 t2)) ((v_02222 s) - (v_02222 t2)) ((v_11111 s) - (v_11111 t2)) ((v_11112 s) - (v_11112 t2)) ((v_11122 s) - (v_11122 t2)) ((v_11222 s) - (v_11222 t2)) ((v_12222 s) - (v_12222 t2)) ((v_22222 s) - (v_22222 t2))).

(** src/shammath/include/shammath/symtensors.hpp:814-836 *)
Definition store5 (s : st5) (acc : nat -> R) (offset : nat) : nat -> R :=
  assigns acc offset [(0%nat, v_00000 s); (1%nat, v_00001 s); (2%nat, v_00002 s); (3%nat, v_00011 s); (4%nat, v_00012 s); (5%nat, v_00022 s); (6%nat, v_00111 s); (7%nat, v_00112 s); (8%nat, v_00122 s); (9%nat, v_00222 s); (10%nat, v_01111 s); (11%nat, v_01112 s); (12%nat, v_01122 s); (13%nat, v_01222 s); (14%nat, v_02222 s); (15%nat, v_11111 s); (16%nat, v_11112 s); (17%nat, v_11122 s); (18%nat, v_11222 s); (19%nat, v_12222 s); (20%nat, v_22222 s)].

(** src/shammath/include/shammath/symtensors.hpp:839-847 *)
Definition load5 (acc : nat -> R) (offset : nat) : st5 :=
  mk5 (acc (offset + 0)%nat) (acc (offset + 1)%nat) (acc (offset + 2)%nat) (acc (offset + 3)%nat) (acc (offset + 4)%nat) (acc (offset + 5)%nat) (acc (offset + 6)%nat) (acc (offset + 7)%nat) (acc (offset + 8)%nat) (acc (offset + 9)%nat) (acc (offset + 10)%nat) (acc (offset + 11)%nat) (acc (offset + 12)%nat) (acc (offset + 13)%nat) (acc (offset + 14)%nat) (acc (offset + 15)%nat) (acc (offset + 16)%nat) (acc (offset + 17)%nat) (acc (offset + 18)%nat) (acc (offset + 19)%nat) (acc (offset + 20)%nat).

(** src/shammath/include/shammath/symtensors.hpp:852-854 *)
Definition op_55 (a : st5) (b : st5) : R :=
  (inner55 a b).

(** src/shammath/include/shammath/symtensors.hpp:857-859 *)
Definition op_54 (a : st5) (b : st4) : st1 :=
  (inner54 a b).

(** src/shammath/include/shammath/symtensors.hpp:862-864 *)
Definition op_53 (a : st5) (b : st3) : st2 :=
  (inner53 a b).

(** src/shammath/include/shammath/symtensors.hpp:867-869 *)
Definition op_52 (a : st5) (b : st2) : st3 :=
  (inner52 a b).

(** src/shammath/include/shammath/symtensors.hpp:872-874 *)
Definition op_51 (a : st5) (b : st1) : st4 :=
  (inner51 a b).

(** src/shammath/include/shammath/symtensors.hpp:903-905 *)
Definition op_44 (a : st4) (b : st4) : R :=
  (inner44 a b).

(** src/shammath/include/shammath/symtensors.hpp:908-910 *)
Definition op_43 (a : st4) (b : st3) : st1 :=
  (inner43 a b).

(** src/shammath/include/shammath/symtensors.hpp:913-915 *)
Definition op_42 (a : st4) (b : st2) : st2 :=
  (inner42 a b).

(** src/shammath/include/shammath/symtensors.hpp:918-920 *)
Definition op_41 (a : st4) (b : st1) : st3 :=
  (inner41 a b).

(** src/shammath/include/shammath/symtensors.hpp:944-946 *)
Definition op_33 (a : st3) (b : st3) : R :=
  (inner33 a b).

(** src/shammath/include/shammath/symtensors.hpp:948-950 *)
Definition op_32 (a : st3) (b : st2) : st1 :=
  (inner32 a b).

(** src/shammath/include/shammath/symtensors.hpp:952-954 *)
Definition op_31 (a : st3) (b : st1) : st2 :=
  (inner31 a b).

(** src/shammath/include/shammath/symtensors.hpp:972-974 *)
Definition op_22 (a : st2) (b : st2) : R :=
  (inner22 a b).

(** src/shammath/include/shammath/symtensors.hpp:977-979 *)
Definition op_21 (a : st2) (b : st1) : st1 :=
  (inner21 a b).

(** src/shammath/include/shammath/symtensors.hpp:994-996 *)
Definition op_11 (a : st1) (b : st1) : R :=
  (inner11 a b).

(** src/shammath/include/shammath/symtensors.hpp:877-879 *)
Definition op_R5 (a : R) (b : st5) : st5 :=
  (muls5 b a).

(** src/shammath/include/shammath/symtensors.hpp:882-884 *)
Definition op_15 (a : st1) (b : st5) : st4 :=
  (op_51 b a).

(** src/shammath/include/shammath/symtensors.hpp:887-889 *)
Definition op_25 (a : st2) (b : st5) : st3 :=
  (op_52 b a).

(** src/shammath/include/shammath/symtensors.hpp:892-894 *)
Definition op_35 (a : st3) (b : st5) : st2 :=
  (op_53 b a).

(** src/shammath/include/shammath/symtensors.hpp:897-899 *)
Definition op_45 (a : st4) (b : st5) : st1 :=
  (op_54 b a).

(** src/shammath/include/shammath/symtensors.hpp:923-925 *)
Definition op_R4 (a : R) (b : st4) : st4 :=
  (muls4 b a).

(** src/shammath/include/shammath/symtensors.hpp:928-930 *)
Definition op_14 (a : st1) (b : st4) : st3 :=
  (op_41 b a).

(** src/shammath/include/shammath/symtensors.hpp:933-935 *)
Definition op_24 (a : st2) (b : st4) : st2 :=
  (op_42 b a).

(** src/shammath/include/shammath/symtensors.hpp:938-940 *)
Definition op_34 (a : st3) (b : st4) : st1 :=
  (op_43 b a).

(** src/shammath/include/shammath/symtensors.hpp:957-959 *)
Definition op_23 (a : st2) (b : st3) : st1 :=
  (op_32 b a).

(** src/shammath/include/shammath/symtensors.hpp:961-963 *)
Definition op_13 (a : st1) (b : st3) : st2 :=
  (op_31 b a).

(** src/shammath/include/shammath/symtensors.hpp:965-967 *)
Definition op_R3 (a : R) (b : st3) : st3 :=
  (muls3 b a).

(** src/shammath/include/shammath/symtensors.hpp:982-984 *)
Definition op_12 (a : st1) (b : st2) : st1 :=
  (inner21 b a).

(** src/shammath/include/shammath/symtensors.hpp:987-989 *)
Definition op_R2 (a : R) (b : st2) : st2 :=
  (muls2 b a).

(** src/shammath/include/shammath/symtensors.hpp:999-1001 *)
Definition op_R1 (a : R) (b : st1) : st1 :=
  (muls1 b a).

(** src/shammath/include/shammath/symtensor_collections.hpp:28 *)
Record col05 : Type := mkc05 { c05_t0 : R; c05_t1 : st1; c05_t2 : st2; c05_t3 : st3; c05_t4 : st4; c05_t5 : st5 }.

(** num_component, src/shammath/include/shammath/symtensor_collections.hpp:36 *)
Definition num_component05 : nat := (1 + compo_cnt1 + compo_cnt2 + compo_cnt3 + compo_cnt4 + compo_cnt5)%nat.

(** src/shammath/include/shammath/symtensor_collections.hpp:41 *)
Definition offset05_t0 : nat := (0)%nat.

(** src/shammath/include/shammath/symtensor_collections.hpp:42 *)
Definition offset05_t1 : nat := (1)%nat.

(** src/shammath/include/shammath/symtensor_collections.hpp:43 *)
Definition offset05_t2 : nat := (offset05_t1 + compo_cnt1)%nat.

(** src/shammath/include/shammath/symtensor_collections.hpp:44 *)
Definition offset05_t3 : nat := (offset05_t2 + compo_cnt2)%nat.

(** src/shammath/include/shammath/symtensor_collections.hpp:45 *)
Definition offset05_t4 : nat := (offset05_t3 + compo_cnt3)%nat.

(** src/shammath/include/shammath/symtensor_collections.hpp:46 *)
Definition offset05_t5 : nat := (offset05_t4 + compo_cnt4)%nat.

(** src/shammath/include/shammath/symtensor_collections.hpp:48-98 *)
Definition from_vec05 (v : vec3) : col05 :=
  let A1 := (mk1 (vx v) (vy v) (vz v)) in
  let A2 := (mk2 ((v_0 A1) * (v_0 A1)) ((v_1 A1) * (v_0 A1)) ((v_2 A1) * (v_0 A1)) ((v_1 A1) * (v_1 A1)) ((v_2 A1) * (v_1 A1)) ((v_2 A1) * (v_2 A1))) in
  let A3 := (mk3 ((v_00 A2) * (v_0 A1)) ((v_01 A2) * (v_0 A1)) ((v_02 A2) * (v_0 A1)) ((v_11 A2) * (v_0 A1)) ((v_12 A2) * (v_0 A1)) ((v_22 A2) * (v_0 A1)) ((v_11 A2) * (v_1 A1)) ((v_12 A2) * (v_1 A1)) ((v_22 A2) * (v_1 A1)) ((v_22 A2) * (v_2 A1))) in
  let A4 := (mk4 ((v_000 A3) * (v_0 A1)) ((v_001 A3) * (v_0 A1)) ((v_002 A3) * (v_0 A1)) ((v_011 A3) * (v_0 A1)) ((v_012 A3) * (v_0 A1)) ((v_022 A3) * (v_0 A1)) ((v_111 A3) * (v_0 A1)) ((v_112 A3) * (v_0 A1)) ((v_122 A3) * (v_0 A1)) ((v_222 A3) * (v_0 A1)) ((v_111 A3) * (v_1 A1)) ((v_112 A3) * (v_1 A1)) ((v_122 A3) * (v_1 A1)) ((v_222 A3) * (v_1 A1)) ((v_222 A3) * (v_2 A1))) in
  let A5 := (mk5 ((v_0000 A4) * (v_0 A1)) ((v_0001 A4) * (v_0 A1)) ((v_0002 A4) * (v_0 A1)) ((v_0011 A4) * (v_0 A1)) ((v_0012 A4) * (v_0 A1)) ((v_0022 A4) * (v_0 A1)) ((v_0111 A4) * (v_0 A1)) ((v_0112 A4) * (v_0 A1)) ((v_0122 A4) * (v_0 A1)) ((v_0222 A4) * (v_0 A1)) ((v_1111 A4) * (v_0 A1)) ((v_1112 A4) * (v_0 A1)) ((v_1122 A4) * (v_0 A1)) ((v_1222 A4) * (v_0 A1)) ((v_2222 A4) * (v_0 A1)) ((v_1111 A4) * (v_1 A1)) ((v_1112 A4) * (v_1 A1)) ((v_1122 A4) * (v_1 A1)) ((v_1222 A4) * (v_1 A1)) ((v_2222 A4) * (v_1 A1)) ((v_2222 A4) * (v_2 A1))) in
  (mkc05 1 A1 A2 A3 A4 A5).

(** src/shammath/include/shammath/symtensor_collections.hpp:100-120 *)
Definition zeros05 : col05 :=
  let A1 := (mk1 0 0 0) in
  let A2 := (mk2 0 0 0 0 0 0) in
  let A3 := (mk3 0 0 0 0 0 0 0 0 0 0) in
  let A4 := (mk4 0 0 0 0 0 0 0 0 0 0 0 0 0 0 0) in
  let A5 := (mk5 0 0 0 0 0 0 0 0 0 0 0 0 0 0 0 0 0 0 0 0 0) in
  (mkc05 0 A1 A2 A3 A4 (mk5 0 0 0 0 0 0 0 0 0 0 0 0 0 0 0 0 0 0 0 0 0)).

(** src/shammath/include/shammath/symtensor_collections.hpp:123-130 *)
Definition store05 (s : col05) (acc : nat -> R) (offset : nat) : nat -> R :=
  let acc := assigns acc offset [(offset05_t0%nat, c05_t0 s)] in
  let acc := store1 (c05_t1 s) acc (offset + offset05_t1)%nat in
  let acc := store2 (c05_t2 s) acc (offset + offset05_t2)%nat in
  let acc := store3 (c05_t3 s) acc (offset + offset05_t3)%nat in
  let acc := store4 (c05_t4 s) acc (offset + offset05_t4)%nat in
  let acc := store5 (c05_t5 s) acc (offset + offset05_t5)%nat in
  acc.

(** src/shammath/include/shammath/symtensor_collections.hpp:133-141 *)
Definition load05 (acc : nat -> R) (offset : nat) : col05 :=
  mkc05 (acc (offset + offset05_t0)%nat) (load1 acc (offset + offset05_t1)%nat) (load2 acc (offset + offset05_t2)%nat) (load3 acc (offset + offset05_t3)%nat) (load4 acc (offset + offset05_t4)%nat) (load5 acc (offset + offset05_t5)%nat).

(** src/shammath/include/shammath/symtensor_collections.hpp:143-153 *)
Definition scale05 (s : col05) (scal : R) : col05 :=
  let n_t0 := ((c05_t0 s) * scal) in
  let n_t1 := (scale1 (c05_t1 s) scal) in
  let n_t2 := (scale2 (c05_t2 s) scal) in
  let n_t3 := (scale3 (c05_t3 s) scal) in
  let n_t4 := (scale4 (c05_t4 s) scal) in
  let n_t5 := (scale5 (c05_t5 s) scal) in
  (mkc05 n_t0 n_t1 n_t2 n_t3 n_t4 n_t5).

(** src/shammath/include/shammath/symtensor_collections.hpp:155-165 *)
Definition acc05 (s : col05) (other : col05) : col05 :=
  let n_t0 := ((c05_t0 s) + (c05_t0 other)) in
  let n_t1 := (acc1 (c05_t1 s) (c05_t1 other)) in
  let n_t2 := (acc2 (c05_t2 s) (c05_t2 other)) in
  let n_t3 := (acc3 (c05_t3 s) (c05_t3 other)) in
  let n_t4 := (acc4 (c05_t4 s) (c05_t4 other)) in
  let n_t5 := (acc5 (c05_t5 s) (c05_t5 other)) in
  (mkc05 n_t0 n_t1 n_t2 n_t3 n_t4 n_t5).

(** src/shammath/include/shammath/symtensor_collections.hpp:167-176 *)
Definition sub05 (s : col05) (other : col05) : col05 :=
  (mkc05 ((c05_t0 s) - (c05_t0 other)) (sub1 (c05_t1 s) (c05_t1 other)) (sub2 (c05_t2 s) (c05_t2 other)) (sub3 (c05_t3 s) (c05_t3 other)) (sub4 (c05_t4 s) (c05_t4 other)) (sub5 (c05_t5 s) (c05_t5 other))).

(** src/shammath/include/shammath/symtensor_collections.hpp:180 *)
Record col04 : Type := mkc04 { c04_t0 : R; c04_t1 : st1; c04_t2 : st2; c04_t3 : st3; c04_t4 : st4 }.

(** num_component, src/shammath/include/shammath/symtensor_collections.hpp:187 *)
Definition num_component04 : nat := (1 + compo_cnt1 + compo_cnt2 + compo_cnt3 + compo_cnt4)%nat.

(** src/shammath/include/shammath/symtensor_collections.hpp:191 *)
Definition offset04_t0 : nat := (0)%nat.

(** src/shammath/include/shammath/symtensor_collections.hpp:192 *)
Definition offset04_t1 : nat := (1)%nat.

(** src/shammath/include/shammath/symtensor_collections.hpp:193 *)
Definition offset04_t2 : nat := (offset04_t1 + compo_cnt1)%nat.

(** src/shammath/include/shammath/symtensor_collections.hpp:194 *)
Definition offset04_t3 : nat := (offset04_t2 + compo_cnt2)%nat.

(** src/shammath/include/shammath/symtensor_collections.hpp:195 *)
Definition offset04_t4 : nat := (offset04_t3 + compo_cnt3)%nat.

(** src/shammath/include/shammath/symtensor_collections.hpp:197-239 *)
Definition from_vec04 (v : vec3) : col04 :=
  let A1 := (mk1 (vx v) (vy v) (vz v)) in
  let A2 := (mk2 ((v_0 A1) * (v_0 A1)) ((v_1 A1) * (v_0 A1)) ((v_2 A1) * (v_0 A1)) ((v_1 A1) * (v_1 A1)) ((v_2 A1) * (v_1 A1)) ((v_2 A1) * (v_2 A1))) in
  let A3 := (mk3 ((v_00 A2) * (v_0 A1)) ((v_01 A2) * (v_0 A1)) ((v_02 A2) * (v_0 A1)) ((v_11 A2) * (v_0 A1)) ((v_12 A2) * (v_0 A1)) ((v_22 A2) * (v_0 A1)) ((v_11 A2) * (v_1 A1)) ((v_12 A2) * (v_1 A1)) ((v_22 A2) * (v_1 A1)) ((v_22 A2) * (v_2 A1))) in
  let A4 := (mk4 ((v_000 A3) * (v_0 A1)) ((v_001 A3) * (v_0 A1)) ((v_002 A3) * (v_0 A1)) ((v_011 A3) * (v_0 A1)) ((v_012 A3) * (v_0 A1)) ((v_022 A3) * (v_0 A1)) ((v_111 A3) * (v_0 A1)) ((v_112 A3) * (v_0 A1)) ((v_122 A3) * (v_0 A1)) ((v_222 A3) * (v_0 A1)) ((v_111 A3) * (v_1 A1)) ((v_112 A3) * (v_1 A1)) ((v_122 A3) * (v_1 A1)) ((v_222 A3) * (v_1 A1)) ((v_222 A3) * (v_2 A1))) in
  (mkc04 1 A1 A2 A3 A4).

(** src/shammath/include/shammath/symtensor_collections.hpp:241-258 *)
Definition zeros04 : col04 :=
  let A1 := (mk1 0 0 0) in
  let A2 := (mk2 0 0 0 0 0 0) in
  let A3 := (mk3 0 0 0 0 0 0 0 0 0 0) in
  let A4 := (mk4 0 0 0 0 0 0 0 0 0 0 0 0 0 0 0) in
  (mkc04 0 A1 A2 A3 A4).

(** src/shammath/include/shammath/symtensor_collections.hpp:261-267 *)
Definition store04 (s : col04) (acc : nat -> R) (offset : nat) : nat -> R :=
  let acc := assigns acc offset [(offset04_t0%nat, c04_t0 s)] in
  let acc := store1 (c04_t1 s) acc (offset + offset04_t1)%nat in
  let acc := store2 (c04_t2 s) acc (offset + offset04_t2)%nat in
  let acc := store3 (c04_t3 s) acc (offset + offset04_t3)%nat in
  let acc := store4 (c04_t4 s) acc (offset + offset04_t4)%nat in
  acc.

(** src/shammath/include/shammath/symtensor_collections.hpp:270-277 *)
Definition load04 (acc : nat -> R) (offset : nat) : col04 :=
  mkc04 (acc (offset + offset04_t0)%nat) (load1 acc (offset + offset04_t1)%nat) (load2 acc (offset + offset04_t2)%nat) (load3 acc (offset + offset04_t3)%nat) (load4 acc (offset + offset04_t4)%nat).

(** src/shammath/include/shammath/symtensor_collections.hpp:279-288 *)
Definition scale04 (s : col04) (scal : R) : col04 :=
  let n_t0 := ((c04_t0 s) * scal) in
  let n_t1 := (scale1 (c04_t1 s) scal) in
  let n_t2 := (scale2 (c04_t2 s) scal) in
  let n_t3 := (scale3 (c04_t3 s) scal) in
  let n_t4 := (scale4 (c04_t4 s) scal) in
  (mkc04 n_t0 n_t1 n_t2 n_t3 n_t4).

(** src/shammath/include/shammath/symtensor_collections.hpp:290-299 *)
Definition acc04 (s : col04) (other : col04) : col04 :=
  let n_t0 := ((c04_t0 s) + (c04_t0 other)) in
  let n_t1 := (acc1 (c04_t1 s) (c04_t1 other)) in
  let n_t2 := (acc2 (c04_t2 s) (c04_t2 other)) in
  let n_t3 := (acc3 (c04_t3 s) (c04_t3 other)) in
  let n_t4 := (acc4 (c04_t4 s) (c04_t4 other)) in
  (mkc04 n_t0 n_t1 n_t2 n_t3 n_t4).

(** src/shammath/include/shammath/symtensor_collections.hpp:301-304 *)
Definition sub04 (s : col04) (other : col04) : col04 :=
  (mkc04 ((c04_t0 s) - (c04_t0 other)) (sub1 (c04_t1 s) (c04_t1 other)) (sub2 (c04_t2 s) (c04_t2 other)) (sub3 (c04_t3 s) (c04_t3 other)) (sub4 (c04_t4 s) (c04_t4 other))).

(** src/shammath/include/shammath/symtensor_collections.hpp:308 *)
Record col03 : Type := mkc03 { c03_t0 : R; c03_t1 : st1; c03_t2 : st2; c03_t3 : st3 }.

(** num_component, src/shammath/include/shammath/symtensor_collections.hpp:314 *)
Definition num_component03 : nat := (1 + compo_cnt1 + compo_cnt2 + compo_cnt3)%nat.

(** src/shammath/include/shammath/symtensor_collections.hpp:318 *)
Definition offset03_t0 : nat := (0)%nat.

(** src/shammath/include/shammath/symtensor_collections.hpp:319 *)
Definition offset03_t1 : nat := (1)%nat.

(** src/shammath/include/shammath/symtensor_collections.hpp:320 *)
Definition offset03_t2 : nat := (offset03_t1 + compo_cnt1)%nat.

(** src/shammath/include/shammath/symtensor_collections.hpp:321 *)
Definition offset03_t3 : nat := (offset03_t2 + compo_cnt2)%nat.

(** src/shammath/include/shammath/symtensor_collections.hpp:323-348 *)
Definition from_vec03 (v : vec3) : col03 :=
  let A1 := (mk1 (vx v) (vy v) (vz v)) in
  let A2 := (mk2 ((v_0 A1) * (v_0 A1)) ((v_1 A1) * (v_0 A1)) ((v_2 A1) * (v_0 A1)) ((v_1 A1) * (v_1 A1)) ((v_2 A1) * (v_1 A1)) ((v_2 A1) * (v_2 A1))) in
  let A3 := (mk3 ((v_00 A2) * (v_0 A1)) ((v_01 A2) * (v_0 A1)) ((v_02 A2) * (v_0 A1)) ((v_11 A2) * (v_0 A1)) ((v_12 A2) * (v_0 A1)) ((v_22 A2) * (v_0 A1)) ((v_11 A2) * (v_1 A1)) ((v_12 A2) * (v_1 A1)) ((v_22 A2) * (v_1 A1)) ((v_22 A2) * (v_2 A1))) in
  (mkc03 1 A1 A2 A3).

(** src/shammath/include/shammath/symtensor_collections.hpp:350-365 *)
Definition zeros03 : col03 :=
  let A1 := (mk1 0 0 0) in
  let A2 := (mk2 0 0 0 0 0 0) in
  let A3 := (mk3 0 0 0 0 0 0 0 0 0 0) in
  (mkc03 0 A1 A2 A3).

(** src/shammath/include/shammath/symtensor_collections.hpp:368-373 *)
Definition store03 (s : col03) (acc : nat -> R) (offset : nat) : nat -> R :=
  let acc := assigns acc offset [(offset03_t0%nat, c03_t0 s)] in
  let acc := store1 (c03_t1 s) acc (offset + offset03_t1)%nat in
  let acc := store2 (c03_t2 s) acc (offset + offset03_t2)%nat in
  let acc := store3 (c03_t3 s) acc (offset + offset03_t3)%nat in
  acc.

(** src/shammath/include/shammath/symtensor_collections.hpp:376-382 *)
Definition load03 (acc : nat -> R) (offset : nat) : col03 :=
  mkc03 (acc (offset + offset03_t0)%nat) (load1 acc (offset + offset03_t1)%nat) (load2 acc (offset + offset03_t2)%nat) (load3 acc (offset + offset03_t3)%nat).

(** src/shammath/include/shammath/symtensor_collections.hpp:384-392 *)
Definition scale03 (s : col03) (scal : R) : col03 :=
  let n_t0 := ((c03_t0 s) * scal) in
  let n_t1 := (scale1 (c03_t1 s) scal) in
  let n_t2 := (scale2 (c03_t2 s) scal) in
  let n_t3 := (scale3 (c03_t3 s) scal) in
  (mkc03 n_t0 n_t1 n_t2 n_t3).

(** src/shammath/include/shammath/symtensor_collections.hpp:394-402 *)
Definition acc03 (s : col03) (other : col03) : col03 :=
  let n_t0 := ((c03_t0 s) + (c03_t0 other)) in
  let n_t1 := (acc1 (c03_t1 s) (c03_t1 other)) in
  let n_t2 := (acc2 (c03_t2 s) (c03_t2 other)) in
  let n_t3 := (acc3 (c03_t3 s) (c03_t3 other)) in
  (mkc03 n_t0 n_t1 n_t2 n_t3).

(** src/shammath/include/shammath/symtensor_collections.hpp:404-407 *)
Definition sub03 (s : col03) (other : col03) : col03 :=
  (mkc03 ((c03_t0 s) - (c03_t0 other)) (sub1 (c03_t1 s) (c03_t1 other)) (sub2 (c03_t2 s) (c03_t2 other)) (sub3 (c03_t3 s) (c03_t3 other))).

(** src/shammath/include/shammath/symtensor_collections.hpp:411 *)
Record col02 : Type := mkc02 { c02_t0 : R; c02_t1 : st1; c02_t2 : st2 }.

(** num_component, src/shammath/include/shammath/symtensor_collections.hpp:416 *)
Definition num_component02 : nat := (1 + compo_cnt1 + compo_cnt2)%nat.

(** src/shammath/include/shammath/symtensor_collections.hpp:419 *)
Definition offset02_t0 : nat := (0)%nat.

(** src/shammath/include/shammath/symtensor_collections.hpp:420 *)
Definition offset02_t1 : nat := (1)%nat.

(** src/shammath/include/shammath/symtensor_collections.hpp:421 *)
Definition offset02_t2 : nat := (offset02_t1 + compo_cnt1)%nat.

(** src/shammath/include/shammath/symtensor_collections.hpp:423-436 *)
Definition from_vec02 (v : vec3) : col02 :=
  let A1 := (mk1 (vx v) (vy v) (vz v)) in
  let A2 := (mk2 ((v_0 A1) * (v_0 A1)) ((v_1 A1) * (v_0 A1)) ((v_2 A1) * (v_0 A1)) ((v_1 A1) * (v_1 A1)) ((v_2 A1) * (v_1 A1)) ((v_2 A1) * (v_2 A1))) in
  (mkc02 1 A1 A2).

(** src/shammath/include/shammath/symtensor_collections.hpp:438-451 *)
Definition zeros02 : col02 :=
  let A1 := (mk1 0 0 0) in
  let A2 := (mk2 0 0 0 0 0 0) in
  (mkc02 0 A1 A2).

(** src/shammath/include/shammath/symtensor_collections.hpp:454-458 *)
Definition store02 (s : col02) (acc : nat -> R) (offset : nat) : nat -> R :=
  let acc := assigns acc offset [(offset02_t0%nat, c02_t0 s)] in
  let acc := store1 (c02_t1 s) acc (offset + offset02_t1)%nat in
  let acc := store2 (c02_t2 s) acc (offset + offset02_t2)%nat in
  acc.

(** src/shammath/include/shammath/symtensor_collections.hpp:461-466 *)
Definition load02 (acc : nat -> R) (offset : nat) : col02 :=
  mkc02 (acc (offset + offset02_t0)%nat) (load1 acc (offset + offset02_t1)%nat) (load2 acc (offset + offset02_t2)%nat).

(** src/shammath/include/shammath/symtensor_collections.hpp:468-475 *)
Definition scale02 (s : col02) (scal : R) : col02 :=
  let n_t0 := ((c02_t0 s) * scal) in
  let n_t1 := (scale1 (c02_t1 s) scal) in
  let n_t2 := (scale2 (c02_t2 s) scal) in
  (mkc02 n_t0 n_t1 n_t2).

(** src/shammath/include/shammath/symtensor_collections.hpp:477-484 *)
Definition acc02 (s : col02) (other : col02) : col02 :=
  let n_t0 := ((c02_t0 s) + (c02_t0 other)) in
  let n_t1 := (acc1 (c02_t1 s) (c02_t1 other)) in
  let n_t2 := (acc2 (c02_t2 s) (c02_t2 other)) in
  (mkc02 n_t0 n_t1 n_t2).

(** src/shammath/include/shammath/symtensor_collections.hpp:486-489 *)
Definition sub02 (s : col02) (other : col02) : col02 :=
  (mkc02 ((c02_t0 s) - (c02_t0 other)) (sub1 (c02_t1 s) (c02_t1 other)) (sub2 (c02_t2 s) (c02_t2 other))).

(** src/shammath/include/shammath/symtensor_collections.hpp:493 *)
Record col01 : Type := mkc01 { c01_t0 : R; c01_t1 : st1 }.

(** num_component, src/shammath/include/shammath/symtensor_collections.hpp:497 *)
Definition num_component01 : nat := (1 + compo_cnt1)%nat.

(** src/shammath/include/shammath/symtensor_collections.hpp:499 *)
Definition offset01_t0 : nat := (0)%nat.

(** src/shammath/include/shammath/symtensor_collections.hpp:500 *)
Definition offset01_t1 : nat := (1)%nat.

(** src/shammath/include/shammath/symtensor_collections.hpp:502-506 *)
Definition from_vec01 (v : vec3) : col01 :=
  let A1 := (mk1 (vx v) (vy v) (vz v)) in
  (mkc01 1 A1).

(** src/shammath/include/shammath/symtensor_collections.hpp:507-511 *)
Definition zeros01 : col01 :=
  let A1 := (mk1 0 0 0) in
  (mkc01 0 A1).

(** src/shammath/include/shammath/symtensor_collections.hpp:514-517 *)
Definition store01 (s : col01) (acc : nat -> R) (offset : nat) : nat -> R :=
  let acc := assigns acc offset [(offset01_t0%nat, c01_t0 s)] in
  let acc := store1 (c01_t1 s) acc (offset + offset01_t1)%nat in
  acc.

(** src/shammath/include/shammath/symtensor_collections.hpp:520-523 *)
Definition load01 (acc : nat -> R) (offset : nat) : col01 :=
  mkc01 (acc (offset + offset01_t0)%nat) (load1 acc (offset + offset01_t1)%nat).

(** src/shammath/include/shammath/symtensor_collections.hpp:525-531 *)
Definition scale01 (s : col01) (scal : R) : col01 :=
  let n_t0 := ((c01_t0 s) * scal) in
  let n_t1 := (scale1 (c01_t1 s) scal) in
  (mkc01 n_t0 n_t1).

(** src/shammath/include/shammath/symtensor_collections.hpp:533-539 *)
Definition acc01 (s : col01) (other : col01) : col01 :=
  let n_t0 := ((c01_t0 s) + (c01_t0 other)) in
  let n_t1 := (acc1 (c01_t1 s) (c01_t1 other)) in
  (mkc01 n_t0 n_t1).

(** src/shammath/include/shammath/symtensor_collections.hpp:541-544 *)
Definition sub01 (s : col01) (other : col01) : col01 :=
  (mkc01 ((c01_t0 s) - (c01_t0 other)) (sub1 (c01_t1 s) (c01_t1 other))).

(** src/shammath/include/shammath/symtensor_collections.hpp:548 *)
Record col00 : Type := mkc00 { c00_t0 : R }.

(** num_component, src/shammath/include/shammath/symtensor_collections.hpp:551 *)
Definition num_component00 : nat := (1)%nat.

(** src/shammath/include/shammath/symtensor_collections.hpp:553-553 *)
Definition from_vec00 (v : vec3) : col00 :=
  (mkc00 1).

(** src/shammath/include/shammath/symtensor_collections.hpp:554-554 *)
Definition zeros00 : col00 :=
  (mkc00 0).

(** src/shammath/include/shammath/symtensor_collections.hpp:557-559 *)
Definition store00 (s : col00) (acc : nat -> R) (offset : nat) : nat -> R :=
  let acc := assigns acc offset [(0%nat, c00_t0 s)] in
  acc.

(** src/shammath/include/shammath/symtensor_collections.hpp:562-564 *)
Definition load00 (acc : nat -> R) (offset : nat) : col00 :=
  mkc00 (acc (offset + 0)%nat).

(** src/shammath/include/shammath/symtensor_collections.hpp:566-571 *)
Definition scale00 (s : col00) (scal : R) : col00 :=
  let n_t0 := ((c00_t0 s) * scal) in
  (mkc00 n_t0).

(** src/shammath/include/shammath/symtensor_collections.hpp:573-578 *)
Definition acc00 (s : col00) (other : col00) : col00 :=
  let n_t0 := ((c00_t0 s) + (c00_t0 other)) in
  (mkc00 n_t0).

(** src/shammath/include/shammath/symtensor_collections.hpp:580-583 *)
Definition sub00 (s : col00) (other : col00) : col00 :=
  (mkc00 ((c00_t0 s) - (c00_t0 other))).

(** src/shammath/include/shammath/symtensor_collections.hpp:589 *)
Record col15 : Type := mkc15 { c15_t1 : st1; c15_t2 : st2; c15_t3 : st3; c15_t4 : st4; c15_t5 : st5 }.

(** num_component, src/shammath/include/shammath/symtensor_collections.hpp:597 *)
Definition num_component15 : nat := (compo_cnt1 + compo_cnt2 + compo_cnt3 + compo_cnt4 + compo_cnt5)%nat.

(** src/shammath/include/shammath/symtensor_collections.hpp:602 *)
Definition offset15_t1 : nat := (0)%nat.

(** src/shammath/include/shammath/symtensor_collections.hpp:603 *)
Definition offset15_t2 : nat := (offset15_t1 + compo_cnt1)%nat.

(** src/shammath/include/shammath/symtensor_collections.hpp:604 *)
Definition offset15_t3 : nat := (offset15_t2 + compo_cnt2)%nat.

(** src/shammath/include/shammath/symtensor_collections.hpp:605 *)
Definition offset15_t4 : nat := (offset15_t3 + compo_cnt3)%nat.

(** src/shammath/include/shammath/symtensor_collections.hpp:606 *)
Definition offset15_t5 : nat := (offset15_t4 + compo_cnt4)%nat.

(** src/shammath/include/shammath/symtensor_collections.hpp:608-658 *)
Definition from_vec15 (v : vec3) : col15 :=
  let A1 := (mk1 (vx v) (vy v) (vz v)) in
  let A2 := (mk2 ((v_0 A1) * (v_0 A1)) ((v_1 A1) * (v_0 A1)) ((v_2 A1) * (v_0 A1)) ((v_1 A1) * (v_1 A1)) ((v_2 A1) * (v_1 A1)) ((v_2 A1) * (v_2 A1))) in
  let A3 := (mk3 ((v_00 A2) * (v_0 A1)) ((v_01 A2) * (v_0 A1)) ((v_02 A2) * (v_0 A1)) ((v_11 A2) * (v_0 A1)) ((v_12 A2) * (v_0 A1)) ((v_22 A2) * (v_0 A1)) ((v_11 A2) * (v_1 A1)) ((v_12 A2) * (v_1 A1)) ((v_22 A2) * (v_1 A1)) ((v_22 A2) * (v_2 A1))) in
  let A4 := (mk4 ((v_000 A3) * (v_0 A1)) ((v_001 A3) * (v_0 A1)) ((v_002 A3) * (v_0 A1)) ((v_011 A3) * (v_0 A1)) ((v_012 A3) * (v_0 A1)) ((v_022 A3) * (v_0 A1)) ((v_111 A3) * (v_0 A1)) ((v_112 A3) * (v_0 A1)) ((v_122 A3) * (v_0 A1)) ((v_222 A3) * (v_0 A1)) ((v_111 A3) * (v_1 A1)) ((v_112 A3) * (v_1 A1)) ((v_122 A3) * (v_1 A1)) ((v_222 A3) * (v_1 A1)) ((v_222 A3) * (v_2 A1))) in
  let A5 := (mk5 ((v_0000 A4) * (v_0 A1)) ((v_0001 A4) * (v_0 A1)) ((v_0002 A4) * (v_0 A1)) ((v_0011 A4) * (v_0 A1)) ((v_0012 A4) * (v_0 A1)) ((v_0022 A4) * (v_0 A1)) ((v_0111 A4) * (v_0 A1)) ((v_0112 A4) * (v_0 A1)) ((v_0122 A4) * (v_0 A1)) ((v_0222 A4) * (v_0 A1)) ((v_1111 A4) * (v_0 A1)) ((v_1112 A4) * (v_0 A1)) ((v_1122 A4) * (v_0 A1)) ((v_1222 A4) * (v_0 A1)) ((v_2222 A4) * (v_0 A1)) ((v_1111 A4) * (v_1 A1)) ((v_1112 A4) * (v_1 A1)) ((v_1122 A4) * (v_1 A1)) ((v_1222 A4) * (v_1 A1)) ((v_2222 A4) * (v_1 A1)) ((v_2222 A4) * (v_2 A1))) in
  (mkc15 A1 A2 A3 A4 A5).

(** src/shammath/include/shammath/symtensor_collections.hpp:660-680 *)
Definition zeros15 : col15 :=
  let A1 := (mk1 0 0 0) in
  let A2 := (mk2 0 0 0 0 0 0) in
  let A3 := (mk3 0 0 0 0 0 0 0 0 0 0) in
  let A4 := (mk4 0 0 0 0 0 0 0 0 0 0 0 0 0 0 0) in
  let A5 := (mk5 0 0 0 0 0 0 0 0 0 0 0 0 0 0 0 0 0 0 0 0 0) in
  (mkc15 A1 A2 A3 A4 (mk5 0 0 0 0 0 0 0 0 0 0 0 0 0 0 0 0 0 0 0 0 0)).

(** src/shammath/include/shammath/symtensor_collections.hpp:683-690 *)
Definition store15 (s : col15) (acc : nat -> R) (offset : nat) : nat -> R :=
  let acc := store1 (c15_t1 s) acc (offset + offset15_t1)%nat in
  let acc := store2 (c15_t2 s) acc (offset + offset15_t2)%nat in
  let acc := store3 (c15_t3 s) acc (offset + offset15_t3)%nat in
  let acc := store4 (c15_t4 s) acc (offset + offset15_t4)%nat in
  let acc := store5 (c15_t5 s) acc (offset + offset15_t5)%nat in
  acc.

(** src/shammath/include/shammath/symtensor_collections.hpp:693-700 *)
Definition load15 (acc : nat -> R) (offset : nat) : col15 :=
  mkc15 (load1 acc (offset + offset15_t1)%nat) (load2 acc (offset + offset15_t2)%nat) (load3 acc (offset + offset15_t3)%nat) (load4 acc (offset + offset15_t4)%nat) (load5 acc (offset + offset15_t5)%nat).

(** src/shammath/include/shammath/symtensor_collections.hpp:702-711 *)
Definition scale15 (s : col15) (scal : R) : col15 :=
  let n_t1 := (scale1 (c15_t1 s) scal) in
  let n_t2 := (scale2 (c15_t2 s) scal) in
  let n_t3 := (scale3 (c15_t3 s) scal) in
  let n_t4 := (scale4 (c15_t4 s) scal) in
  let n_t5 := (scale5 (c15_t5 s) scal) in
  (mkc15 n_t1 n_t2 n_t3 n_t4 n_t5).

(** src/shammath/include/shammath/symtensor_collections.hpp:713-722 *)
Definition acc15 (s : col15) (other : col15) : col15 :=
  let n_t1 := (acc1 (c15_t1 s) (c15_t1 other)) in
  let n_t2 := (acc2 (c15_t2 s) (c15_t2 other)) in
  let n_t3 := (acc3 (c15_t3 s) (c15_t3 other)) in
  let n_t4 := (acc4 (c15_t4 s) (c15_t4 other)) in
  let n_t5 := (acc5 (c15_t5 s) (c15_t5 other)) in
  (mkc15 n_t1 n_t2 n_t3 n_t4 n_t5).

(** src/shammath/include/shammath/symtensor_collections.hpp:724-727 *)
Definition sub15 (s : col15) (other : col15) : col15 :=
  (mkc15 (sub1 (c15_t1 s) (c15_t1 other)) (sub2 (c15_t2 s) (c15_t2 other)) (sub3 (c15_t3 s) (c15_t3 other)) (sub4 (c15_t4 s) (c15_t4 other)) (sub5 (c15_t5 s) (c15_t5 other))).

(** src/shammath/include/shammath/symtensor_collections.hpp:731 *)
Record col14 : Type := mkc14 { c14_t1 : st1; c14_t2 : st2; c14_t3 : st3; c14_t4 : st4 }.

(** num_component, src/shammath/include/shammath/symtensor_collections.hpp:738 *)
Definition num_component14 : nat := (compo_cnt1 + compo_cnt2 + compo_cnt3 + compo_cnt4)%nat.

(** src/shammath/include/shammath/symtensor_collections.hpp:742 *)
Definition offset14_t1 : nat := (0)%nat.

(** src/shammath/include/shammath/symtensor_collections.hpp:743 *)
Definition offset14_t2 : nat := (offset14_t1 + compo_cnt1)%nat.

(** src/shammath/include/shammath/symtensor_collections.hpp:744 *)
Definition offset14_t3 : nat := (offset14_t2 + compo_cnt2)%nat.

(** src/shammath/include/shammath/symtensor_collections.hpp:745 *)
Definition offset14_t4 : nat := (offset14_t3 + compo_cnt3)%nat.

(** src/shammath/include/shammath/symtensor_collections.hpp:747-789 *)
Definition from_vec14 (v : vec3) : col14 :=
  let A1 := (mk1 (vx v) (vy v) (vz v)) in
  let A2 := (mk2 ((v_0 A1) * (v_0 A1)) ((v_1 A1) * (v_0 A1)) ((v_2 A1) * (v_0 A1)) ((v_1 A1) * (v_1 A1)) ((v_2 A1) * (v_1 A1)) ((v_2 A1) * (v_2 A1))) in
  let A3 := (mk3 ((v_00 A2) * (v_0 A1)) ((v_01 A2) * (v_0 A1)) ((v_02 A2) * (v_0 A1)) ((v_11 A2) * (v_0 A1)) ((v_12 A2) * (v_0 A1)) ((v_22 A2) * (v_0 A1)) ((v_11 A2) * (v_1 A1)) ((v_12 A2) * (v_1 A1)) ((v_22 A2) * (v_1 A1)) ((v_22 A2) * (v_2 A1))) in
  let A4 := (mk4 ((v_000 A3) * (v_0 A1)) ((v_001 A3) * (v_0 A1)) ((v_002 A3) * (v_0 A1)) ((v_011 A3) * (v_0 A1)) ((v_012 A3) * (v_0 A1)) ((v_022 A3) * (v_0 A1)) ((v_111 A3) * (v_0 A1)) ((v_112 A3) * (v_0 A1)) ((v_122 A3) * (v_0 A1)) ((v_222 A3) * (v_0 A1)) ((v_111 A3) * (v_1 A1)) ((v_112 A3) * (v_1 A1)) ((v_122 A3) * (v_1 A1)) ((v_222 A3) * (v_1 A1)) ((v_222 A3) * (v_2 A1))) in
  (mkc14 A1 A2 A3 A4).

(** src/shammath/include/shammath/symtensor_collections.hpp:791-808 *)
Definition zeros14 : col14 :=
  let A1 := (mk1 0 0 0) in
  let A2 := (mk2 0 0 0 0 0 0) in
  let A3 := (mk3 0 0 0 0 0 0 0 0 0 0) in
  let A4 := (mk4 0 0 0 0 0 0 0 0 0 0 0 0 0 0 0) in
  (mkc14 A1 A2 A3 A4).

(** src/shammath/include/shammath/symtensor_collections.hpp:811-817 *)
Definition store14 (s : col14) (acc : nat -> R) (offset : nat) : nat -> R :=
  let acc := store1 (c14_t1 s) acc (offset + offset14_t1)%nat in
  let acc := store2 (c14_t2 s) acc (offset + offset14_t2)%nat in
  let acc := store3 (c14_t3 s) acc (offset + offset14_t3)%nat in
  let acc := store4 (c14_t4 s) acc (offset + offset14_t4)%nat in
  acc.

(** src/shammath/include/shammath/symtensor_collections.hpp:820-826 *)
Definition load14 (acc : nat -> R) (offset : nat) : col14 :=
  mkc14 (load1 acc (offset + offset14_t1)%nat) (load2 acc (offset + offset14_t2)%nat) (load3 acc (offset + offset14_t3)%nat) (load4 acc (offset + offset14_t4)%nat).

(** src/shammath/include/shammath/symtensor_collections.hpp:828-836 *)
Definition scale14 (s : col14) (scal : R) : col14 :=
  let n_t1 := (scale1 (c14_t1 s) scal) in
  let n_t2 := (scale2 (c14_t2 s) scal) in
  let n_t3 := (scale3 (c14_t3 s) scal) in
  let n_t4 := (scale4 (c14_t4 s) scal) in
  (mkc14 n_t1 n_t2 n_t3 n_t4).

(** src/shammath/include/shammath/symtensor_collections.hpp:838-846 *)
Definition acc14 (s : col14) (other : col14) : col14 :=
  let n_t1 := (acc1 (c14_t1 s) (c14_t1 other)) in
  let n_t2 := (acc2 (c14_t2 s) (c14_t2 other)) in
  let n_t3 := (acc3 (c14_t3 s) (c14_t3 other)) in
  let n_t4 := (acc4 (c14_t4 s) (c14_t4 other)) in
  (mkc14 n_t1 n_t2 n_t3 n_t4).

(** src/shammath/include/shammath/symtensor_collections.hpp:848-851 *)
Definition sub14 (s : col14) (other : col14) : col14 :=
  (mkc14 (sub1 (c14_t1 s) (c14_t1 other)) (sub2 (c14_t2 s) (c14_t2 other)) (sub3 (c14_t3 s) (c14_t3 other)) (sub4 (c14_t4 s) (c14_t4 other))).

(** src/shammath/include/shammath/symtensor_collections.hpp:855 *)
Record col13 : Type := mkc13 { c13_t1 : st1; c13_t2 : st2; c13_t3 : st3 }.

(** num_component, src/shammath/include/shammath/symtensor_collections.hpp:861 *)
Definition num_component13 : nat := (compo_cnt1 + compo_cnt2 + compo_cnt3)%nat.

(** src/shammath/include/shammath/symtensor_collections.hpp:865 *)
Definition offset13_t1 : nat := (0)%nat.

(** src/shammath/include/shammath/symtensor_collections.hpp:866 *)
Definition offset13_t2 : nat := (offset13_t1 + compo_cnt1)%nat.

(** src/shammath/include/shammath/symtensor_collections.hpp:867 *)
Definition offset13_t3 : nat := (offset13_t2 + compo_cnt2)%nat.

(** src/shammath/include/shammath/symtensor_collections.hpp:869-894 *)
Definition from_vec13 (v : vec3) : col13 :=
  let A1 := (mk1 (vx v) (vy v) (vz v)) in
  let A2 := (mk2 ((v_0 A1) * (v_0 A1)) ((v_1 A1) * (v_0 A1)) ((v_2 A1) * (v_0 A1)) ((v_1 A1) * (v_1 A1)) ((v_2 A1) * (v_1 A1)) ((v_2 A1) * (v_2 A1))) in
  let A3 := (mk3 ((v_00 A2) * (v_0 A1)) ((v_01 A2) * (v_0 A1)) ((v_02 A2) * (v_0 A1)) ((v_11 A2) * (v_0 A1)) ((v_12 A2) * (v_0 A1)) ((v_22 A2) * (v_0 A1)) ((v_11 A2) * (v_1 A1)) ((v_12 A2) * (v_1 A1)) ((v_22 A2) * (v_1 A1)) ((v_22 A2) * (v_2 A1))) in
  (mkc13 A1 A2 A3).

(** src/shammath/include/shammath/symtensor_collections.hpp:896-911 *)
Definition zeros13 : col13 :=
  let A1 := (mk1 0 0 0) in
  let A2 := (mk2 0 0 0 0 0 0) in
  let A3 := (mk3 0 0 0 0 0 0 0 0 0 0) in
  (mkc13 A1 A2 A3).

(** src/shammath/include/shammath/symtensor_collections.hpp:914-919 *)
Definition store13 (s : col13) (acc : nat -> R) (offset : nat) : nat -> R :=
  let acc := store1 (c13_t1 s) acc (offset + offset13_t1)%nat in
  let acc := store2 (c13_t2 s) acc (offset + offset13_t2)%nat in
  let acc := store3 (c13_t3 s) acc (offset + offset13_t3)%nat in
  acc.

(** src/shammath/include/shammath/symtensor_collections.hpp:922-927 *)
Definition load13 (acc : nat -> R) (offset : nat) : col13 :=
  mkc13 (load1 acc (offset + offset13_t1)%nat) (load2 acc (offset + offset13_t2)%nat) (load3 acc (offset + offset13_t3)%nat).

(** src/shammath/include/shammath/symtensor_collections.hpp:929-936 *)
Definition scale13 (s : col13) (scal : R) : col13 :=
  let n_t1 := (scale1 (c13_t1 s) scal) in
  let n_t2 := (scale2 (c13_t2 s) scal) in
  let n_t3 := (scale3 (c13_t3 s) scal) in
  (mkc13 n_t1 n_t2 n_t3).

(** src/shammath/include/shammath/symtensor_collections.hpp:938-945 *)
Definition acc13 (s : col13) (other : col13) : col13 :=
  let n_t1 := (acc1 (c13_t1 s) (c13_t1 other)) in
  let n_t2 := (acc2 (c13_t2 s) (c13_t2 other)) in
  let n_t3 := (acc3 (c13_t3 s) (c13_t3 other)) in
  (mkc13 n_t1 n_t2 n_t3).

(** src/shammath/include/shammath/symtensor_collections.hpp:947-950 *)
Definition sub13 (s : col13) (other : col13) : col13 :=
  (mkc13 (sub1 (c13_t1 s) (c13_t1 other)) (sub2 (c13_t2 s) (c13_t2 other)) (sub3 (c13_t3 s) (c13_t3 other))).

(** src/shammath/include/shammath/symtensor_collections.hpp:954 *)
Record col12 : Type := mkc12 { c12_t1 : st1; c12_t2 : st2 }.

(** num_component, src/shammath/include/shammath/symtensor_collections.hpp:959 *)
Definition num_component12 : nat := (compo_cnt1 + compo_cnt2)%nat.

(** src/shammath/include/shammath/symtensor_collections.hpp:962 *)
Definition offset12_t1 : nat := (0)%nat.

(** src/shammath/include/shammath/symtensor_collections.hpp:963 *)
Definition offset12_t2 : nat := (offset12_t1 + compo_cnt1)%nat.

(** src/shammath/include/shammath/symtensor_collections.hpp:965-978 *)
Definition from_vec12 (v : vec3) : col12 :=
  let A1 := (mk1 (vx v) (vy v) (vz v)) in
  let A2 := (mk2 ((v_0 A1) * (v_0 A1)) ((v_1 A1) * (v_0 A1)) ((v_2 A1) * (v_0 A1)) ((v_1 A1) * (v_1 A1)) ((v_2 A1) * (v_1 A1)) ((v_2 A1) * (v_2 A1))) in
  (mkc12 A1 A2).

(** src/shammath/include/shammath/symtensor_collections.hpp:980-993 *)
Definition zeros12 : col12 :=
  let A1 := (mk1 0 0 0) in
  let A2 := (mk2 0 0 0 0 0 0) in
  (mkc12 A1 A2).

(** src/shammath/include/shammath/symtensor_collections.hpp:996-1000 *)
Definition store12 (s : col12) (acc : nat -> R) (offset : nat) : nat -> R :=
  let acc := store1 (c12_t1 s) acc (offset + offset12_t1)%nat in
  let acc := store2 (c12_t2 s) acc (offset + offset12_t2)%nat in
  acc.

(** src/shammath/include/shammath/symtensor_collections.hpp:1003-1007 *)
Definition load12 (acc : nat -> R) (offset : nat) : col12 :=
  mkc12 (load1 acc (offset + offset12_t1)%nat) (load2 acc (offset + offset12_t2)%nat).

(** src/shammath/include/shammath/symtensor_collections.hpp:1009-1015 *)
Definition scale12 (s : col12) (scal : R) : col12 :=
  let n_t1 := (scale1 (c12_t1 s) scal) in
  let n_t2 := (scale2 (c12_t2 s) scal) in
  (mkc12 n_t1 n_t2).

(** src/shammath/include/shammath/symtensor_collections.hpp:1017-1023 *)
Definition acc12 (s : col12) (other : col12) : col12 :=
  let n_t1 := (acc1 (c12_t1 s) (c12_t1 other)) in
  let n_t2 := (acc2 (c12_t2 s) (c12_t2 other)) in
  (mkc12 n_t1 n_t2).

(** src/shammath/include/shammath/symtensor_collections.hpp:1025-1028 *)
Definition sub12 (s : col12) (other : col12) : col12 :=
  (mkc12 (sub1 (c12_t1 s) (c12_t1 other)) (sub2 (c12_t2 s) (c12_t2 other))).

(** src/shammath/include/shammath/symtensor_collections.hpp:1032 *)
Record col11 : Type := mkc11 { c11_t1 : st1 }.

(** num_component, src/shammath/include/shammath/symtensor_collections.hpp:1036 *)
Definition num_component11 : nat := (compo_cnt1)%nat.

(** src/shammath/include/shammath/symtensor_collections.hpp:1038 *)
Definition offset11_t1 : nat := (0)%nat.

(** src/shammath/include/shammath/symtensor_collections.hpp:1040-1044 *)
Definition from_vec11 (v : vec3) : col11 :=
  let A1 := (mk1 (vx v) (vy v) (vz v)) in
  (mkc11 A1).

(** src/shammath/include/shammath/symtensor_collections.hpp:1045-1049 *)
Definition zeros11 : col11 :=
  let A1 := (mk1 0 0 0) in
  (mkc11 A1).

(** src/shammath/include/shammath/symtensor_collections.hpp:1052-1055 *)
Definition store11 (s : col11) (acc : nat -> R) (offset : nat) : nat -> R :=
  let acc := store1 (c11_t1 s) acc (offset + offset11_t1)%nat in
  acc.

(** src/shammath/include/shammath/symtensor_collections.hpp:1058-1060 *)
Definition load11 (acc : nat -> R) (offset : nat) : col11 :=
  mkc11 (load1 acc (offset + offset11_t1)%nat).

(** src/shammath/include/shammath/symtensor_collections.hpp:1062-1067 *)
Definition scale11 (s : col11) (scal : R) : col11 :=
  let n_t1 := (scale1 (c11_t1 s) scal) in
  (mkc11 n_t1).

(** src/shammath/include/shammath/symtensor_collections.hpp:1069-1074 *)
Definition acc11 (s : col11) (other : col11) : col11 :=
  let n_t1 := (acc1 (c11_t1 s) (c11_t1 other)) in
  (mkc11 n_t1).

(** src/shammath/include/shammath/symtensor_collections.hpp:1076-1079 *)
Definition sub11 (s : col11) (other : col11) : col11 :=
  (mkc11 (sub1 (c11_t1 s) (c11_t1 other))).
