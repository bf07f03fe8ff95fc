(** Generated by tools/gen_fmm.py from /repo. The operators of the fast multipole method.

    Simplification: the scalar type T (f32 or f64) is the real line, so rounding, overflow and the
    NaN / infinity results are not modelled.  A device buffer of T is a function nat -> R. *)
Require Import Reals List.
From Verif Require Import Fmm_tensors.
Import ListNotations.
Local Open Scope R_scope.

(** component-wise arithmetic of sycl::vec<T, 3> *)
Definition v3add (a b : vec3) : vec3 := mkv (vx a + vx b) (vy a + vy b) (vz a + vz b).
Definition v3sub (a b : vec3) : vec3 := mkv (vx a - vx b) (vy a - vy b) (vz a - vz b).
Definition v3div (a : vec3) (k : R) : vec3 := mkv (vx a / k) (vy a / k) (vz a / k).

(** src/shamphys/include/shamphys/fmm/offset_multipole.hpp:27-32 *)
Definition offset_multipole_1 (Qt0 : R) (Qt1 : st1) (dt1 : st1) : st1 :=
  (add1 Qt1 (op_R1 Qt0 dt1)).

(** src/shamphys/include/shamphys/fmm/offset_multipole.hpp:35-58 *)
Definition offset_multipole_2 (Qn1 : st1) (Qt1 : st1) (Qt2 : st2) (dt1 : st1) : st2 :=
  (mk2 ((((v_0 dt1) * (v_0 Qn1)) + ((v_0 Qt1) * (v_0 dt1))) + (v_00 Qt2)) ((((v_0 dt1) * (v_1 Qn1)) + ((v_0 Qt1) * (v_1 dt1))) + (v_01 Qt2)) ((((v_0 dt1) * (v_2 Qn1)) + ((v_0 Qt1) * (v_2 dt1))) + (v_02 Qt2)) ((((v_1 dt1) * (v_1 Qn1)) + ((v_1 Qt1) * (v_1 dt1))) + (v_11 Qt2)) ((((v_1 dt1) * (v_2 Qn1)) + ((v_1 Qt1) * (v_2 dt1))) + (v_12 Qt2)) ((((v_2 dt1) * (v_2 Qn1)) + ((v_2 Qt1) * (v_2 dt1))) + (v_22 Qt2))).

(** src/shamphys/include/shamphys/fmm/offset_multipole.hpp:61-110 *)
Definition offset_multipole_3 (Qn1 : st1) (Qn2 : st2) (Qt2 : st2) (Qt3 : st3) (dt1 : st1) : st3 :=
  (mk3 (((((v_0 dt1) * (v_00 Qn2)) + ((v_0 dt1) * ((v_00 Qn2) - ((v_0 dt1) * (v_0 Qn1))))) + ((v_00 Qt2) * (v_0 dt1))) + (v_000 Qt3)) (((((v_0 dt1) * (v_01 Qn2)) + ((v_0 dt1) * ((v_01 Qn2) - ((v_0 dt1) * (v_1 Qn1))))) + ((v_00 Qt2) * (v_1 dt1))) + (v_001 Qt3)) (((((v_0 dt1) * (v_02 Qn2)) + ((v_0 dt1) * ((v_02 Qn2) - ((v_0 dt1) * (v_2 Qn1))))) + ((v_00 Qt2) * (v_2 dt1))) + (v_002 Qt3)) (((((v_0 dt1) * (v_11 Qn2)) + ((v_1 dt1) * ((v_01 Qn2) - ((v_0 dt1) * (v_1 Qn1))))) + ((v_01 Qt2) * (v_1 dt1))) + (v_011 Qt3)) (((((v_0 dt1) * (v_12 Qn2)) + ((v_1 dt1) * ((v_02 Qn2) - ((v_0 dt1) * (v_2 Qn1))))) + ((v_01 Qt2) * (v_2 dt1))) + (v_012 Qt3)) (((((v_0 dt1) * (v_22 Qn2)) + ((v_2 dt1) * ((v_02 Qn2) - ((v_0 dt1) * (v_2 Qn1))))) + ((v_02 Qt2) * (v_2 dt1))) + (v_022 Qt3)) (((((v_1 dt1) * (v_11 Qn2)) + ((v_1 dt1) * ((v_11 Qn2) - ((v_1 dt1) * (v_1 Qn1))))) + ((v_11 Qt2) * (v_1 dt1))) + (v_111 Qt3)) (((((v_1 dt1) * (v_12 Qn2)) + ((v_1 dt1) * ((v_12 Qn2) - ((v_1 dt1) * (v_2 Qn1))))) + ((v_11 Qt2) * (v_2 dt1))) + (v_112 Qt3)) (((((v_1 dt1) * (v_22 Qn2)) + ((v_2 dt1) * ((v_12 Qn2) - ((v_1 dt1) * (v_2 Qn1))))) + ((v_12 Qt2) * (v_2 dt1))) + (v_122 Qt3)) (((((v_2 dt1) * (v_22 Qn2)) + ((v_2 dt1) * ((v_22 Qn2) - ((v_2 dt1) * (v_2 Qn1))))) + ((v_22 Qt2) * (v_2 dt1))) + (v_222 Qt3))).

(** src/shamphys/include/shamphys/fmm/offset_multipole.hpp:113-201 *)
Definition offset_multipole_4 (Qn2 : st2) (Qn3 : st3) (Qt2 : st2) (Qt3 : st3) (Qt4 : st4) (dt1 : st1) (dt2 : st2) : st4 :=
  (mk4 (((((((v_0 dt1) * (v_000 Qn3)) + ((v_0 dt1) * ((v_000 Qn3) - ((v_0 dt1) * (v_00 Qn2))))) + ((v_00 dt2) * (v_00 Qt2))) + ((v_0 dt1) * (v_000 Qt3))) + ((v_0 dt1) * (v_000 Qt3))) + (v_0000 Qt4)) (((((((v_0 dt1) * (v_001 Qn3)) + ((v_0 dt1) * ((v_001 Qn3) - ((v_0 dt1) * (v_01 Qn2))))) + ((v_01 dt2) * (v_00 Qt2))) + ((v_1 dt1) * (v_000 Qt3))) + ((v_0 dt1) * (v_001 Qt3))) + (v_0001 Qt4)) (((((((v_0 dt1) * (v_002 Qn3)) + ((v_0 dt1) * ((v_002 Qn3) - ((v_0 dt1) * (v_02 Qn2))))) + ((v_02 dt2) * (v_00 Qt2))) + ((v_2 dt1) * (v_000 Qt3))) + ((v_0 dt1) * (v_002 Qt3))) + (v_0002 Qt4)) (((((((v_0 dt1) * (v_011 Qn3)) + ((v_1 dt1) * ((v_001 Qn3) - ((v_0 dt1) * (v_01 Qn2))))) + ((v_01 dt2) * (v_01 Qt2))) + ((v_1 dt1) * (v_001 Qt3))) + ((v_0 dt1) * (v_011 Qt3))) + (v_0011 Qt4)) (((((((v_0 dt1) * (v_012 Qn3)) + ((v_1 dt1) * ((v_002 Qn3) - ((v_0 dt1) * (v_02 Qn2))))) + ((v_02 dt2) * (v_01 Qt2))) + ((v_2 dt1) * (v_001 Qt3))) + ((v_0 dt1) * (v_012 Qt3))) + (v_0012 Qt4)) (((((((v_0 dt1) * (v_022 Qn3)) + ((v_2 dt1) * ((v_002 Qn3) - ((v_0 dt1) * (v_02 Qn2))))) + ((v_02 dt2) * (v_02 Qt2))) + ((v_2 dt1) * (v_002 Qt3))) + ((v_0 dt1) * (v_022 Qt3))) + (v_0022 Qt4)) (((((((v_0 dt1) * (v_111 Qn3)) + ((v_1 dt1) * ((v_011 Qn3) - ((v_0 dt1) * (v_11 Qn2))))) + ((v_11 dt2) * (v_01 Qt2))) + ((v_1 dt1) * (v_011 Qt3))) + ((v_1 dt1) * (v_011 Qt3))) + (v_0111 Qt4)) (((((((v_0 dt1) * (v_112 Qn3)) + ((v_1 dt1) * ((v_012 Qn3) - ((v_0 dt1) * (v_12 Qn2))))) + ((v_12 dt2) * (v_01 Qt2))) + ((v_2 dt1) * (v_011 Qt3))) + ((v_1 dt1) * (v_012 Qt3))) + (v_0112 Qt4)) (((((((v_0 dt1) * (v_122 Qn3)) + ((v_2 dt1) * ((v_012 Qn3) - ((v_0 dt1) * (v_12 Qn2))))) + ((v_12 dt2) * (v_02 Qt2))) + ((v_2 dt1) * (v_012 Qt3))) + ((v_1 dt1) * (v_022 Qt3))) + (v_0122 Qt4)) (((((((v_0 dt1) * (v_222 Qn3)) + ((v_2 dt1) * ((v_022 Qn3) - ((v_0 dt1) * (v_22 Qn2))))) + ((v_22 dt2) * (v_02 Qt2))) + ((v_2 dt1) * (v_022 Qt3))) + ((v_2 dt1) * (v_022 Qt3))) + (v_0222 Qt4)) (((((((v_1 dt1) * (v_111 Qn3)) + ((v_1 dt1) * ((v_111 Qn3) - ((v_1 dt1) * (v_11 Qn2))))) + ((v_11 dt2) * (v_11 Qt2))) + ((v_1 dt1) * (v_111 Qt3))) + ((v_1 dt1) * (v_111 Qt3))) + (v_1111 Qt4)) (((((((v_1 dt1) * (v_112 Qn3)) + ((v_1 dt1) * ((v_112 Qn3) - ((v_1 dt1) * (v_12 Qn2))))) + ((v_12 dt2) * (v_11 Qt2))) + ((v_2 dt1) * (v_111 Qt3))) + ((v_1 dt1) * (v_112 Qt3))) + (v_1112 Qt4)) (((((((v_1 dt1) * (v_122 Qn3)) + ((v_2 dt1) * ((v_112 Qn3) - ((v_1 dt1) * (v_12 Qn2))))) + ((v_12 dt2) * (v_12 Qt2))) + ((v_2 dt1) * (v_112 Qt3))) + ((v_1 dt1) * (v_122 Qt3))) + (v_1122 Qt4)) (((((((v_1 dt1) * (v_222 Qn3)) + ((v_2 dt1) * ((v_122 Qn3) - ((v_1 dt1) * (v_22 Qn2))))) + ((v_22 dt2) * (v_12 Qt2))) + ((v_2 dt1) * (v_122 Qt3))) + ((v_2 dt1) * (v_122 Qt3))) + (v_1222 Qt4)) (((((((v_2 dt1) * (v_222 Qn3)) + ((v_2 dt1) * ((v_222 Qn3) - ((v_2 dt1) * (v_22 Qn2))))) + ((v_22 dt2) * (v_22 Qt2))) + ((v_2 dt1) * (v_222 Qt3))) + ((v_2 dt1) * (v_222 Qt3))) + (v_2222 Qt4))).

(** src/shamphys/include/shamphys/fmm/offset_multipole.hpp:204-389 *)
Definition offset_multipole_5 (Qn3 : st3) (Qn4 : st4) (Qt2 : st2) (Qt3 : st3) (Qt4 : st4) (Qt5 : st5) (dt1 : st1) (dt2 : st2) (dt3 : st3) : st5 :=
  (mk5 (((((((((((v_0 dt1) * (v_0000 Qn4)) + ((v_0 dt1) * ((v_0000 Qn4) - ((v_0 dt1) * (v_000 Qn3))))) + ((v_00 Qt2) * (v_000 dt3))) + ((v_000 Qt3) * (v_00 dt2))) + ((v_000 Qt3) * (v_00 dt2))) + ((v_0000 Qt4) * (v_0 dt1))) + ((v_000 Qt3) * (v_00 dt2))) + ((v_0000 Qt4) * (v_0 dt1))) + ((v_0000 Qt4) * (v_0 dt1))) + (v_00000 Qt5)) (((((((((((v_0 dt1) * (v_0001 Qn4)) + ((v_0 dt1) * ((v_0001 Qn4) - ((v_0 dt1) * (v_001 Qn3))))) + ((v_00 Qt2) * (v_001 dt3))) + ((v_001 Qt3) * (v_00 dt2))) + ((v_000 Qt3) * (v_01 dt2))) + ((v_0001 Qt4) * (v_0 dt1))) + ((v_000 Qt3) * (v_01 dt2))) + ((v_0001 Qt4) * (v_0 dt1))) + ((v_0000 Qt4) * (v_1 dt1))) + (v_00001 Qt5)) (((((((((((v_0 dt1) * (v_0002 Qn4)) + ((v_0 dt1) * ((v_0002 Qn4) - ((v_0 dt1) * (v_002 Qn3))))) + ((v_00 Qt2) * (v_002 dt3))) + ((v_002 Qt3) * (v_00 dt2))) + ((v_000 Qt3) * (v_02 dt2))) + ((v_0002 Qt4) * (v_0 dt1))) + ((v_000 Qt3) * (v_02 dt2))) + ((v_0002 Qt4) * (v_0 dt1))) + ((v_0000 Qt4) * (v_2 dt1))) + (v_00002 Qt5)) (((((((((((v_0 dt1) * (v_0011 Qn4)) + ((v_0 dt1) * ((v_0011 Qn4) - ((v_0 dt1) * (v_011 Qn3))))) + ((v_00 Qt2) * (v_011 dt3))) + ((v_001 Qt3) * (v_01 dt2))) + ((v_000 Qt3) * (v_11 dt2))) + ((v_0001 Qt4) * (v_1 dt1))) + ((v_001 Qt3) * (v_01 dt2))) + ((v_0011 Qt4) * (v_0 dt1))) + ((v_0001 Qt4) * (v_1 dt1))) + (v_00011 Qt5)) (((((((((((v_0 dt1) * (v_0012 Qn4)) + ((v_0 dt1) * ((v_0012 Qn4) - ((v_0 dt1) * (v_012 Qn3))))) + ((v_00 Qt2) * (v_012 dt3))) + ((v_002 Qt3) * (v_01 dt2))) + ((v_000 Qt3) * (v_12 dt2))) + ((v_0002 Qt4) * (v_1 dt1))) + ((v_001 Qt3) * (v_02 dt2))) + ((v_0012 Qt4) * (v_0 dt1))) + ((v_0001 Qt4) * (v_2 dt1))) + (v_00012 Qt5)) (((((((((((v_0 dt1) * (v_0022 Qn4)) + ((v_0 dt1) * ((v_0022 Qn4) - ((v_0 dt1) * (v_022 Qn3))))) + ((v_00 Qt2) * (v_022 dt3))) + ((v_002 Qt3) * (v_02 dt2))) + ((v_000 Qt3) * (v_22 dt2))) + ((v_0002 Qt4) * (v_2 dt1))) + ((v_002 Qt3) * (v_02 dt2))) + ((v_0022 Qt4) * (v_0 dt1))) + ((v_0002 Qt4) * (v_2 dt1))) + (v_00022 Qt5)) (((((((((((v_0 dt1) * (v_0111 Qn4)) + ((v_0 dt1) * ((v_0111 Qn4) - ((v_0 dt1) * (v_111 Qn3))))) + ((v_00 Qt2) * (v_111 dt3))) + ((v_001 Qt3) * (v_11 dt2))) + ((v_001 Qt3) * (v_11 dt2))) + ((v_0011 Qt4) * (v_1 dt1))) + ((v_001 Qt3) * (v_11 dt2))) + ((v_0011 Qt4) * (v_1 dt1))) + ((v_0011 Qt4) * (v_1 dt1))) + (v_00111 Qt5)) (((((((((((v_0 dt1) * (v_0112 Qn4)) + ((v_0 dt1) * ((v_0112 Qn4) - ((v_0 dt1) * (v_112 Qn3))))) + ((v_00 Qt2) * (v_112 dt3))) + ((v_002 Qt3) * (v_11 dt2))) + ((v_001 Qt3) * (v_12 dt2))) + ((v_0012 Qt4) * (v_1 dt1))) + ((v_001 Qt3) * (v_12 dt2))) + ((v_0012 Qt4) * (v_1 dt1))) + ((v_0011 Qt4) * (v_2 dt1))) + (v_00112 Qt5)) (((((((((((v_0 dt1) * (v_0122 Qn4)) + ((v_0 dt1) * ((v_0122 Qn4) - ((v_0 dt1) * (v_122 Qn3))))) + ((v_00 Qt2) * (v_122 dt3))) + ((v_002 Qt3) * (v_12 dt2))) + ((v_001 Qt3) * (v_22 dt2))) + ((v_0012 Qt4) * (v_2 dt1))) + ((v_002 Qt3) * (v_12 dt2))) + ((v_0022 Qt4) * (v_1 dt1))) + ((v_0012 Qt4) * (v_2 dt1))) + (v_00122 Qt5)) (((((((((((v_0 dt1) * (v_0222 Qn4)) + ((v_0 dt1) * ((v_0222 Qn4) - ((v_0 dt1) * (v_222 Qn3))))) + ((v_00 Qt2) * (v_222 dt3))) + ((v_002 Qt3) * (v_22 dt2))) + ((v_002 Qt3) * (v_22 dt2))) + ((v_0022 Qt4) * (v_2 dt1))) + ((v_002 Qt3) * (v_22 dt2))) + ((v_0022 Qt4) * (v_2 dt1))) + ((v_0022 Qt4) * (v_2 dt1))) + (v_00222 Qt5)) (((((((((((v_0 dt1) * (v_1111 Qn4)) + ((v_1 dt1) * ((v_0111 Qn4) - ((v_0 dt1) * (v_111 Qn3))))) + ((v_01 Qt2) * (v_111 dt3))) + ((v_011 Qt3) * (v_11 dt2))) + ((v_011 Qt3) * (v_11 dt2))) + ((v_0111 Qt4) * (v_1 dt1))) + ((v_011 Qt3) * (v_11 dt2))) + ((v_0111 Qt4) * (v_1 dt1))) + ((v_0111 Qt4) * (v_1 dt1))) + (v_01111 Qt5)) (((((((((((v_0 dt1) * (v_1112 Qn4)) + ((v_1 dt1) * ((v_0112 Qn4) - ((v_0 dt1) * (v_112 Qn3))))) + ((v_01 Qt2) * (v_112 dt3))) + ((v_012 Qt3) * (v_11 dt2))) + ((v_011 Qt3) * (v_12 dt2))) + ((v_0112 Qt4) * (v_1 dt1))) + ((v_011 Qt3) * (v_12 dt2))) + ((v_0112 Qt4) * (v_1 dt1))) + ((v_0111 Qt4) * (v_2 dt1))) + (v_01112 Qt5)) (((((((((((v_0 dt1) * (v_1122 Qn4)) + ((v_1 dt1) * ((v_0122 Qn4) - ((v_0 dt1) * (v_122 Qn3))))) + ((v_01 Qt2) * (v_122 dt3))) + ((v_012 Qt3) * (v_12 dt2))) + ((v_011 Qt3) * (v_22 dt2))) + ((v_0112 Qt4) * (v_2 dt1))) + ((v_012 Qt3) * (v_12 dt2))) + ((v_0122 Qt4) * (v_1 dt1))) + ((v_0112 Qt4) * (v_2 dt1))) + (v_01122 Qt5)) (((((((((((v_0 dt1) * (v_1222 Qn4)) + ((v_1 dt1) * ((v_0222 Qn4) - ((v_0 dt1) * (v_222 Qn3))))) + ((v_01 Qt2) * (v_222 dt3))) + ((v_012 Qt3) * (v_22 dt2))) + ((v_012 Qt3) * (v_22 dt2))) + ((v_0122 Qt4) * (v_2 dt1))) + ((v_012 Qt3) * (v_22 dt2))) + ((v_0122 Qt4) * (v_2 dt1))) + ((v_0122 Qt4) * (v_2 dt1))) + (v_01222 Qt5)) (((((((((((v_0 dt1) * (v_2222 Qn4)) + ((v_2 dt1) * ((v_0222 Qn4) - ((v_0 dt1) * (v_222 Qn3))))) + ((v_02 Qt2) * (v_222 dt3))) + ((v_022 Qt3) * (v_22 dt2))) + ((v_022 Qt3) * (v_22 dt2))) + ((v_0222 Qt4) * (v_2 dt1))) + ((v_022 Qt3) * (v_22 dt2))) + ((v_0222 Qt4) * (v_2 dt1))) + ((v_0222 Qt4) * (v_2 dt1))) + (v_02222 Qt5)) (((((((((((v_1 dt1) * (v_1111 Qn4)) + ((v_1 dt1) * ((v_1111 Qn4) - ((v_1 dt1) * (v_111 Qn3))))) + ((v_11 Qt2) * (v_111 dt3))) + ((v_111 Qt3) * (v_11 dt2))) + ((v_111 Qt3) * (v_11 dt2))) + ((v_1111 Qt4) * (v_1 dt1))) + ((v_111 Qt3) * (v_11 dt2))) + ((v_1111 Qt4) * (v_1 dt1))) + ((v_1111 Qt4) * (v_1 dt1))) + (v_11111 Qt5)) (((((((((((v_1 dt1) * (v_1112 Qn4)) + ((v_1 dt1) * ((v_1112 Qn4) - ((v_1 dt1) * (v_112 Qn3))))) + ((v_11 Qt2) * (v_112 dt3))) + ((v_112 Qt3) * (v_11 dt2))) + ((v_111 Qt3) * (v_12 dt2))) + ((v_1112 Qt4) * (v_1 dt1))) + ((v_111 Qt3) * (v_12 dt2))) + ((v_1112 Qt4) * (v_1 dt1))) + ((v_1111 Qt4) * (v_2 dt1))) + (v_11112 Qt5)) (((((((((((v_1 dt1) * (v_1122 Qn4)) + ((v_1 dt1) * ((v_1122 Qn4) - ((v_1 dt1) * (v_122 Qn3))))) + ((v_11 Qt2) * (v_122 dt3))) + ((v_112 Qt3) * (v_12 dt2))) + ((v_111 Qt3) * (v_22 dt2))) + ((v_1112 Qt4) * (v_2 dt1))) + ((v_112 Qt3) * (v_12 dt2))) + ((v_1122 Qt4) * (v_1 dt1))) + ((v_1112 Qt4) * (v_2 dt1))) + (v_11122 Qt5)) (((((((((((v_1 dt1) * (v_1222 Qn4)) + ((v_1 dt1) * ((v_1222 Qn4) - ((v_1 dt1) * (v_222 Qn3))))) + ((v_11 Qt2) * (v_222 dt3))) + ((v_112 Qt3) * (v_22 dt2))) + ((v_112 Qt3) * (v_22 dt2))) + ((v_1122 Qt4) * (v_2 dt1))) + ((v_112 Qt3) * (v_22 dt2))) + ((v_1122 Qt4) * (v_2 dt1))) + ((v_1122 Qt4) * (v_2 dt1))) + (v_11222 Qt5)) (((((((((((v_1 dt1) * (v_2222 Qn4)) + ((v_2 dt1) * ((v_1222 Qn4) - ((v_1 dt1) * (v_222 Qn3))))) + ((v_12 Qt2) * (v_222 dt3))) + ((v_122 Qt3) * (v_22 dt2))) + ((v_122 Qt3) * (v_22 dt2))) + ((v_1222 Qt4) * (v_2 dt1))) + ((v_122 Qt3) * (v_22 dt2))) + ((v_1222 Qt4) * (v_2 dt1))) + ((v_1222 Qt4) * (v_2 dt1))) + (v_12222 Qt5)) (((((((((((v_2 dt1) * (v_2222 Qn4)) + ((v_2 dt1) * ((v_2222 Qn4) - ((v_2 dt1) * (v_222 Qn3))))) + ((v_22 Qt2) * (v_222 dt3))) + ((v_222 Qt3) * (v_22 dt2))) + ((v_222 Qt3) * (v_22 dt2))) + ((v_2222 Qt4) * (v_2 dt1))) + ((v_222 Qt3) * (v_22 dt2))) + ((v_2222 Qt4) * (v_2 dt1))) + ((v_2222 Qt4) * (v_2 dt1))) + (v_22222 Qt5))).

(** src/shamphys/include/shamphys/fmm/offset_multipole.hpp:402-416 *)
Definition offset_multipole_delta05 (Q : col05) (offset : vec3) : col05 :=
  let d := (from_vec13 offset) in
  let Qn1 := (offset_multipole_1 (c05_t0 Q) (c05_t1 Q) (c13_t1 d)) in
  let Qn2 := (offset_multipole_2 Qn1 (c05_t1 Q) (c05_t2 Q) (c13_t1 d)) in
  let Qn3 := (offset_multipole_3 Qn1 Qn2 (c05_t2 Q) (c05_t3 Q) (c13_t1 d)) in
  let Qn4 := (offset_multipole_4 Qn2 Qn3 (c05_t2 Q) (c05_t3 Q) (c05_t4 Q) (c13_t1 d) (c13_t2 d)) in
  let Qn5 := (offset_multipole_5 Qn3 Qn4 (c05_t2 Q) (c05_t3 Q) (c05_t4 Q) (c05_t5 Q) (c13_t1 d) (c13_t2 d) (c13_t3 d)) in
  (mkc05 (c05_t0 Q) Qn1 Qn2 Qn3 Qn4 Qn5).

(** src/shamphys/include/shamphys/fmm/offset_multipole.hpp:468-468 *)
Definition offset_multipole05 (Q_old : col05) (from to : vec3) : col05 :=
  offset_multipole_delta05 Q_old (v3sub from to).

(** src/shamphys/include/shamphys/fmm/offset_multipole.hpp:416-429 *)
Definition offset_multipole_delta04 (Q : col04) (offset : vec3) : col04 :=
  let d := (from_vec12 offset) in
  let Qn1 := (offset_multipole_1 (c04_t0 Q) (c04_t1 Q) (c12_t1 d)) in
  let Qn2 := (offset_multipole_2 Qn1 (c04_t1 Q) (c04_t2 Q) (c12_t1 d)) in
  let Qn3 := (offset_multipole_3 Qn1 Qn2 (c04_t2 Q) (c04_t3 Q) (c12_t1 d)) in
  let Qn4 := (offset_multipole_4 Qn2 Qn3 (c04_t2 Q) (c04_t3 Q) (c04_t4 Q) (c12_t1 d) (c12_t2 d)) in
  (mkc04 (c04_t0 Q) Qn1 Qn2 Qn3 Qn4).

(** src/shamphys/include/shamphys/fmm/offset_multipole.hpp:468-468 *)
Definition offset_multipole04 (Q_old : col04) (from to : vec3) : col04 :=
  offset_multipole_delta04 Q_old (v3sub from to).

(** src/shamphys/include/shamphys/fmm/offset_multipole.hpp:429-440 *)
Definition offset_multipole_delta03 (Q : col03) (offset : vec3) : col03 :=
  let d := (from_vec11 offset) in
  let Qn1 := (offset_multipole_1 (c03_t0 Q) (c03_t1 Q) (c11_t1 d)) in
  let Qn2 := (offset_multipole_2 Qn1 (c03_t1 Q) (c03_t2 Q) (c11_t1 d)) in
  let Qn3 := (offset_multipole_3 Qn1 Qn2 (c03_t2 Q) (c03_t3 Q) (c11_t1 d)) in
  (mkc03 (c03_t0 Q) Qn1 Qn2 Qn3).

(** src/shamphys/include/shamphys/fmm/offset_multipole.hpp:468-468 *)
Definition offset_multipole03 (Q_old : col03) (from to : vec3) : col03 :=
  offset_multipole_delta03 Q_old (v3sub from to).

(** src/shamphys/include/shamphys/fmm/offset_multipole.hpp:440-449 *)
Definition offset_multipole_delta02 (Q : col02) (offset : vec3) : col02 :=
  let d := (from_vec11 offset) in
  let Qn1 := (offset_multipole_1 (c02_t0 Q) (c02_t1 Q) (c11_t1 d)) in
  let Qn2 := (offset_multipole_2 Qn1 (c02_t1 Q) (c02_t2 Q) (c11_t1 d)) in
  (mkc02 (c02_t0 Q) Qn1 Qn2).

(** src/shamphys/include/shamphys/fmm/offset_multipole.hpp:468-468 *)
Definition offset_multipole02 (Q_old : col02) (from to : vec3) : col02 :=
  offset_multipole_delta02 Q_old (v3sub from to).

(** src/shamphys/include/shamphys/fmm/offset_multipole.hpp:449-456 *)
Definition offset_multipole_delta01 (Q : col01) (offset : vec3) : col01 :=
  let d := (from_vec11 offset) in
  let Qn1 := (offset_multipole_1 (c01_t0 Q) (c01_t1 Q) (c11_t1 d)) in
  (mkc01 (c01_t0 Q) Qn1).

(** src/shamphys/include/shamphys/fmm/offset_multipole.hpp:468-468 *)
Definition offset_multipole01 (Q_old : col01) (from to : vec3) : col01 :=
  offset_multipole_delta01 Q_old (v3sub from to).

(** src/shamphys/include/shamphys/fmm/offset_multipole.hpp:456-458 *)
Definition offset_multipole_delta00 (Q : col00) (offset : vec3) : col00 :=
  (mkc00 (c00_t0 Q)).

(** src/shamphys/include/shamphys/fmm/offset_multipole.hpp:468-468 *)
Definition offset_multipole00 (Q_old : col00) (from to : vec3) : col00 :=
  offset_multipole_delta00 Q_old (v3sub from to).

(** src/shamphys/include/shamphys/fmm/grav_moments.hpp:32-60 *)
Definition get_M_mat05 (D Q : col05) : col05 :=
  let TD0 := (c05_t0 D) in
  let TD1 := (c05_t1 D) in
  let TD2 := (c05_t2 D) in
  let TD3 := (c05_t3 D) in
  let TD4 := (c05_t4 D) in
  let TD5 := (c05_t5 D) in
  let TQ0 := (c05_t0 Q) in
  let TQ1 := (c05_t1 Q) in
  let TQ2 := (c05_t2 Q) in
  let TQ3 := (c05_t3 Q) in
  let TQ4 := (c05_t4 Q) in
  let TQ5 := (c05_t5 Q) in
  let M_0 := ((((((TD0 * TQ0) + (op_11 TD1 TQ1)) + ((op_22 TD2 TQ2) * (1 / 2))) + ((op_33 TD3 TQ3) * (1 / 6))) + ((op_44 TD4 TQ4) * (1 / 24))) + ((op_55 TD5 TQ5) * (1 / 120))) in
  let M_1 := (sub1 (sub1 (sub1 (sub1 (op_R1 (- 1) (muls1 TD1 TQ0)) (op_21 TD2 TQ1)) (muls1 (op_32 TD3 TQ2) (1 / 2))) (muls1 (op_43 TD4 TQ3) (1 / 6))) (muls1 (op_54 TD5 TQ4) (1 / 24))) in
  let M_2 := (add2 (add2 (add2 (muls2 TD2 TQ0) (op_31 TD3 TQ1)) (muls2 (op_42 TD4 TQ2) (1 / 2))) (muls2 (op_53 TD5 TQ3) (1 / 6))) in
  let M_3 := (sub3 (sub3 (op_R3 (- 1) (muls3 TD3 TQ0)) (op_41 TD4 TQ1)) (muls3 (op_52 TD5 TQ2) (1 / 2))) in
  let M_4 := (add4 (muls4 TD4 TQ0) (op_51 TD5 TQ1)) in
  let M_5 := (op_R5 (- 1) (muls5 TD5 TQ0)) in
  (mkc05 M_0 M_1 M_2 M_3 M_4 M_5).

(** src/shamphys/include/shamphys/fmm/grav_moments.hpp:60-83 *)
Definition get_M_mat04 (D Q : col04) : col04 :=
  let TD0 := (c04_t0 D) in
  let TD1 := (c04_t1 D) in
  let TD2 := (c04_t2 D) in
  let TD3 := (c04_t3 D) in
  let TD4 := (c04_t4 D) in
  let TQ0 := (c04_t0 Q) in
  let TQ1 := (c04_t1 Q) in
  let TQ2 := (c04_t2 Q) in
  let TQ3 := (c04_t3 Q) in
  let TQ4 := (c04_t4 Q) in
  let M_0 := (((((TD0 * TQ0) + (op_11 TD1 TQ1)) + ((op_22 TD2 TQ2) * (1 / 2))) + ((op_33 TD3 TQ3) * (1 / 6))) + ((op_44 TD4 TQ4) * (1 / 24))) in
  let M_1 := (sub1 (sub1 (sub1 (op_R1 (- 1) (muls1 TD1 TQ0)) (op_21 TD2 TQ1)) (muls1 (op_32 TD3 TQ2) (1 / 2))) (muls1 (op_43 TD4 TQ3) (1 / 6))) in
  let M_2 := (add2 (add2 (muls2 TD2 TQ0) (op_31 TD3 TQ1)) (muls2 (op_42 TD4 TQ2) (1 / 2))) in
  let M_3 := (sub3 (op_R3 (- 1) (muls3 TD3 TQ0)) (op_41 TD4 TQ1)) in
  let M_4 := (muls4 TD4 TQ0) in
  (mkc04 M_0 M_1 M_2 M_3 M_4).

(** src/shamphys/include/shamphys/fmm/grav_moments.hpp:83-102 *)
Definition get_M_mat03 (D Q : col03) : col03 :=
  let TD0 := (c03_t0 D) in
  let TD1 := (c03_t1 D) in
  let TD2 := (c03_t2 D) in
  let TD3 := (c03_t3 D) in
  let TQ0 := (c03_t0 Q) in
  let TQ1 := (c03_t1 Q) in
  let TQ2 := (c03_t2 Q) in
  let TQ3 := (c03_t3 Q) in
  let M_0 := ((((TD0 * TQ0) + (op_11 TD1 TQ1)) + ((op_22 TD2 TQ2) * (1 / 2))) + ((op_33 TD3 TQ3) * (1 / 6))) in
  let M_1 := (sub1 (sub1 (op_R1 (- 1) (muls1 TD1 TQ0)) (op_21 TD2 TQ1)) (muls1 (op_32 TD3 TQ2) (1 / 2))) in
  let M_2 := (add2 (muls2 TD2 TQ0) (op_31 TD3 TQ1)) in
  let M_3 := (op_R3 (- 1) (muls3 TD3 TQ0)) in
  (mkc03 M_0 M_1 M_2 M_3).

(** src/shamphys/include/shamphys/fmm/grav_moments.hpp:102-117 *)
Definition get_M_mat02 (D Q : col02) : col02 :=
  let TD0 := (c02_t0 D) in
  let TD1 := (c02_t1 D) in
  let TD2 := (c02_t2 D) in
  let TQ0 := (c02_t0 Q) in
  let TQ1 := (c02_t1 Q) in
  let TQ2 := (c02_t2 Q) in
  let M_0 := (((TD0 * TQ0) + (op_11 TD1 TQ1)) + ((op_22 TD2 TQ2) * (1 / 2))) in
  let M_1 := (sub1 (op_R1 (- 1) (muls1 TD1 TQ0)) (op_21 TD2 TQ1)) in
  let M_2 := (muls2 TD2 TQ0) in
  (mkc02 M_0 M_1 M_2).

(** src/shamphys/include/shamphys/fmm/grav_moments.hpp:117-129 *)
Definition get_M_mat01 (D Q : col01) : col01 :=
  let TD0 := (c01_t0 D) in
  let TD1 := (c01_t1 D) in
  let TQ0 := (c01_t0 Q) in
  let TQ1 := (c01_t1 Q) in
  let M_0 := ((TD0 * TQ0) + (op_11 TD1 TQ1)) in
  let M_1 := (op_R1 (- 1) (muls1 TD1 TQ0)) in
  (mkc01 M_0 M_1).

(** src/shamphys/include/shamphys/fmm/grav_moments.hpp:129-138 *)
Definition get_M_mat00 (D Q : col00) : col00 :=
  let TD0 := (c00_t0 D) in
  let TQ0 := (c00_t0 Q) in
  let M_0 := (TD0 * TQ0) in
  (mkc00 M_0).

(** src/shamphys/include/shamphys/fmm/grav_moments.hpp:152-179 *)
Definition get_dM_mat4 (D : col15) (Q : col04) : col15 :=
  let TD1 := (c15_t1 D) in
  let TD2 := (c15_t2 D) in
  let TD3 := (c15_t3 D) in
  let TD4 := (c15_t4 D) in
  let TD5 := (c15_t5 D) in
  let TQ0 := (c04_t0 Q) in
  let TQ1 := (c04_t1 Q) in
  let TQ2 := (c04_t2 Q) in
  let TQ3 := (c04_t3 Q) in
  let TQ4 := (c04_t4 Q) in
  let _1i2 := (1 / 2) in
  let _1i6 := (1 / 6) in
  let _1i24 := (1 / 24) in
  let M_1 := (add1 (add1 (add1 (add1 (muls1 TD1 TQ0) (op_21 TD2 TQ1)) (muls1 (op_32 TD3 TQ2) _1i2)) (muls1 (op_43 TD4 TQ3) _1i6)) (muls1 (op_54 TD5 TQ4) _1i24)) in
  let M_2 := (sub2 (sub2 (sub2 (muls2 (op_R2 (- 1) TD2) TQ0) (op_31 TD3 TQ1)) (muls2 (op_42 TD4 TQ2) _1i2)) (muls2 (op_53 TD5 TQ3) _1i6)) in
  let M_3 := (add3 (add3 (muls3 TD3 TQ0) (op_41 TD4 TQ1)) (muls3 (op_52 TD5 TQ2) _1i2)) in
  let M_4 := (sub4 (op_R4 (- 1) (muls4 TD4 TQ0)) (op_51 TD5 TQ1)) in
  let M_5 := (muls5 TD5 TQ0) in
  (mkc15 M_1 M_2 M_3 M_4 M_5).

(** src/shamphys/include/shamphys/fmm/grav_moments.hpp:179-198 *)
Definition get_dM_mat3 (D : col14) (Q : col03) : col14 :=
  let TD1 := (c14_t1 D) in
  let TD2 := (c14_t2 D) in
  let TD3 := (c14_t3 D) in
  let TD4 := (c14_t4 D) in
  let TQ0 := (c03_t0 Q) in
  let TQ1 := (c03_t1 Q) in
  let TQ2 := (c03_t2 Q) in
  let TQ3 := (c03_t3 Q) in
  let M_1 := (add1 (add1 (add1 (muls1 TD1 TQ0) (op_21 TD2 TQ1)) (muls1 (op_32 TD3 TQ2) (1 / 2))) (muls1 (op_43 TD4 TQ3) (1 / 6))) in
  let M_2 := (sub2 (sub2 (muls2 (op_R2 (- 1) TD2) TQ0) (op_31 TD3 TQ1)) (muls2 (op_42 TD4 TQ2) (1 / 2))) in
  let M_3 := (add3 (muls3 TD3 TQ0) (op_41 TD4 TQ1)) in
  let M_4 := (op_R4 (- 1) (muls4 TD4 TQ0)) in
  (mkc14 M_1 M_2 M_3 M_4).

(** src/shamphys/include/shamphys/fmm/grav_moments.hpp:198-214 *)
Definition get_dM_mat2 (D : col13) (Q : col02) : col13 :=
  let TD1 := (c13_t1 D) in
  let TD2 := (c13_t2 D) in
  let TD3 := (c13_t3 D) in
  let TQ0 := (c02_t0 Q) in
  let TQ1 := (c02_t1 Q) in
  let TQ2 := (c02_t2 Q) in
  let M_1 := (add1 (add1 (muls1 TD1 TQ0) (op_21 TD2 TQ1)) (muls1 (op_32 TD3 TQ2) (1 / 2))) in
  let M_2 := (sub2 (muls2 (op_R2 (- 1) TD2) TQ0) (op_31 TD3 TQ1)) in
  let M_3 := (muls3 TD3 TQ0) in
  (mkc13 M_1 M_2 M_3).

(** src/shamphys/include/shamphys/fmm/grav_moments.hpp:214-227 *)
Definition get_dM_mat1 (D : col12) (Q : col01) : col12 :=
  let TD1 := (c12_t1 D) in
  let TD2 := (c12_t2 D) in
  let TQ0 := (c01_t0 Q) in
  let TQ1 := (c01_t1 Q) in
  let M_1 := (add1 (muls1 TD1 TQ0) (op_21 TD2 TQ1)) in
  let M_2 := (muls2 (op_R2 (- 1) TD2) TQ0) in
  (mkc12 M_1 M_2).

(** src/shamphys/include/shamphys/fmm/grav_moments.hpp:227-236 *)
Definition get_dM_mat0 (D : col11) (Q : col00) : col11 :=
  let TD1 := (c11_t1 D) in
  let TQ0 := (c00_t0 Q) in
  let M_1 := (muls1 TD1 TQ0) in
  (mkc11 M_1).

(** src/shamphys/include/shamphys/fmm/grav_moment_offset.hpp:33 *)
Definition inv_factorial_0 : R := (1 / 1).

(** src/shamphys/include/shamphys/fmm/grav_moment_offset.hpp:34 *)
Definition inv_factorial_1 : R := (1 / 1).

(** src/shamphys/include/shamphys/fmm/grav_moment_offset.hpp:35 *)
Definition inv_factorial_2 : R := (1 / 2).

(** src/shamphys/include/shamphys/fmm/grav_moment_offset.hpp:36 *)
Definition inv_factorial_3 : R := (1 / 6).

(** src/shamphys/include/shamphys/fmm/grav_moment_offset.hpp:37 *)
Definition inv_factorial_4 : R := (1 / 24).

(** src/shamphys/include/shamphys/fmm/grav_moment_offset.hpp:38 *)
Definition inv_factorial_5 : R := (1 / 120).

(** src/shamphys/include/shamphys/fmm/grav_moment_offset.hpp:40-87 *)
Definition offset_dM_mat_delta05 (dM : col05) (offset : vec3) : col05 :=
  let h := (from_vec05 offset) in
  let h_0 := (c05_t0 h) in
  let h_1 := (c05_t1 h) in
  let h_2 := (c05_t2 h) in
  let h_3 := (c05_t3 h) in
  let h_4 := (c05_t4 h) in
  let h_5 := (c05_t5 h) in
  let dM_0 := (c05_t0 dM) in
  let dM_1 := (c05_t1 dM) in
  let dM_2 := (c05_t2 dM) in
  let dM_3 := (c05_t3 dM) in
  let dM_4 := (c05_t4 dM) in
  let dM_5 := (c05_t5 dM) in
  let dM_ret_0 := (((((((inv_factorial_0 * h_0) * dM_0) + (op_11 (op_R1 inv_factorial_1 h_1) dM_1)) + (op_22 (op_R2 inv_factorial_2 h_2) dM_2)) + (op_33 (op_R3 inv_factorial_3 h_3) dM_3)) + (op_44 (op_R4 inv_factorial_4 h_4) dM_4)) + (op_55 (op_R5 inv_factorial_5 h_5) dM_5)) in
  let dM_ret_1 := (add1 (add1 (add1 (add1 (op_R1 (inv_factorial_0 * h_0) dM_1) (op_12 (op_R1 inv_factorial_1 h_1) dM_2)) (op_23 (op_R2 inv_factorial_2 h_2) dM_3)) (op_34 (op_R3 inv_factorial_3 h_3) dM_4)) (op_45 (op_R4 inv_factorial_4 h_4) dM_5)) in
  let dM_ret_2 := (add2 (add2 (add2 (op_R2 (inv_factorial_0 * h_0) dM_2) (op_13 (op_R1 inv_factorial_1 h_1) dM_3)) (op_24 (op_R2 inv_factorial_2 h_2) dM_4)) (op_35 (op_R3 inv_factorial_3 h_3) dM_5)) in
  let dM_ret_3 := (add3 (add3 (op_R3 (inv_factorial_0 * h_0) dM_3) (op_14 (op_R1 inv_factorial_1 h_1) dM_4)) (op_25 (op_R2 inv_factorial_2 h_2) dM_5)) in
  let dM_ret_4 := (add4 (op_R4 (inv_factorial_0 * h_0) dM_4) (op_15 (op_R1 inv_factorial_1 h_1) dM_5)) in
  let dM_ret_5 := (op_R5 (inv_factorial_0 * h_0) dM_5) in
  (mkc05 dM_ret_0 dM_ret_1 dM_ret_2 dM_ret_3 dM_ret_4 dM_ret_5).

(** src/shamphys/include/shamphys/fmm/grav_moment_offset.hpp:239-239 *)
Definition offset_dM_mat05 (dM : col05) (from to : vec3) : col05 :=
  offset_dM_mat_delta05 dM (v3sub to from).

(** src/shamphys/include/shamphys/fmm/grav_moment_offset.hpp:87-128 *)
Definition offset_dM_mat_delta15 (dM : col15) (offset : vec3) : col15 :=
  let h := (from_vec05 offset) in
  let h_0 := (c05_t0 h) in
  let h_1 := (c05_t1 h) in
  let h_2 := (c05_t2 h) in
  let h_3 := (c05_t3 h) in
  let h_4 := (c05_t4 h) in
  let h_5 := (c05_t5 h) in
  let dM_1 := (c15_t1 dM) in
  let dM_2 := (c15_t2 dM) in
  let dM_3 := (c15_t3 dM) in
  let dM_4 := (c15_t4 dM) in
  let dM_5 := (c15_t5 dM) in
  let dM_ret_1 := (add1 (add1 (add1 (add1 (op_R1 (inv_factorial_0 * h_0) dM_1) (op_12 (op_R1 inv_factorial_1 h_1) dM_2)) (op_23 (op_R2 inv_factorial_2 h_2) dM_3)) (op_34 (op_R3 inv_factorial_3 h_3) dM_4)) (op_45 (op_R4 inv_factorial_4 h_4) dM_5)) in
  let dM_ret_2 := (add2 (add2 (add2 (op_R2 (inv_factorial_0 * h_0) dM_2) (op_13 (op_R1 inv_factorial_1 h_1) dM_3)) (op_24 (op_R2 inv_factorial_2 h_2) dM_4)) (op_35 (op_R3 inv_factorial_3 h_3) dM_5)) in
  let dM_ret_3 := (add3 (add3 (op_R3 (inv_factorial_0 * h_0) dM_3) (op_14 (op_R1 inv_factorial_1 h_1) dM_4)) (op_25 (op_R2 inv_factorial_2 h_2) dM_5)) in
  let dM_ret_4 := (add4 (op_R4 (inv_factorial_0 * h_0) dM_4) (op_15 (op_R1 inv_factorial_1 h_1) dM_5)) in
  let dM_ret_5 := (op_R5 (inv_factorial_0 * h_0) dM_5) in
  (mkc15 dM_ret_1 dM_ret_2 dM_ret_3 dM_ret_4 dM_ret_5).

(** src/shamphys/include/shamphys/fmm/grav_moment_offset.hpp:239-239 *)
Definition offset_dM_mat15 (dM : col15) (from to : vec3) : col15 :=
  offset_dM_mat_delta15 dM (v3sub to from).

(** src/shamphys/include/shamphys/fmm/grav_moment_offset.hpp:128-163 *)
Definition offset_dM_mat_delta14 (dM : col14) (offset : vec3) : col14 :=
  let h := (from_vec04 offset) in
  let h_0 := (c04_t0 h) in
  let h_1 := (c04_t1 h) in
  let h_2 := (c04_t2 h) in
  let h_3 := (c04_t3 h) in
  let h_4 := (c04_t4 h) in
  let dM_1 := (c14_t1 dM) in
  let dM_2 := (c14_t2 dM) in
  let dM_3 := (c14_t3 dM) in
  let dM_4 := (c14_t4 dM) in
  let dM_ret_1 := (add1 (add1 (add1 (op_R1 (inv_factorial_0 * h_0) dM_1) (op_12 (op_R1 inv_factorial_1 h_1) dM_2)) (op_23 (op_R2 inv_factorial_2 h_2) dM_3)) (op_34 (op_R3 inv_factorial_3 h_3) dM_4)) in
  let dM_ret_2 := (add2 (add2 (op_R2 (inv_factorial_0 * h_0) dM_2) (op_13 (op_R1 inv_factorial_1 h_1) dM_3)) (op_24 (op_R2 inv_factorial_2 h_2) dM_4)) in
  let dM_ret_3 := (add3 (op_R3 (inv_factorial_0 * h_0) dM_3) (op_14 (op_R1 inv_factorial_1 h_1) dM_4)) in
  let dM_ret_4 := (op_R4 (inv_factorial_0 * h_0) dM_4) in
  (mkc14 dM_ret_1 dM_ret_2 dM_ret_3 dM_ret_4).

(** src/shamphys/include/shamphys/fmm/grav_moment_offset.hpp:239-239 *)
Definition offset_dM_mat14 (dM : col14) (from to : vec3) : col14 :=
  offset_dM_mat_delta14 dM (v3sub to from).

(** src/shamphys/include/shamphys/fmm/grav_moment_offset.hpp:163-192 *)
Definition offset_dM_mat_delta13 (dM : col13) (offset : vec3) : col13 :=
  let h := (from_vec03 offset) in
  let h_0 := (c03_t0 h) in
  let h_1 := (c03_t1 h) in
  let h_2 := (c03_t2 h) in
  let h_3 := (c03_t3 h) in
  let dM_1 := (c13_t1 dM) in
  let dM_2 := (c13_t2 dM) in
  let dM_3 := (c13_t3 dM) in
  let dM_ret_1 := (add1 (add1 (op_R1 (inv_factorial_0 * h_0) dM_1) (op_12 (op_R1 inv_factorial_1 h_1) dM_2)) (op_23 (op_R2 inv_factorial_2 h_2) dM_3)) in
  let dM_ret_2 := (add2 (op_R2 (inv_factorial_0 * h_0) dM_2) (op_13 (op_R1 inv_factorial_1 h_1) dM_3)) in
  let dM_ret_3 := (op_R3 (inv_factorial_0 * h_0) dM_3) in
  (mkc13 dM_ret_1 dM_ret_2 dM_ret_3).

(** src/shamphys/include/shamphys/fmm/grav_moment_offset.hpp:239-239 *)
Definition offset_dM_mat13 (dM : col13) (from to : vec3) : col13 :=
  offset_dM_mat_delta13 dM (v3sub to from).

(** src/shamphys/include/shamphys/fmm/grav_moment_offset.hpp:192-214 *)
Definition offset_dM_mat_delta12 (dM : col12) (offset : vec3) : col12 :=
  let h := (from_vec01 offset) in
  let h_0 := (c01_t0 h) in
  let h_1 := (c01_t1 h) in
  let dM_1 := (c12_t1 dM) in
  let dM_2 := (c12_t2 dM) in
  let dM_ret_1 := (add1 (op_R1 (inv_factorial_0 * h_0) dM_1) (op_12 (op_R1 inv_factorial_1 h_1) dM_2)) in
  let dM_ret_2 := (op_R2 (inv_factorial_0 * h_0) dM_2) in
  (mkc12 dM_ret_1 dM_ret_2).

(** src/shamphys/include/shamphys/fmm/grav_moment_offset.hpp:239-239 *)
Definition offset_dM_mat12 (dM : col12) (from to : vec3) : col12 :=
  offset_dM_mat_delta12 dM (v3sub to from).

(** src/shamphys/include/shamphys/fmm/grav_moment_offset.hpp:214-228 *)
Definition offset_dM_mat_delta11 (dM : col11) (offset : vec3) : col11 :=
  let h_0 := 1 in
  let dM_1 := (c11_t1 dM) in
  let dM_ret_1 := (op_R1 (inv_factorial_0 * h_0) dM_1) in
  (mkc11 dM_ret_1).

(** src/shamphys/include/shamphys/fmm/grav_moment_offset.hpp:239-239 *)
Definition offset_dM_mat11 (dM : col11) (from to : vec3) : col11 :=
  offset_dM_mat_delta11 dM (v3sub to from).

(** src/shamphys/include/shamphys/fmm/contract_grav_moment.hpp:37-39 *)
Definition tensor_to_sycl (a : st1) : vec3 :=
  (mkv (v_0 a) (v_1 a) (v_2 a)).

(** src/shamphys/include/shamphys/fmm/contract_grav_moment.hpp:41-55 *)
Definition contract_grav_moment_to_force1 (a_k : col00) (dM_k : col11) : vec3 :=
  let force_val := (tensor_to_sycl (muls1 (c11_t1 dM_k) (c00_t0 a_k))) in
  force_val.

(** src/shamphys/include/shamphys/fmm/contract_grav_moment.hpp:41-55 *)
Definition contract_grav_moment_to_force2 (a_k : col01) (dM_k : col12) : vec3 :=
  let force_val := (tensor_to_sycl (muls1 (c12_t1 dM_k) (c01_t0 a_k))) in
  let force_val := v3add force_val (v3div (tensor_to_sycl (op_21 (c12_t2 dM_k) (c01_t1 a_k))) 1) in
  force_val.

(** src/shamphys/include/shamphys/fmm/contract_grav_moment.hpp:41-55 *)
Definition contract_grav_moment_to_force3 (a_k : col02) (dM_k : col13) : vec3 :=
  let force_val := (tensor_to_sycl (muls1 (c13_t1 dM_k) (c02_t0 a_k))) in
  let force_val := v3add force_val (v3div (tensor_to_sycl (op_21 (c13_t2 dM_k) (c02_t1 a_k))) 1) in
  let force_val := v3add force_val (v3div (tensor_to_sycl (op_32 (c13_t3 dM_k) (c02_t2 a_k))) 2) in
  force_val.

(** src/shamphys/include/shamphys/fmm/contract_grav_moment.hpp:41-55 *)
Definition contract_grav_moment_to_force4 (a_k : col03) (dM_k : col14) : vec3 :=
  let force_val := (tensor_to_sycl (muls1 (c14_t1 dM_k) (c03_t0 a_k))) in
  let force_val := v3add force_val (v3div (tensor_to_sycl (op_21 (c14_t2 dM_k) (c03_t1 a_k))) 1) in
  let force_val := v3add force_val (v3div (tensor_to_sycl (op_32 (c14_t3 dM_k) (c03_t2 a_k))) 2) in
  let force_val := v3add force_val (v3div (tensor_to_sycl (op_43 (c14_t4 dM_k) (c03_t3 a_k))) 6) in
  force_val.

(** src/shamphys/include/shamphys/fmm/contract_grav_moment.hpp:41-55 *)
Definition contract_grav_moment_to_force5 (a_k : col04) (dM_k : col15) : vec3 :=
  let force_val := (tensor_to_sycl (muls1 (c15_t1 dM_k) (c04_t0 a_k))) in
  let force_val := v3add force_val (v3div (tensor_to_sycl (op_21 (c15_t2 dM_k) (c04_t1 a_k))) 1) in
  let force_val := v3add force_val (v3div (tensor_to_sycl (op_32 (c15_t3 dM_k) (c04_t2 a_k))) 2) in
  let force_val := v3add force_val (v3div (tensor_to_sycl (op_43 (c15_t4 dM_k) (c04_t3 a_k))) 6) in
  let force_val := v3add force_val (v3div (tensor_to_sycl (op_54 (c15_t5 dM_k) (c04_t4 a_k))) 24) in
  force_val.

(** src/shamphys/include/shamphys/fmm/GreenFuncGravCartesian.hpp:56-160 *)
Definition green05 (r : vec3) : col05 :=
  let r1 := (vx r) in
  let r2 := (vy r) in
  let r3 := (vz r) in
  let r1pow2 := ((vx r) * (vx r)) in
  let r2pow2 := ((vy r) * (vy r)) in
  let r3pow2 := ((vz r) * (vz r)) in
  let r1pow3 := ((vx r) * r1pow2) in
  let r2pow3 := ((vy r) * r2pow2) in
  let r3pow3 := ((vz r) * r3pow2) in
  let r1pow4 := ((vx r) * r1pow3) in
  let r2pow4 := ((vy r) * r2pow3) in
  let r3pow4 := ((vz r) * r3pow3) in
  let r1pow5 := ((vx r) * r1pow4) in
  let r2pow5 := ((vy r) * r2pow4) in
  let r3pow5 := ((vz r) * r3pow4) in
  let rsq := ((r1pow2 + r2pow2) + r3pow2) in
  let rnorm := (sqrt rsq) in
  let rm2 := (1 / rsq) in
  let g0 := (1 / rnorm) in
  let g1 := (((- 1) * rm2) * g0) in
  let g2 := (((- 3) * rm2) * g1) in
  let g3 := (((- 5) * rm2) * g2) in
  let g4 := (((- 7) * rm2) * g3) in
  let g5 := (((- 9) * rm2) * g4) in
  let D5 := (mk5 ((((15 * g3) * r1) + ((10 * g4) * r1pow3)) + (g5 * r1pow5)) ((((3 * g3) + ((6 * g4) * r1pow2)) + (g5 * r1pow4)) * r2) ((((3 * g3) + ((6 * g4) * r1pow2)) + (g5 * r1pow4)) * r3) (((((3 * g3) * r1) + (g4 * r1pow3)) + (((3 * g4) * r1) * r2pow2)) + ((g5 * r1pow3) * r2pow2)) (((((3 * g4) * r1) + (g5 * r1pow3)) * r2) * r3) (((((3 * g3) * r1) + (g4 * r1pow3)) + (((3 * g4) * r1) * r3pow2)) + ((g5 * r1pow3) * r3pow2)) (((((3 * g3) * r2) + (((3 * g4) * r1pow2) * r2)) + (g4 * r2pow3)) + ((g5 * r1pow2) * r2pow3)) ((((g3 + (g4 * r1pow2)) + (g4 * r2pow2)) + ((g5 * r1pow2) * r2pow2)) * r3) (r2 * (((g3 + (g4 * r1pow2)) + (g4 * r3pow2)) + ((g5 * r1pow2) * r3pow2))) (((((3 * g3) * r3) + (((3 * g4) * r1pow2) * r3)) + (g4 * r3pow3)) + ((g5 * r1pow2) * r3pow3)) (r1 * (((3 * g3) + ((6 * g4) * r2pow2)) + (g5 * r2pow4))) ((r1 * (((3 * g4) * r2) + (g5 * r2pow3))) * r3) (r1 * (((g3 + (g4 * r2pow2)) + (g4 * r3pow2)) + ((g5 * r2pow2) * r3pow2))) ((r1 * r2) * (((3 * g4) * r3) + (g5 * r3pow3))) (r1 * (((3 * g3) + ((6 * g4) * r3pow2)) + (g5 * r3pow4))) ((((15 * g3) * r2) + ((10 * g4) * r2pow3)) + (g5 * r2pow5)) ((((3 * g3) + ((6 * g4) * r2pow2)) + (g5 * r2pow4)) * r3) (((((3 * g3) * r2) + (g4 * r2pow3)) + (((3 * g4) * r2) * r3pow2)) + ((g5 * r2pow3) * r3pow2)) (((((3 * g3) * r3) + (((3 * g4) * r2pow2) * r3)) + (g4 * r3pow3)) + ((g5 * r2pow2) * r3pow3)) (r2 * (((3 * g3) + ((6 * g4) * r3pow2)) + (g5 * r3pow4))) ((((15 * g3) * r3) + ((10 * g4) * r3pow3)) + (g5 * r3pow5))) in
  let D4 := (mk4 (((3 * g2) + ((6 * g3) * r1pow2)) + (g4 * r1pow4)) ((((3 * g3) * r1) * r2) + ((g4 * r1pow3) * r2)) ((((3 * g3) * r1) * r3) + ((g4 * r1pow3) * r3)) (((g2 + (g3 * r1pow2)) + (g3 * r2pow2)) + ((g4 * r1pow2) * r2pow2)) (((g3 + (g4 * r1pow2)) * r2) * r3) (((g2 + (g3 * r1pow2)) + (g3 * r3pow2)) + ((g4 * r1pow2) * r3pow2)) ((((3 * g3) * r1) * r2) + ((g4 * r1) * r2pow3)) ((r1 * (g3 + (g4 * r2pow2))) * r3) ((r1 * r2) * (g3 + (g4 * r3pow2))) ((((3 * g3) * r1) * r3) + ((g4 * r1) * r3pow3)) (((3 * g2) + ((6 * g3) * r2pow2)) + (g4 * r2pow4)) ((((3 * g3) * r2) * r3) + ((g4 * r2pow3) * r3)) (((g2 + (g3 * r2pow2)) + (g3 * r3pow2)) + ((g4 * r2pow2) * r3pow2)) ((((3 * g3) * r2) * r3) + ((g4 * r2) * r3pow3)) (((3 * g2) + ((6 * g3) * r3pow2)) + (g4 * r3pow4))) in
  let D3 := (mk3 (((3 * g2) * r1) + (g3 * r1pow3)) ((g2 * r2) + ((g3 * r1pow2) * r2)) ((g2 * r3) + ((g3 * r1pow2) * r3)) ((g2 * r1) + ((g3 * r1) * r2pow2)) (((g3 * r1) * r2) * r3) ((g2 * r1) + ((g3 * r1) * r3pow2)) (((3 * g2) * r2) + (g3 * r2pow3)) ((g2 * r3) + ((g3 * r2pow2) * r3)) ((g2 * r2) + ((g3 * r2) * r3pow2)) (((3 * g2) * r3) + (g3 * r3pow3))) in
  let D2 := (mk2 (g1 + (g2 * r1pow2)) ((g2 * r1) * r2) ((g2 * r1) * r3) (g1 + (g2 * r2pow2)) ((g2 * r2) * r3) (g1 + (g2 * r3pow2))) in
  let D1 := (mk1 (g1 * r1) (g1 * r2) (g1 * r3)) in
  let D0 := g0 in
  (mkc05 D0 D1 D2 D3 D4 D5).

(** src/shamphys/include/shamphys/fmm/GreenFuncGravCartesian.hpp:164-239 *)
Definition green04 (r : vec3) : col04 :=
  let r1 := (vx r) in
  let r2 := (vy r) in
  let r3 := (vz r) in
  let r1pow2 := ((vx r) * (vx r)) in
  let r2pow2 := ((vy r) * (vy r)) in
  let r3pow2 := ((vz r) * (vz r)) in
  let r1pow3 := ((vx r) * r1pow2) in
  let r2pow3 := ((vy r) * r2pow2) in
  let r3pow3 := ((vz r) * r3pow2) in
  let r1pow4 := ((vx r) * r1pow3) in
  let r2pow4 := ((vy r) * r2pow3) in
  let r3pow4 := ((vz r) * r3pow3) in
  let rsq := ((r1pow2 + r2pow2) + r3pow2) in
  let rnorm := (sqrt rsq) in
  let rm2 := (1 / rsq) in
  let g0 := (1 / rnorm) in
  let g1 := (((- 1) * rm2) * g0) in
  let g2 := (((- 3) * rm2) * g1) in
  let g3 := (((- 5) * rm2) * g2) in
  let g4 := (((- 7) * rm2) * g3) in
  let D4 := (mk4 (((3 * g2) + ((6 * g3) * r1pow2)) + (g4 * r1pow4)) ((((3 * g3) * r1) * r2) + ((g4 * r1pow3) * r2)) ((((3 * g3) * r1) * r3) + ((g4 * r1pow3) * r3)) (((g2 + (g3 * r1pow2)) + (g3 * r2pow2)) + ((g4 * r1pow2) * r2pow2)) (((g3 + (g4 * r1pow2)) * r2) * r3) (((g2 + (g3 * r1pow2)) + (g3 * r3pow2)) + ((g4 * r1pow2) * r3pow2)) ((((3 * g3) * r1) * r2) + ((g4 * r1) * r2pow3)) ((r1 * (g3 + (g4 * r2pow2))) * r3) ((r1 * r2) * (g3 + (g4 * r3pow2))) ((((3 * g3) * r1) * r3) + ((g4 * r1) * r3pow3)) (((3 * g2) + ((6 * g3) * r2pow2)) + (g4 * r2pow4)) ((((3 * g3) * r2) * r3) + ((g4 * r2pow3) * r3)) (((g2 + (g3 * r2pow2)) + (g3 * r3pow2)) + ((g4 * r2pow2) * r3pow2)) ((((3 * g3) * r2) * r3) + ((g4 * r2) * r3pow3)) (((3 * g2) + ((6 * g3) * r3pow2)) + (g4 * r3pow4))) in
  let D3 := (mk3 (((3 * g2) * r1) + (g3 * r1pow3)) ((g2 * r2) + ((g3 * r1pow2) * r2)) ((g2 * r3) + ((g3 * r1pow2) * r3)) ((g2 * r1) + ((g3 * r1) * r2pow2)) (((g3 * r1) * r2) * r3) ((g2 * r1) + ((g3 * r1) * r3pow2)) (((3 * g2) * r2) + (g3 * r2pow3)) ((g2 * r3) + ((g3 * r2pow2) * r3)) ((g2 * r2) + ((g3 * r2) * r3pow2)) (((3 * g2) * r3) + (g3 * r3pow3))) in
  let D2 := (mk2 (g1 + (g2 * r1pow2)) ((g2 * r1) * r2) ((g2 * r1) * r3) (g1 + (g2 * r2pow2)) ((g2 * r2) * r3) (g1 + (g2 * r3pow2))) in
  let D1 := (mk1 (g1 * r1) (g1 * r2) (g1 * r3)) in
  let D0 := g0 in
  (mkc04 D0 D1 D2 D3 D4).

(** src/shamphys/include/shamphys/fmm/GreenFuncGravCartesian.hpp:243-297 *)
Definition green03 (r : vec3) : col03 :=
  let r1 := (vx r) in
  let r2 := (vy r) in
  let r3 := (vz r) in
  let r1pow2 := ((vx r) * (vx r)) in
  let r2pow2 := ((vy r) * (vy r)) in
  let r3pow2 := ((vz r) * (vz r)) in
  let r1pow3 := ((vx r) * r1pow2) in
  let r2pow3 := ((vy r) * r2pow2) in
  let r3pow3 := ((vz r) * r3pow2) in
  let rsq := ((r1pow2 + r2pow2) + r3pow2) in
  let rnorm := (sqrt rsq) in
  let rm2 := (1 / rsq) in
  let g0 := (1 / rnorm) in
  let g1 := (((- 1) * rm2) * g0) in
  let g2 := (((- 3) * rm2) * g1) in
  let g3 := (((- 5) * rm2) * g2) in
  let D3 := (mk3 (((3 * g2) * r1) + (g3 * r1pow3)) ((g2 * r2) + ((g3 * r1pow2) * r2)) ((g2 * r3) + ((g3 * r1pow2) * r3)) ((g2 * r1) + ((g3 * r1) * r2pow2)) (((g3 * r1) * r2) * r3) ((g2 * r1) + ((g3 * r1) * r3pow2)) (((3 * g2) * r2) + (g3 * r2pow3)) ((g2 * r3) + ((g3 * r2pow2) * r3)) ((g2 * r2) + ((g3 * r2) * r3pow2)) (((3 * g2) * r3) + (g3 * r3pow3))) in
  let D2 := (mk2 (g1 + (g2 * r1pow2)) ((g2 * r1) * r2) ((g2 * r1) * r3) (g1 + (g2 * r2pow2)) ((g2 * r2) * r3) (g1 + (g2 * r3pow2))) in
  let D1 := (mk1 (g1 * r1) (g1 * r2) (g1 * r3)) in
  let D0 := g0 in
  (mkc03 D0 D1 D2 D3).

(** src/shamphys/include/shamphys/fmm/GreenFuncGravCartesian.hpp:301-343 *)
Definition green02 (r : vec3) : col02 :=
  let r1 := (vx r) in
  let r2 := (vy r) in
  let r3 := (vz r) in
  let r1pow2 := ((vx r) * (vx r)) in
  let r2pow2 := ((vy r) * (vy r)) in
  let r3pow2 := ((vz r) * (vz r)) in
  let r1pow3 := ((vx r) * r1pow2) in
  let r2pow3 := ((vy r) * r2pow2) in
  let r3pow3 := ((vz r) * r3pow2) in
  let rsq := ((r1pow2 + r2pow2) + r3pow2) in
  let rnorm := (sqrt rsq) in
  let rm2 := (1 / rsq) in
  let g0 := (1 / rnorm) in
  let g1 := (((- 1) * rm2) * g0) in
  let g2 := (((- 3) * rm2) * g1) in
  let D2 := (mk2 (g1 + (g2 * r1pow2)) ((g2 * r1) * r2) ((g2 * r1) * r3) (g1 + (g2 * r2pow2)) ((g2 * r2) * r3) (g1 + (g2 * r3pow2))) in
  let D1 := (mk1 (g1 * r1) (g1 * r2) (g1 * r3)) in
  let D0 := g0 in
  (mkc02 D0 D1 D2).

(** src/shamphys/include/shamphys/fmm/GreenFuncGravCartesian.hpp:347-378 *)
Definition green01 (r : vec3) : col01 :=
  let r1 := (vx r) in
  let r2 := (vy r) in
  let r3 := (vz r) in
  let r1pow2 := ((vx r) * (vx r)) in
  let r2pow2 := ((vy r) * (vy r)) in
  let r3pow2 := ((vz r) * (vz r)) in
  let r1pow3 := ((vx r) * r1pow2) in
  let r2pow3 := ((vy r) * r2pow2) in
  let r3pow3 := ((vz r) * r3pow2) in
  let rsq := ((r1pow2 + r2pow2) + r3pow2) in
  let rnorm := (sqrt rsq) in
  let rm2 := (1 / rsq) in
  let g0 := (1 / rnorm) in
  let g1 := (((- 1) * rm2) * g0) in
  let D1 := (mk1 (g1 * r1) (g1 * r2) (g1 * r3)) in
  let D0 := g0 in
  (mkc01 D0 D1).

(** src/shamphys/include/shamphys/fmm/GreenFuncGravCartesian.hpp:382-411 *)
Definition green00 (r : vec3) : col00 :=
  let r1 := (vx r) in
  let r2 := (vy r) in
  let r3 := (vz r) in
  let r1pow2 := ((vx r) * (vx r)) in
  let r2pow2 := ((vy r) * (vy r)) in
  let r3pow2 := ((vz r) * (vz r)) in
  let r1pow3 := ((vx r) * r1pow2) in
  let r2pow3 := ((vy r) * r2pow2) in
  let r3pow3 := ((vz r) * r3pow2) in
  let rsq := ((r1pow2 + r2pow2) + r3pow2) in
  let rnorm := (sqrt rsq) in
  let rm2 := (1 / rsq) in
  let g0 := (1 / rnorm) in
  let g1 := (((- 1) * rm2) * g0) in
  let D0 := g0 in
  (mkc00 D0).

(** src/shamphys/include/shamphys/fmm/GreenFuncGravCartesian.hpp:415-516 *)
Definition green15 (r : vec3) : col15 :=
  let r1 := (vx r) in
  let r2 := (vy r) in
  let r3 := (vz r) in
  let r1pow2 := ((vx r) * (vx r)) in
  let r2pow2 := ((vy r) * (vy r)) in
  let r3pow2 := ((vz r) * (vz r)) in
  let r1pow3 := ((vx r) * r1pow2) in
  let r2pow3 := ((vy r) * r2pow2) in
  let r3pow3 := ((vz r) * r3pow2) in
  let r1pow4 := ((vx r) * r1pow3) in
  let r2pow4 := ((vy r) * r2pow3) in
  let r3pow4 := ((vz r) * r3pow3) in
  let r1pow5 := ((vx r) * r1pow4) in
  let r2pow5 := ((vy r) * r2pow4) in
  let r3pow5 := ((vz r) * r3pow4) in
  let rsq := ((r1pow2 + r2pow2) + r3pow2) in
  let rnorm := (sqrt rsq) in
  let rm2 := (1 / rsq) in
  let g0 := (1 / rnorm) in
  let g1 := (((- 1) * rm2) * g0) in
  let g2 := (((- 3) * rm2) * g1) in
  let g3 := (((- 5) * rm2) * g2) in
  let g4 := (((- 7) * rm2) * g3) in
  let g5 := (((- 9) * rm2) * g4) in
  let D5 := (mk5 ((((15 * g3) * r1) + ((10 * g4) * r1pow3)) + (g5 * r1pow5)) ((((3 * g3) + ((6 * g4) * r1pow2)) + (g5 * r1pow4)) * r2) ((((3 * g3) + ((6 * g4) * r1pow2)) + (g5 * r1pow4)) * r3) (((((3 * g3) * r1) + (g4 * r1pow3)) + (((3 * g4) * r1) * r2pow2)) + ((g5 * r1pow3) * r2pow2)) (((((3 * g4) * r1) + (g5 * r1pow3)) * r2) * r3) (((((3 * g3) * r1) + (g4 * r1pow3)) + (((3 * g4) * r1) * r3pow2)) + ((g5 * r1pow3) * r3pow2)) (((((3 * g3) * r2) + (((3 * g4) * r1pow2) * r2)) + (g4 * r2pow3)) + ((g5 * r1pow2) * r2pow3)) ((((g3 + (g4 * r1pow2)) + (g4 * r2pow2)) + ((g5 * r1pow2) * r2pow2)) * r3) (r2 * (((g3 + (g4 * r1pow2)) + (g4 * r3pow2)) + ((g5 * r1pow2) * r3pow2))) (((((3 * g3) * r3) + (((3 * g4) * r1pow2) * r3)) + (g4 * r3pow3)) + ((g5 * r1pow2) * r3pow3)) (r1 * (((3 * g3) + ((6 * g4) * r2pow2)) + (g5 * r2pow4))) ((r1 * (((3 * g4) * r2) + (g5 * r2pow3))) * r3) (r1 * (((g3 + (g4 * r2pow2)) + (g4 * r3pow2)) + ((g5 * r2pow2) * r3pow2))) ((r1 * r2) * (((3 * g4) * r3) + (g5 * r3pow3))) (r1 * (((3 * g3) + ((6 * g4) * r3pow2)) + (g5 * r3pow4))) ((((15 * g3) * r2) + ((10 * g4) * r2pow3)) + (g5 * r2pow5)) ((((3 * g3) + ((6 * g4) * r2pow2)) + (g5 * r2pow4)) * r3) (((((3 * g3) * r2) + (g4 * r2pow3)) + (((3 * g4) * r2) * r3pow2)) + ((g5 * r2pow3) * r3pow2)) (((((3 * g3) * r3) + (((3 * g4) * r2pow2) * r3)) + (g4 * r3pow3)) + ((g5 * r2pow2) * r3pow3)) (r2 * (((3 * g3) + ((6 * g4) * r3pow2)) + (g5 * r3pow4))) ((((15 * g3) * r3) + ((10 * g4) * r3pow3)) + (g5 * r3pow5))) in
  let D4 := (mk4 (((3 * g2) + ((6 * g3) * r1pow2)) + (g4 * r1pow4)) ((((3 * g3) * r1) * r2) + ((g4 * r1pow3) * r2)) ((((3 * g3) * r1) * r3) + ((g4 * r1pow3) * r3)) (((g2 + (g3 * r1pow2)) + (g3 * r2pow2)) + ((g4 * r1pow2) * r2pow2)) (((g3 + (g4 * r1pow2)) * r2) * r3) (((g2 + (g3 * r1pow2)) + (g3 * r3pow2)) + ((g4 * r1pow2) * r3pow2)) ((((3 * g3) * r1) * r2) + ((g4 * r1) * r2pow3)) ((r1 * (g3 + (g4 * r2pow2))) * r3) ((r1 * r2) * (g3 + (g4 * r3pow2))) ((((3 * g3) * r1) * r3) + ((g4 * r1) * r3pow3)) (((3 * g2) + ((6 * g3) * r2pow2)) + (g4 * r2pow4)) ((((3 * g3) * r2) * r3) + ((g4 * r2pow3) * r3)) (((g2 + (g3 * r2pow2)) + (g3 * r3pow2)) + ((g4 * r2pow2) * r3pow2)) ((((3 * g3) * r2) * r3) + ((g4 * r2) * r3pow3)) (((3 * g2) + ((6 * g3) * r3pow2)) + (g4 * r3pow4))) in
  let D3 := (mk3 (((3 * g2) * r1) + (g3 * r1pow3)) ((g2 * r2) + ((g3 * r1pow2) * r2)) ((g2 * r3) + ((g3 * r1pow2) * r3)) ((g2 * r1) + ((g3 * r1) * r2pow2)) (((g3 * r1) * r2) * r3) ((g2 * r1) + ((g3 * r1) * r3pow2)) (((3 * g2) * r2) + (g3 * r2pow3)) ((g2 * r3) + ((g3 * r2pow2) * r3)) ((g2 * r2) + ((g3 * r2) * r3pow2)) (((3 * g2) * r3) + (g3 * r3pow3))) in
  let D2 := (mk2 (g1 + (g2 * r1pow2)) ((g2 * r1) * r2) ((g2 * r1) * r3) (g1 + (g2 * r2pow2)) ((g2 * r2) * r3) (g1 + (g2 * r3pow2))) in
  let D1 := (mk1 (g1 * r1) (g1 * r2) (g1 * r3)) in
  (mkc15 D1 D2 D3 D4 D5).

(** src/shamphys/include/shamphys/fmm/GreenFuncGravCartesian.hpp:520-595 *)
Definition green14 (r : vec3) : col14 :=
  let r1 := (vx r) in
  let r2 := (vy r) in
  let r3 := (vz r) in
  let r1pow2 := ((vx r) * (vx r)) in
  let r2pow2 := ((vy r) * (vy r)) in
  let r3pow2 := ((vz r) * (vz r)) in
  let r1pow3 := ((vx r) * r1pow2) in
  let r2pow3 := ((vy r) * r2pow2) in
  let r3pow3 := ((vz r) * r3pow2) in
  let r1pow4 := ((vx r) * r1pow3) in
  let r2pow4 := ((vy r) * r2pow3) in
  let r3pow4 := ((vz r) * r3pow3) in
  let rsq := ((r1pow2 + r2pow2) + r3pow2) in
  let rnorm := (sqrt rsq) in
  let rm2 := (1 / rsq) in
  let g0 := (1 / rnorm) in
  let g1 := (((- 1) * rm2) * g0) in
  let g2 := (((- 3) * rm2) * g1) in
  let g3 := (((- 5) * rm2) * g2) in
  let g4 := (((- 7) * rm2) * g3) in
  let D4 := (mk4 (((3 * g2) + ((6 * g3) * r1pow2)) + (g4 * r1pow4)) ((((3 * g3) * r1) * r2) + ((g4 * r1pow3) * r2)) ((((3 * g3) * r1) * r3) + ((g4 * r1pow3) * r3)) (((g2 + (g3 * r1pow2)) + (g3 * r2pow2)) + ((g4 * r1pow2) * r2pow2)) (((g3 + (g4 * r1pow2)) * r2) * r3) (((g2 + (g3 * r1pow2)) + (g3 * r3pow2)) + ((g4 * r1pow2) * r3pow2)) ((((3 * g3) * r1) * r2) + ((g4 * r1) * r2pow3)) ((r1 * (g3 + (g4 * r2pow2))) * r3) ((r1 * r2) * (g3 + (g4 * r3pow2))) ((((3 * g3) * r1) * r3) + ((g4 * r1) * r3pow3)) (((3 * g2) + ((6 * g3) * r2pow2)) + (g4 * r2pow4)) ((((3 * g3) * r2) * r3) + ((g4 * r2pow3) * r3)) (((g2 + (g3 * r2pow2)) + (g3 * r3pow2)) + ((g4 * r2pow2) * r3pow2)) ((((3 * g3) * r2) * r3) + ((g4 * r2) * r3pow3)) (((3 * g2) + ((6 * g3) * r3pow2)) + (g4 * r3pow4))) in
  let D3 := (mk3 (((3 * g2) * r1) + (g3 * r1pow3)) ((g2 * r2) + ((g3 * r1pow2) * r2)) ((g2 * r3) + ((g3 * r1pow2) * r3)) ((g2 * r1) + ((g3 * r1) * r2pow2)) (((g3 * r1) * r2) * r3) ((g2 * r1) + ((g3 * r1) * r3pow2)) (((3 * g2) * r2) + (g3 * r2pow3)) ((g2 * r3) + ((g3 * r2pow2) * r3)) ((g2 * r2) + ((g3 * r2) * r3pow2)) (((3 * g2) * r3) + (g3 * r3pow3))) in
  let D2 := (mk2 (g1 + (g2 * r1pow2)) ((g2 * r1) * r2) ((g2 * r1) * r3) (g1 + (g2 * r2pow2)) ((g2 * r2) * r3) (g1 + (g2 * r3pow2))) in
  let D1 := (mk1 (g1 * r1) (g1 * r2) (g1 * r3)) in
  (mkc14 D1 D2 D3 D4).

(** src/shamphys/include/shamphys/fmm/GreenFuncGravCartesian.hpp:599-652 *)
Definition green13 (r : vec3) : col13 :=
  let r1 := (vx r) in
  let r2 := (vy r) in
  let r3 := (vz r) in
  let r1pow2 := ((vx r) * (vx r)) in
  let r2pow2 := ((vy r) * (vy r)) in
  let r3pow2 := ((vz r) * (vz r)) in
  let r1pow3 := ((vx r) * r1pow2) in
  let r2pow3 := ((vy r) * r2pow2) in
  let r3pow3 := ((vz r) * r3pow2) in
  let rsq := ((r1pow2 + r2pow2) + r3pow2) in
  let rnorm := (sqrt rsq) in
  let rm2 := (1 / rsq) in
  let g0 := (1 / rnorm) in
  let g1 := (((- 1) * rm2) * g0) in
  let g2 := (((- 3) * rm2) * g1) in
  let g3 := (((- 5) * rm2) * g2) in
  let D3 := (mk3 (((3 * g2) * r1) + (g3 * r1pow3)) ((g2 * r2) + ((g3 * r1pow2) * r2)) ((g2 * r3) + ((g3 * r1pow2) * r3)) ((g2 * r1) + ((g3 * r1) * r2pow2)) (((g3 * r1) * r2) * r3) ((g2 * r1) + ((g3 * r1) * r3pow2)) (((3 * g2) * r2) + (g3 * r2pow3)) ((g2 * r3) + ((g3 * r2pow2) * r3)) ((g2 * r2) + ((g3 * r2) * r3pow2)) (((3 * g2) * r3) + (g3 * r3pow3))) in
  let D2 := (mk2 (g1 + (g2 * r1pow2)) ((g2 * r1) * r2) ((g2 * r1) * r3) (g1 + (g2 * r2pow2)) ((g2 * r2) * r3) (g1 + (g2 * r3pow2))) in
  let D1 := (mk1 (g1 * r1) (g1 * r2) (g1 * r3)) in
  (mkc13 D1 D2 D3).

(** src/shamphys/include/shamphys/fmm/GreenFuncGravCartesian.hpp:656-696 *)
Definition green12 (r : vec3) : col12 :=
  let r1 := (vx r) in
  let r2 := (vy r) in
  let r3 := (vz r) in
  let r1pow2 := ((vx r) * (vx r)) in
  let r2pow2 := ((vy r) * (vy r)) in
  let r3pow2 := ((vz r) * (vz r)) in
  let r1pow3 := ((vx r) * r1pow2) in
  let r2pow3 := ((vy r) * r2pow2) in
  let r3pow3 := ((vz r) * r3pow2) in
  let rsq := ((r1pow2 + r2pow2) + r3pow2) in
  let rnorm := (sqrt rsq) in
  let rm2 := (1 / rsq) in
  let g0 := (1 / rnorm) in
  let g1 := (((- 1) * rm2) * g0) in
  let g2 := (((- 3) * rm2) * g1) in
  let D2 := (mk2 (g1 + (g2 * r1pow2)) ((g2 * r1) * r2) ((g2 * r1) * r3) (g1 + (g2 * r2pow2)) ((g2 * r2) * r3) (g1 + (g2 * r3pow2))) in
  let D1 := (mk1 (g1 * r1) (g1 * r2) (g1 * r3)) in
  (mkc12 D1 D2).

(** src/shamphys/include/shamphys/fmm/GreenFuncGravCartesian.hpp:700-729 *)
Definition green11 (r : vec3) : col11 :=
  let r1 := (vx r) in
  let r2 := (vy r) in
  let r3 := (vz r) in
  let r1pow2 := ((vx r) * (vx r)) in
  let r2pow2 := ((vy r) * (vy r)) in
  let r3pow2 := ((vz r) * (vz r)) in
  let r1pow3 := ((vx r) * r1pow2) in
  let r2pow3 := ((vy r) * r2pow2) in
  let r3pow3 := ((vz r) * r3pow2) in
  let rsq := ((r1pow2 + r2pow2) + r3pow2) in
  let rnorm := (sqrt rsq) in
  let rm2 := (1 / rsq) in
  let g0 := (1 / rnorm) in
  let g1 := (((- 1) * rm2) * g0) in
  let D1 := (mk1 (g1 * r1) (g1 * r2) (g1 * r3)) in
  (mkc11 D1).
