(** Model of the polynomial SPH kernels (src/shammath/include/shammath/sphkernels.hpp) and of SPHKernelGen.
    The definitions of the kernels are a statement by statement translation of the C++ text made by tools/kernels2coq.py:
    an assignment is a [let], [pi<Tscal>] is [PI], a decimal literal is the rational number it denotes.
    Simplifications.  Scalars are real numbers (no rounding).  The truncated Gaussians (TGauss3, TGauss5) are at the end,
    without their potentials (erf). *)
Require Import Reals PArith List.
Import ListNotations.
Local Open Scope R_scope.

(** shambackends/math.hpp:724-739 (positive powers) *)
Fixpoint pow_constexpr (n : positive) (a : R) : R :=
  match n with
  | xH => a
  | xO m => let tmp := pow_constexpr m a in tmp * tmp
  | xI m => let tmp := pow_constexpr m a in tmp * tmp * a
  end.

(** ** KernelDefM4 *)
(** sphkernels.hpp:31 *)
Definition M4_Rkern : R := 2.
(** sphkernels.hpp:33 *)
Definition M4_hfactd : R := (6 / 5).
(** sphkernels.hpp:36 *)
Definition M4_norm_1d : R := (2 / 3).
(** sphkernels.hpp:38 *)
Definition M4_norm_2d : R := (10 / (7 * PI)).
(** sphkernels.hpp:40 *)
Definition M4_norm_3d : R := (1 / PI).
(** sphkernels.hpp:42-60 *)
Definition M4_f (q : R) : R :=
  let t1 := (2 - q) in
  let t2 := (1 - q) in
  let t1 := ((t1 * t1) * t1) in
  let t2 := ((t2 * t2) * t2) in
  let div1_4 := (1 / 4) in
  let t1 := (t1 * div1_4) in
  let t2 := (t2 * (- 1)) in
  if Rlt_dec q 1 then
    (t1 + t2)
  else
    if Rlt_dec q 2 then
      t1
    else
      0.
(** sphkernels.hpp:62-73 *)
Definition M4_df (q : R) : R :=
  let div9_4 := (9 / 4) in
  let div3_4 := (3 / 4) in
  if Rlt_dec q 1 then
    (((- 3) * q) + ((div9_4 * q) * q))
  else
    if Rlt_dec q 2 then
      (((- 3) + (3 * q)) - ((div3_4 * q) * q))
    else
      0.
(** sphkernels.hpp:75-82 *)
Definition M4_ddf (q : R) : R :=
  if Rlt_dec q 1 then
    (((9 / 2) * q) - 3)
  else
    if Rlt_dec q 2 then
      (3 - ((3 / 2) * q))
    else
      0.
(** sphkernels.hpp:84-98 *)
Definition M4_phi_tilde_3d (q : R) : R :=
  let t1 := (pow_constexpr 2 q) in
  let t2 := (pow_constexpr 3 q) in
  let t3 := (pow_constexpr 4 q) in
  let t4 := (pow_constexpr 5 q) in
  let t5 := (pow_constexpr 6 q) in
  if Rlt_dec q 1 then
    (((1 / 30) * PI) * ((t1 * (((3 * t2) - (9 * t1)) + 20)) - 42))
  else
    if Rlt_dec q 2 then
      ((((1 / 30) * PI) * ((((((- t5) + (9 * t4)) - (30 * t3)) + (40 * t2)) - (48 * q)) + 2)) / q)
    else
      ((- PI) / q).
(** sphkernels.hpp:100-116 *)
Definition M4_phi_tilde_3d_prime (q : R) : R :=
  let t1 := (pow_constexpr 2 q) in
  let t2 := (pow_constexpr 3 q) in
  let t3 := (pow_constexpr 4 q) in
  let t4 := (pow_constexpr 5 q) in
  let t5 := (pow_constexpr 6 q) in
  if Rlt_dec q 1 then
    (((1 / 30) * PI) * ((t1 * ((9 * t1) - (18 * q))) + ((2 * q) * (((3 * t2) - (9 * t1)) + 20))))
  else
    if Rlt_dec q 2 then
      (((((1 / 30) * PI) * ((((((- 6) * t4) + (45 * t3)) - (120 * t2)) + (120 * t1)) - 48)) / q) - ((((1 / 30) * PI) * ((((((- t5) + (9 * t4)) - (30 * t3)) + (40 * t2)) - (48 * q)) + 2)) / t1))
    else
      (PI / t1).

(** ** KernelDefM5 *)
(** sphkernels.hpp:122 *)
Definition M5_Rkern : R := (5 / 2).
(** sphkernels.hpp:124 *)
Definition M5_hfactd : R := (6 / 5).
(** sphkernels.hpp:127 *)
Definition M5_norm_1d : R := (1 / 24).
(** sphkernels.hpp:129 *)
Definition M5_norm_2d : R := (96 / (1199 * PI)).
(** sphkernels.hpp:131 *)
Definition M5_norm_3d : R := (1 / (20 * PI)).
(** sphkernels.hpp:133-163 *)
Definition M5_f (q : R) : R :=
  let div5_2 := (5 / 2) in
  let div3_2 := (3 / 2) in
  let div1_2 := (1 / 2) in
  let t1 := (div5_2 - q) in
  let t2 := (div3_2 - q) in
  let t3 := (div1_2 - q) in
  let t1_2 := (t1 * t1) in
  let t2_2 := (t2 * t2) in
  let t3_2 := (t3 * t3) in
  let t1 := (t1_2 * t1_2) in
  let t2 := (t2_2 * t2_2) in
  let t3 := (t3_2 * t3_2) in
  let t1 := (t1 * 1) in
  let t2 := (t2 * (- 5)) in
  let t3 := (t3 * 10) in
  if Rlt_dec q div1_2 then
    ((t1 + t2) + t3)
  else
    if Rlt_dec q div3_2 then
      (t1 + t2)
    else
      if Rlt_dec q div5_2 then
        t1
      else
        0.
(** sphkernels.hpp:165-195 *)
Definition M5_df (q : R) : R :=
  let div5_2 := (5 / 2) in
  let div3_2 := (3 / 2) in
  let div1_2 := (1 / 2) in
  let t1 := (div5_2 - q) in
  let t2 := (div3_2 - q) in
  let t3 := (div1_2 - q) in
  let t1_2 := (t1 * t1) in
  let t2_2 := (t2 * t2) in
  let t3_2 := (t3 * t3) in
  let t1 := (t1 * t1_2) in
  let t2 := (t2 * t2_2) in
  let t3 := (t3 * t3_2) in
  let t1 := (t1 * (1 * (- 4))) in
  let t2 := (t2 * ((- 5) * (- 4))) in
  let t3 := (t3 * (10 * (- 4))) in
  if Rlt_dec q div1_2 then
    ((t1 + t2) + t3)
  else
    if Rlt_dec q div3_2 then
      (t1 + t2)
    else
      if Rlt_dec q div5_2 then
        t1
      else
        0.
(** sphkernels.hpp:197-209 *)
Definition M5_ddf (q : R) : R :=
  let t1 := (pow_constexpr 2 ((1 / 2) - q)) in
  let t2 := (pow_constexpr 2 ((3 / 2) - q)) in
  let t3 := (pow_constexpr 2 ((5 / 2) - q)) in
  if Rlt_dec q (1 / 2) then
    (((120 * t1) - (60 * t2)) + (12 * t3))
  else
    if Rlt_dec q (3 / 2) then
      (((- 60) * t2) + (12 * t3))
    else
      if Rlt_dec q (5 / 2) then
        (12 * t3)
      else
        0.
(** sphkernels.hpp:211-232 *)
Definition M5_phi_tilde_3d (q : R) : R :=
  let t1 := (pow_constexpr 2 q) in
  let t2 := (pow_constexpr 3 q) in
  let t3 := (pow_constexpr 4 q) in
  let t4 := (pow_constexpr 5 q) in
  let t5 := (pow_constexpr 6 q) in
  let t6 := (pow_constexpr 7 q) in
  if Rlt_dec q (1 / 2) then
    (((1 / 336) * PI) * ((((192 * t5) - (1008 * t3)) + (3220 * t1)) - 8393))
  else
    if Rlt_dec q (3 / 2) then
      ((((1 / 336) * PI) * ((((((((- 128) * t6) + (896 * t5)) - (2016 * t4)) + (560 * t3)) + (3080 * t2)) - (8386 * q)) - 1)) / q)
    else
      if Rlt_dec q (5 / 2) then
        ((((1 / 672) * PI) * (((((((64 * t6) - (896 * t5)) + (5040 * t4)) - (14000 * t3)) + (17500 * t2)) - (21875 * q)) + 2185)) / q)
      else
        (((- 20) * PI) / q).
(** sphkernels.hpp:234-261 *)
Definition M5_phi_tilde_3d_prime (q : R) : R :=
  let t1 := (pow_constexpr 2 q) in
  let t2 := (pow_constexpr 3 q) in
  let t3 := (pow_constexpr 4 q) in
  let t4 := (pow_constexpr 5 q) in
  let t5 := (pow_constexpr 6 q) in
  let t6 := (pow_constexpr 7 q) in
  if Rlt_dec q (1 / 2) then
    (((1 / 336) * PI) * (((1152 * t4) - (4032 * t2)) + (6440 * q)))
  else
    if Rlt_dec q (3 / 2) then
      (((((1 / 336) * PI) * (((((((- 896) * t5) + (5376 * t4)) - (10080 * t3)) + (2240 * t2)) + (9240 * t1)) - 8386)) / q) - ((((1 / 336) * PI) * ((((((((- 128) * t6) + (896 * t5)) - (2016 * t4)) + (560 * t3)) + (3080 * t2)) - (8386 * q)) - 1)) / t1))
    else
      if Rlt_dec q (5 / 2) then
        (((((1 / 672) * PI) * ((((((448 * t5) - (5376 * t4)) + (25200 * t3)) - (56000 * t2)) + (52500 * t1)) - 21875)) / q) - ((((1 / 672) * PI) * (((((((64 * t6) - (896 * t5)) + (5040 * t4)) - (14000 * t3)) + (17500 * t2)) - (21875 * q)) + 2185)) / t1))
      else
        ((20 * PI) / t1).

(** ** KernelDefM6 *)
(** sphkernels.hpp:267 *)
Definition M6_Rkern : R := 3.
(** sphkernels.hpp:269 *)
Definition M6_hfactd : R := 1.
(** sphkernels.hpp:272 *)
Definition M6_norm_1d : R := (1 / 120).
(** sphkernels.hpp:274 *)
Definition M6_norm_2d : R := (7 / (478 * PI)).
(** sphkernels.hpp:276 *)
Definition M6_norm_3d : R := (1 / (120 * PI)).
(** sphkernels.hpp:278-304 *)
Definition M6_f (q : R) : R :=
  let t1 := (3 - q) in
  let t2 := (2 - q) in
  let t3 := (1 - q) in
  let t1_2 := (t1 * t1) in
  let t2_2 := (t2 * t2) in
  let t3_2 := (t3 * t3) in
  let t1 := ((t1 * t1_2) * t1_2) in
  let t2 := ((t2 * t2_2) * t2_2) in
  let t3 := ((t3 * t3_2) * t3_2) in
  let t1 := (t1 * 1) in
  let t2 := (t2 * (- 6)) in
  let t3 := (t3 * 15) in
  if Rlt_dec q 1 then
    ((t1 + t2) + t3)
  else
    if Rlt_dec q 2 then
      (t1 + t2)
    else
      if Rlt_dec q 3 then
        t1
      else
        0.
(** sphkernels.hpp:306-332 *)
Definition M6_df (q : R) : R :=
  let t1 := (3 - q) in
  let t2 := (2 - q) in
  let t3 := (1 - q) in
  let t1_2 := (t1 * t1) in
  let t2_2 := (t2 * t2) in
  let t3_2 := (t3 * t3) in
  let t1 := (t1_2 * t1_2) in
  let t2 := (t2_2 * t2_2) in
  let t3 := (t3_2 * t3_2) in
  let t1 := (t1 * (1 * (- 5))) in
  let t2 := (t2 * ((- 6) * (- 5))) in
  let t3 := (t3 * (15 * (- 5))) in
  if Rlt_dec q 1 then
    ((t1 + t2) + t3)
  else
    if Rlt_dec q 2 then
      (t1 + t2)
    else
      if Rlt_dec q 3 then
        t1
      else
        0.
(** sphkernels.hpp:334-346 *)
Definition M6_ddf (q : R) : R :=
  let t1 := (pow_constexpr 3 (1 - q)) in
  let t2 := (pow_constexpr 3 (2 - q)) in
  let t3 := (pow_constexpr 3 (3 - q)) in
  if Rlt_dec q 1 then
    (((300 * t1) - (120 * t2)) + (20 * t3))
  else
    if Rlt_dec q 2 then
      (((- 120) * t2) + (20 * t3))
    else
      if Rlt_dec q 3 then
        (20 * t3)
      else
        0.
(** sphkernels.hpp:348-371 *)
Definition M6_phi_tilde_3d (q : R) : R :=
  let t1 := (pow_constexpr 2 q) in
  let t2 := (pow_constexpr 3 q) in
  let t3 := (pow_constexpr 4 q) in
  let t4 := (pow_constexpr 5 q) in
  let t5 := (pow_constexpr 6 q) in
  let t6 := (pow_constexpr 7 q) in
  let t7 := (pow_constexpr 8 q) in
  if Rlt_dec q 1 then
    (((1 / 7) * PI) * ((((((- 5) * t6) + (20 * t5)) - (84 * t3)) + (308 * t1)) - 956))
  else
    if Rlt_dec q 2 then
      ((((1 / 14) * PI) * ((((((((5 * t7) - (60 * t6)) + (280 * t5)) - (588 * t4)) + (350 * t3)) + (476 * t2)) - (1892 * q)) - 5)) / q)
    else
      if Rlt_dec q 3 then
        ((((1 / 14) * PI) * ((((((((- t7) + (20 * t6)) - (168 * t5)) + (756 * t4)) - (1890 * t3)) + (2268 * t2)) - (2916 * q)) + 507)) / q)
      else
        (((- 120) * PI) / q).
(** sphkernels.hpp:373-404 *)
Definition M6_phi_tilde_3d_prime (q : R) : R :=
  let t1 := (pow_constexpr 2 q) in
  let t2 := (pow_constexpr 3 q) in
  let t3 := (pow_constexpr 4 q) in
  let t4 := (pow_constexpr 5 q) in
  let t5 := (pow_constexpr 6 q) in
  let t6 := (pow_constexpr 7 q) in
  let t7 := (pow_constexpr 8 q) in
  if Rlt_dec q 1 then
    (((1 / 7) * PI) * (((((- 35) * t5) + (120 * t4)) - (336 * t2)) + (616 * q)))
  else
    if Rlt_dec q 2 then
      (((((1 / 14) * PI) * (((((((40 * t6) - (420 * t5)) + (1680 * t4)) - (2940 * t3)) + (1400 * t2)) + (1428 * t1)) - 1892)) / q) - ((((1 / 14) * PI) * ((((((((5 * t7) - (60 * t6)) + (280 * t5)) - (588 * t4)) + (350 * t3)) + (476 * t2)) - (1892 * q)) - 5)) / t1))
    else
      if Rlt_dec q 3 then
        (((((1 / 14) * PI) * ((((((((- 8) * t6) + (140 * t5)) - (1008 * t4)) + (3780 * t3)) - (7560 * t2)) + (6804 * t1)) - 2916)) / q) - ((((1 / 14) * PI) * ((((((((- t7) + (20 * t6)) - (168 * t5)) + (756 * t4)) - (1890 * t3)) + (2268 * t2)) - (2916 * q)) + 507)) / t1))
      else
        ((120 * PI) / t1).

(** ** KernelDefM7 *)
(** sphkernels.hpp:410 *)
Definition M7_Rkern : R := (7 / 2).
(** sphkernels.hpp:412 *)
Definition M7_hfactd : R := 1.
(** sphkernels.hpp:415 *)
Definition M7_norm_1d : R := (1 / 720).
(** sphkernels.hpp:417 *)
Definition M7_norm_2d : R := (256 / (113149 * PI)).
(** sphkernels.hpp:419 *)
Definition M7_norm_3d : R := (6 / (5040 * PI)).
(** sphkernels.hpp:421-454 *)
Definition M7_f (q : R) : R :=
  let div7_2 := (7 / 2) in
  let div5_2 := (5 / 2) in
  let div3_2 := (3 / 2) in
  let div1_2 := (1 / 2) in
  let t1 := (div7_2 - q) in
  let t2 := (div5_2 - q) in
  let t3 := (div3_2 - q) in
  let t4 := (div1_2 - q) in
  let t1 := (pow_constexpr 6 t1) in
  let t2 := (pow_constexpr 6 t2) in
  let t3 := (pow_constexpr 6 t3) in
  let t4 := (pow_constexpr 6 t4) in
  let t1 := (t1 * 1) in
  let t2 := (t2 * (- 7)) in
  let t3 := (t3 * 21) in
  let t4 := (t4 * (- 35)) in
  if Rlt_dec q div1_2 then
    (((t1 + t2) + t3) + t4)
  else
    if Rlt_dec q div3_2 then
      ((t1 + t2) + t3)
    else
      if Rlt_dec q div5_2 then
        (t1 + t2)
      else
        if Rlt_dec q div7_2 then
          t1
        else
          0.
(** sphkernels.hpp:456-489 *)
Definition M7_df (q : R) : R :=
  let div7_2 := (7 / 2) in
  let div5_2 := (5 / 2) in
  let div3_2 := (3 / 2) in
  let div1_2 := (1 / 2) in
  let t1 := (div7_2 - q) in
  let t2 := (div5_2 - q) in
  let t3 := (div3_2 - q) in
  let t4 := (div1_2 - q) in
  let t1 := (pow_constexpr 5 t1) in
  let t2 := (pow_constexpr 5 t2) in
  let t3 := (pow_constexpr 5 t3) in
  let t4 := (pow_constexpr 5 t4) in
  let t1 := (t1 * ((- 6) * 1)) in
  let t2 := (t2 * ((- 6) * (- 7))) in
  let t3 := (t3 * ((- 6) * 21)) in
  let t4 := (t4 * ((- 6) * (- 35))) in
  if Rlt_dec q div1_2 then
    (((t1 + t2) + t3) + t4)
  else
    if Rlt_dec q div3_2 then
      ((t1 + t2) + t3)
    else
      if Rlt_dec q div5_2 then
        (t1 + t2)
      else
        if Rlt_dec q div7_2 then
          t1
        else
          0.
(** sphkernels.hpp:491-506 *)
Definition M7_ddf (q : R) : R :=
  let t1 := (pow_constexpr 4 ((1 / 2) - q)) in
  let t2 := (pow_constexpr 4 ((3 / 2) - q)) in
  let t3 := (pow_constexpr 4 ((5 / 2) - q)) in
  let t4 := (pow_constexpr 4 ((7 / 2) - q)) in
  if Rlt_dec q (1 / 2) then
    (((((- 1050) * t1) + (630 * t2)) - (210 * t3)) + (30 * t4))
  else
    if Rlt_dec q (3 / 2) then
      (((630 * t2) - (210 * t3)) + (30 * t4))
    else
      if Rlt_dec q (5 / 2) then
        (((- 210) * t3) + (30 * t4))
      else
        if Rlt_dec q (7 / 2) then
          (30 * t4)
        else
          0.
(** sphkernels.hpp:508-537 *)
Definition M7_phi_tilde_3d (q : R) : R :=
  let t1 := (pow_constexpr 2 q) in
  let t2 := (pow_constexpr 3 q) in
  let t3 := (pow_constexpr 4 q) in
  let t4 := (pow_constexpr 5 q) in
  let t5 := (pow_constexpr 6 q) in
  let t6 := (pow_constexpr 7 q) in
  let t7 := (pow_constexpr 8 q) in
  let t8 := (pow_constexpr 9 q) in
  if Rlt_dec q (1 / 2) then
    (((1 / 1152) * PI) * ((((((- 1280) * t7) + (11520 * t5)) - (66528 * t3)) + (282576 * t1)) - 1018341))
  else
    if Rlt_dec q (3 / 2) then
      ((((1 / 4608) * PI) * (((((((((3840 * t8) - (34560 * t7)) + (103680 * t6)) - (53760 * t5)) - (235872 * t4)) - (10080 * t3)) + (1131984 * t2)) - (4073409 * q)) + 5)) / q)
    else
      if Rlt_dec q (5 / 2) then
        ((((1 / 2304) * PI) * ((((((((((- 768) * t8) + (13824 * t7)) - (103680 * t6)) + (408576 * t5)) - (852768 * t4)) + (729792 * t3)) + (198576 * t2)) - (1948131 * q)) - 29522)) / q)
      else
        if Rlt_dec q (7 / 2) then
          ((((1 / 4608) * PI) * (((((((((256 * t8) - (6912 * t7)) + (80640 * t6)) - (526848 * t5)) + (2074464 * t4)) - (4840416 * t3)) + (5647152 * t2)) - (7411887 * q)) + 1894081)) / q)
        else
          (((- 840) * PI) / q).
(** sphkernels.hpp:539-580 *)
Definition M7_phi_tilde_3d_prime (q : R) : R :=
  let t1 := (pow_constexpr 2 q) in
  let t2 := (pow_constexpr 3 q) in
  let t3 := (pow_constexpr 4 q) in
  let t4 := (pow_constexpr 5 q) in
  let t5 := (pow_constexpr 6 q) in
  let t6 := (pow_constexpr 7 q) in
  let t7 := (pow_constexpr 8 q) in
  let t8 := (pow_constexpr 9 q) in
  if Rlt_dec q (1 / 2) then
    (((1 / 1152) * PI) * (((((- 10240) * t6) + (69120 * t4)) - (266112 * t2)) + (565152 * q)))
  else
    if Rlt_dec q (3 / 2) then
      (((((1 / 4608) * PI) * ((((((((34560 * t7) - (276480 * t6)) + (725760 * t5)) - (322560 * t4)) - (1179360 * t3)) - (40320 * t2)) + (3395952 * t1)) - 4073409)) / q) - ((((1 / 4608) * PI) * (((((((((3840 * t8) - (34560 * t7)) + (103680 * t6)) - (53760 * t5)) - (235872 * t4)) - (10080 * t3)) + (1131984 * t2)) - (4073409 * q)) + 5)) / t1))
    else
      if Rlt_dec q (5 / 2) then
        (((((1 / 2304) * PI) * (((((((((- 6912) * t7) + (110592 * t6)) - (725760 * t5)) + (2451456 * t4)) - (4263840 * t3)) + (2919168 * t2)) + (595728 * t1)) - 1948131)) / q) - ((((1 / 2304) * PI) * ((((((((((- 768) * t8) + (13824 * t7)) - (103680 * t6)) + (408576 * t5)) - (852768 * t4)) + (729792 * t3)) + (198576 * t2)) - (1948131 * q)) - 29522)) / t1))
      else
        if Rlt_dec q (7 / 2) then
          (((((1 / 4608) * PI) * ((((((((2304 * t7) - (55296 * t6)) + (564480 * t5)) - (3161088 * t4)) + (10372320 * t3)) - (19361664 * t2)) + (16941456 * t1)) - 7411887)) / q) - ((((1 / 4608) * PI) * (((((((((256 * t8) - (6912 * t7)) + (80640 * t6)) - (526848 * t5)) + (2074464 * t4)) - (4840416 * t3)) + (5647152 * t2)) - (7411887 * q)) + 1894081)) / t1))
        else
          ((840 * PI) / t1).

(** ** KernelDefM8 *)
(** sphkernels.hpp:586 *)
Definition M8_Rkern : R := 4.
(** sphkernels.hpp:588 *)
Definition M8_hfactd : R := 1.
(** sphkernels.hpp:591 *)
Definition M8_norm_1d : R := (1 / 5040).
(** sphkernels.hpp:593 *)
Definition M8_norm_2d : R := ((9 / 29740) / PI).
(** sphkernels.hpp:595 *)
Definition M8_norm_3d : R := ((1 / 6720) / PI).
(** sphkernels.hpp:597-624 *)
Definition M8_f (q : R) : R :=
  let t1 := (4 - q) in
  let t2 := (3 - q) in
  let t3 := (2 - q) in
  let t4 := (1 - q) in
  let t1 := (pow_constexpr 7 t1) in
  let t2 := (pow_constexpr 7 t2) in
  let t3 := (pow_constexpr 7 t3) in
  let t4 := (pow_constexpr 7 t4) in
  let t1 := (t1 * 1) in
  let t2 := (t2 * (- 8)) in
  let t3 := (t3 * 28) in
  let t4 := (t4 * (- 56)) in
  if Rlt_dec q 1 then
    (((t1 + t2) + t3) + t4)
  else
    if Rlt_dec q 2 then
      ((t1 + t2) + t3)
    else
      if Rlt_dec q 3 then
        (t1 + t2)
      else
        if Rlt_dec q 4 then
          t1
        else
          0.
(** sphkernels.hpp:626-653 *)
Definition M8_df (q : R) : R :=
  let t1 := (4 - q) in
  let t2 := (3 - q) in
  let t3 := (2 - q) in
  let t4 := (1 - q) in
  let t1 := (pow_constexpr 6 t1) in
  let t2 := (pow_constexpr 6 t2) in
  let t3 := (pow_constexpr 6 t3) in
  let t4 := (pow_constexpr 6 t4) in
  let t1 := (t1 * ((- 7) * 1)) in
  let t2 := (t2 * ((- 7) * (- 8))) in
  let t3 := (t3 * ((- 7) * 28)) in
  let t4 := (t4 * ((- 7) * (- 56))) in
  if Rlt_dec q 1 then
    (((t1 + t2) + t3) + t4)
  else
    if Rlt_dec q 2 then
      ((t1 + t2) + t3)
    else
      if Rlt_dec q 3 then
        (t1 + t2)
      else
        if Rlt_dec q 4 then
          t1
        else
          0.
(** sphkernels.hpp:655-670 *)
Definition M8_ddf (q : R) : R :=
  let t1 := (pow_constexpr 5 (1 - q)) in
  let t2 := (pow_constexpr 5 (2 - q)) in
  let t3 := (pow_constexpr 5 (3 - q)) in
  let t4 := (pow_constexpr 5 (4 - q)) in
  if Rlt_dec q 1 then
    (((((- 2352) * t1) + (1176 * t2)) - (336 * t3)) + (42 * t4))
  else
    if Rlt_dec q 2 then
      (((1176 * t2) - (336 * t3)) + (42 * t4))
    else
      if Rlt_dec q 3 then
        (((- 336) * t3) + (42 * t4))
      else
        if Rlt_dec q 4 then
          (42 * t4)
        else
          0.
(** sphkernels.hpp:672-702 *)
Definition M8_phi_tilde_3d (q : R) : R :=
  let t1 := (pow_constexpr 10 q) in
  let t2 := (pow_constexpr 2 q) in
  let t3 := (pow_constexpr 3 q) in
  let t4 := (pow_constexpr 4 q) in
  let t5 := (pow_constexpr 5 q) in
  let t6 := (pow_constexpr 6 q) in
  let t7 := (pow_constexpr 7 q) in
  let t8 := (pow_constexpr 8 q) in
  let t9 := (pow_constexpr 9 q) in
  if Rlt_dec q 1 then
    (((2 / 9) * PI) * ((t2 * (((((7 * t7) - (35 * t6)) + (240 * t4)) - (1512 * t2)) + 7248)) - 29740))
  else
    if Rlt_dec q 2 then
      ((((2 / 45) * PI) * (((((((((((- 21) * t1) + (315 * t9)) - (1890 * t8)) + (5400 * t7)) - (5880 * t6)) - (2268 * t5)) - (2940 * t4)) + (37080 * t3)) - (148770 * q)) + 14)) / q)
    else
      if Rlt_dec q 3 then
        ((((2 / 45) * PI) * ((((((((((7 * t1) - (175 * t9)) + (1890 * t8)) - (11400 * t7)) + (41160 * t6)) - (86940 * t5)) + (91140 * t4)) - (16680 * t3)) - (130850 * q)) - 7154)) / q)
      else
        if Rlt_dec q 4 then
          ((((2 / 45) * PI) * ((((((((((- t1) + (35 * t9)) - (540 * t8)) + (4800 * t7)) - (26880 * t6)) + (96768 * t5)) - (215040 * t4)) + (245760 * t3)) - (327680 * q)) + 110944)) / q)
        else
          (((- 6720) * PI) / q).
(** sphkernels.hpp:704-747 *)
Definition M8_phi_tilde_3d_prime (q : R) : R :=
  let t1 := (pow_constexpr 10 q) in
  let t2 := (pow_constexpr 2 q) in
  let t3 := (pow_constexpr 3 q) in
  let t4 := (pow_constexpr 4 q) in
  let t5 := (pow_constexpr 5 q) in
  let t6 := (pow_constexpr 6 q) in
  let t7 := (pow_constexpr 7 q) in
  let t8 := (pow_constexpr 8 q) in
  let t9 := (pow_constexpr 9 q) in
  if Rlt_dec q 1 then
    (((2 / 9) * PI) * ((t2 * ((((49 * t6) - (210 * t5)) + (960 * t3)) - (3024 * q))) + ((2 * q) * (((((7 * t7) - (35 * t6)) + (240 * t4)) - (1512 * t2)) + 7248))))
  else
    if Rlt_dec q 2 then
      (((((2 / 45) * PI) * ((((((((((- 210) * t9) + (2835 * t8)) - (15120 * t7)) + (37800 * t6)) - (35280 * t5)) - (11340 * t4)) - (11760 * t3)) + (111240 * t2)) - 148770)) / q) - ((((2 / 45) * PI) * (((((((((((- 21) * t1) + (315 * t9)) - (1890 * t8)) + (5400 * t7)) - (5880 * t6)) - (2268 * t5)) - (2940 * t4)) + (37080 * t3)) - (148770 * q)) + 14)) / t2))
    else
      if Rlt_dec q 3 then
        (((((2 / 45) * PI) * (((((((((70 * t9) - (1575 * t8)) + (15120 * t7)) - (79800 * t6)) + (246960 * t5)) - (434700 * t4)) + (364560 * t3)) - (50040 * t2)) - 130850)) / q) - ((((2 / 45) * PI) * ((((((((((7 * t1) - (175 * t9)) + (1890 * t8)) - (11400 * t7)) + (41160 * t6)) - (86940 * t5)) + (91140 * t4)) - (16680 * t3)) - (130850 * q)) - 7154)) / t2))
      else
        if Rlt_dec q 4 then
          (((((2 / 45) * PI) * ((((((((((- 10) * t9) + (315 * t8)) - (4320 * t7)) + (33600 * t6)) - (161280 * t5)) + (483840 * t4)) - (860160 * t3)) + (737280 * t2)) - 327680)) / q) - ((((2 / 45) * PI) * ((((((((((- t1) + (35 * t9)) - (540 * t8)) + (4800 * t7)) - (26880 * t6)) + (96768 * t5)) - (215040 * t4)) + (245760 * t3)) - (327680 * q)) + 110944)) / t2))
        else
          ((6720 * PI) / t2).

(** ** KernelDefM9 *)
(** sphkernels.hpp:753 *)
Definition M9_Rkern : R := (9 / 2).
(** sphkernels.hpp:755 *)
Definition M9_hfactd : R := 1.
(** sphkernels.hpp:758 *)
Definition M9_norm_1d : R := (1 / 40320).
(** sphkernels.hpp:760 *)
Definition M9_norm_2d : R := (512 / (14345663 * PI)).
(** sphkernels.hpp:762 *)
Definition M9_norm_3d : R := (6 / (362880 * PI)).
(** sphkernels.hpp:764-802 *)
Definition M9_f (q : R) : R :=
  let div9_2 := (9 / 2) in
  let div7_2 := (7 / 2) in
  let div5_2 := (5 / 2) in
  let div3_2 := (3 / 2) in
  let div1_2 := (1 / 2) in
  let t1 := (div9_2 - q) in
  let t2 := (div7_2 - q) in
  let t3 := (div5_2 - q) in
  let t4 := (div3_2 - q) in
  let t5 := (div1_2 - q) in
  let t1 := (pow_constexpr 8 t1) in
  let t2 := (pow_constexpr 8 t2) in
  let t3 := (pow_constexpr 8 t3) in
  let t4 := (pow_constexpr 8 t4) in
  let t5 := (pow_constexpr 8 t5) in
  let t1 := (t1 * 1) in
  let t2 := (t2 * (- 9)) in
  let t3 := (t3 * 36) in
  let t4 := (t4 * (- 84)) in
  let t5 := (t5 * 126) in
  if Rlt_dec q div1_2 then
    ((((t1 + t2) + t3) + t4) + t5)
  else
    if Rlt_dec q div3_2 then
      (((t1 + t2) + t3) + t4)
    else
      if Rlt_dec q div5_2 then
        ((t1 + t2) + t3)
      else
        if Rlt_dec q div7_2 then
          (t1 + t2)
        else
          if Rlt_dec q div9_2 then
            t1
          else
            0.
(** sphkernels.hpp:804-842 *)
Definition M9_df (q : R) : R :=
  let div9_2 := (9 / 2) in
  let div7_2 := (7 / 2) in
  let div5_2 := (5 / 2) in
  let div3_2 := (3 / 2) in
  let div1_2 := (1 / 2) in
  let t1 := (div9_2 - q) in
  let t2 := (div7_2 - q) in
  let t3 := (div5_2 - q) in
  let t4 := (div3_2 - q) in
  let t5 := (div1_2 - q) in
  let t1 := (pow_constexpr 7 t1) in
  let t2 := (pow_constexpr 7 t2) in
  let t3 := (pow_constexpr 7 t3) in
  let t4 := (pow_constexpr 7 t4) in
  let t5 := (pow_constexpr 7 t5) in
  let t1 := (t1 * ((- 8) * 1)) in
  let t2 := (t2 * ((- 8) * (- 9))) in
  let t3 := (t3 * ((- 8) * 36)) in
  let t4 := (t4 * ((- 8) * (- 84))) in
  let t5 := (t5 * ((- 8) * 126)) in
  if Rlt_dec q div1_2 then
    ((((t1 + t2) + t3) + t4) + t5)
  else
    if Rlt_dec q div3_2 then
      (((t1 + t2) + t3) + t4)
    else
      if Rlt_dec q div5_2 then
        ((t1 + t2) + t3)
      else
        if Rlt_dec q div7_2 then
          (t1 + t2)
        else
          if Rlt_dec q div9_2 then
            t1
          else
            0.
(** sphkernels.hpp:844-862 *)
Definition M9_ddf (q : R) : R :=
  let t1 := (pow_constexpr 6 ((1 / 2) - q)) in
  let t2 := (pow_constexpr 6 ((3 / 2) - q)) in
  let t3 := (pow_constexpr 6 ((5 / 2) - q)) in
  let t4 := (pow_constexpr 6 ((7 / 2) - q)) in
  let t5 := (pow_constexpr 6 ((9 / 2) - q)) in
  if Rlt_dec q (1 / 2) then
    (((((7056 * t1) - (4704 * t2)) + (2016 * t3)) - (504 * t4)) + (56 * t5))
  else
    if Rlt_dec q (3 / 2) then
      (((((- 4704) * t2) + (2016 * t3)) - (504 * t4)) + (56 * t5))
    else
      if Rlt_dec q (5 / 2) then
        (((2016 * t3) - (504 * t4)) + (56 * t5))
      else
        if Rlt_dec q (7 / 2) then
          (((- 504) * t4) + (56 * t5))
        else
          if Rlt_dec q (9 / 2) then
            (56 * t5)
          else
            0.
(** sphkernels.hpp:864-905 *)
Definition M9_phi_tilde_3d (q : R) : R :=
  let t1 := (pow_constexpr 10 q) in
  let t2 := (pow_constexpr 11 q) in
  let t3 := (pow_constexpr 2 q) in
  let t4 := (pow_constexpr 3 q) in
  let t5 := (pow_constexpr 4 q) in
  let t6 := (pow_constexpr 5 q) in
  let t7 := (pow_constexpr 6 q) in
  let t8 := (pow_constexpr 7 q) in
  let t9 := (pow_constexpr 8 q) in
  let t10 := (pow_constexpr 9 q) in
  if Rlt_dec q (1 / 2) then
    (((1 / 2816) * PI) * ((((((7168 * t1) - (98560 * t9)) + (908160 * t7)) - (6408864 * t5)) + (34283436 * t3)) - 157802293))
  else
    if Rlt_dec q (3 / 2) then
      ((((1 / 14080) * PI) * ((((((((((((- 28672) * t2) + (315392 * t1)) - (1182720 * t10)) + (887040 * t9)) + (3801600 * t8)) + (413952 * t7)) - (32199552 * t6)) + (36960 * t5)) + (171412560 * t4)) - (789011388 * q)) - 7)) / q)
    else
      if Rlt_dec q (5 / 2) then
        ((((1 / 14080) * PI) * (((((((((((14336 * t2) - (315392 * t1)) + (2956800 * t10)) - (15079680 * t9)) + (43718400 * t8)) - (66646272 * t7)) + (43243200 * t6)) - (53850720 * t5)) + (191620440 * t4)) - (792042570 * q)) + 826679)) / q)
      else
        if Rlt_dec q (7 / 2) then
          ((((1 / 14080) * PI) * ((((((((((((- 4096) * t2) + (135168 * t1)) - (1971200 * t10)) + (16600320 * t9)) - (88281600 * t8)) + (302953728 * t7)) - (649756800 * t6)) + (771149280 * t5)) - (324004560 * t4)) - (577198820 * q)) - 96829571)) / q)
        else
          if Rlt_dec q (9 / 2) then
            ((((1 / 28160) * PI) * (((((((((((1024 * t2) - (45056 * t1)) + (887040 * t10)) - (10264320 * t9)) + (76982400 * t8)) - (387991296 * t7)) + (1309470624 * t6)) - (2806008480 * t5)) + (3156759540 * t4)) - (4261625379 * q)) + 1783667601)) / q)
          else
            (((- 60480) * PI) / q).
(** sphkernels.hpp:907-967 *)
Definition M9_phi_tilde_3d_prime (q : R) : R :=
  let t1 := (pow_constexpr 10 q) in
  let t2 := (pow_constexpr 11 q) in
  let t3 := (pow_constexpr 2 q) in
  let t4 := (pow_constexpr 3 q) in
  let t5 := (pow_constexpr 4 q) in
  let t6 := (pow_constexpr 5 q) in
  let t7 := (pow_constexpr 6 q) in
  let t8 := (pow_constexpr 7 q) in
  let t9 := (pow_constexpr 8 q) in
  let t10 := (pow_constexpr 9 q) in
  if Rlt_dec q (1 / 2) then
    (((1 / 2816) * PI) * (((((71680 * t10) - (788480 * t8)) + (5448960 * t6)) - (25635456 * t4)) + (68566872 * q)))
  else
    if Rlt_dec q (3 / 2) then
      (((((1 / 14080) * PI) * (((((((((((- 315392) * t1) + (3153920 * t10)) - (10644480 * t9)) + (7096320 * t8)) + (26611200 * t7)) + (2483712 * t6)) - (160997760 * t5)) + (147840 * t4)) + (514237680 * t3)) - 789011388)) / q) - ((((1 / 14080) * PI) * ((((((((((((- 28672) * t2) + (315392 * t1)) - (1182720 * t10)) + (887040 * t9)) + (3801600 * t8)) + (413952 * t7)) - (32199552 * t6)) + (36960 * t5)) + (171412560 * t4)) - (789011388 * q)) - 7)) / t3))
    else
      if Rlt_dec q (5 / 2) then
        (((((1 / 14080) * PI) * ((((((((((157696 * t1) - (3153920 * t10)) + (26611200 * t9)) - (120637440 * t8)) + (306028800 * t7)) - (399877632 * t6)) + (216216000 * t5)) - (215402880 * t4)) + (574861320 * t3)) - 792042570)) / q) - ((((1 / 14080) * PI) * (((((((((((14336 * t2) - (315392 * t1)) + (2956800 * t10)) - (15079680 * t9)) + (43718400 * t8)) - (66646272 * t7)) + (43243200 * t6)) - (53850720 * t5)) + (191620440 * t4)) - (792042570 * q)) + 826679)) / t3))
      else
        if Rlt_dec q (7 / 2) then
          (((((1 / 14080) * PI) * (((((((((((- 45056) * t1) + (1351680 * t10)) - (17740800 * t9)) + (132802560 * t8)) - (617971200 * t7)) + (1817722368 * t6)) - (3248784000 * t5)) + (3084597120 * t4)) - (972013680 * t3)) - 577198820)) / q) - ((((1 / 14080) * PI) * ((((((((((((- 4096) * t2) + (135168 * t1)) - (1971200 * t10)) + (16600320 * t9)) - (88281600 * t8)) + (302953728 * t7)) - (649756800 * t6)) + (771149280 * t5)) - (324004560 * t4)) - (577198820 * q)) - 96829571)) / t3))
        else
          if Rlt_dec q (9 / 2) then
            (((((1 / 28160) * PI) * ((((((((((11264 * t1) - (450560 * t10)) + (7983360 * t9)) - (82114560 * t8)) + (538876800 * t7)) - (2327947776 * t6)) + (6547353120 * t5)) - (11224033920 * t4)) + (9470278620 * t3)) - 4261625379)) / q) - ((((1 / 28160) * PI) * (((((((((((1024 * t2) - (45056 * t1)) + (887040 * t10)) - (10264320 * t9)) + (76982400 * t8)) - (387991296 * t7)) + (1309470624 * t6)) - (2806008480 * t5)) + (3156759540 * t4)) - (4261625379 * q)) + 1783667601)) / t3))
          else
            ((60480 * PI) / t3).

(** ** KernelDefM10 *)
(** sphkernels.hpp:973 *)
Definition M10_Rkern : R := 5.
(** sphkernels.hpp:975 *)
Definition M10_hfactd : R := 1.
(** sphkernels.hpp:978 *)
Definition M10_norm_1d : R := (1 / 362880).
(** sphkernels.hpp:980 *)
Definition M10_norm_2d : R := (11 / (2922230 * PI)).
(** sphkernels.hpp:982 *)
Definition M10_norm_3d : R := (6 / (3628800 * PI)).
(** sphkernels.hpp:984-1016 *)
Definition M10_f (q : R) : R :=
  let t1 := (5 - q) in
  let t2 := (4 - q) in
  let t3 := (3 - q) in
  let t4 := (2 - q) in
  let t5 := (1 - q) in
  let t1 := (pow_constexpr 9 t1) in
  let t2 := (pow_constexpr 9 t2) in
  let t3 := (pow_constexpr 9 t3) in
  let t4 := (pow_constexpr 9 t4) in
  let t5 := (pow_constexpr 9 t5) in
  let t1 := (t1 * 1) in
  let t2 := (t2 * (- 10)) in
  let t3 := (t3 * 45) in
  let t4 := (t4 * (- 120)) in
  let t5 := (t5 * 210) in
  if Rlt_dec q 1 then
    ((((t1 + t2) + t3) + t4) + t5)
  else
    if Rlt_dec q 2 then
      (((t1 + t2) + t3) + t4)
    else
      if Rlt_dec q 3 then
        ((t1 + t2) + t3)
      else
        if Rlt_dec q 4 then
          (t1 + t2)
        else
          if Rlt_dec q 5 then
            t1
          else
            0.
(** sphkernels.hpp:1018-1050 *)
Definition M10_df (q : R) : R :=
  let t1 := (5 - q) in
  let t2 := (4 - q) in
  let t3 := (3 - q) in
  let t4 := (2 - q) in
  let t5 := (1 - q) in
  let t1 := (pow_constexpr 8 t1) in
  let t2 := (pow_constexpr 8 t2) in
  let t3 := (pow_constexpr 8 t3) in
  let t4 := (pow_constexpr 8 t4) in
  let t5 := (pow_constexpr 8 t5) in
  let t1 := (t1 * ((- 9) * 1)) in
  let t2 := (t2 * ((- 9) * (- 10))) in
  let t3 := (t3 * ((- 9) * 45)) in
  let t4 := (t4 * ((- 9) * (- 120))) in
  let t5 := (t5 * ((- 9) * 210)) in
  if Rlt_dec q 1 then
    ((((t1 + t2) + t3) + t4) + t5)
  else
    if Rlt_dec q 2 then
      (((t1 + t2) + t3) + t4)
    else
      if Rlt_dec q 3 then
        ((t1 + t2) + t3)
      else
        if Rlt_dec q 4 then
          (t1 + t2)
        else
          if Rlt_dec q 5 then
            t1
          else
            0.
(** sphkernels.hpp:1052-1070 *)
Definition M10_ddf (q : R) : R :=
  let t1 := (pow_constexpr 7 (1 - q)) in
  let t2 := (pow_constexpr 7 (2 - q)) in
  let t3 := (pow_constexpr 7 (3 - q)) in
  let t4 := (pow_constexpr 7 (4 - q)) in
  let t5 := (pow_constexpr 7 (5 - q)) in
  if Rlt_dec q 1 then
    (((((15120 * t1) - (8640 * t2)) + (3240 * t3)) - (720 * t4)) + (72 * t5))
  else
    if Rlt_dec q 2 then
      (((((- 8640) * t2) + (3240 * t3)) - (720 * t4)) + (72 * t5))
    else
      if Rlt_dec q 3 then
        (((3240 * t3) - (720 * t4)) + (72 * t5))
      else
        if Rlt_dec q 4 then
          (((- 720) * t4) + (72 * t5))
        else
          if Rlt_dec q 5 then
            (72 * t5)
          else
            0.
(** sphkernels.hpp:1072-1113 *)
Definition M10_phi_tilde_3d (q : R) : R :=
  let t1 := (pow_constexpr 10 q) in
  let t2 := (pow_constexpr 11 q) in
  let t3 := (pow_constexpr 12 q) in
  let t4 := (pow_constexpr 2 q) in
  let t5 := (pow_constexpr 3 q) in
  let t6 := (pow_constexpr 4 q) in
  let t7 := (pow_constexpr 5 q) in
  let t8 := (pow_constexpr 6 q) in
  let t9 := (pow_constexpr 7 q) in
  let t10 := (pow_constexpr 8 q) in
  let t11 := (pow_constexpr 9 q) in
  if Rlt_dec q 1 then
    (((2 / 33) * PI) * ((((((((- 63) * t2) + (378 * t1)) - (3850 * t10)) + (37620 * t8)) - (291060 * t6)) + (1718090 * t4)) - 8766690))
  else
    if Rlt_dec q 2 then
      ((((2 / 33) * PI) * ((((((((((((42 * t3) - (756 * t2)) + (5544 * t1)) - (20020 * t11)) + (31185 * t10)) - (3960 * t9)) + (38808 * t8)) - (316008 * t7)) + (10395 * t6)) + (1715780 * t5)) - (8766564 * q)) - 21)) / q)
    else
      if Rlt_dec q 3 then
        ((((2 / 33) * PI) * (((((((((((((- 18) * t3) + (540 * t2)) - (7128 * t1)) + (53900 * t11)) - (253935 * t10)) + (756360 * t9)) - (1380456 * t8)) + (1508760 * t7)) - (1510245 * t6)) + (2391620 * t5)) - (8914020 * q)) + 49131)) / q)
      else
        if Rlt_dec q 4 then
          ((((1 / 33) * PI) * ((((((((((((9 * t3) - (378 * t2)) + (7128 * t1)) - (79310 * t11)) + (574695 * t10)) - (2817540 * t9)) + (9363816 * t8)) - (20365884 * t7)) + (26208765 * t6)) - (14702930 * t5)) - (8262102 * q)) - 4684707)) / q)
        else
          if Rlt_dec q 5 then
            ((((1 / 33) * PI) * ((((((((((((- t3) + (54 * t2)) - (1320 * t1)) + (19250 * t11)) - (185625 * t10)) + (1237500 * t9)) - (5775000 * t8)) + (18562500 * t7)) - (38671875 * t6)) + (42968750 * t5)) - (58593750 * q)) + 28869725)) / q)
          else
            (((- 604800) * PI) / q).
(** sphkernels.hpp:1115-1177 *)
Definition M10_phi_tilde_3d_prime (q : R) : R :=
  let t1 := (pow_constexpr 10 q) in
  let t2 := (pow_constexpr 11 q) in
  let t3 := (pow_constexpr 12 q) in
  let t4 := (pow_constexpr 2 q) in
  let t5 := (pow_constexpr 3 q) in
  let t6 := (pow_constexpr 4 q) in
  let t7 := (pow_constexpr 5 q) in
  let t8 := (pow_constexpr 6 q) in
  let t9 := (pow_constexpr 7 q) in
  let t10 := (pow_constexpr 8 q) in
  let t11 := (pow_constexpr 9 q) in
  if Rlt_dec q 1 then
    (((2 / 33) * PI) * (((((((- 693) * t1) + (3780 * t11)) - (30800 * t9)) + (225720 * t7)) - (1164240 * t5)) + (3436180 * q)))
  else
    if Rlt_dec q 2 then
      (((((2 / 33) * PI) * (((((((((((504 * t2) - (8316 * t1)) + (55440 * t11)) - (180180 * t10)) + (249480 * t9)) - (27720 * t8)) + (232848 * t7)) - (1580040 * t6)) + (41580 * t5)) + (5147340 * t4)) - 8766564)) / q) - ((((2 / 33) * PI) * ((((((((((((42 * t3) - (756 * t2)) + (5544 * t1)) - (20020 * t11)) + (31185 * t10)) - (3960 * t9)) + (38808 * t8)) - (316008 * t7)) + (10395 * t6)) + (1715780 * t5)) - (8766564 * q)) - 21)) / t4))
    else
      if Rlt_dec q 3 then
        (((((2 / 33) * PI) * ((((((((((((- 216) * t2) + (5940 * t1)) - (71280 * t11)) + (485100 * t10)) - (2031480 * t9)) + (5294520 * t8)) - (8282736 * t7)) + (7543800 * t6)) - (6040980 * t5)) + (7174860 * t4)) - 8914020)) / q) - ((((2 / 33) * PI) * (((((((((((((- 18) * t3) + (540 * t2)) - (7128 * t1)) + (53900 * t11)) - (253935 * t10)) + (756360 * t9)) - (1380456 * t8)) + (1508760 * t7)) - (1510245 * t6)) + (2391620 * t5)) - (8914020 * q)) + 49131)) / t4))
      else
        if Rlt_dec q 4 then
          (((((1 / 33) * PI) * (((((((((((108 * t2) - (4158 * t1)) + (71280 * t11)) - (713790 * t10)) + (4597560 * t9)) - (19722780 * t8)) + (56182896 * t7)) - (101829420 * t6)) + (104835060 * t5)) - (44108790 * t4)) - 8262102)) / q) - ((((1 / 33) * PI) * ((((((((((((9 * t3) - (378 * t2)) + (7128 * t1)) - (79310 * t11)) + (574695 * t10)) - (2817540 * t9)) + (9363816 * t8)) - (20365884 * t7)) + (26208765 * t6)) - (14702930 * t5)) - (8262102 * q)) - 4684707)) / t4))
        else
          if Rlt_dec q 5 then
            (((((1 / 33) * PI) * ((((((((((((- 12) * t2) + (594 * t1)) - (13200 * t11)) + (173250 * t10)) - (1485000 * t9)) + (8662500 * t8)) - (34650000 * t7)) + (92812500 * t6)) - (154687500 * t5)) + (128906250 * t4)) - 58593750)) / q) - ((((1 / 33) * PI) * ((((((((((((- t3) + (54 * t2)) - (1320 * t1)) + (19250 * t11)) - (185625 * t10)) + (1237500 * t9)) - (5775000 * t8)) + (18562500 * t7)) - (38671875 * t6)) + (42968750 * t5)) - (58593750 * q)) + 28869725)) / t4))
          else
            ((604800 * PI) / t4).

(** ** KernelDefC2 *)
(** sphkernels.hpp:1183 *)
Definition C2_Rkern : R := 2.
(** sphkernels.hpp:1185 *)
Definition C2_hfactd : R := (7 / 5).
(** sphkernels.hpp:1188 *)
Definition C2_norm_1d : R := (3 / 4).
(** sphkernels.hpp:1190 *)
Definition C2_norm_2d : R := (7 / (4 * PI)).
(** sphkernels.hpp:1192 *)
Definition C2_norm_3d : R := (21 / (16 * PI)).
(** sphkernels.hpp:1194-1208 *)
Definition C2_f (q : R) : R :=
  let div1_2 := (1 / 2) in
  let p1 := (1 - (q * div1_2)) in
  let p2 := (1 + (q * 2)) in
  let p1 := (p1 * p1) in
  let p1 := (p1 * p1) in
  if Rlt_dec q 2 then
    (p1 * p2)
  else
    0.
(** sphkernels.hpp:1210-1225 *)
Definition C2_df (q : R) : R :=
  let div1_2 := (1 / 2) in
  let div1_8 := (1 / 8) in
  let div1_4 := (1 / 4) in
  let p1 := (1 - (q * div1_2)) in
  let p2 := (1 + (q * 2)) in
  let p3 := ((p1 * p1) * p1) in
  if Rlt_dec q 2 then
    (2 * ((p3 * p1) - (p3 * p2)))
  else
    0.
(** sphkernels.hpp:1227-1234 *)
Definition C2_ddf (q : R) : R :=
  let t1 := (pow_constexpr 2 (1 - ((1 / 2) * q))) in
  let t2 := (pow_constexpr 3 (1 - ((1 / 2) * q))) in
  if Rlt_dec q 2 then
    (((- 8) * t2) + ((3 * t1) * ((2 * q) + 1)))
  else
    0.
(** sphkernels.hpp:1236-1246 *)
Definition C2_phi_tilde_3d (q : R) : R :=
  let t1 := (pow_constexpr 2 q) in
  let t2 := (pow_constexpr 3 q) in
  let t3 := (pow_constexpr 4 q) in
  let t4 := (pow_constexpr 5 q) in
  if Rlt_dec q 2 then
    (((1 / 336) * PI) * ((t1 * (((((3 * t4) - (30 * t3)) + (112 * t2)) - (168 * t1)) + 224)) - 384))
  else
    (((- (16 / 21)) * PI) / q).
(** sphkernels.hpp:1248-1259 *)
Definition C2_phi_tilde_3d_prime (q : R) : R :=
  let t1 := (pow_constexpr 2 q) in
  let t2 := (pow_constexpr 3 q) in
  let t3 := (pow_constexpr 4 q) in
  let t4 := (pow_constexpr 5 q) in
  if Rlt_dec q 2 then
    (((1 / 336) * PI) * ((t1 * ((((15 * t3) - (120 * t2)) + (336 * t1)) - (336 * q))) + ((2 * q) * (((((3 * t4) - (30 * t3)) + (112 * t2)) - (168 * t1)) + 224))))
  else
    (((16 / 21) * PI) / t1).

(** ** KernelDefC4 *)
(** sphkernels.hpp:1265 *)
Definition C4_Rkern : R := 2.
(** sphkernels.hpp:1267 *)
Definition C4_hfactd : R := (8 / 5).
(** sphkernels.hpp:1270 *)
Definition C4_norm_1d : R := (27 / 32).
(** sphkernels.hpp:1272 *)
Definition C4_norm_2d : R := (9 / (4 * PI)).
(** sphkernels.hpp:1274 *)
Definition C4_norm_3d : R := (495 / (256 * PI)).
(** sphkernels.hpp:1276-1291 *)
Definition C4_f (q : R) : R :=
  let div1_2 := (1 / 2) in
  let div35_12 := (35 / 12) in
  let p1 := (1 - (q * div1_2)) in
  let p2 := ((1 + (q * 3)) + ((div35_12 * q) * q)) in
  let p1 := (p1 * p1) in
  let p1 := ((p1 * p1) * p1) in
  if Rlt_dec q 2 then
    (p1 * p2)
  else
    0.
(** sphkernels.hpp:1293-1307 *)
Definition C4_df (q : R) : R :=
  let div7_96 := (7 / 96) in
  let p1 := ((- 2) + q) in
  let p2 := (2 + (5 * q)) in
  let p14 := (p1 * p1) in
  let p14 := (p14 * p14) in
  if Rlt_dec q 2 then
    ((((div7_96 * p14) * p1) * q) * p2)
  else
    0.
(** sphkernels.hpp:1309-1319 *)
Definition C4_ddf (q : R) : R :=
  let t1 := (pow_constexpr 2 q) in
  let t2 := (pow_constexpr 4 (1 - ((1 / 2) * q))) in
  let t3 := (pow_constexpr 5 (1 - ((1 / 2) * q))) in
  let t4 := (pow_constexpr 6 (1 - ((1 / 2) * q))) in
  if Rlt_dec q 2 then
    ((((35 / 6) * t4) - ((6 * t3) * (((35 / 6) * q) + 3))) + (((15 / 2) * t2) * ((((35 / 12) * t1) + (3 * q)) + 1)))
  else
    0.
(** sphkernels.hpp:1321-1336 *)
Definition C4_phi_tilde_3d (q : R) : R :=
  let t1 := (pow_constexpr 2 q) in
  let t2 := (pow_constexpr 4 q) in
  let t3 := (pow_constexpr 5 q) in
  let t4 := (pow_constexpr 6 q) in
  let t5 := (pow_constexpr 7 q) in
  let t6 := (pow_constexpr 8 q) in
  if Rlt_dec q 2 then
    (((1 / 63360) * PI) * ((t1 * (((((((105 * t6) - (1408 * t5)) + (7700 * t4)) - (21120 * t3)) + (26400 * t2)) - (29568 * t1)) + 42240)) - 56320))
  else
    (((- (256 / 495)) * PI) / q).
(** sphkernels.hpp:1338-1356 *)
Definition C4_phi_tilde_3d_prime (q : R) : R :=
  let t1 := (pow_constexpr 2 q) in
  let t2 := (pow_constexpr 3 q) in
  let t3 := (pow_constexpr 4 q) in
  let t4 := (pow_constexpr 5 q) in
  let t5 := (pow_constexpr 6 q) in
  let t6 := (pow_constexpr 7 q) in
  let t7 := (pow_constexpr 8 q) in
  if Rlt_dec q 2 then
    (((1 / 63360) * PI) * ((t1 * ((((((840 * t6) - (9856 * t5)) + (46200 * t4)) - (105600 * t3)) + (105600 * t2)) - (59136 * q))) + ((2 * q) * (((((((105 * t7) - (1408 * t6)) + (7700 * t5)) - (21120 * t4)) + (26400 * t3)) - (29568 * t1)) + 42240))))
  else
    (((256 / 495) * PI) / t1).

(** ** KernelDefC6 *)
(** sphkernels.hpp:1362 *)
Definition C6_Rkern : R := 2.
(** sphkernels.hpp:1364 *)
Definition C6_hfactd : R := (11 / 5).
(** sphkernels.hpp:1367 *)
Definition C6_norm_1d : R := (15 / 16).
(** sphkernels.hpp:1369 *)
Definition C6_norm_2d : R := (39 / (14 * PI)).
(** sphkernels.hpp:1371 *)
Definition C6_norm_3d : R := (1365 / (512 * PI)).
(** sphkernels.hpp:1373-1389 *)
Definition C6_f (q : R) : R :=
  let div1_2 := (1 / 2) in
  let div25_4 := (25 / 4) in
  let p1 := (1 - (q * div1_2)) in
  let p2 := (((1 + (q * 4)) + ((div25_4 * q) * q)) + (((4 * q) * q) * q)) in
  let p1 := (p1 * p1) in
  let p1 := (p1 * p1) in
  let p1 := (p1 * p1) in
  if Rlt_dec q 2 then
    (p1 * p2)
  else
    0.
(** sphkernels.hpp:1391-1406 *)
Definition C6_df (q : R) : R :=
  let div11_512 := (11 / 512) in
  let p1 := ((- 2) + q) in
  let p2 := ((2 + (7 * q)) + ((8 * q) * q)) in
  let p12 := (p1 * p1) in
  let p14 := (p12 * p12) in
  let p17 := ((p12 * p14) * p1) in
  if Rlt_dec q 2 then
    (((div11_512 * p17) * q) * p2)
  else
    0.
(** sphkernels.hpp:1408-1419 *)
Definition C6_ddf (q : R) : R :=
  let t1 := (pow_constexpr 2 q) in
  let t2 := (pow_constexpr 3 q) in
  let t3 := (pow_constexpr 6 (1 - ((1 / 2) * q))) in
  let t4 := (pow_constexpr 7 (1 - ((1 / 2) * q))) in
  let t5 := (pow_constexpr 8 (1 - ((1 / 2) * q))) in
  if Rlt_dec q 2 then
    (((t5 * ((24 * q) + (25 / 2))) - ((8 * t4) * (((12 * t1) + ((25 / 2) * q)) + 4))) + ((14 * t3) * ((((4 * t2) + ((25 / 4) * t1)) + (4 * q)) + 1)))
  else
    0.
(** sphkernels.hpp:1421-1438 *)
Definition C6_phi_tilde_3d (q : R) : R :=
  let t1 := (pow_constexpr 10 q) in
  let t2 := (pow_constexpr 11 q) in
  let t3 := (pow_constexpr 2 q) in
  let t4 := (pow_constexpr 4 q) in
  let t5 := (pow_constexpr 6 q) in
  let t6 := (pow_constexpr 7 q) in
  let t7 := (pow_constexpr 8 q) in
  let t8 := (pow_constexpr 9 q) in
  if Rlt_dec q 2 then
    (((1 / 1397760) * PI) * ((t3 * (((((((((480 * t2) - (8085 * t1)) + (58240 * t8)) - (229320 * t7)) + (512512 * t6)) - (560560 * t5)) + (549120 * t4)) - (768768 * t3)) + 931840)) - 1003520))
  else
    (((- (512 / 1365)) * PI) / q).
(** sphkernels.hpp:1440-1461 *)
Definition C6_phi_tilde_3d_prime (q : R) : R :=
  let t1 := (pow_constexpr 10 q) in
  let t2 := (pow_constexpr 11 q) in
  let t3 := (pow_constexpr 2 q) in
  let t4 := (pow_constexpr 3 q) in
  let t5 := (pow_constexpr 4 q) in
  let t6 := (pow_constexpr 5 q) in
  let t7 := (pow_constexpr 6 q) in
  let t8 := (pow_constexpr 7 q) in
  let t9 := (pow_constexpr 8 q) in
  let t10 := (pow_constexpr 9 q) in
  if Rlt_dec q 2 then
    (((1 / 1397760) * PI) * ((t3 * ((((((((5280 * t1) - (80850 * t10)) + (524160 * t9)) - (1834560 * t8)) + (3587584 * t7)) - (3363360 * t6)) + (2196480 * t4)) - (1537536 * q))) + ((2 * q) * (((((((((480 * t2) - (8085 * t1)) + (58240 * t10)) - (229320 * t9)) + (512512 * t8)) - (560560 * t7)) + (549120 * t5)) - (768768 * t3)) + 931840))))
  else
    (((512 / 1365) * PI) / t3).

(** ** KernelDefM4DoubleHump *)
(** sphkernels.hpp:1609 *)
Definition M4DoubleHump_Rkern : R := 2.
(** sphkernels.hpp:1611 *)
Definition M4DoubleHump_hfactd : R := (6 / 5).
(** sphkernels.hpp:1614 *)
Definition M4DoubleHump_norm_1d : R := 2.
(** sphkernels.hpp:1616-1617 *)
Definition M4DoubleHump_norm_2d : R := (((49 / 31) * 10) / (7 * PI)).
(** sphkernels.hpp:1619 *)
Definition M4DoubleHump_norm_3d : R := (((10 / 9) * 1) / PI).
(** sphkernels.hpp:1621-1621 *)
Definition M4DoubleHump_f (q : R) : R :=
  (((M4_f q) * q) * q).
(** sphkernels.hpp:1623-1625 *)
Definition M4DoubleHump_df (q : R) : R :=
  ((((M4_df q) * q) * q) + ((2 * (M4_f q)) * q)).
(** sphkernels.hpp:1627-1640 *)
Definition M4DoubleHump_ddf (q : R) : R :=
  let t1 := (pow_constexpr 2 (1 - q)) in
  let t2 := (pow_constexpr 2 (2 - q)) in
  let t3 := (pow_constexpr 2 q) in
  let t4 := (pow_constexpr 3 (1 - q)) in
  let t5 := (pow_constexpr 3 (2 - q)) in
  if Rlt_dec q 1 then
    ((((t3 * (((9 / 2) * q) - 3)) + ((4 * q) * ((3 * t1) - ((3 / 4) * t2)))) - (2 * t4)) + ((1 / 2) * t5))
  else
    if Rlt_dec q 2 then
      (((((- (3 / 4)) * t3) * ((2 * q) - 4)) - ((3 * q) * t2)) + ((1 / 2) * t5))
    else
      0.
(** sphkernels.hpp:1642-1658 *)
Definition M4DoubleHump_phi_tilde_3d (q : R) : R :=
  let t1 := (pow_constexpr 2 q) in
  let t2 := (pow_constexpr 3 q) in
  let t3 := (pow_constexpr 4 q) in
  let t4 := (pow_constexpr 5 q) in
  let t5 := (pow_constexpr 6 q) in
  let t6 := (pow_constexpr 7 q) in
  let t7 := (pow_constexpr 8 q) in
  if Rlt_dec q 1 then
    (((1 / 280) * PI) * ((t3 * (((15 * t2) - (40 * t1)) + 56)) - 248))
  else
    if Rlt_dec q 2 then
      ((((1 / 280) * PI) * (((((((- 5) * t7) + (40 * t6)) - (112 * t5)) + (112 * t4)) - (256 * q)) + 4)) / q)
    else
      (((- (9 / 10)) * PI) / q).
(** sphkernels.hpp:1660-1678 *)
Definition M4DoubleHump_phi_tilde_3d_prime (q : R) : R :=
  let t1 := (pow_constexpr 2 q) in
  let t2 := (pow_constexpr 3 q) in
  let t3 := (pow_constexpr 4 q) in
  let t4 := (pow_constexpr 5 q) in
  let t5 := (pow_constexpr 6 q) in
  let t6 := (pow_constexpr 7 q) in
  let t7 := (pow_constexpr 8 q) in
  if Rlt_dec q 1 then
    (((1 / 280) * PI) * ((t3 * ((45 * t1) - (80 * q))) + ((4 * t2) * (((15 * t2) - (40 * t1)) + 56))))
  else
    if Rlt_dec q 2 then
      (((((1 / 280) * PI) * ((((((- 40) * t6) + (280 * t5)) - (672 * t4)) + (560 * t3)) - 256)) / q) - ((((1 / 280) * PI) * (((((((- 5) * t7) + (40 * t6)) - (112 * t5)) + (112 * t4)) - (256 * q)) + 4)) / t1))
    else
      (((9 / 10) * PI) / t1).

(** ** KernelDefM4DoubleHump3 *)
(** sphkernels.hpp:1684 *)
Definition M4DoubleHump3_Rkern : R := 2.
(** sphkernels.hpp:1686 *)
Definition M4DoubleHump3_hfactd : R := (6 / 5).
(** sphkernels.hpp:1689 *)
Definition M4DoubleHump3_norm_1d : R := (((105 / 31) * 2) / 3).
(** sphkernels.hpp:1691-1692 *)
Definition M4DoubleHump3_norm_2d : R := (((14 / 9) * 10) / (7 * PI)).
(** sphkernels.hpp:1694 *)
Definition M4DoubleHump3_norm_3d : R := (((126 / 127) * 1) / PI).
(** sphkernels.hpp:1696-1696 *)
Definition M4DoubleHump3_f (q : R) : R :=
  ((((M4_f q) * q) * q) * q).
(** sphkernels.hpp:1698-1700 *)
Definition M4DoubleHump3_df (q : R) : R :=
  (((((M4_df q) * q) * q) * q) + (((3 * (M4_f q)) * q) * q)).
(** sphkernels.hpp:1702-1717 *)
Definition M4DoubleHump3_ddf (q : R) : R :=
  let t1 := (pow_constexpr 2 (1 - q)) in
  let t2 := (pow_constexpr 2 (2 - q)) in
  let t3 := (pow_constexpr 2 q) in
  let t4 := (pow_constexpr 3 (1 - q)) in
  let t5 := (pow_constexpr 3 (2 - q)) in
  let t6 := (pow_constexpr 3 q) in
  if Rlt_dec q 1 then
    (((t6 * (((9 / 2) * q) - 3)) + ((6 * t3) * ((3 * t1) - ((3 / 4) * t2)))) + ((6 * q) * ((- t4) + ((1 / 4) * t5))))
  else
    if Rlt_dec q 2 then
      (((((- (3 / 4)) * t6) * ((2 * q) - 4)) - (((9 / 2) * t3) * t2)) + (((3 / 2) * q) * t5))
    else
      0.
(** sphkernels.hpp:1719-1735 *)
Definition M4DoubleHump3_phi_tilde_3d (q : R) : R :=
  let t1 := (pow_constexpr 2 q) in
  let t2 := (pow_constexpr 3 q) in
  let t3 := (pow_constexpr 5 q) in
  let t4 := (pow_constexpr 6 q) in
  let t5 := (pow_constexpr 7 q) in
  let t6 := (pow_constexpr 8 q) in
  let t7 := (pow_constexpr 9 q) in
  if Rlt_dec q 1 then
    (((1 / 840) * PI) * ((t3 * (((35 * t2) - (90 * t1)) + 112)) - 756))
  else
    if Rlt_dec q 2 then
      ((((1 / 2520) * PI) * (((((((- 35) * t7) + (270 * t6)) - (720 * t5)) + (672 * t4)) - (2304 * q)) + 20)) / q)
    else
      (((- (127 / 126)) * PI) / q).
(** sphkernels.hpp:1737-1756 *)
Definition M4DoubleHump3_phi_tilde_3d_prime (q : R) : R :=
  let t1 := (pow_constexpr 2 q) in
  let t2 := (pow_constexpr 3 q) in
  let t3 := (pow_constexpr 4 q) in
  let t4 := (pow_constexpr 5 q) in
  let t5 := (pow_constexpr 6 q) in
  let t6 := (pow_constexpr 7 q) in
  let t7 := (pow_constexpr 8 q) in
  let t8 := (pow_constexpr 9 q) in
  if Rlt_dec q 1 then
    (((1 / 840) * PI) * ((t4 * ((105 * t1) - (180 * q))) + ((5 * t3) * (((35 * t2) - (90 * t1)) + 112))))
  else
    if Rlt_dec q 2 then
      (((((1 / 2520) * PI) * ((((((- 315) * t7) + (2160 * t6)) - (5040 * t5)) + (4032 * t4)) - 2304)) / q) - ((((1 / 2520) * PI) * (((((((- 35) * t8) + (270 * t7)) - (720 * t6)) + (672 * t5)) - (2304 * q)) + 20)) / t1))
    else
      (((127 / 126) * PI) / t1).

(** ** KernelDefM4DoubleHump5 *)
(** sphkernels.hpp:1762 *)
Definition M4DoubleHump5_Rkern : R := 2.
(** sphkernels.hpp:1764 *)
Definition M4DoubleHump5_hfactd : R := (6 / 5).
(** sphkernels.hpp:1767 *)
Definition M4DoubleHump5_norm_1d : R := (252 / 127).
(** sphkernels.hpp:1769 *)
Definition M4DoubleHump5_norm_2d : R := ((28 / 17) / PI).
(** sphkernels.hpp:1771 *)
Definition M4DoubleHump5_norm_3d : R := ((330 / 511) / PI).
(** sphkernels.hpp:1773-1775 *)
Definition M4DoubleHump5_f (q : R) : R :=
  ((M4_f q) * (pow_constexpr 5 q)).
(** sphkernels.hpp:1777-1780 *)
Definition M4DoubleHump5_df (q : R) : R :=
  (((M4_df q) * (pow_constexpr 5 q)) + ((5 * (M4_f q)) * (pow_constexpr 4 q))).
(** sphkernels.hpp:1782-1797 *)
Definition M4DoubleHump5_ddf (q : R) : R :=
  let t1 := (pow_constexpr 2 (1 - q)) in
  let t2 := (pow_constexpr 2 (2 - q)) in
  let t3 := (pow_constexpr 3 (1 - q)) in
  let t4 := (pow_constexpr 3 (2 - q)) in
  let t5 := (pow_constexpr 3 q) in
  let t6 := (pow_constexpr 4 q) in
  let t7 := (pow_constexpr 5 q) in
  if Rlt_dec q 1 then
    (((t7 * (((9 / 2) * q) - 3)) + ((10 * t6) * ((3 * t1) - ((3 / 4) * t2)))) + ((20 * t5) * ((- t3) + ((1 / 4) * t4))))
  else
    if Rlt_dec q 2 then
      (((((- (3 / 4)) * t7) * ((2 * q) - 4)) - (((15 / 2) * t6) * t2)) + ((5 * t5) * t4))
    else
      0.
(** sphkernels.hpp:1799-1815 *)
Definition M4DoubleHump5_phi_tilde_3d (q : R) : R :=
  let t1 := (pow_constexpr 10 q) in
  let t2 := (pow_constexpr 11 q) in
  let t3 := (pow_constexpr 2 q) in
  let t4 := (pow_constexpr 3 q) in
  let t5 := (pow_constexpr 7 q) in
  let t6 := (pow_constexpr 8 q) in
  let t7 := (pow_constexpr 9 q) in
  if Rlt_dec q 1 then
    (((1 / 2310) * PI) * ((t5 * (((63 * t4) - (154 * t3)) + 165)) - 2805))
  else
    if Rlt_dec q 2 then
      ((((1 / 2310) * PI) * (((((((- 21) * t2) + (154 * t1)) - (385 * t7)) + (330 * t6)) - (2816 * q)) + 7)) / q)
    else
      (((- (511 / 330)) * PI) / q).
(** sphkernels.hpp:1817-1836 *)
Definition M4DoubleHump5_phi_tilde_3d_prime (q : R) : R :=
  let t1 := (pow_constexpr 10 q) in
  let t2 := (pow_constexpr 11 q) in
  let t3 := (pow_constexpr 2 q) in
  let t4 := (pow_constexpr 3 q) in
  let t5 := (pow_constexpr 6 q) in
  let t6 := (pow_constexpr 7 q) in
  let t7 := (pow_constexpr 8 q) in
  let t8 := (pow_constexpr 9 q) in
  if Rlt_dec q 1 then
    (((1 / 2310) * PI) * ((t6 * ((189 * t3) - (308 * q))) + ((7 * t5) * (((63 * t4) - (154 * t3)) + 165))))
  else
    if Rlt_dec q 2 then
      (((((1 / 2310) * PI) * ((((((- 231) * t1) + (1540 * t8)) - (3465 * t7)) + (2640 * t6)) - 2816)) / q) - ((((1 / 2310) * PI) * (((((((- 21) * t2) + (154 * t1)) - (385 * t8)) + (330 * t7)) - (2816 * q)) + 7)) / t3))
    else
      (((511 / 330) * PI) / t3).

(** ** KernelDefM4DoubleHump7 *)
(** sphkernels.hpp:1842 *)
Definition M4DoubleHump7_Rkern : R := 2.
(** sphkernels.hpp:1844 *)
Definition M4DoubleHump7_hfactd : R := (6 / 5).
(** sphkernels.hpp:1847 *)
Definition M4DoubleHump7_norm_1d : R := (660 / 511).
(** sphkernels.hpp:1849 *)
Definition M4DoubleHump7_norm_2d : R := ((30 / 31) / PI).
(** sphkernels.hpp:1851 *)
Definition M4DoubleHump7_norm_3d : R := ((715 / 2047) / PI).
(** sphkernels.hpp:1853-1855 *)
Definition M4DoubleHump7_f (q : R) : R :=
  ((M4_f q) * (pow_constexpr 7 q)).
(** sphkernels.hpp:1857-1860 *)
Definition M4DoubleHump7_df (q : R) : R :=
  (((M4_df q) * (pow_constexpr 7 q)) + ((7 * (M4_f q)) * (pow_constexpr 6 q))).
(** sphkernels.hpp:1862-1878 *)
Definition M4DoubleHump7_ddf (q : R) : R :=
  let t1 := (pow_constexpr 2 (1 - q)) in
  let t2 := (pow_constexpr 2 (2 - q)) in
  let t3 := (pow_constexpr 3 (1 - q)) in
  let t4 := (pow_constexpr 3 (2 - q)) in
  let t5 := (pow_constexpr 5 q) in
  let t6 := (pow_constexpr 6 q) in
  let t7 := (pow_constexpr 7 q) in
  if Rlt_dec q 1 then
    (((t7 * (((9 / 2) * q) - 3)) + ((14 * t6) * ((3 * t1) - ((3 / 4) * t2)))) + ((42 * t5) * ((- t3) + ((1 / 4) * t4))))
  else
    if Rlt_dec q 2 then
      (((((- (3 / 4)) * t7) * ((2 * q) - 4)) - (((21 / 2) * t6) * t2)) + (((21 / 2) * t5) * t4))
    else
      0.
(** sphkernels.hpp:1880-1896 *)
Definition M4DoubleHump7_phi_tilde_3d (q : R) : R :=
  let t1 := (pow_constexpr 10 q) in
  let t2 := (pow_constexpr 11 q) in
  let t3 := (pow_constexpr 12 q) in
  let t4 := (pow_constexpr 13 q) in
  let t5 := (pow_constexpr 2 q) in
  let t6 := (pow_constexpr 3 q) in
  let t7 := (pow_constexpr 9 q) in
  if Rlt_dec q 1 then
    (((1 / 25740) * PI) * ((t7 * (((495 * t6) - (1170 * t5)) + 1144)) - 53196))
  else
    if Rlt_dec q 2 then
      ((((1 / 25740) * PI) * (((((((- 165) * t4) + (1170 * t3)) - (2808 * t2)) + (2288 * t1)) - (53248 * q)) + 36)) / q)
    else
      (((- (2047 / 715)) * PI) / q).
(** sphkernels.hpp:1898-1918 *)
Definition M4DoubleHump7_phi_tilde_3d_prime (q : R) : R :=
  let t1 := (pow_constexpr 10 q) in
  let t2 := (pow_constexpr 11 q) in
  let t3 := (pow_constexpr 12 q) in
  let t4 := (pow_constexpr 13 q) in
  let t5 := (pow_constexpr 2 q) in
  let t6 := (pow_constexpr 3 q) in
  let t7 := (pow_constexpr 8 q) in
  let t8 := (pow_constexpr 9 q) in
  if Rlt_dec q 1 then
    (((1 / 25740) * PI) * ((t8 * ((1485 * t5) - (2340 * q))) + ((9 * t7) * (((495 * t6) - (1170 * t5)) + 1144))))
  else
    if Rlt_dec q 2 then
      (((((1 / 25740) * PI) * ((((((- 2145) * t3) + (14040 * t2)) - (30888 * t1)) + (22880 * t8)) - 53248)) / q) - ((((1 / 25740) * PI) * (((((((- 165) * t4) + (1170 * t3)) - (2808 * t2)) + (2288 * t1)) - (53248 * q)) + 36)) / t5))
    else
      (((2047 / 715) * PI) / t5).

(** ** KernelDefM4Shift2 *)
(** sphkernels.hpp:1924 *)
Definition M4Shift2_Rkern : R := 2.
(** sphkernels.hpp:1926 *)
Definition M4Shift2_hfactd : R := (6 / 5).
(** sphkernels.hpp:1929 *)
Definition M4Shift2_norm_1d : R := (4 / 11).
(** sphkernels.hpp:1931 *)
Definition M4Shift2_norm_2d : R := ((40 / 77) / PI).
(** sphkernels.hpp:1933 *)
Definition M4Shift2_norm_3d : R := ((120 / 439) / PI).
(** sphkernels.hpp:1935-1941 *)
Definition M4Shift2_f (q : R) : R :=
  if Rlt_dec q 1 then
    1
  else
    (M4_f ((q - 1) * 2)).
(** sphkernels.hpp:1943-1949 *)
Definition M4Shift2_df (q : R) : R :=
  if Rlt_dec q 1 then
    0
  else
    (2 * (M4_df ((q - 1) * 2))).
(** sphkernels.hpp:1951-1957 *)
Definition M4Shift2_ddf (q : R) : R :=
  if Rlt_dec q 1 then
    0
  else
    (4 * (M4_ddf ((q - 1) * 2))).
(** sphkernels.hpp:1959-1975 *)
Definition M4Shift2_phi_tilde_3d (q : R) : R :=
  let t1 := (pow_constexpr 2 q) in
  let t2 := (pow_constexpr 3 q) in
  let t3 := (pow_constexpr 4 q) in
  let t4 := (pow_constexpr 5 q) in
  let t5 := (pow_constexpr 6 q) in
  if Rlt_dec q 1 then
    (((1 / 60) * PI) * ((40 * t1) - 231))
  else
    if Rlt_dec q (3 / 2) then
      ((((1 / 60) * PI) * ((((((48 * t5) - (288 * t4)) + (600 * t3)) - (440 * t2)) - (39 * q)) - 72)) / q)
    else
      if Rlt_dec q 2 then
        ((((1 / 120) * PI) * (((((((- 32) * t5) + (288 * t4)) - (960 * t3)) + (1280 * t2)) - (1536 * q)) + 585)) / q)
      else
        (((- (439 / 120)) * PI) / q).
(** sphkernels.hpp:1977-1997 *)
Definition M4Shift2_phi_tilde_3d_prime (q : R) : R :=
  let t1 := (pow_constexpr 2 q) in
  let t2 := (pow_constexpr 3 q) in
  let t3 := (pow_constexpr 4 q) in
  let t4 := (pow_constexpr 5 q) in
  let t5 := (pow_constexpr 6 q) in
  if Rlt_dec q 1 then
    (((4 / 3) * PI) * q)
  else
    if Rlt_dec q (3 / 2) then
      (((((1 / 60) * PI) * (((((288 * t4) - (1440 * t3)) + (2400 * t2)) - (1320 * t1)) - 39)) / q) - ((((1 / 60) * PI) * ((((((48 * t5) - (288 * t4)) + (600 * t3)) - (440 * t2)) - (39 * q)) - 72)) / t1))
    else
      if Rlt_dec q 2 then
        (((((1 / 120) * PI) * ((((((- 192) * t4) + (1440 * t3)) - (3840 * t2)) + (3840 * t1)) - 1536)) / q) - ((((1 / 120) * PI) * (((((((- 32) * t5) + (288 * t4)) - (960 * t3)) + (1280 * t2)) - (1536 * q)) + 585)) / t1))
      else
        (((439 / 120) * PI) / t1).

(** ** KernelDefM4Shift4 *)
(** sphkernels.hpp:2003 *)
Definition M4Shift4_Rkern : R := 2.
(** sphkernels.hpp:2005 *)
Definition M4Shift4_hfactd : R := (6 / 5).
(** sphkernels.hpp:2008 *)
Definition M4Shift4_norm_1d : R := (8 / 27).
(** sphkernels.hpp:2010 *)
Definition M4Shift4_norm_2d : R := ((160 / 457) / PI).
(** sphkernels.hpp:2012 *)
Definition M4Shift4_norm_3d : R := ((320 / 2069) / PI).
(** sphkernels.hpp:2014-2020 *)
Definition M4Shift4_f (q : R) : R :=
  if Rlt_dec q (3 / 2) then
    1
  else
    (M4_f ((q - (3 / 2)) * 4)).
(** sphkernels.hpp:2022-2028 *)
Definition M4Shift4_df (q : R) : R :=
  if Rlt_dec q (3 / 2) then
    0
  else
    (4 * (M4_df ((q - (3 / 2)) * 4))).
(** sphkernels.hpp:2030-2036 *)
Definition M4Shift4_ddf (q : R) : R :=
  if Rlt_dec q (3 / 2) then
    0
  else
    (16 * (M4_ddf ((q - (3 / 2)) * 4))).
(** sphkernels.hpp:2038-2055 *)
Definition M4Shift4_phi_tilde_3d (q : R) : R :=
  let t1 := (pow_constexpr 2 q) in
  let t2 := (pow_constexpr 3 q) in
  let t3 := (pow_constexpr 4 q) in
  let t4 := (pow_constexpr 5 q) in
  let t5 := (pow_constexpr 6 q) in
  if Rlt_dec q (3 / 2) then
    (((1 / 240) * PI) * ((160 * t1) - 1371))
  else
    if Rlt_dec q (7 / 4) then
      ((((1 / 240) * PI) * ((((((1536 * t5) - (11520 * t4)) + (31680 * t3)) - (34400 * t2)) + (25845 * q)) - 14580)) / q)
    else
      if Rlt_dec q 2 then
        ((((1 / 960) * PI) * (((((((- 2048) * t5) + (18432 * t4)) - (61440 * t3)) + (81920 * t2)) - (98304 * q)) + 59329)) / q)
      else
        (((- (2069 / 320)) * PI) / q).
(** sphkernels.hpp:2057-2081 *)
Definition M4Shift4_phi_tilde_3d_prime (q : R) : R :=
  let t1 := (pow_constexpr 2 q) in
  let t2 := (pow_constexpr 3 q) in
  let t3 := (pow_constexpr 4 q) in
  let t4 := (pow_constexpr 5 q) in
  let t5 := (pow_constexpr 6 q) in
  if Rlt_dec q (3 / 2) then
    (((4 / 3) * PI) * q)
  else
    if Rlt_dec q (7 / 4) then
      (((((1 / 240) * PI) * (((((9216 * t4) - (57600 * t3)) + (126720 * t2)) - (103200 * t1)) + 25845)) / q) - ((((1 / 240) * PI) * ((((((1536 * t5) - (11520 * t4)) + (31680 * t3)) - (34400 * t2)) + (25845 * q)) - 14580)) / t1))
    else
      if Rlt_dec q 2 then
        (((((1 / 960) * PI) * ((((((- 12288) * t4) + (92160 * t3)) - (245760 * t2)) + (245760 * t1)) - 98304)) / q) - ((((1 / 960) * PI) * (((((((- 2048) * t5) + (18432 * t4)) - (61440 * t3)) + (81920 * t2)) - (98304 * q)) + 59329)) / t1))
      else
        (((2069 / 320) * PI) / t1).

(** ** KernelDefM4Shift8 *)
(** sphkernels.hpp:2087 *)
Definition M4Shift8_Rkern : R := 2.
(** sphkernels.hpp:2089 *)
Definition M4Shift8_hfactd : R := (6 / 5).
(** sphkernels.hpp:2092 *)
Definition M4Shift8_norm_1d : R := (16 / 59).
(** sphkernels.hpp:2094 *)
Definition M4Shift8_norm_2d : R := ((640 / 2177) / PI).
(** sphkernels.hpp:2096 *)
Definition M4Shift8_norm_3d : R := ((7680 / 64303) / PI).
(** sphkernels.hpp:2098-2104 *)
Definition M4Shift8_f (q : R) : R :=
  if Rlt_dec q (7 / 4) then
    1
  else
    (M4_f ((q - (7 / 4)) * 8)).
(** sphkernels.hpp:2106-2112 *)
Definition M4Shift8_df (q : R) : R :=
  if Rlt_dec q (7 / 4) then
    0
  else
    (8 * (M4_df ((q - (7 / 4)) * 8))).
(** sphkernels.hpp:2114-2120 *)
Definition M4Shift8_ddf (q : R) : R :=
  if Rlt_dec q (7 / 4) then
    0
  else
    (64 * (M4_ddf ((q - (7 / 4)) * 8))).
(** sphkernels.hpp:2122-2142 *)
Definition M4Shift8_phi_tilde_3d (q : R) : R :=
  let t1 := (pow_constexpr 2 q) in
  let t2 := (pow_constexpr 3 q) in
  let t3 := (pow_constexpr 4 q) in
  let t4 := (pow_constexpr 5 q) in
  let t5 := (pow_constexpr 6 q) in
  if Rlt_dec q (7 / 4) then
    (((1 / 960) * PI) * ((640 * t1) - 6531))
  else
    if Rlt_dec q (15 / 8) then
      ((((1 / 960) * PI) * ((((((49152 * t5) - (405504 * t4)) + (1236480 * t3)) - (1504640 * t2)) + (1491693 * q)) - 907578)) / q)
    else
      if Rlt_dec q 2 then
        ((((1 / 7680) * PI) * (((((((- 131072) * t5) + (1179648 * t4)) - (3932160 * t3)) + (5242880 * t2)) - (6291456 * q)) + 4130001)) / q)
      else
        (((- (64303 / 7680)) * PI) / q).
(** sphkernels.hpp:2144-2170 *)
Definition M4Shift8_phi_tilde_3d_prime (q : R) : R :=
  let t1 := (pow_constexpr 2 q) in
  let t2 := (pow_constexpr 3 q) in
  let t3 := (pow_constexpr 4 q) in
  let t4 := (pow_constexpr 5 q) in
  let t5 := (pow_constexpr 6 q) in
  if Rlt_dec q (7 / 4) then
    (((4 / 3) * PI) * q)
  else
    if Rlt_dec q (15 / 8) then
      (((((1 / 960) * PI) * (((((294912 * t4) - (2027520 * t3)) + (4945920 * t2)) - (4513920 * t1)) + 1491693)) / q) - ((((1 / 960) * PI) * ((((((49152 * t5) - (405504 * t4)) + (1236480 * t3)) - (1504640 * t2)) + (1491693 * q)) - 907578)) / t1))
    else
      if Rlt_dec q 2 then
        (((((1 / 7680) * PI) * ((((((- 786432) * t4) + (5898240 * t3)) - (15728640 * t2)) + (15728640 * t1)) - 6291456)) / q) - ((((1 / 7680) * PI) * (((((((- 131072) * t5) + (1179648 * t4)) - (3932160 * t3)) + (5242880 * t2)) - (6291456 * q)) + 4130001)) / t1))
      else
        (((64303 / 7680) * PI) / t1).

(** ** KernelDefM4Shift16 *)
(** sphkernels.hpp:2176 *)
Definition M4Shift16_Rkern : R := 2.
(** sphkernels.hpp:2178 *)
Definition M4Shift16_hfactd : R := (6 / 5).
(** sphkernels.hpp:2181 *)
Definition M4Shift16_norm_1d : R := (32 / 123).
(** sphkernels.hpp:2183 *)
Definition M4Shift16_norm_2d : R := ((2560 / 9457) / PI).
(** sphkernels.hpp:2185 *)
Definition M4Shift16_norm_3d : R := ((4096 / 38785) / PI).
(** sphkernels.hpp:2187-2193 *)
Definition M4Shift16_f (q : R) : R :=
  if Rlt_dec q (15 / 8) then
    1
  else
    (M4_f ((q - (15 / 8)) * 16)).
(** sphkernels.hpp:2195-2201 *)
Definition M4Shift16_df (q : R) : R :=
  if Rlt_dec q (15 / 8) then
    0
  else
    (16 * (M4_df ((q - (15 / 8)) * 16))).
(** sphkernels.hpp:2203-2209 *)
Definition M4Shift16_ddf (q : R) : R :=
  if Rlt_dec q (15 / 8) then
    0
  else
    (256 * (M4_ddf ((q - (15 / 8)) * 16))).
(** sphkernels.hpp:2211-2231 *)
Definition M4Shift16_phi_tilde_3d (q : R) : R :=
  let t1 := (pow_constexpr 2 q) in
  let t2 := (pow_constexpr 3 q) in
  let t3 := (pow_constexpr 4 q) in
  let t4 := (pow_constexpr 5 q) in
  let t5 := (pow_constexpr 6 q) in
  if Rlt_dec q (15 / 8) then
    (((1 / 3840) * PI) * ((2560 * t1) - 28371))
  else
    if Rlt_dec q (31 / 16) then
      ((((1 / 3840) * PI) * ((((((1572864 * t5) - (13565952 * t4)) + (43315200 * t3)) - (55293440 * t2)) + (60721629 * q)) - 38728125)) / q)
    else
      if Rlt_dec q 2 then
        ((((1 / 61440) * PI) * (((((((- 8388608) * t5) + (75497472 * t4)) - (251658240 * t3)) + (335544320 * t2)) - (402653184 * q)) + 267853681)) / q)
      else
        (((- (38785 / 4096)) * PI) / q).
(** sphkernels.hpp:2233-2261 *)
Definition M4Shift16_phi_tilde_3d_prime (q : R) : R :=
  let t1 := (pow_constexpr 2 q) in
  let t2 := (pow_constexpr 3 q) in
  let t3 := (pow_constexpr 4 q) in
  let t4 := (pow_constexpr 5 q) in
  let t5 := (pow_constexpr 6 q) in
  if Rlt_dec q (15 / 8) then
    (((4 / 3) * PI) * q)
  else
    if Rlt_dec q (31 / 16) then
      (((((1 / 3840) * PI) * (((((9437184 * t4) - (67829760 * t3)) + (173260800 * t2)) - (165880320 * t1)) + 60721629)) / q) - ((((1 / 3840) * PI) * ((((((1572864 * t5) - (13565952 * t4)) + (43315200 * t3)) - (55293440 * t2)) + (60721629 * q)) - 38728125)) / t1))
    else
      if Rlt_dec q 2 then
        (((((1 / 61440) * PI) * ((((((- 50331648) * t4) + (377487360 * t3)) - (1006632960 * t2)) + (1006632960 * t1)) - 402653184)) / q) - ((((1 / 61440) * PI) * (((((((- 8388608) * t5) + (75497472 * t4)) - (251658240 * t3)) + (335544320 * t2)) - (402653184 * q)) + 267853681)) / t1))
      else
        (((38785 / 4096) * PI) / t1).

(** ** SPHKernelGen (sphkernels.hpp:2285-2384) *)
Record kernel := mkkernel { Rkern : R; hfactd : R; norm_1d : R; norm_2d : R; norm_3d : R;
  f : R -> R; df : R -> R; ddf : R -> R; phi_tilde_3d : R -> R; phi_tilde_3d_prime : R -> R }.
(** sphkernels.hpp:2314 *)
Definition W_1d (K : kernel) (r h : R) : R := norm_1d K * f K (r / h) / h.
(** sphkernels.hpp:2316-2318 *)
Definition W_2d (K : kernel) (r h : R) : R := norm_2d K * f K (r / h) / (h * h).
(** sphkernels.hpp:2329-2331 *)
Definition W_3d (K : kernel) (r h : R) : R := norm_3d K * f K (r / h) / (h * h * h).
(** sphkernels.hpp:2333-2335 *)
Definition dW_3d (K : kernel) (r h : R) : R := norm_3d K * df K (r / h) / (h * h * h * h).
(** sphkernels.hpp:2337-2339 *)
Definition ddW_3d (K : kernel) (r h : R) : R := norm_3d K * ddf K (r / h) / (h * h * h * h * h).
(** sphkernels.hpp:2341-2343 *)
Definition dhW_3d (K : kernel) (r h : R) : R := - norm_3d K * (3 * f K (r / h) + (r / h) * df K (r / h)) / (h * h * h * h).
(** sphkernels.hpp:2377-2379 *)
Definition phi_3D (K : kernel) (r h : R) : R := norm_3d K * phi_tilde_3d K (r / h) / h.
(** sphkernels.hpp:2381-2383 *)
Definition phi_3D_prime (K : kernel) (r h : R) : R := norm_3d K * phi_tilde_3d_prime K (r / h) / (h * h).

Definition M4 : kernel := mkkernel M4_Rkern M4_hfactd M4_norm_1d M4_norm_2d M4_norm_3d M4_f M4_df M4_ddf M4_phi_tilde_3d M4_phi_tilde_3d_prime.
Definition M5 : kernel := mkkernel M5_Rkern M5_hfactd M5_norm_1d M5_norm_2d M5_norm_3d M5_f M5_df M5_ddf M5_phi_tilde_3d M5_phi_tilde_3d_prime.
Definition M6 : kernel := mkkernel M6_Rkern M6_hfactd M6_norm_1d M6_norm_2d M6_norm_3d M6_f M6_df M6_ddf M6_phi_tilde_3d M6_phi_tilde_3d_prime.
Definition M7 : kernel := mkkernel M7_Rkern M7_hfactd M7_norm_1d M7_norm_2d M7_norm_3d M7_f M7_df M7_ddf M7_phi_tilde_3d M7_phi_tilde_3d_prime.
Definition M8 : kernel := mkkernel M8_Rkern M8_hfactd M8_norm_1d M8_norm_2d M8_norm_3d M8_f M8_df M8_ddf M8_phi_tilde_3d M8_phi_tilde_3d_prime.
Definition M9 : kernel := mkkernel M9_Rkern M9_hfactd M9_norm_1d M9_norm_2d M9_norm_3d M9_f M9_df M9_ddf M9_phi_tilde_3d M9_phi_tilde_3d_prime.
Definition M10 : kernel := mkkernel M10_Rkern M10_hfactd M10_norm_1d M10_norm_2d M10_norm_3d M10_f M10_df M10_ddf M10_phi_tilde_3d M10_phi_tilde_3d_prime.
Definition C2 : kernel := mkkernel C2_Rkern C2_hfactd C2_norm_1d C2_norm_2d C2_norm_3d C2_f C2_df C2_ddf C2_phi_tilde_3d C2_phi_tilde_3d_prime.
Definition C4 : kernel := mkkernel C4_Rkern C4_hfactd C4_norm_1d C4_norm_2d C4_norm_3d C4_f C4_df C4_ddf C4_phi_tilde_3d C4_phi_tilde_3d_prime.
Definition C6 : kernel := mkkernel C6_Rkern C6_hfactd C6_norm_1d C6_norm_2d C6_norm_3d C6_f C6_df C6_ddf C6_phi_tilde_3d C6_phi_tilde_3d_prime.
Definition M4DoubleHump : kernel := mkkernel M4DoubleHump_Rkern M4DoubleHump_hfactd M4DoubleHump_norm_1d M4DoubleHump_norm_2d M4DoubleHump_norm_3d M4DoubleHump_f M4DoubleHump_df M4DoubleHump_ddf M4DoubleHump_phi_tilde_3d M4DoubleHump_phi_tilde_3d_prime.
Definition M4DoubleHump3 : kernel := mkkernel M4DoubleHump3_Rkern M4DoubleHump3_hfactd M4DoubleHump3_norm_1d M4DoubleHump3_norm_2d M4DoubleHump3_norm_3d M4DoubleHump3_f M4DoubleHump3_df M4DoubleHump3_ddf M4DoubleHump3_phi_tilde_3d M4DoubleHump3_phi_tilde_3d_prime.
Definition M4DoubleHump5 : kernel := mkkernel M4DoubleHump5_Rkern M4DoubleHump5_hfactd M4DoubleHump5_norm_1d M4DoubleHump5_norm_2d M4DoubleHump5_norm_3d M4DoubleHump5_f M4DoubleHump5_df M4DoubleHump5_ddf M4DoubleHump5_phi_tilde_3d M4DoubleHump5_phi_tilde_3d_prime.
Definition M4DoubleHump7 : kernel := mkkernel M4DoubleHump7_Rkern M4DoubleHump7_hfactd M4DoubleHump7_norm_1d M4DoubleHump7_norm_2d M4DoubleHump7_norm_3d M4DoubleHump7_f M4DoubleHump7_df M4DoubleHump7_ddf M4DoubleHump7_phi_tilde_3d M4DoubleHump7_phi_tilde_3d_prime.
Definition M4Shift2 : kernel := mkkernel M4Shift2_Rkern M4Shift2_hfactd M4Shift2_norm_1d M4Shift2_norm_2d M4Shift2_norm_3d M4Shift2_f M4Shift2_df M4Shift2_ddf M4Shift2_phi_tilde_3d M4Shift2_phi_tilde_3d_prime.
Definition M4Shift4 : kernel := mkkernel M4Shift4_Rkern M4Shift4_hfactd M4Shift4_norm_1d M4Shift4_norm_2d M4Shift4_norm_3d M4Shift4_f M4Shift4_df M4Shift4_ddf M4Shift4_phi_tilde_3d M4Shift4_phi_tilde_3d_prime.
Definition M4Shift8 : kernel := mkkernel M4Shift8_Rkern M4Shift8_hfactd M4Shift8_norm_1d M4Shift8_norm_2d M4Shift8_norm_3d M4Shift8_f M4Shift8_df M4Shift8_ddf M4Shift8_phi_tilde_3d M4Shift8_phi_tilde_3d_prime.
Definition M4Shift16 : kernel := mkkernel M4Shift16_Rkern M4Shift16_hfactd M4Shift16_norm_1d M4Shift16_norm_2d M4Shift16_norm_3d M4Shift16_f M4Shift16_df M4Shift16_ddf M4Shift16_phi_tilde_3d M4Shift16_phi_tilde_3d_prime.
(** the bell shaped kernels, the shifted ones and the double hump ones *)
Definition bell : list kernel := [M4; M5; M6; M7; M8; M9; M10; C2; C4; C6].
Definition shifted : list kernel := [M4Shift2; M4Shift4; M4Shift8; M4Shift16].
Definition double_hump : list kernel := [M4DoubleHump; M4DoubleHump3; M4DoubleHump5; M4DoubleHump7].
Definition kernels : list kernel := bell ++ shifted ++ double_hump.

(** ** Truncated Gaussians: f, df, ddf (sphkernels.hpp:1485-1507 with R = 3, 1556-1578 with R = 5) *)
Definition TGauss_f (R0 q : R) : R := let t1 := pow_constexpr 2 q in if Rlt_dec q R0 then exp (- t1) else 0.
Definition TGauss_df (R0 q : R) : R := let t1 := pow_constexpr 2 q in if Rlt_dec q R0 then (- 2) * q * exp (- t1) else 0.
Definition TGauss_ddf (R0 q : R) : R := let t1 := pow_constexpr 2 q in if Rlt_dec q R0 then (4 * t1 - 2) * exp (- t1) else 0.
