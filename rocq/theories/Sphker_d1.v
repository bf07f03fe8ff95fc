(** Piecewise polynomial forms of the kernels M4, M5, M6, M7 (proposed by tools/kernels2coq.py, checked here). *)
Require Import Reals Lra QArith Qreals List.
From Verif Require Import Pwpoly Sphker Sphker_check.
Import ListNotations.
Local Open Scope R_scope.

Definition dM4 : kdata := {|
  d_r := (2 # 1); d_n1 := (2 # 3); d_n2 := (10 # 7); d_n3 := (1 # 1);
  d_f := ([((1 # 1), [(1 # 1); (0 # 1); ((-3) # 2); (3 # 4)]); ((2 # 1), [(2 # 1); ((-3) # 1); (3 # 2); ((-1) # 4)])], [])%Q;
  d_df := ([((1 # 1), [(0 # 1); ((-3) # 1); (9 # 4)]); ((2 # 1), [((-3) # 1); (3 # 1); ((-3) # 4)])], [])%Q;
  d_ddf := ([((1 # 1), [((-3) # 1); (9 # 2)]); ((2 # 1), [(3 # 1); ((-3) # 2)])], [])%Q;
  d_A := ([((1 # 1), [(0 # 1); ((-7) # 5); (0 # 1); (2 # 3); (0 # 1); ((-3) # 10); (1 # 10)]); ((2 # 1), [(1 # 15); ((-8) # 5); (0 # 1); (4 # 3); ((-1) # 1); (3 # 10); ((-1) # 30)])], [((-1) # 1)])%Q;
  d_B := ([((1 # 1), [(0 # 1); (0 # 1); (0 # 1); (4 # 3); (0 # 1); ((-6) # 5); (1 # 2)]); ((2 # 1), [((-1) # 15); (0 # 1); (0 # 1); (8 # 3); ((-3) # 1); (6 # 5); ((-1) # 6)])], [(1 # 1)])%Q;
  d_K1 := ([((1 # 1), [(0 # 1); (1 # 1); (0 # 1); ((-1) # 2); (3 # 16)]); ((2 # 1), [((-1) # 4); (2 # 1); ((-3) # 2); (1 # 2); ((-1) # 16)])], [(3 # 4)])%Q;
  d_K2 := ([((1 # 1), [(0 # 1); (0 # 1); (1 # 2); (0 # 1); ((-3) # 8); (3 # 20)]); ((2 # 1), [((-1) # 20); (0 # 1); (1 # 1); ((-1) # 1); (3 # 8); ((-1) # 20)])], [(7 # 20)])%Q;
  d_cf := [[(1 # 1); (3 # 1); (3 # 2); (1 # 4)]; [(1 # 4); (0 # 1); (0 # 1); (0 # 1)]]%Q;
  d_cdf := Some [[(0 # 1); (3 # 1); (3 # 4)]; [(3 # 4); (0 # 1); (0 # 1)]]%Q;
  d_smooth := true |}.
Lemma M4_fits : kernel_fits M4 dM4.
Proof. constructor; cbv [M4 d_r d_n1 d_n2 d_n3 d_f d_df d_ddf d_A d_B dM4 Rkern norm_1d norm_2d norm_3d f df ddf phi_tilde_3d phi_tilde_3d_prime M4_Rkern M4_hfactd M4_norm_1d M4_norm_2d M4_norm_3d M4_f M4_df M4_ddf M4_phi_tilde_3d M4_phi_tilde_3d_prime]; fits. Qed.
Lemma M4_check : kernel_check dM4 = true.
Proof. vm_compute. reflexivity. Qed.

Definition dM5 : kdata := {|
  d_r := (5 # 2); d_n1 := (1 # 24); d_n2 := (96 # 1199); d_n3 := (1 # 20);
  d_f := ([((1 # 2), [(115 # 8); (0 # 1); ((-15) # 1); (0 # 1); (6 # 1)]); ((3 # 2), [(55 # 4); (5 # 1); ((-30) # 1); (20 # 1); ((-4) # 1)]); ((5 # 2), [(625 # 16); ((-125) # 2); (75 # 2); ((-10) # 1); (1 # 1)])], [])%Q;
  d_df := ([((1 # 2), [(0 # 1); ((-30) # 1); (0 # 1); (24 # 1)]); ((3 # 2), [(5 # 1); ((-60) # 1); (60 # 1); ((-16) # 1)]); ((5 # 2), [((-125) # 2); (75 # 1); ((-30) # 1); (4 # 1)])], [])%Q;
  d_ddf := ([((1 # 2), [((-30) # 1); (0 # 1); (72 # 1)]); ((3 # 2), [((-60) # 1); (120 # 1); ((-48) # 1)]); ((5 # 2), [(75 # 1); ((-60) # 1); (12 # 1)])], [])%Q;
  d_A := ([((1 # 2), [(0 # 1); ((-1199) # 48); (0 # 1); (115 # 12); (0 # 1); ((-3) # 1); (0 # 1); (4 # 7)]); ((3 # 2), [((-1) # 336); ((-599) # 24); (0 # 1); (55 # 6); (5 # 3); ((-6) # 1); (8 # 3); ((-8) # 21)]); ((5 # 2), [(2185 # 672); ((-3125) # 96); (0 # 1); (625 # 24); ((-125) # 6); (15 # 2); ((-4) # 3); (2 # 21)])], [((-20) # 1)])%Q;
  d_B := ([((1 # 2), [(0 # 1); (0 # 1); (0 # 1); (115 # 6); (0 # 1); ((-12) # 1); (0 # 1); (24 # 7)]); ((3 # 2), [(1 # 336); (0 # 1); (0 # 1); (55 # 3); (5 # 1); ((-24) # 1); (40 # 3); ((-16) # 7)]); ((5 # 2), [((-2185) # 672); (0 # 1); (0 # 1); (625 # 12); ((-125) # 2); (30 # 1); ((-20) # 3); (4 # 7)])], [(20 # 1)])%Q;
  d_K1 := ([((1 # 2), [(0 # 1); (115 # 8); (0 # 1); ((-5) # 1); (0 # 1); (6 # 5)]); ((3 # 2), [(1 # 16); (55 # 4); (5 # 2); ((-10) # 1); (5 # 1); ((-4) # 5)]); ((5 # 2), [((-241) # 32); (625 # 16); ((-125) # 4); (25 # 2); ((-5) # 2); (1 # 5)])], [(12 # 1)])%Q;
  d_K2 := ([((1 # 2), [(0 # 1); (0 # 1); (115 # 16); (0 # 1); ((-15) # 4); (0 # 1); (1 # 1)]); ((3 # 2), [(1 # 192); (0 # 1); (55 # 8); (5 # 3); ((-15) # 2); (4 # 1); ((-2) # 3)]); ((5 # 2), [((-727) # 384); (0 # 1); (625 # 32); ((-125) # 6); (75 # 8); ((-2) # 1); (1 # 6)])], [(1199 # 192)])%Q;
  d_cf := [[(230 # 1); (920 # 1); (1320 # 1); (800 # 1); (176 # 1)]; [(11 # 1); (32 # 1); (24 # 1); (8 # 1); (1 # 1)]; [(1 # 1); (0 # 1); (0 # 1); (0 # 1); (0 # 1)]]%Q;
  d_cdf := Some [[(0 # 1); (120 # 1); (240 # 1); (96 # 1)]; [(12 # 1); (48 # 1); (24 # 1); (4 # 1)]; [(4 # 1); (0 # 1); (0 # 1); (0 # 1)]]%Q;
  d_smooth := true |}.
Lemma M5_fits : kernel_fits M5 dM5.
Proof. constructor; cbv [M5 d_r d_n1 d_n2 d_n3 d_f d_df d_ddf d_A d_B dM5 Rkern norm_1d norm_2d norm_3d f df ddf phi_tilde_3d phi_tilde_3d_prime M5_Rkern M5_hfactd M5_norm_1d M5_norm_2d M5_norm_3d M5_f M5_df M5_ddf M5_phi_tilde_3d M5_phi_tilde_3d_prime M4_f M4_df M4_ddf]; fits. Qed.
Lemma M5_check : kernel_check dM5 = true.
Proof. vm_compute. reflexivity. Qed.

Definition dM6 : kdata := {|
  d_r := (3 # 1); d_n1 := (1 # 120); d_n2 := (7 # 478); d_n3 := (1 # 120);
  d_f := ([((1 # 1), [(66 # 1); (0 # 1); ((-60) # 1); (0 # 1); (30 # 1); ((-10) # 1)]); ((2 # 1), [(51 # 1); (75 # 1); ((-210) # 1); (150 # 1); ((-45) # 1); (5 # 1)]); ((3 # 1), [(243 # 1); ((-405) # 1); (270 # 1); ((-90) # 1); (15 # 1); ((-1) # 1)])], [])%Q;
  d_df := ([((1 # 1), [(0 # 1); ((-120) # 1); (0 # 1); (120 # 1); ((-50) # 1)]); ((2 # 1), [(75 # 1); ((-420) # 1); (450 # 1); ((-180) # 1); (25 # 1)]); ((3 # 1), [((-405) # 1); (540 # 1); ((-270) # 1); (60 # 1); ((-5) # 1)])], [])%Q;
  d_ddf := ([((1 # 1), [((-120) # 1); (0 # 1); (360 # 1); ((-200) # 1)]); ((2 # 1), [((-420) # 1); (900 # 1); ((-540) # 1); (100 # 1)]); ((3 # 1), [(540 # 1); ((-540) # 1); (180 # 1); ((-20) # 1)])], [])%Q;
  d_A := ([((1 # 1), [(0 # 1); ((-956) # 7); (0 # 1); (44 # 1); (0 # 1); ((-12) # 1); (0 # 1); (20 # 7); ((-5) # 7)]); ((2 # 1), [((-5) # 14); ((-946) # 7); (0 # 1); (34 # 1); (25 # 1); ((-42) # 1); (20 # 1); ((-30) # 7); (5 # 14)]); ((3 # 1), [(507 # 14); ((-1458) # 7); (0 # 1); (162 # 1); ((-135) # 1); (54 # 1); ((-12) # 1); (10 # 7); ((-1) # 14)])], [((-120) # 1)])%Q;
  d_B := ([((1 # 1), [(0 # 1); (0 # 1); (0 # 1); (88 # 1); (0 # 1); ((-48) # 1); (0 # 1); (120 # 7); ((-5) # 1)]); ((2 # 1), [(5 # 14); (0 # 1); (0 # 1); (68 # 1); (75 # 1); ((-168) # 1); (100 # 1); ((-180) # 7); (5 # 2)]); ((3 # 1), [((-507) # 14); (0 # 1); (0 # 1); (324 # 1); ((-405) # 1); (216 # 1); ((-60) # 1); (60 # 7); ((-1) # 2)])], [(120 # 1)])%Q;
  d_K1 := ([((1 # 1), [(0 # 1); (66 # 1); (0 # 1); ((-20) # 1); (0 # 1); (6 # 1); ((-5) # 3)]); ((2 # 1), [(5 # 2); (51 # 1); (75 # 2); ((-70) # 1); (75 # 2); ((-9) # 1); (5 # 6)]); ((3 # 1), [((-123) # 2); (243 # 1); ((-405) # 2); (90 # 1); ((-45) # 2); (3 # 1); ((-1) # 6)])], [(60 # 1)])%Q;
  d_K2 := ([((1 # 1), [(0 # 1); (0 # 1); (33 # 1); (0 # 1); ((-15) # 1); (0 # 1); (5 # 1); ((-10) # 7)]); ((2 # 1), [(5 # 14); (0 # 1); (51 # 2); (25 # 1); ((-105) # 2); (30 # 1); ((-15) # 2); (5 # 7)]); ((3 # 1), [((-251) # 14); (0 # 1); (243 # 2); ((-135) # 1); (135 # 2); ((-18) # 1); (5 # 2); ((-1) # 7)])], [(239 # 7)])%Q;
  d_cf := [[(66 # 1); (330 # 1); (600 # 1); (480 # 1); (180 # 1); (26 # 1)]; [(26 # 1); (80 # 1); (80 # 1); (40 # 1); (10 # 1); (1 # 1)]; [(1 # 1); (0 # 1); (0 # 1); (0 # 1); (0 # 1); (0 # 1)]]%Q;
  d_cdf := Some [[(0 # 1); (120 # 1); (360 # 1); (240 # 1); (50 # 1)]; [(50 # 1); (160 # 1); (120 # 1); (40 # 1); (5 # 1)]; [(5 # 1); (0 # 1); (0 # 1); (0 # 1); (0 # 1)]]%Q;
  d_smooth := true |}.
Lemma M6_fits : kernel_fits M6 dM6.
Proof. constructor; cbv [M6 d_r d_n1 d_n2 d_n3 d_f d_df d_ddf d_A d_B dM6 Rkern norm_1d norm_2d norm_3d f df ddf phi_tilde_3d phi_tilde_3d_prime M6_Rkern M6_hfactd M6_norm_1d M6_norm_2d M6_norm_3d M6_f M6_df M6_ddf M6_phi_tilde_3d M6_phi_tilde_3d_prime M4_f M4_df M4_ddf]; fits. Qed.
Lemma M6_check : kernel_check dM6 = true.
Proof. vm_compute. reflexivity. Qed.

Definition dM7 : kdata := {|
  d_r := (7 # 2); d_n1 := (1 # 720); d_n2 := (256 # 113149); d_n3 := (1 # 840);
  d_f := ([((1 # 2), [(5887 # 16); (0 # 1); ((-1155) # 4); (0 # 1); (105 # 1); (0 # 1); ((-20) # 1)]); ((3 # 2), [(23583 # 64); ((-105) # 16); ((-4095) # 16); ((-175) # 2); (945 # 4); ((-105) # 1); (15 # 1)]); ((5 # 2), [(4137 # 32); (3801 # 4); ((-14805) # 8); (1330 # 1); ((-945) # 2); (84 # 1); ((-6) # 1)]); ((7 # 2), [(117649 # 64); ((-50421) # 16); (36015 # 16); ((-1715) # 2); (735 # 4); ((-21) # 1); (1 # 1)])], [])%Q;
  d_df := ([((1 # 2), [(0 # 1); ((-1155) # 2); (0 # 1); (420 # 1); (0 # 1); ((-120) # 1)]); ((3 # 2), [((-105) # 16); ((-4095) # 8); ((-525) # 2); (945 # 1); ((-525) # 1); (90 # 1)]); ((5 # 2), [(3801 # 4); ((-14805) # 4); (3990 # 1); ((-1890) # 1); (420 # 1); ((-36) # 1)]); ((7 # 2), [((-50421) # 16); (36015 # 8); ((-5145) # 2); (735 # 1); ((-105) # 1); (6 # 1)])], [])%Q;
  d_ddf := ([((1 # 2), [((-1155) # 2); (0 # 1); (1260 # 1); (0 # 1); ((-600) # 1)]); ((3 # 2), [((-4095) # 8); ((-525) # 1); (2835 # 1); ((-2100) # 1); (450 # 1)]); ((5 # 2), [((-14805) # 4); (7980 # 1); ((-5670) # 1); (1680 # 1); ((-180) # 1)]); ((7 # 2), [(36015 # 8); ((-5145) # 1); (2205 # 1); ((-420) # 1); (30 # 1)])], [])%Q;
  d_A := ([((1 # 2), [(0 # 1); ((-113149) # 128); (0 # 1); (5887 # 24); (0 # 1); ((-231) # 4); (0 # 1); (10 # 1); (0 # 1); ((-10) # 9)]); ((3 # 2), [(5 # 4608); ((-452601) # 512); (0 # 1); (7861 # 32); ((-35) # 16); ((-819) # 16); ((-35) # 3); (45 # 2); ((-15) # 2); (5 # 6)]); ((5 # 2), [((-14761) # 1152); ((-216459) # 256); (0 # 1); (1379 # 16); (1267 # 4); ((-2961) # 8); (532 # 3); ((-45) # 1); (6 # 1); ((-1) # 3)]); ((7 # 2), [(1894081 # 4608); ((-823543) # 512); (0 # 1); (117649 # 96); ((-16807) # 16); (7203 # 16); ((-343) # 3); (35 # 2); ((-3) # 2); (1 # 18)])], [((-840) # 1)])%Q;
  d_B := ([((1 # 2), [(0 # 1); (0 # 1); (0 # 1); (5887 # 12); (0 # 1); ((-231) # 1); (0 # 1); (60 # 1); (0 # 1); ((-80) # 9)]); ((3 # 2), [((-5) # 4608); (0 # 1); (0 # 1); (7861 # 16); ((-105) # 16); ((-819) # 4); ((-175) # 3); (135 # 1); ((-105) # 2); (20 # 3)]); ((5 # 2), [(14761 # 1152); (0 # 1); (0 # 1); (1379 # 8); (3801 # 4); ((-2961) # 2); (2660 # 3); ((-270) # 1); (42 # 1); ((-8) # 3)]); ((7 # 2), [((-1894081) # 4608); (0 # 1); (0 # 1); (117649 # 48); ((-50421) # 16); (7203 # 4); ((-1715) # 3); (105 # 1); ((-21) # 2); (4 # 9)])], [(840 # 1)])%Q;
  d_K1 := ([((1 # 2), [(0 # 1); (5887 # 16); (0 # 1); ((-385) # 4); (0 # 1); (21 # 1); (0 # 1); ((-20) # 7)]); ((3 # 2), [((-5) # 128); (23583 # 64); ((-105) # 32); ((-1365) # 16); ((-175) # 8); (189 # 4); ((-35) # 2); (15 # 7)]); ((5 # 2), [(1639 # 32); (4137 # 32); (3801 # 8); ((-4935) # 8); (665 # 2); ((-189) # 2); (14 # 1); ((-6) # 7)]); ((7 # 2), [((-71569) # 128); (117649 # 64); ((-50421) # 32); (12005 # 16); ((-1715) # 8); (147 # 4); ((-7) # 2); (1 # 7)])], [(360 # 1)])%Q;
  d_K2 := ([((1 # 2), [(0 # 1); (0 # 1); (5887 # 32); (0 # 1); ((-1155) # 16); (0 # 1); (35 # 2); (0 # 1); ((-5) # 2)]); ((3 # 2), [((-5) # 2048); (0 # 1); (23583 # 128); ((-35) # 16); ((-4095) # 64); ((-35) # 2); (315 # 8); ((-15) # 1); (15 # 8)]); ((5 # 2), [(9839 # 1024); (0 # 1); (4137 # 64); (1267 # 4); ((-14805) # 32); (266 # 1); ((-315) # 4); (12 # 1); ((-3) # 4)]); ((7 # 2), [((-370947) # 2048); (0 # 1); (117649 # 128); ((-16807) # 16); (36015 # 64); ((-343) # 2); (245 # 8); ((-3) # 1); (1 # 8)])], [(113149 # 512)])%Q;
  d_cf := [[(23548 # 1); (141288 # 1); (348600 # 1); (452480 # 1); (325920 # 1); (123648 # 1); (19328 # 1)]; [(302 # 1); (1572 # 1); (3180 # 1); (3200 # 1); (1740 # 1); (492 # 1); (57 # 1)]; [(57 # 1); (192 # 1); (240 # 1); (160 # 1); (60 # 1); (12 # 1); (1 # 1)]; [(1 # 1); (0 # 1); (0 # 1); (0 # 1); (0 # 1); (0 # 1); (0 # 1)]]%Q;
  d_cdf := Some [[(0 # 1); (9240 # 1); (36960 # 1); (53760 # 1); (33600 # 1); (7680 # 1)]; [(240 # 1); (1500 # 1); (3120 # 1); (2640 # 1); (1020 # 1); (150 # 1)]; [(150 # 1); (480 # 1); (480 # 1); (240 # 1); (60 # 1); (6 # 1)]; [(6 # 1); (0 # 1); (0 # 1); (0 # 1); (0 # 1); (0 # 1)]]%Q;
  d_smooth := true |}.
Lemma M7_fits : kernel_fits M7 dM7.
Proof. constructor; cbv [M7 d_r d_n1 d_n2 d_n3 d_f d_df d_ddf d_A d_B dM7 Rkern norm_1d norm_2d norm_3d f df ddf phi_tilde_3d phi_tilde_3d_prime M7_Rkern M7_hfactd M7_norm_1d M7_norm_2d M7_norm_3d M7_f M7_df M7_ddf M7_phi_tilde_3d M7_phi_tilde_3d_prime M4_f M4_df M4_ddf]; fits. Qed.
Lemma M7_check : kernel_check dM7 = true.
Proof. vm_compute. reflexivity. Qed.
