(** Piecewise polynomial forms of the kernels M10, C2, C4, C6 (proposed by tools/kernels2coq.py, checked here). *)
Require Import Reals Lra QArith Qreals List.
From Verif Require Import Pwpoly Sphker Sphker_check.
Import ListNotations.
Local Open Scope R_scope.

Definition dM10 : kdata := {|
  d_r := (5 # 1); d_n1 := (1 # 362880); d_n2 := (11 # 2922230); d_n3 := (1 # 604800);
  d_f := ([((1 # 1), [(156190 # 1); (0 # 1); ((-88200) # 1); (0 # 1); (23940 # 1); (0 # 1); ((-4200) # 1); (0 # 1); (630 # 1); ((-126) # 1)]); ((2 # 1), [(155980 # 1); (1890 # 1); ((-95760) # 1); (17640 # 1); ((-2520) # 1); (26460 # 1); ((-21840) # 1); (7560 # 1); ((-1260) # 1); (84 # 1)]); ((3 # 1), [(217420 # 1); ((-274590) # 1); (457200 # 1); ((-627480) # 1); (481320 # 1); ((-215460) # 1); (58800 # 1); ((-9720) # 1); (900 # 1); ((-36) # 1)]); ((4 # 1), [((-668315) # 1); (2382615 # 1); ((-3085740) # 1); (2128140 # 1); ((-896490) # 1); (243810 # 1); ((-43260) # 1); (4860 # 1); ((-315) # 1); (9 # 1)]); ((5 # 1), [(1953125 # 1); ((-3515625) # 1); (2812500 # 1); ((-1312500) # 1); (393750 # 1); ((-78750) # 1); (10500 # 1); ((-900) # 1); (45 # 1); ((-1) # 1)])], [])%Q;
  d_df := ([((1 # 1), [(0 # 1); ((-176400) # 1); (0 # 1); (95760 # 1); (0 # 1); ((-25200) # 1); (0 # 1); (5040 # 1); ((-1134) # 1)]); ((2 # 1), [(1890 # 1); ((-191520) # 1); (52920 # 1); ((-10080) # 1); (132300 # 1); ((-131040) # 1); (52920 # 1); ((-10080) # 1); (756 # 1)]); ((3 # 1), [((-274590) # 1); (914400 # 1); ((-1882440) # 1); (1925280 # 1); ((-1077300) # 1); (352800 # 1); ((-68040) # 1); (7200 # 1); ((-324) # 1)]); ((4 # 1), [(2382615 # 1); ((-6171480) # 1); (6384420 # 1); ((-3585960) # 1); (1219050 # 1); ((-259560) # 1); (34020 # 1); ((-2520) # 1); (81 # 1)]); ((5 # 1), [((-3515625) # 1); (5625000 # 1); ((-3937500) # 1); (1575000 # 1); ((-393750) # 1); (63000 # 1); ((-6300) # 1); (360 # 1); ((-9) # 1)])], [])%Q;
  d_ddf := ([((1 # 1), [((-176400) # 1); (0 # 1); (287280 # 1); (0 # 1); ((-126000) # 1); (0 # 1); (35280 # 1); ((-9072) # 1)]); ((2 # 1), [((-191520) # 1); (105840 # 1); ((-30240) # 1); (529200 # 1); ((-655200) # 1); (317520 # 1); ((-70560) # 1); (6048 # 1)]); ((3 # 1), [(914400 # 1); ((-3764880) # 1); (5775840 # 1); ((-4309200) # 1); (1764000 # 1); ((-408240) # 1); (50400 # 1); ((-2592) # 1)]); ((4 # 1), [((-6171480) # 1); (12768840 # 1); ((-10757880) # 1); (4876200 # 1); ((-1297800) # 1); (204120 # 1); ((-17640) # 1); (648 # 1)]); ((5 # 1), [(5625000 # 1); ((-7875000) # 1); (4725000 # 1); ((-1575000) # 1); (315000 # 1); ((-37800) # 1); (2520 # 1); ((-72) # 1)])], [])%Q;
  d_A := ([((1 # 1), [(0 # 1); ((-5844460) # 11); (0 # 1); (312380 # 3); (0 # 1); ((-17640) # 1); (0 # 1); (2280 # 1); (0 # 1); ((-700) # 3); (0 # 1); (252 # 11); ((-42) # 11)]); ((2 # 1), [((-14) # 11); ((-5844376) # 11); (0 # 1); (311960 # 3); (630 # 1); ((-19152) # 1); (2352 # 1); ((-240) # 1); (1890 # 1); ((-3640) # 3); (336 # 1); ((-504) # 11); (28 # 11)]); ((3 # 1), [(32754 # 11); ((-5942680) # 11); (0 # 1); (434840 # 3); ((-91530) # 1); (91440 # 1); ((-83664) # 1); (45840 # 1); ((-15390) # 1); (9800 # 3); ((-432) # 1); (360 # 11); ((-12) # 11)]); ((4 # 1), [((-1561569) # 11); ((-2754034) # 11); (0 # 1); ((-1336630) # 3); (794205 # 1); ((-617148) # 1); (283752 # 1); ((-85380) # 1); (17415 # 1); ((-7210) # 3); (216 # 1); ((-126) # 11); (3 # 11)]); ((5 # 1), [(28869725 # 33); ((-19531250) # 11); (0 # 1); (3906250 # 3); ((-1171875) # 1); (562500 # 1); ((-175000) # 1); (37500 # 1); ((-5625) # 1); (1750 # 3); ((-40) # 1); (18 # 11); ((-1) # 33)])], [((-604800) # 1)])%Q;
  d_B := ([((1 # 1), [(0 # 1); (0 # 1); (0 # 1); (624760 # 3); (0 # 1); ((-70560) # 1); (0 # 1); (13680 # 1); (0 # 1); ((-5600) # 3); (0 # 1); (2520 # 11); ((-42) # 1)]); ((2 # 1), [(14 # 11); (0 # 1); (0 # 1); (623920 # 3); (1890 # 1); ((-76608) # 1); (11760 # 1); ((-1440) # 1); (13230 # 1); ((-29120) # 3); (3024 # 1); ((-5040) # 11); (28 # 1)]); ((3 # 1), [((-32754) # 11); (0 # 1); (0 # 1); (869680 # 3); ((-274590) # 1); (365760 # 1); ((-418320) # 1); (275040 # 1); ((-107730) # 1); (78400 # 3); ((-3888) # 1); (3600 # 11); ((-12) # 1)]); ((4 # 1), [(1561569 # 11); (0 # 1); (0 # 1); ((-2673260) # 3); (2382615 # 1); ((-2468592) # 1); (1418760 # 1); ((-512280) # 1); (121905 # 1); ((-57680) # 3); (1944 # 1); ((-1260) # 11); (3 # 1)]); ((5 # 1), [((-28869725) # 33); (0 # 1); (0 # 1); (7812500 # 3); ((-3515625) # 1); (2250000 # 1); ((-875000) # 1); (225000 # 1); ((-39375) # 1); (14000 # 3); ((-360) # 1); (180 # 11); ((-1) # 3)])], [(604800 # 1)])%Q;
  d_K1 := ([((1 # 1), [(0 # 1); (156190 # 1); (0 # 1); ((-29400) # 1); (0 # 1); (4788 # 1); (0 # 1); ((-600) # 1); (0 # 1); (70 # 1); ((-63) # 5)]); ((2 # 1), [(21 # 1); (155980 # 1); (945 # 1); ((-31920) # 1); (4410 # 1); ((-504) # 1); (4410 # 1); ((-3120) # 1); (945 # 1); ((-140) # 1); (42 # 5)]); ((3 # 1), [((-12267) # 1); (217420 # 1); ((-137295) # 1); (152400 # 1); ((-156870) # 1); (96264 # 1); ((-35910) # 1); (8400 # 1); ((-1215) # 1); (100 # 1); ((-18) # 5)]); ((4 # 1), [(506907 # 2); ((-668315) # 1); (2382615 # 2); ((-1028580) # 1); (532035 # 1); ((-179298) # 1); (40635 # 1); ((-6180) # 1); (1215 # 2); ((-35) # 1); (9 # 10)]); ((5 # 1), [((-1590245) # 2); (1953125 # 1); ((-3515625) # 2); (937500 # 1); ((-328125) # 1); (78750 # 1); ((-13125) # 1); (1500 # 1); ((-225) # 2); (5 # 1); ((-1) # 10)])], [(181440 # 1)])%Q;
  d_K2 := ([((1 # 1), [(0 # 1); (0 # 1); (78095 # 1); (0 # 1); ((-22050) # 1); (0 # 1); (3990 # 1); (0 # 1); ((-525) # 1); (0 # 1); (63 # 1); ((-126) # 11)]); ((2 # 1), [(21 # 11); (0 # 1); (77990 # 1); (630 # 1); ((-23940) # 1); (3528 # 1); ((-420) # 1); (3780 # 1); ((-2730) # 1); (840 # 1); ((-126) # 1); (84 # 11)]); ((3 # 1), [((-24555) # 11); (0 # 1); (108710 # 1); ((-91530) # 1); (114300 # 1); ((-125496) # 1); (80220 # 1); ((-30780) # 1); (7350 # 1); ((-1080) # 1); (90 # 1); ((-36) # 11)]); ((4 # 1), [(1545213 # 22); (0 # 1); ((-668315) # 2); (794205 # 1); ((-771435) # 1); (425628 # 1); ((-149415) # 1); (34830 # 1); ((-10815) # 2); (540 # 1); ((-63) # 2); (9 # 11)]); ((5 # 1), [((-6843395) # 22); (0 # 1); (1953125 # 2); ((-1171875) # 1); (703125 # 1); ((-262500) # 1); (65625 # 1); ((-11250) # 1); (2625 # 2); ((-100) # 1); (9 # 2); ((-1) # 11)])], [(1461115 # 11)])%Q;
  d_cf := [[(156190 # 1); (1405710 # 1); (5534640 # 1); (12502560 # 1); (17851680 # 1); (16712640 # 1); (10268160 # 1); (3997440 # 1); (896040 # 1); (88234 # 1)]; [(88234 # 1); (692172 # 1); (2366496 # 1); (4632768 # 1); (5733504 # 1); (4663008 # 1); (2497824 # 1); (851472 # 1); (167886 # 1); (14608 # 1)]; [(14608 # 1); (95058 # 1); (268848 # 1); (436128 # 1); (449568 # 1); (306432 # 1); (138432 # 1); (40032 # 1); (6732 # 1); (502 # 1)]; [(502 # 1); (2304 # 1); (4608 # 1); (5376 # 1); (4032 # 1); (2016 # 1); (672 # 1); (144 # 1); (18 # 1); (1 # 1)]; [(1 # 1); (0 # 1); (0 # 1); (0 # 1); (0 # 1); (0 # 1); (0 # 1); (0 # 1); (0 # 1); (0 # 1)]]%Q;
  d_cdf := Some [[(0 # 1); (176400 # 1); (1234800 # 1); (3608640 # 1); (5695200 # 1); (5241600 # 1); (2822400 # 1); (826560 # 1); (101934 # 1)]; [(101934 # 1); (804384 # 1); (2667168 # 1); (4862592 # 1); (5352480 # 1); (3665088 # 1); (1533168 # 1); (359856 # 1); (36414 # 1)]; [(36414 # 1); (222768 # 1); (573552 # 1); (818496 # 1); (715680 # 1); (395136 # 1); (135072 # 1); (26208 # 1); (2214 # 1)]; [(2214 # 1); (9216 # 1); (16128 # 1); (16128 # 1); (10080 # 1); (4032 # 1); (1008 # 1); (144 # 1); (9 # 1)]; [(9 # 1); (0 # 1); (0 # 1); (0 # 1); (0 # 1); (0 # 1); (0 # 1); (0 # 1); (0 # 1)]]%Q;
  d_smooth := true |}.
Lemma M10_fits : kernel_fits M10 dM10.
Proof. constructor; cbv [M10 d_r d_n1 d_n2 d_n3 d_f d_df d_ddf d_A d_B dM10 Rkern norm_1d norm_2d norm_3d f df ddf phi_tilde_3d phi_tilde_3d_prime M10_Rkern M10_hfactd M10_norm_1d M10_norm_2d M10_norm_3d M10_f M10_df M10_ddf M10_phi_tilde_3d M10_phi_tilde_3d_prime M4_f M4_df M4_ddf]; fits. Qed.
Lemma M10_check : kernel_check dM10 = true.
Proof. vm_compute. reflexivity. Qed.

Definition dC2 : kdata := {|
  d_r := (2 # 1); d_n1 := (3 # 4); d_n2 := (7 # 4); d_n3 := (21 # 16);
  d_f := ([((2 # 1), [(1 # 1); (0 # 1); ((-5) # 2); (5 # 2); ((-15) # 16); (1 # 8)])], [])%Q;
  d_df := ([((2 # 1), [(0 # 1); ((-5) # 1); (15 # 2); ((-15) # 4); (5 # 8)])], [])%Q;
  d_ddf := ([((2 # 1), [((-5) # 1); (15 # 1); ((-45) # 4); (5 # 2)])], [])%Q;
  d_A := ([((2 # 1), [(0 # 1); ((-8) # 7); (0 # 1); (2 # 3); (0 # 1); ((-1) # 2); (1 # 3); ((-5) # 56); (1 # 112)])], [((-16) # 21)])%Q;
  d_B := ([((2 # 1), [(0 # 1); (0 # 1); (0 # 1); (4 # 3); (0 # 1); ((-2) # 1); (5 # 3); ((-15) # 28); (1 # 16)])], [(16 # 21)])%Q;
  d_K1 := ([((2 # 1), [(0 # 1); (1 # 1); (0 # 1); ((-5) # 6); (5 # 8); ((-3) # 16); (1 # 48)])], [(2 # 3)])%Q;
  d_K2 := ([((2 # 1), [(0 # 1); (0 # 1); (1 # 2); (0 # 1); ((-5) # 8); (1 # 2); ((-5) # 32); (1 # 56)])], [(2 # 7)])%Q;
  d_cf := [[(1 # 32); (5 # 32); (0 # 1); (0 # 1); (0 # 1); (0 # 1)]]%Q;
  d_cdf := Some [[(0 # 1); (5 # 8); (0 # 1); (0 # 1); (0 # 1)]]%Q;
  d_smooth := true |}.
Lemma C2_fits : kernel_fits C2 dC2.
Proof. constructor; cbv [C2 d_r d_n1 d_n2 d_n3 d_f d_df d_ddf d_A d_B dC2 Rkern norm_1d norm_2d norm_3d f df ddf phi_tilde_3d phi_tilde_3d_prime C2_Rkern C2_hfactd C2_norm_1d C2_norm_2d C2_norm_3d C2_f C2_df C2_ddf C2_phi_tilde_3d C2_phi_tilde_3d_prime M4_f M4_df M4_ddf]; fits. Qed.
Lemma C2_check : kernel_check dC2 = true.
Proof. vm_compute. reflexivity. Qed.

Definition dC4 : kdata := {|
  d_r := (2 # 1); d_n1 := (27 # 32); d_n2 := (9 # 4); d_n3 := (495 # 256);
  d_f := ([((2 # 1), [(1 # 1); (0 # 1); ((-7) # 3); (0 # 1); (35 # 8); ((-14) # 3); (35 # 16); ((-1) # 2); (35 # 768)])], [])%Q;
  d_df := ([((2 # 1), [(0 # 1); ((-14) # 3); (0 # 1); (35 # 2); ((-70) # 3); (105 # 8); ((-7) # 2); (35 # 96)])], [])%Q;
  d_ddf := ([((2 # 1), [((-14) # 3); (0 # 1); (105 # 2); ((-280) # 3); (525 # 8); ((-21) # 1); (245 # 96)])], [])%Q;
  d_A := ([((2 # 1), [(0 # 1); ((-8) # 9); (0 # 1); (2 # 3); (0 # 1); ((-7) # 15); (0 # 1); (5 # 12); ((-1) # 3); (35 # 288); ((-1) # 45); (7 # 4224)])], [((-256) # 495)])%Q;
  d_B := ([((2 # 1), [(0 # 1); (0 # 1); (0 # 1); (4 # 3); (0 # 1); ((-28) # 15); (0 # 1); (5 # 2); ((-7) # 3); (35 # 36); ((-1) # 5); (35 # 2112)])], [(256 # 495)])%Q;
  d_K1 := ([((2 # 1), [(0 # 1); (1 # 1); (0 # 1); ((-7) # 9); (0 # 1); (7 # 8); ((-7) # 9); (5 # 16); ((-1) # 16); (35 # 6912)])], [(16 # 27)])%Q;
  d_K2 := ([((2 # 1), [(0 # 1); (0 # 1); (1 # 2); (0 # 1); ((-7) # 12); (0 # 1); (35 # 48); ((-2) # 3); (35 # 128); ((-1) # 18); (7 # 1536)])], [(2 # 9)])%Q;
  d_cf := [[(1 # 256); (1 # 32); (7 # 96); (0 # 1); (0 # 1); (0 # 1); (0 # 1); (0 # 1); (0 # 1)]]%Q;
  d_cdf := Some [[(0 # 1); (7 # 96); (7 # 16); (0 # 1); (0 # 1); (0 # 1); (0 # 1); (0 # 1)]]%Q;
  d_smooth := true |}.
Lemma C4_fits : kernel_fits C4 dC4.
Proof. constructor; cbv [C4 d_r d_n1 d_n2 d_n3 d_f d_df d_ddf d_A d_B dC4 Rkern norm_1d norm_2d norm_3d f df ddf phi_tilde_3d phi_tilde_3d_prime C4_Rkern C4_hfactd C4_norm_1d C4_norm_2d C4_norm_3d C4_f C4_df C4_ddf C4_phi_tilde_3d C4_phi_tilde_3d_prime M4_f M4_df M4_ddf]; fits. Qed.
Lemma C4_check : kernel_check dC4 = true.
Proof. vm_compute. reflexivity. Qed.

Definition dC6 : kdata := {|
  d_r := (2 # 1); d_n1 := (15 # 16); d_n2 := (39 # 14); d_n3 := (1365 # 512);
  d_f := ([((2 # 1), [(1 # 1); (0 # 1); ((-11) # 4); (0 # 1); (33 # 8); (0 # 1); ((-231) # 32); (33 # 4); ((-1155) # 256); (11 # 8); ((-231) # 1024); (1 # 64)])], [])%Q;
  d_df := ([((2 # 1), [(0 # 1); ((-11) # 2); (0 # 1); (33 # 2); (0 # 1); ((-693) # 16); (231 # 4); ((-1155) # 32); (99 # 8); ((-1155) # 512); (11 # 64)])], [])%Q;
  d_ddf := ([((2 # 1), [((-11) # 2); (0 # 1); (99 # 2); (0 # 1); ((-3465) # 16); (693 # 2); ((-8085) # 32); (99 # 1); ((-10395) # 512); (55 # 32)])], [])%Q;
  d_A := ([((2 # 1), [(0 # 1); ((-28) # 39); (0 # 1); (2 # 3); (0 # 1); ((-11) # 20); (0 # 1); (11 # 28); (0 # 1); ((-77) # 192); (11 # 30); ((-21) # 128); (1 # 24); ((-77) # 13312); (1 # 2912)])], [((-512) # 1365)])%Q;
  d_B := ([((2 # 1), [(0 # 1); (0 # 1); (0 # 1); (4 # 3); (0 # 1); ((-11) # 5); (0 # 1); (33 # 14); (0 # 1); ((-77) # 24); (33 # 10); ((-105) # 64); (11 # 24); ((-231) # 3328); (1 # 224)])], [(512 # 1365)])%Q;
  d_K1 := ([((2 # 1), [(0 # 1); (1 # 1); (0 # 1); ((-11) # 12); (0 # 1); (33 # 40); (0 # 1); ((-33) # 32); (33 # 32); ((-385) # 768); (11 # 80); ((-21) # 1024); (1 # 768)])], [(8 # 15)])%Q;
  d_K2 := ([((2 # 1), [(0 # 1); (0 # 1); (1 # 2); (0 # 1); ((-11) # 16); (0 # 1); (11 # 16); (0 # 1); ((-231) # 256); (11 # 12); ((-231) # 512); (1 # 8); ((-77) # 4096); (1 # 832)])], [(7 # 39)])%Q;
  d_cf := [[(1 # 2048); (11 # 2048); (11 # 512); (33 # 1024); (0 # 1); (0 # 1); (0 # 1); (0 # 1); (0 # 1); (0 # 1); (0 # 1); (0 # 1)]]%Q;
  d_cdf := Some [[(0 # 1); (11 # 1024); (99 # 1024); (33 # 128); (0 # 1); (0 # 1); (0 # 1); (0 # 1); (0 # 1); (0 # 1); (0 # 1)]]%Q;
  d_smooth := true |}.
Lemma C6_fits : kernel_fits C6 dC6.
Proof. constructor; cbv [C6 d_r d_n1 d_n2 d_n3 d_f d_df d_ddf d_A d_B dC6 Rkern norm_1d norm_2d norm_3d f df ddf phi_tilde_3d phi_tilde_3d_prime C6_Rkern C6_hfactd C6_norm_1d C6_norm_2d C6_norm_3d C6_f C6_df C6_ddf C6_phi_tilde_3d C6_phi_tilde_3d_prime M4_f M4_df M4_ddf]; fits. Qed.
Lemma C6_check : kernel_check dC6 = true.
Proof. vm_compute. reflexivity. Qed.
