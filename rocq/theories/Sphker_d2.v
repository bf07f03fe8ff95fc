(** Piecewise polynomial forms of the kernels M8, M9 (proposed by tools/kernels2coq.py, checked here). *)
Require Import Reals Lra QArith Qreals List.
From Verif Require Import Pwpoly Sphker Sphker_check.
Import ListNotations.
Local Open Scope R_scope.

Definition dM8 : kdata := {|
  d_r := (4 # 1); d_n1 := (1 # 5040); d_n2 := (9 # 29740); d_n3 := (1 # 6720);
  d_f := ([((1 # 1), [(2416 # 1); (0 # 1); ((-1680) # 1); (0 # 1); (560 # 1); (0 # 1); ((-140) # 1); (35 # 1)]); ((2 # 1), [(2472 # 1); ((-392) # 1); ((-504) # 1); ((-1960) # 1); (2520 # 1); ((-1176) # 1); (252 # 1); ((-21) # 1)]); ((3 # 1), [((-1112) # 1); (12152 # 1); ((-19320) # 1); (13720 # 1); ((-5320) # 1); (1176 # 1); ((-140) # 1); (7 # 1)]); ((4 # 1), [(16384 # 1); ((-28672) # 1); (21504 # 1); ((-8960) # 1); (2240 # 1); ((-336) # 1); (28 # 1); ((-1) # 1)])], [])%Q;
  d_df := ([((1 # 1), [(0 # 1); ((-3360) # 1); (0 # 1); (2240 # 1); (0 # 1); ((-840) # 1); (245 # 1)]); ((2 # 1), [((-392) # 1); ((-1008) # 1); ((-5880) # 1); (10080 # 1); ((-5880) # 1); (1512 # 1); ((-147) # 1)]); ((3 # 1), [(12152 # 1); ((-38640) # 1); (41160 # 1); ((-21280) # 1); (5880 # 1); ((-840) # 1); (49 # 1)]); ((4 # 1), [((-28672) # 1); (43008 # 1); ((-26880) # 1); (8960 # 1); ((-1680) # 1); (168 # 1); ((-7) # 1)])], [])%Q;
  d_ddf := ([((1 # 1), [((-3360) # 1); (0 # 1); (6720 # 1); (0 # 1); ((-4200) # 1); (1470 # 1)]); ((2 # 1), [((-1008) # 1); ((-11760) # 1); (30240 # 1); ((-23520) # 1); (7560 # 1); ((-882) # 1)]); ((3 # 1), [((-38640) # 1); (82320 # 1); ((-63840) # 1); (23520 # 1); ((-4200) # 1); (294 # 1)]); ((4 # 1), [(43008 # 1); ((-53760) # 1); (26880 # 1); ((-6720) # 1); (840 # 1); ((-42) # 1)])], [])%Q;
  d_A := ([((1 # 1), [(0 # 1); ((-59480) # 9); (0 # 1); (4832 # 3); (0 # 1); ((-336) # 1); (0 # 1); (160 # 3); (0 # 1); ((-70) # 9); (14 # 9)]); ((2 # 1), [(28 # 45); ((-6612) # 1); (0 # 1); (1648 # 1); ((-392) # 3); ((-504) # 5); ((-784) # 3); (240 # 1); ((-84) # 1); (14 # 1); ((-14) # 15)]); ((3 # 1), [((-14308) # 45); ((-52340) # 9); (0 # 1); ((-2224) # 3); (12152 # 3); ((-3864) # 1); (5488 # 3); ((-1520) # 3); (84 # 1); ((-70) # 9); (14 # 45)]); ((4 # 1), [(221888 # 45); ((-131072) # 9); (0 # 1); (32768 # 3); ((-28672) # 3); (21504 # 5); ((-3584) # 3); (640 # 3); ((-24) # 1); (14 # 9); ((-2) # 45)])], [((-6720) # 1)])%Q;
  d_B := ([((1 # 1), [(0 # 1); (0 # 1); (0 # 1); (9664 # 3); (0 # 1); ((-1344) # 1); (0 # 1); (320 # 1); (0 # 1); ((-560) # 9); (14 # 1)]); ((2 # 1), [((-28) # 45); (0 # 1); (0 # 1); (3296 # 1); ((-392) # 1); ((-2016) # 5); ((-3920) # 3); (1440 # 1); ((-588) # 1); (112 # 1); ((-42) # 5)]); ((3 # 1), [(14308 # 45); (0 # 1); (0 # 1); ((-4448) # 3); (12152 # 1); ((-15456) # 1); (27440 # 3); ((-3040) # 1); (588 # 1); ((-560) # 9); (14 # 5)]); ((4 # 1), [((-221888) # 45); (0 # 1); (0 # 1); (65536 # 3); ((-28672) # 1); (86016 # 5); ((-17920) # 3); (1280 # 1); ((-168) # 1); (112 # 9); ((-2) # 5)])], [(6720 # 1)])%Q;
  d_K1 := ([((1 # 1), [(0 # 1); (2416 # 1); (0 # 1); ((-560) # 1); (0 # 1); (112 # 1); (0 # 1); ((-20) # 1); (35 # 8)]); ((2 # 1), [((-7) # 1); (2472 # 1); ((-196) # 1); ((-168) # 1); ((-490) # 1); (504 # 1); ((-196) # 1); (36 # 1); ((-21) # 8)]); ((3 # 1), [(889 # 1); ((-1112) # 1); (6076 # 1); ((-6440) # 1); (3430 # 1); ((-1064) # 1); (196 # 1); ((-20) # 1); (7 # 8)]); ((4 # 1), [((-5672) # 1); (16384 # 1); ((-14336) # 1); (7168 # 1); ((-2240) # 1); (448 # 1); ((-56) # 1); (4 # 1); ((-1) # 8)])], [(2520 # 1)])%Q;
  d_K2 := ([((1 # 1), [(0 # 1); (0 # 1); (1208 # 1); (0 # 1); ((-420) # 1); (0 # 1); (280 # 3); (0 # 1); ((-35) # 2); (35 # 9)]); ((2 # 1), [((-7) # 9); (0 # 1); (1236 # 1); ((-392) # 3); ((-126) # 1); ((-392) # 1); (420 # 1); ((-168) # 1); (63 # 2); ((-7) # 3)]); ((3 # 1), [(595 # 3); (0 # 1); ((-556) # 1); (12152 # 3); ((-4830) # 1); (2744 # 1); ((-2660) # 3); (168 # 1); ((-35) # 2); (7 # 9)]); ((4 # 1), [((-5966) # 3); (0 # 1); (8192 # 1); ((-28672) # 3); (5376 # 1); ((-1792) # 1); (1120 # 3); ((-48) # 1); (7 # 2); ((-1) # 9)])], [(14870 # 9)])%Q;
  d_cf := [[(2416 # 1); (16912 # 1); (49056 # 1); (76160 # 1); (68320 # 1); (35616 # 1); (10052 # 1); (1191 # 1)]; [(1191 # 1); (6622 # 1); (15036 # 1); (18200 # 1); (12880 # 1); (5376 # 1); (1232 # 1); (120 # 1)]; [(120 # 1); (448 # 1); (672 # 1); (560 # 1); (280 # 1); (84 # 1); (14 # 1); (1 # 1)]; [(1 # 1); (0 # 1); (0 # 1); (0 # 1); (0 # 1); (0 # 1); (0 # 1); (0 # 1)]]%Q;
  d_cdf := Some [[(0 # 1); (3360 # 1); (16800 # 1); (31360 # 1); (26880 # 1); (10920 # 1); (1715 # 1)]; [(1715 # 1); (9660 # 1); (20580 # 1); (21280 # 1); (11760 # 1); (3360 # 1); (392 # 1)]; [(392 # 1); (1344 # 1); (1680 # 1); (1120 # 1); (420 # 1); (84 # 1); (7 # 1)]; [(7 # 1); (0 # 1); (0 # 1); (0 # 1); (0 # 1); (0 # 1); (0 # 1)]]%Q;
  d_smooth := true |}.
Lemma M8_fits : kernel_fits M8 dM8.
Proof. constructor; cbv [M8 d_r d_n1 d_n2 d_n3 d_f d_df d_ddf d_A d_B dM8 Rkern norm_1d norm_2d norm_3d f df ddf phi_tilde_3d phi_tilde_3d_prime M8_Rkern M8_hfactd M8_norm_1d M8_norm_2d M8_norm_3d M8_f M8_df M8_ddf M8_phi_tilde_3d M8_phi_tilde_3d_prime M4_f M4_df M4_ddf]; fits. Qed.
Lemma M8_check : kernel_check dM8 = true.
Proof. vm_compute. reflexivity. Qed.

Definition dM9 : kdata := {|
  d_r := (9 # 2); d_n1 := (1 # 40320); d_n2 := (512 # 14345663); d_n3 := (1 # 60480);
  d_f := ([((1 # 2), [(2337507 # 128); (0 # 1); ((-91035) # 8); (0 # 1); (13545 # 4); (0 # 1); ((-630) # 1); (0 # 1); (70 # 1)]); ((3 # 2), [(584361 # 32); (63 # 8); ((-22869) # 2); (441 # 2); (2835 # 1); (882 # 1); ((-1512) # 1); (504 # 1); ((-56) # 1)]); ((5 # 2), [(1306503 # 64); ((-91791) # 8); (61425 # 4); ((-71001) # 2); (65205 # 2); ((-14994) # 1); (3780 # 1); ((-504) # 1); (28 # 1)]); ((7 # 2), [((-1104561) # 32); (1314459 # 8); ((-461475) # 2); (322749 # 2); ((-65835) # 1); (16506 # 1); ((-2520) # 1); (216 # 1); ((-8) # 1)]); ((9 # 2), [(43046721 # 256); ((-4782969) # 16); (3720087 # 16); ((-413343) # 4); (229635 # 8); ((-5103) # 1); (567 # 1); ((-36) # 1); (1 # 1)])], [])%Q;
  d_df := ([((1 # 2), [(0 # 1); ((-91035) # 4); (0 # 1); (13545 # 1); (0 # 1); ((-3780) # 1); (0 # 1); (560 # 1)]); ((3 # 2), [(63 # 8); ((-22869) # 1); (1323 # 2); (11340 # 1); (4410 # 1); ((-9072) # 1); (3528 # 1); ((-448) # 1)]); ((5 # 2), [((-91791) # 8); (61425 # 2); ((-213003) # 2); (130410 # 1); ((-74970) # 1); (22680 # 1); ((-3528) # 1); (224 # 1)]); ((7 # 2), [(1314459 # 8); ((-461475) # 1); (968247 # 2); ((-263340) # 1); (82530 # 1); ((-15120) # 1); (1512 # 1); ((-64) # 1)]); ((9 # 2), [((-4782969) # 16); (3720087 # 8); ((-1240029) # 4); (229635 # 2); ((-25515) # 1); (3402 # 1); ((-252) # 1); (8 # 1)])], [])%Q;
  d_ddf := ([((1 # 2), [((-91035) # 4); (0 # 1); (40635 # 1); (0 # 1); ((-18900) # 1); (0 # 1); (3920 # 1)]); ((3 # 2), [((-22869) # 1); (1323 # 1); (34020 # 1); (17640 # 1); ((-45360) # 1); (21168 # 1); ((-3136) # 1)]); ((5 # 2), [(61425 # 2); ((-213003) # 1); (391230 # 1); ((-299880) # 1); (113400 # 1); ((-21168) # 1); (1568 # 1)]); ((7 # 2), [((-461475) # 1); (968247 # 1); ((-790020) # 1); (330120 # 1); ((-75600) # 1); (9072 # 1); ((-448) # 1)]); ((9 # 2), [(3720087 # 8); ((-1240029) # 2); (688905 # 2); ((-102060) # 1); (17010 # 1); ((-1512) # 1); (56 # 1)])], [])%Q;
  d_A := ([((1 # 2), [(0 # 1); ((-14345663) # 256); (0 # 1); (779169 # 64); (0 # 1); ((-18207) # 8); (0 # 1); (645 # 2); (0 # 1); ((-35) # 1); (0 # 1); (28 # 11)]); ((3 # 2), [((-7) # 14080); ((-17932077) # 320); (0 # 1); (194787 # 16); (21 # 8); ((-22869) # 10); (147 # 5); (270 # 1); (63 # 1); ((-84) # 1); (112 # 5); ((-112) # 55)]); ((5 # 2), [(826679 # 14080); ((-7200387) # 128); (0 # 1); (435501 # 32); ((-30597) # 8); (12285 # 4); ((-23667) # 5); (3105 # 1); ((-1071) # 1); (210 # 1); ((-112) # 5); (56 # 55)]); ((7 # 2), [((-96829571) # 14080); ((-2623631) # 64); (0 # 1); ((-368187) # 16); (438153 # 8); ((-92295) # 2); (107583 # 5); ((-6270) # 1); (1179 # 1); ((-140) # 1); (48 # 5); ((-16) # 55)]); ((9 # 2), [(1783667601 # 28160); ((-387420489) # 2560); (0 # 1); (14348907 # 128); ((-1594323) # 16); (3720087 # 80); ((-137781) # 10); (10935 # 4); ((-729) # 2); (63 # 2); ((-8) # 5); (2 # 55)])], [((-60480) # 1)])%Q;
  d_B := ([((1 # 2), [(0 # 1); (0 # 1); (0 # 1); (779169 # 32); (0 # 1); ((-18207) # 2); (0 # 1); (1935 # 1); (0 # 1); ((-280) # 1); (0 # 1); (280 # 11)]); ((3 # 2), [(7 # 14080); (0 # 1); (0 # 1); (194787 # 8); (63 # 8); ((-45738) # 5); (147 # 1); (1620 # 1); (441 # 1); ((-672) # 1); (1008 # 5); ((-224) # 11)]); ((5 # 2), [((-826679) # 14080); (0 # 1); (0 # 1); (435501 # 16); ((-91791) # 8); (12285 # 1); ((-23667) # 1); (18630 # 1); ((-7497) # 1); (1680 # 1); ((-1008) # 5); (112 # 11)]); ((7 # 2), [(96829571 # 14080); (0 # 1); (0 # 1); ((-368187) # 8); (1314459 # 8); ((-184590) # 1); (107583 # 1); ((-37620) # 1); (8253 # 1); ((-1120) # 1); (432 # 5); ((-32) # 11)]); ((9 # 2), [((-1783667601) # 28160); (0 # 1); (0 # 1); (14348907 # 64); ((-4782969) # 16); (3720087 # 20); ((-137781) # 2); (32805 # 2); ((-5103) # 2); (252 # 1); ((-72) # 5); (4 # 11)])], [(60480 # 1)])%Q;
  d_K1 := ([((1 # 2), [(0 # 1); (2337507 # 128); (0 # 1); ((-30345) # 8); (0 # 1); (2709 # 4); (0 # 1); ((-90) # 1); (0 # 1); (70 # 9)]); ((3 # 2), [(7 # 256); (584361 # 32); (63 # 16); ((-7623) # 2); (441 # 8); (567 # 1); (147 # 1); ((-216) # 1); (63 # 1); ((-56) # 9)]); ((5 # 2), [((-91847) # 256); (1306503 # 64); ((-91791) # 16); (20475 # 4); ((-71001) # 8); (13041 # 2); ((-2499) # 1); (540 # 1); ((-63) # 1); (28 # 9)]); ((7 # 2), [(3814403 # 256); ((-1104561) # 32); (1314459 # 16); ((-153825) # 2); (322749 # 8); ((-13167) # 1); (2751 # 1); ((-360) # 1); (27 # 1); ((-8) # 9)]); ((9 # 2), [((-32724801) # 512); (43046721 # 256); ((-4782969) # 32); (1240029 # 16); ((-413343) # 16); (45927 # 8); ((-1701) # 2); (81 # 1); ((-9) # 2); (1 # 9)])], [(20160 # 1)])%Q;
  d_K2 := ([((1 # 2), [(0 # 1); (0 # 1); (2337507 # 256); (0 # 1); ((-91035) # 32); (0 # 1); (4515 # 8); (0 # 1); ((-315) # 4); (0 # 1); (7 # 1)]); ((3 # 2), [(7 # 5120); (0 # 1); (584361 # 64); (21 # 8); ((-22869) # 8); (441 # 10); (945 # 2); (126 # 1); ((-189) # 1); (56 # 1); ((-28) # 5)]); ((5 # 2), [((-55111) # 1024); (0 # 1); (1306503 # 128); ((-30597) # 8); (61425 # 16); ((-71001) # 10); (21735 # 4); ((-2142) # 1); (945 # 2); ((-56) # 1); (14 # 5)]); ((7 # 2), [(3851139 # 1024); (0 # 1); ((-1104561) # 64); (438153 # 8); ((-461475) # 8); (322749 # 10); ((-21945) # 2); (2358 # 1); ((-315) # 1); (24 # 1); ((-4) # 5)]); ((9 # 2), [((-243963859) # 10240); (0 # 1); (43046721 # 512); ((-1594323) # 16); (3720087 # 64); ((-413343) # 20); (76545 # 16); ((-729) # 1); (567 # 8); ((-4) # 1); (1 # 10)])], [(14345663 # 1024)])%Q;
  d_cf := [[(4675014 # 1); (37400112 # 1); (130172112 # 1); (257431104 # 1); (316380960 # 1); (247451904 # 1); (120298752 # 1); (33242112 # 1); (3998464 # 1)]; [(15619 # 1); (115152 # 1); (361872 # 1); (633024 # 1); (675360 # 1); (451584 # 1); (185472 # 1); (42912 # 1); (4293 # 1)]; [(4293 # 1); (25776 # 1); (65520 # 1); (92736 # 1); (80640 # 1); (44352 # 1); (15120 # 1); (2928 # 1); (247 # 1)]; [(247 # 1); (1024 # 1); (1792 # 1); (1792 # 1); (1120 # 1); (448 # 1); (112 # 1); (16 # 1); (1 # 1)]; [(1 # 1); (0 # 1); (0 # 1); (0 # 1); (0 # 1); (0 # 1); (0 # 1); (0 # 1); (0 # 1)]]%Q;
  d_cdf := Some [[(0 # 1); (1456560 # 1); (8739360 # 1); (21631680 # 1); (28264320 # 1); (20563200 # 1); (7902720 # 1); (1254400 # 1)]; [(9800 # 1); (82320 # 1); (272160 # 1); (463680 # 1); (443520 # 1); (241920 # 1); (70560 # 1); (8568 # 1)]; [(8568 # 1); (49392 # 1); (114912 # 1); (141120 # 1); (100800 # 1); (42336 # 1); (9744 # 1); (952 # 1)]; [(952 # 1); (3584 # 1); (5376 # 1); (4480 # 1); (2240 # 1); (672 # 1); (112 # 1); (8 # 1)]; [(8 # 1); (0 # 1); (0 # 1); (0 # 1); (0 # 1); (0 # 1); (0 # 1); (0 # 1)]]%Q;
  d_smooth := true |}.
Lemma M9_fits : kernel_fits M9 dM9.
Proof. constructor; cbv [M9 d_r d_n1 d_n2 d_n3 d_f d_df d_ddf d_A d_B dM9 Rkern norm_1d norm_2d norm_3d f df ddf phi_tilde_3d phi_tilde_3d_prime M9_Rkern M9_hfactd M9_norm_1d M9_norm_2d M9_norm_3d M9_f M9_df M9_ddf M9_phi_tilde_3d M9_phi_tilde_3d_prime M4_f M4_df M4_ddf]; fits. Qed.
Lemma M9_check : kernel_check dM9 = true.
Proof. vm_compute. reflexivity. Qed.
