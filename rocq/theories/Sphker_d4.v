(** Piecewise polynomial forms of the kernels M4DoubleHump, M4DoubleHump3, M4DoubleHump5, M4DoubleHump7, M4Shift2, M4Shift4, M4Shift8, M4Shift16 (proposed by tools/kernels2coq.py, checked here). *)
Require Import Reals Lra QArith Qreals List.
From Verif Require Import Pwpoly Sphker Sphker_check.
Import ListNotations.
Local Open Scope R_scope.

Definition dM4DoubleHump : kdata := {|
  d_r := (2 # 1); d_n1 := (2 # 1); d_n2 := (70 # 31); d_n3 := (10 # 9);
  d_f := ([((1 # 1), [(0 # 1); (0 # 1); (1 # 1); (0 # 1); ((-3) # 2); (3 # 4)]); ((2 # 1), [(0 # 1); (0 # 1); (2 # 1); ((-3) # 1); (3 # 2); ((-1) # 4)])], [])%Q;
  d_df := ([((1 # 1), [(0 # 1); (2 # 1); (0 # 1); ((-6) # 1); (15 # 4)]); ((2 # 1), [(0 # 1); (4 # 1); ((-9) # 1); (6 # 1); ((-5) # 4)])], [])%Q;
  d_ddf := ([((1 # 1), [(2 # 1); (0 # 1); ((-18) # 1); (15 # 1)]); ((2 # 1), [(4 # 1); ((-18) # 1); (18 # 1); ((-5) # 1)])], [])%Q;
  d_A := ([((1 # 1), [(0 # 1); ((-31) # 35); (0 # 1); (0 # 1); (0 # 1); (1 # 5); (0 # 1); ((-1) # 7); (3 # 56)]); ((2 # 1), [(1 # 70); ((-32) # 35); (0 # 1); (0 # 1); (0 # 1); (2 # 5); ((-2) # 5); (1 # 7); ((-1) # 56)])], [((-9) # 10)])%Q;
  d_B := ([((1 # 1), [(0 # 1); (0 # 1); (0 # 1); (0 # 1); (0 # 1); (4 # 5); (0 # 1); ((-6) # 7); (3 # 8)]); ((2 # 1), [((-1) # 70); (0 # 1); (0 # 1); (0 # 1); (0 # 1); (8 # 5); ((-2) # 1); (6 # 7); ((-1) # 8)])], [(9 # 10)])%Q;
  d_K1 := ([((1 # 1), [(0 # 1); (0 # 1); (0 # 1); (1 # 3); (0 # 1); ((-3) # 10); (1 # 8)]); ((2 # 1), [((-1) # 60); (0 # 1); (0 # 1); (2 # 3); ((-3) # 4); (3 # 10); ((-1) # 24)])], [(1 # 4)])%Q;
  d_K2 := ([((1 # 1), [(0 # 1); (0 # 1); (0 # 1); (0 # 1); (1 # 4); (0 # 1); ((-1) # 4); (3 # 28)]); ((2 # 1), [((-1) # 140); (0 # 1); (0 # 1); (0 # 1); (1 # 2); ((-3) # 5); (1 # 4); ((-1) # 28)])], [(31 # 140)])%Q;
  d_cf := [[(0 # 1); (0 # 1); (1 # 1); (3 # 1); (3 # 2); (1 # 4)]; [(1 # 4); (1 # 1); (1 # 1); (0 # 1); (0 # 1); (0 # 1)]]%Q;
  d_cdf := None;
  d_smooth := true |}.
Lemma M4DoubleHump_fits : kernel_fits M4DoubleHump dM4DoubleHump.
Proof. constructor; cbv [M4DoubleHump d_r d_n1 d_n2 d_n3 d_f d_df d_ddf d_A d_B dM4DoubleHump Rkern norm_1d norm_2d norm_3d f df ddf phi_tilde_3d phi_tilde_3d_prime M4DoubleHump_Rkern M4DoubleHump_hfactd M4DoubleHump_norm_1d M4DoubleHump_norm_2d M4DoubleHump_norm_3d M4DoubleHump_f M4DoubleHump_df M4DoubleHump_ddf M4DoubleHump_phi_tilde_3d M4DoubleHump_phi_tilde_3d_prime M4_f M4_df M4_ddf]; fits. Qed.
Lemma M4DoubleHump_check : kernel_check dM4DoubleHump = true.
Proof. vm_compute. reflexivity. Qed.

Definition dM4DoubleHump3 : kdata := {|
  d_r := (2 # 1); d_n1 := (70 # 31); d_n2 := (20 # 9); d_n3 := (126 # 127);
  d_f := ([((1 # 1), [(0 # 1); (0 # 1); (0 # 1); (1 # 1); (0 # 1); ((-3) # 2); (3 # 4)]); ((2 # 1), [(0 # 1); (0 # 1); (0 # 1); (2 # 1); ((-3) # 1); (3 # 2); ((-1) # 4)])], [])%Q;
  d_df := ([((1 # 1), [(0 # 1); (0 # 1); (3 # 1); (0 # 1); ((-15) # 2); (9 # 2)]); ((2 # 1), [(0 # 1); (0 # 1); (6 # 1); ((-12) # 1); (15 # 2); ((-3) # 2)])], [])%Q;
  d_ddf := ([((1 # 1), [(0 # 1); (6 # 1); (0 # 1); ((-30) # 1); (45 # 2)]); ((2 # 1), [(0 # 1); (12 # 1); ((-36) # 1); (30 # 1); ((-15) # 2)])], [])%Q;
  d_A := ([((1 # 1), [(0 # 1); ((-9) # 10); (0 # 1); (0 # 1); (0 # 1); (0 # 1); (2 # 15); (0 # 1); ((-3) # 28); (1 # 24)]); ((2 # 1), [(1 # 126); ((-32) # 35); (0 # 1); (0 # 1); (0 # 1); (0 # 1); (4 # 15); ((-2) # 7); (3 # 28); ((-1) # 72)])], [((-127) # 126)])%Q;
  d_B := ([((1 # 1), [(0 # 1); (0 # 1); (0 # 1); (0 # 1); (0 # 1); (0 # 1); (2 # 3); (0 # 1); ((-3) # 4); (1 # 3)]); ((2 # 1), [((-1) # 126); (0 # 1); (0 # 1); (0 # 1); (0 # 1); (0 # 1); (4 # 3); ((-12) # 7); (3 # 4); ((-1) # 9)])], [(127 # 126)])%Q;
  d_K1 := ([((1 # 1), [(0 # 1); (0 # 1); (0 # 1); (0 # 1); (1 # 4); (0 # 1); ((-1) # 4); (3 # 28)]); ((2 # 1), [((-1) # 140); (0 # 1); (0 # 1); (0 # 1); (1 # 2); ((-3) # 5); (1 # 4); ((-1) # 28)])], [(31 # 140)])%Q;
  d_K2 := ([((1 # 1), [(0 # 1); (0 # 1); (0 # 1); (0 # 1); (0 # 1); (1 # 5); (0 # 1); ((-3) # 14); (3 # 32)]); ((2 # 1), [((-1) # 280); (0 # 1); (0 # 1); (0 # 1); (0 # 1); (2 # 5); ((-1) # 2); (3 # 14); ((-1) # 32)])], [(9 # 40)])%Q;
  d_cf := [[(0 # 1); (0 # 1); (0 # 1); (1 # 1); (3 # 1); (3 # 2); (1 # 4)]; [(1 # 4); (3 # 2); (3 # 1); (2 # 1); (0 # 1); (0 # 1); (0 # 1)]]%Q;
  d_cdf := None;
  d_smooth := true |}.
Lemma M4DoubleHump3_fits : kernel_fits M4DoubleHump3 dM4DoubleHump3.
Proof. constructor; cbv [M4DoubleHump3 d_r d_n1 d_n2 d_n3 d_f d_df d_ddf d_A d_B dM4DoubleHump3 Rkern norm_1d norm_2d norm_3d f df ddf phi_tilde_3d phi_tilde_3d_prime M4DoubleHump3_Rkern M4DoubleHump3_hfactd M4DoubleHump3_norm_1d M4DoubleHump3_norm_2d M4DoubleHump3_norm_3d M4DoubleHump3_f M4DoubleHump3_df M4DoubleHump3_ddf M4DoubleHump3_phi_tilde_3d M4DoubleHump3_phi_tilde_3d_prime M4_f M4_df M4_ddf]; fits. Qed.
Lemma M4DoubleHump3_check : kernel_check dM4DoubleHump3 = true.
Proof. vm_compute. reflexivity. Qed.

Definition dM4DoubleHump5 : kdata := {|
  d_r := (2 # 1); d_n1 := (252 # 127); d_n2 := (28 # 17); d_n3 := (330 # 511);
  d_f := ([((1 # 1), [(0 # 1); (0 # 1); (0 # 1); (0 # 1); (0 # 1); (1 # 1); (0 # 1); ((-3) # 2); (3 # 4)]); ((2 # 1), [(0 # 1); (0 # 1); (0 # 1); (0 # 1); (0 # 1); (2 # 1); ((-3) # 1); (3 # 2); ((-1) # 4)])], [])%Q;
  d_df := ([((1 # 1), [(0 # 1); (0 # 1); (0 # 1); (0 # 1); (5 # 1); (0 # 1); ((-21) # 2); (6 # 1)]); ((2 # 1), [(0 # 1); (0 # 1); (0 # 1); (0 # 1); (10 # 1); ((-18) # 1); (21 # 2); ((-2) # 1)])], [])%Q;
  d_ddf := ([((1 # 1), [(0 # 1); (0 # 1); (0 # 1); (20 # 1); (0 # 1); ((-63) # 1); (42 # 1)]); ((2 # 1), [(0 # 1); (0 # 1); (0 # 1); (40 # 1); ((-90) # 1); (63 # 1); ((-14) # 1)])], [])%Q;
  d_A := ([((1 # 1), [(0 # 1); ((-17) # 14); (0 # 1); (0 # 1); (0 # 1); (0 # 1); (0 # 1); (0 # 1); (1 # 14); (0 # 1); ((-1) # 15); (3 # 110)]); ((2 # 1), [(1 # 330); ((-128) # 105); (0 # 1); (0 # 1); (0 # 1); (0 # 1); (0 # 1); (0 # 1); (1 # 7); ((-1) # 6); (1 # 15); ((-1) # 110)])], [((-511) # 330)])%Q;
  d_B := ([((1 # 1), [(0 # 1); (0 # 1); (0 # 1); (0 # 1); (0 # 1); (0 # 1); (0 # 1); (0 # 1); (1 # 2); (0 # 1); ((-3) # 5); (3 # 11)]); ((2 # 1), [((-1) # 330); (0 # 1); (0 # 1); (0 # 1); (0 # 1); (0 # 1); (0 # 1); (0 # 1); (1 # 1); ((-4) # 3); (3 # 5); ((-1) # 11)])], [(511 # 330)])%Q;
  d_K1 := ([((1 # 1), [(0 # 1); (0 # 1); (0 # 1); (0 # 1); (0 # 1); (0 # 1); (1 # 6); (0 # 1); ((-3) # 16); (1 # 12)]); ((2 # 1), [((-1) # 504); (0 # 1); (0 # 1); (0 # 1); (0 # 1); (0 # 1); (1 # 3); ((-3) # 7); (3 # 16); ((-1) # 36)])], [(127 # 504)])%Q;
  d_K2 := ([((1 # 1), [(0 # 1); (0 # 1); (0 # 1); (0 # 1); (0 # 1); (0 # 1); (0 # 1); (1 # 7); (0 # 1); ((-1) # 6); (3 # 40)]); ((2 # 1), [((-1) # 840); (0 # 1); (0 # 1); (0 # 1); (0 # 1); (0 # 1); (0 # 1); (2 # 7); ((-3) # 8); (1 # 6); ((-1) # 40)])], [(17 # 56)])%Q;
  d_cf := [[(0 # 1); (0 # 1); (0 # 1); (0 # 1); (0 # 1); (1 # 1); (3 # 1); (3 # 2); (1 # 4)]; [(1 # 4); (5 # 2); (10 # 1); (20 # 1); (20 # 1); (8 # 1); (0 # 1); (0 # 1); (0 # 1)]]%Q;
  d_cdf := None;
  d_smooth := true |}.
Lemma M4DoubleHump5_fits : kernel_fits M4DoubleHump5 dM4DoubleHump5.
Proof. constructor; cbv [M4DoubleHump5 d_r d_n1 d_n2 d_n3 d_f d_df d_ddf d_A d_B dM4DoubleHump5 Rkern norm_1d norm_2d norm_3d f df ddf phi_tilde_3d phi_tilde_3d_prime M4DoubleHump5_Rkern M4DoubleHump5_hfactd M4DoubleHump5_norm_1d M4DoubleHump5_norm_2d M4DoubleHump5_norm_3d M4DoubleHump5_f M4DoubleHump5_df M4DoubleHump5_ddf M4DoubleHump5_phi_tilde_3d M4DoubleHump5_phi_tilde_3d_prime M4_f M4_df M4_ddf]; fits. Qed.
Lemma M4DoubleHump5_check : kernel_check dM4DoubleHump5 = true.
Proof. vm_compute. reflexivity. Qed.

Definition dM4DoubleHump7 : kdata := {|
  d_r := (2 # 1); d_n1 := (660 # 511); d_n2 := (30 # 31); d_n3 := (715 # 2047);
  d_f := ([((1 # 1), [(0 # 1); (0 # 1); (0 # 1); (0 # 1); (0 # 1); (0 # 1); (0 # 1); (1 # 1); (0 # 1); ((-3) # 2); (3 # 4)]); ((2 # 1), [(0 # 1); (0 # 1); (0 # 1); (0 # 1); (0 # 1); (0 # 1); (0 # 1); (2 # 1); ((-3) # 1); (3 # 2); ((-1) # 4)])], [])%Q;
  d_df := ([((1 # 1), [(0 # 1); (0 # 1); (0 # 1); (0 # 1); (0 # 1); (0 # 1); (7 # 1); (0 # 1); ((-27) # 2); (15 # 2)]); ((2 # 1), [(0 # 1); (0 # 1); (0 # 1); (0 # 1); (0 # 1); (0 # 1); (14 # 1); ((-24) # 1); (27 # 2); ((-5) # 2)])], [])%Q;
  d_ddf := ([((1 # 1), [(0 # 1); (0 # 1); (0 # 1); (0 # 1); (0 # 1); (42 # 1); (0 # 1); ((-108) # 1); (135 # 2)]); ((2 # 1), [(0 # 1); (0 # 1); (0 # 1); (0 # 1); (0 # 1); (84 # 1); ((-168) # 1); (108 # 1); ((-45) # 2)])], [])%Q;
  d_A := ([((1 # 1), [(0 # 1); ((-31) # 15); (0 # 1); (0 # 1); (0 # 1); (0 # 1); (0 # 1); (0 # 1); (0 # 1); (0 # 1); (2 # 45); (0 # 1); ((-1) # 22); (1 # 52)]); ((2 # 1), [(1 # 715); ((-1024) # 495); (0 # 1); (0 # 1); (0 # 1); (0 # 1); (0 # 1); (0 # 1); (0 # 1); (0 # 1); (4 # 45); ((-6) # 55); (1 # 22); ((-1) # 156)])], [((-2047) # 715)])%Q;
  d_B := ([((1 # 1), [(0 # 1); (0 # 1); (0 # 1); (0 # 1); (0 # 1); (0 # 1); (0 # 1); (0 # 1); (0 # 1); (0 # 1); (2 # 5); (0 # 1); ((-1) # 2); (3 # 13)]); ((2 # 1), [((-1) # 715); (0 # 1); (0 # 1); (0 # 1); (0 # 1); (0 # 1); (0 # 1); (0 # 1); (0 # 1); (0 # 1); (4 # 5); ((-12) # 11); (1 # 2); ((-1) # 13)])], [(2047 # 715)])%Q;
  d_K1 := ([((1 # 1), [(0 # 1); (0 # 1); (0 # 1); (0 # 1); (0 # 1); (0 # 1); (0 # 1); (0 # 1); (1 # 8); (0 # 1); ((-3) # 20); (3 # 44)]); ((2 # 1), [((-1) # 1320); (0 # 1); (0 # 1); (0 # 1); (0 # 1); (0 # 1); (0 # 1); (0 # 1); (1 # 4); ((-1) # 3); (3 # 20); ((-1) # 44)])], [(511 # 1320)])%Q;
  d_K2 := ([((1 # 1), [(0 # 1); (0 # 1); (0 # 1); (0 # 1); (0 # 1); (0 # 1); (0 # 1); (0 # 1); (0 # 1); (1 # 9); (0 # 1); ((-3) # 22); (1 # 16)]); ((2 # 1), [((-1) # 1980); (0 # 1); (0 # 1); (0 # 1); (0 # 1); (0 # 1); (0 # 1); (0 # 1); (0 # 1); (2 # 9); ((-3) # 10); (3 # 22); ((-1) # 48)])], [(31 # 60)])%Q;
  d_cf := [[(0 # 1); (0 # 1); (0 # 1); (0 # 1); (0 # 1); (0 # 1); (0 # 1); (1 # 1); (3 # 1); (3 # 2); (1 # 4)]; [(1 # 4); (7 # 2); (21 # 1); (70 # 1); (140 # 1); (168 # 1); (112 # 1); (32 # 1); (0 # 1); (0 # 1); (0 # 1)]]%Q;
  d_cdf := None;
  d_smooth := true |}.
Lemma M4DoubleHump7_fits : kernel_fits M4DoubleHump7 dM4DoubleHump7.
Proof. constructor; cbv [M4DoubleHump7 d_r d_n1 d_n2 d_n3 d_f d_df d_ddf d_A d_B dM4DoubleHump7 Rkern norm_1d norm_2d norm_3d f df ddf phi_tilde_3d phi_tilde_3d_prime M4DoubleHump7_Rkern M4DoubleHump7_hfactd M4DoubleHump7_norm_1d M4DoubleHump7_norm_2d M4DoubleHump7_norm_3d M4DoubleHump7_f M4DoubleHump7_df M4DoubleHump7_ddf M4DoubleHump7_phi_tilde_3d M4DoubleHump7_phi_tilde_3d_prime M4_f M4_df M4_ddf]; fits. Qed.
Lemma M4DoubleHump7_check : kernel_check dM4DoubleHump7 = true.
Proof. vm_compute. reflexivity. Qed.

Definition dM4Shift2 : kdata := {|
  d_r := (2 # 1); d_n1 := (4 # 11); d_n2 := (40 # 77); d_n3 := (120 # 439);
  d_f := ([((1 # 1), [(1 # 1)]); ((3 # 2), [((-11) # 1); (30 # 1); ((-24) # 1); (6 # 1)]); ((2 # 1), [(16 # 1); ((-24) # 1); (12 # 1); ((-2) # 1)])], [])%Q;
  d_df := ([((1 # 1), []); ((3 # 2), [(30 # 1); ((-48) # 1); (18 # 1)]); ((2 # 1), [((-24) # 1); (24 # 1); ((-6) # 1)])], [])%Q;
  d_ddf := ([((1 # 1), []); ((3 # 2), [((-48) # 1); (36 # 1)]); ((2 # 1), [(24 # 1); ((-12) # 1)])], [])%Q;
  d_A := ([((1 # 1), [(0 # 1); ((-77) # 20); (0 # 1); (2 # 3)]); ((3 # 2), [((-6) # 5); ((-13) # 20); (0 # 1); ((-22) # 3); (10 # 1); ((-24) # 5); (4 # 5)]); ((2 # 1), [(39 # 8); ((-64) # 5); (0 # 1); (32 # 3); ((-8) # 1); (12 # 5); ((-4) # 15)])], [((-439) # 120)])%Q;
  d_B := ([((1 # 1), [(0 # 1); (0 # 1); (0 # 1); (4 # 3)]); ((3 # 2), [(6 # 5); (0 # 1); (0 # 1); ((-44) # 3); (30 # 1); ((-96) # 5); (4 # 1)]); ((2 # 1), [((-39) # 8); (0 # 1); (0 # 1); (64 # 3); ((-24) # 1); (48 # 5); ((-4) # 3)])], [(439 # 120)])%Q;
  d_K1 := ([((1 # 1), [(0 # 1); (1 # 1)]); ((3 # 2), [(7 # 2); ((-11) # 1); (15 # 1); ((-8) # 1); (3 # 2)]); ((2 # 1), [((-53) # 8); (16 # 1); ((-12) # 1); (4 # 1); ((-1) # 2)])], [(11 # 8)])%Q;
  d_K2 := ([((1 # 1), [(0 # 1); (0 # 1); (1 # 2)]); ((3 # 2), [(4 # 5); (0 # 1); ((-11) # 2); (10 # 1); ((-6) # 1); (6 # 5)]); ((2 # 1), [((-179) # 80); (0 # 1); (8 # 1); ((-8) # 1); (3 # 1); ((-2) # 5)])], [(77 # 80)])%Q;
  d_cf := [[(1 # 1)]; [(8 # 1); (24 # 1); (12 # 1); (2 # 1)]; [(2 # 1); (0 # 1); (0 # 1); (0 # 1)]]%Q;
  d_cdf := Some [[(0 # 1)]; [(0 # 1); (24 # 1); (6 # 1)]; [(6 # 1); (0 # 1); (0 # 1)]]%Q;
  d_smooth := false |}.
Lemma M4Shift2_fits : kernel_fits M4Shift2 dM4Shift2.
Proof. constructor; cbv [M4Shift2 d_r d_n1 d_n2 d_n3 d_f d_df d_ddf d_A d_B dM4Shift2 Rkern norm_1d norm_2d norm_3d f df ddf phi_tilde_3d phi_tilde_3d_prime M4Shift2_Rkern M4Shift2_hfactd M4Shift2_norm_1d M4Shift2_norm_2d M4Shift2_norm_3d M4Shift2_f M4Shift2_df M4Shift2_ddf M4Shift2_phi_tilde_3d M4Shift2_phi_tilde_3d_prime M4_f M4_df M4_ddf]; fits. Qed.
Lemma M4Shift2_check : kernel_check dM4Shift2 = true.
Proof. vm_compute. reflexivity. Qed.

Definition dM4Shift4 : kdata := {|
  d_r := (2 # 1); d_n1 := (8 # 27); d_n2 := (160 # 457); d_n3 := (320 # 2069);
  d_f := ([((3 # 2), [(1 # 1)]); ((7 # 4), [((-215) # 1); (396 # 1); ((-240) # 1); (48 # 1)]); ((2 # 1), [(128 # 1); ((-192) # 1); (96 # 1); ((-16) # 1)])], [])%Q;
  d_df := ([((3 # 2), []); ((7 # 4), [(396 # 1); ((-480) # 1); (144 # 1)]); ((2 # 1), [((-192) # 1); (192 # 1); ((-48) # 1)])], [])%Q;
  d_ddf := ([((3 # 2), []); ((7 # 4), [((-480) # 1); (288 # 1)]); ((2 # 1), [(192 # 1); ((-96) # 1)])], [])%Q;
  d_A := ([((3 # 2), [(0 # 1); ((-457) # 80); (0 # 1); (2 # 3)]); ((7 # 4), [((-243) # 4); (1723 # 16); (0 # 1); ((-430) # 3); (132 # 1); ((-48) # 1); (32 # 5)]); ((2 # 1), [(59329 # 960); ((-512) # 5); (0 # 1); (256 # 3); ((-64) # 1); (96 # 5); ((-32) # 15)])], [((-2069) # 320)])%Q;
  d_B := ([((3 # 2), [(0 # 1); (0 # 1); (0 # 1); (4 # 3)]); ((7 # 4), [(243 # 4); (0 # 1); (0 # 1); ((-860) # 3); (396 # 1); ((-192) # 1); (32 # 1)]); ((2 # 1), [((-59329) # 960); (0 # 1); (0 # 1); (512 # 3); ((-192) # 1); (384 # 5); ((-32) # 3)])], [(2069 # 320)])%Q;
  d_K1 := ([((3 # 2), [(0 # 1); (1 # 1)]); ((7 # 4), [(351 # 4); ((-215) # 1); (198 # 1); ((-80) # 1); (12 # 1)]); ((2 # 1), [((-997) # 16); (128 # 1); ((-96) # 1); (32 # 1); ((-4) # 1)])], [(27 # 16)])%Q;
  d_K2 := ([((3 # 2), [(0 # 1); (0 # 1); (1 # 2)]); ((7 # 4), [(567 # 20); (0 # 1); ((-215) # 2); (132 # 1); ((-60) # 1); (48 # 5)]); ((2 # 1), [((-1547) # 64); (0 # 1); (64 # 1); ((-64) # 1); (24 # 1); ((-16) # 5)])], [(457 # 320)])%Q;
  d_cf := [[(1 # 1)]; [(64 # 1); (192 # 1); (96 # 1); (16 # 1)]; [(16 # 1); (0 # 1); (0 # 1); (0 # 1)]]%Q;
  d_cdf := Some [[(0 # 1)]; [(0 # 1); (192 # 1); (48 # 1)]; [(48 # 1); (0 # 1); (0 # 1)]]%Q;
  d_smooth := false |}.
Lemma M4Shift4_fits : kernel_fits M4Shift4 dM4Shift4.
Proof. constructor; cbv [M4Shift4 d_r d_n1 d_n2 d_n3 d_f d_df d_ddf d_A d_B dM4Shift4 Rkern norm_1d norm_2d norm_3d f df ddf phi_tilde_3d phi_tilde_3d_prime M4Shift4_Rkern M4Shift4_hfactd M4Shift4_norm_1d M4Shift4_norm_2d M4Shift4_norm_3d M4Shift4_f M4Shift4_df M4Shift4_ddf M4Shift4_phi_tilde_3d M4Shift4_phi_tilde_3d_prime M4_f M4_df M4_ddf]; fits. Qed.
Lemma M4Shift4_check : kernel_check dM4Shift4 = true.
Proof. vm_compute. reflexivity. Qed.

Definition dM4Shift8 : kdata := {|
  d_r := (2 # 1); d_n1 := (16 # 59); d_n2 := (640 # 2177); d_n3 := (7680 # 64303);
  d_f := ([((7 # 4), [(1 # 1)]); ((15 # 8), [((-2351) # 1); (3864 # 1); ((-2112) # 1); (384 # 1)]); ((2 # 1), [(1024 # 1); ((-1536) # 1); (768 # 1); ((-128) # 1)])], [])%Q;
  d_df := ([((7 # 4), []); ((15 # 8), [(3864 # 1); ((-4224) # 1); (1152 # 1)]); ((2 # 1), [((-1536) # 1); (1536 # 1); ((-384) # 1)])], [])%Q;
  d_ddf := ([((7 # 4), []); ((15 # 8), [((-4224) # 1); (2304 # 1)]); ((2 # 1), [(1536 # 1); ((-768) # 1)])], [])%Q;
  d_A := ([((7 # 4), [(0 # 1); ((-2177) # 320); (0 # 1); (2 # 3)]); ((15 # 8), [((-151263) # 160); (497231 # 320); (0 # 1); ((-4702) # 3); (1288 # 1); ((-2112) # 5); (256 # 5)]); ((2 # 1), [(1376667 # 2560); ((-4096) # 5); (0 # 1); (2048 # 3); ((-512) # 1); (768 # 5); ((-256) # 15)])], [((-64303) # 7680)])%Q;
  d_B := ([((7 # 4), [(0 # 1); (0 # 1); (0 # 1); (4 # 3)]); ((15 # 8), [(151263 # 160); (0 # 1); (0 # 1); ((-9404) # 3); (3864 # 1); ((-8448) # 5); (256 # 1)]); ((2 # 1), [((-1376667) # 2560); (0 # 1); (0 # 1); (4096 # 3); ((-1536) # 1); (3072 # 5); ((-256) # 3)])], [(64303 # 7680)])%Q;
  d_K1 := ([((7 # 4), [(0 # 1); (1 # 1)]); ((15 # 8), [(8575 # 8); ((-2351) # 1); (1932 # 1); ((-704) # 1); (96 # 1)]); ((2 # 1), [((-16325) # 32); (1024 # 1); ((-768) # 1); (256 # 1); ((-32) # 1)])], [(59 # 32)])%Q;
  d_K2 := ([((7 # 4), [(0 # 1); (0 # 1); (1 # 2)]); ((15 # 8), [(31213 # 80); (0 # 1); ((-2351) # 2); (1288 # 1); ((-528) # 1); (384 # 5)]); ((2 # 1), [((-259967) # 1280); (0 # 1); (512 # 1); ((-512) # 1); (192 # 1); ((-128) # 5)])], [(2177 # 1280)])%Q;
  d_cf := [[(1 # 1)]; [(512 # 1); (1536 # 1); (768 # 1); (128 # 1)]; [(128 # 1); (0 # 1); (0 # 1); (0 # 1)]]%Q;
  d_cdf := Some [[(0 # 1)]; [(0 # 1); (1536 # 1); (384 # 1)]; [(384 # 1); (0 # 1); (0 # 1)]]%Q;
  d_smooth := false |}.
Lemma M4Shift8_fits : kernel_fits M4Shift8 dM4Shift8.
Proof. constructor; cbv [M4Shift8 d_r d_n1 d_n2 d_n3 d_f d_df d_ddf d_A d_B dM4Shift8 Rkern norm_1d norm_2d norm_3d f df ddf phi_tilde_3d phi_tilde_3d_prime M4Shift8_Rkern M4Shift8_hfactd M4Shift8_norm_1d M4Shift8_norm_2d M4Shift8_norm_3d M4Shift8_f M4Shift8_df M4Shift8_ddf M4Shift8_phi_tilde_3d M4Shift8_phi_tilde_3d_prime M4_f M4_df M4_ddf]; fits. Qed.
Lemma M4Shift8_check : kernel_check dM4Shift8 = true.
Proof. vm_compute. reflexivity. Qed.

Definition dM4Shift16 : kdata := {|
  d_r := (2 # 1); d_n1 := (32 # 123); d_n2 := (2560 # 9457); d_n3 := (4096 # 38785);
  d_f := ([((15 # 8), [(1 # 1)]); ((31 # 16), [((-21599) # 1); (33840 # 1); ((-17664) # 1); (3072 # 1)]); ((2 # 1), [(8192 # 1); ((-12288) # 1); (6144 # 1); ((-1024) # 1)])], [])%Q;
  d_df := ([((15 # 8), []); ((31 # 16), [(33840 # 1); ((-35328) # 1); (9216 # 1)]); ((2 # 1), [((-12288) # 1); (12288 # 1); ((-3072) # 1)])], [])%Q;
  d_ddf := ([((15 # 8), []); ((31 # 16), [((-35328) # 1); (18432 # 1)]); ((2 # 1), [(12288 # 1); ((-6144) # 1)])], [])%Q;
  d_A := ([((15 # 8), [(0 # 1); ((-9457) # 1280); (0 # 1); (2 # 3)]); ((31 # 16), [((-2581875) # 256); (20240543 # 1280); (0 # 1); ((-43198) # 3); (11280 # 1); ((-17664) # 5); (2048 # 5)]); ((2 # 1), [(267853681 # 61440); ((-32768) # 5); (0 # 1); (16384 # 3); ((-4096) # 1); (6144 # 5); ((-2048) # 15)])], [((-38785) # 4096)])%Q;
  d_B := ([((15 # 8), [(0 # 1); (0 # 1); (0 # 1); (4 # 3)]); ((31 # 16), [(2581875 # 256); (0 # 1); (0 # 1); ((-86396) # 3); (33840 # 1); ((-70656) # 5); (2048 # 1)]); ((2 # 1), [((-267853681) # 61440); (0 # 1); (0 # 1); (32768 # 3); ((-12288) # 1); (24576 # 5); ((-2048) # 3)])], [(38785 # 4096)])%Q;
  d_K1 := ([((15 # 8), [(0 # 1); (1 # 1)]); ((31 # 16), [(165375 # 16); ((-21599) # 1); (16920 # 1); ((-5888) # 1); (768 # 1)]); ((2 # 1), [((-262021) # 64); (8192 # 1); ((-6144) # 1); (2048 # 1); ((-256) # 1)])], [(123 # 64)])%Q;
  d_K2 := ([((15 # 8), [(0 # 1); (0 # 1); (1 # 2)]); ((31 # 16), [(253125 # 64); (0 # 1); ((-21599) # 2); (11280 # 1); ((-4416) # 1); (3072 # 5)]); ((2 # 1), [((-8379151) # 5120); (0 # 1); (4096 # 1); ((-4096) # 1); (1536 # 1); ((-1024) # 5)])], [(9457 # 5120)])%Q;
  d_cf := [[(1 # 1)]; [(4096 # 1); (12288 # 1); (6144 # 1); (1024 # 1)]; [(1024 # 1); (0 # 1); (0 # 1); (0 # 1)]]%Q;
  d_cdf := Some [[(0 # 1)]; [(0 # 1); (12288 # 1); (3072 # 1)]; [(3072 # 1); (0 # 1); (0 # 1)]]%Q;
  d_smooth := false |}.
Lemma M4Shift16_fits : kernel_fits M4Shift16 dM4Shift16.
Proof. constructor; cbv [M4Shift16 d_r d_n1 d_n2 d_n3 d_f d_df d_ddf d_A d_B dM4Shift16 Rkern norm_1d norm_2d norm_3d f df ddf phi_tilde_3d phi_tilde_3d_prime M4Shift16_Rkern M4Shift16_hfactd M4Shift16_norm_1d M4Shift16_norm_2d M4Shift16_norm_3d M4Shift16_f M4Shift16_df M4Shift16_ddf M4Shift16_phi_tilde_3d M4Shift16_phi_tilde_3d_prime M4_f M4_df M4_ddf]; fits. Qed.
Lemma M4Shift16_check : kernel_check dM4Shift16 = true.
Proof. vm_compute. reflexivity. Qed.
