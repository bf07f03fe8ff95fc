(** Property theorems C49 (see properties.jsonl): the SPH neighbour lists are exact. *)
Require Import Reals Lra.
From Verif Require Import Base Par Karras Karras_spec Morton_spec Traverse Traverse_spec Traverse_proofs Reduction Reduction_spec Integer Bitonic Scan Scan_spec P_Scan SortSearch SortSearch_spec BVH BVH_spec BVH_main BVH_proofs BVH_prop P_Traverse P_BVH Dtt Dtt_spec Dtt_tree Dtt_ref Dtt_segs Dtt_scan Dtt_sep P_Dtt Interleave Sgfmm Sgfmm_passes Sgfmm_util Sgfmm_tree Sgfmm_part Sgfmm_down Sgfmm_spec P_Sgfmm
  Ncache Ncache_spec Ncache_field Ncache_walk Ncache_own Ncache_main.
From Coq Require Import ZifyBool ZifyNat.
Local Open Scope nat_scope.

(** C49.  For every set of particles over a tree of C33, every smoothing length, tolerance and kernel radius (not negative), both
    versions of the code, every schedule and every content of new memory: the lists are built, and the list of a is
    exactly the set of the particles b (a included) at most Rkern htol max(h_a, h_b) away, each once.  The two-stage
    version, which looks for the leaf of a particle by position, needs codes that interleave grid coordinates. *)
Theorem C49_neighbours : forall b code xyz B hpart hmin htol Rkern two_stage depth sd env obj_cnt,
  built Rleb b code xyz xyz (length xyz) B -> length hpart = length xyz ->
  (0 <= htol)%R -> (0 <= Rkern)%R -> (hmin <= 0)%R -> (forall h, In h hpart -> (0 <= h)%R) ->
  N.to_nat b <= depth -> N.to_nat b + 1 <= sd -> 0 < obj_cnt <= length xyz ->
  nc_env_ok B obj_cnt env sd ->
  fewer_pairs (fun i j => i < obj_cnt /\ j < length xyz /\ interacts xyz hpart htol Rkern i j) (2 ^ 32) ->
  (two_stage = true -> (exists nb, grid_code Rleb nb code) /\ fewer_pairs (near_leafs B hpart htol Rkern) (2 ^ 32)) ->
  exists c, neighbours B xyz hpart hmin htol Rkern two_stage depth sd env obj_cnt = Ok c /\
    lists_neighbours xyz hpart htol Rkern obj_cnt c.
Proof.
  intros b code xyz B hpart hmin htol Rkern two_stage depth sd env obj_cnt HB LH HT HK HM HP HD HS OC EO FP F2.
  destruct (nc_setup b code xyz B HB) as (t & objs & RP & SZ & HH & N0 & AX).
  assert (HP' : forall j, j < length xyz -> (0 <= h_of hpart j)%R) by (intros j Hj; apply HP; unfold h_of; apply nth_In; lia).
  destruct (rint_ok B xyz Rleb (pos_of xyz) (pos_of xyz) t objs RP SZ hmin hpart LH depth env htol) as (rint & E & RL & RN); try apply EO; [lia|].
  unfold neighbours. rewrite E. cbn [rbind]. destruct two_stage.
  - destruct (F2 eq_refl) as ((nb & GC) & FL). apply (two_stages_ok B xyz t objs RP SZ hpart hmin htol Rkern LH HT HK HP' rint RL RN sd env obj_cnt); auto; [lia| |eauto].
    intros j Hj. specialize (HP' j Hj). lra.
  - apply (one_stage_ok B xyz t objs RP SZ hpart hmin htol Rkern LH HT HK HP' rint RL RN sd env obj_cnt); auto; lia.
Qed.
Print Assumptions C49_neighbours.

(** The radii computed for the cells: each is the largest smoothing length of the particles below, in every
    interleaving of the upward passes. *)
Theorem C49_max_field : forall b code xyz B hpart hmin depth env,
  built Rleb b code xyz xyz (length xyz) B -> length hpart = length xyz -> (forall h, In h hpart -> (hmin <= h)%R) -> N.to_nat b <= depth ->
  Permutation (ne_leaf env) (seq 0 (b_leafs B)) -> (forall n, length (ne_field env n) = n) -> (forall i, fair_schedule (length (b_cells B)) 3 (ne_up env i)) ->
  exists f, compute_tree_field_max_field B depth env hmin hpart = Ok f /\ length f = total_cell_count B /\
    forall id, id < total_cell_count B -> exists i, In i (cell_objects B id) /\ nth_error f id = Some (h_of hpart i) /\
      forall j, In j (cell_objects B id) -> (h_of hpart j <= h_of hpart i)%R.
Proof.
  intros b code xyz B hpart hmin depth env HB LH HM HD O1 O2 O3. destruct (nc_setup b code xyz B HB) as (t & objs & RP & SZ & HH & N0 & AX).
  destruct (max_field_ok B xyz Rleb (pos_of xyz) (pos_of xyz) t objs RP SZ hmin hpart LH depth env) as (f & E & L & X); auto; [lia|]. exists f. split; auto. split; auto.
  intros id Hid. destruct (T_find_ok B xyz Rleb _ _ t objs RP id Hid) as [U V]. rewrite (cell_objects_eq B xyz Rleb _ _ t objs RP) by auto.
  destruct (hval_att B xyz Rleb _ _ t objs RP SZ hmin hpart _ U) as (i & Hi & Ei).
  - intros j Hj. apply HM. unfold h_of. apply nth_In. rewrite LH. eapply (below_lt B xyz Rleb); eauto.
  - exists i. split; auto. split; [rewrite <- V, X, Ei; auto|]. intros j Hj. rewrite <- Ei. now apply hval_ge.
Qed.
Print Assumptions C49_max_field.

(** Consequences for the lists themselves. *)
(** a is a neighbour of b exactly when b is a neighbour of a *)
Theorem C49_symmetric : forall xyz hpart htol Rkern obj_cnt c a b la lb, obj_cnt <= length xyz -> lists_neighbours xyz hpart htol Rkern obj_cnt c ->
  a < obj_cnt -> b < obj_cnt -> for_each_object c a = Ok la -> for_each_object c b = Ok lb -> (In b la <-> In a lb).
Proof.
  intros xyz hpart htol Rkern obj_cnt c a b la lb HO HL Ha Hb Ea Eb.
  destruct (HL a Ha) as (l & E & _ & P). rewrite Ea in E. injection E as <-. destruct (HL b Hb) as (l & E & _ & Q). rewrite Eb in E. injection E as <-.
  rewrite P, Q. unfold interacts. cbv zeta. rewrite (dist2_sym (pos_of xyz b)). split; intros [_ H]; (split; [lia|]); destruct H; auto.
Qed.
Print Assumptions C49_symmetric.
(** a is a neighbour of itself *)
Theorem C49_self : forall xyz hpart htol Rkern obj_cnt c a la, obj_cnt <= length xyz -> lists_neighbours xyz hpart htol Rkern obj_cnt c ->
  (0 <= htol)%R -> (0 <= Rkern)%R -> (forall h, In h hpart -> (0 <= h)%R) -> length hpart = length xyz -> a < obj_cnt -> for_each_object c a = Ok la -> In a la.
Proof.
  intros xyz hpart htol Rkern obj_cnt c a la HO HL HT HK HP LH Ha Ea. destruct (HL a Ha) as (l & E & _ & P). rewrite Ea in E. injection E as <-. apply P. split; [lia|]. left.
  assert (D : dist2 (pos_of xyz a) (pos_of xyz a) = 0%R) by (unfold dist2; ring). rewrite D, sqrt_0. repeat apply Rmult_le_pos; auto. apply HP. unfold h_of. apply nth_In. lia.
Qed.
Print Assumptions C49_self.
(** The purpose of the tolerance: the lists remain sufficient while no smoothing length has grown by more than htol. *)
Theorem C49_tolerance : forall xyz hpart hnew htol Rkern obj_cnt c a b la, lists_neighbours xyz hpart htol Rkern obj_cnt c -> (0 <= Rkern)%R ->
  (forall i, i < length xyz -> (h_of hnew i <= htol * h_of hpart i)%R) -> obj_cnt <= length xyz ->
  a < obj_cnt -> b < length xyz -> for_each_object c a = Ok la ->
  (sqrt (dist2 (pos_of xyz a) (pos_of xyz b)) <= Rkern * Rmax (h_of hnew a) (h_of hnew b))%R -> In b la.
Proof.
  intros xyz hpart hnew htol Rkern obj_cnt c a b la HL HK HN HO Ha Hb Ea HD. destruct (HL a Ha) as (l & E & _ & P). rewrite Ea in E. injection E as <-. apply P. split; auto.
  unfold interacts. cbv zeta. pose proof (HN a ltac:(lia)) as N1. pose proof (HN b Hb) as N2. unfold Rmax in HD. destruct (Rle_dec _ _); [right|left]; (eapply Rle_trans; [exact HD|]); apply Rmult_le_compat_l; auto.
Qed.
Print Assumptions C49_tolerance.
(** Any two caches that pass, from either version and any schedule, hold the same lists up to their order. *)
Theorem C49_same_lists : forall xyz hpart htol Rkern obj_cnt c c' a, lists_neighbours xyz hpart htol Rkern obj_cnt c -> lists_neighbours xyz hpart htol Rkern obj_cnt c' -> a < obj_cnt ->
  exists l l', for_each_object c a = Ok l /\ for_each_object c' a = Ok l' /\ Permutation l l'.
Proof.
  intros xyz hpart htol Rkern obj_cnt c c' a HL HL' Ha. destruct (HL a Ha) as (l & E & N & P). destruct (HL' a Ha) as (l' & E' & N' & P'). exists l, l'. split; auto. split; auto.
  apply NoDup_Permutation; auto. intros x. rewrite P, P'. reflexivity.
Qed.
Print Assumptions C49_same_lists.

(* ------------------------------------------------------------------ *)
(** Four particles and codes of one bit per axis; particles 0 and 1 share a leaf. *)
Definition exn_xyz : list (vec R) := [(0, 0, 0); (1, 0, 0); (100, 0, 0); (100, 100, 0)]%R.
Definition exn_g (u : R) : N := if Rle_dec u 50 then 0%N else 1%N.
Definition exn_code (v : vec R) : N := (4 * exn_g (cx v) + 2 * exn_g (cy v) + exn_g (cz v))%N.
Lemma exn_code_lt v : (exn_code v < 2 ^ 3)%N.
Proof. unfold exn_code, exn_g. repeat destruct (Rle_dec _ _); reflexivity. Qed.
Lemma exn_grid : grid_code Rleb 1 exn_code.
Proof.
  exists exn_g, exn_g, exn_g. split.
  - intros a b H. apply Rleb_iff in H. unfold exn_g. destruct (Rle_dec a 50), (Rle_dec b 50); try lia. exfalso; lra.
  - intros p. assert (G : forall u, exn_g u = 0%N \/ exn_g u = 1%N) by (intros u; unfold exn_g; destruct (Rle_dec u 50); auto). split.
    + unfold in_grid. destruct (G (cx p)) as [-> | ->], (G (cy p)) as [-> | ->], (G (cz p)) as [-> | ->]; repeat split; reflexivity.
    + unfold exn_code. split; [destruct (G (cx p)) as [-> | ->], (G (cy p)) as [-> | ->], (G (cz p)) as [-> | ->]; reflexivity|].
      intros k Hk. replace k with 0%N by lia. destruct (G (cx p)) as [-> | ->], (G (cy p)) as [-> | ->], (G (cz p)) as [-> | ->]; repeat split; reflexivity.
Qed.
Lemma exn_built : exists B, built Rleb 3 exn_code exn_xyz exn_xyz (length exn_xyz) B.
Proof.
  assert (HX : forall p x, In p exn_xyz -> In x coords -> (0 <= x p <= 101)%R) by (intros p x [<-|[<-|[<-|[<-|[]]]]] [<-|[<-|[<-|[]]]]; unfold cx, cy, cz; cbn [fst snd]; lra).
  assert (HI : bvh_input Rleb 32 3 exn_code (2 ^ 32 - 1) (101, 101, 101)%R (0, 0, 0)%R exn_xyz exn_xyz (length exn_xyz)).
  { constructor; auto; try (cbn [length exn_xyz]; lia).
    - apply Rleb_order. - intros; apply exn_code_lt.
    - pose proof (nodup_len (map exn_code (firstn (length exn_xyz) exn_xyz))) as H. rewrite map_length, firstn_length in H. change (2 ^ 24 + 1)%Z with 16777217%Z. cbn [length exn_xyz] in *. lia.
    - intros o p x H E Hx. apply nth_error_In in E. pose proof (HX p x E Hx). apply Rleb_iff. destruct Hx as [<-|[<-|[<-|[]]]]; unfold cx, cy, cz in *; cbn [fst snd] in *; lra.
    - intros o p x H E Hx. apply nth_error_In in E. pose proof (HX p x E Hx). apply Rleb_iff. destruct Hx as [<-|[<-|[<-|[]]]]; unfold cx, cy, cz in *; cbn [fst snd] in *; lra. }
  assert (RU : N.to_nat (roundup_pow2_32 (N.of_nat (length exn_xyz))) = length exn_xyz) by reflexivity.
  pose proof (exs_benv_ok (length exn_xyz) (length exn_xyz)) as HE. rewrite <- RU in HE at 2.
  destruct (C33_build R Rleb 32 3 exn_code (2 ^ 32 - 1) (101, 101, 101)%R (0, 0, 0)%R exn_xyz exn_xyz (length exn_xyz) 0 _ (0, 0, 0)%R HI HE) as (B & t & objs & E & _).
  exists B. exists 32%N, (2 ^ 32 - 1)%N, (101, 101, 101)%R, (0, 0, 0)%R, 0, (exs_benv (length exn_xyz) (length exn_xyz)). rewrite RU in *. auto.
Qed.
Definition exn_env (B : @bvh R) : nc_env := {|
  ne_leaf := rev (seq 0 (b_leafs B)); ne_field := fun k => repeat 5%R k; ne_up := fun _ => exs_rr (length (b_cells B)) 3; ne_scale := rev (seq 0 (total_cell_count B));
  ne_scan := fun buf len => exclusive_sum_fallback (repeat 9%Z len) buf len; ne_stack := fun _ _ => repeat 9%N 4;
  ne_l1 := rev (seq 0 (b_leafs B)); ne_l2 := rev (seq 0 (b_leafs B)); ne_own := rev (seq 0 4); ne_p1 := rev (seq 0 4); ne_p2 := rev (seq 0 4);
  ne_jz := fun k => repeat 7%Z k; ne_jn := fun k => repeat 6 k |}.
Lemma few_small n m (P : nat -> nat -> Prop) : (forall i j, P i j -> i < n /\ j < n) -> (Z.of_nat (n * n) < m)%Z -> fewer_pairs P m.
Proof.
  intros HP Hm L ND HL. assert (length L <= n * n); [|lia]. rewrite <- (seq_length n 0) at 1. rewrite <- (seq_length n 0) at 2. rewrite <- prod_length. apply NoDup_incl_length; auto.
  intros [i j] Hij. apply HL in Hij. apply HP in Hij. cbn [fst snd] in Hij. apply in_prod; apply in_seq; lia.
Qed.
Lemma leafs_le b code xyz B : built Rleb b code xyz xyz (length xyz) B -> b_leafs B <= length xyz.
Proof.
  intros HB. destruct (nc_setup b code xyz B HB) as (t & objs & RP & _).
  assert (G : forall l, (forall k, In k l -> objs k <> []) -> length l <= length (flat_map objs l)).
  { induction l as [|k l IH]; intros H; [auto|]. cbn [flat_map length]. rewrite app_length. assert (length (objs k) <> 0) by (intros X; apply (H k); [now left|]; destruct (objs k); [auto|discriminate]).
    specialize (IH (fun x Hx => H x (or_intror Hx))). lia. }
  specialize (G (leaves t) (rp_nonempty _ _ _ _ _ _ _ RP)). rewrite (Permutation_length (rp_partition _ _ _ _ _ _ _ RP)), seq_length, (rp_leaves _ _ _ _ _ _ _ RP), seq_length in G. exact G.
Qed.
(** With h = 1 everywhere, htol = 11/10 and Rkern = 2, both versions find that 1 is a neighbour of 0 and 2 is not. *)
Example C49_nonvacuous : exists B, built Rleb 3 exn_code exn_xyz exn_xyz (length exn_xyz) B /\ nc_env_ok B 4 (exn_env B) 4 /\
  forall two_stage, exists c l, neighbours B exn_xyz [1; 1; 1; 1]%R 0 (11 / 10) 2 two_stage 3 4 (exn_env B) 4 = Ok c /\
    for_each_object c 0 = Ok l /\ In 1 l /\ ~ In 2 l.
Proof.
  destruct exn_built as (B & HB). exists B. split; auto.
  assert (RP : forall k, Permutation (rev (seq 0 k)) (seq 0 k)) by (intros; symmetry; apply Permutation_rev).
  assert (EO : nc_env_ok B 4 (exn_env B) 4).
  { constructor; cbn [exn_env ne_leaf ne_field ne_up ne_scale ne_scan ne_stack ne_l1 ne_l2 ne_own ne_p1 ne_p2 ne_jz ne_jn]; intros; try apply repeat_length; try apply RP; [apply exs_rr_ok|].
    intros buf len H0 H1. apply (C19_exclusive_host (repeat 9%Z len) buf len H1). rewrite repeat_length. lia. }
  split; auto. intros two_stage.
  destruct (C49_neighbours 3 exn_code exn_xyz B [1; 1; 1; 1]%R 0 (11 / 10) 2 two_stage 3 4 (exn_env B) 4) as (c & E & L); auto; try lra; try (change (N.to_nat 3) with 3; cbn [length exn_xyz]; lia).
  - intros h Hh. destruct Hh as [<-|[<-|[<-|[<-|[]]]]]; lra.
  - apply (few_small 4); [|change (2 ^ 32)%Z with 4294967296%Z; lia]. intros i j (H1 & H2 & _). cbn [length exn_xyz] in H2. lia.
  - intros _. split; [exists 1%N; exact exn_grid|]. apply (few_small 4); [|change (2 ^ 32)%Z with 4294967296%Z; lia]. pose proof (leafs_le _ _ _ _ HB) as LL. cbn [length exn_xyz] in LL.
    intros i j (H1 & H2 & _). lia.
  - destruct (L 0) as (l & El & _ & P); [lia|]. exists c, l. split; auto. split; auto. rewrite !P. unfold interacts, pos_of, h_of, dist2, cx, cy, cz. cbn [nth exn_xyz fst snd length]. split.
    + split; [lia|]. left. assert (X : (sqrt ((0 - 1) * (0 - 1) + (0 - 0) * (0 - 0) + (0 - 0) * (0 - 0)) = 1)%R) by (replace ((0 - 1) * (0 - 1) + (0 - 0) * (0 - 0) + (0 - 0) * (0 - 0))%R with (1 * 1)%R by ring; apply sqrt_square; lra).
      rewrite X. lra.
    + intros [_ H]. assert (X : (sqrt ((0 - 100) * (0 - 100) + (0 - 0) * (0 - 0) + (0 - 0) * (0 - 0)) = 100)%R) by (replace ((0 - 100) * (0 - 100) + (0 - 0) * (0 - 0) + (0 - 0) * (0 - 0))%R with (100 * 100)%R by ring; apply sqrt_square; lra).
      rewrite X in H. lra.
Qed.
