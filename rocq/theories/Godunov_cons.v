(** Conservation: what leaves a cell through a face enters the cell on the other side, in whichever patch it is. *)
Require Import Reals Lra.
From Verif Require Import Base Par Scan Scan_spec Dtt_segs Riemann Riemann_spec Riemann_proofs Godunov Godunov_spec Godunov_graph Godunov_pure.
From Coq Require Import ZifyBool ZifyNat.
Local Open Scope nat_scope.

(** ** Geometry *)
Lemma gc_add c u v : gc c (gadd u v) = (gc c u + gc c v)%Z.
Proof. destruct u as [[x y] z], v as [[x' y'] z'], c; reflexivity. Qed.
Lemma gc_sub c u v : gc c (gsub u v) = (gc c u - gc c v)%Z.
Proof. destruct u as [[x y] z], v as [[x' y'] z'], c; reflexivity. Qed.
Lemma gc_zero c : gc c gzero = 0%Z.
Proof. destruct c; reflexivity. Qed.
Lemma gvec_ext u v : (forall c, gc c u = gc c v) -> u = v.
Proof. intros H. pose proof (H AX) as X. pose proof (H AY) as Y. pose proof (H AZ) as Z. destruct u as [[x y] z], v as [[x' y'] z']. cbn in *. now subst. Qed.
Ltac gv := apply gvec_ext; intros ?; repeat (rewrite gc_add || rewrite gc_sub || rewrite gc_zero); lia.
Lemma lo_tr c t q : lo c (translate t q) = (lo c q + gc c t)%Z.
Proof. unfold lo, translate. cbn [q_lo]. apply gc_add. Qed.
Lemma hi_tr c t q : hi c (translate t q) = (hi c q + gc c t)%Z.
Proof. unfold hi, translate. cbn [q_lo q_side]. rewrite gc_add. lia. Qed.
Lemma tr_tr t t' q : translate t (translate t' q) = translate (gadd t' t) q.
Proof. unfold translate. cbn [q_lo q_side]. f_equal. gv. Qed.
Lemma touches_tr d t q q' : touches d (translate t q) (translate t q') <-> touches d q q'.
Proof.
  unfold touches. rewrite !lo_tr, !hi_tr. split; intros (E & H).
  - split; [destruct (upward d); lia|]. intros c Hc. specialize (H c Hc). rewrite !lo_tr, !hi_tr in H. lia.
  - split; [destruct (upward d); lia|]. intros c Hc. specialize (H c Hc). rewrite !lo_tr, !hi_tr. lia.
Qed.
Lemma axis_opp d : axis_of (opposite d) = axis_of d.
Proof. now destruct d. Qed.
Lemma up_opp d : upward (opposite d) = negb (upward d).
Proof. now destruct d. Qed.
Lemma opp_opp d : opposite (opposite d) = d.
Proof. now destruct d. Qed.
Lemma touches_sym d q q' : touches d q q' -> touches (opposite d) q' q.
Proof. unfold touches. rewrite axis_opp, up_opp. intros (E & H). split; [destruct (upward d); exact E|]. intros c Hc. specialize (H c Hc). lia. Qed.

Tactic Notation "inj2" constr(E) ident(E1) ident(E2) := pose proof (f_equal fst E) as E1; pose proof (f_equal snd E) as E2; cbn [fst snd] in E1, E2.
Tactic Notation "inj3" constr(E) ident(E1) ident(E2) ident(E3) := pose proof (f_equal (fun k => fst (fst k)) E) as E1; pose proof (f_equal (fun k => snd (fst k)) E) as E2; pose proof (f_equal snd E) as E3; cbn [fst snd] in E1, E2, E3.
(** real boxes of displaced cubes *)
Local Open Scope R_scope.
Lemma Rmax_add a b t : Rmax (a + t) (b + t) = Rmax a b + t.
Proof. unfold Rmax. repeat destruct (Rle_dec _ _); lra. Qed.
Lemma Rmin_add a b t : Rmin (a + t) (b + t) = Rmin a b + t.
Proof. unfold Rmin. repeat destruct (Rle_dec _ _); lra. Qed.
Definition tvec (dx : R) (t : gvec) : rv3 := mkrv (IZR (gc AX t) * dx) (IZR (gc AY t) * dx) (IZR (gc AZ t) * dx).
Lemma rlo_tr dx t q : rlo dx (translate t q) = rvadd (rlo dx q) (tvec dx t).
Proof. unfold rlo. rewrite !lo_tr, !plus_IZR. apply rv_ext; cbn; ring. Qed.
Lemma rhi_tr dx t q : rhi dx (translate t q) = rvadd (rhi dx q) (tvec dx t).
Proof. unfold rhi. rewrite !hi_tr, !plus_IZR. apply rv_ext; cbn; ring. Qed.
Lemma shift_tr dx t q q' : shiftR (rbx dx (translate t q)) (rbx dx (translate t q')) = shiftR (rbx dx q) (rbx dx q').
Proof.
  unfold shiftR, rintersect, get_center, rbx. cbn [fst snd]. rewrite !rlo_tr, !rhi_tr. unfold rvmap2.
  apply rv_ext; cbn [rx ry rz rvsub rvscal rvadd]; rewrite Rmax_add, Rmin_add; ring.
Qed.
Lemma surf_tr dx t q q' : surfR dx (rbx dx (translate t q)) (rbx dx (translate t q')) = surfR dx (rbx dx q) (rbx dx q').
Proof.
  unfold surfR, rintersect, rbx. cbn [fst snd]. rewrite !rlo_tr, !rhi_tr. unfold rvmap2. cbn [rx ry rz rvadd]. rewrite !Rmax_add, !Rmin_add.
  assert (E : forall a b t : R, a + t - (b + t) = a - b) by (intros; ring). now rewrite !E.
Qed.
Lemma surf_sym dx A B : surfR dx A B = surfR dx B A.
Proof. unfold surfR. now rewrite rintersect_sym. Qed.
Local Open Scope nat_scope.

(** ** Matching two sums *)
Lemma csum_match {X Y K} (k1 : X -> K) (k2 : Y -> K) (f : X -> cons) (g : Y -> cons) : forall (l : list X) (l' : list Y),
  Permutation (map k1 l) (map k2 l') -> (forall x y, In x l -> In y l' -> k1 x = k2 y -> f x = g y) -> csum f l = csum g l'.
Proof.
  induction l as [|x l IH]; intros l' P H.
  - apply Permutation_nil in P. destruct l'; [reflexivity|discriminate].
  - cbn [map] in P. assert (I : In (k1 x) (map k2 l')) by (apply (Permutation_in _ P); now left). apply in_map_iff in I. destruct I as (y & E & Hy).
    destruct (in_split _ _ Hy) as (u & v & ->). rewrite map_app in P. cbn [map] in P. rewrite E in P. apply Permutation_cons_app_inv in P. rewrite <- map_app in P.
    rewrite <- (csum_perm g _ _ (Permutation_middle u v y)). cbn [csum fold_right]. f_equal.
    + apply H; auto; now left.
    + apply IH; [exact P|]. intros x' y' Hx Hy' E'. apply H; auto; [now right|]. apply in_app_or in Hy'. apply in_or_app. destruct Hy'; [now left|right; now right].
Qed.
Lemma NoDup_map_inj {A B} (f : A -> B) l x y : NoDup (map f l) -> In x l -> In y l -> f x = f y -> x = y.
Proof.
  induction l as [|z l IH]; intros N Hx Hy E; [destruct Hx|]. cbn [map] in N. inversion N as [|? ? NI N']; subst. destruct Hx as [->|Hx], Hy as [->|Hy]; auto.
  - exfalso. apply NI. rewrite E. now apply in_map.
  - exfalso. apply NI. rewrite <- E. now apply in_map.
Qed.
Lemma NoDup_map_in {A B} (f : A -> B) l : NoDup l -> (forall x y, In x l -> In y l -> f x = f y -> x = y) -> NoDup (map f l).
Proof.
  induction l as [|z l IH]; intros N H; [constructor|]. inversion N as [|? ? NI N']; subst. cbn [map]. constructor.
  - intros X. apply in_map_iff in X. destruct X as (y & E & Hy). assert (y = z) by (apply H; auto; [now right|now left]). now subst.
  - apply IH; auto. intros; apply H; auto; now right.
Qed.

Section Sim.
  Variables (lattice : gvec -> Prop) (cells : list gcell) (ps : list gpatch) (m : rmode) (mode : slope_mode) (gamma dx dt : R).
  Hypothesis SO : sim_ok lattice cells ps.
  Hypothesis FO : forall p, In p ps -> faces_ok m mode gamma dx dt p.
  Hypothesis G1 : (1 < gamma)%R.
  Hypothesis DX : (0 < dx)%R.
  Notation nc := (length cells).
  Notation nei p := (nbs (gp_bmin p) (gp_bmax p) (gp_env p)).
  Notation img := gp_img.
  Lemma PK p : In p ps -> patch_ok lattice cells p.
  Proof. intros H. now apply SO. Qed.
  Lemma own_le p : In p ps -> own_count p <= local_count p.
  Proof. intros H. pose proof (pk_nreal _ _ _ (PK p H)). unfold own_count, local_count. lia. Qed.
  Lemma img_inj p i j : In p ps -> i < local_count p -> j < local_count p -> img p i = img p j -> i = j.
  Proof.
    intros Hp Hi Hj E. destruct (Nat.eq_dec i j) as [|N]; auto. exfalso. pose proof (PK p Hp) as K. pose proof (pk_blocks _ _ _ K) as BO.
    destruct (pk_img _ _ _ K i Hi) as (_ & _ & CI & _). destruct (pk_img _ _ _ K j Hj) as (_ & _ & CJ & _). unfold local_count in *.
    destruct (cells_disjoint _ _ BO i j ltac:(lia) ltac:(lia) N) as (c & D). fold (local_cube p i) (local_cube p j) in D. rewrite CI, CJ, E in D.
    destruct (cel_side _ _ BO j ltac:(lia)) as (S & _). fold (local_cube p j) in S. rewrite CJ in S. unfold lo, hi in D. lia.
  Qed.
  Lemma nei_in p d i j : In p ps -> i < local_count p -> (In j (nei p d i) <-> j < local_count p /\ touches d (local_cube p i) (local_cube p j)).
  Proof. intros Hp Hi. pose proof (PK p Hp) as K. apply (nbs_in _ _ _ _ (pk_blocks _ _ _ K) (pk_env _ _ _ K)). exact Hi. Qed.
  Lemma nei_nd p d i : In p ps -> i < local_count p -> NoDup (nei p d i).
  Proof. intros Hp Hi. pose proof (PK p Hp) as K. eapply (nbs_nd _ _ _ _ (pk_env _ _ _ K)). exact Hi. Qed.

  (** neighbours relative to the cell *)
  Definition relk (p : gpatch) (i j : nat) : nat * gvec := (fst (img p j), gsub (snd (img p j)) (snd (img p i))).
  Lemma rel_nd p d i : In p ps -> i < local_count p -> NoDup (map (relk p i) (nei p d i)).
  Proof.
    intros Hp Hi. apply NoDup_map_in; [now apply nei_nd|]. intros x y Hx Hy E. apply nei_in in Hx, Hy; auto. apply (img_inj p); auto; try tauto.
    unfold relk in E. injection E as E1 E2. apply (f_equal (fun v => gadd v (snd (img p i)))) in E2.
    rewrite (surjective_pairing (img p x)), (surjective_pairing (img p y)), E1. f_equal.
    transitivity (gadd (gsub (snd (img p x)) (snd (img p i))) (snd (img p i))); [gv|]. rewrite E2. gv.
  Qed.
  Lemma rel_in p d i g t : In p ps -> near_own p i ->
    (In (g, t) (map (relk p i) (nei p d i)) <-> g < nc /\ lattice t /\ touches d (image cells (fst (img p i), gzero)) (image cells (g, t))).
  Proof.
    intros Hp NI. pose proof (PK p Hp) as K. destruct SO as ((L0 & LN & LA) & _). assert (Hi : i < local_count p) by apply NI.
    destruct (pk_img _ _ _ K i Hi) as (GI & LI & CI & _). rewrite in_map_iff. split.
    - intros (j & E & Hj). apply nei_in in Hj; auto. destruct Hj as (Lj & T). destruct (pk_img _ _ _ K j Lj) as (GJ & LJ & CJ & _).
      unfold relk in E. injection E as <- <-. split; [exact GJ|]. split.
      + replace (gsub (snd (img p j)) (snd (img p i))) with (gadd (snd (img p j)) (gsub gzero (snd (img p i)))) by gv. auto.
      + apply (touches_tr d (snd (img p i))). unfold image. cbn [fst snd]. rewrite !tr_tr.
        replace (gadd gzero (snd (img p i))) with (snd (img p i)) by gv. replace (gadd (gsub (snd (img p j)) (snd (img p i))) (snd (img p i))) with (snd (img p j)) by gv.
        rewrite CI, CJ in T. exact T.
    - intros (Hg & Lt & T). destruct (pk_complete _ _ _ K i d g (gadd t (snd (img p i))) NI Hg) as (j & Hj & E); [auto| |].
      + rewrite CI. apply (touches_tr d (snd (img p i))) in T. unfold image in *. cbn [fst snd] in *. rewrite !tr_tr in T.
        replace (gadd gzero (snd (img p i))) with (snd (img p i)) in T by gv. exact T.
      + exists j. split.
        * unfold relk. rewrite E. cbn [fst snd]. f_equal. gv.
        * apply nei_in; auto. split; auto. destruct (pk_img _ _ _ K j Hj) as (_ & _ & CJ & _). rewrite CI, CJ, E. apply (touches_tr d (snd (img p i))) in T.
          unfold image in *. cbn [fst snd] in *. rewrite !tr_tr in T. replace (gadd gzero (snd (img p i))) with (snd (img p i)) in T by gv. exact T.
  Qed.

  Notation WP p := (w gamma (gp_pdat p) (gp_ghosts p)).
  Notation GP p := (G (gp_bmin p) (gp_bmax p) (gp_env p) mode gamma dx (gp_pdat p) (gp_ghosts p)).
  Notation VW p := (vw (gp_bmin p) (gp_bmax p) gamma dx (gp_pdat p) (gp_ghosts p)).
  Definition viewg (g : nat) : view := (hreal dx (gl_cube (gcell_of cells g)), cons_to_prim (gl_U (gcell_of cells g)) gamma).
  Lemma vw_g p i : In p ps -> i < local_count p -> VW p i = viewg (fst (img p i)).
  Proof.
    intros Hp Hi. destruct (pk_img _ _ _ (PK p Hp) i Hi) as (_ & _ & CI & UI). unfold vw, viewg, hc, w. fold (local_cube p i). rewrite CI, UI. reflexivity.
  Qed.
  Lemma G_same p i p' i' : In p ps -> In p' ps -> near_own p i -> near_own p' i' -> fst (img p i) = fst (img p' i') -> GP p i = GP p' i'.
  Proof.
    intros Hp Hp' NI NI' E. unfold G. rewrite (vw_g p i Hp) by apply NI. rewrite (vw_g p' i' Hp') by apply NI'. rewrite E. apply gradL_perm. intros d.
    assert (Q : forall p i, In p ps -> near_own p i -> map (VW p) (nei p d i) = map (fun k : nat * gvec => viewg (fst k)) (map (relk p i) (nei p d i))).
    { intros q k Hq NK. rewrite map_map. apply map_ext_in. intros j Hj. apply nei_in in Hj; [|auto|apply NK]. rewrite vw_g by tauto. reflexivity. }
    rewrite !Q by auto. apply Permutation_map. apply NoDup_Permutation; [apply rel_nd; [auto|apply NI]|apply rel_nd; [auto|apply NI']|].
    intros [g t]. rewrite !rel_in by auto. rewrite E. reflexivity.
  Qed.

  Notation SIDE p := (side (gp_bmin p) (gp_bmax p) (gp_env p) mode gamma dx dt (gp_pdat p) (gp_ghosts p)).
  Notation FP p := (F (gp_bmin p) (gp_bmax p) (gp_env p) m mode gamma dx dt (gp_pdat p) (gp_ghosts p)).
  Notation PART p := (part (gp_bmin p) (gp_bmax p) (gp_env p) m mode gamma dx dt (gp_pdat p) (gp_ghosts p)).
  Lemma own_near p a : In p ps -> a < own_count p -> near_own p a.
  Proof. intros Hp Ha. pose proof (own_le p Hp). split; [lia|now left]. Qed.
  Lemma nei_near p d a b : In p ps -> a < own_count p -> In b (nei p d a) -> near_own p b.
  Proof. intros Hp Ha Hb. pose proof (own_le p Hp). apply nei_in in Hb; [|auto|lia]. split; [tauto|right]. exists a, d. tauto. Qed.
  Lemma side_same p a b p' a' b' t : In p ps -> In p' ps -> near_own p a -> near_own p' a' -> b < local_count p -> b' < local_count p' ->
    img p' a' = (fst (img p a), gadd (snd (img p a)) t) -> img p' b' = (fst (img p b), gadd (snd (img p b)) t) -> SIDE p a b = SIDE p' a' b'.
  Proof.
    intros Hp Hp' NA NA' Lb Lb' EA EB. unfold side.
    assert (LA : a < local_count p) by apply NA. assert (LA' : a' < local_count p') by apply NA'.
    assert (EW : WP p a = WP p' a').
    { pose proof (vw_g p a Hp LA) as X. pose proof (vw_g p' a' Hp' LA') as Y. rewrite EA in Y. cbn [fst] in Y. rewrite <- X in Y. symmetry in Y. exact (f_equal snd Y). }
    rewrite EW, (G_same p a p' a') by (auto; rewrite EA; reflexivity). f_equal.
    destruct (pk_img _ _ _ (PK p Hp) a LA) as (_ & _ & CA & _). destruct (pk_img _ _ _ (PK p Hp) b Lb) as (_ & _ & CB & _).
    destruct (pk_img _ _ _ (PK p' Hp') a' LA') as (_ & _ & CA' & _). destruct (pk_img _ _ _ (PK p' Hp') b' Lb') as (_ & _ & CB' & _).
    fold (local_cube p a) (local_cube p b) (local_cube p' a') (local_cube p' b'). rewrite CA, CB, CA', CB', EA, EB. unfold image. cbn [fst snd]. rewrite <- !tr_tr. now rewrite shift_tr.
  Qed.
  Lemma face_good p d a b : In p ps -> a < own_count p -> In b (nei p d a) -> face_ok m gamma d (SIDE p a b, SIDE p b a).
  Proof.
    intros Hp Ha Hb. pose proof (PK p Hp) as K. pose proof (own_le p Hp) as OL.
    pose proof (godunov_faces_ok (gp_bmin p) (gp_bmax p) (gp_nreal p) (gp_env p) mode gamma dx dt (gp_pdat p) (gp_ghosts p) (pk_blocks _ _ _ K) (pk_env _ _ _ K) (pk_nreal _ _ _ K) (pk_pdat _ _ _ K) (pk_data _ _ _ K)) as E.
    assert (Ha' : a < length (gp_bmin p) * 8) by (unfold own_count, local_count in *; lia).
    pose proof (FO p Hp _ _ _ E d a) as X. rewrite (gs_at _ _ _ d), faces_at in X.
    destruct (In_nth_error _ _ Hb) as (x & Ex). assert (Lx : x < length (nei p d a)) by (apply nth_error_Some; congruence).
    assert (IC : In (b, pos (nei p d) a + x) (combine (nei p d a) (seq (pos (nei p d) a) (length (nei p d a))))).
    { clear - Ex. revert x Ex. generalize (pos (nei p d) a) as k. induction (nei p d a) as [|y l IH]; intros k x Ex; [destruct x; discriminate|]. cbn [length seq combine]. destruct x as [|x].
      - injection Ex as ->. left. f_equal. lia.
      - right. replace (k + Datatypes.S x) with (Datatypes.S k + x) by lia. apply IH. exact Ex. }
    refine (X _ b (pos (nei p d) a + x) _ Ha (links_gr _ _ a Ha') IC _).
    exact (nth_seg (gp_bmin p) (gp_bmax p) (gp_nreal p) (gp_env p) (gp_pdat p) (gp_ghosts p) (pk_nreal _ _ _ K) (pk_pdat _ _ _ K) (pk_data _ _ _ K) (facep (gp_bmin p) (gp_bmax p) (gp_env p) mode gamma dx dt (gp_pdat p) (gp_ghosts p)) d a b _ Ha' IC).
  Qed.
  Lemma anti p d a b p' a' b' : In p ps -> In p' ps -> a < own_count p -> a' < own_count p' -> In b (nei p d a) -> In b' (nei p' (opposite d) a') ->
    fst (img p' a') = fst (img p b) -> img p' b' = (fst (img p a), gsub gzero (snd (img p b))) -> PART p' (opposite d) a' b' = cneg (PART p d a b).
  Proof.
    intros Hp Hp' Ha Ha' Hb Hb' EA EB. pose proof (own_le p Hp) as OL. pose proof (own_le p' Hp') as OL'.
    assert (TA : snd (img p a) = gzero) by (apply (pk_own _ _ _ (PK p Hp)); auto). assert (TA' : snd (img p' a') = gzero) by (apply (pk_own _ _ _ (PK p' Hp')); auto).
    set (t := gsub gzero (snd (img p b))) in *.
    assert (E1 : img p' a' = (fst (img p b), gadd (snd (img p b)) t)) by (rewrite (surjective_pairing (img p' a')), EA, TA'; f_equal; unfold t; gv).
    assert (E2 : img p' b' = (fst (img p a), gadd (snd (img p a)) t)) by (rewrite EB, TA; f_equal; unfold t; gv).
    assert (Lb : b < local_count p) by (eapply nei_near; eauto). assert (Lb' : b' < local_count p') by (eapply nei_near; eauto).
    assert (S1 : SIDE p b a = SIDE p' a' b') by (apply (side_same p b a p' a' b' t); auto; first [eapply nei_near; eassumption|apply own_near; assumption|lia]).
    assert (S2 : SIDE p a b = SIDE p' b' a') by (apply (side_same p a b p' b' a' t); auto; first [eapply nei_near; eassumption|apply own_near; assumption|lia]).
    unfold part, F. rewrite <- S1, <- S2.
    assert (SS : S (gp_bmin p') (gp_bmax p') dx a' b' = S (gp_bmin p) (gp_bmax p) dx a b).
    { unfold S. fold (local_cube p a) (local_cube p b) (local_cube p' a') (local_cube p' b').
      destruct (pk_img _ _ _ (PK p Hp) a) as (_ & _ & CA & _); [lia|]. destruct (pk_img _ _ _ (PK p Hp) b Lb) as (_ & _ & CB & _).
      destruct (pk_img _ _ _ (PK p' Hp') a') as (_ & _ & CA' & _); [lia|]. destruct (pk_img _ _ _ (PK p' Hp') b' Lb') as (_ & _ & CB' & _).
      rewrite CA, CB, CA', CB', E1, E2. unfold image. cbn [fst snd]. rewrite <- !tr_tr, surf_tr. apply surf_sym. }
    rewrite SS. destruct (face_good p d a b Hp Ha Hb) as (PL & PR & HC).
    rewrite (flux_anti m d gamma (SIDE p a b) (SIDE p b a)).
    - apply cons_ext; cbn; ring.
    - exact G1.
    - exact PL.
    - exact PR.
    - intros ->. destruct (HC eq_refl) as (aL & aR & HaL & HaR & Hpr & Hv). apply ordered_mild; auto.
      rewrite !cs_rot, (cs_uniq _ _ _ HaL), (cs_uniq _ _ _ HaR). unfold vx. cbn [rotp p_vel]. rewrite !rot_dot. exact Hv.
  Qed.

  (** *** all the faces of one direction *)
  Definition owners : list (gpatch * nat) := flat_map (fun p => map (pair p) (seq 0 (own_count p))) ps.
  Definition gid (o : gpatch * nat) : nat := fst (img (fst o) (snd o)).
  Lemma owners_perm : Permutation (map gid owners) (seq 0 nc).
  Proof.
    destruct SO as (_ & _ & P). rewrite <- P. unfold owners. clear. induction ps as [|p l IH]; [constructor|]. cbn [flat_map]. rewrite map_app, map_map.
    apply Permutation_app; [apply Permutation_refl|exact IH].
  Qed.
  Lemma owners_gnd : NoDup (map gid owners).
  Proof. eapply Permutation_NoDup; [symmetry; apply owners_perm|apply seq_NoDup]. Qed.
  Lemma owners_in p a : In (p, a) owners <-> In p ps /\ a < own_count p.
  Proof.
    unfold owners. rewrite in_flat_map. split.
    - intros (q & Hq & X). apply in_map_iff in X. destruct X as (i & E & Hi). injection E as -> ->. apply in_seq in Hi. split; auto. lia.
    - intros (Hp & Ha). exists p. split; auto. apply in_map. apply in_seq. lia.
  Qed.
  Definition flinks (d : dirn) : list (gpatch * nat * nat) := flat_map (fun o => map (pair o) (nei (fst o) d (snd o))) owners.
  Definition fkey (x : gpatch * nat * nat) : nat * nat * gvec := let '(p, a, b) := x in (fst (img p a), fst (img p b), snd (img p b)).
  Definition mkey (x : gpatch * nat * nat) : nat * nat * gvec := let '(p, a, b) := x in (fst (img p b), fst (img p a), gsub gzero (snd (img p b))).
  Lemma flinks_in d p a b : In (p, a, b) (flinks d) <-> In p ps /\ a < own_count p /\ In b (nei p d a).
  Proof.
    unfold flinks. rewrite in_flat_map. split.
    - intros ([q i] & Hq & X). apply in_map_iff in X. destruct X as (j & E & Hj). cbn [fst snd] in *. injection E as -> -> ->. apply owners_in in Hq. tauto.
    - intros (Hp & Ha & Hb). exists (p, a). split; [now apply owners_in|]. cbn [fst snd]. now apply in_map.
  Qed.
  Lemma flinks_nd d : NoDup (flinks d).
  Proof.
    unfold flinks. apply NoDup_flat.
    - eapply NoDup_map_inv. apply owners_gnd.
    - intros [p a] H. apply owners_in in H. destruct H as (Hp & Ha). cbn [fst snd]. apply FinFun.Injective_map_NoDup; [intros u v E; congruence|]. pose proof (own_le p Hp). apply nei_nd; auto. lia.
    - intros x x' y _ _ X X'. apply in_map_iff in X, X'. destruct X as (? & <- & _), X' as (? & E & _). congruence.
  Qed.
  Lemma key_inj d x y : In x (flinks d) -> In y (flinks d) -> fkey x = fkey y -> x = y.
  Proof.
    destruct x as [[p a] b], y as [[p' a'] b']. intros X Y E. apply flinks_in in X, Y. destruct X as (Hp & Ha & Hb), Y as (Hp' & Ha' & Hb'). unfold fkey in E. injection E as E1 E2 E3.
    assert (OO : (p, a) = (p', a')) by (apply (NoDup_map_inj gid owners); [apply owners_gnd|now apply owners_in|now apply owners_in|exact E1]). injection OO as <- <-.
    f_equal. apply (img_inj p); auto; try (eapply nei_near; eauto). rewrite (surjective_pairing (img p b)), (surjective_pairing (img p b')). congruence.
  Qed.
  Lemma mkey_inj d x y : In x (flinks d) -> In y (flinks d) -> mkey x = mkey y -> x = y.
  Proof.
    intros X Y E. apply (key_inj d); auto. destruct x as [[p a] b], y as [[p' a'] b']. unfold mkey in E. pose proof (f_equal (fun k => fst (fst k)) E) as E1. pose proof (f_equal (fun k => snd (fst k)) E) as E2. pose proof (f_equal snd E) as E3. cbn [fst snd] in E1, E2, E3. unfold fkey. rewrite E1, E2. f_equal.
    apply gvec_ext. intros c. apply (f_equal (gc c)) in E3. rewrite !gc_sub in E3. lia.
  Qed.
  Lemma mirror d : Permutation (map mkey (flinks d)) (map fkey (flinks (opposite d))).
  Proof.
    assert (ST : forall d x, In x (flinks d) -> exists y, In y (flinks (opposite d)) /\ fkey y = mkey x).
    { intros d0 [[p a] b] X. apply flinks_in in X. destruct X as (Hp & Ha & Hb). pose proof (PK p Hp) as K. pose proof (own_le p Hp) as OL.
      apply nei_in in Hb; [|auto|lia]. destruct Hb as (Lb & T). destruct (pk_img _ _ _ K b Lb) as (GB & LB & CB & _). destruct (pk_img _ _ _ K a) as (GA & _ & CA & _); [lia|].
      assert (IG : In (fst (img p b)) (map gid owners)) by (apply (Permutation_in _ (Permutation_sym owners_perm)), in_seq; lia).
      apply in_map_iff in IG. destruct IG as ([p' a'] & EG & IO). apply owners_in in IO. destruct IO as (Hp' & Ha'). unfold gid in EG. cbn [fst snd] in EG.
      pose proof (pk_own _ _ _ (PK p' Hp') a' Ha') as T0'. pose proof (pk_own _ _ _ K a Ha) as T0. destruct SO as ((_ & LN & _) & _).
      assert (RI : In (fst (img p a), gsub gzero (snd (img p b))) (map (relk p' a') (nei p' (opposite d0) a'))).
      { apply rel_in; [auto|now apply own_near|]. split; [auto|]. split; [now apply LN|]. rewrite EG. apply (touches_tr _ (snd (img p b))). apply touches_sym in T. rewrite CA, CB in T.
        unfold image in *. cbn [fst snd] in *. rewrite !tr_tr. replace (gadd gzero (snd (img p b))) with (snd (img p b)) by gv.
        replace (gadd (gsub gzero (snd (img p b))) (snd (img p b))) with (snd (img p a)) by (rewrite T0; gv). exact T. }
      apply in_map_iff in RI. destruct RI as (b' & EB & Hb'). exists (p', a', b'). split; [now apply flinks_in|]. unfold relk in EB. rewrite T0' in EB. inj2 EB EB1 EB2.
      unfold fkey, mkey. rewrite EG, EB1. f_equal. rewrite <- EB2. gv. }
    apply NoDup_Permutation.
    - apply NoDup_map_in; [apply flinks_nd|]. intros; eapply mkey_inj; eauto.
    - apply NoDup_map_in; [apply flinks_nd|]. intros; eapply key_inj; eauto.
    - intros k. rewrite !in_map_iff. split.
      + intros (x & <- & Hx). destruct (ST d x Hx) as (y & Hy & E). exists y. auto.
      + intros (y & <- & Hy). destruct (ST (opposite d) y Hy) as (x & Hx & E). rewrite opp_opp in Hx. exists x. split; auto.
        destruct x as [[p a] b], y as [[p' a'] b']. unfold fkey, mkey in *. inj3 E E1 E2 E3. rewrite E1, E2, E3. f_equal. gv.
  Qed.
  Definition pval (d : dirn) (x : gpatch * nat * nat) : cons := let '(p, a, b) := x in PART p d a b.
  Lemma mirror_sum d : csum (pval (opposite d)) (flinks (opposite d)) = cneg (csum (pval d) (flinks d)).
  Proof.
    rewrite <- csum_neg. symmetry. apply (csum_match mkey fkey); [apply mirror|]. intros [[p a] b] [[p' a'] b'] X Y E. apply flinks_in in X, Y. destruct X as (Hp & Ha & Hb), Y as (Hp' & Ha' & Hb').
    unfold mkey, fkey in E. inj3 E E1 E2 E3. cbn [pval]. symmetry. apply anti; auto. rewrite (surjective_pairing (img p' b')). congruence.
  Qed.
  Notation OUT p := (outflow (gp_bmin p) (gp_bmax p) (gp_env p) m mode gamma dx dt (gp_pdat p) (gp_ghosts p)).
  Lemma no_loss : csum (fun p => csum (OUT p) (seq 0 (own_count p))) ps = czero.
  Proof.
    transitivity (csum (fun o : gpatch * nat => OUT (fst o) (snd o)) owners).
    { unfold owners. rewrite csum_flat. apply csum_ext. intros p _. now rewrite csum_map. }
    assert (TD : forall d, csum (fun o : gpatch * nat => csum (PART (fst o) d (snd o)) (nei (fst o) d (snd o))) owners = csum (pval d) (flinks d)).
    { intros d. unfold flinks. rewrite csum_flat. apply csum_ext. intros [p a] _. cbn [fst snd]. now rewrite csum_map. }
    unfold outflow, dirs. cbn [csum fold_right].
    fold (@csum nat) in *. rewrite !csum_add, !TD, csum_zero.
    pose proof (mirror_sum xp) as MX. pose proof (mirror_sum yp) as MY. pose proof (mirror_sum zp) as MZ. cbn [opposite] in MX, MY, MZ. rewrite MX, MY, MZ. apply cons_ext; cbn; ring.
  Qed.
  Theorem conservation : exists new : gpatch -> list cons,
    (forall p, In p ps -> step_patch m mode gamma dx dt p = Ok (new p) /\ length (new p) = own_count p) /\
    csum (fun p => content dx (gp_bmin p) (gp_bmax p) (own_count p) (new p)) ps = csum (fun p => content dx (gp_bmin p) (gp_bmax p) (own_count p) (gp_pdat p)) ps.
  Proof.
    exists (fun p => map (newU (gp_bmin p) (gp_bmax p) (gp_env p) m mode gamma dx dt (gp_pdat p) (gp_ghosts p)) (seq 0 (own_count p))). split.
    - intros p Hp. pose proof (PK p Hp) as K. split; [|now rewrite map_length, seq_length]. unfold step_patch.
      apply (godunov_step_ok _ _ _ _ _ _ _ _ _ _ _ (pk_blocks _ _ _ K) (pk_env _ _ _ K) (pk_nreal _ _ _ K) (pk_pdat _ _ _ K) (pk_data _ _ _ K)).
    - transitivity (csum (fun p => cadd (content dx (gp_bmin p) (gp_bmax p) (own_count p) (gp_pdat p)) (cscal (- dt) (csum (OUT p) (seq 0 (own_count p))))) ps).
      + apply csum_ext. intros p Hp. pose proof (PK p Hp) as K. pose proof (own_le p Hp) as OL. unfold content. rewrite <- csum_scal, <- csum_add. apply csum_ext. intros a Ha. apply in_seq in Ha.
        assert (E : nth a (map (newU (gp_bmin p) (gp_bmax p) (gp_env p) m mode gamma dx dt (gp_pdat p) (gp_ghosts p)) (seq 0 (own_count p))) czero
          = newU (gp_bmin p) (gp_bmax p) (gp_env p) m mode gamma dx dt (gp_pdat p) (gp_ghosts p) a).
        { apply nth_error_nth. rewrite nth_error_map, nth_error_seq by lia. reflexivity. }
        rewrite E. unfold newU, dts. set (o := outflow _ _ _ _ _ _ _ _ _ _ a). destruct (cel_side _ _ (pk_blocks _ _ _ K) a) as (SA & _); [unfold local_count in OL; lia|].
        assert (VE : volume dx (cell (gp_bmin p) (gp_bmax p) a) = V (gp_bmin p) (gp_bmax p) dx a) by (unfold volume, V, hc, hreal; ring).
        assert (VN : V (gp_bmin p) (gp_bmax p) dx a <> 0%R).
        { unfold V, hc, hreal. assert (0 < IZR (q_side (cell (gp_bmin p) (gp_bmax p) a)))%R by (now apply (IZR_lt 0)).
          assert (0 < IZR (q_side (cell (gp_bmin p) (gp_bmax p) a)) * dx)%R by (apply Rmult_lt_0_compat; auto). apply Rgt_not_eq. repeat apply Rmult_lt_0_compat; auto. }
        rewrite VE. apply cons_ext; cbn; field; exact VN.
      + rewrite csum_add, csum_scal, no_loss. apply cons_ext; cbn; ring.
  Qed.
End Sim.
