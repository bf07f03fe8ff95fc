(** C54, accuracy: the states at the faces are exact for affine flows. *)
Require Import Reals Lra.
From Verif Require Import Base Par Scan Scan_spec Dtt_segs Riemann Riemann_spec Riemann_proofs Riemann_pos Godunov Godunov_spec Godunov_graph Godunov_pure Godunov_cons Godunov_cover Godunov_pos Godunov_ex Godunov_lin_spec Godunov_lin.
From Coq Require Import ZifyBool ZifyNat.
Local Open Scope nat_scope.

(** Second order.  Around cell [a] density, pressure and velocity are affine functions of the position, and on each side
    the neighbours are as large as the cell or half as large (or, if the flow varies only in that direction, up to twice
    as large).  With any limiter, the state of [a]'s side of each of its faces is the value of the flow at the centre of
    the face, advanced by half a time step with the Euler equations; whichever of the two cells looks at the face. *)
Theorem C54_affine_faces : forall bmin bmax nreal env mode gamma dxfact dt pdat ghosts W0 J a,
  blocks_ok bmin bmax -> gd_env_ok bmin bmax nreal env -> nreal <= length bmin ->
  length pdat = nreal * 8 -> length (pdat ++ ghosts) = length bmin * 8 -> (1 < gamma)%R -> (0 < dxfact)%R -> mode <> SlopeNone ->
  a < length bmin * 8 -> affine_around bmin bmax gamma dxfact W0 J (pdat ++ ghosts) a ->
  (forall d, well_placed bmin bmax d a \/ (graded bmin bmax d a /\ varies_only_along (axis_of d) J)) ->
  exists sizes gs faces,
    godunov_faces env mode gamma dxfact dt bmin bmax (pdat ++ ghosts) = Ok (sizes, gs, faces) /\
    forall d b, b < length bmin * 8 ->
      let predicted := later (dt / 2) (state_at W0 J (face_centre dxfact (cell bmin bmax a) (cell bmin bmax b)))
                             (euler_rate gamma (state_at W0 J (centre dxfact (cell bmin bmax a))) J) in
      (forall links k, for_each_object_link_id (get6 gs d) a = Ok links -> In (b, k) links ->
         exists other, aget (get6 faces d) k = Ok (predicted, other)) /\
      (forall links k, for_each_object_link_id (get6 gs d) b = Ok links -> In (a, k) links ->
         exists other, aget (get6 faces d) k = Ok (other, predicted)).
Proof.
  intros bmin bmax nreal env mode gamma dx dt pdat ghosts W0 J a BO EO NR LP LD G1 DX NM Ha AF PL.
  do 3 eexists. split; [eapply godunov_faces_ok; eauto|]. intros d b Hb. cbv zeta.
  assert (LS := fun b => lin_side bmin bmax nreal env mode gamma dx dt pdat ghosts BO EO DX W0 J G1 NM a b Ha AF PL).
  split; intros links k HL HI; rewrite gs_at, links_gr in HL by auto; injection HL as <-; rewrite faces_at.
  - assert (HF := nth_seg bmin bmax nreal env pdat ghosts NR LP LD (facep bmin bmax env mode gamma dx dt pdat ghosts) d a b k Ha HI).
    unfold flist, fsegs. rewrite HF. unfold facep. rewrite LS. eauto.
  - assert (HF := nth_seg bmin bmax nreal env pdat ghosts NR LP LD (facep bmin bmax env mode gamma dx dt pdat ghosts) d b a k Hb HI).
    unfold flist, fsegs. rewrite HF. unfold facep. rewrite (LS b). eauto.
Qed.

(** a coarse block, a fine one on its right, coarse ones below and behind; cell 1 has four neighbours on its right *)
Definition l_mins : list gvec := [(0, 0, 0); (4, 0, 0); (0, -4, 0); (0, 0, -4)]%Z.
Definition l_maxs : list gvec := [(4, 4, 4); (6, 2, 2); (4, 0, 4); (4, 4, 0)]%Z.
Definition l_W0 : prim := mkprim 20 30 (mkrv 1 2 3).
Definition l_J : grad5 := mkgrad (mkrv 1 (/ 2) (-1)) (mkrv (-1) 1 1) (mkrv 2 1 0) (mkrv 0 1 3) (mkrv (/ 2) 1 (-2)).
Definition l_u (b : nat) : cons := conserved (5 / 3) (state_at l_W0 l_J (centre 1 (cell l_mins l_maxs b))).
Definition l_pdat : list cons := map l_u (seq 0 8).
Definition l_ghosts : list cons := map l_u (seq 8 24).
Lemma l_blocks : blocks_ok l_mins l_maxs.
Proof.
  split; [reflexivity| |].
  - intros i Hi. cbn in Hi. do 4 (destruct i as [|i]; [first [exists 2%Z; split; [lia|reflexivity] | exists 1%Z; split; [lia|reflexivity]]|]). lia.
  - intros i j Hi Hj N. cbn in Hi, Hj. do 4 (destruct i as [|i]; [do 4 (destruct j as [|j]; [try lia; first [exists AX; cbn; lia | exists AY; cbn; lia | exists AZ; cbn; lia]|]); lia|]). lia.
Qed.
Lemma l_box b c : b < 32 -> (-4 <= lo c (cell l_mins l_maxs b) /\ lo c (cell l_mins l_maxs b) < hi c (cell l_mins l_maxs b) <= 6)%Z.
Proof.
  intros H. do 32 (destruct b as [|b]; [destruct c; vm_compute; repeat split; congruence|]). lia.
Qed.
Lemma l_placed d : well_placed l_mins l_maxs d 1.
Proof.
  destruct d.
  - right. split; [exists 1%Z; reflexivity|]. intros q' (S & O) (T & _). pose proof (O AX) as OX. pose proof (O AY) as OY. pose proof (O AZ) as OZ. clear O.
    change (q_side (beside xp (cell l_mins l_maxs 1))) with 2%Z in S. destruct q' as [[[x y] z] s]. cbn [q_side] in *. unfold lo, hi in *. cbn [q_lo q_side gc axis_of upward] in *.
    vm_compute in T. change (q_lo (beside xp (cell l_mins l_maxs 1))) with (4, 0, 0)%Z in *. cbn [gc] in *. assert (s = 1)%Z by lia. subst s. assert (x = 4)%Z by lia. subst x.
    destruct OY as [->| ->], OZ as [->| ->]; [exists 8|exists 12|exists 10|exists 14]; (split; [apply Nat.ltb_lt; reflexivity|reflexivity]).
  - left. exists 0. split; [apply Nat.ltb_lt; reflexivity|reflexivity].
  - left. exists 3. split; [apply Nat.ltb_lt; reflexivity|reflexivity].
  - left. exists 19. split; [apply Nat.ltb_lt; reflexivity|reflexivity].
  - left. exists 5. split; [apply Nat.ltb_lt; reflexivity|reflexivity].
  - left. exists 29. split; [apply Nat.ltb_lt; reflexivity|reflexivity].
Qed.
Lemma l_physical b : b < 32 -> physical (state_at l_W0 l_J (centre 1 (cell l_mins l_maxs b))).
Proof.
  intros Hb. pose proof (l_box b AX Hb) as (X1 & X2 & X3). pose proof (l_box b AY Hb) as (Y1 & Y2 & Y3). pose proof (l_box b AZ Hb) as (Z1 & Z2 & Z3).
  repeat match goal with H : (_ <= _)%Z |- _ => apply IZR_le in H | H : (_ < _)%Z |- _ => apply IZR_lt in H end.
  split; cbn; unfold dotp; cbn; lra.
Qed.
Example C54_nonvacuous_affine :
  blocks_ok l_mins l_maxs /\ gd_env_ok l_mins l_maxs 1 (std_env l_mins l_maxs 1) /\
  affine_around l_mins l_maxs (5 / 3) 1 l_W0 l_J (l_pdat ++ l_ghosts) 1 /\ (forall d, well_placed l_mins l_maxs d 1) /\
  q_side (cell l_mins l_maxs 1) = 2%Z /\ q_side (cell l_mins l_maxs 8) = 1%Z /\ touches xp (cell l_mins l_maxs 1) (cell l_mins l_maxs 8).
Proof.
  split; [apply l_blocks|]. split; [apply std_env_ok; reflexivity|]. split.
  - intros b Hb _. change (length l_mins * 8) with 32 in Hb. split; [now apply l_physical|]. unfold l_pdat, l_ghosts. rewrite <- map_app, <- seq_app. apply nth_error_nth.
    rewrite nth_error_map, nth_error_seq by exact Hb. reflexivity.
  - split; [apply l_placed|]. split; [reflexivity|]. split; [reflexivity|]. split; [reflexivity|]. intros [| |] H; [exfalso; apply H; reflexivity| |]; vm_compute; split; reflexivity.
Qed.
Print Assumptions C54_affine_faces.
