From Verif Require Import Base Bits Morton Morton_spec Morton_proofs Hilbert.
From Coq Require Import ZifyBool ZifyNat ZifyN.
Open Scope N_scope.

(** * The transducer on bit planes *)
Definition b3 := (bool * bool * bool)%type.
Definition flip0 (v : b3) : b3 := let '(a, b, c) := v in (negb a, b, c).
Definition swap01 (v : b3) : b3 := let '(a, b, c) := v in (b, a, c).
Definition swap02 (v : b3) : b3 := let '(a, b, c) := v in (c, b, a).
Definition act (d v : b3) : b3 :=
  let '(d0, d1, d2) := d in
  let v := if d0 then flip0 v else v in
  let v := if d1 then flip0 v else swap01 v in
  if d2 then flip0 v else swap02 v.

Inductive ax := A0 | A1 | A2.
Definition sel (a : ax) (v : b3) : bool := let '(x, y, z) := v in match a with A0 => x | A1 => y | A2 => z end.
Definition sg := ((ax * ax * ax) * b3)%type.
Definition app (s : sg) (v : b3) : b3 :=
  let '((p, q, r), (f, g, h)) := s in (xorb (sel p v) f, xorb (sel q v) g, xorb (sel r v) h).
Definition sflip0 (s : sg) : sg := let '(p, (f, g, h)) := s in (p, (negb f, g, h)).
Definition sswap01 (s : sg) : sg := let '((p, q, r), (f, g, h)) := s in ((q, p, r), (g, f, h)).
Definition sswap02 (s : sg) : sg := let '((p, q, r), (f, g, h)) := s in ((r, q, p), (h, g, f)).
Definition sact (d : b3) (s : sg) : sg :=
  let '(d0, d1, d2) := d in
  let s := if d0 then sflip0 s else s in
  let s := if d1 then sflip0 s else sswap01 s in
  if d2 then sflip0 s else sswap02 s.
Definition sid : sg := ((A0, A1, A2), (false, false, false)).

Lemma app_id v : app sid v = v.
Proof. destruct v as [[a b] c]. cbn. now rewrite !xorb_false_r. Qed.
Lemma app_flip0 s v : app (sflip0 s) v = flip0 (app s v).
Proof. destruct s as [[[p q] r] [[f g] h]]. cbn. f_equal. f_equal. now destruct (sel p v), f. Qed.
Lemma app_swap01 s v : app (sswap01 s) v = swap01 (app s v).
Proof. now destruct s as [[[p q] r] [[f g] h]]. Qed.
Lemma app_swap02 s v : app (sswap02 s) v = swap02 (app s v).
Proof. now destruct s as [[[p q] r] [[f g] h]]. Qed.
Lemma app_act d s v : app (sact d s) v = act d (app s v).
Proof. destruct d as [[[] []] []]; cbn [sact act]; rewrite ?app_flip0, ?app_swap01, ?app_swap02, ?app_flip0, ?app_swap01, ?app_flip0; reflexivity. Qed.

Definition gray (v : b3) : b3 := let '(a, b, c) := v in (a, xorb b a, xorb c (xorb b a)).
Definition third (v : b3) : bool := let '(_, _, c) := v in c.
Definition xorall (v : b3) (t : bool) : b3 := let '(a, b, c) := v in (xorb a t, xorb b t, xorb c t).

Definition state := (sg * bool)%type.
Definition dig1 (s : state) (b : b3) : b3 := xorall (gray (app (fst s) b)) (snd s).
Definition nxt (s : state) (b : b3) : state :=
  let b' := app (fst s) b in (sact b' (fst s), xorb (snd s) (third (gray b'))).
Fixpoint enc (s : state) (l : list b3) : list b3 :=
  match l with [] => [] | b :: l' => dig1 s b :: enc (nxt s b) l' end.

Fixpoint tr (s : sg) (l : list b3) : list b3 :=
  match l with [] => [] | b :: l' => app s b :: tr (sact (app s b) s) l' end.
Fixpoint dig (t : bool) (l : list b3) : list b3 :=
  match l with [] => [] | g :: l' => xorall g t :: dig (xorb t (third g)) l' end.
Lemma enc_split : forall l s t, dig t (map gray (tr s l)) = enc (s, t) l.
Proof. induction l as [|b l IH]; intros s t; [reflexivity|]. cbn [tr map dig enc]. rewrite IH. reflexivity. Qed.

(** * Planes of a triple of words *)
Definition pl (X : vec3) (k : N) : b3 := let '(a, b, c) := X in (N.testbit a k, N.testbit b k, N.testbit c k).
(** planes n-1, ..., 0 *)
Fixpoint planes (X : vec3) (n : nat) : list b3 :=
  match n with O => [] | S m => pl X (N.of_nat m) :: planes X m end.

Lemma pow2_land a k : negb (N.land a (2 ^ k) =? 0) = N.testbit a k.
Proof.
  destruct (N.testbit a k) eqn:E.
  - destruct (N.eqb_spec (N.land a (2 ^ k)) 0) as [X|X]; [|reflexivity]. exfalso.
    assert (Y : N.testbit (N.land a (2 ^ k)) k = true) by (now rewrite N.land_spec, E, N.pow2_bits_true). rewrite X, N.bits_0 in Y. discriminate.
  - destruct (N.eqb_spec (N.land a (2 ^ k)) 0) as [X|X]; [reflexivity|]. exfalso. apply X.
    apply N.bits_inj. intros i. rewrite N.land_spec, N.bits_0, N.pow2_bits_eqb. destruct (N.eqb_spec k i) as [<-|]; [rewrite E; reflexivity|apply andb_false_r].
Qed.
Lemma ones_bit k j : N.testbit (2 ^ k - 1) j = (j <? k).
Proof.
  replace (2 ^ k - 1) with (N.ones k) by (rewrite N.ones_equiv; lia). destruct (N.ltb_spec j k); [now apply N.ones_spec_low|now apply N.ones_spec_high].
Qed.

Definition swap0 (i : nat) (v : b3) : b3 := match i with O => v | S O => swap01 v | _ => swap02 v end.
Definition bit_i (i : nat) (v : b3) : bool := let '(a, b, c) := v in match i with O => a | S O => b | _ => c end.
Lemma hil_step_pl k X i j : (i < 3)%nat -> pl (hil_step (2 ^ k) (2 ^ k - 1) X i) j =
  if j <? k then (if bit_i i (pl X k) then flip0 (pl X j) else swap0 i (pl X j)) else pl X j.
Proof.
  intros Hi. destruct X as [[a b] c]. unfold hil_step. rewrite pow2_land.
  assert (i = 0 \/ i = 1 \/ i = 2)%nat as [->|[->| ->]] by lia; cbn [getX setX pl bit_i swap0 swap01 swap02 flip0];
  match goal with |- context [if N.testbit ?u k then _ else _] => destruct (N.testbit u k) end; cbn [getX setX pl bit_i swap0 swap01 swap02 flip0];
  rewrite ?N.lxor_spec, ?N.land_spec, ?N.lxor_spec, ?ones_bit; destruct (j <? k); rewrite ?xorb_true_r, ?xorb_false_r, ?andb_true_r, ?andb_false_r, ?xorb_false_r; try reflexivity;
  destruct (N.testbit a j), (N.testbit b j), (N.testbit c j); reflexivity.
Qed.
Lemma hil_body_pl k X j : pl (hil_body (2 ^ k) X) j = if j <? k then act (pl X k) (pl X j) else pl X j.
Proof.
  unfold hil_body. cbn [fold_left]. rewrite !hil_step_pl by lia. replace (k <? k) with false by (symmetry; apply N.ltb_ge; lia).
  destruct (j <? k); [|reflexivity]. destruct (pl X k) as [[d0 d1] d2]. cbn [act bit_i swap0]. reflexivity.
Qed.

Lemma shiftr_pow2 m : N.shiftr (2 ^ N.of_nat (S m)) 1 = 2 ^ N.of_nat m.
Proof.
  rewrite Nat2N.inj_succ, N.pow_succ_r', N.shiftr_div_pow2. change (2 ^ 1) with 2. rewrite N.mul_comm. apply N.div_mul. lia.
Qed.
Lemma pow2_gt1 m : (1 <? 2 ^ N.of_nat (S m)) = true.
Proof. apply N.ltb_lt. rewrite Nat2N.inj_succ, N.pow_succ_r'. pose proof (N.pow_nonzero 2 (N.of_nat m) ltac:(lia)). lia. Qed.

Lemma loop1 : forall m fuel X X0 s, (m <= fuel)%nat -> (forall j, j <= N.of_nat m -> pl X j = app s (pl X0 j)) ->
  exists X', for_Q fuel (2 ^ N.of_nat m) hil_body X = Ok X' /\ (forall j, N.of_nat m <= j -> pl X' j = pl X j) /\ planes X' (S m) = tr s (planes X0 (S m)).
Proof.
  induction m as [|m IH]; intros fuel X X0 s Hf H.
  - exists X. split; [destruct fuel; reflexivity|]. split; auto. cbn [planes tr]. now rewrite H by lia.
  - destruct fuel as [|fuel]; [lia|]. cbn [for_Q]. rewrite pow2_gt1, shiftr_pow2.
    pose proof (H (N.of_nat (S m)) ltac:(lia)) as Hk.
    destruct (IH fuel (hil_body (2 ^ N.of_nat (S m)) X) X0 (sact (app s (pl X0 (N.of_nat (S m)))) s) ltac:(lia)) as (X' & E & U & Pl).
    { intros j Hj. rewrite hil_body_pl. destruct (N.ltb_spec j (N.of_nat (S m))); [|lia]. rewrite app_act, Hk, H by lia. reflexivity. }
    exists X'. split; [exact E|].
    assert (U' : forall j, N.of_nat (S m) <= j -> pl X' j = pl X j).
    { intros j Hj. rewrite U by lia. rewrite hil_body_pl. destruct (N.ltb_spec j (N.of_nat (S m))); [lia|reflexivity]. }
    split; auto. change (planes X' (S (S m))) with (pl X' (N.of_nat (S m)) :: planes X' (S m)). rewrite Pl, U', Hk by lia. reflexivity.
Qed.

Definition xorX (X : vec3) (t : N) : vec3 := let '(a, b, c) := X in (N.lxor a t, N.lxor b t, N.lxor c t).
Lemma loop2 : forall m fuel X t tau, (m <= fuel)%nat -> (forall j, j <= N.of_nat m -> N.testbit t j = tau) ->
  exists t', for_Q fuel (2 ^ N.of_nat m) (fun Q t => if negb (N.land (getX X 2) Q =? 0) then N.lxor t (Q - 1) else t) t = Ok t' /\
    (forall j, N.of_nat m <= j -> N.testbit t' j = N.testbit t j) /\ planes (xorX X t') (S m) = dig tau (planes X (S m)).
Proof.
  induction m as [|m IH]; intros fuel X t tau Hf H.
  - exists t. split; [destruct fuel; reflexivity|]. split; auto. destruct X as [[a b] c]. cbn [planes dig xorX pl]. rewrite !N.lxor_spec, !H by (cbn; lia). reflexivity.
  - destruct fuel as [|fuel]; [lia|]. cbn [for_Q]. rewrite pow2_gt1, shiftr_pow2, pow2_land.
    set (k := N.of_nat (S m)) in *. set (c2 := N.testbit (getX X 2) k).
    set (t1 := if c2 then N.lxor t (2 ^ k - 1) else t).
    assert (T1 : forall j, N.testbit t1 j = xorb (N.testbit t j) (c2 && (j <? k))).
    { intros j. unfold t1. destruct c2; cbn [andb]; [now rewrite N.lxor_spec, ones_bit|now rewrite xorb_false_r]. }
    destruct (IH fuel X t1 (xorb tau c2) ltac:(lia)) as (t' & E & U & Pl).
    { intros j Hj. rewrite T1, H by (unfold k; lia). destruct (N.ltb_spec j k); [now rewrite andb_true_r|unfold k in *; lia]. }
    exists t'. split; [exact E|].
    assert (U' : forall j, k <= j -> N.testbit t' j = N.testbit t j).
    { intros j Hj. rewrite U by (unfold k in *; lia). rewrite T1. destruct (N.ltb_spec j k); [lia|]. now rewrite andb_false_r, xorb_false_r. }
    split; auto. change (planes ?Y (S (S m))) with (pl Y k :: planes Y (S m)). rewrite Pl. cbn [dig].
    destruct X as [[x y] z]. cbn [xorX pl xorall third getX] in *. rewrite !N.lxor_spec, !U', !H by lia. reflexivity.
Qed.

Lemma planes_ext X Y : forall n, (forall j, j < N.of_nat n -> pl X j = pl Y j) -> planes X n = planes Y n.
Proof. induction n as [|n IH]; intros H; [reflexivity|]. cbn [planes]. rewrite H by lia. f_equal. apply IH. intros; apply H; lia. Qed.
Lemma planes_map f X Y : forall n, (forall j, pl Y j = f (pl X j)) -> planes Y n = map f (planes X n).
Proof. induction n as [|n IH]; intros H; [reflexivity|]. cbn [planes map]. rewrite H. f_equal. auto. Qed.

(** The index is the interleaving of three words whose planes are given by the transducer. *)
Lemma hilbert_planes x y z : exists X', icoord_to_hilbert x y z = Ok (icoord_to_morton_64 (getX X' 0) (getX X' 1) (getX X' 2)) /\
  planes X' 21 = enc (sid, false) (planes (x, y, z) 21).
Proof.
  unfold icoord_to_hilbert, compute_hilbert_index_3d. change (N.to_nat 21) with 21%nat. change (N.shiftl 1 (21 - 1)) with (2 ^ N.of_nat 20).
  destruct (loop1 20 21 (x, y, z) (x, y, z) sid) as (X1 & E1 & _ & P1); [lia|intros; now rewrite app_id|].
  rewrite E1. cbn [rbind]. 
  set (X2 := setX _ 2 _).
  assert (G : forall j, pl X2 j = gray (pl X1 j)).
  { intros j. unfold X2. destruct X1 as [[a b] c]. cbn [getX setX pl gray]. rewrite !N.lxor_spec. reflexivity. }
  clearbody X2.
  destruct (loop2 20 21 X2 0 false) as (t & E2 & _ & P2); [lia|intros; apply N.bits_0|].
  rewrite E2. cbn [rbind]. exists (xorX X2 t). split.
  - destruct X2 as [[a b] c]. cbn [fold_left getX setX xorX]. unfold icoord_to_morton_64, shl. rewrite !N.shiftl_mul_pow2. reflexivity.
  - rewrite P2, (planes_map gray X1 X2 21 G), P1, enc_split. reflexivity.
Qed.

(** * Finite facts about the transducer *)
Definition axes3 : list (ax * ax * ax) := [(A0,A1,A2);(A0,A2,A1);(A1,A0,A2);(A1,A2,A0);(A2,A0,A1);(A2,A1,A0)].
Definition bools3 : list b3 :=
  [(false,false,false);(false,false,true);(false,true,false);(false,true,true);(true,false,false);(true,false,true);(true,true,false);(true,true,true)].
Definition states : list state := flat_map (fun p => flat_map (fun f => [((p, f), false); ((p, f), true)]) bools3) axes3.
Lemma in_bools3 b : In b bools3.
Proof. destruct b as [[[] []] []]; cbn; tauto. Qed.
Definition b3_eqb (a b : b3) : bool := let '(x, y, z) := a in let '(u, v, w) := b in Bool.eqb x u && Bool.eqb y v && Bool.eqb z w.
Lemma b3_eqb_eq a b : b3_eqb a b = true <-> a = b.
Proof. destruct a as [[[] []] []], b as [[[] []] []]; cbn; split; intros; try discriminate; reflexivity. Qed.
Definition state_eq_dec (a b : state) : {a = b} + {a <> b}.
Proof. repeat decide equality. Defined.
Definition mem_state (s : state) : bool := if in_dec state_eq_dec s states then true else false.

Definition bnum (d : b3) : N := let '(a, b, c) := d in 4 * N.b2n a + 2 * N.b2n b + N.b2n c.
(** the plane with digit d *)
Definition inv1 (s : state) (d : b3) : b3 := match find (fun b => b3_eqb (dig1 s b) d) bools3 with Some b => b | None => (false, false, false) end.
Definition zero3 : b3 := (false, false, false).
Definition seven3 : b3 := (true, true, true).

Definition step_ok (a b c d : b3) : bool :=
  (* from plane a (then constant planes c) to plane b (then constant planes d): one axis moves *)
  let '(a0, a1, a2) := a in let '(b0, b1, b2) := b in let '(c0, c1, c2) := c in let '(d0, d1, d2) := d in
  let mv x y u v := xorb x y && Bool.eqb u y && Bool.eqb v x in
  let st x y u v := Bool.eqb x y && Bool.eqb u v in
  (mv a0 b0 c0 d0 && st a1 b1 c1 d1 && st a2 b2 c2 d2) ||
  (st a0 b0 c0 d0 && mv a1 b1 c1 d1 && st a2 b2 c2 d2) ||
  (st a0 b0 c0 d0 && st a1 b1 c1 d1 && mv a2 b2 c2 d2).

Definition state_ok (s : state) : bool :=
  forallb (fun b => mem_state (nxt s b) &&
    forallb (fun b' => (negb (b3_eqb (dig1 s b) (dig1 s b')) || b3_eqb b b') &&
      (if N.eqb (bnum (dig1 s b) + 1) (bnum (dig1 s b')) then
         step_ok b b' (inv1 (nxt s b) seven3) (inv1 (nxt s b') zero3) else true)) bools3 &&
    (if b3_eqb (dig1 s b) zero3 then b3_eqb (inv1 (nxt s b) zero3) b else true) &&
    (if b3_eqb (dig1 s b) seven3 then b3_eqb (inv1 (nxt s b) seven3) b else true) &&
    b3_eqb (dig1 s (inv1 s b)) b) bools3.
Lemma states_ok : forallb state_ok states = true.
Proof. vm_compute. reflexivity. Qed.

Record st_facts (s : state) : Prop := {
  f_next : forall b, In (nxt s b) states;
  f_inj : forall b b', dig1 s b = dig1 s b' -> b = b';
  f_inv : forall d, dig1 s (inv1 s d) = d;
  f_zero : forall b, dig1 s b = zero3 -> inv1 (nxt s b) zero3 = b;
  f_seven : forall b, dig1 s b = seven3 -> inv1 (nxt s b) seven3 = b;
  f_step : forall b b', bnum (dig1 s b) + 1 = bnum (dig1 s b') -> step_ok b b' (inv1 (nxt s b) seven3) (inv1 (nxt s b') zero3) = true
}.
Lemma facts s : In s states -> st_facts s.
Proof.
  intros Hs. pose proof states_ok as H. rewrite forallb_forall in H. specialize (H s Hs). unfold state_ok in H. rewrite forallb_forall in H.
  assert (K : forall b, mem_state (nxt s b) = true /\ (forall b', (negb (b3_eqb (dig1 s b) (dig1 s b')) || b3_eqb b b') = true /\
      (if N.eqb (bnum (dig1 s b) + 1) (bnum (dig1 s b')) then step_ok b b' (inv1 (nxt s b) seven3) (inv1 (nxt s b') zero3) else true) = true) /\
      (if b3_eqb (dig1 s b) zero3 then b3_eqb (inv1 (nxt s b) zero3) b else true) = true /\
      (if b3_eqb (dig1 s b) seven3 then b3_eqb (inv1 (nxt s b) seven3) b else true) = true /\ b3_eqb (dig1 s (inv1 s b)) b = true).
  { intros b. specialize (H b (in_bools3 b)). rewrite !andb_true_iff in H. destruct H as ((((A & B) & C) & D) & E). split; auto. split; auto.
    intros b'. rewrite forallb_forall in B. specialize (B b' (in_bools3 b')). now apply andb_true_iff in B. }
  clear H. constructor.
  - intros b. destruct (K b) as (A & _). unfold mem_state in A. destruct (in_dec state_eq_dec (nxt s b) states); auto. discriminate.
  - intros b b' E. destruct (K b) as (_ & A & _). destruct (A b') as (B & _). rewrite E in B. rewrite (proj2 (b3_eqb_eq _ _) eq_refl) in B. cbn in B. now apply b3_eqb_eq.
  - intros d. destruct (K d) as (_ & _ & _ & _ & E). now apply b3_eqb_eq.
  - intros b E. destruct (K b) as (_ & _ & A & _ & _). rewrite E in A. rewrite (proj2 (b3_eqb_eq _ _) eq_refl) in A. now apply b3_eqb_eq.
  - intros b E. destruct (K b) as (_ & _ & _ & A & _). rewrite E in A. rewrite (proj2 (b3_eqb_eq _ _) eq_refl) in A. now apply b3_eqb_eq.
  - intros b b' E. destruct (K b) as (_ & A & _). destruct (A b') as (_ & B). rewrite E, N.eqb_refl in B. exact B.
Qed.

Lemma enc_length : forall l s, length (enc s l) = length l.
Proof. induction l as [|b l IH]; intros s; [reflexivity|]. cbn. now rewrite IH. Qed.
Lemma enc_inj : forall l l' s, In s states -> enc s l = enc s l' -> l = l'.
Proof.
  induction l as [|b l IH]; intros [|b' l'] s Hs E; cbn [enc] in E; try discriminate; auto.
  injection E as E1 E2. pose proof (facts s Hs) as F. apply (f_inj s F) in E1. subst b'. f_equal. apply (IH l' (nxt s b)); auto. apply (f_next s F).
Qed.
Fixpoint dec (s : state) (ds : list b3) : list b3 :=
  match ds with [] => [] | d :: ds' => inv1 s d :: dec (nxt s (inv1 s d)) ds' end.
Lemma enc_dec : forall ds s, In s states -> enc s (dec s ds) = ds.
Proof.
  induction ds as [|d ds IH]; intros s Hs; [reflexivity|]. pose proof (facts s Hs) as F. cbn [dec enc]. rewrite (f_inv s F). f_equal. apply IH, (f_next s F).
Qed.
Lemma dec_length : forall ds s, length (dec s ds) = length ds.
Proof. induction ds as [|b l IH]; intros s; [reflexivity|]. cbn. now rewrite IH. Qed.

(** Values of lists of digits and of coordinates, most significant first. *)
Fixpoint val8 (l : list b3) : N := match l with [] => 0 | d :: l' => bnum d * 8 ^ N.of_nat (length l') + val8 l' end.
Fixpoint val2 (f : b3 -> bool) (l : list b3) : N := match l with [] => 0 | d :: l' => N.b2n (f d) * 2 ^ N.of_nat (length l') + val2 f l' end.
Lemma bnum_lt d : bnum d < 8.
Proof. destruct d as [[[] []] []]; vm_compute; reflexivity. Qed.
Lemma bnum_inj d d' : bnum d = bnum d' -> d = d'.
Proof. destruct d as [[[] []] []], d' as [[[] []] []]; vm_compute; intros; try discriminate; reflexivity. Qed.
Lemma pow8_pos n : 1 <= 8 ^ n.
Proof. pose proof (N.pow_nonzero 8 n ltac:(lia)). lia. Qed.
Lemma val8_lt l : val8 l < 8 ^ N.of_nat (length l).
Proof.
  induction l as [|d l IH]; [cbn; lia|]. cbn [val8 length]. rewrite Nat2N.inj_succ, N.pow_succ_r'. pose proof (bnum_lt d). nia.
Qed.
Lemma val8_inj : forall l l', length l = length l' -> val8 l = val8 l' -> l = l'.
Proof.
  induction l as [|d l IH]; intros [|d' l'] Hl E; try discriminate; auto. injection Hl as Hl. cbn [val8] in E. rewrite Hl in E.
  pose proof (val8_lt l) as L1. pose proof (val8_lt l') as L2. rewrite Hl in L1.
  assert (bnum d = bnum d') by nia. assert (val8 l = val8 l') by nia. f_equal; [now apply bnum_inj|now apply IH].
Qed.
Lemma val8_zero : forall l, val8 l = 0 -> Forall (fun d => d = zero3) l.
Proof.
  induction l as [|d l IH]; intros E; constructor; cbn [val8] in E; pose proof (pow8_pos (N.of_nat (length l))).
  - apply bnum_inj. change (bnum zero3) with 0. nia.
  - apply IH. lia.
Qed.
Lemma val8_max : forall l, val8 l + 1 = 8 ^ N.of_nat (length l) -> Forall (fun d => d = seven3) l.
Proof.
  induction l as [|d l IH]; intros E; constructor; cbn [val8 length] in E; rewrite Nat2N.inj_succ, N.pow_succ_r' in E;
    pose proof (pow8_pos (N.of_nat (length l))); pose proof (val8_lt l); pose proof (bnum_lt d).
  - apply bnum_inj. change (bnum seven3) with 7. nia.
  - apply IH. assert (bnum d = 7) by nia. nia.
Qed.
Lemma enc_const_zero : forall l s, In s states -> Forall (fun d => d = zero3) (enc s l) -> Forall (fun b => b = inv1 s zero3) l.
Proof.
  induction l as [|b l IH]; intros s Hs H; constructor; cbn [enc] in H; inversion H as [|? ? H1 H2]; subst; pose proof (facts s Hs) as F.
  - apply (f_inj s F). now rewrite (f_inv s F).
  - assert (E : b = inv1 s zero3) by (apply (f_inj s F); now rewrite (f_inv s F)). rewrite <- E, <- (f_zero s F b H1). apply IH; auto. apply (f_next s F).
Qed.
Lemma enc_const_seven : forall l s, In s states -> Forall (fun d => d = seven3) (enc s l) -> Forall (fun b => b = inv1 s seven3) l.
Proof.
  induction l as [|b l IH]; intros s Hs H; constructor; cbn [enc] in H; inversion H as [|? ? H1 H2]; subst; pose proof (facts s Hs) as F.
  - apply (f_inj s F). now rewrite (f_inv s F).
  - assert (E : b = inv1 s seven3) by (apply (f_inj s F); now rewrite (f_inv s F)). rewrite <- E, <- (f_seven s F b H1). apply IH; auto. apply (f_next s F).
Qed.
Lemma val2_const f c : forall l, Forall (fun b => b = c) l -> val2 f l = if f c then 2 ^ N.of_nat (length l) - 1 else 0.
Proof.
  induction l as [|b l IH]; intros H; [cbn; destruct (f c); reflexivity|]. inversion H; subst. cbn [val2 length]. rewrite IH by auto.
  rewrite Nat2N.inj_succ, N.pow_succ_r'. pose proof (pow2_pos (N.of_nat (length l))). destruct (f c); cbn [N.b2n]; lia.
Qed.

Definition dist1 (a b : N) : N := (a - b) + (b - a).
Definition fst3 (v : b3) := let '(a, _, _) := v in a.
Definition snd3 (v : b3) := let '(_, b, _) := v in b.
Definition dist (l l' : list b3) : N := dist1 (val2 fst3 l) (val2 fst3 l') + dist1 (val2 snd3 l) (val2 snd3 l') + dist1 (val2 third l) (val2 third l').
Lemma enc_adjacent : forall l l' s, In s states -> length l = length l' -> val8 (enc s l) + 1 = val8 (enc s l') -> dist l l' = 1.
Proof.
  induction l as [|b l IH]; intros [|b' l'] s Hs Hl E; try discriminate. injection Hl as Hl.
  cbn [enc val8] in E. rewrite !enc_length, <- Hl in E. pose proof (facts s Hs) as F.
  set (P := 8 ^ N.of_nat (length l)) in *.
  pose proof (val8_lt (enc (nxt s b) l)) as L1. pose proof (val8_lt (enc (nxt s b') l')) as L2. rewrite enc_length in L1, L2. rewrite <- Hl in L2. fold P in L1, L2.
  destruct (N.eq_dec (bnum (dig1 s b)) (bnum (dig1 s b'))) as [D|D].
  - assert (b = b') as <- by (apply (f_inj s F), bnum_inj, D).
    assert (IHv : dist l l' = 1) by (apply (IH l' (nxt s b)); auto; [apply (f_next s F)|clear -E; lia]).
    unfold dist, dist1 in *. cbn [val2]. rewrite <- Hl. clear -IHv. lia.
  - assert (D1 : bnum (dig1 s b) + 1 = bnum (dig1 s b')) by (clear -E L1 L2 D; nia).
    assert (M : val8 (enc (nxt s b) l) + 1 = P) by (clear -E L1 L2 D1; nia).
    assert (Z : val8 (enc (nxt s b') l') = 0) by (clear -E L1 L2 D1; nia).
    pose proof (f_step s F b b' D1) as St.
    assert (C1 : Forall (fun d => d = seven3) (enc (nxt s b) l)) by (apply val8_max; rewrite enc_length; exact M).
    apply (enc_const_seven l (nxt s b) (f_next s F b)) in C1. apply val8_zero in Z. apply (enc_const_zero l' (nxt s b') (f_next s F b')) in Z.
    unfold dist. cbn [val2]. rewrite !(val2_const _ _ l C1), !(val2_const _ _ l' Z), <- Hl.
    set (c := inv1 (nxt s b) seven3) in *. set (d := inv1 (nxt s b') zero3) in *. clearbody c d.
    pose proof (pow2_pos (N.of_nat (length l))) as HP. set (p := 2 ^ N.of_nat (length l)) in *. clear -St HP. clearbody p.
    destruct b as [[[] []] []], b' as [[[] []] []], c as [[[] []] []], d as [[[] []] []]; cbn in St; try discriminate St;
      unfold dist1; cbn [fst3 snd3 third N.b2n]; lia.
Qed.

(** * From lists back to words *)
Lemma mod_succ_bit x n : x mod 2 ^ N.of_nat (S n) = N.b2n (N.testbit x (N.of_nat n)) * 2 ^ N.of_nat n + x mod 2 ^ N.of_nat n.
Proof.
  rewrite Nat2N.inj_succ. rewrite N.testbit_spec'. set (k := N.of_nat n). assert (P : 2 ^ k <> 0) by (apply N.pow_nonzero; lia).
  rewrite N.pow_succ_r', (N.mul_comm 2), N.mod_mul_r by lia. lia.
Qed.
Lemma planes_length X : forall n, length (planes X n) = n.
Proof. induction n; cbn [planes length]; congruence. Qed.
Lemma val2_planes x y z : forall n, val2 fst3 (planes (x, y, z) n) = x mod 2 ^ N.of_nat n /\ val2 snd3 (planes (x, y, z) n) = y mod 2 ^ N.of_nat n /\ val2 third (planes (x, y, z) n) = z mod 2 ^ N.of_nat n.
Proof.
  induction n as [|n (A & B & C)]; [cbn; rewrite !N.mod_1_r; auto|]. cbn [planes val2]. rewrite planes_length, A, B, C. cbn [pl fst3 snd3 third].
  rewrite !mod_succ_bit. auto.
Qed.
Lemma interleaving_val8 h x y z : interleaving 21 h (x, y, z) -> forall n, (n <= 21)%nat -> val8 (planes (x, y, z) n) = h mod 8 ^ N.of_nat n.
Proof.
  intros (_ & H). induction n as [|n IH]; intros Hn; [cbn; now rewrite N.mod_1_r|]. cbn [planes val8]. rewrite planes_length, IH by lia.
  destruct (H (N.of_nat n)) as (H2 & H1 & H0); [lia|]. cbn [pl bnum]. rewrite <- H2, <- H1, <- H0.
  assert (E : forall m, 8 ^ m = 2 ^ (3 * m)) by (intros m; rewrite N.pow_mul_r; reflexivity).
  rewrite !E. replace (3 * N.of_nat n) with (N.of_nat (3 * n)) by lia. replace (3 * N.of_nat (S n)) with (N.of_nat (S (S (S (3 * n))))) by lia.
  rewrite !mod_succ_bit. replace (N.of_nat (3 * n) + 2) with (N.of_nat (S (S (3 * n)))) by lia. replace (N.of_nat (3 * n) + 1) with (N.of_nat (S (3 * n))) by lia.
  rewrite !Nat2N.inj_succ, !N.pow_succ_r'. lia.
Qed.

Definition pt (x y z : N) : list b3 := planes (x, y, z) 21.
Lemma hilbert_val x y z : exists h, icoord_to_hilbert x y z = Ok h /\ h < 2 ^ 63 /\ h = val8 (enc (sid, false) (pt x y z)).
Proof.
  destruct (hilbert_planes x y z) as ([[u v] w] & E & P). cbn [getX] in E. pose proof (encode_64 u v w) as I.
  assert (L : icoord_to_morton_64 u v w < 2 ^ 63) by apply I.
  eexists. split; [exact E|]. split; [exact L|]. unfold pt. rewrite <- P. rewrite (interleaving_val8 _ u v w I 21) by lia.
  symmetry. apply N.mod_small. exact L.
Qed.
Lemma init_state : In (sid, false) states.
Proof. cbn. tauto. Qed.
Lemma pt_val x y z : x < 2 ^ 21 -> y < 2 ^ 21 -> z < 2 ^ 21 -> val2 fst3 (pt x y z) = x /\ val2 snd3 (pt x y z) = y /\ val2 third (pt x y z) = z.
Proof.
  intros Hx Hy Hz. destruct (val2_planes x y z 21) as (A & B & C). unfold pt. rewrite A, B, C. change (N.of_nat 21) with 21. now rewrite !N.mod_small.
Qed.
Lemma planes_of_list : forall l, exists x y z, x < 2 ^ N.of_nat (length l) /\ y < 2 ^ N.of_nat (length l) /\ z < 2 ^ N.of_nat (length l) /\ planes (x, y, z) (length l) = l.
Proof.
  induction l as [|d l (x & y & z & Hx & Hy & Hz & E)]; [exists 0, 0, 0; cbn; repeat split; lia|].
  destruct d as [[a b] c]. set (k := N.of_nat (length l)) in *. 
  assert (G : forall v (e : bool), v < 2 ^ k -> N.b2n e * 2 ^ k + v < 2 ^ N.succ k /\ N.testbit (N.b2n e * 2 ^ k + v) k = e /\ forall j, j < k -> N.testbit (N.b2n e * 2 ^ k + v) j = N.testbit v j).
  { intros v e Hv. rewrite N.pow_succ_r'. split; [destruct e; cbn [N.b2n]; lia|]. 
    assert (Q : N.b2n e * 2 ^ k + v = N.lor (N.b2n e * 2 ^ k) v).
    { apply add_disjoint. intros i H1 H2. assert (Hi : i < k) by (destruct (N.lt_ge_cases i k); auto; rewrite (testbit_high v k) in H2; auto; discriminate).
      rewrite <- N.shiftl_mul_pow2, N.shiftl_spec_low in H1 by auto. discriminate. }
    rewrite Q. split.
    - rewrite N.lor_spec, <- N.shiftl_mul_pow2, N.shiftl_spec_high', (testbit_high v k), N.sub_diag by lia. destruct e; reflexivity.
    - intros j Hj. now rewrite N.lor_spec, <- N.shiftl_mul_pow2, N.shiftl_spec_low by auto. }
  exists (N.b2n a * 2 ^ k + x), (N.b2n b * 2 ^ k + y), (N.b2n c * 2 ^ k + z). cbn [length]. rewrite Nat2N.inj_succ. fold k.
  destruct (G x a Hx) as (A1 & A2 & A3), (G y b Hy) as (B1 & B2 & B3), (G z c Hz) as (C1 & C2 & C3).
  split; auto. split; auto. split; auto. cbn [planes]. fold k. cbn [pl]. rewrite A2, B2, C2. f_equal. rewrite <- E at 2. apply planes_ext.
  intros j Hj. fold k in Hj. cbn [pl]. now rewrite A3, B3, C3.
Qed.
Lemma digits_of : forall n h, h < 8 ^ N.of_nat n -> exists ds, length ds = n /\ val8 ds = h.
Proof.
  induction n as [|n IH]; intros h Hh; [exists []; cbn in *; split; auto; lia|]. rewrite Nat2N.inj_succ, N.pow_succ_r' in Hh.
  set (P := 8 ^ N.of_nat n) in *. assert (HP : P <> 0) by (pose proof (pow8_pos (N.of_nat n)); unfold P; lia).
  destruct (IH (h mod P)) as (ds & Hl & Hv); [apply N.mod_lt; auto|].
  assert (Hd : h / P < 8) by (apply N.div_lt_upper_bound; lia).
  assert (exists d, bnum d = h / P) as (d & E).
  { assert (Hc : h / P = 0 \/ h / P = 1 \/ h / P = 2 \/ h / P = 3 \/ h / P = 4 \/ h / P = 5 \/ h / P = 6 \/ h / P = 7) by (clear -Hd; generalize dependent (h / P); intros; lia).
    clear -Hc. set (q := h / P) in *. clearbody q.
    destruct Hc as [->|[->|[->|[->|[->|[->|[->| ->]]]]]]];
      [exists (false,false,false)|exists (false,false,true)|exists (false,true,false)|exists (false,true,true)|exists (true,false,false)|exists (true,false,true)|exists (true,true,false)|exists (true,true,true)]; reflexivity. }
  exists (d :: ds). split; [cbn; congruence|]. cbn [val8]. rewrite Hl, Hv, E. fold P. pose proof (N.div_mod h P HP). lia.
Qed.
(** common prefixes *)
Lemma enc_prefix : forall n l l' s, In s states -> length l = length l' -> (firstn n l = firstn n l' <-> firstn n (enc s l) = firstn n (enc s l')).
Proof.
  induction n as [|n IH]; intros l l' s Hs Hl; [cbn; tauto|]. destruct l as [|b l], l' as [|b' l']; try discriminate; [cbn; tauto|].
  injection Hl as Hl. cbn [firstn enc]. pose proof (facts s Hs) as F. split; intros E; injection E as E1 E2.
  - subst b'. f_equal. apply (IH l l' (nxt s b)); auto. apply (f_next s F).
  - apply (f_inj s F) in E1. subst b'. f_equal. apply (IH l l' (nxt s b)) in E2; auto. apply (f_next s F).
Qed.
Lemma firstn_planes X Y : forall n k, (k <= n)%nat -> (firstn k (planes X n) = firstn k (planes Y n) <-> forall j, N.of_nat (n - k) <= j < N.of_nat n -> pl X j = pl Y j).
Proof.
  induction n as [|n IH]; intros [|k] Hk; try lia; cbn [firstn planes].
  - split; auto. intros _ j Hj. lia.
  - split; auto. intros _ j Hj. lia.
  - split; intros E.
    + injection E as E1 E2. intros j Hj. destruct (N.eq_dec j (N.of_nat n)) as [->|]; auto. apply (proj1 (IH k ltac:(lia)) E2). lia.
    + f_equal; [apply E; lia|]. apply (IH k); [lia|]. intros j Hj. apply E. lia.
Qed.
Lemma val8_prefix : forall k l l', length l = length l' -> (k <= length l)%nat ->
  (firstn k l = firstn k l' <-> val8 l / 8 ^ N.of_nat (length l - k) = val8 l' / 8 ^ N.of_nat (length l - k)).
Proof.
  intros k l l' Hl Hk.
  assert (V : forall l k, (k <= length l)%nat -> val8 l / 8 ^ N.of_nat (length l - k) = val8 (firstn k l)).
  { clear. induction l as [|d l IH]; intros [|k] Hk; try (cbn in Hk; lia).
    - cbn. reflexivity.
    - cbn [firstn val8]. apply N.div_small. pose proof (val8_lt (d :: l)) as L. now rewrite Nat.sub_0_r.
    - cbn [length] in *. cbn [firstn val8]. rewrite <- (IH k) by lia. rewrite firstn_length, Nat.min_l by lia.
      replace (S (length l) - S k)%nat with (length l - k)%nat by lia.
      replace (N.of_nat (length l)) with (N.of_nat k + N.of_nat (length l - k)) at 1 by lia. rewrite N.pow_add_r, N.mul_assoc.
      rewrite N.div_add_l by (pose proof (pow8_pos (N.of_nat (length l - k))); lia). reflexivity. }
  rewrite V by auto. rewrite Hl, (V l') by lia. split; [now intros ->|].
  apply val8_inj. rewrite !firstn_length. lia.
Qed.
