(** Specification vocabulary for the 2:1 balance: blocks that touch, complete schedules, levels after the change *)
From Verif Require Import Base Amr.
From Coq Require Import ZArith.
Local Open Scope Z_scope.

(** Two boxes touch: they share a piece of a face *)
Definition meet (a b : Z3 * Z3) (f : Z3 -> Z) : Prop := f (snd a) = f (fst b) \/ f (fst a) = f (snd b).
Definition overlap (a b : Z3 * Z3) (f : Z3 -> Z) : Prop := f (fst a) < f (snd b) /\ f (fst b) < f (snd a).
Definition touch (a b : Z3 * Z3) : Prop :=
  (meet a b px /\ overlap a b py /\ overlap a b pz) \/ (overlap a b px /\ meet a b py /\ overlap a b pz) \/ (overlap a b px /\ overlap a b py /\ meet a b pz).
Definition box_of (boxes : list (Z3 * Z3)) (i : nat) : Z3 * Z3 := nth i boxes ((0, 0, 0), (0, 0, 0)).

(** The sides of a block are positive and even *)
Definition even_box (b : Z3 * Z3) : Prop :=
  forall f, f = px \/ f = py \/ f = pz -> f (fst b) < f (snd b) /\ Z.even (f (snd b) - f (fst b)) = true.

(** A patch: its blocks, their levels and the graph of neighbours, which lists the blocks that touch (and maybe ghosts, with
    an id at or above the number of blocks); the levels are those of a grid of i64 coordinates. *)
Definition valid_patch (boxes : list (Z3 * Z3)) (lev : list Z) (graph : list (list nat)) : Prop :=
  let n := length boxes in
  Forall even_box boxes /\ (n <= length lev)%nat /\ (n <= length graph)%nat /\
  (forall i, (i < n)%nat -> 0 <= nth i lev 0 <= 62) /\
  (forall i j, (i < n)%nat -> (j < n)%nat -> (In j (nth i graph []) <-> touch (box_of boxes i) (box_of boxes j))).
Definition balanced (boxes : list (Z3 * Z3)) (level : nat -> Z) : Prop :=
  forall i j, (i < length boxes)%nat -> (j < length boxes)%nat -> touch (box_of boxes i) (box_of boxes j) -> level i <= level j + 1.

(** A complete interleaving of a refinement sweep: every work item does all of its accesses (at most three per link) *)
Definition complete_sweep (cnt : nat) (graph : list (list nat)) (sched : list nat) : Prop :=
  Forall (fun i => (i < cnt)%nat) sched /\ forall i, (i < cnt)%nat -> (1 + 3 * length (nth i graph []) <= count_occ Nat.eq_dec sched i)%nat.

(** The block i is in a group which is merged; the level of what replaces the block i *)
Definition merged_in (der : list bool) (i : nat) : Prop := exists g, nth g der false = true /\ (g <= i < g + 8)%nat.
Definition future (lev : list Z) (ref der : list bool) (i : nat) (l : Z) : Prop :=
  (nth i ref false = true /\ l = nth i lev 0 + 1) \/
  (nth i ref false = false /\ merged_in der i /\ l = nth i lev 0 - 1) \/
  (nth i ref false = false /\ ~ merged_in der i /\ l = nth i lev 0).
(** The blocks which the rule forces to be split: those asked for, and the coarser neighbours of the blocks that are split *)
Inductive must_split (boxes : list (Z3 * Z3)) (lev : list Z) (asked : list bool) : nat -> Prop :=
| asked_for i : nth i asked false = true -> must_split boxes lev asked i
| forced i j : must_split boxes lev asked i -> (i < length boxes)%nat -> (j < length boxes)%nat -> touch (box_of boxes i) (box_of boxes j) ->
    nth j lev 0 < nth i lev 0 -> must_split boxes lev asked j.

(** The eight octants of the box with lower corner c and half sides k, in Morton order (z fastest) *)
Definition octant (c k : Z3) (i : bool * bool * bool) : Z3 * Z3 :=
  let '(a, b, d) := i in
  let lo := (px c + (if a then px k else 0), py c + (if b then py k else 0), pz c + (if d then pz k else 0)) in
  (lo, (px lo + px k, py lo + py k, pz lo + pz k)).
Definition morton_octants : list (bool * bool * bool) :=
  [(false, false, false); (false, false, true); (false, true, false); (false, true, true);
   (true, false, false); (true, false, true); (true, true, false); (true, true, true)].
Definition octants_at (boxes : list (Z3 * Z3)) (g : nat) : Prop :=
  exists c k, 0 < px k /\ 0 < py k /\ 0 < pz k /\ firstn 8 (skipn g boxes) = map (octant c k) morton_octants.
