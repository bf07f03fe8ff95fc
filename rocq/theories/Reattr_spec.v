(** Specification side of C44. *)
From Verif Require Import Base Containers Containers_spec Serialize_spec Layer Layer_spec LayerSer_spec Patch.
Local Open Scope nat_scope.

Notation obj_t := (object (list Z)).

Section S.
(** The patch that an object belongs to. *)
Variable own : obj_t -> Z.

(** The objects of the patches [all] that belong to patch [b] and are not already there, by increasing id of
    the patch they come from. *)
Definition moved (b : Z) (all : list (Z * list obj_t)) : list obj_t :=
  flat_map (fun p => if (fst p =? b)%Z then [] else filter (fun o => (own o =? b)%Z) (snd p)) all.
(** What patch [b], which contained [os], must contain at the end. *)
Definition after (all : list (Z * list obj_t)) (b : Z) (os : list obj_t) : list obj_t :=
  filter (fun o => (own o =? b)%Z) os ++ moved b all.
(** Number of other patches that receive something from a patch. *)
Definition targets (p : Z * list obj_t) : nat :=
  length (nodup Z.eq_dec (filter (fun b => negb (b =? fst p)%Z) (map own (snd p)))).
End S.

(** The bytes that leave patches [P] for the patches of rank [r']: one message part per pair of patches. *)
Definition leaving (own : obj_t -> Z) (tsz : nat -> nat) (lay : layout) (rg : Z -> Z) (r' : nat) (P : list (Z * list obj_t)) : nat :=
  list_sum (flat_map (fun p =>
    map (fun b => 24 + al8 (layer_bytes tsz lay (length (filter (fun o => (own o =? b)%Z) (snd p)))))
        (nodup Z.eq_dec (filter (fun b => (rg b =? Z.of_nat r')%Z) (map own (snd p))))) P).

(** The values of an object have the size of the type of their field. *)
Definition otyped (tsz : nat -> nat) (lay : layout) (o : obj_t) : Prop :=
  Forall2 (fun d row => Forall (fun v => length v = tsz (fst d)) row) lay o.
(** Patches with their objects, and patches with their layers. *)
Definition holds (lay : layout) (p : Z * list obj_t) (q : Z * layer (list Z)) : Prop :=
  fst p = fst q /\ stores lay (snd p) (snd q).

(** The situation before the call.  [Ps] are the patches of each rank with their objects, [all] the same patches
    by increasing id; [rg] gives the rank of each patch.  The ids are u64 and not the largest one (which is the
    error value); each patch fits in memory. *)
Record world (tsz : nat -> nat) (lay : layout) (rg : Z -> Z) (Ps : list (list (Z * list obj_t))) (all : list (Z * list obj_t)) : Prop := {
  w_layout : good_layout lay;
  w_ranks : (Z.of_nat (length Ps) < 2 ^ 31)%Z;
  w_all : Permutation all (concat Ps) /\ dd_sorted all;
  w_rank : forall r P, nth_error Ps r = Some P -> dd_sorted P /\ Forall (fun p => rg (fst p) = Z.of_nat r) P;
  w_ids : Forall (fun p => (0 <= fst p < u64_max)%Z) all;
  w_objs : Forall (fun p => Forall (fun o => shaped lay o /\ otyped tsz lay o) (snd p)) all;
  w_fits : Forall (fun p => fits lay (length (snd p)) /\ (Z.of_nat (layer_bytes tsz lay (length (snd p))) < 2 ^ 32)%Z) all
}.
(** Every object belongs to an existing patch ([own]), the patches also fit in memory afterwards, and the number
    of messages is an int. *)
Record homes (lay : layout) (own : obj_t -> Z) (all : list (Z * list obj_t)) : Prop := {
  h_home : Forall (fun p => Forall (fun o => In (own o) (map fst all)) (snd p)) all;
  h_after : Forall (fun p => fits lay (length (after own all (fst p) (snd p)))) all;
  h_targets : (Z.of_nat (list_sum (map (targets own) all)) < 2 ^ 31)%Z
}.

(** What the code leaves open: the iteration order of the unordered maps, the choices of the layer operations
    (C17), the orders of the work items of the copies. *)
Definition begin_envs_ok (uorder : nat -> Z -> list (Z * list nat) -> list (Z * list nat)) (Ea : nat -> Z -> Z -> lenv (list Z)) (Ek : nat -> Z -> lenv (list Z))
    (ssch : nat -> nat -> nat -> nat -> list nat) : Prop :=
  (forall r c l, Permutation (uorder r c l) l) /\ (forall r a b, good_envs (Ea r a b)) /\ (forall r a, good_envs (Ek r a)) /\ (forall r i, fair_sched (ssch r i)).
(** [owner] gives to every object of each non-empty patch the patch that it belongs to. *)
Definition owner_ok (ipos : nat) (own : obj_t -> Z) (owner : nat -> Z -> list (list Z) -> res (list Z)) (Ps : list (list (Z * list obj_t))) : Prop :=
  forall r P p, nth_error Ps r = Some P -> In p P -> snd p <> [] -> owner r (fst p) (column ipos (snd p)) = Ok (map own (snd p)).
