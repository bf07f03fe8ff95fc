(** Vocabulary of the statements about splitting and merging the data of patches. *)
From Verif Require Import Base Patch Patch_spec Layer Layer_spec.

(** The value of an object in the main field: the first value of its first row. *)
Definition main_is {A} (o : object A) (P : A -> Prop) : Prop :=
  match o with (v :: _) :: _ => P v | _ => False end.

(** The eight patches [ps] that replace the patch with box [b] and id [key]: boxes of the octants, fresh
    and different ids (the first one may keep the id of the patch). *)
Definition replaces {X} (d : Z -> option X) (key : Z) (b : pcoord) (ps : list patch) : Prop :=
  splittable b /\ map p_box ps = get_split b /\ NoDup (map p_id ps) /\
  (forall p, In p ps -> p_id p = key \/ d (p_id p) = None).

(** The abstract data of a rank used in C27-C31 (lists of objects) against its layers. *)
Definition same_data {A} (lay : layout) (da : Z -> option (list (object A))) (d : Z -> option (layer A)) : Prop :=
  forall k, match da k, d k with
            | Some os, Some L => stores lay os L /\ fits lay (length os)
            | None, None => True
            | _, _ => False
            end.
