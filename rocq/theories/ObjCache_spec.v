(** Specification vocabulary for the cache handler. *)
From Verif Require Import Base Containers ObjCache.
Local Open Scope Z_scope.

(** the sizes are those of buffers that can exist: no 64-bit sum wraps *)
Definition sizes_ok (alloc : nat -> Z) (gen : Z -> option devc) (limit : Z) : Prop :=
  0 <= limit < 2 ^ 63 /\
  forall id d, gen id = Some d ->
    0 <= d_b1 d + d_b2 d + d_b3 d + 4 < 2 ^ 63 /\
    0 <= alloc (length (h_cnt (d_host d))) + alloc (length (h_scan (d_host d))) + alloc (length (h_idx (d_host d))) + 4 < 2 ^ 63.
(** bytes of an entry as generated, and after a round trip to the host *)
Definition bytes (d : devc) : Z := d_b1 d + d_b2 d + d_b3 d + 4.
Definition bytes_again (alloc : nat -> Z) (d : devc) : Z :=
  let h := d_host d in alloc (length (h_cnt h)) + alloc (length (h_scan h)) + alloc (length (h_idx h)) + 4.
(** device memory really in use *)
Definition in_use (s : hstate) : Z := fold_right (fun p t => bytes (snd p) + t) 0 (s_cache s).
Definition on_device (s : hstate) (id : Z) : Prop := In id (map fst (s_cache s)).
Definition on_host (s : hstate) (id : Z) : Prop := In id (map fst (s_off s)).

(** what one call may answer *)
Definition answer_ok (alloc : nat -> Z) (gen : Z -> option devc) (limit : Z) (o : hop) (b : hobs) : Prop :=
  let fails id := gen id = None \/ exists g, gen id = Some g /\ (limit < bytes g \/ limit < bytes_again alloc g) in
  match o, b with
  | HGet id, OGot d => exists g, gen id = Some g /\ d_host d = d_host g
  | HGet id, OThrew => fails id
  | HPreload id, ODone => True
  | HPreload id, OThrew => fails id
  | HReset, ODone => True
  | _, _ => False
  end.
Definition asked (o : hop) : list Z := match o with HGet id | HPreload id => [id] | HReset => [] end.
(** the ids asked for since the last reset *)
Definition since_reset (ops : list hop) : list Z :=
  fold_left (fun acc o => match o with HReset => [] | _ => acc ++ asked o end) ops [].
