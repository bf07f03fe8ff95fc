(** Vocabulary of the statements about the scheduler: what a well formed distributed state is, which
    objects it holds, which points it covers. *)
From Verif Require Import Base Patch Patch_spec PatchTree PatchTree_spec Sched.
Local Open Scope Z_scope.

(** The owner that the table gives to patch number [i], a packed patch following the patch it is
    packed with. *)
Definition final_owner (g : list patch) (owners : list Z) (i : nat) : Z :=
  match nth_error g i with
  | Some p => if p_pack p =? u64_max then nth i owners 0 else nth (Z.to_nat (p_pack p)) owners 0
  | None => 0
  end.
(** Pack indices are absent, or point to a patch which is not itself packed. *)
Definition packs_ok (g : list patch) : Prop :=
  forall i p, nth_error g i = Some p -> p_pack p <> u64_max ->
    0 <= p_pack p /\ exists q, nth_error g (Z.to_nat (p_pack p)) = Some q /\ p_pack q = u64_max.

Section Spec.
Variable obj : Type.
Variable pos : obj -> v3.
Variable W : nat. (* world size *)

Notation sched := (sched obj).

(** A patch of the global list is valid when a rank owns it (the patches that were merged into
    another one stay in the list, in error mode). *)
Definition valid_patch (p : patch) : Prop := 0 <= p_owner p < Z.of_nat W.
Definition validb (p : patch) : bool := (0 <=? p_owner p) && (p_owner p <? Z.of_nat W).

(** The objects that the owner of a patch holds for it. *)
Definition patch_objs (d : ddata obj) (p : patch) : list obj :=
  match d (p_owner p) (p_id p) with Some l => l | None => [] end.
(** All the objects of the simulation. *)
Definition world_objects (s : sched) : list obj :=
  flat_map (patch_objs (s_data _ s)) (filter validb (s_global _ s)).
(** The points covered by the patches. *)
Definition covered (s : sched) (x : v3) : Prop :=
  exists p, In p (s_global _ s) /\ valid_patch p /\ in_box x (p_box p).

Record sched_ok (s : sched) : Prop := {
  so_tree : tree_ok (s_tree _ s);
  so_part : leaves_partition_roots (s_tree _ s);
  (* patch ids are unique and below the counter *)
  so_next : 0 <= s_next _ s <= u64_max;
  so_ids : forall p, In p (s_global _ s) -> 0 <= p_id p < s_next _ s;
  so_nodup : NoDup (map p_id (s_global _ s));
  (* the leaves of the tree are linked one to one to the valid patches, with the same boxes *)
  so_leaf : forall x n, t_map (s_tree _ s) x = Some n -> n_leaf n = true ->
    exists p, In p (s_global _ s) /\ valid_patch p /\ n_linked n = Some (p_id p) /\ p_box p = n_box n;
  so_patch : forall p, In p (s_global _ s) -> valid_patch p ->
    exists x n, t_map (s_tree _ s) x = Some n /\ n_leaf n = true /\ n_linked n = Some (p_id p);
  so_inj : forall x y n m, t_map (s_tree _ s) x = Some n -> t_map (s_tree _ s) y = Some m ->
    n_leaf n = true -> n_leaf m = true -> n_linked n = n_linked m -> x = y;
  so_inner : forall x n, t_map (s_tree _ s) x = Some n -> n_leaf n = false -> n_linked n = Some u64_max;
  (* rank r holds data for a patch id iff it owns the patch *)
  so_data : forall r id, 0 <= r < Z.of_nat W ->
    (s_data _ s r id <> None <-> exists p, In p (s_global _ s) /\ p_owner p = r /\ p_id p = id);
  (* objects are in the box of their patch *)
  so_in : forall p o, In p (s_global _ s) -> valid_patch p -> In o (patch_objs (s_data _ s) p) ->
    in_box (pos o) (p_box p)
}.

(** What scheduler_step needs from its parameters. *)
Record step_params (crit_split crit_merge : Z) (loads : Z -> Z) (ord_s ord_m : list Z -> list Z)
    (omp : nat -> list nat) (balance : list patch -> list Z)
    (net : list (message obj) -> list (message obj)) (s : sched) : Prop := {
  sp_world : Z.of_nat W <= u32_max;
  sp_crit : crit_merge <= crit_split;
  sp_loads : forall id, 0 <= loads id < 2 ^ 61;
  sp_ord_s : forall l, Permutation (ord_s l) l;
  sp_ord_m : forall l, Permutation (ord_m l) l;
  sp_omp : forall n, Permutation (omp n) (seq 0 n);
  sp_net : forall l, Permutation (net l) l;
  sp_bal_len : forall g, length (balance g) = length g;
  sp_bal : forall g o, In o (balance g) -> 0 <= o < Z.of_nat W;
  (* patches over the splitting threshold have at least two cells per axis *)
  sp_split : forall p, In p (s_global _ s) -> valid_patch p -> crit_split < loads (p_id p) ->
    splittable (p_box p);
  (* the counters of tree nodes and patches do not run out *)
  sp_tree_ids : t_next (s_tree _ s) + 8 * Z.of_nat (length (t_leaf (s_tree _ s))) <= 2 ^ 32;
  sp_patch_ids : s_next _ s + 7 * Z.of_nat (length (t_leaf (s_tree _ s))) <= u64_max
}.
End Spec.

(** scheduler_step(do_split_merge, do_load_balancing): merging without load balancing needs a single
    rank, since nothing gathers the pieces on one rank (see C31 for what happens otherwise). *)
Definition step_flags (W : nat) (sm lb : bool) : Prop := sm = true -> lb = true \/ W = 1%nat.

(** Histories of the scheduler.  [bs] lists the boxes of the root patches added so far. *)
Section History.
Variable obj : Type.
Variable pos : obj -> v3.
Variable W : nat.
Notation sched := (sched obj).

(** A scheduler with no patch (PatchScheduler.cpp:29-53, PatchTree and SchedulerPatchList default
    state). *)
Definition empty_sched : sched := Sched obj empty_ptree [] 0 (fun _ => None) (fun _ _ => None).

(** Root patches are added with non empty boxes which are disjoint from one another and from the domain
    already covered, while patch ids fit in 32 bits. *)
Definition roots_allowed (bs : list pcoord) (s : sched) : Prop :=
  (forall i j a b, nth_error bs i = Some a -> nth_error bs j = Some b -> i <> j -> disjoint a b) /\
  (forall a, In a bs -> wf_box a) /\
  (forall a, In a bs -> forall pt, in_box pt a -> ~ covered obj W s pt) /\
  s_next _ s + Z.of_nat (length bs) <= 2 ^ 32 /\
  t_next (s_tree _ s) + Z.of_nat (length bs) <= u64_max.

(** The user of the scheduler replaces the contents of patches: each rank keeps the same set of
    patches and the objects it puts in a patch are inside the box of the patch. *)
Definition data_allowed (d : ddata obj) (s : sched) : Prop :=
  (forall r id, 0 <= r < Z.of_nat W -> d r id <> None <-> s_data _ s r id <> None) /\
  (forall p o, In p (s_global _ s) -> valid_patch W p -> In o (patch_objs obj d p) -> in_box (pos o) (p_box p)).

Inductive sched_history : list pcoord -> sched -> Prop :=
| SH_init : sched_history [] empty_sched
| SH_root bs s bs' s' : sched_history bs s -> roots_allowed bs' s ->
    add_root_patches obj bs' s = Ok s' -> sched_history (bs ++ bs') s'
| SH_data bs s d : sched_history bs s -> data_allowed d s ->
    sched_history bs (Sched obj (s_tree _ s) (s_global _ s) (s_next _ s) (s_idx _ s) d)
| SH_step bs s sm lb cs cm loads ord_s ord_m omp balance net s' :
    sched_history bs s -> step_params obj W cs cm loads ord_s ord_m omp balance net s ->
    step_flags W sm lb ->
    scheduler_step obj pos W sm lb cs cm loads ord_s ord_m omp balance net s = Ok s' ->
    sched_history bs s'.
End History.
