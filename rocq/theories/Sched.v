(** Model of the patch scheduler: src/shamrock/src/scheduler/scheduler_patch_list.cpp,
    src/shamrock/src/scheduler/PatchScheduler.cpp, src/shamrock/src/scheduler/HilbertLoadBalance.cpp
    (change list) and src/shamrock/src/scheduler/SchedulerPatchData.cpp.

    Every rank runs the same metadata operations on the same replicated patch tree and global patch
    list, so these are modelled once; the patch data is modelled rank by rank.

    Simplifications: an object is an abstract value with an integer position in patch coordinates
    (the conversion of the boxes to floating point coordinates is not modelled: the half open test
    of Patch.hpp:210-215 on [min, max+1) is the inclusive test on the integer cell);  serialising a
    patch to a message and back is the identity (see C01 for the serializer);  operator[] of the
    unordered_map id_patch_to_global_idx on an absent key (which would insert index 0) is [UB];
    logging and load statistics are left out. *)
From Verif Require Import Base Patch PatchTree.
Local Open Scope Z_scope.

(** * Patch list *)

(** build_global_idx_map (scheduler_patch_list.cpp:80-89): the last patch with an id wins. *)
Definition idxmap := Z -> option nat.
Definition idx_set (m : idxmap) (k : Z) (v : nat) : idxmap := fun x => if x =? k then Some v else m x.
Fixpoint build_idx_from (i : nat) (l : list patch) (m : idxmap) : idxmap :=
  match l with
  | [] => m
  | p :: l' => build_idx_from (S i) l' (idx_set m (p_id p) i)
  end.
Definition build_global_idx_map (global : list patch) : idxmap := build_idx_from 0 global (fun _ => None).

Definition idx_get (m : idxmap) (id : Z) : res nat :=
  match m id with Some i => Ok i | None => UB end.

(** split_patch (scheduler_patch_list.cpp:109-158); returns the new list, the new id counter and the
    eight indices. *)
Fixpoint number_from (next : Z) (l : list patch) : list patch :=
  match l with
  | [] => []
  | p :: l' => set_id next p :: number_from (w64 (next + 1)) l'
  end.
Fixpoint next_after (next : Z) (n : nat) : Z :=
  match n with O => next | S n' => next_after (w64 (next + 1)) n' end.
Definition split_patch (m : idxmap) (id : Z) (global : list patch) (next : Z)
  : res (list patch * Z * list nat) :=
  i0 <- idx_get m id ;;
  p0 <- aget global i0 ;;
  match patch_split p0 with
  | q0 :: qs =>
      g1 <- aset global i0 q0 ;;
      Ok (g1 ++ number_from next qs, next_after next (length qs),
          i0 :: seq (length global) (length qs))
  | [] => UB
  end.

Fixpoint agets {A} (l : list A) (is : list nat) : res (list A) :=
  match is with
  | [] => Ok []
  | i :: t => a <- aget l i ;; r <- agets l t ;; Ok (a :: r)
  end.

(** merge_patch (scheduler_patch_list.cpp:160-183). *)
Definition merge_patch_list (is : list nat) (global : list patch) : res (list patch) :=
  ps <- agets global is ;;
  p <- merge_patch8 ps ;;
  match is with
  | i0 :: rest =>
      g <- aset global i0 p ;;
      rfold (fun i g => q <- aget g i ;; aset g i (set_err_mode q)) rest g
  | [] => UB
  end.

(** build_local (scheduler_patch_list.cpp:34-49) on rank r, followed by reset_local_pack_index
    (scheduler_patch_list.cpp:102-107). *)
Definition build_local (r : Z) (global : list patch) : list patch :=
  map (set_pack u64_max) (filter (fun p => p_owner p =? r) global).

(** build_global (scheduler_patch_list.cpp:25-32): allgatherv of the local lists in rank order.
    Between the two calls the ranks only update the load values of their local patches
    (PatchScheduler.hpp, update_local_load_value); [loads] is that function of the patch id. *)
Definition set_load (v : Z) (p : patch) : patch := Patch (p_id p) (p_pack p) v (p_box p) (p_owner p).
Definition ranks (W : nat) : list Z := map Z.of_nat (seq 0 W).
Definition build_global (W : nat) (loads : Z -> Z) (global : list patch) : list patch :=
  flat_map (fun r => map (fun p => set_load (loads (p_id p)) p) (build_local r global)) (ranks W).

(** * Load balancing change list *)

(** LoadBalancingChangeList::ChangeOp (HilbertLoadBalance.hpp:27-33). *)
Record change_op := ChangeOp {
  co_id : Z; co_idx : nat; co_old : Z; co_new : Z; co_tag : Z
}.

(** apply_node_patch_packing (HilbertLoadBalance.cpp:26-38): an OpenMP parallel loop. *)
Definition packing_body (global : list patch) (i : nat) (owners : list Z) : res (list Z) :=
  p <- aget global i ;;
  if p_pack p =? u64_max then Ok owners
  else o <- aget owners (Z.to_nat (p_pack p)) ;; aset owners i o.
Definition apply_node_patch_packing (order : list nat) (global : list patch) (owners : list Z) : res (list Z) :=
  par_for order (packing_body global) owners.

(** The sequential loop of make_change_list (HilbertLoadBalance.cpp:85-109).  [tags] is
    tags_it_node, of size world_size; the statistics array load_per_node is indexed by the new
    owner, which must be a valid rank. *)
Fixpoint change_loop (W : nat) (i : nat) (global : list patch) (owners : list Z) (tags : list Z)
  : res (list change_op) :=
  match global with
  | [] => Ok []
  | p :: g' =>
      new_owner <- aget owners i ;;
      if (new_owner <? 0) || (Z.of_nat W <=? new_owner) then UB else
      if new_owner =? p_owner p then change_loop W (S i) g' owners tags
      else
        tag <- aget tags (Z.to_nat (p_owner p)) ;;
        tags' <- aset tags (Z.to_nat (p_owner p)) (tag + 1) ;;
        r <- change_loop W (S i) g' owners tags' ;;
        Ok (ChangeOp (p_id p) i (p_owner p) new_owner tag :: r)
  end.

(** make_change_list (HilbertLoadBalance.cpp:50-160), given the table returned by load_balance. *)
Definition make_change_list (W : nat) (order : list nat) (global : list patch) (owners : list Z)
  : res (list change_op) :=
  owners' <- apply_node_patch_packing order global owners ;;
  change_loop W 0 global owners' (repeat 0 W).

(** * Patch data *)
Section Data.
Variable obj : Type.
Variable pos : obj -> v3.

(** DistributedData<PatchDataLayer> of one rank, and of all ranks. *)
Definition dmap := Z -> option (list obj).
Definition ddata := Z -> dmap.
Definition d_set (d : dmap) (k : Z) (v : option (list obj)) : dmap := fun x => if x =? k then v else d x.
Definition dd_set (d : ddata) (r : Z) (m : dmap) : ddata := fun x => if x =? r then m else d x.
(** add_obj throws when the key exists (DistributedData.hpp:67-76). *)
Definition d_add (k : Z) (v : list obj) (d : dmap) : res dmap :=
  match d k with Some _ => Throw | None => Ok (d_set d k (Some v)) end.

Definition in_boxb (p : v3) (b : pcoord) : bool :=
  (vx (cmin b) <=? vx p) && (vx p <=? vx (cmax b)) &&
  (vy (cmin b) <=? vy p) && (vy p <=? vy (cmax b)) &&
  (vz (cmin b) <=? vz p) && (vz p <=? vz (cmax b)).

(** SchedulerPatchData::split_patchdata (SchedulerPatchData.cpp:302-358) with
    PatchDataLayer::split_patchdata (PatchDataLayer.cpp:425-514), on one rank. *)
Definition split_patchdata (key : Z) (patches : list patch) (d : dmap) : res dmap :=
  match d key with
  | None => Ok d
  | Some l =>
      let parts := map (fun p => filter (fun o => in_boxb (pos o) (p_box p)) l) patches in
      bb <- merge8 (map p_box patches) ;;
      if negb (length l =? length (concat parts))%nat && negb (forallb (fun o => in_boxb (pos o) bb) l)
      then Throw
      else rfold (fun '(p, part) d => d_add (p_id p) part d) (combine patches parts) (d_set d key None)
  end.

(** merge_patchdata (SchedulerPatchData.cpp:360-425) on one rank. *)
Fixpoint d_gets (d : dmap) (keys : list Z) : res (list obj) :=
  match keys with
  | [] => Ok []
  | k :: ks => match d k with
               | None => Throw
               | Some l => r <- d_gets d ks ;; Ok (l ++ r)
               end
  end.
Definition merge_patchdata (new_key : Z) (old_keys : list Z) (d : dmap) : res dmap :=
  l <- d_gets d old_keys ;;
  d_add new_key l (fold_left (fun d k => d_set d k None) old_keys d).

(** apply_change_list (SchedulerPatchData.cpp:100-194) on all ranks: a message is identified by
    (source, destination, tag); a receive takes the first matching message.  [net] reorders the
    messages arbitrarily. *)
Definition message := (Z * Z * Z * list obj)%type.
Fixpoint send_all (d : ddata) (ops : list change_op) : res (list message) :=
  match ops with
  | [] => Ok []
  | op :: ops' =>
      match d (co_old op) (co_id op) with
      | None => Throw
      | Some l => r <- send_all d ops' ;; Ok ((co_old op, co_new op, co_tag op, l) :: r)
      end
  end.
Fixpoint take_msg (src dst tag : Z) (pool : list message) : option (list obj * list message) :=
  match pool with
  | [] => None
  | (s, d, t, l) :: pool' =>
      if (s =? src) && (d =? dst) && (t =? tag) then Some (l, pool')
      else match take_msg src dst tag pool' with
           | Some (l', r) => Some (l', (s, d, t, l) :: r)
           | None => None
           end
  end.
Fixpoint recv_all (ops : list change_op) (pool : list message) (d : ddata) : res ddata :=
  match ops with
  | [] => Ok d
  | op :: ops' =>
      match take_msg (co_old op) (co_new op) (co_tag op) pool with
      | None => UB (* the probe waits for ever *)
      | Some (l, pool') =>
          m <- d_add (co_id op) l (d (co_new op)) ;;
          recv_all ops' pool' (dd_set d (co_new op) m)
      end
  end.
Definition update_owners (ops : list change_op) (gd : list patch * ddata) : res (list patch * ddata) :=
  rfold (fun op '(g, d) =>
           p <- aget g (co_idx op) ;;
           g' <- aset g (co_idx op) (set_owner (co_new op) p) ;;
           Ok (g', dd_set d (co_old op) (d_set (d (co_old op)) (co_id op) None))) ops gd.
Definition apply_change_list (net : list message -> list message) (ops : list change_op)
    (gd : list patch * ddata) : res (list patch * ddata) :=
  let '(g, d) := gd in
  pool <- send_all d ops ;;
  d' <- recv_all ops (net pool) d ;;
  update_owners ops (g, d').

(** * The scheduler *)
Record sched := Sched {
  s_tree : ptree;
  s_global : list patch;
  s_next : Z;          (* _next_patch_id *)
  s_idx : idxmap;      (* id_patch_to_global_idx *)
  s_data : ddata
}.

Definition opt_res {A} (o : option A) : res A := match o with Some a => Ok a | None => UB end.

(** add_root_patches for one box (PatchScheduler.cpp:108-154), owner 0. *)
Definition add_root_patch (b : pcoord) (s : sched) : res sched :=
  let id := s_next s in
  d0 <- d_add id [] (s_data s 0) ;;
  Ok (Sched (insert_root_node id b (s_tree s)) (s_global s ++ [Patch id u64_max 0 b 0])
            (w64 (id + 1)) (s_idx s) (dd_set (s_data s) 0 d0)).
(** add_root_patches (PatchScheduler.cpp:101-165); the new local lists are derived from global. *)
Definition add_root_patches (bs : list pcoord) (s : sched) : res sched :=
  s' <- rfold add_root_patch bs s ;;
  Ok (Sched (s_tree s') (s_global s') (s_next s') (build_global_idx_map (s_global s')) (s_data s')).

(** One iteration of split_patches (PatchScheduler.cpp:703-759), on every rank. *)
Definition split_one (W : nat) (tree_id : Z) (s : sched) : res sched :=
  t <- split_node tree_id (s_tree s) ;;
  n <- tget t tree_id ;;
  old_id <- opt_res (n_linked n) ;;
  '(g, next', idxs) <- split_patch (s_idx s) old_id (s_global s) (s_next s) ;;
  t <- tmod tree_id (n_set_linked (Some u64_max)) t ;;
  ps <- agets g idxs ;;
  t <- rfold (fun '(c, p) t => tmod c (n_set_linked (Some (p_id p))) t) (combine (n_childs n) ps) t ;;
  d <- rfold (fun r d => m <- split_patchdata old_id ps (d r) ;; Ok (dd_set d r m)) (ranks W) (s_data s) ;;
  Ok (Sched t g next' (s_idx s) d).
Definition split_patches (W : nat) (rq : list Z) (s : sched) : res sched := rfold (split_one W) rq s.

Fixpoint linked_ids (t : ptree) (cs : list Z) : res (list Z) :=
  match cs with
  | [] => Ok []
  | c :: cs' => m <- tget t c ;; l <- opt_res (n_linked m) ;; r <- linked_ids t cs' ;; Ok (l :: r)
  end.
Fixpoint idx_gets (m : idxmap) (ids : list Z) : res (list nat) :=
  match ids with
  | [] => Ok []
  | i :: ids' => a <- idx_get m i ;; r <- idx_gets m ids' ;; Ok (a :: r)
  end.

(** set_patch_pack_values (PatchScheduler.cpp:813-834). *)
Definition pack_one (tree_id : Z) (s : sched) : res sched :=
  n <- tget (s_tree s) tree_id ;;
  ids <- linked_ids (s_tree s) (n_childs n) ;;
  is <- idx_gets (s_idx s) ids ;;
  match is with
  | i0 :: rest =>
      g <- rfold (fun i g => p <- aget g i ;; aset g i (set_pack (Z.of_nat i0) p)) rest (s_global s) ;;
      Ok (Sched (s_tree s) g (s_next s) (s_idx s) (s_data s))
  | [] => UB
  end.
Definition set_patch_pack_values (rq : list Z) (s : sched) : res sched := rfold pack_one rq s.

(** One iteration of merge_patches (PatchScheduler.cpp:764-810): only the rank owning the first
    patch merges the data. *)
Definition merge_one (tree_id : Z) (s : sched) : res sched :=
  n <- tget (s_tree s) tree_id ;;
  ids <- linked_ids (s_tree s) (n_childs n) ;;
  is <- idx_gets (s_idx s) ids ;;
  match ids, is with
  | id0 :: _, i0 :: _ =>
      p0 <- aget (s_global s) i0 ;;
      d <- (m <- merge_patchdata id0 ids (s_data s (p_owner p0)) ;; Ok (dd_set (s_data s) (p_owner p0) m)) ;;
      g <- merge_patch_list is (s_global s) ;;
      t <- merge_node_dm1 tree_id (s_tree s) ;;
      t <- tmod tree_id (n_set_linked (Some id0)) t ;;
      Ok (Sched t g (s_next s) (s_idx s) d)
  | _, _ => UB
  end.
Definition merge_patches (rq : list Z) (s : sched) : res sched := rfold merge_one rq s.

(** plist[id_patch_to_global_idx.at(id)].load_value *)
Definition load_of (m : idxmap) (global : list patch) (id : Z) : res Z :=
  match m id with
  | None => Throw
  | Some i => p <- aget global i ;; Ok (p_load p)
  end.

(** scheduler_step(do_split_merge, do_load_balancing) (PatchScheduler.cpp:308-499).  Parameters that the
    code does not fix: [loads], the load values computed by the ranks before the step; [ord_s]/[ord_m],
    the iteration orders of the unordered sets of requests; [omp], the OpenMP order in the packing;
    [balance], the owner table returned by load_balance for the current patch list (see LoadBalance.v);
    [net], the order in which messages arrive. *)

(** Lines 396-452: requests, splits, packing.  Also returns the merge requests. *)
Definition step_split (W : nat) (crit_split crit_merge : Z) (ord_s ord_m : list Z -> list Z) (s : sched)
  : res (sched * list Z) :=
  let g := s_global s in
  let m := build_global_idx_map g in
  t <- partial_values_reduction (load_of m g) (s_tree s) ;;
  split_rq <- get_split_request crit_split t ;;
  merge_rq <- get_merge_request crit_merge t ;;
  s <- split_patches W (ord_s split_rq) (Sched t g (s_next s) m (s_data s)) ;;
  let s := Sched (s_tree s) (s_global s) (s_next s) (build_global_idx_map (s_global s)) (s_data s) in
  s <- set_patch_pack_values (ord_m merge_rq) s ;;
  Ok (s, ord_m merge_rq).
(** Lines 454-475: load balancing. *)
Definition step_balance (W : nat) (omp : nat -> list nat) (balance : list patch -> list Z)
    (net : list message -> list message) (s : sched) : res sched :=
  ops <- make_change_list W (omp (length (s_global s))) (s_global s) (balance (s_global s)) ;;
  '(g, d) <- apply_change_list net ops (s_global s, s_data s) ;;
  Ok (Sched (s_tree s) g (s_next s) (s_idx s) d).

Definition scheduler_step (W : nat) (do_split_merge do_load_balancing : bool)
    (crit_split crit_merge : Z) (loads : Z -> Z)
    (ord_s ord_m : list Z -> list Z) (omp : nat -> list nat)
    (balance : list patch -> list Z) (net : list message -> list message) (s : sched) : res sched :=
  let s := Sched (s_tree s) (build_global W loads (s_global s)) (s_next s) (s_idx s) (s_data s) in
  '(s, merge_rq) <- (if do_split_merge then step_split W crit_split crit_merge ord_s ord_m s
                     else Ok (s, [])) ;;
  s <- (if do_load_balancing then step_balance W omp balance net s else Ok s) ;;
  s <- (if do_split_merge then merge_patches merge_rq s else Ok s) ;;
  Ok (Sched (s_tree s) (s_global s) (s_next s) (build_global_idx_map (s_global s)) (s_data s)).

End Data.
