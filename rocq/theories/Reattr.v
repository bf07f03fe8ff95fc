(** Model of ReattributeDataUtility (src/shamrock/include/shamrock/scheduler/ReattributeDataUtility.hpp:63-262):
    moving the objects to the patches that contain their positions, on all the ranks.  Definitions only.
    Simplifications: logging and the histogram (138, 166, 194-196) are left out, as is the dead branch
    (144-155); a sycl::buffer is its contents (also an empty one, for keep_ids); the state after an exception is
    not described; the values of the fields are given by their bytes (as in LayerSer.v). *)
From Verif Require Import Base Streams Serialize Containers Layer Layer_spec SparseXchg DDComm DDSer LayerSer Patch Domain SerialTree.
From Verif Require PatchData.
Local Open Scope nat_scope.

Notation lay_t := (layer (list Z)).

Definition of_eres {X} (m : eres X) : res X := match m with Ret s => Ok s | Raise _ => Throw | Undef => UB end.

Section R.
Variables (lay : layout) (ipos pos_ty : nat).
(** sptree.compute_patch_owner on the positions of the patch (SerialTree.v for double precision). *)
Variable owner : Z -> list (list Z) -> res (list Z).
(** Iteration order of the std::unordered_map of line 157, and what the layer operations leave open. *)
Variable uorder : Z -> list (Z * list nat) -> list (Z * list nat).
Variables (Ea : Z -> Z -> lenv (list Z)) (Ek : Z -> lenv (list Z)) (Ei : Z -> Z -> lenv (list Z)).

(** PatchDataLayer::is_empty, src/shamrock/include/shamrock/patch/PatchDataLayer.hpp:251 *)
Definition l_is_empty (L : lay_t) : res bool := n <- l_get_obj_cnt L ;; Ok (n =? 0).

(** 62-99: compute_new_pid.  get_field (PatchDataLayer.hpp:272-289) throws when the type differs. *)
Definition compute_new_pid (d : dd lay_t) : res (dd (list Z)) :=
  rfold (fun p m =>
    e <- l_is_empty (snd p) ;;
    if e : bool then Ok m else
    f <- aget (snd p) ipos ;;
    if negb (f_ty f =? pos_ty) then Throw else
    if negb (f_nvar f =? 1) then Throw else
    c <- get_obj_cnt f ;;
    nid <- owner (fst p) (firstn c (f_buf f)) ;;
    m <- dd_add_obj (fst p) nid m ;;
    n <- l_get_obj_cnt (snd p) ;;
    err <- rfold (fun i err => v <- aget nid i ;; Ok (err || (v =? u64_max)%Z)%bool) (seq 0 n) false ;;
    if err : bool then Throw else Ok m) (dd_for_each d) [].

(** extract_indexes[new_pid].push_back(i) *)
Fixpoint ext_push (n : Z) (i : nat) (ext : list (Z * list nat)) : list (Z * list nat) :=
  match ext with
  | [] => [(n, [i])]
  | (m, v) :: t => if (m =? n)%Z then (m, v ++ [i]) :: t else (m, v) :: ext_push n i t
  end.
(** 156-170 *)
Definition split_loop (current_pid : Z) (nid : list Z) (cnt : nat) : res (list nat * list (Z * list nat)) :=
  rfold (fun i ke =>
    new_pid <- aget nid i ;;
    if negb (current_pid =? new_pid)%Z then Ok (fst ke, ext_push new_pid i (snd ke))
    else Ok (fst ke ++ [i], snd ke)) (seq 0 cnt) ([], []).
(** 184-189 *)
Definition append_to (E : lenv (list Z)) (cur new : Z) (ids : list nat) (L : lay_t) (px : dds lay_t) : res (dds lay_t) :=
  PatchData.rmapm (fun p =>
    if ((fst (fst p) =? cur) && (snd (fst p) =? new))%Z
    then lm <- of_eres (l_append_subset_to E ids L (snd p)) ;; Ok (fst p, snd lm)
    else Ok p) px.
(** 156-193 *)
Definition extract_patch (cur : Z) (nid : list Z) (L : lay_t) (px : dds lay_t) : res (lay_t * dds lay_t) :=
  cnt <- l_get_obj_cnt L ;;
  ke <- split_loop cur nid cnt ;;
  px <- rfold (fun nv px =>
          append_to (Ea cur (fst nv)) cur (fst nv) (snd nv) L
            (if dds_has_key cur (fst nv) px then px else dds_add_obj cur (fst nv) (PatchData.fresh lay) px))
          (uorder cur (snd ke)) px ;;
  L' <- of_eres (l_keep_ids (Ek cur) (fst ke) L) ;;
  Ok (L', px).
(** 123-200: extract_elements; the owned data after the call, and part_exchange. *)
Definition extract_elements (new_pid : dd (list Z)) (d : dd lay_t) : res (dd lay_t * dds lay_t) :=
  rfold (fun p st =>
    e <- l_is_empty (snd p) ;;
    if e : bool then Ok (fst st ++ [p], snd st) else
    nid <- dd_get (fst p) new_pid ;;
    lp <- extract_patch (fst p) nid (snd p) (snd st) ;;
    Ok (fst st ++ [(fst p, fst lp)], snd lp)) (dd_for_each d) ([], []).

(** 259-262: the received objects are inserted; get_pdat is owned_data.get
    (SchedulerPatchData.hpp:62, DistributedData.hpp:145-152), which throws when there is no such patch. *)
Definition dd_set {T} (k : Z) (v : T) (m : dd T) : dd T := map (fun p => if (fst p =? k)%Z then (fst p, v) else p) m.
Definition insert_recv (recv : dds lay_t) (d : dd lay_t) : res (dd lay_t) :=
  rfold (fun kp d =>
    M <- dd_get (snd (fst kp)) d ;;
    r <- of_eres (l_insert (Ei (fst (fst kp)) (snd (fst kp))) M (snd kp)) ;;
    Ok (dd_set (snd (fst kp)) (fst r) d)) (dds_for_each recv) d.
End R.

(** ** reatribute_patch_objects (213-263) on all ranks *)
Section W.
Variables (lay : layout) (ipos pos_ty : nat) (tsz : nat -> nat).
Variable owner : nat -> Z -> list (list Z) -> res (list Z).
Variable uorder : nat -> Z -> list (Z * list nat) -> list (Z * list nat).
Variables (Ea : nat -> Z -> Z -> lenv (list Z)) (Ek : nat -> Z -> lenv (list Z)) (Ei : nat -> Z -> Z -> lenv (list Z)).
(** Order of the work items and content of new memory in the serializations of rank r. *)
Variables (ssch : nat -> nat -> nat -> nat -> list nat) (sjunk : nat -> nat -> nat -> Z).
Variables (dsch : nat -> nat -> nat -> nat -> list nat) (djunk : nat -> nat -> nat -> list Z).
Variable rg : Z -> Z.   (* get_patch_rank_owner *)

(** Until the communication tables are built; [d] are the patches of each rank.  Result: the data of each rank
    and its part_exchange, then what the communication needs. *)
Definition reattr_begin (sched : nat -> nat -> nat -> nat -> list nat) (junk : nat -> nat -> nat -> Z)
    (max_mem : nat -> nat) (max_comm_size : nat) (ds : list (dd lay_t))
  : res (list (dd lay_t * dds lay_t) * list (list (cmi * list Z)) * list table) :=
  ex <- imapm (fun r d => np <- compute_new_pid ipos pos_ty (owner r) d ;;
                          extract_elements lay (uorder r) (Ea r) (Ek r) np d) ds ;;
  pt <- ssc_begin (fun r i => l_serialize tsz (ssch r i) (sjunk r i)) rg sched junk max_mem max_comm_size (map snd ex) ;;
  Ok (ex, fst pt, snd pt).

(** On rank r, once the exchange is finished: [d] and [send] are its results of the first part. *)
Definition reattr_end (r : nat) (sch : nat -> nat -> nat -> list nat) (cjunk : Z) (t : table) (cache2 : list (list Z))
    (d : dd lay_t) (send : dds lay_t) : res (dd lay_t) :=
  recv <- ssc_end (fun j => l_deserialize tsz (dsch r j) (djunk r j) lay) rg sch cjunk t cache2 send ;;
  insert_recv (Ei r) recv d.
End W.
