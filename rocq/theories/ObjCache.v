(** Model of ObjectCacheHandler, the neighbour-cache store with offloading to the host.
    src/shamtree/include/shamtree/TreeTraversalCache.hpp:27-214 and, for the entries themselves,
    src/shamtree/include/shamtree/TreeTraversal.hpp:363-414.
    Exceptions keep the state reached when they are thrown (callers may catch them): [out] below. *)
From Verif Require Import Base Containers.
Local Open Scope Z_scope.

(** HostObjectCache (TreeTraversal.hpp:363-373): the three vectors and the sum *)
Record host := mkhost { h_cnt : list Z; h_scan : list Z; h_sum : Z; h_idx : list Z }.
Definition host_memsize (h : host) : Z :=
  w64 ((Z.of_nat (length (h_cnt h)) + Z.of_nat (length (h_scan h)) + Z.of_nat (length (h_idx h)) + 1) * 4).
(** ObjectCache (lines 375-414): the same content in three device buffers; [d_b*] is what get_mem_usage returns for
    each, the size of its allocation *)
Record devc := mkdev { d_host : host; d_b1 : Z; d_b2 : Z; d_b3 : Z }.
Definition dev_memsize (d : devc) : Z := w64 (d_b1 d + d_b2 d + d_b3 d + 4).
(** copy_to_host (386-393): copy_to_stdvec returns the content of each buffer *)
Definition copy_to_host (d : devc) : host := d_host d.
(** build_from_host (395-414): three new buffers; [alloc n] is the allocation made for n u32 (DeviceBuffer.hpp:147-159) *)
Definition build_from_host (alloc : nat -> Z) (h : host) : devc :=
  mkdev h (alloc (length (h_cnt h))) (alloc (length (h_scan h))) (alloc (length (h_idx h))).

(** The handler (TreeTraversalCache.hpp:29-38).  [s_glog] and [s_blog] are not in the code: the calls of the generator
    and the entries put on the device, in order, which are what an observer of the run sees. *)
Record hstate := mkst { s_cache : dd devc; s_off : dd host; s_q : list Z; s_dmem : Z; s_hmem : Z; s_glog : list Z; s_blog : list Z }.
Definition fresh : hstate := mkst [] [] [] 0 0 [] [].

(** outcome of a call: a value, an exception, or undefined behaviour *)
Inductive out (A : Type) := Ret (a : A) (s : hstate) | Exc (s : hstate) | Bad.
Arguments Ret {A}. Arguments Exc {A}. Arguments Bad {A}.
Definition act (A : Type) := hstate -> out A.
Definition obind {A B} (m : act A) (f : A -> act B) : act B :=
  fun s => match m s with Ret a s' => f a s' | Exc s' => Exc s' | Bad => Bad end.
Definition oret {A} (a : A) : act A := fun s => Ret a s.
Definition oraise {A} : act A := fun s => Exc s.
(** a call that can throw and does not touch the rest of the state *)
Definition olift {A} (r : hstate -> res A) : act A := fun s => match r s with Ok a => Ret a s | Throw => Exc s | UB => Bad end.

Definition set_cache c s := mkst c (s_off s) (s_q s) (s_dmem s) (s_hmem s) (s_glog s) (s_blog s).
Definition set_off c s := mkst (s_cache s) c (s_q s) (s_dmem s) (s_hmem s) (s_glog s) (s_blog s).
Definition set_q c s := mkst (s_cache s) (s_off s) c (s_dmem s) (s_hmem s) (s_glog s) (s_blog s).
Definition set_dmem c s := mkst (s_cache s) (s_off s) (s_q s) c (s_hmem s) (s_glog s) (s_blog s).
Definition set_hmem c s := mkst (s_cache s) (s_off s) (s_q s) (s_dmem s) c (s_glog s) (s_blog s).
Definition set_glog c s := mkst (s_cache s) (s_off s) (s_q s) (s_dmem s) (s_hmem s) c (s_blog s).
Definition set_blog c s := mkst (s_cache s) (s_off s) (s_q s) (s_dmem s) (s_hmem s) (s_glog s) c.
Definition modify (f : hstate -> hstate) : act unit := fun s => Ret tt (f s).

Section Handler.
  Variable alloc : nat -> Z.                      (* allocation size of a new buffer of n u32 *)
  Variable generator : Z -> option devc.          (* None: it throws *)
  Variable max_device_memsize : Z.

  (** pop_offload (lines 48-53) *)
  Definition pop_offload (id : Z) : act devc :=
    obind (olift (fun s => dd_get id (s_off s))) (fun h =>
    let tmp := build_from_host alloc h in
    obind (modify (fun s => set_off (dd_erase id (s_off s)) s)) (fun _ =>
    obind (modify (fun s => set_hmem (w64 (s_hmem s - dev_memsize tmp)) s)) (fun _ => oret tmp))).
  (** pop_cache (lines 55-64) *)
  Definition pop_cache (id : Z) : act host :=
    obind (olift (fun s => dd_get id (s_cache s))) (fun tmp =>
    let ret := copy_to_host tmp in
    obind (modify (fun s => set_dmem (w64 (s_dmem s - dev_memsize tmp)) s)) (fun _ =>
    obind (modify (fun s => set_cache (dd_erase id (s_cache s)) s)) (fun _ => oret ret))).
  (** push_offload (lines 66-69) *)
  Definition push_offload (id : Z) (c : host) : act unit :=
    obind (modify (fun s => set_hmem (w64 (s_hmem s + host_memsize c)) s)) (fun _ =>
    obind (olift (fun s => dd_add_obj id c (s_off s))) (fun m => modify (set_off m))).
  (** push_cache (lines 71-75) *)
  Definition push_cache (id : Z) (c : devc) : act unit :=
    obind (modify (fun s => set_dmem (w64 (s_dmem s + dev_memsize c)) s)) (fun _ =>
    obind (olift (fun s => dd_add_obj id c (s_cache s))) (fun m =>
    obind (modify (set_cache m)) (fun _ =>
    modify (fun s => set_q (s_q s ++ [id]) (set_blog (s_blog s ++ [id]) s))))).
  (** offload_entry (lines 77-80) *)
  Definition offload_entry (id : Z) : act unit := obind (pop_cache id) (fun tmp => push_offload id tmp).
  (** load_or_build_cache (lines 82-88) *)
  Definition load_or_build_cache (id : Z) : act devc := fun s =>
    if dd_has_key id (s_off s) then pop_offload id s
    else match generator id with
         | Some c => Ret c (set_glog (s_glog s ++ [id]) s)
         | None => Exc s
         end.
  (** offload_oldest (lines 94-123): the do-while loop, on the queue last_device_builds; front() of an empty deque is
      undefined behaviour *)
  Fixpoint offload_oldest_loop (q : list Z) : act unit := fun s =>
    if dd_is_empty (s_cache s) then Exc (set_q q s)
    else match q with
         | [] => Bad
         | last_id :: q' =>
             if dd_has_key last_id (s_cache s) then offload_entry last_id (set_q q' s)
             else offload_oldest_loop q' s
         end.
  Definition offload_oldest : act unit := fun s => offload_oldest_loop (s_q s) s.
  (** push_new (lines 131-142): note that push_cache has already appended the id *)
  Definition push_new (id : Z) (c : devc) : act unit := fun s =>
    if max_device_memsize <? w64 (dev_memsize c + s_dmem s) then Exc s
    else obind (push_cache id c) (fun _ => modify (fun s => set_q (s_q s ++ [id]) s)) s.
  (** build_cache, the while loop (lines 157-168); each turn removes an entry, so the number of entries plus one is
      enough turns *)
  Fixpoint make_space (turns : nat) (new_sz : Z) : act unit := fun s =>
    if max_device_memsize <? w64 (new_sz + s_dmem s) then
      match turns with
      | O => Bad
      | S turns => if dd_is_empty (s_cache s) then Exc s else obind offload_oldest (fun _ => make_space turns new_sz) s
      end
    else Ret tt s.
  (** build_cache (lines 151-178) *)
  Definition build_cache (id : Z) : act unit :=
    obind (load_or_build_cache id) (fun new_cache =>
    obind (fun s => make_space (S (dd_count (s_cache s))) (dev_memsize new_cache) s) (fun _ => push_new id new_cache)).
  (** get_cache (lines 186-193) *)
  Definition get_cache (id : Z) : act devc := fun s =>
    if dd_has_key id (s_cache s) then olift (fun s => dd_get id (s_cache s)) s
    else obind (build_cache id) (fun _ => olift (fun s => dd_get id (s_cache s))) s.
  (** preload (line 195), reset (197-203) *)
  Definition preload (id : Z) : act unit := obind (get_cache id) (fun _ => oret tt).
  Definition reset : act unit := modify (fun s => mkst (dd_reset (s_cache s)) (dd_reset (s_off s)) [] 0 0 (s_glog s) (s_blog s)).

  (** A history of calls; exceptions are caught by the caller *)
  Inductive hop := HGet (id : Z) | HPreload (id : Z) | HReset.
  Inductive hobs := ODone | OGot (d : devc) | OThrew.
  Definition hstep (o : hop) (s : hstate) : option (hobs * hstate) :=
    match o with
    | HGet id => match get_cache id s with Ret d s' => Some (OGot d, s') | Exc s' => Some (OThrew, s') | Bad => None end
    | HPreload id => match preload id s with Ret _ s' => Some (ODone, s') | Exc s' => Some (OThrew, s') | Bad => None end
    | HReset => match reset s with Ret _ s' => Some (ODone, s') | Exc s' => Some (OThrew, s') | Bad => None end
    end.
  Fixpoint hrun (ops : list hop) (s : hstate) : option (list hobs * hstate) :=
    match ops with
    | [] => Some ([], s)
    | o :: t => match hstep o s with
                | Some (b, s') => match hrun t s' with Some (bs, s'') => Some (b :: bs, s'') | None => None end
                | None => None
                end
    end.
End Handler.
