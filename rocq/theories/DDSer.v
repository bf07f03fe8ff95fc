(** Model of serialize_sparse_comm, src/shamalgs/include/shamalgs/collective/distributedDataComm.hpp:172-216,
    called on every rank; the objects are of any type, [ser] and [deser] are the caller's functions (they
    may throw; their second argument, the number of the call, stands for what is not determined by the
    object: the order of the work items and the content of new memory). *)
From Verif Require Import Base Serialize Containers SparseXchg DDComm.

Section S.
Context {T : Type}.
Variables (ser : nat -> nat -> T -> res (list Z)) (deser : nat -> list Z -> res T) (rg : Z -> Z).

(** DistributedDataShared::map (DistributedDataShared.hpp:200-218) with a function that may throw. *)
Definition dds_mapm {X Y} (f : nat -> X -> res Y) (m : dds X) : res (dds Y) :=
  rfold (fun ip r => v <- f (fst ip) (snd (snd ip)) ;; Ok (dds_add_obj (fst (fst (snd ip))) (snd (fst (snd ip))) v r))
        (combine (seq 0 (length m)) (dds_for_each m)) [].

(** distributedDataComm.hpp:185-190: the objects that stay on the rank; (what remains, same_rank_tmp). *)
Definition ssc_keep (send : dds T) : dds T * dds T :=
  dds_tranfer_all (fun l r => (rg l =? rg r)%Z) send [].

(** distributedDataComm.hpp:192-197 and the call at 199, on every rank; [comm_begin] is its part up to
    the tables. *)
Definition ssc_begin (sched : nat -> nat -> nat -> nat -> list nat) (junk : nat -> nat -> nat -> Z)
    (max_mem : nat -> nat) (max_comm_size : nat) (sends : list (dds T))
  : res (list (list (cmi * list Z)) * list table) :=
  dcomm_send <- imapm (fun r send => dds_mapm (ser r) (fst (ssc_keep send))) sends ;;
  comm_begin sched junk max_mem max_comm_size rg dcomm_send.

(** distributedDataComm.hpp:199-215 on one rank: [dcomm_recv] is empty before the call. *)
Definition ssc_end (sched : nat -> nat -> nat -> list nat) (djunk : Z) (t : table) (cache2 : list (list Z))
    (send : dds T) : res (dds T) :=
  dcomm_recv <- finish sched djunk rg t cache2 [] ;;
  recv <- dds_mapm deser dcomm_recv ;;
  Ok (snd (dds_tranfer_all (fun _ _ => true) (snd (ssc_keep send)) recv)).
End S.
