(** Model of the dependency tracking of device buffers:
    src/shambackends/src/details/BufferEventHandler.cpp,
    src/shambackends/include/shambackends/details/BufferEventHandler.hpp and
    src/shambackends/include/shambackends/kernel_call.hpp (typed_index_kernel_call_lambda).

    A sycl::event is a number.  Its execution status is not part of the handler: the functions take
    [done], the status of the events (get_info<command_execution_status>() == complete) when they
    are called.  Source locations (only used in messages) are left out. *)
From Verif Require Import Base.

Inductive akind := READ | WRITE.
Definition akind_eqb (a b : akind) : bool :=
  match a, b with READ, READ => true | WRITE, WRITE => true | _, _ => false end.

(** BufferEventHandler (BufferEventHandler.hpp:37-91). *)
Record handler := Handler {
  read_events : list nat;
  write_events : list nat;
  last_access : akind;
  up_to_date : bool
}.
Definition new_handler : handler := Handler [] [] READ true.

(** filter_events (BufferEventHandler.cpp:26-49). *)
Definition filter_events (done : nat -> bool) (h : handler) : handler :=
  Handler (filter (fun e => negb (done e)) (read_events h))
          (filter (fun e => negb (done e)) (write_events h)) (last_access h) (up_to_date h).

(** read_access (BufferEventHandler.cpp:51-74); the list is what is added to depends_list. *)
Definition read_access (done : nat -> bool) (h : handler) : res (list nat * handler) :=
  if negb (up_to_date h) then Throw
  else
    let h := filter_events done h in
    Ok (write_events h, Handler (read_events h) (write_events h) READ false).

(** write_access (BufferEventHandler.cpp:76-102). *)
Definition write_access (done : nat -> bool) (h : handler) : res (list nat * handler) :=
  if negb (up_to_date h) then Throw
  else
    let h := filter_events done h in
    Ok (write_events h ++ read_events h, Handler (read_events h) (write_events h) WRITE false).

Definition access (k : akind) := match k with READ => read_access | WRITE => write_access end.

(** complete_state (BufferEventHandler.cpp:104-145). *)
Definition complete_state (done : nat -> bool) (events : list nat) (h : handler) : res handler :=
  if up_to_date h then Throw
  else
    let h := filter_events done h in
    match last_access h with
    | READ => Ok (Handler (read_events h ++ events) (write_events h) READ true)
    | WRITE => Ok (Handler [] events WRITE true)
    end.

(** wait_all (BufferEventHandler.hpp:65-71), once the events it waits for are complete. *)
Definition wait_all (h : handler) : handler := Handler [] [] (last_access h) (up_to_date h).

(** The handlers of all the buffers. *)
Definition handlers := nat -> handler.
Definition hset (hs : handlers) (b : nat) (h : handler) : handlers := fun x => if x =? b then h else hs x.

(** get_read_access / get_write_access on a list of buffers (MultiRef), then the submission of event
    [e], then complete_event_state on all of them (kernel_call.hpp:33-69).  Returns the depends_list
    given to the submission.  The status [done] is taken fixed during the call. *)
Fixpoint accesses (k : akind) (done : nat -> bool) (bs : list nat) (hs : handlers) : res (list nat * handlers) :=
  match bs with
  | [] => Ok ([], hs)
  | b :: bs' =>
      '(d, h) <- access k done (hs b) ;;
      '(ds, hs') <- accesses k done bs' (hset hs b h) ;;
      Ok (d ++ ds, hs')
  end.
Fixpoint completes (done : nat -> bool) (e : nat) (bs : list nat) (hs : handlers) : res handlers :=
  match bs with
  | [] => Ok hs
  | b :: bs' => h <- complete_state done [e] (hs b) ;; completes done e bs' (hset hs b h)
  end.
Definition kernel_call (done : nat -> bool) (ins outs : list nat) (n : nat) (e : nat) (hs : handlers)
  : res (list nat * handlers) :=
  if n =? 0 then Throw
  else
    '(d1, hs) <- accesses READ done ins hs ;;
    '(d2, hs) <- accesses WRITE done outs hs ;;
    hs <- completes done e ins hs ;;
    hs <- completes done e outs hs ;;
    Ok (d1 ++ d2, hs).
