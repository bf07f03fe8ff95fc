(** The runtime around the event handlers, and what is expected from it.

    Commands are submitted with a list of dependencies; a command starts after all its dependencies
    are complete, and completes after it started.  Everything else is arbitrary: any interleaving of
    starts, completions and host calls is a history. *)
From Verif Require Import Base Events.

Inductive phase := Pending | Running | Done.

(** A submitted command.  [c_sub] is the set of commands that were complete when it was submitted,
    [c_start] the set of those that were complete when it started (ghost state). *)
Record command := Command {
  c_deps : list nat;
  c_sub : nat -> bool;
  c_phase : phase;
  c_start : nat -> bool
}.

(** A buffer access: the buffer, read or write, and the commands which touch the memory. *)
Definition log_entry := (nat * akind * list nat)%type.
(** An access which is still open: its kind, the dependencies it was given, the number of commands
    submitted before it and the set of the commands complete at that time. *)
Definition open_access := (akind * list nat * nat * (nat -> bool))%type.

Record sys := Sys {
  y_hs : handlers;
  y_rt : nat -> option command;
  y_next : nat;                      (* commands are numbered in the order of submission *)
  y_open : nat -> option open_access;
  y_log : list log_entry             (* completed accesses, oldest first *)
}.

Definition is_done (s : sys) (e : nat) : bool :=
  match y_rt s e with Some c => match c_phase c with Done => true | _ => false end | None => false end.

Definition init_sys : sys := Sys (fun _ => new_handler) (fun _ => None) 0 (fun _ => None) [].

Definition rt_set (rt : nat -> option command) e c : nat -> option command :=
  fun x => if x =? e then Some c else rt x.
Definition open_set (o : nat -> option open_access) b v : nat -> option open_access :=
  fun x => if x =? b then v else o x.

Inductive step : sys -> sys -> Prop :=
(** get_read_access / get_write_access *)
| S_access s b k d h : access k (is_done s) (y_hs s b) = Ok (d, h) ->
    step s (Sys (hset (y_hs s) b h) (y_rt s) (y_next s)
                (open_set (y_open s) b (Some (k, d, y_next s, is_done s))) (y_log s))
(** q.submit(...) *)
| S_submit s deps : (forall d, In d deps -> d < y_next s) ->
    step s (Sys (y_hs s) (rt_set (y_rt s) (y_next s) (Command deps (is_done s) Pending (fun _ => false)))
                (S (y_next s)) (y_open s) (y_log s))
(** complete_event_state(evs).  [acts] are the commands that use the pointer.  Contract of the user:
    they are submitted after the access, each of them depends on the whole depends_list (or is
    submitted after having waited for it); each of them is registered, or complete (waited for); and
    for a write access, some registered event comes after each event of depends_list (or it has been
    waited for). *)
| S_complete s b k d n0 done0 acts evs h : y_open s b = Some (k, d, n0, done0) ->
    (forall a, In a acts -> n0 <= a /\ exists c, y_rt s a = Some c /\
       forall x, In x d -> In x (c_deps c) \/ c_sub c x = true) ->
    (forall a, In a acts -> In a evs \/ is_done s a = true) ->
    (forall e, In e evs -> e < y_next s) ->
    (k = WRITE -> forall x, In x d -> is_done s x = true \/
       exists e c, In e evs /\ y_rt s e = Some c /\ In x (c_deps c)) ->
    complete_state (is_done s) evs (y_hs s b) = Ok h ->
    step s (Sys (hset (y_hs s) b h) (y_rt s) (y_next s) (open_set (y_open s) b None)
                (y_log s ++ [(b, k, acts)]))
(** synchronize(): returns once all the events of the handler are complete *)
| S_wait s b : (forall e, In e (read_events (y_hs s b)) \/ In e (write_events (y_hs s b)) -> is_done s e = true) ->
    step s (Sys (hset (y_hs s) b (wait_all (y_hs s b))) (y_rt s) (y_next s) (y_open s) (y_log s))
(** the runtime *)
| S_start s e c : y_rt s e = Some c -> c_phase c = Pending -> (forall d, In d (c_deps c) -> is_done s d = true) ->
    step s (Sys (y_hs s) (rt_set (y_rt s) e (Command (c_deps c) (c_sub c) Running (is_done s)))
                (y_next s) (y_open s) (y_log s))
| S_finish s e c : y_rt s e = Some c -> c_phase c = Running ->
    step s (Sys (y_hs s) (rt_set (y_rt s) e (Command (c_deps c) (c_sub c) Done (c_start c)))
                (y_next s) (y_open s) (y_log s)).

Inductive reach : sys -> Prop :=
| R_init : reach init_sys
| R_step s s' : reach s -> step s s' -> reach s'.

(** Two accesses conflict when one of them is a write. *)
Definition conflict (k k' : akind) : Prop := k = WRITE \/ k' = WRITE.
