(** Containers of shambase: FixedStack, set_diff, DistributedData,
    DistributedDataShared.  Definitions only. *)
From Verif Require Import Base.
Local Open Scope Z_scope.

(* ------------------------------------------------------------------ *)
(** ** FixedStack.  src/shambase/include/shambase/FixedStack.hpp:87-158.
    [fs_arr] is [id_stack] (its length is the template argument [stack_size]; its
    initial content is arbitrary), [fs_cur] is [stack_cursor].  A violated
    SHAM_ASSERT is [UB] (it is compiled out in release builds). *)
Record fstack (T : Type) := mkFS { fs_arr : list T; fs_cur : nat }.
Arguments mkFS {T} _ _.
Arguments fs_arr {T} _.
Arguments fs_cur {T} _.

(** FixedStack.hpp:104 (default constructor over uninitialised storage [mem]) *)
Definition fs_new {T} (mem : list T) : fstack T := mkFS mem (length mem).
(** FixedStack.hpp:107-109 (constructor from a value; stack_size > 0 by static_assert) *)
Definition fs_new_val {T} (mem : list T) (v : T) : res (fstack T) :=
  a <- aset mem (length mem - 1) v ;; Ok (mkFS a (length mem - 1)).
(** FixedStack.hpp:112 *)
Definition fs_is_not_empty {T} (s : fstack T) : bool := (fs_cur s <? length (fs_arr s))%nat.
(** FixedStack.hpp:115 *)
Definition fs_empty {T} (s : fstack T) : bool := (fs_cur s =? length (fs_arr s))%nat.
(** FixedStack.hpp:118 *)
Definition fs_size {T} (s : fstack T) : nat := (length (fs_arr s) - fs_cur s)%nat.
(** FixedStack.hpp:121-128 *)
Definition fs_push {T} (v : T) (s : fstack T) : res (fstack T) :=
  if (0 <? fs_cur s)%nat then
    a <- aset (fs_arr s) (fs_cur s - 1) v ;; Ok (mkFS a (fs_cur s - 1))
  else UB.
(** FixedStack.hpp:131-140 *)
Definition fs_top {T} (s : fstack T) : res T :=
  if fs_is_not_empty s then aget (fs_arr s) (fs_cur s) else UB.
(** FixedStack.hpp:143-149 *)
Definition fs_pop {T} (s : fstack T) : res (fstack T) :=
  if fs_is_not_empty s then Ok (mkFS (fs_arr s) (fs_cur s + 1)) else UB.
(** FixedStack.hpp:152-157 *)
Definition fs_pop_ret {T} (s : fstack T) : res (T * fstack T) :=
  v <- fs_top s ;; s' <- fs_pop s ;; Ok (v, s').

(** One call of the public API together with what the caller observes. *)
Inductive fs_op (T : Type) := FsPush (v : T) | FsPop | FsPopRet | FsTop | FsSize | FsEmpty.
Arguments FsPush {T} v. Arguments FsPop {T}. Arguments FsPopRet {T}.
Arguments FsTop {T}. Arguments FsSize {T}. Arguments FsEmpty {T}.
Inductive fs_obs (T : Type) := ObUnit | ObVal (v : T) | ObNat (n : nat) | ObBool (b : bool).
Arguments ObUnit {T}. Arguments ObVal {T} v. Arguments ObNat {T} n. Arguments ObBool {T} b.
Definition fs_step {T} (o : fs_op T) (s : fstack T) : res (fs_obs T * fstack T) :=
  match o with
  | FsPush v => s' <- fs_push v s ;; Ok (ObUnit, s')
  | FsPop => s' <- fs_pop s ;; Ok (ObUnit, s')
  | FsPopRet => '(v, s') <- fs_pop_ret s ;; Ok (ObVal v, s')
  | FsTop => v <- fs_top s ;; Ok (ObVal v, s)
  | FsSize => Ok (ObNat (fs_size s), s)
  | FsEmpty => Ok (ObBool (fs_empty s), s)
  end.
Fixpoint fs_run {T} (ops : list (fs_op T)) (s : fstack T) : res (list (fs_obs T) * fstack T) :=
  match ops with
  | [] => Ok ([], s)
  | o :: t => '(b, s') <- fs_step o s ;; '(bs, s'') <- fs_run t s' ;; Ok (b :: bs, s'')
  end.

(* ------------------------------------------------------------------ *)
(** ** std::set<u64> as a strictly increasing list. *)
Fixpoint set_insert (a : Z) (s : list Z) : list Z :=
  match s with
  | [] => [a]
  | b :: t => if a <? b then a :: s else if a =? b then s else b :: set_insert a t
  end.
Definition set_mem (a : Z) (s : list Z) : bool := existsb (Z.eqb a) s.
Definition set_erase (a : Z) (s : list Z) : list Z := filter (fun b => negb (b =? a)) s.

Record diff_out := mkDiff { d_missing : list Z; d_matching : list Z; d_extra : list Z }.

(** The second loop, src/shambase/include/shambase/sets.hpp:54-61. *)
Fixpoint set_diff_loop (ref : list Z) (dd_ids missing matching : list Z)
  : list Z * list Z * list Z :=
  match ref with
  | [] => (dd_ids, missing, matching)
  | a :: t =>
      if set_mem a dd_ids
      then set_diff_loop t (set_erase a dd_ids) missing (matching ++ [a])
      else set_diff_loop t (set_erase a dd_ids) (missing ++ [a]) matching
  end.
(** src/shambase/include/shambase/sets.hpp:40-66 (output vectors initially empty). *)
Definition set_diff (c1 ref : list Z) : diff_out :=
  let dd_ids := fold_left (fun s a => set_insert a s) c1 [] in
  let '(rest, missing, matching) := set_diff_loop ref dd_ids [] [] in
  mkDiff missing matching rest.

(* ------------------------------------------------------------------ *)
(** ** DistributedData<T>: a std::map<u64,T>, as an association list kept sorted.
    src/shambase/include/shambase/DistributedData.hpp:42-278 *)
Definition dd (T : Type) := list (Z * T).

(** std::map::emplace: [None] when the key exists. *)
Fixpoint map_emplace {T} (k : Z) (v : T) (m : dd T) : option (dd T) :=
  match m with
  | [] => Some [(k, v)]
  | (k', v') :: t =>
      if k <? k' then Some ((k, v) :: m)
      else if k =? k' then None
      else option_map (cons (k', v')) (map_emplace k v t)
  end.
(** DistributedData.hpp:67-76 *)
Definition dd_add_obj {T} (k : Z) (v : T) (m : dd T) : res (dd T) :=
  match map_emplace k v m with Some m' => Ok m' | None => Throw end.
(** DistributedData.hpp:83 *)
Definition dd_erase {T} (k : Z) (m : dd T) : dd T := filter (fun p => negb (fst p =? k)) m.
(** DistributedData.hpp:127 (std::map::find) *)
Fixpoint dd_find {T} (k : Z) (m : dd T) : option T :=
  match m with
  | [] => None
  | (k', v') :: t => if k =? k' then Some v' else dd_find k t
  end.
(** DistributedData.hpp:145-176 *)
Definition dd_get {T} (k : Z) (m : dd T) : res T :=
  match dd_find k m with Some v => Ok v | None => Throw end.
(** DistributedData.hpp:185 *)
Definition dd_has_key {T} (k : Z) (m : dd T) : bool :=
  match dd_find k m with Some _ => true | None => false end.
(** DistributedData.hpp:93-104 (the sequence of callback arguments) *)
Definition dd_for_each {T} (m : dd T) : list (Z * T) := m.
(** DistributedData.hpp:111-118 *)
Definition dd_get_ids {T} (m : dd T) : list Z := map fst (dd_for_each m).
(** DistributedData.hpp:192 *)
Definition dd_count {T} (m : dd T) : nat := length m.
(** DistributedData.hpp:199 *)
Definition dd_is_empty {T} (m : dd T) : bool := match m with [] => true | _ => false end.
(** DistributedData.hpp:249-270: rebuilds a new map with add_obj *)
Definition dd_map {T U} (f : Z -> T -> U) (m : dd T) : res (dd U) :=
  rfold (fun p r => dd_add_obj (fst p) (f (fst p) (snd p)) r) (dd_for_each m) [].
(** DistributedData.hpp:277 *)
Definition dd_reset {T} (m : dd T) : dd T := [].

(** A history of mutations; a throwing add_obj leaves the map as it is
    (std::map::emplace does not insert) and the caller catches the exception. *)
Inductive dd_op (T : Type) := DAdd (k : Z) (v : T) | DErase (k : Z) | DReset.
Arguments DAdd {T} k v. Arguments DErase {T} k. Arguments DReset {T}.
Definition dd_step {T} (o : dd_op T) (m : dd T) : dd T :=
  match o with
  | DAdd k v => match dd_add_obj k v m with Ok m' => m' | _ => m end
  | DErase k => dd_erase k m
  | DReset => dd_reset m
  end.
Definition dd_run {T} (ops : list (dd_op T)) : dd T :=
  fold_left (fun m o => dd_step o m) ops [].

(** Callbacks made by the id diff helpers. *)
Inductive diff_call := CMissing (id : Z) | CMatch (id : Z) | CExtra (id : Z).
(** DistributedData.hpp:300-331.  The lambda at line 310 takes its id as [u32]:
    the u64 id is truncated. *)
Definition on_distributeddata_ids_diff {T} (m : dd T) (ref_ids : list Z) : list diff_call :=
  let dd_ids := map (fun p => w32 (fst p)) (dd_for_each m) in
  let d := set_diff dd_ids ref_ids in
  map CMissing (d_missing d) ++ map CMatch (d_matching d) ++ map CExtra (d_extra d).
(** DistributedData.hpp:350-365; same truncation at line 360. *)
Definition on_distributeddata_diff {T U} (m : dd T) (reference : dd U) : list diff_call :=
  let ref_ids := map (fun p => w32 (fst p)) (dd_for_each reference) in
  on_distributeddata_ids_diff m ref_ids.

(* ------------------------------------------------------------------ *)
(** ** DistributedDataShared<T>: std::multimap<pair<u64,u64>,T>.
    src/shambase/include/shambase/DistributedDataShared.hpp:51-231 *)
Definition key2 := (Z * Z)%type.
(** std::pair operator< (lexicographic) *)
Definition k2_ltb (a b : key2) : bool :=
  (fst a <? fst b) || ((fst a =? fst b) && (snd a <? snd b)).
Definition k2_eqb (a b : key2) : bool := (fst a =? fst b) && (snd a =? snd b).
Definition dds (T : Type) := list (key2 * T).

(** std::multimap::emplace / insert: at the upper bound of the equal range. *)
Fixpoint mm_insert {T} (k : key2) (v : T) (m : dds T) : dds T :=
  match m with
  | [] => [(k, v)]
  | (k', v') :: t => if k2_ltb k k' then (k, v) :: m else (k', v') :: mm_insert k v t
  end.
(** std::multimap::extract(key): unlinks the first element with that key;
    [None] is the empty node handle. *)
Fixpoint mm_extract {T} (k : key2) (m : dds T) : option (key2 * T) * dds T :=
  match m with
  | [] => (None, [])
  | (k', v') :: t =>
      if k2_eqb k k' then (Some (k', v'), t)
      else let '(n, t') := mm_extract k t in (n, (k', v') :: t')
  end.
(** Inserting an empty node handle does nothing. *)
Definition mm_insert_node {T} (n : option (key2 * T)) (m : dds T) : dds T :=
  match n with Some (k, v) => mm_insert k v m | None => m end.
(** DistributedDataShared.hpp:95-97 *)
Definition dds_add_obj {T} (l r : Z) (v : T) (m : dds T) : dds T := mm_insert (l, r) v m.
(** DistributedDataShared.hpp:110-121 (the sequence of callback arguments) *)
Definition dds_for_each {T} (m : dds T) : list (key2 * T) := m.
(** DistributedDataShared.hpp:171-173 *)
Definition dds_has_key {T} (l r : Z) (m : dds T) : bool := existsb (fun p => k2_eqb (l, r) (fst p)) m.
(** DistributedDataShared.hpp:180 *)
Definition dds_count {T} (m : dds T) : nat := length m.
(** DistributedDataShared.hpp:200-218 *)
Definition dds_map {T U} (f : Z -> Z -> T -> U) (m : dds T) : dds U :=
  fold_left (fun r p => dds_add_obj (fst (fst p)) (snd (fst p))
                          (f (fst (fst p)) (snd (fst p)) (snd p)) r) (dds_for_each m) [].
(** DistributedDataShared.hpp:139-156; [other] is a different object. *)
Definition dds_tranfer_all {T} (cd : Z -> Z -> bool) (data other : dds T) : dds T * dds T :=
  let occurences :=
    flat_map (fun p => if cd (fst (fst p)) (snd (fst p)) then [fst p] else []) data in
  fold_left (fun st p =>
      let '(d, o) := st in
      let '(n, d') := mm_extract p d in
      (d', mm_insert_node n o)) occurences (data, other).
(** Any history of additions. *)
Definition dds_build {T} (l : list (key2 * T)) : dds T :=
  fold_left (fun m p => dds_add_obj (fst (fst p)) (snd (fst p)) (snd p) m) l [].
