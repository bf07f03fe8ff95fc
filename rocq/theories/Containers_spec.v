(** Specifications used in the statements about Containers.v: plain list stacks, partial
    functions, and the list of values stored under a key. *)
From Verif Require Import Base Containers.
Local Open Scope Z_scope.

(** Specification: a stack is a list; pushing on a full stack or popping/reading an
    empty one is outside the contract ([None]). *)
Definition spec_step {T} (cap : nat) (o : fs_op T) (l : list T) : option (fs_obs T * list T) :=
  match o with
  | FsPush v => if (length l <? cap)%nat then Some (ObUnit, v :: l) else None
  | FsPop => match l with [] => None | _ :: t => Some (ObUnit, t) end
  | FsPopRet => match l with [] => None | v :: t => Some (ObVal v, t) end
  | FsTop => match l with [] => None | v :: t => Some (ObVal v, l) end
  | FsSize => Some (ObNat (length l), l)
  | FsEmpty => Some (ObBool (match l with [] => true | _ => false end), l)
  end.
Fixpoint spec_run {T} (cap : nat) (ops : list (fs_op T)) (l : list T)
  : option (list (fs_obs T) * list T) :=
  match ops with
  | [] => Some ([], l)
  | o :: t => match spec_step cap o l with
              | None => None
              | Some (b, l') => match spec_run cap t l' with
                                | None => None
                                | Some (bs, l'') => Some (b :: bs, l'')
                                end
              end
  end.

Definition dd_sorted {T} (m : dd T) : Prop := StronglySorted Z.lt (map fst m).

(** Specification: a partial function from ids. *)
Definition spec_dd_step {T} (o : dd_op T) (f : Z -> option T) : Z -> option T :=
  match o with
  | DAdd k v => fun x => if x =? k then match f k with Some w => Some w | None => Some v end else f x
  | DErase k => fun x => if x =? k then None else f x
  | DReset => fun _ => None
  end.
Definition spec_dd_run {T} (ops : list (dd_op T)) : Z -> option T :=
  fold_left (fun f o => spec_dd_step o f) ops (fun _ => None).

Definition k2_le (a b : key2) : Prop := k2_ltb b a = false.

Definition dds_sorted {T} (m : dds T) : Prop := StronglySorted k2_le (map fst m).

(** The values stored under a key, in iteration order. *)
Definition dds_vals {T} (k : key2) (m : dds T) : list T :=
  map snd (filter (fun p => k2_eqb k (fst p)) m).

