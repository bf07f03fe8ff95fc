(** What a user expects from PatchDataLayer: a list of objects.  An object has one row of values per
    field; the calls move whole objects, and the fields stay aligned. *)
From Verif Require Import Base Scan_spec Reduction Layer.
Local Open Scope nat_scope.

(** Layout: type tag and number of variables per object of each field. *)
Definition layout := list (nat * nat).
Definition object (A : Type) := list (list A).
Definition shaped {A} (lay : layout) (o : object A) : Prop :=
  Forall2 (fun d row => length row = snd d) lay o.

(** The field number [k] of a list of objects, flattened: object after object. *)
Definition column {A} (k : nat) (os : list (object A)) : list A :=
  flat_map (fun o => nth k o []) os.

(** [L] stores exactly the objects [os]. *)
Definition stores {A} (lay : layout) (os : list (object A)) (L : layer A) : Prop :=
  Forall (shaped lay) os /\
  L = map (fun '(k, (ty, nv)) => Field ty nv (column k os)) (combine (seq 0 (length lay)) lay).

(** The objects with the given numbers; the objects whose number is not in the list. *)
Definition pick {X} (l : list X) (ids : list nat) : list X :=
  flat_map (fun i => match nth_error l i with Some x => [x] | None => [] end) ids.
Definition without {X} (l : list X) (ids : list nat) : list X :=
  pick l (filter (fun i => negb (if in_dec Nat.eq_dec i ids then true else false)) (seq 0 (length l))).
Definition valid_ids {X} (l : list X) (ids : list nat) : Prop := Forall (fun i => i < length l) ids.

(** One layer of the expected state. *)
Definition slayer (A : Type) := (layout * list (object A))%type.
Definition live {A} (s : list (slayer A)) (h : nat) (lay : layout) (os : list (object A)) : Prop :=
  nth_error s h = Some (lay, os).
Definition set {A} (s : list (slayer A)) (h : nat) (lay : layout) (os : list (object A)) := upd s h (lay, os).

(** A list of n objects that agrees with [os] as far as both go. *)
Definition resized {A} (lay : layout) (n : nat) (os os' : list (object A)) : Prop :=
  length os' = n /\ Forall (shaped lay) os' /\ firstn (length os) os' = firstn n os.

(** [spec_op c s r]: the call [c] in state [s] may end with [r]: [Some s'] a normal return, [None] an
    exception, the state being unchanged. *)
Inductive spec_op {A} : lop A -> list (slayer A) -> option (list (slayer A)) -> Prop :=
| S_resize E h n s lay os os' : live s h lay os -> resized lay n os os' ->
    spec_op (Resize E h n) s (Some (set s h lay os'))
| S_expand E h n s lay os os' : live s h lay os -> resized lay (length os + n) os os' ->
    spec_op (Expand E h n) s (Some (set s h lay os'))
| S_remap E h ids s lay os : live s h lay os -> length ids = length os ->
    spec_op (IndexRemap E h ids) s (Some (set s h lay (pick os ids)))
| S_remap_fail E h ids s lay os : live s h lay os -> length ids <> length os ->
    spec_op (IndexRemap E h ids) s None
| S_keep E h ids s lay os : live s h lay os ->
    spec_op (KeepIds E h ids) s (Some (set s h lay (pick os ids)))
| S_remove E h ids s lay os : live s h lay os -> NoDup ids ->
    spec_op (RemoveIds E h ids) s (Some (set s h lay (without os ids)))
| S_remove_fail E h ids s lay os : live s h lay os ->
    ~ NoDup ids \/ (2 ^ 31 <= Z.of_nat (length os))%Z ->
    spec_op (RemoveIds E h ids) s None
| S_insert E h k s lay os ps : live s h lay os -> live s k lay ps -> h <> k ->
    spec_op (Insert E h k) s (Some (set s h lay (os ++ ps)))
| S_insert_self E h s lay os : live s h lay os -> spec_op (Insert E h h) s None
| S_overwrite E h k n s lay os ps : live s h lay os -> live s k lay ps -> n <= length os -> n <= length ps ->
    spec_op (Overwrite E h k n) s (Some (set s h lay (firstn n ps ++ skipn n os)))
| S_overwrite_fail E h k n s lay os ps : live s h lay os -> live s k lay ps ->
    length os < n \/ length ps < n -> spec_op (Overwrite E h k n) s None
| S_append E h k ids s lay os ps : live s h lay os -> live s k lay ps ->
    spec_op (AppendSubset E h k ids) s (Some (set s k lay (ps ++ pick os ids)))
| S_extract E E' h k ids s lay os ps : live s h lay os -> live s k lay ps -> h <> k ->
    spec_op (Extract E E' h k ids) s
      (Some (set (set s h lay (without os ids)) k lay (ps ++ pick os ids)))
| S_extract_self E E' h ids s lay os : live s h lay os -> spec_op (Extract E E' h h ids) s None.

(** Ranges in which the calls are used: every layout has at least one field and no field without
    variables; all the values of a field can be counted by a u32; object numbers exist; the two layers
    of a call have the same layout.  The objects given to extract_elements are different and less than
    2^31 (otherwise see [C36_extract_duplicates_refuted]). *)
Definition good_env {A} (e : env A) : Prop :=
  (forall n, Permutation (v_order e n) (seq 0 n)) /\
  (forall n, Permutation (ce_order (v_compact e) n) (seq 0 n)) /\
  (forall n, length (ce_garbage (v_compact e) n) = n) /\
  (forall flags n, n <= length flags -> (Z.of_nat n < 2 ^ 32)%Z -> Forall (fun b => b = 0%Z \/ b = 1%Z) flags ->
     ce_scan (v_compact e) flags n = Ok (excl_spec flags n)).
Definition good_envs {A} (E : lenv A) : Prop := forall k, good_env (E k).
Definition fits (lay : layout) (n : nat) : Prop :=
  (Z.of_nat n < 2 ^ 32)%Z /\ Forall (fun d => (Z.of_nat (n * snd d) < 2 ^ 32)%Z) lay.
Definition good_layout (lay : layout) : Prop := lay <> [] /\ Forall (fun d => 0 < snd d) lay.

Definition arg_ok {A} (c : lop A) (s : list (slayer A)) : Prop :=
  match c with
  | Resize E h n => good_envs E /\ exists lay os, live s h lay os /\ fits lay n
  | Expand E h n => good_envs E /\ exists lay os, live s h lay os /\ fits lay (length os + n)
  | IndexRemap E h ids | RemoveIds E h ids =>
      good_envs E /\ exists lay os, live s h lay os /\ valid_ids os ids
  | KeepIds E h ids => good_envs E /\ exists lay os, live s h lay os /\ valid_ids os ids /\ fits lay (length ids)
  | Insert E h k => good_envs E /\ exists lay os ps, live s h lay os /\ live s k lay ps /\
      fits lay (length os + length ps)
  | Overwrite E h k n => h <> k /\ good_envs E /\ exists lay os ps, live s h lay os /\ live s k lay ps /\ fits lay n
  | AppendSubset E h k ids => h <> k /\ good_envs E /\ exists lay os ps, live s h lay os /\ live s k lay ps /\
      valid_ids os ids /\ fits lay (length ps + length ids)
  | Extract E E' h k ids => good_envs E /\ good_envs E' /\ exists lay os ps, live s h lay os /\ live s k lay ps /\
      valid_ids os ids /\ NoDup ids /\ (Z.of_nat (length os) < 2 ^ 31)%Z /\ fits lay (length ps + length ids)
  end.

Inductive spec_run {A} : list (lop A) -> list (slayer A) -> list (slayer A) -> list bool -> Prop :=
| SR_nil s : spec_run [] s s []
| SR_ok c t s s' q l : spec_op c s (Some s') -> spec_run t s' q l -> spec_run (c :: t) s q (true :: l)
| SR_throw c t s q l : spec_op c s None -> spec_run t s q l -> spec_run (c :: t) s q (false :: l).
Inductive args_ok {A} : list (lop A) -> list (slayer A) -> Prop :=
| AO_nil s : args_ok [] s
| AO_cons c t s : arg_ok c s ->
    (forall s', spec_op c s (Some s') -> args_ok t s') ->
    (spec_op c s None -> args_ok t s) -> args_ok (c :: t) s.

(** The layers of the program against the expected ones. *)
Definition same_layers {A} (s : list (slayer A)) (S : list (layer A)) : Prop :=
  Forall2 (fun x L => good_layout (fst x) /\ fits (fst x) (length (snd x)) /\ stores (fst x) (snd x) L) s S.
