(** What a user expects from sham::DeviceBuffer: an array whose new cells are unspecified. *)
From Verif Require Import Base DeviceBuffer.
Local Open Scope Z_scope.

(** An array: [None] is a cell whose content is unspecified. *)
Definition arr A := list (option A).
Definition len {A} (a : list A) : Z := Z.of_nat (length a).

(** Real contents against expected contents. *)
Definition agrees {A} (a : arr A) (l : list A) : Prop :=
  Forall2 (fun x v => match x with Some y => v = y | None => True end) a l.

(** [a] with [l] written at position [pos]. *)
Definition overlay {A} (a : list A) (pos : Z) (l : list A) : list A :=
  firstn (Z.to_nat pos) a ++ l ++ skipn (Z.to_nat pos + length l) a.
Definition sub {A} (a : list A) (b e : Z) : list A :=
  firstn (Z.to_nat (e - b)) (skipn (Z.to_nat b) a).
Definition resized {A} (a : arr A) (n : Z) : arr A :=
  firstn (Z.to_nat n) a ++ repeat None (Z.to_nat n - length a).

(** The only legitimate reasons for an allocating call to fail: the driver refuses, or the request,
    rounded up to the alignment of the device, is larger than the largest allowed allocation. *)
Definition round_up (x m : Z) : Z := (x + m - 1) / m * m.
Definition alignment (E : dev_env) : Z := round_up (e_alignof E) (Z.max (e_base E) 8).
Definition may_refuse {A} (E : dev_env) (o : oracle A) (n : Z) : Prop :=
  o_accept o = false \/ e_max E < round_up (n * e_sizeof E) (alignment E).

(** State of the specification: arrays, [None] once destroyed. *)
Definition sstate A := list (option (arr A)).
Definition live {A} (s : sstate A) (h : nat) (a : arr A) : Prop := nth_error s h = Some (Some a).

(** [spec_op E c s r]: the call [c] in state [s] is allowed to end with [r]: [Some s'] a normal
    return, [None] an exception, the state being unchanged. *)
Inductive spec_op {A} (E : dev_env) : op A -> sstate A -> option (sstate A) -> Prop :=
| S_create o n s : spec_op E (Create o n) s (Some (s ++ [Some (repeat None (Z.to_nat n))]))
| S_create_fail o n s : may_refuse E o n -> spec_op E (Create o n) s None
| S_destroy h a s : live s h a -> spec_op E (Destroy h) s (Some (upd s h None))
| S_resize o h n a s : live s h a ->
    spec_op E (Resize o h n true) s (Some (upd s h (Some (resized a n))))
| S_resize_discard o h n a s : live s h a ->
    spec_op E (Resize o h n false) s (Some (upd s h (Some (repeat None (Z.to_nat n)))))
| S_resize_fail o h n keep a s : live s h a -> may_refuse E o n ->
    spec_op E (Resize o h n keep) s None
| S_append o h k a b s : live s h a -> live s k b -> h <> k ->
    spec_op E (Append o h k) s (Some (upd s h (Some (a ++ b))))
| S_append_self o h a s : live s h a -> spec_op E (Append o h h) s None
| S_append_fail o h k a b s : live s h a -> live s k b -> h <> k ->
    may_refuse E o (len a + len b) -> spec_op E (Append o h k) s None
| S_fill o h v start stop a s : live s h a -> 0 <= start <= stop -> stop <= len a ->
    stop - start < 2 ^ 31 ->
    spec_op E (Fill o h v start stop) s
      (Some (upd s h (Some (overlay a start (repeat (Some v) (Z.to_nat (stop - start)))))))
| S_fill_fail o h v start stop a s : live s h a ->
    ~ (0 <= start <= stop /\ stop <= len a /\ stop - start < 2 ^ 31) ->
    spec_op E (Fill o h v start stop) s None
| S_set h i v a s : live s h a -> 0 <= i < len a ->
    spec_op E (SetVal h i v) s (Some (upd s h (Some (overlay a i [Some v]))))
| S_set_fail h i v a s : live s h a -> len a <= i -> spec_op E (SetVal h i v) s None
| S_fromvec o h vec sz a s : live s h a -> 0 <= sz <= len vec -> sz <= len a ->
    spec_op E (CopyFromVec o h vec sz) s
      (Some (upd s h (Some (overlay a 0 (map Some (firstn (Z.to_nat sz) vec))))))
| S_fromvec_fail o h vec sz a s : live s h a -> len vec < sz \/ len a < sz ->
    spec_op E (CopyFromVec o h vec sz) s None
| S_from o h k n a b s : live s h a -> live s k b -> 0 <= n <= len a -> n <= len b ->
    spec_op E (CopyFrom o h k n) s (Some (upd s h (Some (overlay a 0 (sub b 0 n)))))
| S_from_fail o h k n a b s : live s h a -> live s k b -> len a < n \/ len b < n ->
    spec_op E (CopyFrom o h k n) s None
| S_range o h b0 e0 k off a b s : live s h a -> live s k b -> h <> k ->
    0 <= b0 <= e0 -> e0 <= len a -> 0 <= off -> off + (e0 - b0) <= len b ->
    spec_op E (CopyRange o h b0 e0 k off) s (Some (upd s k (Some (overlay b off (sub a b0 e0)))))
| S_range_self o h b0 e0 off a s : live s h a -> spec_op E (CopyRange o h b0 e0 h off) s None
| S_range_fail o h b0 e0 k off a b s : live s h a -> live s k b ->
    ~ (b0 <= e0 /\ e0 <= len a /\ off + (e0 - b0) <= len b) ->
    spec_op E (CopyRange o h b0 e0 k off) s None.

(** Arguments in the range of their C++ types, and sizes for which byte counts do not overflow
    size_t: twice the bytes requested, plus twice the alignment, fit in 64 bits; sizes of appended
    buffers fit in u32. *)
Definition fits (E : dev_env) (n : Z) : Prop :=
  0 <= n /\ 2 * (n * e_sizeof E) + 2 * alignment E < 2 ^ 64.
Definition good_oracle {A} (o : oracle A) : Prop := forall n, Permutation (o_order o n) (seq 0 n).
Definition arg_ok {A} (E : dev_env) (c : op A) (s : sstate A) : Prop :=
  match c with
  | Create o n => fits E n /\ good_oracle o
  | Destroy h => exists a, live s h a
  | Resize o h n _ => fits E n /\ good_oracle o /\ exists a, live s h a
  | Append o h k => good_oracle o /\ exists a b, live s h a /\ live s k b /\
      fits E (len a + len b) /\ len a < 2 ^ 32 /\ len b < 2 ^ 32
  | Fill o h _ start stop => good_oracle o /\ (exists a, live s h a) /\
      0 <= start < 2 ^ 63 /\ 0 <= stop < 2 ^ 63
  | SetVal h i _ => 0 <= i /\ exists a, live s h a
  | CopyFromVec o h _ sz => good_oracle o /\ 0 <= sz /\ exists a, live s h a
  | CopyFrom o h k n => good_oracle o /\ 0 <= n /\ exists a b, live s h a /\ live s k b
  | CopyRange o h b0 e0 k off => good_oracle o /\ 0 <= b0 /\ 0 <= e0 /\ 0 <= off /\
      exists a b, live s h a /\ live s k b
  end.

(** A device and an element type as they exist. *)
Definition env_ok (E : dev_env) : Prop :=
  1 <= e_sizeof E <= 2 ^ 30 /\ 1 <= e_alignof E < 2 ^ 32 /\ 1 <= e_base E < 2 ^ 32 /\
  (8 <= e_base E \/ e_base E = 1 \/ e_base E = 2 \/ e_base E = 4) /\ 0 <= e_max E < 2 ^ 64.

(** A history of calls with the expected states: [true] for a normal return, [false] for an
    exception. *)
Inductive spec_run {A} (E : dev_env) : list (op A) -> sstate A -> sstate A -> list bool -> Prop :=
| SR_nil s : spec_run E [] s s []
| SR_ok c t s s' q l : spec_op E c s (Some s') -> spec_run E t s' q l ->
    spec_run E (c :: t) s q (true :: l)
| SR_throw c t s q l : spec_op E c s None -> spec_run E t s q l ->
    spec_run E (c :: t) s q (false :: l).
(** The arguments are in range all along the expected history. *)
Inductive args_ok {A} (E : dev_env) : list (op A) -> sstate A -> Prop :=
| AO_nil s : args_ok E [] s
| AO_cons c t s : arg_ok E c s ->
    (forall s', spec_op E c s (Some s') -> args_ok E t s') ->
    (spec_op E c s None -> args_ok E t s) -> args_ok E (c :: t) s.

(** The real program state against the expected one. *)
Definition same_contents {A} (s : sstate A) (p : prog A) : Prop :=
  Forall2 (fun x y => match x, y with
    | Some a, Some b => 0 <= size b /\ len a = size b /\ agrees a (firstn (Z.to_nat (size b)) (mem b)) 
    | None, None => True
    | _, _ => False end) s (p_store p).
(** The bytes held by the live buffers ([DeviceBuffer::get_mem_usage], hpp:453). *)
Definition held {A} (p : prog A) : Z :=
  fold_right (fun x acc => match x with Some b => st_bytes b + acc | None => acc end) 0 (p_store p).
