(** PatchDataField (src/shamrock/include/shamrock/patch/PatchDataField.hpp,
    src/shamrock/src/patch/PatchDataField.cpp) and PatchDataLayer
    (src/shamrock/src/patch/PatchDataLayer.cpp).  Definitions only.
    Simplifications: a sham::DeviceBuffer is represented by its contents (C35 shows that this is what
    it behaves like; allocation failures are not modelled here); the values of all the field types are
    one type [A], a field carries the tag of its C++ type; names are left out.
    u32 arithmetic wraps with [w32n]. *)
From Verif Require Import Base Par Scan Reduction.
Local Open Scope nat_scope.

Definition w32n (x : nat) : nat := Z.to_nat (w32 (Z.of_nat x)).
(** shambase::narrow_or_throw<u32>, src/shambase/include/shambase/narrowing.hpp (see Integer.v) *)
Definition narrow_u32 (x : nat) : res nat := if (Z.of_nat x <? 2 ^ 32)%Z then Ok x else Throw.

(** What a C++ call leaves behind: it returned, or it threw, in both cases with the resulting state of
    the objects it works on; or its behaviour is undefined. *)
Inductive eres (S : Type) := Ret (s : S) | Raise (s : S) | Undef.
Arguments Ret {S}. Arguments Raise {S}. Arguments Undef {S}.
(** A call that modifies its objects only once nothing can throw any more. *)
Definition atomically {S} (s : S) (r : res S) : eres S :=
  match r with Ok s' => Ret s' | Throw => Raise s | UB => Undef end.
Definition ethen {S} (m : eres S) (k : S -> eres S) : eres S :=
  match m with Ret s => k s | Raise s => Raise s | Undef => Undef end.

Section Fields.
Context {A : Type}.

(** PatchDataField.hpp:81-85. *)
Record field := Field { f_ty : nat; f_nvar : nat; f_buf : list A }.
Definition with_buf (f : field) (b : list A) : field := Field (f_ty f) (f_nvar f) b.

(** What is not determined by the arguments of a call: contents of new memory, order of the work
    items of a kernel of n items, and the same for stream_compact. *)
Record env := { v_mem : nat -> A; v_order : nat -> list nat; v_compact : compact_env }.

(** DeviceBuffer::resize keeping the data (C35): the new cells are unspecified. *)
Definition buf_resize (g : nat -> A) (n : nat) (l : list A) : list A :=
  firstn n l ++ map g (seq 0 (n - length l)).

(** PatchDataField.hpp:181-190 [get_obj_cnt], 201-203 [get_val_cnt]. *)
Definition get_obj_cnt (f : field) : res nat :=
  if f_nvar f =? 0 then UB else
  if negb (length (f_buf f) mod f_nvar f =? 0) then Throw
  else narrow_u32 (length (f_buf f) / f_nvar f).
Definition get_val_cnt (f : field) : res nat := narrow_u32 (length (f_buf f)).

(** PatchDataField.hpp:563-566 [resize], 576-578 [expand], 581-590 [shrink]. *)
Definition resize (e : env) (n : nat) (f : field) : res field :=
  sz <- narrow_u32 (n * f_nvar f) ;; Ok (with_buf f (buf_resize (v_mem e) sz (f_buf f))).
Definition expand (e : env) (n : nat) (f : field) : res field :=
  c <- get_obj_cnt f ;; resize e (w32n (c + n)) f.
Definition shrink (e : env) (n : nat) (f : field) : res field :=
  c <- get_obj_cnt f ;; if c <? n then Throw else resize e (c - n) f.

(** PatchDataField.hpp:592-596 [overwrite]: DeviceBuffer::copy_from (C35) checks both sizes.  The
    number of values is a u32 product. *)
Definition overwrite (other : field) (n : nat) (f : field) : res field :=
  let k := w32n (n * f_nvar other) in
  if negb ((k <=? length (f_buf f)) && (k <=? length (f_buf other))) then Throw
  else Ok (with_buf f (firstn k (f_buf other) ++ skipn k (f_buf f))).
(** PatchDataField.hpp:615-619 [override(val)]: DeviceBuffer::fill narrows the size to i32 (C35). *)
Definition override (v : A) (f : field) : res field :=
  if (Z.of_nat (length (f_buf f)) <? 2 ^ 31)%Z then Ok (with_buf f (repeat v (length (f_buf f)))) else Throw.

(** The kernel copying whole objects: shamalgs/src/primitives/append_subset_to.cpp:62-74, and
    shamalgs/src/details/algorithm/algorithm.cpp:119-127 (start = 0): item [gid] copies object
    ids[gid] of [src] to the object slot [gid] after [start]. *)
Definition rows_item (nvar start : nat) (ids : list nat) (src : list A) (gid : nat) (dst : list A)
  : res (list A) :=
  id <- aget ids gid ;;
  let idx_extr := w32n (id * nvar) in
  let idx_push := w32n (start + gid * nvar) in
  rfold (fun a dst => v <- aget src (w32n (idx_extr + a)) ;; aset dst (w32n (idx_push + a)) v)
        (seq 0 nvar) dst.

(** PatchDataField.cpp:126-148 [append_subset_to] on another field. *)
Definition append_subset_to (e : env) (ids : list nat) (sz : nat) (f to : field) : res field :=
  if negb (f_nvar to =? f_nvar f) then Throw
  else if negb (sz =? length ids) then Throw
  else if 0 <? sz then
    start <- get_val_cnt to ;;
    to' <- expand e sz to ;;
    cnt <- narrow_u32 (length ids) ;;
    b <- kernel_call cnt (v_order e cnt) (rows_item (f_nvar f) start ids (f_buf f)) (f_buf to') ;;
    Ok (with_buf to' b)
  else Ok to.

(** PatchDataField.cpp:219-222 [insert]: DeviceBuffer::append (C35) of another buffer; its size is
    truncated to u32, and so is the number of values already there. *)
Definition insert (other f : field) : res field :=
  let k := w32n (length (f_buf other)) in
  if k =? 0 then Ok f else
  if (Z.of_nat (length (f_buf f)) <? 2 ^ 32)%Z
  then Ok (with_buf f (f_buf f ++ firstn k (f_buf other)))
  else UB. (* out of the model: see C35 *)

(** PatchDataField.cpp:175-198 [insert_element]. *)
Definition insert_element (e : env) (v : A) (f : field) : res field :=
  if negb (f_nvar f =? 1) then Throw else
  pos <- get_val_cnt f ;;
  f' <- expand e 1 f ;;
  b <- aset (f_buf f') pos v ;; Ok (with_buf f' b).

(** algorithm.cpp:77-101 [index_remap], 104-134 [index_remap_nvar], with the fresh destinations of
    algorithm.hpp:138-160. *)
Definition alg_index_remap (e : env) (src : list A) (ids : list nat) (len : nat) : res (list A) :=
  par_write (fun i => k <- aget ids i ;; aget src k) (v_order e len) (map (v_mem e) (seq 0 len)).
Definition alg_index_remap_nvar (e : env) (src : list A) (ids : list nat) (len nvar : nat) : res (list A) :=
  par_for (v_order e len) (rows_item nvar 0 ids src) (map (v_mem e) (seq 0 (w32n (len * nvar)))).

(** PatchDataField.cpp:224-241 [index_remap_resize], 243-256 [index_remap]. *)
Definition index_remap_resize (e : env) (ids : list nat) (len : nat) (f : field) : res field :=
  match f_buf f with
  | [] => Ok f
  | _ => b <- (if f_nvar f =? 1 then alg_index_remap e (f_buf f) ids len
               else alg_index_remap_nvar e (f_buf f) ids len (f_nvar f)) ;;
         Ok (with_buf f b)
  end.
Definition index_remap (e : env) (ids : list nat) (len : nat) (f : field) : res field :=
  c <- get_obj_cnt f ;; if negb (len =? c) then Throw else index_remap_resize e ids len f.

(** PatchDataField.cpp:258-289 [permut_vars]; the kernel reads a copy of the buffer. *)
Definition permut_vars (e : env) (permut : list nat) (f : field) : res field :=
  if negb (length permut =? f_nvar f) then Throw else
  n <- get_val_cnt f ;;
  b <- kernel_call n (v_order e n)
         (fun i dst => nv <- aget permut (i mod f_nvar f) ;; v <- aget (f_buf f) i ;;
                       aset dst (w32n (i / f_nvar f * f_nvar f + nv)) v) (f_buf f) ;;
  Ok (with_buf f b).

(** PatchDataField.cpp:291-369 [remove_ids]. *)
Definition remove_ids (e : env) (ids : list nat) (len : nat) (f : field) : res field :=
  nobj <- get_obj_cnt f ;;
  if nobj <? len then Throw else
  if len =? 0 then Ok f else
  if negb (Z.of_nat nobj <? 2 ^ 31)%Z then Throw else (* keep_flag.fill(1) *)
  flags <- kernel_call len (v_order e len) (fun i m => k <- aget ids i ;; aset m k 0%Z) (repeat 1%Z nobj) ;;
  let ce := v_compact e in
  keep <- stream_compact_excl_scan (ce_scan ce) (ce_order ce nobj) (ce_garbage ce) flags nobj ;;
  if negb (length keep =? nobj - len) then Throw
  else index_remap_resize e keep (nobj - len) f.

(** PatchDataField.cpp:99-109 [extract_elements] into another field.  The destination has already
    grown when remove_ids throws. *)
Definition extract_elements (e e' : env) (ids : list nat) (f to : field) : eres (field * field) :=
  ethen (atomically (f, to) (to' <- append_subset_to e ids (w32n (length ids)) f to ;; Ok (f, to')))
        (fun '(f, to) => atomically (f, to) (f' <- remove_ids e' ids (w32n (length ids)) f ;; Ok (f', to))).

(** PatchDataField.cpp:46-97 [extract_element] into another field: for each variable of the object,
    from the last one, the value is moved to the destination and replaced by the last value of the
    field.  [expand] and [shrink] happen before and after. *)
Definition extract_loop (nvar idx_val idx_out from_sz : nat) (from to : list A) : res (list A * list A) :=
  rfold (fun i '(from, to) =>
           last <- aget from (from_sz - 1) ;;
           v <- aget from (idx_val + i) ;;
           from' <- aset from (idx_val + i) last ;;
           to' <- aset to (idx_out + i) v ;; Ok (from', to'))
        (rev (seq 0 nvar)) (from, to).
Definition extract_element (e e' : env) (pidx : nat) (f to : field) : eres (field * field) :=
  atomically (f, to)
    (idx_out <- get_val_cnt to ;;
     from_sz <- get_val_cnt f ;;
     to' <- expand e 1 to ;;
     ' (bf, bt) <- extract_loop (f_nvar f) (w32n (pidx * f_nvar f)) idx_out from_sz (f_buf f) (f_buf to') ;;
     f' <- shrink e' 1 (with_buf f bf) ;; Ok (f', with_buf to' bt)).

(** PatchDataField.hpp:286-306 [get_ids_vec_where]: a host loop; the condition reads value i * nvar. *)
Definition get_ids_vec_where (cond : A -> bool) (f : field) : res (list nat) :=
  n <- get_obj_cnt f ;;
  rfold (fun i acc => v <- aget (f_buf f) (w32n (i * f_nvar f)) ;; Ok (if cond v then acc ++ [i] else acc))
        (seq 0 n) [].
(** PatchDataField.hpp:402-428 [get_ids_where] (also 317-350 and 353-386): on the device. *)
Definition get_ids_where (e : env) (cond : A -> bool) (f : field) : res (list nat) :=
  n <- get_obj_cnt f ;;
  if 0 <? n then
    mask <- kernel_call n (v_order e n)
      (fun i m => v <- aget (f_buf f) (w32n (i * f_nvar f)) ;; aset m i (if cond v then 1%Z else 0%Z))
      (repeat 7%Z n) ;;
    let ce := v_compact e in
    stream_compact_excl_scan (ce_scan ce) (ce_order ce n) (ce_garbage ce) mask n
  else Ok [].

(** * Layers *)
Definition layer := list field.

(** The loops over the fields of PatchDataLayer.cpp: [op k] is applied to field number k; an exception
    stops the loop, the fields already treated stay modified. *)
Fixpoint each (op : nat -> field -> eres field) (k : nat) (L : layer) : eres layer :=
  match L with
  | [] => Ret []
  | f :: t =>
      match op k f with
      | Undef => Undef
      | Raise f' => Raise (f' :: t)
      | Ret f' => match each op (S k) t with
                  | Ret t' => Ret (f' :: t')
                  | Raise t' => Raise (f' :: t')
                  | Undef => Undef
                  end
      end
  end.
(** Loops on the fields of two different layers: the loop runs over the fields of the first one, and
    throws when the types of the fields differ (e.g. PatchDataLayer.cpp:80-101). *)
Fixpoint each2 (op : nat -> field -> field -> eres (field * field)) (k : nat) (L M : layer)
  : eres (layer * layer) :=
  match L, M with
  | [], _ => Ret ([], M)
  | _ :: _, [] => Undef
  | f :: t, g :: u =>
      if negb (f_ty f =? f_ty g) then Raise (L, M) else
      match op k f g with
      | Undef => Undef
      | Raise (f', g') => Raise (f' :: t, g' :: u)
      | Ret (f', g') => match each2 op (S k) t u with
                        | Ret (t', u') => Ret (f' :: t', g' :: u')
                        | Raise (t', u') => Raise (f' :: t', g' :: u')
                        | Undef => Undef
                        end
      end
  end.

(** Environment of a call on a layer: one per field. *)
Definition lenv := nat -> env.
Definition on1 (op : env -> field -> res field) (E : lenv) (L : layer) : eres layer :=
  each (fun k f => atomically f (op (E k) f)) 0 L.
(** Calls that modify the first layer only, resp. the second one only. *)
Definition on2l (op : env -> field -> field -> res field) (E : lenv) (L M : layer) : eres (layer * layer) :=
  each2 (fun k f g => atomically (f, g) (f' <- op (E k) g f ;; Ok (f', g))) 0 L M.
Definition on2r (op : env -> field -> field -> res field) (E : lenv) (L M : layer) : eres (layer * layer) :=
  each2 (fun k f g => atomically (f, g) (g' <- op (E k) f g ;; Ok (f, g'))) 0 L M.

(** PatchDataLayer.cpp:143-150 resize, 161-168 expand, 170-180 index_remap, 192-199 and 205-207
    index_remap_resize / keep_ids, 209-215 remove_ids. *)
Definition l_resize (E : lenv) (n : nat) : layer -> eres layer := on1 (fun e f => resize e n f) E.
Definition l_expand (E : lenv) (n : nat) : layer -> eres layer := on1 (fun e f => expand e n f) E.
Definition l_index_remap (E : lenv) (ids : list nat) : layer -> eres layer :=
  on1 (fun e f => index_remap e ids (length ids) f) E.
Definition l_keep_ids (E : lenv) (ids : list nat) : layer -> eres layer :=
  on1 (fun e f => index_remap_resize e ids (length ids) f) E.
Definition l_remove_ids (E : lenv) (ids : list nat) : layer -> eres layer :=
  on1 (fun e f => remove_ids e ids (length ids) f) E.
(** 103-122 insert_elements, 124-141 overwrite: the first layer is modified. *)
Definition l_insert (E : lenv) : layer -> layer -> eres (layer * layer) :=
  on2l (fun _ g f => insert g f) E.
Definition l_overwrite (E : lenv) (n : nat) : layer -> layer -> eres (layer * layer) :=
  on2l (fun _ g f => overwrite g n f) E.
(** 217-284 append_subset_to: the second layer is modified. *)
Definition l_append_subset_to (E : lenv) (ids : list nat) : layer -> layer -> eres (layer * layer) :=
  on2r (fun e f g => append_subset_to e ids (length ids) f g) E.
(** 80-101 extract_elements, 60-78 extract_element. *)
Definition l_extract_elements (E E' : lenv) (ids : list nat) : layer -> layer -> eres (layer * layer) :=
  each2 (fun k f g => extract_elements (E k) (E' k) ids f g) 0.
Definition l_extract_element (E E' : lenv) (pidx : nat) : layer -> layer -> eres (layer * layer) :=
  each2 (fun k f g => extract_element (E k) (E' k) pidx f g) 0.
(** 314-326 get_obj_cnt, 349-359 check_field_obj_cnt_match. *)
Definition l_get_obj_cnt (L : layer) : res nat :=
  match L with [] => Throw | f :: _ => get_obj_cnt f end.
Definition l_check_obj_cnt (L : layer) : res unit :=
  c <- l_get_obj_cnt L ;;
  rfold (fun f _ => k <- get_obj_cnt f ;; if k =? c then Ok tt else Throw) L tt.

(** ** Programs working on several layers *)
Inductive lop :=
| Resize (E : lenv) (h n : nat)
| Expand (E : lenv) (h n : nat)
| IndexRemap (E : lenv) (h : nat) (ids : list nat)
| KeepIds (E : lenv) (h : nat) (ids : list nat)
| RemoveIds (E : lenv) (h : nat) (ids : list nat)
| Insert (E : lenv) (h other : nat)
| Overwrite (E : lenv) (h other n : nat)
| AppendSubset (E : lenv) (h to : nat) (ids : list nat)
| Extract (E E' : lenv) (h to : nat) (ids : list nat).

Definition on_layer (op : layer -> eres layer) (h : nat) (s : list layer) : eres (list layer) :=
  match nth_error s h with
  | None => Undef
  | Some L => match op L with Ret L' => Ret (upd s h L') | Raise L' => Raise (upd s h L') | Undef => Undef end
  end.
Definition on_layers (op : layer -> layer -> eres (layer * layer)) (h k : nat) (s : list layer) : eres (list layer) :=
  match nth_error s h, nth_error s k with
  | Some L, Some M =>
      if h =? k then Undef else
      match op L M with
      | Ret (L', M') => Ret (upd (upd s h L') k M')
      | Raise (L', M') => Raise (upd (upd s h L') k M')
      | Undef => Undef
      end
  | _, _ => Undef
  end.
(** The same layer twice: insert and extract throw at the first field and change nothing
    (DeviceBuffer.hpp:1223-1226, PatchDataField.cpp:101-104); the others are out of the model. *)
Definition self_throws (h k : nat) (s : list layer) (m : eres (list layer)) : eres (list layer) :=
  if h =? k then match nth_error s h with Some (_ :: _) => Raise s | Some [] => Ret s | None => Undef end
  else m.
Definition run_op (c : lop) (s : list layer) : eres (list layer) :=
  match c with
  | Resize E h n => on_layer (l_resize E n) h s
  | Expand E h n => on_layer (l_expand E n) h s
  | IndexRemap E h ids => on_layer (l_index_remap E ids) h s
  | KeepIds E h ids => on_layer (l_keep_ids E ids) h s
  | RemoveIds E h ids => on_layer (l_remove_ids E ids) h s
  | Insert E h k => self_throws h k s (on_layers (l_insert E) h k s)
  | Overwrite E h k n => on_layers (l_overwrite E n) h k s
  | AppendSubset E h k ids => on_layers (l_append_subset_to E ids) h k s
  | Extract E E' h k ids => self_throws h k s (on_layers (l_extract_elements E E' ids) h k s)
  end.
(** A history; the caller catches the exceptions and goes on. *)
Fixpoint run (cs : list lop) (s : list layer) : res (list layer * list bool) :=
  match cs with
  | [] => Ok (s, [])
  | c :: t =>
      match run_op c s with
      | Ret s' => ' (q, l) <- run t s' ;; Ok (q, true :: l)
      | Raise s' => ' (q, l) <- run t s' ;; Ok (q, false :: l)
      | Undef => UB
      end
  end.
End Fields.
Arguments field : clear implicits.
Arguments env : clear implicits.
Arguments lenv : clear implicits.
Arguments layer : clear implicits.
Arguments lop : clear implicits.
