(** Binary searches, insertion sort and segmented sort.  Definitions only.
    u32 indices are modelled as [nat]; under the preconditions of the theorems
    (first <= last < 2^32) no u32 operation of these functions wraps. *)
From Verif Require Import Base.

(** src/shamalgs/include/shamalgs/primitives/lower_bound.hpp:24-40 and
    upper_bound.hpp:24-40: the same loop, with test [key < value], resp. [key <= value].
    [fuel] bounds the number of iterations; running out would be non termination ([UB]). *)
Fixpoint bsearch_loop {A} (go_right : A -> bool) (key : list A) (fuel first length : nat) : res nat :=
  match length with
  | O => Ok first
  | _ =>
    match fuel with
    | O => UB
    | S fuel' =>
        let rem := length mod 2 in
        let length := length / 2 in
        k <- aget key (first + length) ;;
        bsearch_loop go_right key fuel' (if go_right k then first + (length + rem) else first) length
    end
  end.
Definition lower_bound {A} (ltb : A -> A -> bool) (key : list A) (first last : nat) (value : A) : res nat :=
  if last <? first then UB (* u32 wrap of last - first *) else
  bsearch_loop (fun k => ltb k value) key (last - first) first (last - first).
(** [k <= value] is modelled as [not (value < k)] (integer and float keys without NaN). *)
Definition upper_bound {A} (ltb : A -> A -> bool) (key : list A) (first last : nat) (value : A) : res nat :=
  if last <? first then UB else
  bsearch_loop (fun k => negb (ltb value k)) key (last - first) first (last - first).

(** src/shamalgs/include/shamalgs/primitives/binary_range_search.hpp:58-87; keys are integers. *)
Definition binary_range_search (key : list Z) (first last : nat) (value_min value_max : Z) : res (nat * nat) :=
  if negb (value_min <=? value_max)%Z then UB else
  pre <- (if first <? last then
            k0 <- aget key first ;; k1 <- aget key (last - 1) ;;
            Ok ((k0 <=? value_min)%Z && (value_max <=? k1)%Z)
          else Ok true) ;;
  if negb pre then UB (* SHAM_ASSERT, lines 68-70 *) else
  inf <- lower_bound Z.ltb key first last value_min ;;
  sup <- upper_bound Z.ltb key first last value_max ;;
  inf <- (if (first <? inf) && (inf <? last) then
            k <- aget key inf ;; Ok (inf - (if (value_min <? k)%Z then 1 else 0))
          else Ok inf) ;;
  sup <- (if (first <? sup) && (sup <=? last) then
            k <- aget key (sup - 1) ;; Ok (sup - (if (k =? value_max)%Z then 1 else 0))
          else Ok sup) ;;
  Ok (inf, sup).

(** The while loop of src/shambase/include/shambase/alg_primitives.hpp:38-42: returns the array
    and the final j. *)
Fixpoint shift_loop {A} (comp : A -> A -> bool) (key : A) (start j : nat) (data : list A) : res (list A * nat) :=
  match j with
  | O => Ok (data, O)
  | S j' =>
      if start <? j then
        d <- aget data j' ;;
        if comp key d then
          data' <- aset data j d ;; shift_loop comp key start j' data'
        else Ok (data, j)
      else Ok (data, j)
  end.
(** One iteration of the for loop, alg_primitives.hpp:36-44. *)
Definition insert_step {A} (comp : A -> A -> bool) (start i : nat) (data : list A) : res (list A) :=
  key <- aget data i ;;
  '(data, j) <- shift_loop comp key start i data ;;
  aset data j key.
(** alg_primitives.hpp:34-45 *)
Definition ptr_insert_sort {A} (comp : A -> A -> bool) (data : list A) (start end_ : nat) : res (list A) :=
  rfold (insert_step comp start) (seq (start + 1) (end_ - (start + 1))) data.

(** Body of the kernels of src/shamalgs/src/primitives/segmented_sort_in_place.cpp:40-60 and 77-97,
    for a given in-place range sort. *)
Definition segment_body {A} (range_sort : list A -> nat -> nat -> res (list A))
    (count : nat) (offsets : list nat) (gid : nat) (buf : list A) : res (list A) :=
  s <- aget offsets gid ;;
  e <- aget offsets (gid + 1) ;;
  if e <? s then UB (* SHAM_ASSERT *) else
  if s =? e then Ok buf else
  if (s <? count) && (e <=? count) then range_sort buf s e else UB (* SHAM_ASSERT *).
(** std::sort on a sub-range: replaces the range by [srt] of it; [srt] is the library function,
    of which the theorems only assume that it returns a sorted permutation. *)
Definition std_sort_range {A} (srt : list A -> list A) (buf : list A) (s e : nat) : res (list A) :=
  if e <=? length buf then
    Ok (firstn s buf ++ srt (firstn (e - s) (skipn s buf)) ++ skipn e buf)
  else UB.
(** segmented_sort_in_place.cpp:167-191; [order] is the execution order of the segments
    (SYCL kernel or OpenMP loop). *)
Definition segmented_sort_in_place {A} (range_sort : list A -> nat -> nat -> res (list A))
    (order : list nat) (buf : list A) (offsets : list nat) : res (list A) :=
  if length buf =? 0 then Ok buf else
  if length offsets =? 0 then Throw else
  par_for order (segment_body range_sort (length buf) offsets) buf.
(** The comparators of segmented_sort_in_place.cpp:197-199 and 205-207. *)
Definition comp_u32_2 (a b : Z * Z) : bool :=
  if (fst a =? fst b)%Z then (snd a <? snd b)%Z else (fst a <? fst b)%Z.
Definition comp_u32 (a b : Z) : bool := (a <? b)%Z.
