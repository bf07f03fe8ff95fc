(** Property theorems C23, C24 (see properties.jsonl). *)
From Verif Require Import Base SortSearch SortSearch_spec SortSearch_proofs.
From Coq Require Import ZifyBool ZifyNat.

(** C24: lower bound = first index of the range not less than the value. *)
Theorem C24_lower_bound : forall (A : Type) (ltb : A -> A -> bool) (key : list A) (d v : A) first last,
  strict_weak ltb -> first <= last -> last <= length key -> sorted_by ltb (slice first last key) ->
  exists k, lower_bound ltb key first last v = Ok k /\ first <= k <= last /\
    (forall i, first <= i < k -> ltb (nth i key d) v = true) /\
    (forall i, k <= i < last -> ltb (nth i key d) v = false).
Proof.
  intros A ltb key d v first last SW H1 H2 HS. apply lower_bound_ok; auto.
  intros i j Hi Hij Hj. apply (slice_sorted_nth ltb key d first last); auto.
Qed.
Print Assumptions C24_lower_bound.
Theorem C24_upper_bound : forall (A : Type) (ltb : A -> A -> bool) (key : list A) (d v : A) first last,
  strict_weak ltb -> first <= last -> last <= length key -> sorted_by ltb (slice first last key) ->
  exists k, upper_bound ltb key first last v = Ok k /\ first <= k <= last /\
    (forall i, first <= i < k -> ltb v (nth i key d) = false) /\
    (forall i, k <= i < last -> ltb v (nth i key d) = true).
Proof.
  intros A ltb key d v first last SW H1 H2 HS. apply upper_bound_ok; auto.
  intros i j Hi Hij Hj. apply (slice_sorted_nth ltb key d first last); auto.
Qed.
Print Assumptions C24_upper_bound.
(** C24: range search on a non empty sorted range that covers [vmin, vmax]: the returned indices
    are in range, bracket the interval, and are the tightest such indices. *)
Theorem C24_binary_range_search : forall (key : list Z) first last vmin vmax,
  first < last -> last <= length key -> sorted_by Z.ltb (slice first last key) ->
  (vmin <= vmax)%Z -> (nth first key 0 <= vmin)%Z -> (vmax <= nth (last - 1) key 0)%Z ->
  exists inf sup, binary_range_search key first last vmin vmax = Ok (inf, sup) /\
    first <= inf < last /\ first <= sup < last /\
    (nth inf key 0 <= vmin)%Z /\ (vmax <= nth sup key 0)%Z /\
    (* no element of the range lies strictly between key[inf] and vmin, resp. vmax and key[sup] *)
    (forall i, first <= i < last -> ~ (nth inf key 0 < nth i key 0 < vmin)%Z) /\
    (forall i, first <= i < last -> ~ (vmax < nth i key 0 < nth sup key 0)%Z) /\
    (* every element inside the interval has its index inside the bracket *)
    (forall i, first <= i < last -> (vmin <= nth i key 0 <= vmax)%Z -> inf <= i <= sup).
Proof.
  intros key first last vmin vmax H1 H2 HS Hm H3 H4.
  assert (Hs : forall i j, first <= i -> i < j -> j < last -> (nth i key 0 <= nth j key 0)%Z).
  { intros i j Hi Hij Hj. pose proof (slice_sorted_nth Z.ltb key 0%Z first last i j). specialize (H Zltb_sw H2 HS Hi Hij Hj). lia. }
  destruct (range_search_ok key first last vmin vmax H1 H2 Hs Hm H3 H4)
    as (inf & sup & E & I & S' & B1 & B2 & T1 & T2).
  exists inf, sup. split; auto. split; [auto|]. split; [auto|]. split; [auto|]. split; [auto|].
  split; [|split].
  - intros i Hi Hc. destruct T1 as [[T _]|[T T']]; [lia|].
    destruct (Nat.lt_ge_cases inf i); [specialize (T' i); lia|].
    destruct (Nat.eq_dec i inf); [subst; lia|]. specialize (Hs i inf). lia.
  - intros i Hi Hc. destruct T2 as [[T _]|[T T']]; [lia|].
    destruct (Nat.lt_ge_cases i sup); [specialize (T' i); lia|].
    destruct (Nat.eq_dec i sup); [subst; lia|]. specialize (Hs sup i). lia.
  - intros i Hi Hc. split.
    + destruct (Nat.lt_ge_cases i inf) as [L|]; auto. exfalso. destruct T1 as [[T T']|[T T']].
      * specialize (T' i). lia.
      * specialize (Hs i inf). lia.
    + destruct (Nat.lt_ge_cases sup i) as [L|]; auto. exfalso. destruct T2 as [[T T']|[T T']].
      * specialize (T' i). lia.
      * specialize (Hs sup i). lia.
Qed.
Print Assumptions C24_binary_range_search.
Example C24_nonvacuous :
  strict_weak Z.ltb /\ sorted_by Z.ltb (slice 1 6 [9; 1; 3; 3; 5; 8; 0]%Z) /\
  lower_bound Z.ltb [9; 1; 3; 3; 5; 8; 0]%Z 1 6 3%Z = Ok 2 /\
  upper_bound Z.ltb [9; 1; 3; 3; 5; 8; 0]%Z 1 6 3%Z = Ok 4 /\
  binary_range_search [9; 1; 3; 3; 5; 8; 0]%Z 1 6 4%Z 7%Z = Ok (3, 5).
Proof. split; [apply Zltb_sw|]. split; [|repeat split; reflexivity].
  unfold slice; simpl. unfold sorted_by. repeat (constructor; try (simpl; reflexivity)). Qed.

(** C23: each segment is sorted and permuted in place, everything outside the segments is kept,
    for the insertion-sort (device) kernel and the std::sort (OpenMP) kernel, for any schedule of
    the segments. [srt] is the C++ library sort. *)
Theorem C23_device_sort : forall (A : Type) (comp : A -> A -> bool) order (buf : list A) offsets,
  strict_weak comp -> offsets_ok offsets (length buf) -> offsets <> [] ->
  Permutation order (seq 0 (length offsets - 1)) ->
  exists buf', segmented_sort_in_place (ptr_insert_sort comp) order buf offsets = Ok buf' /\
    length buf' = length buf /\
    (forall g, g + 1 < length offsets ->
       let s := nth g offsets 0 in let e := nth (g + 1) offsets 0 in
       Permutation (slice s e buf') (slice s e buf) /\ sorted_by comp (slice s e buf')) /\
    (forall i, i < nth 0 offsets 0 \/ nth (length offsets - 1) offsets 0 <= i ->
       nth_error buf' i = nth_error buf i).
Proof.
  intros A comp order buf offsets SW HO HN HP. destruct buf as [|b0 buf].
  - exists []. unfold segmented_sort_in_place. simpl. split; auto. split; auto. split; auto.
    intros g Hg. cbv zeta. unfold slice. rewrite skipn_nil, firstn_nil. split; constructor.
  - apply segmented_ok; auto; [now apply insert_range_ok|discriminate].
Qed.
Print Assumptions C23_device_sort.
Theorem C23_host_sort : forall (A : Type) (comp : A -> A -> bool) (srt : list A -> list A) order (buf : list A) offsets,
  (forall l, Permutation (srt l) l /\ sorted_by comp (srt l)) ->
  offsets_ok offsets (length buf) -> offsets <> [] ->
  Permutation order (seq 0 (length offsets - 1)) ->
  exists buf', segmented_sort_in_place (std_sort_range srt) order buf offsets = Ok buf' /\
    length buf' = length buf /\
    (forall g, g + 1 < length offsets ->
       let s := nth g offsets 0 in let e := nth (g + 1) offsets 0 in
       Permutation (slice s e buf') (slice s e buf) /\ sorted_by comp (slice s e buf')) /\
    (forall i, i < nth 0 offsets 0 \/ nth (length offsets - 1) offsets 0 <= i ->
       nth_error buf' i = nth_error buf i).
Proof.
  intros A comp srt order buf offsets HS HO HN HP. destruct buf as [|b0 buf].
  - exists []. unfold segmented_sort_in_place. simpl. split; auto. split; auto. split; auto.
    intros g Hg. cbv zeta. unfold slice. rewrite skipn_nil, firstn_nil. split; constructor.
  - apply segmented_ok; auto; [now apply std_range_ok|discriminate].
Qed.
Print Assumptions C23_host_sort.
(** The two instantiations of the library, u32 and u32_2, give the same buffer with either
    implementation and any two schedules. *)
Theorem C23_implementations_agree : forall (buf : list Z) (buf2 : list (Z * Z)) srt srt2 offsets o1 o2,
  (forall l, Permutation (srt l) l /\ sorted_by comp_u32 (srt l)) ->
  (forall l, Permutation (srt2 l) l /\ sorted_by comp_u32_2 (srt2 l)) ->
  offsets <> [] ->
  Permutation o1 (seq 0 (length offsets - 1)) -> Permutation o2 (seq 0 (length offsets - 1)) ->
  (offsets_ok offsets (length buf) ->
     exists b, segmented_sort_in_place (ptr_insert_sort comp_u32) o1 buf offsets = Ok b /\
       segmented_sort_in_place (std_sort_range srt) o2 buf offsets = Ok b) /\
  (offsets_ok offsets (length buf2) ->
     exists b, segmented_sort_in_place (ptr_insert_sort comp_u32_2) o1 buf2 offsets = Ok b /\
       segmented_sort_in_place (std_sort_range srt2) o2 buf2 offsets = Ok b).
Proof.
  intros buf buf2 srt srt2 offsets o1 o2 H1 H2 HN P1 P2. split; intros HO.
  - apply (agree_gen comp_u32); auto using comp_u32_sw.
    + unfold comp_u32; intros; lia.
    + apply C23_device_sort; auto using comp_u32_sw.
    + apply C23_host_sort; auto.
  - apply (agree_gen comp_u32_2); auto using comp_u32_2_sw.
    + unfold comp_u32_2; intros [a1 a2] [b1 b2]; simpl; intros;
        destruct (Z.eqb_spec a1 b1), (Z.eqb_spec b1 a1); try lia; f_equal; lia.
    + apply C23_device_sort; auto using comp_u32_2_sw.
    + apply C23_host_sort; auto.
Qed.
Print Assumptions C23_implementations_agree.
(** Degenerate inputs. *)
Theorem C23_degenerate : forall (A : Type) rs order (buf : list A) offsets,
  (buf = [] -> segmented_sort_in_place rs order buf offsets = Ok buf) /\
  (buf <> [] -> offsets = [] -> segmented_sort_in_place rs order buf offsets = Throw).
Proof. intros. split; [intros ->; reflexivity|]. destruct buf; [congruence|]. intros _ ->. reflexivity. Qed.
Print Assumptions C23_degenerate.
Example C23_nonvacuous : strict_weak comp_u32_2 /\ offsets_ok [1; 4; 4; 6] 7 /\
  segmented_sort_in_place (ptr_insert_sort comp_u32) [2; 0; 1] [9; 7; 5; 6; 3; 2; 0]%Z [1; 4; 4; 6]
    = Ok [9; 5; 6; 7; 2; 3; 0]%Z /\
  segmented_sort_in_place (ptr_insert_sort comp_u32_2) [0] [(3, 1); (2, 9); (2, 8)]%Z [0; 3]
    = Ok [(2, 8); (2, 9); (3, 1)]%Z.
Proof. split; [apply comp_u32_2_sw|]. split; [|split; reflexivity].
  split; intros i Hi; simpl in Hi; do 4 (destruct i as [|i]; [simpl; lia|]); lia. Qed.
