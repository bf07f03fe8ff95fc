(** Specification vocabulary for the dual tree traversal. *)
From Verif Require Import Base Par Karras Karras_spec Traverse Reduction Scan Scan_spec SortSearch SortSearch_spec Morton_spec BVH BVH_spec Dtt.
Local Open Scope nat_scope.

(** the objects below cell [a], as enumerated by the iterator of the tree *)
Definition cell_objects {C} (B : @bvh C) (a : nat) : list nat :=
  match for_each_in_cell (b_map B) (b_red B) (b_cells B) a with Ok l => l | _ => [] end.
Definition inb (o : nat) (l : list nat) : bool := existsb (Nat.eqb o) l.
(** the number of listed pairs of cells (a, b) with o in a and p in b *)
Definition covering {C} (B : @bvh C) (L : list ipair) (o p : nat) : nat :=
  length (filter (fun ab => inb o (cell_objects B (fst ab)) && inb p (cell_objects B (snd ab))) L).

Definition is_leaf {C} (B : @bvh C) (a : nat) : Prop := length (b_cells B) <= a.
Definition accepts {C} (mac : vec C * vec C -> vec C * vec C -> bool) (B : @bvh C) (a b : nat) (r : bool) : Prop :=
  exists ba bb, box_at B a = Some ba /\ box_at B b = Some bb /\ mac ba bb = r.

(** what the lists of far (m) and near (q) interactions must be *)
Record dtt_correct {C} (mac : vec C * vec C -> vec C * vec C -> bool) (B : @bvh C) (low : bool) (cnt : nat) (m q : list ipair) : Prop := {
  (* every ordered pair of objects is in exactly one interaction *)
  dc_cover : forall o p, o < cnt -> p < cnt -> covering B (m ++ q) o p = 1;
  dc_ids : forall a b, In (a, b) (m ++ q) -> a < total_cell_count B /\ b < total_cell_count B;
  (* the far ones are accepted by the criterion *)
  dc_m2l : forall a b, In (a, b) m -> accepts mac B a b true;
  (* the near ones are not (or the tree has a single leaf) and could not be split further *)
  dc_p2p : forall a b, In (a, b) q -> b_leafs B <> 1 -> accepts mac B a b false;
  dc_low : low = true -> forall a b, In (a, b) q -> is_leaf B a /\ is_leaf B b;
  dc_internal : low = false -> b_leafs B <> 1 -> forall a b, In (a, b) (m ++ q) -> ~ is_leaf B a /\ ~ is_leaf B b;
  dc_stop : low = false -> b_leafs B <> 1 -> forall a b, In (a, b) q ->
    exists x c, (x = a \/ x = b) /\ is_leaf B c /\
      (get_left_child (b_cells B) (length (b_cells B)) x = Ok c \/ get_right_child (b_cells B) (length (b_cells B)) x = Ok c) }.

(** [offs] delimits in L the pairs of each first component *)
Definition grouped (N : nat) (L : list ipair) (offs : list Z) : Prop :=
  length offs = N + 1 /\
  forall g, g < N -> exists s e, nth_error offs g = Some (Z.of_nat s) /\ nth_error offs (g + 1) = Some (Z.of_nat e) /\ s <= e <= length L /\
    forall j ab, nth_error L j = Some ab -> (fst ab = g <-> s <= j < e).

(** the code of a position: interleaving of the bits of grid coordinates that do not decrease along an axis *)
Definition grid_code {C} (leb : C -> C -> bool) (nb : N) (code : vec C -> N) : Prop :=
  exists gx gy gz : C -> N,
    (forall a b, leb a b = true -> (gx a <= gx b /\ gy a <= gy b /\ gz a <= gz b)%N) /\
    (forall p, in_grid nb (gx (cx p), gy (cy p), gz (cz p)) /\ Morton_spec.interleaving nb (code p) (gx (cx p), gy (cy p), gz (cz p))).

(** What the implementations get from the environment: the scans are correct (C19, C20), the work items of every
    kernel run in any order, new memory has the requested size and any contents. *)
(** scan_exclusive_sum_in_place *)
Definition scan_ip_ok (scan : list Z -> nat -> res (list Z)) : Prop :=
  forall buf len, 0 < len -> len <= length buf -> scan buf len = Ok (excl_spec buf len ++ skipn len buf).
(** what the code gets from the environment in one pass over n tasks *)
Record pass_env_ok (n : nat) (e : pass_env) : Prop := {
  po_main : Permutation (pe_main e) (seq 0 n); po_task : Permutation (pe_task e) (seq 0 n);
  po_m2l : Permutation (pe_m2l e) (seq 0 n); po_p2p : Permutation (pe_p2p e) (seq 0 n);
  po_junk : forall k, length (pe_junk e k) = k; po_junkZ : forall k, length (pe_junkZ e k) = k }.
(** scan_exclusive: a new buffer *)
Definition scan_ok (scan : list Z -> nat -> res (list Z)) : Prop :=
  forall buf len, 0 < len -> len <= length buf -> scan buf len = Ok (excl_spec buf len).
(** number of pairs whose first component is below g *)
Definition before (L : list ipair) (g : nat) : nat := length (filter (fun p => fst p <? g) L).
Definition impl_ok (im : seg_impl) : Prop :=
  match im with LocalInsertionSort => True | MultiStdSort srt => forall l, Permutation (srt l) l /\ sorted_by comp_pair (srt l) end.
Record reorder_env_ok (n N : nat) (e : reorder_env) : Prop := {
  ro_count : Permutation (re_count e) (seq 0 n); ro_scatter : Permutation (re_scatter e) (seq 0 n);
  ro_sort : Permutation (re_sort e) (seq 0 N); ro_junk : forall k, length (re_junk e k) = k; ro_impl : impl_ok (re_impl e) }.

Record dtt_env_ok {C} (B : @bvh C) (nm nq : nat) (e : dtt_env) : Prop := {
  do_scan_ip : scan_ip_ok (de_scan_ip e); do_scan : scan_ok (de_scan e);
  do_pass : forall k n, pass_env_ok n (de_pass e k n);
  do_o1 : Permutation (de_o1 e) (seq 0 (total_cell_count B)); do_o2 : Permutation (de_o2 e) (seq 0 (total_cell_count B));
  do_jz : forall k, length (de_jz e k) = k; do_jp : forall k, length (de_jp e k) = k;
  do_rm : reorder_env_ok nm (total_cell_count B) (de_rm e); do_rp : reorder_env_ok nq (total_cell_count B) (de_rp e) }.
