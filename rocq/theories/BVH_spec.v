(** Specification vocabulary for the compressed leaf BVH. *)
From Verif Require Import Base Karras Karras_spec Traverse Traverse_spec Reduction Reduction_lists Reduction_spec BVH.
Local Open Scope nat_scope.

(** <= on the coordinates is a total preorder *)
Record total_preorder {C} (leb : C -> C -> bool) : Prop := {
  tp_total : forall a b, leb a b = true \/ leb b a = true;
  tp_trans : forall a b c, leb a b = true -> leb b c = true -> leb a c = true }.

Definition cx {C} (v : vec C) : C := fst (fst v).
Definition cy {C} (v : vec C) : C := snd (fst v).
Definition cz {C} (v : vec C) : C := snd v.
Definition coords {C} : list (vec C -> C) := [cx; cy; cz].

(** the box (lo, hi) is the smallest box around the boxes [plo o, phi o] of the objects [objs]: on each axis
    its sides bound them all and are reached by one of them *)
Definition tight_box {C} (leb : C -> C -> bool) (plo phi : nat -> vec C) (objs : list nat) (b : vec C * vec C) : Prop :=
  forall x, In x (@coords C) ->
    (forall o, In o objs -> leb (x (fst b)) (x (plo o)) = true /\ leb (x (phi o)) (x (snd b)) = true) /\
    (exists o, In o objs /\ x (fst b) = x (plo o)) /\ (exists o, In o objs /\ x (snd b) = x (phi o)).

(** every work item of a propagation kernel does its six memory accesses, interleaved in any way *)
Definition interleaving (n : nat) (s : list nat) : Prop :=
  forall g, count_occ Nat.eq_dec s g = if g <? n then 6 else 0.

Record bvh_env_ok {C} (cnt mcnt : nat) (env : @bvh_env C) : Prop := {
  ev_o1 : Permutation (e_o1 env) (seq 0 cnt);
  ev_o2 : Permutation (e_o2 env) (seq 0 (mcnt - cnt));
  ev_codes : length (e_codes env mcnt) = mcnt;
  ev_oi : Permutation (e_oi env mcnt) (seq 0 mcnt);
  ev_map : length (e_map env mcnt) = mcnt;
  ev_sort : forall len inc n, Permutation (e_sort env len inc n) (seq 0 n);
  ev_red : env_ok cnt (e_red env);
  ev_karras : forall n, Permutation (e_karras env n) (seq 0 n);
  ev_cells : forall n, length (e_cells env n) = n;
  ev_leaf : forall n, Permutation (e_leaf env n) (seq 0 n);
  ev_min : forall n, length (e_min env n) = n;
  ev_max : forall n, length (e_max env n) = n;
  ev_prop : forall n i, interleaving n (e_prop env n i) }.

(** what the caller provides: 1 <= cnt objects, at most 2^24 + 1 different codes below 2^b, the padding code
    above them, coordinates within [vbot, vtop] *)
Record bvh_input {C} (leb : C -> C -> bool) (w b : N) (code : vec C -> N) (err : N) (vtop vbot : vec C)
    (lo hi : list (vec C)) (cnt : nat) : Prop := {
  bi_order : total_preorder leb;
  bi_pos : 0 < cnt;
  bi_small : (Z.of_nat cnt < 2 ^ 31)%Z;
  bi_lo : cnt <= length lo;
  bi_hi : cnt <= length hi;
  bi_bits : (b <= w)%N;
  bi_code : forall o p, o < cnt -> nth_error lo o = Some p -> (code p < 2 ^ b)%N;
  bi_err : (2 ^ b <= err)%N;
  bi_distinct : (Z.of_nat (length (nodup N.eq_dec (map code (firstn cnt lo)))) <= 2 ^ 24 + 1)%Z;
  bi_top : forall o p x, o < cnt -> nth_error lo o = Some p -> In x (@coords C) -> leb (x p) (x vtop) = true;
  bi_bot : forall o p x, o < cnt -> nth_error hi o = Some p -> In x (@coords C) -> leb (x vbot) (x p) = true }.

(** the tree [t] encoded by the BVH and, for each leaf, its objects *)
Record represents {C} (leb : C -> C -> bool) (plo phi : nat -> vec C) (cnt : nat) (b : @bvh C) (t : tree) (objs : nat -> list nat) : Prop := {
  rp_reads : reads (b_cells b) (length (b_cells b) =? 0) 0 t;
  rp_leaves : leaves t = seq 0 (b_leafs b);
  rp_internals : Permutation (internals t) (seq 0 (length (b_cells b)));
  rp_count : b_leafs b = length (b_cells b) + 1;
  (* every object is in exactly one leaf, and no leaf is empty *)
  rp_partition : Permutation (flat_map objs (leaves t)) (seq 0 cnt);
  rp_nonempty : forall k, In k (leaves t) -> objs k <> [];
  (* the iterators enumerate exactly the objects of a leaf / below a node *)
  rp_leaf : forall k, In k (leaves t) -> for_each_in_leaf_cell (b_map b) (b_red b) k = Ok (objs k);
  rp_cell : forall u, In u (subtrees t) ->
    for_each_in_cell (b_map b) (b_red b) (b_cells b) (node_id (length (b_cells b)) u) = Ok (flat_map objs (leaves u));
  (* the stored box of every node is the exact bounding box of the objects below it *)
  rp_box : forall u, In u (subtrees t) -> exists bx, box_at b (node_id (length (b_cells b)) u) = Some bx /\
    tight_box leb plo phi (flat_map objs (leaves u)) bx }.
