(** Model of the dual tree traversal of the compressed leaf BVH:
    src/shamtree/src/CLBVHDualTreeTraversal.cpp:73-101 and src/shamtree/include/shamtree/details/
    dtt_reference.hpp, dtt_scan_multipass.hpp, dtt_parallel_select.hpp, reorder_scan_dtt_result.hpp.

    Simplifications.  The acceptance criterion mac(a, b, theta_crit) is a pure function [mac] of the two
    boxes.  Node ids are nat (u32 in the code; below 2^25 for every tree of C33), the counters and the scanned
    values are u32, modelled by Z modulo 2^32.  Buffers are lists; the contents of freshly allocated or grown
    memory are given by the environment ([junk]). *)
From Verif Require Import Base Par Karras Traverse Reduction Scan SortSearch BVH.
Local Open Scope nat_scope.

Definition ipair : Type := nat * nat.                          (* u32_2 *)
Definition ilists : Type := list ipair * list ipair.           (* M2L and P2P lists *)
Definition idx32 (z : Z) : nat := Z.to_nat (w32 z).

(** DeviceBuffer::fill(value, idx_count) (DeviceBuffer.hpp:951-986): refuses counts beyond the buffer or
    beyond i32 *)
Definition fill_prefix (v : Z) (n : nat) (buf : list Z) : res (list Z) :=
  if length buf <? n then Throw else if (2 ^ 31 <=? Z.of_nat n)%Z then Throw else Ok (repeat v n ++ skipn n buf).
(** DeviceBuffer::resize (DeviceBuffer.hpp:1103-1176): the common part is kept *)
Definition resize {A} (junk : nat -> list A) (buf : list A) (n : nat) : list A :=
  firstn n buf ++ junk (n - length buf).
(** the lambda resize_max (dtt_scan_multipass.hpp:106-110) *)
Definition resize_max {A} (junk : nat -> list A) (buf : list A) (n : nat) : list A :=
  if length buf <? n then resize junk buf n else buf.

(** the comparator of segmented_sort_in_place<u32_2> (segmented_sort_in_place.cpp:197-199) *)
Definition comp_pair (a b : ipair) : bool :=
  if fst a =? fst b then snd a <? snd b else fst a <? fst b.
(** the two implementations of the segmented sort (segmented_sort_in_place.cpp:25-101); [srt] is std::sort *)
Inductive seg_impl := LocalInsertionSort | MultiStdSort (srt : list ipair -> list ipair).
Definition range_sort (im : seg_impl) : list ipair -> nat -> nat -> res (list ipair) :=
  match im with LocalInsertionSort => ptr_insert_sort comp_pair | MultiStdSort srt => std_sort_range srt end.

Record reorder_env := { re_count : list nat; re_scatter : list nat; re_sort : list nat; re_junk : nat -> list ipair;
                        re_impl : seg_impl }.
(** reorder_scan_dtt_result (reorder_scan_dtt_result.hpp:27-110): atomic counting, scan, atomic scatter, sort of
    each segment.  Returns the reordered buffer and the offsets. *)
Definition reorder_scan_dtt_result (scan : list Z -> nat -> res (list Z)) (env : reorder_env) (N : nat) (in_out : list ipair)
  : res (list ipair * list Z) :=
  let cnt := length in_out in
  offsets <- fill_prefix 0 (N + 1) (repeat 0%Z (N + 1)) ;;
  if cnt =? 0 then Ok (in_out, offsets) else
  offsets <- kernel_call cnt (re_count env) (fun i o =>
    p <- aget in_out i ;;
    if fst p <? N then v <- aget o (fst p) ;; aset o (fst p) (w32 (v + 1)) else UB (* SHAM_ASSERT *)) offsets ;;
  offsets <- scan_exclusive_sum_in_place scan offsets (N + 1) ;;
  sh <- kernel_call cnt (re_scatter env) (fun i sh =>
    p <- aget in_out i ;;
    if fst p <? N then
      ret <- aget (snd sh) (fst p) ;; h <- aset (snd sh) (fst p) (w32 (ret + 1)) ;;
      s <- aset (fst sh) (Z.to_nat ret) p ;; Ok (s, h)
    else UB (* SHAM_ASSERT *)) (re_junk env cnt, offsets) ;;
  sorted <- segmented_sort_in_place (range_sort (re_impl env)) (re_sort env) (fst sh) (map Z.to_nat offsets) ;;
  Ok (sorted, offsets).

Section Dtt.
  Context {C : Type} (leb : C -> C -> bool) (mac : vec C * vec C -> vec C * vec C -> bool) (B : @bvh C).
  Let cells := b_cells B.
  Let off := length cells.                                      (* offset_leaf: number of internal cells *)
  Definition total_cell_count : nat := length (b_cells B) + (length (b_cells B) + 1).

  Definition box_read (a : nat) : res (vec C * vec C) :=
    lo <- aget (b_min B) a ;; hi <- aget (b_max B) a ;; Ok (lo, hi).
  (** bool crit = mac(aabb_a, aabb_b, theta_crit) == false *)
  Definition crit (a b : nat) : res bool :=
    ba <- box_read a ;; bb <- box_read b ;; Ok (negb (mac ba bb)).
  Definition left_or_self (lf : bool) (a : nat) : res nat := if lf then Ok a else get_left_child cells off a.
  Definition right_or_self (lf : bool) (a : nat) : res nat := if lf then Ok a else get_right_child cells off a.

  (* ---------------------------------------------------------------- *)
  (** dtt_recursive_internal<allow_leaf_lowering> (dtt_reference.hpp:41-128); [fuel] bounds the recursion depth *)
  Fixpoint dtt_recursive_internal (low : bool) (fuel : nat) (a b : nat) (out : ilists) : res ilists :=
    match fuel with
    | O => UB
    | S f =>
        c <- crit a b ;;
        if c then
          if low then
            let is_a_leaf := is_id_leaf off a in
            let is_b_leaf := is_id_leaf off b in
            if is_a_leaf && is_b_leaf then Ok (fst out, snd out ++ [(a, b)]) else
            a1 <- left_or_self is_a_leaf a ;; a2 <- right_or_self is_a_leaf a ;;
            b1 <- left_or_self is_b_leaf b ;; b2 <- right_or_self is_b_leaf b ;;
            let run_a_1 := true in let run_a_2 := negb is_a_leaf in
            let run_b_1 := true in let run_b_2 := negb is_b_leaf in
            out <- (if run_a_1 && run_b_1 then dtt_recursive_internal low f a1 b1 out else Ok out) ;;
            out <- (if run_a_2 && run_b_1 then dtt_recursive_internal low f a2 b1 out else Ok out) ;;
            out <- (if run_a_1 && run_b_2 then dtt_recursive_internal low f a1 b2 out else Ok out) ;;
            (if run_a_2 && run_b_2 then dtt_recursive_internal low f a2 b2 out else Ok out)
          else
            a1 <- get_left_child cells off a ;; a2 <- get_right_child cells off a ;;
            b1 <- get_left_child cells off b ;; b2 <- get_right_child cells off b ;;
            if is_id_leaf off a1 || is_id_leaf off a2 || is_id_leaf off b1 || is_id_leaf off b2
            then Ok (fst out, snd out ++ [(a, b)]) else
            out <- dtt_recursive_internal low f a1 b1 out ;;
            out <- dtt_recursive_internal low f a2 b1 out ;;
            out <- dtt_recursive_internal low f a1 b2 out ;;
            dtt_recursive_internal low f a2 b2 out
        else Ok (fst out ++ [(a, b)], snd out)
    end.
  (** dtt_recursive_ref (dtt_reference.hpp:130-158) *)
  Definition dtt_recursive_ref (low : bool) : res ilists :=
    if is_id_leaf off 0 then Ok ([], [(0, 0)]) else dtt_recursive_internal low (off + 1) 0 0 ([], []).

  (* ---------------------------------------------------------------- *)
  (** The buffers of the multipass version, kept from one pass to the next (dtt_scan_multipass.hpp:89-104) *)
  Record pass_state := mkpass {
    ps_cur : list ipair; ps_ht : list Z; ps_next : list ipair; ps_hm : list Z; ps_pm : list ipair;
    ps_hp : list Z; ps_pp : list ipair; ps_m2l : list ipair; ps_p2p : list ipair }.
  (** orders of the work items of the four kernels of a pass, contents of grown memory *)
  Record pass_env := { pe_main : list nat; pe_task : list nat; pe_m2l : list nat; pe_p2p : list nat;
                       pe_junk : nat -> list ipair; pe_junkZ : nat -> list Z }.

  (** if (run) { task_next[i * 4 + push_count] = t; push_count++; } *)
  Definition push_task (i : nat) (rt : bool * ipair) (s : list ipair * Z) : res (list ipair * Z) :=
    if fst rt then
      nx <- aset (fst s) (idx32 (w32 (Z.of_nat i * 4) + snd s)) (snd rt) ;; Ok (nx, w32 (snd s + 1))
    else Ok s.
  (** the main kernel (lines 142-241) *)
  Definition main_item (low : bool) (cur : list ipair) (i : nat)
    (s : list Z * list ipair * (list Z * list ipair) * (list Z * list ipair)) :=
    let '(ht, nx, (hm, pm), (hp, pp)) := s in
    t <- aget cur i ;;
    let a := fst t in let b := snd t in
    c <- crit a b ;;
    if c then
      if low then
        let is_a_leaf := is_id_leaf off a in
        let is_b_leaf := is_id_leaf off b in
        if is_a_leaf && is_b_leaf then
          pp <- aset pp i (a, b) ;; hp <- aset hp i 1%Z ;; Ok (ht, nx, (hm, pm), (hp, pp))
        else
          a1 <- left_or_self is_a_leaf a ;; a2 <- right_or_self is_a_leaf a ;;
          b1 <- left_or_self is_b_leaf b ;; b2 <- right_or_self is_b_leaf b ;;
          let run_a_1 := true in let run_a_2 := negb is_a_leaf in
          let run_b_1 := true in let run_b_2 := negb is_b_leaf in
          np <- rfold (push_task i) [(run_a_1 && run_b_1, (a1, b1)); (run_a_2 && run_b_1, (a2, b1));
                                     (run_a_1 && run_b_2, (a1, b2)); (run_a_2 && run_b_2, (a2, b2))] (nx, 0%Z) ;;
          h <- aget ht i ;; ht <- aset ht i (w32 (h + snd np)) ;;
          Ok (ht, fst np, (hm, pm), (hp, pp))
      else
        a1 <- get_left_child cells off a ;; a2 <- get_right_child cells off a ;;
        b1 <- get_left_child cells off b ;; b2 <- get_right_child cells off b ;;
        if is_id_leaf off a1 || is_id_leaf off a2 || is_id_leaf off b1 || is_id_leaf off b2 then
          pp <- aset pp i (a, b) ;; hp <- aset hp i 1%Z ;; Ok (ht, nx, (hm, pm), (hp, pp))
        else
          let i4 := w32 (Z.of_nat i * 4) in
          nx <- aset nx (idx32 (i4 + 0)) (a1, b1) ;;
          nx <- aset nx (idx32 (i4 + 1)) (a1, b2) ;;
          nx <- aset nx (idx32 (i4 + 2)) (a2, b1) ;;
          nx <- aset nx (idx32 (i4 + 3)) (a2, b2) ;;
          h <- aget ht i ;; ht <- aset ht i (w32 (h + 4)) ;;
          Ok (ht, nx, (hm, pm), (hp, pp))
    else
      pm <- aset pm i (a, b) ;; hm <- aset hm i 1%Z ;; Ok (ht, nx, (hm, pm), (hp, pp)).

  (** the 4 wide stream compaction (lines 281-308) *)
  Definition task_item (low : bool) (nx : list ipair) (scan : list Z) (i : nat) (cur : list ipair) : res (list ipair) :=
    s0 <- aget scan i ;; s1 <- aget scan (i + 1) ;;
    let delta := w32 (s1 - s0) in
    let i4 := w32 (Z.of_nat i * 4) in
    let copy l cur :=
      v <- aget nx (idx32 (i4 + l)) ;;
      if low && negb ((fst v <? total_cell_count) && (snd v <? total_cell_count)) then UB (* SHAM_ASSERT *) else
      aset cur (idx32 (s0 + l)) v in
    if (0 <? delta)%Z then
      if low then rfold (fun l cur => copy (Z.of_nat l) cur) (seq 0 (Z.to_nat delta)) cur
      else rfold copy [0; 1; 2; 3]%Z cur
    else Ok cur.
  (** the stream compactions of the results (lines 311-345) *)
  Definition result_item (res_sz : nat) (pushed : list ipair) (scan : list Z) (i : nat) (out : list ipair) : res (list ipair) :=
    s0 <- aget scan i ;; s1 <- aget scan (i + 1) ;;
    if (w32 (s1 - s0) =? 1)%Z then
      v <- aget pushed i ;; aset out (idx32 (Z.of_nat res_sz + s0)) v
    else Ok out.

  (** one iteration of the while loop (lines 112-346) *)
  Definition dtt_pass (scan : list Z -> nat -> res (list Z)) (low : bool) (env : pass_env) (st : pass_state) : res pass_state :=
    let n := length (ps_cur st) in
    let n1 := idx32 (Z.of_nat n + 1) in
    let n4 := idx32 (4 * Z.of_nat n) in
    let ht := resize_max (pe_junkZ env) (ps_ht st) n1 in
    let nx := resize_max (pe_junk env) (ps_next st) n4 in
    let hm := resize_max (pe_junkZ env) (ps_hm st) n1 in
    let pm := resize_max (pe_junk env) (ps_pm st) n in
    let hp := resize_max (pe_junkZ env) (ps_hp st) n1 in
    let pp := resize_max (pe_junk env) (ps_pp st) n in
    ht <- fill_prefix 0 n1 ht ;; hm <- fill_prefix 0 n1 hm ;; hp <- fill_prefix 0 n1 hp ;;
    s <- kernel_call n (pe_main env) (main_item low (ps_cur st)) (ht, nx, (hm, pm), (hp, pp)) ;;
    let '(ht, nx, (hm, pm), (hp, pp)) := s in
    ht <- scan_exclusive_sum_in_place scan ht n1 ;;
    hm <- scan_exclusive_sum_in_place scan hm n1 ;;
    hp <- scan_exclusive_sum_in_place scan hp n1 ;;
    let rm := idx32 (Z.of_nat (length (ps_m2l st))) in
    let rp := idx32 (Z.of_nat (length (ps_p2p st))) in
    ct <- aget ht (n1 - 1) ;; cm <- aget hm (n1 - 1) ;; cp <- aget hp (n1 - 1) ;;
    let m2l := resize (pe_junk env) (ps_m2l st) (length (ps_m2l st) + Z.to_nat cm) in
    let p2p := resize (pe_junk env) (ps_p2p st) (length (ps_p2p st) + Z.to_nat cp) in
    let cur := resize (pe_junk env) (ps_cur st) (Z.to_nat ct) in
    cur <- kernel_call n (pe_task env) (task_item low nx ht) cur ;;
    m2l <- kernel_call n (pe_m2l env) (result_item rm pm hm) m2l ;;
    p2p <- kernel_call n (pe_p2p env) (result_item rp pp hp) p2p ;;
    Ok (mkpass cur ht nx hm pm hp pp m2l p2p).
  (** while (task_current.get_size() > 0); [fuel] bounds the number of passes, [k] counts them;
      [env k n] is the environment of pass k over n tasks *)
  Fixpoint dtt_passes (scan : list Z -> nat -> res (list Z)) (low : bool) (env : nat -> nat -> pass_env) (fuel k : nat) (st : pass_state)
    : res pass_state :=
    if 0 <? length (ps_cur st) then
      match fuel with
      | O => UB
      | S f => st <- dtt_pass scan low (env k (length (ps_cur st))) st ;; dtt_passes scan low env f (S k) st
      end
    else Ok st.
  (** dtt_internal (lines 40-350), without the ordering; [j1], [j2]: contents of the fresh buffers (lines 86-104) *)
  Definition dtt_scan_multipass (scan : list Z -> nat -> res (list Z)) (low : bool) (env : nat -> nat -> pass_env)
    (j1 : list ipair) (j2 : list Z) : res ilists :=
    if off =? 0 then Ok ([], [(0, 0)]) else
    st <- dtt_passes scan low env (off + 1) 0 (mkpass [(0, 0)] j2 j1 j2 j1 j2 j1 [] []) ;;
    Ok (ps_m2l st, ps_p2p st).

  (* ---------------------------------------------------------------- *)
  (** AABB::contains (shammath/AABB.hpp:244-248), vec_compare_leq / geq: component by component *)
  Definition vleq (u v : vec C) : bool :=
    let '(x, y, z) := u in let '(x', y', z') := v in leb x x' && leb y y' && leb z z'.
  Definition aabb_contains (outer inner : vec C * vec C) : bool :=
    vleq (fst outer) (fst inner) && vleq (snd inner) (snd outer).
  (** FixedStack::push (shambase/FixedStack.hpp:121-128), capacity [cap]; the head of the list is the top *)
  Definition fpush (cap : nat) (x : ipair) (st : list ipair) : res (list ipair) :=
    if length st <? cap then Ok (x :: st) else UB.
  Definition fpush_if (cap : nat) (c : bool) (x : ipair) (st : list ipair) : res (list ipair) :=
    if c then fpush cap x st else Ok st.

  (** The loop of work item [i] (dtt_parallel_select.hpp:99-206 and 268-381: the same text in the two kernels, up to
      what is done with an interaction).  [emit p2p (a, b)] is the counting, resp. the storing, of an
      interaction. *)
  Section Select.
    Context {S : Type} (emit : bool -> ipair -> S -> res S) (low : bool) (cap i : nat) (bi : vec C * vec C).
    Definition within (id : nat) : res bool := bn <- box_read id ;; Ok (aabb_contains bn bi).
    Fixpoint select_loop (fuel : nat) (stack : list ipair) (s : S) : res S :=
      match stack with
      | [] => Ok s
      | (a, b) :: stack =>
          match fuel with
          | O => UB
          | Datatypes.S f =>
              let same := a =? i in
              c <- crit a b ;;
              if c then
                if low then
                  let is_a_leaf := is_id_leaf off a in
                  let is_b_leaf := is_id_leaf off b in
                  if is_a_leaf && is_b_leaf then
                    s <- (if same then emit true (a, b) s else Ok s) ;; select_loop f stack s
                  else
                    a1 <- left_or_self is_a_leaf a ;; a2 <- right_or_self is_a_leaf a ;;
                    b1 <- left_or_self is_b_leaf b ;; b2 <- right_or_self is_b_leaf b ;;
                    let run_a_1 := true in let run_a_2 := negb is_a_leaf in
                    let run_b_1 := true in let run_b_2 := negb is_b_leaf in
                    if same && negb (a1 =? a) then select_loop f stack s else
                    wl <- within a1 ;; wr <- within a2 ;;
                    let run_a_1 := run_a_1 && wl in let run_a_2 := run_a_2 && wr in
                    stack <- fpush_if cap (run_a_1 && run_b_1) (a1, b1) stack ;;
                    stack <- fpush_if cap (run_a_2 && run_b_1) (a2, b1) stack ;;
                    stack <- fpush_if cap (run_a_1 && run_b_2) (a1, b2) stack ;;
                    stack <- fpush_if cap (run_a_2 && run_b_2) (a2, b2) stack ;;
                    select_loop f stack s
                else
                  a1 <- get_left_child cells off a ;; a2 <- get_right_child cells off a ;;
                  b1 <- get_left_child cells off b ;; b2 <- get_right_child cells off b ;;
                  if is_id_leaf off a1 || is_id_leaf off a2 || is_id_leaf off b1 || is_id_leaf off b2 then
                    s <- (if same then emit true (a, b) s else Ok s) ;; select_loop f stack s
                  else
                    wl <- within a1 ;; wr <- within a2 ;;
                    if same then select_loop f stack s else
                    stack <- fpush_if cap wl (a1, b1) stack ;;
                    stack <- fpush_if cap wl (a1, b2) stack ;;
                    stack <- fpush_if cap wr (a2, b1) stack ;;
                    stack <- fpush_if cap wr (a2, b2) stack ;;
                    select_loop f stack s
              else s <- (if same then emit false (a, b) s else Ok s) ;; select_loop f stack s
          end
      end.
    (** lines 91-98, resp. 259-267: the start of the work item *)
    Definition select_start (fuel : nat) (s : S) : res S :=
      if (i =? 0) && is_id_leaf off 0 then emit true (0, 0) s
      else stack <- fpush cap (0, 0) [] ;; select_loop fuel stack s.
  End Select.
  Definition select_fuel : nat := (total_cell_count + 1) * (total_cell_count + 1).

  (** the counting kernel (lines 64-212) *)
  Definition emit_count (p2p : bool) (_ : ipair) (s : Z * Z) : res (Z * Z) :=
    Ok (if p2p then (fst s, w32 (snd s + 1)) else (w32 (fst s + 1), snd s)).
  Definition count_item (low : bool) (cap i : nat) (s : list Z * list Z) : res (list Z * list Z) :=
    bi <- box_read i ;;
    c <- select_start emit_count low cap i bi select_fuel (0%Z, 0%Z) ;;
    cm <- aset (fst s) i (fst c) ;; cp <- aset (snd s) i (snd c) ;; Ok (cm, cp).
  (** the writing kernel (lines 232-384); the state is the two index buffers and the two cursors *)
  Definition emit_store (p2p : bool) (ab : ipair) (s : ilists * (Z * Z)) : res (ilists * (Z * Z)) :=
    let '((im, ip), (om, op)) := s in
    if p2p then ip <- aset ip (Z.to_nat op) ab ;; Ok ((im, ip), (om, w32 (op + 1)))
    else im <- aset im (Z.to_nat om) ab ;; Ok ((im, ip), (w32 (om + 1), op)).
  Definition store_item (low : bool) (cap : nat) (sm sp : list Z) (i : nat) (s : ilists) : res ilists :=
    om <- aget sm i ;; op <- aget sp i ;; bi <- box_read i ;;
    r <- select_start emit_store low cap i bi select_fuel (s, (om, op)) ;; Ok (fst r).
  (** dtt_internal (dtt_parallel_select.hpp:39-398).  [scan]: scan_exclusive(buf, len), a new buffer of len values.
      [j2]: contents of the count buffers; the offsets are returned in all cases. *)
  Definition dtt_parallel_select (scan : list Z -> nat -> res (list Z)) (low : bool) (cap : nat) (o1 o2 : list nat)
    (j2 : nat -> list Z) (junk : nat -> list ipair) : res (ilists * (list Z * list Z)) :=
    let n := total_cell_count in
    cm <- aset (j2 (n + 1)) n 0%Z ;; cp <- aset (j2 (n + 1)) n 0%Z ;;
    cc <- kernel_call n o1 (count_item low cap) (cm, cp) ;;
    sm <- scan (fst cc) (n + 1) ;; sp <- scan (snd cc) (n + 1) ;;
    tm <- aget sm n ;; tp <- aget sp n ;;
    r <- kernel_call n o2 (store_item low cap sm sp) (junk (Z.to_nat tm), junk (Z.to_nat tp)) ;;
    Ok (r, (sm, sp)).

  (* ---------------------------------------------------------------- *)
  (** clbvh_dual_tree_traversal (CLBVHDualTreeTraversal.cpp:73-101): the three implementations, with the ordering
      of the result if requested (dtt_reference.hpp:185-198, dtt_scan_multipass.hpp:58-77 and 348,
      dtt_parallel_select.hpp:390-394) *)
  Inductive dtt_impl := REFERENCE | PARALLEL_SELECT | SCAN_MULTIPASS.
  Record dtt_env := {
    de_scan_ip : list Z -> nat -> res (list Z);     (* implementation of scan_exclusive_sum_in_place *)
    de_scan : list Z -> nat -> res (list Z);        (* implementation of scan_exclusive *)
    de_pass : nat -> nat -> pass_env; de_j1 : list ipair; de_j2 : list Z;
    de_o1 : list nat; de_o2 : list nat; de_jz : nat -> list Z; de_jp : nat -> list ipair;
    de_rm : reorder_env; de_rp : reorder_env }.
  Definition dtt_result : Type := ilists * option (list Z * list Z).
  Definition add_ordering (env : dtt_env) (ord : bool) (r : ilists) : res dtt_result :=
    if ord then
      m <- reorder_scan_dtt_result (de_scan_ip env) (de_rm env) total_cell_count (fst r) ;;
      p <- reorder_scan_dtt_result (de_scan_ip env) (de_rp env) total_cell_count (snd r) ;;
      Ok ((fst m, fst p), Some (snd m, snd p))
    else Ok (r, None).
  (** [b]: number of significant bits of the codes: tree_depth_max = b + 1, capacity of the stacks b + 2 *)
  Definition clbvh_dual_tree_traversal (b : nat) (env : dtt_env) (impl : dtt_impl) (ord low : bool) : res dtt_result :=
    if b_leafs B =? 0 then Throw else
    match impl with
    | REFERENCE => r <- dtt_recursive_ref low ;; add_ordering env ord r
    | PARALLEL_SELECT =>
        r <- dtt_parallel_select (de_scan env) low (b + 2) (de_o1 env) (de_o2 env) (de_jz env) (de_jp env) ;;
        Ok (fst r, if ord then Some (snd r) else None)
    | SCAN_MULTIPASS =>
        r <- dtt_scan_multipass (de_scan_ip env) low (de_pass env) (de_j1 env) (de_j2 env) ;; add_ordering env ord r
    end.
End Dtt.
