(** C39: the search of the patch of a position.  C40: the reductions over the patch tree. *)
From Verif Require Import Base Par Patch Patch_spec PatchTree PatchTree_spec Sched Sched_spec F64
  Domain Domain_spec Domain_cell Domain_f64 Domain_u64 SerialTree SerialTree_spec SerialTree_main.
From Verif Require P_Sched P_Domain.
Local Open Scope Z_scope.

Lemma f_conv fma g box : grid_ok g -> box_ok box -> forall b, inside b g -> exists r, patch_coord_to_domain fma g box b = Ok r /\
  forall v, is_in_patch_converted f_leb f_ltb v (fst r) (snd r) = true <-> in_box (f_cell fma g box v) b.
Proof.
  intros HG HB b Hb. eexists. split; [now apply to_domain_image|]. intros v. rewrite <- (f_contains_cell fma g box b v HG HB Hb).
  unfold f_contains. rewrite to_domain_image by auto. split; [intros H; eexists; split; [reflexivity|exact H]|].
  intros (r & [= <-] & H). exact H.
Qed.
Lemma i_conv g box r0 : grid_ok g -> ibox_ok box -> patch_coord_to_domain_u64 g box g = Ok r0 ->
  exists cellof, forall b, inside b g -> exists r, patch_coord_to_domain_u64 g box b = Ok r /\
    forall v, is_in_patch_converted Z.leb Z.ltb v (fst r) (snd r) = true <-> in_box (cellof v) b.
Proof.
  intros HG HB E0. destruct (crt_u64_of_cases g box HG HB) as [E|(t & E & HT)].
  - exfalso. unfold patch_coord_to_domain_u64 in E0. fold (crt_u64_of g box) in E0. rewrite E in E0. discriminate.
  - exists (i_cell t g box). intros b Hb.
    assert (X : exists r, patch_coord_to_domain_u64 g box b = Ok r).
    { unfold patch_coord_to_domain_u64. fold (crt_u64_of g box). rewrite E. cbn [rbind]. destruct (get_patch_range b). eauto. }
    destruct X as (r & Er). exists r. split; auto. intros v. rewrite <- (i_contains_cell g box b v t HG HB Hb E). unfold i_contains.
    split; [intros H; eauto|]. intros (r' & E' & H). congruence.
Qed.

Section P.
Variable obj : Type.
Variable pos : obj -> v3.
Variable W : nat.

(** ** C39.  Double precision positions *)
(** In every reachable state of the scheduler the arrays can be built, whatever the order of the set of roots. *)
Theorem C39_build : forall bs s fma g box rs fuel, (1 <= W)%nat -> sched_history obj pos W bs s ->
  grid_ok g -> box_ok box -> (forall b, In b bs -> inside b g) -> t_next (s_tree _ s) <= 2 ^ 32 ->
  Permutation rs (t_roots (s_tree _ s)) -> (65 <= fuel)%nat ->
  exists st roots, built_from (patch_coord_to_domain fma g box) fuel (s_tree _ s) rs st roots.
Proof.
  intros bs s fma g box rs fuel HW H HG HB Hin Hn HP Hf.
  destruct (built obj pos W f_leb f_ltb _ _ g (f_conv fma g box HG HB) bs s rs fuel HW H Hin Hn HP Hf) as (st & roots & E).
  exists st, roots. split; auto.
Qed.
(** compute_patch_owner gives to each position, in any execution of the kernel, the id of the patch which contains
    it (there is only one: C37).  When no patch contains it and the first root was split the result is u64_max. *)
Theorem C39_owner : forall bs s fma g box rs fuel st roots positions order mem, (1 <= W)%nat -> sched_history obj pos W bs s ->
  grid_ok g -> box_ok box -> bs <> [] -> (forall b, In b bs -> inside b g) -> t_next (s_tree _ s) <= 2 ^ 32 -> (65 <= fuel)%nat ->
  built_from (patch_coord_to_domain fma g box) fuel (s_tree _ s) rs st roots ->
  Permutation order (seq 0 (length positions)) -> length mem = length positions ->
  exists out, compute_patch_owner f_leb f_ltb order mem st roots positions = Ok out /\ length out = length positions /\
    forall i v, nth_error positions i = Some v ->
      (forall p, In p (s_global _ s) -> valid_patch W p -> f_contains fma g box (p_box p) v -> nth_error out i = Some (p_id p)) /\
      ((forall p, In p (s_global _ s) -> valid_patch W p -> ~ f_contains fma g box (p_box p) v) ->
       forall x0, hd_error rs = Some x0 ->
         (In x0 (t_leaf (s_tree _ s)) -> exists p n, In p (s_global _ s) /\ valid_patch W p /\
            t_map (s_tree _ s) x0 = Some n /\ n_linked n = Some (p_id p) /\ nth_error out i = Some (p_id p)) /\
         (~ In x0 (t_leaf (s_tree _ s)) -> nth_error out i = Some u64_max)).
Proof.
  intros bs s fma g box rs fuel st roots ps order mem HW H HG HB Hne Hin Hn Hf (HP & Hb) Ho Hm.
  exact (compute_main obj pos W f_leb f_ltb _ _ g (f_conv fma g box HG HB) bs s rs fuel HW H Hin Hn HP Hf st roots Hb Hne ps order mem Ho Hm).
Qed.
(** host_for_each_leafs calls found_case at most once per patch, only with patches whose box satisfies the
    condition, and with every patch that contains a position [v] such that the condition holds for all the nodes
    that contain [v]. *)
Theorem C39_leafs : forall bs s fma g box rs fuel st roots interact fuel', (1 <= W)%nat -> sched_history obj pos W bs s ->
  grid_ok g -> box_ok box -> (forall b, In b bs -> inside b g) -> t_next (s_tree _ s) <= 2 ^ 32 -> (65 <= fuel)%nat ->
  built_from (patch_coord_to_domain fma g box) fuel (s_tree _ s) rs st roots -> (length (ss_tree st) < fuel')%nat ->
  exists calls, host_for_each_leafs fuel' st roots interact = Ok calls /\ NoDup (map fst calls) /\
    (forall id m, In (id, m) calls -> exists p i, In p (s_global _ s) /\ valid_patch W p /\ p_id p = id /\
       patch_coord_to_domain fma g box (p_box p) = Ok (sn_min m, sn_max m) /\
       nth_error (ss_tree st) (Z.to_nat i) = Some m /\ interact i m = true) /\
    (forall p v, In p (s_global _ s) -> valid_patch W p -> f_contains fma g box (p_box p) v ->
       (forall i m, nth_error (ss_tree st) (Z.to_nat i) = Some m -> is_in_patch_converted f_leb f_ltb v (sn_min m) (sn_max m) = true ->
          interact i m = true) ->
       In (p_id p) (map fst calls)).
Proof.
  intros bs s fma g box rs fuel st roots interact fuel' HW H HG HB Hin Hn Hf (HP & Hb) Hf'.
  exact (leafs_main obj pos W f_leb f_ltb _ _ g (f_conv fma g box HG HB) bs s rs fuel HW H Hin Hn HP Hf st roots Hb interact fuel' Hf').
Qed.
(** Integer positions, when the grid can be mapped to the box (see C37). *)
Theorem C39_int_owner : forall bs s g box r0 rs fuel, (1 <= W)%nat -> sched_history obj pos W bs s ->
  grid_ok g -> ibox_ok box -> patch_coord_to_domain_u64 g box g = Ok r0 -> bs <> [] -> (forall b, In b bs -> inside b g) ->
  t_next (s_tree _ s) <= 2 ^ 32 -> (65 <= fuel)%nat -> Permutation rs (t_roots (s_tree _ s)) ->
  exists st roots, built_from (patch_coord_to_domain_u64 g box) fuel (s_tree _ s) rs st roots /\
  forall positions order mem, Permutation order (seq 0 (length positions)) -> length mem = length positions ->
  exists out, compute_patch_owner Z.leb Z.ltb order mem st roots positions = Ok out /\ length out = length positions /\
    forall i v p, nth_error positions i = Some v -> In p (s_global _ s) -> valid_patch W p -> i_contains g box (p_box p) v ->
      nth_error out i = Some (p_id p).
Proof.
  intros bs s g box r0 rs fuel HW H HG HB E0 Hne Hin Hn Hf HP. destruct (i_conv g box r0 HG HB E0) as (cellof & Hc).
  destruct (built obj pos W Z.leb Z.ltb _ cellof g Hc bs s rs fuel HW H Hin Hn HP Hf) as (st & roots & E).
  exists st, roots. split; [split; auto|]. intros ps order mem Ho Hm.
  destruct (compute_main obj pos W Z.leb Z.ltb _ cellof g Hc bs s rs fuel HW H Hin Hn HP Hf st roots E Hne ps order mem Ho Hm) as (out & Eo & L & Hout).
  exists out. split; auto. split; auto. intros i v p Hv. apply (Hout i v Hv).
Qed.

(** ** C40.  make_patch_tree_field gives to every node the reduction of the values of the patches inside its box,
    whatever the interleaving of the work items within the kernels. *)
Theorem C40_tree_field : forall bs s fma g box rs fuel st roots (T : Type) (t0 e : T) (op : T -> T -> T) (get : Z -> res T) orders,
  (1 <= W)%nat -> sched_history obj pos W bs s ->
  grid_ok g -> box_ok box -> (forall b, In b bs -> inside b g) -> t_next (s_tree _ s) <= 2 ^ 32 -> (65 <= fuel)%nat ->
  built_from (patch_coord_to_domain fma g box) fuel (s_tree _ s) rs st roots ->
  (forall a b c, op a (op b c) = op (op a b) c) -> (forall a, op e a = a) -> (forall a, op a e = a) ->
  (forall p, In p (s_global _ s) -> valid_patch W p -> exists v, get (p_id p) = Ok v) ->
  (forall l, (l < Z.to_nat (ss_level st))%nat -> level_execution (length (ss_tree st)) (orders l)) ->
  exists f, make_patch_tree_field t0 get (fold_right op e) st orders = Ok f /\ length f = length (ss_tree st) /\
    forall i m, nth_error (ss_tree st) i = Some m -> exists b ps vs,
      patch_coord_to_domain fma g box b = Ok (sn_min m, sn_max m) /\ NoDup ps /\
      (forall p, In p ps <-> In p (s_global _ s) /\ valid_patch W p /\ box_within (p_box p) b) /\
      Forall2 (fun p v => get (p_id p) = Ok v) ps vs /\ nth_error f i = Some (fold_right op e vs).
Proof.
  intros bs s fma g box rs fuel st roots T t0 e op get orders HW H HG HB Hin Hn Hf (HP & Hb) Ha Hl Hr Hget HO.
  exact (field_main obj pos W f_leb f_ltb _ _ g (f_conv fma g box HG HB) bs s rs fuel HW H Hin Hn HP Hf st roots Hb t0 e op get orders Ha Hl Hr Hget HO).
Qed.
End P.
Print Assumptions C39_build.
Print Assumptions C39_owner.
Print Assumptions C39_leafs.
Print Assumptions C39_int_owner.
Print Assumptions C40_tree_field.

(** ** Concrete cases: the state of C27_nonvacuous (eight patches), the box [-1, 1)^3 (see C37_nonvacuous). *)
Notation ex_tree3 := (s_tree _ P_Sched.ex_s3).
Definition ex_conv := patch_coord_to_domain true P_Sched.ex_box P_Domain.ex_fbox.
Definition ex_built (t : ptree) : sstate f64 * list Z :=
  match build_from_patch_tree ex_conv 65 t with Ok r => r | _ => (SState [] [] 0 0, []) end.
Definition ex_st : sstate f64 := fst (ex_built ex_tree3).
Definition ex_roots : list Z := snd (ex_built ex_tree3).
Definition fpt (x y z : Z) : vec3 f64 := W3 (f_of_Z x) (f_of_Z y) (f_of_Z z).
Lemma ex_built_ok t : (match build_from_patch_tree ex_conv 65 t with Ok _ => true | _ => false end) = true ->
  build_from_patch_tree ex_conv 65 t = Ok (fst (ex_built t), snd (ex_built t)).
Proof. unfold ex_built. destruct (build_from_patch_tree ex_conv 65 t) as [[a b]| |]; [reflexivity|discriminate|discriminate]. Qed.
Lemma ex_tree_id t : t_with_roots (t_roots t) t = t. Proof. now destruct t. Qed.
Lemma ex_from : built_from ex_conv 65 ex_tree3 (t_roots ex_tree3) ex_st ex_roots.
Proof. split; [apply Permutation_refl|]. rewrite ex_tree_id. unfold ex_st, ex_roots. apply ex_built_ok. vm_compute. reflexivity. Qed.
Example C39_nonvacuous : built_from ex_conv 65 ex_tree3 (t_roots ex_tree3) ex_st ex_roots /\
  t_next ex_tree3 <= 2 ^ 32 /\ length (ss_tree ex_st) = 9%nat /\
  compute_patch_owner f_leb f_ltb [2; 0; 1; 3]%nat [0; 0; 0; 0] ex_st ex_roots [fpt 0 0 (-1); fpt (-1) 0 0; fpt 7 0 0; fpt (-1) (-1) (-1)] =
    Ok [6; 3; u64_max; 0] /\
  match host_for_each_leafs 10 ex_st ex_roots (fun _ m => in_node f_leb f_ltb (fpt 0 0 (-1)) m) with
  | Ok calls => map fst calls | _ => [] end = [6].
Proof.
  split; [exact ex_from|]. split; [vm_compute; discriminate|]. split; [vm_compute; reflexivity|]. split; vm_compute; reflexivity.
Qed.
(** The loads 1, 2, ... 8 of the patches, added up with the accesses in an order which is not sequential. *)
Definition ex_order : list act := rev (flat_map (fun i => Wr i :: map (Rd i) (seq 0 8)) (seq 0 9)).
Lemma ex_order_ok : level_execution 9 ex_order.
Proof.
  split.
  - unfold ex_order. etransitivity; [symmetry; apply Permutation_rev|]. unfold all_acts. generalize (seq 0 9). intros l.
    induction l as [|i l IH]; cbn [flat_map]; [constructor|]. apply Permutation_app; auto. apply (Permutation_app_comm [Wr i]).
  - intros p q i E k Hk.
    assert (B : forall l i p q, rev (flat_map (fun i => Wr i :: map (Rd i) (seq 0 8)) l) = p ++ Wr i :: q -> In (Rd i k) p).
    { clear - Hk. intros l. induction l as [|j l IH]; intros i p q E; cbn [flat_map] in E.
      - destruct p; discriminate.
      - rewrite rev_app_distr in E. cbn [rev app] in E. rewrite app_assoc in E.
        destruct q as [|a q'] using rev_ind.
        + change (p ++ [Wr i]) with (p ++ [Wr i]) in E. apply app_inj_tail in E. destruct E as (E & Ew). injection Ew as <-. rewrite <- E.
          apply in_or_app. right. apply -> in_rev. apply in_map, in_seq. lia.
        + clear IHq'. rewrite app_comm_cons, app_assoc in E. apply app_inj_tail in E. destruct E as (E & _).
          assert (X : exists q2, rev (flat_map (fun i => Wr i :: map (Rd i) (seq 0 8)) l) = p ++ Wr i :: q2).
          { clear - E. revert q' E. generalize (rev (map (Rd j) (seq 0 8))) (fun x => proj2 (in_rev (map (Rd j) (seq 0 8)) x)). intros m Hm.
            induction m as [|a m IH] using rev_ind; intros q' E; [rewrite app_nil_r in E; eauto|].
            destruct q' as [|b q''] using rev_ind.
            - rewrite app_assoc in E. apply app_inj_tail in E. destruct E as (_ & Ea). exfalso.
              assert (Ha : In (Wr i) (map (Rd j) (seq 0 8))) by (apply Hm; rewrite Ea; apply in_or_app; right; left; auto).
              apply in_map_iff in Ha. destruct Ha as (? & ? & _). discriminate.
            - clear IHq''. rewrite app_comm_cons, !app_assoc in E. apply app_inj_tail in E. destruct E as (E & _). apply (IH) with (q' := q''); auto.
              intros x Hx. apply Hm. apply in_or_app. left. auto. }
          destruct X as (q2 & E2). exact (IH i p q2 E2). }
    exact (B _ _ _ _ E).
Qed.
Example C40_nonvacuous : level_execution (length (ss_tree ex_st)) ex_order /\ Z.to_nat (ss_level ex_st) = 1%nat /\
  make_patch_tree_field 0 (fun id => Ok (id + 1)) (fold_right Z.add 0) ex_st (fun _ => ex_order) = Ok [36; 1; 2; 3; 4; 5; 6; 7; 8].
Proof.
  replace (length (ss_tree ex_st)) with 9%nat by (vm_compute; reflexivity). split; [exact ex_order_ok|]. split; vm_compute; reflexivity.
Qed.

(** ** What does not hold: a position outside of the simulation box may be given to a patch (so that the check of
    the reattribution, which looks for u64_max, does not see it).  One root patch, never split; the position
    (7, 0, 0) with the box [-1, 1)^3. *)
Theorem C39_outside_refuted : exists bs s st roots v, sched_history v3 (fun x => x) 2 bs s /\
  built_from ex_conv 65 (s_tree _ s) (t_roots (s_tree _ s)) st roots /\
  is_in_patch_converted f_leb f_ltb v (fst P_Domain.ex_fbox) (snd P_Domain.ex_fbox) = false /\
  (forall p, In p (s_global _ s) -> ~ f_contains true P_Sched.ex_box P_Domain.ex_fbox (p_box p) v) /\
  patch_owner f_leb f_ltb st roots v = Ok 0.
Proof.
  exists [P_Sched.ex_box], P_Sched.ex_s1, (fst (ex_built (s_tree _ P_Sched.ex_s1))), (snd (ex_built (s_tree _ P_Sched.ex_s1))), (fpt 7 0 0).
  split; [exact P_Sched.ex_h1|]. split; [split; [apply Permutation_refl|rewrite ex_tree_id; apply ex_built_ok; vm_compute; reflexivity]|].
  split; [vm_compute; reflexivity|]. split; [|vm_compute; reflexivity].
  intros p Hp (r & E & H). assert (Hg : s_global _ P_Sched.ex_s1 = [Patch 0 u64_max 0 P_Sched.ex_box 0]) by (vm_compute; reflexivity).
  rewrite Hg in Hp. destruct Hp as [<-|[]]. cbn [p_box] in E.
  assert (N : match ex_conv P_Sched.ex_box with Ok r => is_in_patch_converted f_leb f_ltb (fpt 7 0 0) (fst r) (snd r) | _ => false end = false) by (vm_compute; reflexivity).
  unfold ex_conv in N. rewrite E in N. congruence.
Qed.
(** Without any patch the search reads outside of the arrays. *)
Theorem C39_empty_refuted : forall v, exists st roots, built_from ex_conv 65 (s_tree _ (empty_sched v3)) [] st roots /\
  patch_owner f_leb f_ltb st roots v = UB.
Proof. intros v. eexists _, _. split; [split; [apply Permutation_refl|reflexivity]|reflexivity]. Qed.
Print Assumptions C39_outside_refuted.
Print Assumptions C39_empty_refuted.
