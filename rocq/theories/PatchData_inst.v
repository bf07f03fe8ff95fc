(** Splitting, for double precision and integer positions. *)
From Coq Require Import Reals Lra.
From Flocq Require Import Core BinarySingleNaN.
From Verif Require Import Base Par Scan Scan_spec Reduction Layer Layer_spec
  Patch Patch_spec Patch_proofs PatchTree Sched Sched_spec Sched_proofs F64 Domain Domain_spec Domain_cell Domain_f64 Domain_u64
  PatchData PatchData_spec PatchData_layer PatchData_proofs.
From Coq Require Import ZifyBool ZifyNat.
Local Open Scope Z_scope.

Lemma f_leb_transitive a b c : f_leb a b = true -> f_leb b c = true -> f_leb a c = true.
Proof.
  intros H1 H2. destruct (is_finite a) eqn:Fa; [destruct (is_finite b) eqn:Fb; [destruct (is_finite c) eqn:Fc|]|].
  - rewrite leb_ok in * by auto. apply Rle_bool_true.
    destruct (Rle_bool_spec (fval a) (fval b)); [|discriminate]. destruct (Rle_bool_spec (fval b) (fval c)); [|discriminate]. lra.
  - destruct c as [| [|] | |]; try discriminate; destruct b as [| [|] | |[|]]; try discriminate;
      destruct a as [|[|]| |[|]]; try discriminate; reflexivity.
  - destruct b as [|[|]| |]; try discriminate; destruct a as [|[|]| |[|]]; try discriminate;
      destruct c as [|[|]| |[|]]; try discriminate; reflexivity.
  - destruct a as [|[|]| |]; try discriminate; destruct b as [|[|]| |[|]]; try discriminate;
      destruct c as [|[|]| |[|]]; try discriminate; reflexivity.
Qed.
Lemma f_leb_refl a : is_finite a = true -> f_leb a a = true.
Proof. intros H. rewrite leb_ok by auto. apply Rle_bool_true. lra. Qed.
Lemma axis_of_finite fma slo shi dlo dhi c : (0 <= slo <= shi) -> (shi + 1 < 2 ^ 64) -> bounds_ok dlo dhi -> slo <= c <= shi + 1 ->
  is_finite (axis_of fma slo shi dlo dhi c) = true.
Proof.
  intros Hs Hs2 B Hc. destruct (axis_fact_ok slo (shi + 1) dlo dhi) as (F & _ & V); auto; [lia|].
  destruct B as (F1 & F2 & L & B1 & B2). rewrite pow900 in *. apply crt_axis_ok; auto; lia.
Qed.

Section X.
Context {A : Type}.
Variables (lay lay' : layout) (ty0 : nat).
Hypothesis Hlay : lay = (ty0, 1%nat) :: lay'.
Notation pos_split leb ltb posv conv := (pd_split leb ltb posv conv lay).

(** The same statement for any test [contains] that a cell decides. *)
Lemma split_public {C} (posv : A -> vec3 C) (contains : pcoord -> vec3 C -> Prop) (cellof : object A -> v3) (d : owned (A := A)) (ps : list patch) key b
  (os : list (object A)) (m : eres (owned (A := A))) g : Forall (shaped lay) os -> replaces d key b ps -> inside b g ->
  (forall o c, shaped lay o -> inside c g -> (main_is o (fun v => contains c (posv v)) <-> in_box (cellof o) c)) ->
  (Forall (fun o => in_box (cellof o) b) os /\
   exists d', m = Ret d' /\
     (forall i p, nth_error ps i = Some p -> exists M, d' (p_id p) = Some M /\ stores lay (filter (fun o => in_boxb (cellof o) (p_box p)) os) M) /\
     (forall k, ~ In k (map p_id ps) -> d' k = if k =? key then None else d k)) \/
  (Exists (fun o => ~ in_box (cellof o) b) os /\ m = Raise d) ->
  (Forall (fun o => main_is o (fun v => contains b (posv v))) os /\
   exists d' parts, m = Ret d' /\
     Forall2 (fun p part => (exists M, d' (p_id p) = Some M /\ stores lay part M) /\
                            Forall (fun o => main_is o (fun v => contains (p_box p) (posv v))) part) ps parts /\
     Permutation (concat parts) os /\
     (forall k, ~ In k (map p_id ps) -> d' k = if k =? key then None else d k)) \/
  (Exists (fun o => ~ main_is o (fun v => contains b (posv v))) os /\ m = Raise d).
Proof.
  intros HS (Hb & Eb & ND & HN) Hi Hc [(FA & d' & E & D1 & D2)|(EX & E)]; [left|right].
  - assert (IN : forall o, In o os -> shaped lay o) by (intros o Ho; eapply Forall_forall; eauto).
    split. { rewrite Forall_forall in *. intros o Ho. apply Hc; auto. }
    exists d', (map (fun p => filter (fun o => in_boxb (cellof o) (p_box p)) os) ps). split; auto. split; [|split; auto].
    + assert (G : forall l, (forall p, In p l -> In p ps) ->
        Forall2 (fun p part => (exists M, d' (p_id p) = Some M /\ stores lay part M) /\
                            Forall (fun o => main_is o (fun v => contains (p_box p) (posv v))) part) l
          (map (fun p => filter (fun o => in_boxb (cellof o) (p_box p)) os) l)).
      { induction l as [|p l IH]; intros Hl; cbn [map]; constructor.
        - split.
          + destruct (In_nth_error ps p (Hl p (or_introl eq_refl))) as (i & Ni). eapply D1; eauto.
          + apply Forall_forall. intros o Ho. apply filter_In in Ho as (Ho & Bo). apply in_boxb_spec in Bo. apply Hc; auto.
            eapply child_inside; eauto. rewrite <- Eb. apply in_map. apply Hl. now left.
        - apply IH. intros q Hq. apply Hl. now right. }
      apply G. auto.
    + pose proof (get_split_partition b Hb) as (P1 & P2).
      rewrite <- (map_map p_box (fun c => filter (fun o => in_boxb (cellof o) c) os)), Eb. apply split_objs; auto.
      intros o Ho. apply P1. eapply Forall_forall in FA; eauto.
  - split; auto. apply Exists_exists in EX as (o & Ho & No). apply Exists_exists. exists o. split; auto.
    rewrite (Hc o b); auto. eapply Forall_forall; eauto.
Qed.

Definition f_objcell (posv : A -> vec3 f64) fma g (box : range f64) : object A -> v3 :=
  objcell f_leb posv (axis_of fma (vx (cmin g)) (vx (cmax g)) (wx (fst box)) (wx (snd box)))
    (axis_of fma (vy (cmin g)) (vy (cmax g)) (wy (fst box)) (wy (snd box)))
    (axis_of fma (vz (cmin g)) (vz (cmax g)) (wz (fst box)) (wz (snd box))) g.
Lemma f_objcell_spec posv fma g box : grid_ok g -> box_ok box ->
  forall o c, shaped lay o -> inside c g -> (main_is o (fun v => f_contains fma g box c (posv v)) <-> in_box (f_objcell posv fma g box o) c).
Proof.
  intros HG HB o c So Hc. destruct (main_value lay ty0 lay' Hlay o So) as (v & o' & ->). unfold f_objcell. cbn [main_is objcell].
  now apply f_contains_cell.
Qed.
Lemma split_float_cell (posv : A -> vec3 f64) fma g box E key d ps b os L :
  grid_ok g -> box_ok box -> inside b g -> (forall k, good_envs (E k)) -> good_layout lay -> fits lay (length os) -> stores lay os L ->
  d key = Some L -> replaces d key b ps ->
  (Forall (fun o => in_box (f_objcell posv fma g box o) b) os /\
   exists d', pos_split f_leb f_ltb posv (patch_coord_to_domain fma g box) E key ps d = Ret d' /\
     (forall i p, nth_error ps i = Some p -> exists M, d' (p_id p) = Some M /\ stores lay (filter (fun o => in_boxb (f_objcell posv fma g box o) (p_box p)) os) M) /\
     (forall k, ~ In k (map p_id ps) -> d' k = if k =? key then None else d k)) \/
  (Exists (fun o => ~ in_box (f_objcell posv fma g box o) b) os /\ pos_split f_leb f_ltb posv (patch_coord_to_domain fma g box) E key ps d = Raise d).
Proof.
  intros HG HB Hi HE HL HF HS Hd HR.
  pose proof HG as (GX & GX' & GY & GY' & GZ & GZ'). pose proof HB as (BX & BY & BZ). unfold u64_max in *.
  eapply (pd_split_ok f_leb f_ltb posv (patch_coord_to_domain fma g box) lay
       (axis_of fma (vx (cmin g)) (vx (cmax g)) (wx (fst box)) (wx (snd box)))
       (axis_of fma (vy (cmin g)) (vy (cmax g)) (wy (fst box)) (wy (snd box)))
       (axis_of fma (vz (cmin g)) (vz (cmax g)) (wz (fst box)) (wz (snd box))) g HG); eauto.
      - apply axis_increasing; auto; lia.
      - apply axis_increasing; auto; lia.
      - apply axis_increasing; auto; lia.
      - intros c Hc. apply f_leb_refl, axis_of_finite; auto; lia.
      - intros c Hc. apply f_leb_refl, axis_of_finite; auto; lia.
      - intros c Hc. apply f_leb_refl, axis_of_finite; auto; lia.
      - apply f_leb_transitive.
      - intros c Hc. now apply to_domain_image.
Qed.
Lemma split_float (posv : A -> vec3 f64) fma g box E key d ps b os L :
  grid_ok g -> box_ok box -> inside b g -> (forall k, good_envs (E k)) -> good_layout lay -> fits lay (length os) -> stores lay os L ->
  d key = Some L -> replaces d key b ps ->
  (Forall (fun o => main_is o (fun v => f_contains fma g box b (posv v))) os /\
   exists d' parts, pos_split f_leb f_ltb posv (patch_coord_to_domain fma g box) E key ps d = Ret d' /\
     Forall2 (fun p part => (exists M, d' (p_id p) = Some M /\ stores lay part M) /\
                            Forall (fun o => main_is o (fun v => f_contains fma g box (p_box p) (posv v))) part) ps parts /\
     Permutation (concat parts) os /\
     (forall k, ~ In k (map p_id ps) -> d' k = if k =? key then None else d k)) \/
  (Exists (fun o => ~ main_is o (fun v => f_contains fma g box b (posv v))) os /\
   pos_split f_leb f_ltb posv (patch_coord_to_domain fma g box) E key ps d = Raise d).
Proof.
  intros HG HB Hi HE HL HF HS Hd HR.
  apply (split_public posv (f_contains fma g box) (f_objcell posv fma g box) d ps key b os _ g); auto; [apply HS| |].
  - now apply f_objcell_spec.
  - now apply (split_float_cell posv fma g box E key d ps b os L).
Qed.

Definition i_objcell (posv : A -> vec3 Z) t g (box : range Z) : object A -> v3 :=
  objcell Z.leb posv (iaxis (tu_mult t) (wx (tu_fact t)) (wx (fst box)) (vx (cmin g)))
       (iaxis (tu_mult t) (wy (tu_fact t)) (wy (fst box)) (vy (cmin g)))
       (iaxis (tu_mult t) (wz (tu_fact t)) (wz (fst box)) (vz (cmin g))) g.
Lemma i_objcell_spec posv t g box : grid_ok g -> ibox_ok box -> crt_u64_of g box = Ok t ->
  forall o c, shaped lay o -> inside c g -> (main_is o (fun v => i_contains g box c (posv v)) <-> in_box (i_objcell posv t g box o) c).
Proof.
  intros HG HB HE o c So Hc. destruct (main_value lay ty0 lay' Hlay o So) as (v & o' & ->). unfold i_objcell. cbn [main_is objcell].
  now apply i_contains_cell.
Qed.
Lemma split_int_cell (posv : A -> vec3 Z) t g box E key d ps b os L :
  grid_ok g -> ibox_ok box -> crt_u64_of g box = Ok t ->
  inside b g -> (forall k, good_envs (E k)) -> good_layout lay -> fits lay (length os) -> stores lay os L ->
  d key = Some L -> replaces d key b ps ->
  (Forall (fun o => in_box (i_objcell posv t g box o) b) os /\
   exists d', pos_split Z.leb Z.ltb posv (patch_coord_to_domain_u64 g box) E key ps d = Ret d' /\
     (forall i p, nth_error ps i = Some p -> exists M, d' (p_id p) = Some M /\ stores lay (filter (fun o => in_boxb (i_objcell posv t g box o) (p_box p)) os) M) /\
     (forall k, ~ In k (map p_id ps) -> d' k = if k =? key then None else d k)) \/
  (Exists (fun o => ~ in_box (i_objcell posv t g box o) b) os /\ pos_split Z.leb Z.ltb posv (patch_coord_to_domain_u64 g box) E key ps d = Raise d).
Proof.
  intros HG HB Ec Hi HE HL HF HS Hd HR.
  destruct (crt_u64_of_cases g box HG HB) as [E'|(t' & E' & HT)]; [congruence|]. assert (t' = t) by congruence. subst t'.
  pose proof HT as (TD & TS & TX & TY & TZ).
  pose proof HG as (GX & GX' & GY & GY' & GZ & GZ'). pose proof HB as (BX & BY & BZ).
  eapply (pd_split_ok Z.leb Z.ltb posv (patch_coord_to_domain_u64 g box) lay
       (iaxis (tu_mult t) (wx (tu_fact t)) (wx (fst box)) (vx (cmin g)))
       (iaxis (tu_mult t) (wy (tu_fact t)) (wy (fst box)) (vy (cmin g)))
       (iaxis (tu_mult t) (wz (tu_fact t)) (wz (fst box)) (vz (cmin g))) g HG); eauto.
      - eapply iaxis_increasing; eauto.
      - eapply iaxis_increasing; eauto.
      - eapply iaxis_increasing; eauto.
      - intros c _. apply Z.leb_refl.
      - intros c _. apply Z.leb_refl.
      - intros c _. apply Z.leb_refl.
      - intros x y z. lia.
      - intros c Hc. unfold patch_coord_to_domain_u64. fold (crt_u64_of g box). rewrite Ec. cbn [rbind].
        pose proof (to_domain_u64_image g box c t HG Hc HT) as Q. destruct (get_patch_range c). now rewrite Q.
Qed.
Lemma split_int (posv : A -> vec3 Z) g box E key d ps b os L :
  grid_ok g -> ibox_ok box -> commensurable g box -> is_err_range_u64 box = false ->
  inside b g -> (forall k, good_envs (E k)) -> good_layout lay -> fits lay (length os) -> stores lay os L ->
  d key = Some L -> replaces d key b ps ->
  (Forall (fun o => main_is o (fun v => i_contains g box b (posv v))) os /\
   exists d' parts, pos_split Z.leb Z.ltb posv (patch_coord_to_domain_u64 g box) E key ps d = Ret d' /\
     Forall2 (fun p part => (exists M, d' (p_id p) = Some M /\ stores lay part M) /\
                            Forall (fun o => main_is o (fun v => i_contains g box (p_box p) (posv v))) part) ps parts /\
     Permutation (concat parts) os /\
     (forall k, ~ In k (map p_id ps) -> d' k = if k =? key then None else d k)) \/
  (Exists (fun o => ~ main_is o (fun v => i_contains g box b (posv v))) os /\
   pos_split Z.leb Z.ltb posv (patch_coord_to_domain_u64 g box) E key ps d = Raise d).
Proof.
  intros HG HB HC HEr Hi HE HL HF HS Hd HR.
  destruct (proj1 (make_crt_u64_iff g box HG HB) HC) as (t & Et).
  assert (Ec : crt_u64_of g box = Ok t) by (unfold crt_u64_of; now rewrite HEr).
  apply (split_public posv (i_contains g box) (i_objcell posv t g box) d ps key b os _ g); auto; [apply HS| |].
  - now apply i_objcell_spec.
  - now apply (split_int_cell posv t g box E key d ps b os L).
Qed.
End X.
