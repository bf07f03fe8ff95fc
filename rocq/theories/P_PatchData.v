(** C38: splitting and merging the data of patches moves whole objects to where they belong. *)
From Coq Require Import Reals Lra.
From Flocq Require Import Core BinarySingleNaN.
From Verif Require Import Base Par Scan Scan_spec Reduction Layer Layer_spec Patch Patch_spec PatchTree Sched Sched_spec
  F64 Domain Domain_spec PatchData PatchData_spec.
From Verif Require PatchData_proofs PatchData_inst PatchData_refine P_Layer.
Local Open Scope Z_scope.

Section P.
Context {A : Type}.
Variables (lay lay' : layout) (ty0 : nat).
(** The main field has one variable per object. *)
Hypothesis Hlay : lay = (ty0, 1%nat) :: lay'.

(** Double precision positions.  A rank holds, under the id [key], the objects [os] of a patch with box
    [b] of the grid [g].  If all the positions are in the box of positions of the patch, splitting
    returns; each child id then holds a layer of whole objects whose positions are in the box of this
    child, these layers together contain exactly the objects, and nothing else changes.  Otherwise it
    throws, and the data of the rank is unchanged. *)
Theorem C38_split_float : forall (posv : A -> vec3 f64) fma g box E key d ps b os L,
  grid_ok g -> box_ok box -> inside b g -> (forall k, good_envs (E k)) -> good_layout lay -> fits lay (length os) -> stores lay os L ->
  d key = Some L -> replaces d key b ps ->
  (Forall (fun o => main_is o (fun v => f_contains fma g box b (posv v))) os /\
   exists d' parts, pd_split f_leb f_ltb posv (patch_coord_to_domain fma g box) lay E key ps d = Ret d' /\
     Forall2 (fun p part => (exists M, d' (p_id p) = Some M /\ stores lay part M) /\
                            Forall (fun o => main_is o (fun v => f_contains fma g box (p_box p) (posv v))) part) ps parts /\
     Permutation (concat parts) os /\
     (forall k, ~ In k (map p_id ps) -> d' k = if k =? key then None else d k)) \/
  (Exists (fun o => ~ main_is o (fun v => f_contains fma g box b (posv v))) os /\
   pd_split f_leb f_ltb posv (patch_coord_to_domain fma g box) lay E key ps d = Raise d).
Proof. exact (PatchData_inst.split_float lay lay' ty0 Hlay). Qed.

(** The same for integer positions. *)
Theorem C38_split_int : forall (posv : A -> vec3 Z) g box E key d ps b os L,
  grid_ok g -> ibox_ok box -> commensurable g box -> is_err_range_u64 box = false ->
  inside b g -> (forall k, good_envs (E k)) -> good_layout lay -> fits lay (length os) -> stores lay os L ->
  d key = Some L -> replaces d key b ps ->
  (Forall (fun o => main_is o (fun v => i_contains g box b (posv v))) os /\
   exists d' parts, pd_split Z.leb Z.ltb posv (patch_coord_to_domain_u64 g box) lay E key ps d = Ret d' /\
     Forall2 (fun p part => (exists M, d' (p_id p) = Some M /\ stores lay part M) /\
                            Forall (fun o => main_is o (fun v => i_contains g box (p_box p) (posv v))) part) ps parts /\
     Permutation (concat parts) os /\
     (forall k, ~ In k (map p_id ps) -> d' k = if k =? key then None else d k)) \/
  (Exists (fun o => ~ main_is o (fun v => i_contains g box b (posv v))) os /\
   pd_split Z.leb Z.ltb posv (patch_coord_to_domain_u64 g box) lay E key ps d = Raise d).
Proof. exact (PatchData_inst.split_int lay lay' ty0 Hlay). Qed.

(** Merging: the new id holds all the objects of the old ids, one after the other; the old ids are gone;
    nothing else changes.  If the rank misses one of the old ids it throws and changes nothing. *)
Theorem C38_merge : forall (E : nat -> lenv A) new keys d oss,
  (forall k, good_envs (E k)) -> good_layout lay -> fits lay (length (concat oss)) ->
  Forall2 (fun k os => exists L, d k = Some L /\ stores lay os L) keys oss -> (In new keys \/ d new = None) ->
  exists d' M, pd_merge lay E new keys d = Ret d' /\ d' new = Some M /\ stores lay (concat oss) M /\
    (forall k, k <> new -> d' k = if existsb (Z.eqb k) keys then None else d k).
Proof. exact (PatchData_proofs.pd_merge_ok lay). Qed.
Theorem C38_merge_missing : forall (E : nat -> lenv A) new keys d,
  (exists k, In k keys /\ d k = None) -> pd_merge lay E new keys d = Raise d.
Proof. exact (PatchData_proofs.pd_merge_missing lay). Qed.

(** No patch of the rank is overwritten: when a new id is already used by another patch of the rank, the
    split or merge does not succeed. *)
Theorem C38_no_overwrite :
  (forall C (leb ltb : C -> C -> bool) (posv : A -> vec3 C) conv E key ps (d d' : owned (A := A)) p,
     pd_split leb ltb posv conv lay E key ps d = Ret d' -> d key <> None -> In p ps -> p_id p <> key -> d (p_id p) = None) /\
  (forall (E : nat -> lenv A) new keys (d d' : owned (A := A)), pd_merge lay E new keys d = Ret d' -> In new keys \/ d new = None).
Proof.
  split; [intros; eapply PatchData_proofs.pd_split_free; eauto|intros; eapply PatchData_proofs.pd_merge_free; eauto].
Qed.

(** The model of the scheduler (C27 to C31) works with lists of objects and their cells instead of layers:
    there is a cell for each object, which agrees with the boxes of positions, such that splitting and
    merging layers is what that model says. *)
Theorem C38_split_float_refines : forall (posv : A -> vec3 f64) fma g box, grid_ok g -> box_ok box -> good_layout lay ->
  exists cellof : object A -> v3,
    (forall o c, shaped lay o -> inside c g -> (main_is o (fun v => f_contains fma g box c (posv v)) <-> in_box (cellof o) c)) /\
    forall E (da : dmap (object A)) d key b ps os, (forall k, good_envs (E k)) -> same_data lay da d -> da key = Some os ->
      replaces d key b ps -> inside b g ->
      (exists da' d', split_patchdata (object A) cellof key ps da = Ok da' /\
         pd_split f_leb f_ltb posv (patch_coord_to_domain fma g box) lay E key ps d = Ret d' /\ same_data lay da' d') \/
      (split_patchdata (object A) cellof key ps da = Throw /\
       pd_split f_leb f_ltb posv (patch_coord_to_domain fma g box) lay E key ps d = Raise d).
Proof. exact (PatchData_refine.float_refines lay lay' ty0 Hlay). Qed.
Theorem C38_split_int_refines : forall (posv : A -> vec3 Z) g box,
  grid_ok g -> ibox_ok box -> commensurable g box -> is_err_range_u64 box = false -> good_layout lay ->
  exists cellof : object A -> v3,
    (forall o c, shaped lay o -> inside c g -> (main_is o (fun v => i_contains g box c (posv v)) <-> in_box (cellof o) c)) /\
    forall E (da : dmap (object A)) d key b ps os, (forall k, good_envs (E k)) -> same_data lay da d -> da key = Some os ->
      replaces d key b ps -> inside b g ->
      (exists da' d', split_patchdata (object A) cellof key ps da = Ok da' /\
         pd_split Z.leb Z.ltb posv (patch_coord_to_domain_u64 g box) lay E key ps d = Ret d' /\ same_data lay da' d') \/
      (split_patchdata (object A) cellof key ps da = Throw /\
       pd_split Z.leb Z.ltb posv (patch_coord_to_domain_u64 g box) lay E key ps d = Raise d).
Proof. exact (PatchData_refine.int_refines lay lay' ty0 Hlay). Qed.
Theorem C38_merge_refines : forall (E : nat -> lenv A) (da : dmap (object A)) d new keys,
  (forall k, good_envs (E k)) -> good_layout lay -> same_data lay da d -> (In new keys \/ da new = None) ->
  (forall os, d_gets _ da keys = Ok os -> fits lay (length os)) ->
  (exists da' d', merge_patchdata (object A) new keys da = Ok da' /\ pd_merge lay E new keys d = Ret d' /\ same_data lay da' d') \/
  (merge_patchdata (object A) new keys da = Throw /\ pd_merge lay E new keys d = Raise d).
Proof. exact (PatchData_refine.merge_refines lay). Qed.
End P.
Print Assumptions C38_split_float.
Print Assumptions C38_split_int.
Print Assumptions C38_merge.
Print Assumptions C38_merge_missing.
Print Assumptions C38_no_overwrite.
Print Assumptions C38_split_float_refines.
Print Assumptions C38_split_int_refines.
Print Assumptions C38_merge_refines.

(** ** A concrete case: a patch of 4^3 cells, positions in [10, 18)^3, three objects with two fields. *)
Definition ex_lay : layout := [(0, 1); (1, 2)]%nat.
Definition pv (x y z : Z) : vec3 Z := W3 x y z.
Definition ex_obj (p : vec3 Z) (k : Z) : object (vec3 Z) := [[p]; [pv k k k; pv 0 0 k]].
Definition ex_os : list (object (vec3 Z)) := [ex_obj (pv 10 10 17) 1; ex_obj (pv 14 10 10) 2; ex_obj (pv 11 12 16) 3].
Definition ex_layer : layer (vec3 Z) := map (fun '(k, (ty, nv)) => Field ty nv (column k ex_os)) (combine (seq 0 2) ex_lay).
Definition ex_g : pcoord := PC (V3 0 0 0) (V3 3 3 3).
Definition ex_box : range Z := (pv 10 10 10, pv 18 18 18).
Definition ex_d : owned (A := vec3 Z) := fun k => if k =? 5 then Some ex_layer else None.
Definition ex_ps : list patch :=
  map (fun '(i, b) => Patch i u64_max 0 b 0) (combine [5; 11; 12; 13; 14; 15; 16; 17] (get_split ex_g)).
Definition ex_E : nat -> lenv (vec3 Z) := fun _ _ => P_Layer.ex_env (pv 0 0 0).
Definition ex_split := pd_split Z.leb Z.ltb (fun p => p) (patch_coord_to_domain_u64 ex_g ex_box) ex_lay ex_E 5 ex_ps.
Example C38_nonvacuous :
  grid_ok ex_g /\ ibox_ok ex_box /\ commensurable ex_g ex_box /\ is_err_range_u64 ex_box = false /\ inside ex_g ex_g /\
  (forall k, good_envs (ex_E k)) /\ good_layout ex_lay /\ fits ex_lay (length ex_os) /\ stores ex_lay ex_os ex_layer /\
  replaces ex_d 5 ex_g ex_ps /\
  exists d', ex_split ex_d = Ret d' /\
    map (fun k => option_map (map (fun f => f_buf f)) (d' k)) [5; 11; 14] =
      [Some [[]; []];
       Some [[pv 10 10 17; pv 11 12 16]; [pv 1 1 1; pv 0 0 1; pv 3 3 3; pv 0 0 3]];
       Some [[pv 14 10 10]; [pv 2 2 2; pv 0 0 2]]].
Proof.
  split; [unfold grid_ok, u64_max; cbn; lia|]. split; [unfold ibox_ok, ibounds_ok, u64_max; cbn; lia|].
  split; [left; cbn; lia|]. split; [reflexivity|]. split; [unfold inside; cbn; lia|].
  split; [intros k j; apply P_Layer.ex_env_good|]. split; [split; [discriminate|repeat constructor]|].
  split; [split; [cbn; lia|repeat constructor]|]. split; [split; [repeat constructor|reflexivity]|].
  split.
  { split; [unfold splittable, side_ok; cbn; lia|]. split; [reflexivity|]. split.
    - repeat (constructor; [cbn; intuition discriminate|]). constructor.
    - intros p Hp. cbn in Hp. repeat destruct Hp as [<-|Hp]; try contradiction; cbn; auto. }
  eexists. split; [vm_compute; reflexivity|]. vm_compute. reflexivity.
Qed.
(** One object outside: the exception, and the data of the rank unchanged. *)
Example C38_outside : exists d, d 5 <> None /\ ex_split d = Raise d.
Proof.
  exists (fun k => if k =? 5 then Some [Field 0 1 [pv 10 10 17; pv 11 20 16]; Field 1 2 [pv 0 0 0; pv 0 0 0; pv 0 0 0; pv 0 0 0]] else None).
  split; [discriminate|]. vm_compute. reflexivity.
Qed.
