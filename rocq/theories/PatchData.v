(** Splitting and merging the data of patches: PatchDataLayer::split_patchdata
    (src/shamrock/src/patch/PatchDataLayer.cpp:425-514) and SchedulerPatchData::split_patchdata /
    merge_patchdata (src/shamrock/src/scheduler/SchedulerPatchData.cpp:248-425), on one rank.
    Definitions only.
    Simplifications: as in Layer.v; the dispatch on the type of the main field
    (SchedulerPatchData.cpp:316-343) is the choice of the parameters; logging is left out. *)
From Verif Require Import Base Par Scan Reduction Layer Layer_spec Patch Domain.
Local Open Scope nat_scope.

Fixpoint rmapm {X Y} (f : X -> res Y) (l : list X) : res (list Y) :=
  match l with [] => Ok [] | x :: t => y <- f x ;; r <- rmapm f t ;; Ok (y :: r) end.

Section PD.
Context {A C : Type}.
(** The component type of the positions with its <= and <; the position that a value of the main field
    is; SimulationBoxInfo::patch_coord_to_domain (Domain.v); the layout of the layers. *)
Variables (leb ltb : C -> C -> bool) (posv : A -> vec3 C) (conv : pcoord -> res (range C)) (lay : layout).

(** sham::min, sham::max (src/shambackends/include/shambackends/math.hpp:390-417, 519-528) on vectors.
    Of two components that compare equal (+0 and -0), which one is returned does not matter here. *)
Definition mn (a b : C) : C := if ltb b a then b else a.
Definition mx (a b : C) : C := if ltb a b then b else a.
Definition vec_map2 (f : C -> C -> C) (u v : vec3 C) : vec3 C := W3 (f (wx u) (wx v)) (f (wy u) (wy v)) (f (wz u) (wz v)).
Definition fold1 (f : vec3 C -> vec3 C -> vec3 C) (l : list (vec3 C)) : res (vec3 C) :=
  match l with [] => UB | x :: t => Ok (fold_left f t x) end.

(** PatchDataField.hpp:286-306 with the condition of PatchDataLayer.cpp:445-453. *)
Definition in_range (r : range C) (v : A) : bool := is_in_patch_converted leb ltb (posv v) (fst r) (snd r).
Definition box_ids (f : field A) (r : range C) : res (list nat) := get_ids_vec_where (in_range r) f.

(** PatchDataField.hpp:732-772 [check_err_range]; the loop is a host loop (the break after 50 errors
    does not change the outcome). *)
Definition check_err_range (r : range C) (f : field A) : res unit :=
  c <- get_obj_cnt f ;;
  if c =? 0 then Ok tt else
  if negb (f_nvar f =? 1) then Throw else
  n <- get_val_cnt f ;;
  err <- rfold (fun i err => v <- aget (f_buf f) i ;; Ok (err || negb (in_range r v))%bool) (seq 0 n) false ;;
  if err then Throw else Ok tt.

(** PatchDataLayer.cpp:505-513: append_subset_to(idx_pk, pdats[k]) for each k. *)
Fixpoint append_all (E : nat -> lenv A) (k : nat) (L : layer A) (ids : list (list nat)) (pds : list (layer A))
  : eres (list (layer A)) :=
  match ids, pds with
  | i :: ids', M :: pds' =>
      match l_append_subset_to (E k) i L M with
      | Ret (L', M') => match append_all E (S k) L' ids' pds' with
                        | Ret r => Ret (M' :: r) | Raise r => Raise (M' :: r) | Undef => Undef
                        end
      | Raise (_, M') => Raise (M' :: pds')
      | Undef => Undef
      end
  | [], [] => Ret []
  | _, _ => Undef
  end.

(** PatchDataLayer.cpp:425-514. *)
Definition l_split (E : nat -> lenv A) (boxes : list (range C)) (L : layer A) (pds : list (layer A))
  : eres (list (layer A)) :=
  match L with
  | [] => Undef
  | main :: _ =>
      match ids <- rmapm (box_ids main) boxes ;;
            n <- l_get_obj_cnt L ;;
            _ <- (if n =? w32n (list_sum (map (@length nat) ids)) then Ok tt
                  else vmin <- fold1 (vec_map2 mn) (map fst boxes) ;;
                       vmax <- fold1 (vec_map2 mx) (map snd boxes) ;;
                       check_err_range (vmin, vmax) main) ;;
            Ok ids
      with
      | Ok ids => append_all E 0 L ids pds
      | Throw => Raise pds
      | UB => Undef
      end
  end.

(** DistributedData<PatchDataLayer> of one rank; add_obj throws when the key exists
    (DistributedData.hpp:67-76). *)
Definition owned := Z -> option (layer A).
Definition o_set (d : owned) (k : Z) (v : option (layer A)) : owned := fun x => if (x =? k)%Z then v else d x.
Fixpoint o_adds (l : list (Z * layer A)) (d : owned) : eres owned :=
  match l with
  | [] => Ret d
  | (k, L) :: t => match d k with Some _ => Raise d | None => o_adds t (o_set d k (Some L)) end
  end.
(** PatchDataLayer(pdl_ptr): the fields of the layout, empty (PatchDataLayer.cpp:50-58). *)
Definition fresh : layer A := map (fun '(ty, nv) => Field ty nv []) lay.

(** SchedulerPatchData.cpp:302-358 with 248-276; the new layers are local variables. *)
Definition pd_split (E : nat -> lenv A) (key : Z) (patches : list patch) (d : owned) : eres owned :=
  match d key with
  | None => Ret d
  | Some L =>
      match rmapm (fun p => conv (p_box p)) patches with
      | Throw => Raise d
      | UB => Undef
      | Ok boxes =>
          match l_split E boxes L (map (fun _ => fresh) patches) with
          | Undef => Undef
          | Raise _ => Raise d
          | Ret pds => o_adds (combine (map p_id patches) pds) (o_set d key None)
          end
      end
  end.

(** SchedulerPatchData.cpp:360-425. *)
Fixpoint insert_all (E : nat -> lenv A) (k : nat) (M : layer A) (Ls : list (layer A)) : eres (layer A) :=
  match Ls with
  | [] => Ret M
  | L :: t => match l_insert (E k) M L with
              | Ret (M', _) => insert_all E (S k) M' t
              | Raise (M', _) => Raise M'
              | Undef => Undef
              end
  end.
Definition pd_merge (E : nat -> lenv A) (new_key : Z) (old_keys : list Z) (d : owned) : eres owned :=
  match rmapm (fun k => match d k with Some L => Ok L | None => Throw end) old_keys with
  | Throw => Raise d
  | UB => Undef
  | Ok Ls =>
      match insert_all E 0 fresh Ls with
      | Undef => Undef
      | Raise _ => Raise d
      | Ret M => o_adds [(new_key, M)] (fold_left (fun d k => o_set d k None) old_keys d)
      end
  end.
End PD.
