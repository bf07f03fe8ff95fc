(** Model of the patch boxes (src/shamrock/include/shamrock/patch/PatchCoord.hpp) and of the patch
    metadata (src/shamrock/include/shamrock/patch/Patch.hpp). *)
From Verif Require Import Base.
Local Open Scope Z_scope.

(** std::array<u64,3> *)
Record v3 := V3 { vx : Z; vy : Z; vz : Z }.

(** PatchCoord<3> (PatchCoord.hpp:24-34): inclusive bounds. *)
Record pcoord := PC { cmin : v3; cmax : v3 }.

(** One axis of get_split_coord (PatchCoord.hpp:40-42), all u64 operations wrapping. *)
Definition split_axis (lo hi : Z) : Z :=
  let len := w64 (w64 (hi - lo) + 1) in
  w64 (w64 (len / 2 - 1) + lo).

(** get_split_coord (PatchCoord.hpp:36-43). *)
Definition get_split_coord (b : pcoord) : v3 :=
  V3 (split_axis (vx (cmin b)) (vx (cmax b)))
     (split_axis (vy (cmin b)) (vy (cmax b)))
     (split_axis (vz (cmin b)) (vz (cmax b))).

(** get_split (PatchCoord.hpp:45-113). *)
Definition get_split (b : pcoord) : list pcoord :=
  let '(PC (V3 x0 y0 z0) (V3 x1 y1 z1)) := b in
  let '(V3 sx sy sz) := get_split_coord b in
  [ PC (V3 x0 y0 z0) (V3 sx sy sz);
    PC (V3 x0 y0 (w64 (sz + 1))) (V3 sx sy z1);
    PC (V3 x0 (w64 (sy + 1)) z0) (V3 sx y1 sz);
    PC (V3 x0 (w64 (sy + 1)) (w64 (sz + 1))) (V3 sx y1 z1);
    PC (V3 (w64 (sx + 1)) y0 z0) (V3 x1 sy sz);
    PC (V3 (w64 (sx + 1)) y0 (w64 (sz + 1))) (V3 x1 sy z1);
    PC (V3 (w64 (sx + 1)) (w64 (sy + 1)) z0) (V3 x1 y1 sz);
    PC (V3 (w64 (sx + 1)) (w64 (sy + 1)) (w64 (sz + 1))) (V3 x1 y1 z1) ].

(** merge of two boxes (PatchCoord.hpp:119-127). *)
Definition merge2 (a b : pcoord) : pcoord :=
  PC (V3 (Z.min (vx (cmin a)) (vx (cmin b)))
         (Z.min (vy (cmin a)) (vy (cmin b)))
         (Z.min (vz (cmin a)) (vz (cmin b))))
     (V3 (Z.max (vx (cmax a)) (vx (cmax b)))
         (Z.max (vy (cmax a)) (vy (cmax b)))
         (Z.max (vz (cmax a)) (vz (cmax b)))).

(** merge of eight boxes (PatchCoord.hpp:129-133); the C++ argument is a std::array of size 8, so
    another length is outside the model. *)
Definition merge8 (l : list pcoord) : res pcoord :=
  match l with
  | [a0; a1; a2; a3; a4; a5; a6; a7] =>
      Ok (merge2 (merge2 (merge2 a0 a1) (merge2 a2 a3)) (merge2 (merge2 a4 a5) (merge2 a6 a7)))
  | _ => UB
  end.

(** struct Patch (Patch.hpp:33-119).  The box is kept as one [pcoord] (fields coord_min/coord_max). *)
Record patch := Patch {
  p_id : Z;        (* u64 id_patch *)
  p_pack : Z;      (* u64 pack_node_index *)
  p_load : Z;      (* u64 load_value *)
  p_box : pcoord;
  p_owner : Z      (* u32 node_owner_id *)
}.

Definition set_id (i : Z) (p : patch) : patch := Patch i (p_pack p) (p_load p) (p_box p) (p_owner p).
Definition set_pack (i : Z) (p : patch) : patch := Patch (p_id p) i (p_load p) (p_box p) (p_owner p).
Definition set_owner (i : Z) (p : patch) : patch := Patch (p_id p) (p_pack p) (p_load p) (p_box p) i.

(** set_err_mode / is_err_mode (Patch.hpp:111-119). *)
Definition set_err_mode (p : patch) : patch := set_owner u32_max p.
Definition is_err_mode (p : patch) : bool := p_owner p =? u32_max.

(** Patch::get_split (Patch.hpp:221-251): eight copies with load/8 and the eight boxes. *)
Definition patch_split (p : patch) : list patch :=
  map (fun b => Patch (p_id p) (p_pack p) (p_load p / 8) b (p_owner p)) (get_split (p_box p)).

(** Patch::merge_patch (Patch.hpp:253-286). *)
Definition merge_patch8 (l : list patch) : res patch :=
  match l with
  | [a0; a1; a2; a3; a4; a5; a6; a7] =>
      b <- merge8 (map p_box l) ;;
      Ok (Patch (p_id a0) u64_max
            (fold_left (fun acc p => w64 (acc + p_load p)) [a1; a2; a3; a4; a5; a6; a7] (p_load a0))
            b (p_owner a0))
  | _ => UB
  end.
