(** Specification vocabulary for the load balancing. *)
From Verif Require Import Base LoadBalance.
Local Open Scope Z_scope.

(** what std::sort promises for the comparison [lt] on the tiles it is given *)
Definition sorts {O} (lt : O -> O -> bool) (srt : list (lbtile O) -> list (lbtile O)) (l : list (lbtile O)) : Prop :=
  Permutation (srt l) l /\ StronglySorted (fun a b => lt (b_order b) (b_order a) = false) (srt l).

Definition total_load {O} (v : list (tile O)) : Z := fold_right Z.add 0 (map load_value v).
(** load given to a rank by a table of owners *)
Fixpoint rank_load {O} (v : list (tile O)) (owners : list Z) (r : Z) : Z :=
  match v, owners with
  | t :: v', o :: os => (if o =? r then load_value t else 0) + rank_load v' os r
  | _, _ => 0
  end.
(** owners of the tiles: one per tile, valid ranks, never decreasing along the curve *)
Definition valid_owners {O} (lt : O -> O -> bool) (v : list (tile O)) (w : Z) (owners : list Z) : Prop :=
  length owners = length v /\
  (forall o, In o owners -> 0 <= o < w) /\
  (forall i j ti tj oi oj, nth_error v i = Some ti -> nth_error v j = Some tj ->
     nth_error owners i = Some oi -> nth_error owners j = Some oj ->
     lt (ordering_val ti) (ordering_val tj) = true -> oi <= oj).
