(** Vocabulary of the statements about exports for display. *)
From Coq Require Import ZArith List Bool.
From Flocq Require Import Core BinarySingleNaN.
From Verif Require Import Util Grid Occ OccProofs FloatModel SurfaceSpec DisplayModel.
Import ListNotations.
Local Open Scope Z_scope.

(** The marker has a cube at the centre of cell [i], of colour [c], exactly for the pairs
    in [S], and one only. *)
Definition shows {P} (centre : idx -> P) (m : marker P) (S : idx -> color -> Prop) : Prop :=
  exists l : list (idx * color), NoDup (map fst l) /\
    mk_points P m = map (fun e => centre (fst e)) l /\ mk_colors P m = map snd l /\
    forall i c, In (i, c) l <-> S i c.

(** Alpha is a positive number. *)
Definition opaque (c : color) : Prop := Bltb (B754_zero false) (ca c) = true.

(** The cell of index [i] has the value [v]. *)
Definition cell_is {C} (g : grid C) (i : idx) (v : C) : Prop := gget g i = Some v.

(** The colour of cell [i] by how its occupancy compares with 0.5; NaN counts as
    unknown. *)
Definition kind_color {C} (occ_of : C -> occ) (g : grid C) (collision free unknown : color) (i : idx) (c : color) : Prop :=
  (side_is occ_of g i (Some Gt) /\ c = collision) \/
  (side_is occ_of g i (Some Lt) /\ c = free) \/
  ((side_is occ_of g i (Some Eq) \/ side_is occ_of g i None) /\ c = unknown).

(** The colour the caller of an export with object colours asks for. *)
Definition asked_color (m : list (Z * color)) (default : Z -> color) (object : Z) (c : color) : Prop :=
  (m <> [] /\ In (object, c) m) \/ (m = [] /\ c = default object).

(** A cell next to (also diagonally) one of another kind. *)
Definition surface_cell {C} (occ_of : C -> occ) (g : grid C) (i : idx) : Prop :=
  exists j r r', around i j /\ side_is occ_of g i (Some r) /\ side_is occ_of g j (Some r') /\ r <> r'.
