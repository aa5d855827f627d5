(** Vocabulary of the statements about component maps. *)
From Coq Require Import ZArith List Bool.
From Flocq Require BinarySingleNaN.
From Verif Require Import Grid Occ OccProofs FloatModel ComponentSpec ComponentMapModel.
Import ListNotations.
Local Open Scope Z_scope.

(** The cells [i] and [j] of the grid are on the same side of the 0.5 threshold
    (both above, both below, or both equal to it; a NaN is on no side). *)
Definition same_side {C} (occ_of : C -> occ) (g : grid C) (i j : idx) : Prop :=
  exists a b r, gget g i = Some a /\ gget g j = Some b /\
    cmp_half (occ_of a) = Some r /\ cmp_half (occ_of b) = Some r.

Definition same_object (g : grid tccell) (i j : idx) : Prop :=
  exists a b, gget g i = Some a /\ gget g j = Some b /\ t_obj a = t_obj b.

Definition in_grid {C} (g : grid C) (i : idx) : Prop := in_bounds g i = true.

(** The number [f] of the cell [i]; 0 outside (never used outside). *)
Definition label {C} (f : C -> Z) (g : grid C) (i : idx) : Z :=
  match gget g i with Some c => f c | None => 0 end.

(** Every stored occupancy is a binary32 pattern. *)
Definition occs_ok {C} (occ_of : C -> occ) (g : grid C) : Prop :=
  forall i c, gget g i = Some c -> is_occ (occ_of c).

(** Only the field written by a labelling differs. *)
Definition same_cells {C D} (view : C -> D) (g h : grid C) : Prop :=
  same_dims g h /\ forall i, option_map view (gget g i) = option_map view (gget h i).

(** ** Spatial segments *)

(** Cells taking part in the segmentation: free or belonging to an object, and with
    an extremum without infinite coordinate. *)
Definition segmented (extrema : grid vec3) (g : grid tccell) (i : idx) : Prop :=
  exists c ex ey ez, gget g i = Some c /\ gget extrema i = Some (ex, ey, ez) /\
    (cmp_half (t_occ c) = Some Lt \/ 0 < t_obj c) /\
    forall b, ex <> BinarySingleNaN.B754_infinity b /\ ey <> BinarySingleNaN.B754_infinity b /\
              ez <> BinarySingleNaN.B754_infinity b.

(** Extrema closer than the threshold, in IEEE arithmetic. *)
Definition extrema_close (extrema : grid vec3) (threshold : b64) (i j : idx) : Prop :=
  exists ax ay az bx by_ bz,
    gget extrema i = Some (ax, ay, az) /\ gget extrema j = Some (bx, by_, bz) /\
    BinarySingleNaN.Bltb
      (b64_sqrt (b64_add (b64_add (b64_mul (b64_sub ax bx) (b64_sub ax bx))
                                  (b64_mul (b64_sub ay by_) (b64_sub ay by_)))
                         (b64_mul (b64_sub az bz) (b64_sub az bz)))) threshold = true.

(** What connects two adjacent cells of a tagged map: the side of the threshold and,
    unless connecting across objects, the object. *)
Definition tm_classes (across : bool) (g : grid tccell) (i j : idx) : Prop :=
  same_side t_occ g i j /\ (across = true \/ same_object g i j).

Definition seg_classes (extrema : grid vec3) (threshold : b64) (g : grid tccell) (i j : idx) : Prop :=
  same_object g i j /\ extrema_close extrema threshold i j.

(** The stored numbers are right for the current cells. *)
Definition right_components (across : bool) (m : tmap) (n : Z) : Prop :=
  is_labelling (in_grid (tm_grid m)) (tm_classes across (tm_grid m)) (label t_comp (tm_grid m)) n.
Definition right_segments (extrema : grid vec3) (threshold : b64) (m : tmap) (n : Z) : Prop :=
  is_labelling (segmented extrema (tm_grid m)) (seg_classes extrema threshold (tm_grid m))
    (label t_seg (tm_grid m)) n /\
  (forall i, ~ segmented extrema (tm_grid m) i -> label t_seg (tm_grid m) i = 0).

(** ** Histories *)

Section Along.
Context {St Op : Type} (step : St -> Op -> option St).
Fixpoint all_along (P : St -> Op -> Prop) (s : St) (ops : list Op) : Prop :=
  match ops with
  | [] => True
  | o :: t => P s o /\ forall s', step s o = Some s' -> all_along P s' t
  end.
End Along.

(** Values a program can write: occupancies are floats, the numbers are uint32_t. *)
Definition ccell_ok (c : ccell) : Prop := is_occ (c_occ c) /\ 0 <= c_comp c < 2 ^ 32.
Definition c_writes_ok (o : cop) : Prop :=
  match o with CSet _ c | CRefSet _ c | CRawSet _ c => is_occ (c_occ c) | _ => True end.

(** No mutable reference is kept across an update. *)
Definition c_careful (s : cstate) (o : cop) : Prop :=
  c_writes_ok o /\ match o with CUpdate => snd s = [] | _ => True end.

Definition t_writes_ok (o : top) : Prop :=
  match o with TSet _ c | TRefSet _ c | TRawSet _ c => is_occ (t_occ c) | _ => True end.
Definition t_careful (s : tstate) (o : top) : Prop :=
  t_writes_ok o /\
  match o with
  | TUpdate _ => snd s = []
  | TSegments extrema _ => snd s = [] /\ gwf extrema /\ same_dims extrema (tm_grid (fst s))
  | _ => True
  end.
