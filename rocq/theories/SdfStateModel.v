(** Model of the lock state and cached minimum/maximum of a signed distance field,
    /repo/include/voxelized_geometry_tools/signed_distance_field.hpp. *)
From Coq Require Import ZArith List Bool.
From Verif Require Import Util Grid.
Import ListNotations.
Local Open Scope Z_scope.

Section SdfState.
(** The scalar type with its [operator<]. *)
Variables (S : Type) (lt : S -> S -> bool) (s0 : S).

(** signed_distance_field.hpp:191-211: stored values, [locked_] and
    [minimum_maximum_].  [f_refs] lists the cells to which the caller still holds a
    mutable reference obtained from GetIndexMutable (the reference is a plain C++
    reference; the object does not know about it).  Simplification: frame, origin
    transform and default values are not represented here. *)
Record field_state : Type := mkField {
  f_grid : grid S;
  f_locked : bool;
  f_minmax : S * S;
  f_refs : list idx }.

(** signed_distance_field.hpp:736-758, the constructors. *)
Definition f_construct (nx ny nz : Z) (default : S) : field_state :=
  mkField (gconst nx ny nz default) false (s0, s0) [].

(** std::minmax_element: the first smallest and the last largest element.  On an
    empty range the code dereferences the end iterator: no answer. *)
Definition minmax_step (a : S * S) (x : S) : S * S :=
  (if lt x (fst a) then x else fst a, if lt x (snd a) then snd a else x).
Definition minmax_element (l : list S) : option (S * S) :=
  match l with [] => None | x :: t => Some (fold_left minmax_step t (x, x)) end.

(** signed_distance_field.hpp:178-186: the constructor of the result throws when
    minimum > maximum. *)
Definition make_minmax (a : S * S) : option (S * S) :=
  if lt (snd a) (fst a) then None else Some a.

(** signed_distance_field.hpp:765-779, GetMinimumMaximum. *)
Definition get_minmax (s : field_state) : option (S * S) :=
  if f_locked s then Some (f_minmax s)
  else let* m := minmax_element (g_cells (f_grid s)) in make_minmax m.

(** signed_distance_field.hpp:783-787, Lock, and 789, Unlock. *)
Definition f_lock (s : field_state) : option field_state :=
  let* m := get_minmax s in Some (mkField (f_grid s) true m (f_refs s)).
Definition f_unlock (s : field_state) : field_state :=
  mkField (f_grid s) false (f_minmax s) (f_refs s).

(** signed_distance_field.hpp:599-607, OnMutableAccess, and 610, OnMutableRawAccess. *)
Definition on_mutable_access (s : field_state) : bool := negb (f_locked s).

Definition with_grid (s : field_state) (g : grid S) : field_state :=
  mkField g (f_locked s) (f_minmax s) (f_refs s).

(** Calls of the public API. *)
Inductive fop : Type :=
| FSet (i : idx) (v : S)           (* SetIndex / SetLocation *)
| FAcquire (i : idx)               (* GetIndexMutable, keeping the reference *)
| FRefWrite (k : nat) (v : S)      (* assignment through the k-th kept reference *)
| FDropRefs                        (* the kept references go out of scope *)
| FRawSet (k : Z) (v : S)          (* GetMutableRawData().at(k) = v *)
| FLock | FUnlock
| FMinMax                          (* GetMinimumMaximum *)
| FGet (i : idx)                   (* GetIndexImmutable *)
| FReload (g : grid S) (locked : bool). (* DeserializeSelf from bytes of such an SDF *)

(** What a call reports. *)
Inductive fout : Type :=
| RDone | RRefused | ROutOfBounds | RThrows
| RMinMax (m : S * S) | RValue (v : option S).

(** One call.  SetIndex and GetIndexMutable (VoxelGridBase) check bounds, then ask
    [OnMutableAccess]; GetMutableRawData asks [OnMutableRawAccess] and throws when
    refused.  [FReload]: VoxelGridBase::DeserializeSelf replaces the stored values
    without asking, then DerivedDeserializeSelf (signed_distance_field.hpp:565-596)
    calls Lock or Unlock; references into the old storage become unusable. *)
Definition fstep (s : field_state) (o : fop) : field_state * fout :=
  match o with
  | FSet i v =>
      if in_bounds (f_grid s) i then
        if on_mutable_access s then (with_grid s (gset (f_grid s) i v), RDone) else (s, RRefused)
      else (s, ROutOfBounds)
  | FAcquire i =>
      if in_bounds (f_grid s) i then
        if on_mutable_access s
        then (mkField (f_grid s) (f_locked s) (f_minmax s) (f_refs s ++ [i]), RDone)
        else (s, RRefused)
      else (s, ROutOfBounds)
  | FRefWrite k v =>
      match nth_error (f_refs s) k with
      | Some i => (with_grid s (gset (f_grid s) i v), RDone)
      | None => (s, RRefused)
      end
  | FDropRefs => (mkField (f_grid s) (f_locked s) (f_minmax s) [], RDone)
  | FRawSet k v =>
      if on_mutable_access s then
        match zset (g_cells (f_grid s)) k v with
        | Some c => (with_grid s (mkGrid (g_nx (f_grid s)) (g_ny (f_grid s)) (g_nz (f_grid s)) c), RDone)
        | None => (s, RThrows)
        end
      else (s, RThrows)
  | FLock => match f_lock s with Some s' => (s', RDone) | None => (s, RThrows) end
  | FUnlock => (f_unlock s, RDone)
  | FMinMax => (s, match get_minmax s with Some m => RMinMax m | None => RThrows end)
  | FGet i => (s, RValue (gget (f_grid s) i))
  | FReload g locked =>
      let s1 := mkField g (f_locked s) (f_minmax s) [] in
      if locked then match f_lock s1 with Some s' => (s', RDone) | None => (s1, RThrows) end
      else (f_unlock s1, RDone)
  end.

Fixpoint frun (s : field_state) (ops : list fop) : field_state * list fout :=
  match ops with
  | [] => (s, [])
  | o :: t => let '(s1, r) := fstep s o in
              let '(s2, rs) := frun s1 t in (s2, r :: rs)
  end.
End SdfState.

Arguments mkField {S}. Arguments f_grid {S}. Arguments f_locked {S}. Arguments f_minmax {S}.
Arguments f_refs {S}. Arguments f_construct {S}. Arguments FSet {S}. Arguments FAcquire {S}.
Arguments FRefWrite {S}. Arguments FDropRefs {S}. Arguments FRawSet {S}. Arguments FLock {S}.
Arguments FUnlock {S}. Arguments FMinMax {S}. Arguments FGet {S}. Arguments FReload {S}.
Arguments RDone {S}. Arguments RRefused {S}. Arguments ROutOfBounds {S}. Arguments RThrows {S}.
Arguments RMinMax {S}. Arguments RValue {S}. Arguments get_minmax {S}. Arguments fstep {S}.
Arguments frun {S}. Arguments minmax_element {S}. Arguments f_lock {S}. Arguments minmax_step {S}.
Arguments make_minmax {S}. Arguments with_grid {S}. Arguments f_unlock {S}. Arguments on_mutable_access {S}.
