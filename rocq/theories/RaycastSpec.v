(** What casting rays should do, independently of how the rays are walked. *)
From Coq Require Import ZArith List Bool.
From Verif Require Import Util Grid ComponentSpec RaycastModel.
Import ListNotations.
Local Open Scope Z_scope.

(** [k] lies in the box of cells spanned by [i] and [j]. *)
Definition in_index_box (i j k : idx) : Prop :=
  Z.min (ix i) (ix j) <= ix k <= Z.max (ix i) (ix j) /\
  Z.min (iy i) (iy j) <= iy k <= Z.max (iy i) (iy j) /\
  Z.min (iz i) (iz j) <= iz k <= Z.max (iz i) (iz j).

(** Consecutive cells share a face. *)
Fixpoint face_chain (l : list idx) : Prop :=
  match l with
  | [] => True
  | i :: t => match t with [] => True | j :: _ => share_face i j end /\ face_chain t
  end.

Definition starts_at (i : idx) (l : list idx) : Prop :=
  match l with [] => True | j :: _ => j = i end.

Definition bump_eqb (a b : bump) : bool := idx_eqb (fst a) (fst b) && Bool.eqb (snd a) (snd b).

(** Number of points of the cloud whose ray increments counter [b]. *)
Definition points_counting (A : ray_arith) (g : ray_grid A) (c : cloud A) (b : bump) : Z :=
  zlen (filter (fun k => match point_work A g c k with
                         | Some w => existsb (bump_eqb b) w | None => false end)
               (zrange 0 (zlen (c_points A c)))).

(** A tracking grid for [g] whose counters are 32 bit values. *)
Definition tracking_for {A} (g : ray_grid A) (t : tgrid) : Prop :=
  gwf t /\ g_nx t = rg_nx A g /\ g_ny t = rg_ny A g /\ g_nz t = rg_nz A g /\
  forall i f s, gget t i = Some (f, s) -> wrap32 f = f /\ wrap32 s = s.
