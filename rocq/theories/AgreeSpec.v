(** Cells of a map on which all backends must agree. *)
From Coq Require Import ZArith Reals List Bool.
From Verif Require Import Util Grid Occ VoxelRoundSpec.
Import ListNotations.
Local Open Scope R_scope.

(** What the sensors saw decides the cell [i], with margins [e] for coordinates and [w] for
    lengths: it is filled in the environment (or NaN there); or enough points of one sensor
    are in it and no ray of the sensor goes on behind it; or enough sensors see through it
    and no point is in it; or no ray passes it. *)
Definition clear_cut (v e w : R) (outlier cameras : Z) (seen : list sighting) (static : grid occ) (i : idx) : Prop :=
  (forall b, gget static i = Some b -> occ_le b = false) \/
  (exists S, In S seen /\ at_least outlier (valid_and (surely_ends v e w S i)) (sg_points S) /\
     forall p, In (Some p) (sg_points S) -> may_pass v e w S i p -> surely_ends v e w S i p) \/
  (at_least cameras (fun S => exists p, In (Some p) (sg_points S) /\ surely_passes v e w S i p) seen /\
     forall S p, In S seen -> In (Some p) (sg_points S) -> ~ may_end v e w S i p) \/
  (forall S p, In S seen -> In (Some p) (sg_points S) -> ~ may_pass v e w S i p).
