(** Exact arithmetic for RaycastModel: the real numbers with infinities and NaN,
    combined as IEEE 754 combines them except that no operation rounds and zero has
    no sign (a positive number divided by zero is +inf).  Stands for the arithmetic
    of cpu_pointcloud_voxelization.cpp:208-436 without rounding errors. *)
From Coq Require Import ZArith Reals.
From Flocq Require Import Core.
From Verif Require Import Grid RaycastModel.
Local Open Scope R_scope.

Inductive er : Type := Fin (x : R) | PInf | NInf | NaN.

Definition er_opp (a : er) : er :=
  match a with Fin x => Fin (- x) | PInf => NInf | NInf => PInf | NaN => NaN end.

Definition er_add (a b : er) : er :=
  match a, b with
  | Fin x, Fin y => Fin (x + y)
  | NaN, _ | _, NaN => NaN
  | PInf, NInf | NInf, PInf => NaN
  | PInf, _ | _, PInf => PInf
  | NInf, _ | _, NInf => NInf
  end.

Definition er_sub (a b : er) : er := er_add a (er_opp b).

(** The infinity with the sign of [x]; NaN for 0. *)
Definition inf_like (x : R) : er :=
  if Rlt_dec 0 x then PInf else if Rlt_dec x 0 then NInf else NaN.

Definition er_mul (a b : er) : er :=
  match a, b with
  | Fin x, Fin y => Fin (x * y)
  | NaN, _ | _, NaN => NaN
  | Fin x, PInf | PInf, Fin x => inf_like x
  | Fin x, NInf | NInf, Fin x => inf_like (- x)
  | PInf, PInf | NInf, NInf => PInf
  | _, _ => NInf
  end.

Definition er_div (a b : er) : er :=
  match a, b with
  | Fin x, Fin y => if Req_EM_T y 0 then inf_like x else Fin (x / y)
  | NaN, _ | _, NaN => NaN
  | Fin _, _ => Fin 0
  | PInf, Fin y => if Rlt_dec y 0 then NInf else PInf
  | NInf, Fin y => if Rlt_dec y 0 then PInf else NInf
  | _, _ => NaN
  end.

Definition er_abs (a : er) : er :=
  match a with Fin x => Fin (Rabs x) | NInf => PInf | _ => a end.

Definition er_norm (a b c : er) : er :=
  match a, b, c with
  | Fin x, Fin y, Fin z => Fin (sqrt (x * x + y * y + z * z))
  | NaN, _, _ | _, NaN, _ | _, _, NaN => NaN
  | _, _, _ => PInf
  end.

Definition er_ltb (a b : er) : bool :=
  match a, b with
  | Fin x, Fin y => if Rlt_dec x y then true else false
  | Fin _, PInf | NInf, Fin _ | NInf, PInf => true
  | _, _ => false
  end.

Definition er_leb (a b : er) : bool :=
  match a, b with
  | Fin x, Fin y => if Rle_dec x y then true else false
  | Fin _, PInf | NInf, Fin _ | NInf, PInf | PInf, PInf | NInf, NInf => true
  | _, _ => false
  end.

Definition er_finite (a : er) : bool := match a with Fin _ => true | _ => false end.

(** Conversion of a non-finite value to an index is undefined in C++; 0 here. *)
Definition er_floor (a : er) : Z := match a with Fin x => Zfloor x | _ => 0%Z end.

Definition exact_ray : ray_arith :=
  mkRay er (Fin 0) (Fin (/ 2)) (Fin 1) PInf (Fin (/ 10000000000))
    er_add er_sub er_mul er_div er_abs er_norm er_ltb er_leb er_finite er_floor
    (fun z => Fin (IZR z)).

(** A grid of [nx * ny * nz] cubic voxels with edge [v]. *)
Definition exact_grid (v : R) (nx ny nz : Z) : ray_grid exact_ray :=
  mkRayGrid exact_ray nx ny nz (Fin v) (Fin (/ v))
    (Fin (v * IZR nx)) (Fin (v * IZR ny)) (Fin (v * IZR nz)).
