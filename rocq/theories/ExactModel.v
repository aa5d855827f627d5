(** Exact arithmetic for the transform: rationals with the two infinities and NaN.
    Infinities and NaN follow IEEE-754; finite operations do not round. *)
From Coq Require Import ZArith QArith List Bool.
From Verif Require Import Util Grid Prog Schedule EdtModel.
Local Open Scope Z_scope.

Inductive ext : Type := NaN | NInf | Fin (q : Q) | PInf.

Definition e_add (a b : ext) : ext :=
  match a, b with
  | NaN, _ | _, NaN => NaN
  | PInf, NInf | NInf, PInf => NaN
  | PInf, _ | _, PInf => PInf
  | NInf, _ | _, NInf => NInf
  | Fin x, Fin y => Fin (x + y)%Q
  end.

Definition e_opp (a : ext) : ext :=
  match a with NaN => NaN | NInf => PInf | PInf => NInf | Fin x => Fin (- x)%Q end.

Definition e_sub (a b : ext) : ext := e_add a (e_opp b).

(** Division; dividing by zero gives NaN here (the transform divides by
    [2q - 2v] with [q > v] only). *)
Definition e_div (a b : ext) : ext :=
  match a, b with
  | Fin x, Fin y => if Qeq_bool y 0 then NaN else Fin (x / y)%Q
  | PInf, Fin y => if Qle_bool y 0 then NaN else PInf
  | NInf, Fin y => if Qle_bool y 0 then NaN else NInf
  | Fin _, (PInf | NInf) => Fin 0
  | _, _ => NaN
  end.

Definition e_leb (a b : ext) : bool :=
  match a, b with
  | NaN, _ | _, NaN => false
  | NInf, _ | _, PInf => true
  | Fin x, Fin y => Qle_bool x y
  | _, _ => false
  end.

Definition e_eqb (a b : ext) : bool := e_leb a b && e_leb b a.
Definition e_ltb (a b : ext) : bool :=
  match a, b with NaN, _ | _, NaN => false | _, _ => negb (e_leb b a) end.

Definition exact : arith :=
  mkArith ext (fun z => Fin (inject_Z z)) e_add e_sub e_div e_ltb e_leb e_eqb PInf NInf (Fin 0).

