(** Histories of an SDF object, for the statements of C14 and C15. *)
From Coq Require Import ZArith List Bool.
From Flocq Require Import BinarySingleNaN.
From Verif Require Import Util Grid SdfStateModel.
Import ListNotations.
Local Open Scope Z_scope.

Section Histories.
Context {S : Type} (lt : S -> S -> bool).

(** [P] holds before each call of the history. *)
Fixpoint along (P : field_state S -> fop S -> Prop) (s : field_state S) (ops : list (fop S)) : Prop :=
  match ops with
  | [] => True
  | o :: t => P s o /\ along P (fst (fstep lt s o)) t
  end.

(** Lock is only called when no mutable reference into the field is kept, and an
    SDF is not overwritten by DeserializeSelf while it is locked. *)
Definition careful (s : field_state S) (o : fop S) : Prop :=
  match o with
  | FLock => f_refs s = []
  | FReload _ _ => f_locked s = false
  | _ => True
  end.

(** Values written by a call satisfy [ok]. *)
Definition writes (ok : S -> Prop) (o : fop S) : Prop :=
  match o with
  | FSet _ v | FRefWrite _ v | FRawSet _ v => ok v
  | FReload g _ => gwf g /\ Forall ok (g_cells g)
  | _ => True
  end.

(** The call does not unlock or reload. *)
Definition keeps_lock (o : fop S) : Prop :=
  match o with FUnlock | FReload _ _ => False | _ => True end.

(** The call asks for mutable access. *)
Definition asks_mutable (o : fop S) : Prop :=
  match o with FSet _ _ | FAcquire _ | FRawSet _ _ => True | _ => False end.
End Histories.

(** The minimum and maximum of a list of IEEE numbers. *)
Definition is_minmax {prec emax} (l : list (binary_float prec emax))
    (m : binary_float prec emax * binary_float prec emax) : Prop :=
  In (fst m) l /\ In (snd m) l /\
  forall x, In x l -> Bleb (fst m) x = true /\ Bleb x (snd m) = true.
