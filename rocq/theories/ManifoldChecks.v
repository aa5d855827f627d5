(** Facts about the eight cells at a vertex, checked for all 256 states. *)
From Coq Require Import ZArith List Lia Bool Permutation.
From Verif Require Import Util Grid ComponentSpec SurfaceSpec HolesProofs PlaneProofs BoundaryProofs GraphProofs ManifoldSpec.
Import ListNotations.
Local Open Scope Z_scope.

(** ** Faces and edges at an edge and at a vertex *)

Definition face : Type := (axis * idx)%type.
Definition axis_dec (a b : axis) : {a = b} + {a <> b}.
Proof. decide equality. Defined.
Definition face_dec (f g : face) : {f = g} + {f <> g}.
Proof.
  destruct f as [a v], g as [b w]. destruct (axis_dec a b) as [->|N]; [|right; congruence].
  destruct (idx_eq_dec v w) as [->|N]; [left; reflexivity|right; congruence].
Defined.

Definition edge_faces (e : face) : list face :=
  let '(a, (x, y, z)) := e in
  match a with
  | Ax => [(Ay, (x, y, z)); (Ay, (x, y, z - 1)); (Az, (x, y, z)); (Az, (x, y - 1, z))]
  | Ay => [(Ax, (x, y, z)); (Ax, (x, y, z - 1)); (Az, (x, y, z)); (Az, (x - 1, y, z))]
  | Az => [(Ax, (x, y, z)); (Ax, (x, y - 1, z)); (Ay, (x, y, z)); (Ay, (x - 1, y, z))]
  end.
Definition vertex_faces (v : idx) : list face :=
  let '(x, y, z) := v in
  [(Ax, (x, y, z)); (Ax, (x, y - 1, z)); (Ax, (x, y, z - 1)); (Ax, (x, y - 1, z - 1));
   (Ay, (x, y, z)); (Ay, (x - 1, y, z)); (Ay, (x, y, z - 1)); (Ay, (x - 1, y, z - 1));
   (Az, (x, y, z)); (Az, (x - 1, y, z)); (Az, (x, y - 1, z)); (Az, (x - 1, y - 1, z))].
Definition star (v : idx) : list face :=
  let '(x, y, z) := v in
  [(Az, (x, y, z)); (Az, (x, y, z - 1)); (Ay, (x, y, z)); (Ay, (x, y - 1, z)); (Ax, (x, y, z)); (Ax, (x - 1, y, z))].
(** The faces of the edges of the star, as places in [vertex_faces]. *)
Definition star_faces : list (list nat) :=
  [[0; 1; 4; 5]; [2; 3; 6; 7]; [0; 2; 8; 9]; [1; 3; 10; 11]; [4; 6; 8; 10]; [5; 7; 9; 11]]%nat.

(** ** Checks of all states of the eight cells at a vertex *)

Definition faces8 (l00 l01 l10 l11 h00 h01 h10 h11 : bool) : list bool :=
  [xorb h01 h11; xorb h00 h10; xorb l01 l11; xorb l00 l10; xorb h10 h11; xorb h00 h01; xorb l10 l11; xorb l00 l01;
   xorb l11 h11; xorb l01 h01; xorb l10 h10; xorb l00 h00].
Definition corner8 (l00 l01 l10 l11 h00 h01 h10 h11 : bool) : bool :=
  let l := [l00; l01; l10; l11; h00; h01; h10; h11] in
  existsb (fun b => (zlen (filter (Bool.eqb b) l) =? 2) &&
                    existsb (fun '(i, j) => Bool.eqb i b && Bool.eqb j b) (combine l (rev l))) [true; false].
Definition plain8 (l00 l01 l10 l11 h00 h01 h10 h11 : bool) : bool :=
  negb (corner8 l00 l01 l10 l11 h00 h01 h10 h11) && (ends8 con4 l00 l01 l10 l11 h00 h01 h10 h11 =? 0).

Definition local_pairs (m : list bool) : list (nat * nat) :=
  flat_map (fun l => match filter (fun i => nth i m false) l with [i; j] => [(i, j)] | _ => [] end) star_faces.
Definition sheet_check (m : list bool) : bool :=
  forallb (fun i => forallb (fun j => negb (nth i m false && nth j m false) ||
    same Nat.eq_dec (rep Nat.eq_dec (fun e => e) (local_pairs m) i) (rep Nat.eq_dec (fun e => e) (local_pairs m) j))
    (seq 0 12)) (seq 0 12).

Ltac all8 :=
  match goal with |- ?f ?l00 ?l01 ?l10 ?l11 ?h00 ?h01 ?h10 ?h11 = true =>
    revert h11; apply allb_spec; revert h10; apply allb_spec; revert h01; apply allb_spec; revert h00; apply allb_spec;
    revert l11; apply allb_spec; revert l10; apply allb_spec; revert l01; apply allb_spec; revert l00; apply allb_spec
  end.

Definition sheet8 l00 l01 l10 l11 h00 h01 h10 h11 : bool :=
  if plain8 l00 l01 l10 l11 h00 h01 h10 h11 then sheet_check (faces8 l00 l01 l10 l11 h00 h01 h10 h11) else true.
Lemma sheet8_ok l00 l01 l10 l11 h00 h01 h10 h11 : sheet8 l00 l01 l10 l11 h00 h01 h10 h11 = true.
Proof. all8. vm_compute. reflexivity. Qed.

Lemma local_sheet {B} (c : nat -> B) l00 l01 l10 l11 h00 h01 h10 h11 :
  plain8 l00 l01 l10 l11 h00 h01 h10 h11 = true ->
  let m := faces8 l00 l01 l10 l11 h00 h01 h10 h11 in
  (forall l i j, In l star_faces -> In i l -> In j l -> nth i m false = true -> nth j m false = true -> c i = c j) ->
  forall i j, (i < 12)%nat -> (j < 12)%nat -> nth i m false = true -> nth j m false = true -> c i = c j.
Proof.
  intros P m H i j Hi Hj Mi Mj.
  pose proof (sheet8_ok l00 l01 l10 l11 h00 h01 h10 h11) as S. unfold sheet8 in S. rewrite P in S.
  fold m in S. unfold sheet_check in S. rewrite forallb_forall in S. specialize (S i). rewrite forallb_forall in S.
  specialize (S ltac:(apply in_seq; lia) j ltac:(apply in_seq; lia)). rewrite Mi, Mj in S. cbn [andb negb orb] in S.
  apply same_iff, linked_rep in S. clear Mj Hj.
  assert (K : forall e, In e (local_pairs m) -> c (fst e) = c (snd e)).
  { intros e E. unfold local_pairs in E. apply in_flat_map in E. destruct E as (l & L & E).
    destruct (filter (fun i => nth i m false) l) as [|u [|w [|? ?]]] eqn:Fl; try destruct E as [<-|[]];
      try destruct E. cbn [fst snd].
    assert (U : In u (filter (fun i => nth i m false) l)) by (rewrite Fl; now left).
    assert (U' : In w (filter (fun i => nth i m false) l)) by (rewrite Fl; right; now left).
    apply filter_In in U, U'. apply (H l); tauto. }
  induction S as [|w e L IH E W|w e L IH E W]; [reflexivity|..]; subst w; rewrite IH; [|symmetry]; now apply K.
Qed.

(** The boundary of the closed cells, counted at a vertex. *)
Definition some4 (i j k l : bool) : bool := i || (j || (k || (l || false))).
Definition some2 (i j : bool) : bool := i || (j || false).
Definition corners_of (f : bool -> bool -> bool) (l00 l01 l10 l11 h00 h01 h10 h11 : bool) : Z :=
  Z.b2z (f h01 h11) + Z.b2z (f h00 h10) + Z.b2z (f l01 l11) + Z.b2z (f l00 l10) +
  (Z.b2z (f h10 h11) + Z.b2z (f h00 h01) + Z.b2z (f l10 l11) + Z.b2z (f l00 l01)) +
  (Z.b2z (f l11 h11) + Z.b2z (f l01 h01) + Z.b2z (f l10 h10) + Z.b2z (f l00 h00)).
Definition cells8 (l00 l01 l10 l11 h00 h01 h10 h11 : bool) : Z :=
  Z.b2z l00 + Z.b2z l01 + Z.b2z l10 + Z.b2z l11 + (Z.b2z h00 + Z.b2z h01 + Z.b2z h10 + Z.b2z h11).
Definition double8 l00 l01 l10 l11 h00 h01 h10 h11 : bool :=
  negb (plain8 l00 l01 l10 l11 h00 h01 h10 h11) ||
  (8 * Z.b2z (mixed8 l00 l01 l10 l11 h00 h01 h10 h11) - 4 * ends8 mix4 l00 l01 l10 l11 h00 h01 h10 h11
     + 2 * corners_of mix2 l00 l01 l10 l11 h00 h01 h10 h11 =?
   2 * (8 * Z.b2z (existsb (fun b => b) [l00; l01; l10; l11; h00; h01; h10; h11])
        - 4 * ends8 some4 l00 l01 l10 l11 h00 h01 h10 h11
        + 2 * corners_of some2 l00 l01 l10 l11 h00 h01 h10 h11 - cells8 l00 l01 l10 l11 h00 h01 h10 h11)).
Lemma double8_ok l00 l01 l10 l11 h00 h01 h10 h11 : double8 l00 l01 l10 l11 h00 h01 h10 h11 = true.
Proof. all8. vm_compute. reflexivity. Qed.

(** The cells at a vertex that are not in the set are joined by faces among themselves. *)
Definition next_to (i j : nat) : bool :=
  existsb (fun '(a, b) => (Nat.eqb i a && Nat.eqb j b) || (Nat.eqb i b && Nat.eqb j a))
    [(0, 1); (2, 3); (4, 5); (6, 7); (0, 2); (1, 3); (4, 6); (5, 7); (0, 4); (1, 5); (2, 6); (3, 7)]%nat.
Definition spread (m : list bool) (l : list nat) : list nat :=
  filter (fun j => negb (nth j m true) && existsb (fun i => Nat.eqb i j || next_to i j) l) (seq 0 8).
Definition outside_check (m : list bool) : bool :=
  forallb (fun i => if nth i m true then true else
    let r := Nat.iter 7 (spread m) [i] in forallb (fun j => nth j m true || existsb (Nat.eqb j) r) (seq 0 8)) (seq 0 8).
Definition outside8 l00 l01 l10 l11 h00 h01 h10 h11 : bool :=
  if plain8 l00 l01 l10 l11 h00 h01 h10 h11 then outside_check [l00; l01; l10; l11; h00; h01; h10; h11] else true.
Lemma outside8_ok l00 l01 l10 l11 h00 h01 h10 h11 : outside8 l00 l01 l10 l11 h00 h01 h10 h11 = true.
Proof. all8. vm_compute. reflexivity. Qed.

Lemma local_outside (R : nat -> nat -> Prop) l00 l01 l10 l11 h00 h01 h10 h11 :
  plain8 l00 l01 l10 l11 h00 h01 h10 h11 = true ->
  let m := [l00; l01; l10; l11; h00; h01; h10; h11] in
  (forall i, (i < 8)%nat -> nth i m true = false -> R i i) ->
  (forall i j k, (i < 8)%nat -> (j < 8)%nat -> (k < 8)%nat -> R i j -> next_to j k = true -> nth k m true = false -> R i k) ->
  forall i j, (i < 8)%nat -> (j < 8)%nat -> nth i m true = false -> nth j m true = false -> R i j.
Proof.
  intros P m H0 H1 i j Hi Hj Mi Mj.
  pose proof (outside8_ok l00 l01 l10 l11 h00 h01 h10 h11) as S. unfold outside8 in S. rewrite P in S.
  fold m in S. unfold outside_check in S. rewrite forallb_forall in S.
  specialize (S i ltac:(apply in_seq; lia)). rewrite Mi in S. cbv zeta in S. rewrite forallb_forall in S.
  specialize (S j ltac:(apply in_seq; lia)). rewrite Mj in S. cbn [orb] in S.
  apply existsb_exists in S. destruct S as (j' & S & E). apply Nat.eqb_eq in E. subst j'.
  clear Mj Hj. revert j S. generalize 7%nat. intros n. induction n as [|n IH]; cbn [Nat.iter]; intros j S.
  - destruct S as [<-|[]]. auto.
  - assert (B : forall n k, In k (Nat.iter n (spread m) [i]) -> (k < 8)%nat).
    { intros n' k K. destruct n'; cbn [Nat.iter] in K; [destruct K as [<-|[]]; exact Hi|].
      unfold spread in K. apply filter_In in K. destruct K as (K & _). apply in_seq in K. lia. }
    unfold spread in S. apply filter_In in S. destruct S as (Sj & S). apply in_seq in Sj. apply andb_prop in S.
    destruct S as (Nj & S). apply negb_true_iff in Nj. apply existsb_exists in S. destruct S as (k & K & D).
    apply orb_prop in D. destruct D as [D|D]; [apply Nat.eqb_eq in D; subst k; now apply IH|].
    apply (H1 i k j); auto; [now apply (B n)|lia].
Qed.

(** Cells that differ differ across a face. *)
Definition face8 l00 l01 l10 l11 h00 h01 h10 h11 : bool :=
  negb (mixed8 l00 l01 l10 l11 h00 h01 h10 h11) || existsb (fun b => b) (faces8 l00 l01 l10 l11 h00 h01 h10 h11).
Lemma face8_ok l00 l01 l10 l11 h00 h01 h10 h11 : face8 l00 l01 l10 l11 h00 h01 h10 h11 = true.
Proof. all8. vm_compute. reflexivity. Qed.
