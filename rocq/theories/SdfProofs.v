(** Signed distance fields: the generated grid meets the specification. *)
From Coq Require Import ZArith QArith Qreals Reals List Lia Lra Bool ZifyBool Permutation.
From Verif Require Import Util Grid Prog Schedule EdtModel ExactModel EdtSpec EdtLineProofs EdtProofs
  EdtExact Occ SdfModel SdfSpec.
Import ListNotations.
Local Open Scope Z_scope.

Lemma in_box_iff nx ny nz i : in_box nx ny nz i <-> in_bounds3 nx ny nz i = true.
Proof. destruct i as [[x y] z]. unfold in_box. rewrite in_bounds3_iff. tauto. Qed.

(** ** Filling a grid cell by cell *)

Section Build.
Context {V : Type}.

Lemma fold_gset_wf (f : idx -> V) l g : gwf g -> gwf (fold_left (fun g i => gset g i (f i)) l g).
Proof. revert g. induction l as [|i l IH]; cbn [fold_left]; intros g W; [easy|]. apply IH. now apply gset_wf. Qed.

Lemma fold_gset_dims (f : idx -> V) l g : same_dims (fold_left (fun g i => gset g i (f i)) l g) g.
Proof.
  revert g. induction l as [|i l IH]; cbn [fold_left]; intros g; [apply same_dims_refl|].
  eapply same_dims_trans; [apply IH|apply gset_same_dims].
Qed.

Lemma fold_gset_get (f : idx -> V) l g j : gwf g -> in_bounds g j = true ->
  gget (fold_left (fun g i => gset g i (f i)) l g) j =
  if existsb (idx_eqb j) l then Some (f j) else gget g j.
Proof.
  revert g. induction l as [|i l IH]; cbn [fold_left existsb]; intros g W B; [easy|].
  rewrite IH; [|now apply gset_wf|now rewrite gset_in_bounds].
  destruct (existsb (idx_eqb j) l); [now rewrite orb_true_r|].
  rewrite orb_false_r, gget_gset by easy.
  destruct (idx_eqb j i) eqn:E; [|now rewrite andb_false_r].
  apply idx_eqb_eq in E. subst. now rewrite B.
Qed.

Lemma ofold_build (step : grid V -> idx -> option (grid V)) (f : idx -> V) l :
  (forall g i, In i l -> step g i = Some (gset g i (f i))) ->
  forall g, ofold step l g = Some (fold_left (fun g i => gset g i (f i)) l g).
Proof.
  induction l as [|i l IH]; cbn [ofold fold_left]; intros H g; [easy|].
  rewrite H by now left. cbn [obind]. apply IH. intros; apply H; now right.
Qed.

Lemma existsb_all_idx nx ny nz j : in_bounds3 nx ny nz j = true ->
  existsb (idx_eqb j) (all_idx nx ny nz) = true.
Proof.
  intros H. apply existsb_exists. exists j. split; [now apply in_all_idx|apply idx_eqb_refl].
Qed.

Lemma build_ok nx ny nz (step : grid V -> idx -> option (grid V)) (f : idx -> V) g0 :
  gwf g0 -> g_nx g0 = nx -> g_ny g0 = ny -> g_nz g0 = nz ->
  (forall g i, in_bounds3 nx ny nz i = true -> step g i = Some (gset g i (f i))) ->
  exists g, ofold step (all_idx nx ny nz) g0 = Some g /\ gwf g /\ same_dims g g0 /\
    forall i, in_bounds3 nx ny nz i = true -> gget g i = Some (f i).
Proof.
  intros W Ex Ey Ez H. eexists. split; [apply ofold_build|].
  { intros g i Hi. apply H. now apply in_all_idx. }
  split; [now apply fold_gset_wf|]. split; [apply fold_gset_dims|].
  intros i Hi. rewrite fold_gset_get; [|easy|unfold in_bounds; now rewrite Ex, Ey, Ez].
  now rewrite existsb_all_idx.
Qed.
End Build.

(** ** The two marked fields *)

Section Mark.
Variable A : arith.

Lemma mark_fold (is_filled : idx -> bool) l (g h : grid (num A)) :
  fold_left (mark_step A is_filled) l (g, h) =
  (fold_left (fun g i => gset g i (a_zero A)) (filter is_filled l) g,
   fold_left (fun g i => gset g i (a_zero A)) (filter (fun i => negb (is_filled i)) l) h).
Proof.
  revert g h. induction l as [|i l IH]; intros g h; cbn [fold_left filter]; [easy|].
  unfold mark_step at 2. destruct (is_filled i); cbn [negb fold_left]; apply IH.
Qed.

Lemma existsb_filter (p : idx -> bool) l j :
  existsb (idx_eqb j) (filter p l) = p j && existsb (idx_eqb j) l.
Proof.
  induction l as [|i l IH]; cbn [filter existsb]; [now rewrite andb_false_r|].
  destruct (idx_eqb j i) eqn:E.
  - apply idx_eqb_eq in E. subst. destruct (p i) eqn:P.
    + cbn [existsb]. now rewrite idx_eqb_refl.
    + now rewrite IH.
  - destruct (p i); cbn [existsb]; rewrite ?E; cbn [orb]; exact IH.
Qed.

Variables (rep : num A -> dist -> Prop).
Hypotheses (Rinf : rep (a_inf A) None) (Rzero : rep (a_zero A) (Some 0)).

Lemma mark_grep nx ny nz (p : idx -> bool) :
  0 < nx -> 0 < ny -> 0 < nz ->
  grep A rep (fold_left (fun g i => gset g i (a_zero A)) (filter p (all_idx nx ny nz))
                (gconst nx ny nz (a_inf A))) (mark p).
Proof.
  intros Hx Hy Hz. split; [apply fold_gset_wf; now apply gconst_wf|].
  intros i Hi. rewrite (in_bounds_dims _ _ _ (fold_gset_dims _ _ _)) in Hi.
  assert (Hi' : in_bounds3 nx ny nz i = true) by exact Hi.
  rewrite fold_gset_get by (try apply gconst_wf; easy).
  rewrite existsb_filter, existsb_all_idx by easy. rewrite andb_true_r.
  unfold mark. destruct (p i).
  - eauto.
  - rewrite gget_gconst, Hi'. eauto.
Qed.
End Mark.

(** ** Facts about nearest distances *)

Lemma is_nearest_ext (S S' : idx -> Prop) i m : (forall j, S j <-> S' j) ->
  is_nearest S i m -> is_nearest S' i m.
Proof.
  intros E. unfold is_nearest. destruct m as [d|].
  - intros [[j [Hj Dj]] L]. split; [exists j; split; [now apply E|easy]|].
    intros k Hk. apply L. now apply E.
  - intros H j Hj. apply (H j). now apply E.
Qed.

Lemma is_nearest_zero (S : idx -> Prop) i m : S i -> is_nearest S i m -> m = Some 0.
Proof.
  intros HS H. destruct m as [d|]; cbn in H.
  - destruct H as [[j [Hj Dj]] L]. specialize (L i HS). rewrite sqdist_refl in L.
    pose proof (sqdist_nonneg i j). f_equal. lia.
  - now apply H in HS.
Qed.

Lemma is_nearest_pos (S : idx -> Prop) i d : ~ S i -> is_nearest S i (Some d) -> 1 <= d.
Proof.
  intros HS [[j [Hj Dj]] L]. pose proof (sqdist_nonneg i j).
  destruct (Z.eq_dec d 0) as [->|]; [|lia].
  apply sqdist_zero in Dj. now subst.
Qed.

Lemma is_nearest_nonneg (S : idx -> Prop) i d : is_nearest S i (Some d) -> 0 <= d.
Proof. intros [[j [Hj Dj]] L]. pose proof (sqdist_nonneg i j). lia. Qed.

Lemma is_nearest_incl (S S' : idx -> Prop) i m m' : (forall j, S j -> S' j) ->
  is_nearest S i m -> is_nearest S' i m' -> dle m' m.
Proof.
  intros I H H'. destruct m as [d|]; [|now destruct m'].
  destruct H as [[j [Hj Dj]] _]. destruct m' as [d'|]; cbn in *.
  - specialize (proj2 H' j (I j Hj)). lia.
  - exact (H' j (I j Hj)).
Qed.

Section Extract.
Variables (A : arith) (rep : num A -> dist -> Prop) (bp : num A -> Prop) (N M : Z).
Hypothesis OK : arith_ok A rep bp N M.
Hypothesis Rzero : rep (a_zero A) (Some 0).
Hypothesis HM : 2 * (N * N) <= M.
Variables (S : Type) (combine : num A -> num A -> S) (oob : S).

Definition nearest_filled (nx ny nz : Z) (p : idx -> bool) (i : idx) (m : dist) : Prop :=
  is_nearest (fun j => in_bounds3 nx ny nz j = true /\ p j = true) i m.

Lemma edt_nearest nx ny nz p :
  0 < nx <= N -> 0 < ny <= N -> 0 < nz <= N ->
  exists g, edt_3d (fold_left (fun g i => gset g i (a_zero A)) (filter p (all_idx nx ny nz))
                     (gconst nx ny nz (a_inf A))) = Some g /\
    forall i, in_bounds3 nx ny nz i = true ->
      exists a m, gget g i = Some a /\ rep a m /\ nearest_filled nx ny nz p i m.
Proof.
  intros Hx Hy Hz.
  set (g0 := fold_left _ _ _).
  assert (D : same_dims g0 (gconst nx ny nz (a_inf A))) by apply fold_gset_dims.
  assert (Dx := proj1 D). assert (Dy := proj1 (proj2 D)). assert (Dz := proj2 (proj2 D)).
  cbn in Dx, Dy, Dz.
  destruct (edt_3d_env A rep bp N M OK g0 (mark p) 0) as [g [E [SD G]]]; try lia.
  - apply mark_grep; first [lia|exact Rzero|apply (ok_inf _ _ _ _ _ OK)].
  - intros i _. unfold mark. destruct (p i); cbn; lia.
  - exists g. split; [exact E|]. intros i Hi.
    destruct G as [_ G]. destruct (G i) as [w [Hw Rw]].
    { rewrite (in_bounds_dims _ _ _ SD), (in_bounds_dims _ _ _ D). exact Hi. }
    rewrite Dx, Dy, Dz in Rw. exists w, (env_z nz (env_y ny (env_x nx (mark p))) i).
    split; [easy|]. split; [easy|]. apply env_nearest; first [exact Hi|lia].
Qed.

Lemma extract_ok nx ny nz p :
  0 < nx <= N -> 0 < ny <= N -> 0 < nz <= N ->
  exists g, extract A S combine oob nx ny nz p = Some g /\ gwf g /\
    g_nx g = nx /\ g_ny g = ny /\ g_nz g = nz /\
    forall i, in_bounds3 nx ny nz i = true ->
      exists a b ma mb, gget g i = Some (combine a b) /\ rep a ma /\ rep b mb /\
        nearest_filled nx ny nz p i ma /\ nearest_filled nx ny nz (fun j => negb (p j)) i mb.
Proof.
  intros Hx Hy Hz. unfold extract, mark_fields. rewrite mark_fold.
  destruct (edt_nearest nx ny nz p Hx Hy Hz) as [g1 [E1 G1]].
  destruct (edt_nearest nx ny nz (fun j => negb (p j)) Hx Hy Hz) as [g2 [E2 G2]].
  rewrite E1. cbn [obind]. rewrite E2. cbn [obind].
  set (val := fun (g : grid (num A)) i => match gget g i with Some a => a | None => a_zero A end).
  destruct (build_ok nx ny nz (sdf_cell_step A S combine g1 g2)
              (fun i => combine (val g1 i) (val g2 i)) (gconst nx ny nz oob))
    as [g [E [W [D G]]]]; [apply gconst_wf; lia|easy..| |].
  - intros g i Hi. unfold sdf_cell_step, val.
    destruct (G1 i Hi) as [a [ma [Ha _]]]. destruct (G2 i Hi) as [b [mb [Hb _]]].
    now rewrite Ha, Hb.
  - exists g. destruct D as [Dx [Dy Dz]]. split; [exact E|]. split; [exact W|].
    split; [exact Dx|]. split; [exact Dy|]. split; [exact Dz|]. intros i Hi.
    destruct (G1 i Hi) as [a [ma [Ha [Ra Na]]]]. destruct (G2 i Hi) as [b [mb [Hb [Rb Nb]]]].
    exists a, b, ma, mb. rewrite G by easy. unfold val. rewrite Ha, Hb. auto.
Qed.

(** The value [v] is made from a zero on the cell's own side and the nearest
    distance to [T] on the other. *)
Definition signed (filled : bool) (T : idx -> Prop) (i : idx) (v : S) : Prop :=
  exists a b m, v = combine a b /\ is_nearest T i m /\
    rep (if filled then a else b) (Some 0) /\ rep (if filled then b else a) m.

Lemma signed_ext f T T' i v : (forall j, T j <-> T' j) -> signed f T i v -> signed f T' i v.
Proof.
  intros E [a [b [m [Hv [Hn [R1 R2]]]]]]. exists a, b, m. split; [easy|].
  split; [eapply is_nearest_ext; eauto|easy].
Qed.

Lemma extract_signed nx ny nz p :
  0 < nx <= N -> 0 < ny <= N -> 0 < nz <= N ->
  exists g, extract A S combine oob nx ny nz p = Some g /\ gwf g /\
    g_nx g = nx /\ g_ny g = ny /\ g_nz g = nz /\
    forall i, in_box nx ny nz i -> exists v, gget g i = Some v /\
      signed (p i) (opposite nx ny nz p i) i v.
Proof.
  intros Hx Hy Hz.
  destruct (extract_ok nx ny nz p Hx Hy Hz) as [g [E [W [Dx [Dy [Dz G]]]]]].
  exists g. split; [exact E|]. split; [exact W|]. split; [exact Dx|]. split; [exact Dy|].
  split; [exact Dz|]. intros i Hi. apply in_box_iff in Hi.
  destruct (G i Hi) as [a [b [ma [mb [Gv [Ra [Rb [Na Nb]]]]]]]].
  eexists. split; [exact Gv|]. unfold nearest_filled in *.
  exists a, b, (if p i then mb else ma). split; [easy|].
  destruct (p i) eqn:P.
  - split.
    + eapply is_nearest_ext; [|exact Nb]. intros j. unfold opposite. rewrite in_box_iff, P.
      destruct (p j); cbn; split; intros [? ?]; split; congruence || easy.
    + split; [|easy]. replace (Some 0) with ma; [easy|]. eapply is_nearest_zero; [|exact Na]. cbn. auto.
  - split.
    + eapply is_nearest_ext; [|exact Na]. intros j. unfold opposite. rewrite in_box_iff, P.
      destruct (p j); cbn; split; intros [? ?]; split; congruence || easy.
    + split; [|easy]. replace (Some 0) with mb; [easy|]. eapply is_nearest_zero; [|exact Nb].
      cbn. rewrite P. auto.
Qed.

(** *** The virtual border *)

Variables (ge0 le0 : S -> bool) (s0 : S).
(** Signs of the values that can occur. *)
Hypothesis ge0_pos : forall a b m, rep b (Some 0) -> rep a m -> dle (Some 1) m ->
  ge0 (combine a b) = true.
Hypothesis ge0_neg : forall a b m, rep a (Some 0) -> rep b m -> dle (Some 1) m ->
  ge0 (combine a b) = false.
Hypothesis le0_neg : forall a b m, rep a (Some 0) -> rep b m -> dle (Some 1) m ->
  le0 (combine a b) = true.

Definition shift (d i : idx) : idx :=
  let '(a, b, c) := d in let '(x, y, z) := i in (x + a, y + b, z + c).

Lemma sqdist_shift d i j : sqdist (shift d i) (shift d j) = sqdist i j.
Proof. destruct d as [[a b] c], i as [[x y] z], j as [[x' y'] z']. unfold sqdist, shift. f_equal; [f_equal|]; f_equal; lia. Qed.

Lemma is_nearest_shift d (T : idx -> Prop) i m :
  is_nearest T (shift d i) m -> is_nearest (fun j => T (shift d j)) i m.
Proof.
  assert (U : forall j, exists k, shift d k = j).
  { intros j. destruct d as [[a b] c], j as [[x y] z]. exists (x - a, y - b, z - c).
    unfold shift. f_equal; [f_equal|]; lia. }
  unfold is_nearest. destruct m as [q|].
  - intros [[j [Hj Dj]] L]. destruct (U j) as [k <-]. split.
    + exists k. now rewrite sqdist_shift in Dj.
    + intros k' Hk'. specialize (L _ Hk'). now rewrite sqdist_shift in L.
  - intros H j Hj. exact (H _ Hj).
Qed.

Lemma signed_shift d f (T : idx -> Prop) i v :
  signed f T (shift d i) v -> signed f (fun j => T (shift d j)) i v.
Proof.
  intros [a [b [m [Hv [Hn [R1 R2]]]]]]. exists a, b, m. split; [easy|].
  split; [now apply is_nearest_shift|easy].
Qed.

Definition off (nx ny nz : Z) : idx := (query_offset nx, query_offset ny, query_offset nz).

Lemma bordered_in nx ny nz bd p i : in_box nx ny nz i ->
  bordered nx ny nz bd p (shift (off nx ny nz) i) = p i.
Proof.
  destruct i as [[x y] z]. unfold in_box. intros H. unfold bordered, shift, off.
  unfold size_offset, query_offset.
  assert (E : forall k n, 0 <= k < n ->
    (0 <? (if 1 <? n then 2 else 0)) && (((k + (if 1 <? n then 1 else 0)) =? 0)
     || ((k + (if 1 <? n then 1 else 0)) =? n + (if 1 <? n then 2 else 0) - 1)) = false).
  { intros k n Hk. destruct (Z.ltb_spec 1 n); [|easy]. cbn [Z.ltb andb]. lia. }
  rewrite !E by lia. f_equal. f_equal; [f_equal|]; lia.
Qed.

Lemma bordered_out nx ny nz bd p j : in_shell nx ny nz j ->
  bordered nx ny nz bd p (shift (off nx ny nz) j) = bd.
Proof.
  destruct j as [[x y] z]. unfold in_shell, in_box, bordered, shift, off, size_offset, query_offset.
  intros [B O].
  destruct (Z.ltb_spec 1 nx), (Z.ltb_spec 1 ny), (Z.ltb_spec 1 nz);
    cbn [Z.ltb Z.compare andb];
    repeat match goal with |- context [(?a =? ?b) || (?c =? ?d)] =>
      destruct (Z.eqb_spec a b); destruct (Z.eqb_spec c d); cbn [orb]; try reflexivity end;
    exfalso; apply O; lia.
Qed.

Lemma enlarged_box nx ny nz j :
  0 < nx -> 0 < ny -> 0 < nz ->
  (in_box (nx + size_offset nx) (ny + size_offset ny) (nz + size_offset nz) (shift (off nx ny nz) j)
   <-> in_box nx ny nz j \/ in_shell nx ny nz j).
Proof.
  intros Hx Hy Hz. destruct j as [[x y] z].
  unfold in_shell, in_box, shift, off, size_offset, query_offset.
  destruct (Z.ltb_spec 1 nx), (Z.ltb_spec 1 ny), (Z.ltb_spec 1 nz); split; intros H'; lia.
Qed.


Lemma opposite_irrefl nx ny nz p i : ~ opposite nx ny nz p i i.
Proof. unfold opposite. tauto. Qed.

Lemma nearest_ge1 (T : idx -> Prop) i m : ~ T i -> is_nearest T i m -> dle (Some 1) m.
Proof. intros H Hn. destruct m as [d|]; cbn; [|easy]. eapply is_nearest_pos; eauto. Qed.

(** The borderless field of the enlarged grid, seen from the original one. *)
Lemma enlarged_signed nx ny nz bd p :
  0 < nx -> 0 < ny -> 0 < nz ->
  nx + size_offset nx <= N -> ny + size_offset ny <= N -> nz + size_offset nz <= N ->
  exists g, extract A S combine oob (nx + size_offset nx) (ny + size_offset ny) (nz + size_offset nz)
              (bordered nx ny nz bd p) = Some g /\
    forall i, in_box nx ny nz i ->
      exists v, gget g (shift (off nx ny nz) i) = Some v /\
        signed (p i) (fun j => opposite nx ny nz p i j \/ (in_shell nx ny nz j /\ bd <> p i)) i v.
Proof.
  intros Hx Hy Hz Lx Ly Lz.
  assert (P : forall n, 0 < n -> 0 < n + size_offset n).
  { intros n Hn. unfold size_offset. destruct (1 <? n); lia. }
  destruct (extract_signed (nx + size_offset nx) (ny + size_offset ny) (nz + size_offset nz)
              (bordered nx ny nz bd p)) as [g [E [W [Dx [Dy [Dz G]]]]]]; [split; auto..|].
  exists g. split; [exact E|]. intros i Hi.
  destruct (G (shift (off nx ny nz) i)) as [v [Gv Sv]].
  { apply enlarged_box; auto. }
  exists v. split; [exact Gv|]. rewrite bordered_in in Sv by easy.
  apply signed_shift in Sv. eapply signed_ext; [|exact Sv]. cbn beta. intros j.
  unfold opposite at 1. rewrite (bordered_in nx ny nz bd p i) by easy.
  rewrite (enlarged_box nx ny nz j) by easy. split.
  - intros [[Hj|Hj] Hne].
    + left. rewrite bordered_in in Hne by easy. now split.
    + right. rewrite bordered_out in Hne by easy. now split.
  - intros [[Hj Hne]|[Hj Hne]].
    + split; [now left|]. now rewrite bordered_in.
    + split; [now right|]. now rewrite bordered_out.
Qed.

Lemma extract_border_signed nx ny nz p :
  0 < nx -> 0 < ny -> 0 < nz ->
  nx + size_offset nx <= N -> ny + size_offset ny <= N -> nz + size_offset nz <= N ->
  exists g, extract_border A S combine oob ge0 le0 s0 nx ny nz p = Some g /\ gwf g /\
    g_nx g = nx /\ g_ny g = ny /\ g_nz g = nz /\
    forall i, in_box nx ny nz i -> exists v, gget g i = Some v /\
      signed (p i) (fun j => opposite nx ny nz p i j \/ in_shell nx ny nz j) i v.
Proof.
  intros Hx Hy Hz Lx Ly Lz. unfold extract_border.
  destruct (enlarged_signed nx ny nz true p Hx Hy Hz Lx Ly Lz) as [g1 [E1 G1]].
  destruct (enlarged_signed nx ny nz false p Hx Hy Hz Lx Ly Lz) as [g2 [E2 G2]].
  rewrite E1. cbn [obind]. rewrite E2. cbn [obind].
  set (val := fun (g : grid S) i => match gget g (shift (off nx ny nz) i) with Some a => a | None => s0 end).
  destruct (build_ok nx ny nz (border_cell_step S ge0 le0 s0 nx ny nz g1 g2)
              (fun i => combine_signed S ge0 le0 s0 (val g1 i) (val g2 i)) (gconst nx ny nz oob))
    as [g [E [W [D G]]]]; [apply gconst_wf; lia|easy..| |].
  - intros g [[x y] z] Hi. unfold border_cell_step, val. apply in_box_iff in Hi.
    destruct (G1 _ Hi) as [a [Ha _]]. destruct (G2 _ Hi) as [b [Hb _]].
    change (x + query_offset nx, y + query_offset ny, z + query_offset nz)
      with (shift (off nx ny nz) (x, y, z)).
    now rewrite Ha, Hb.
  - exists g. destruct D as [Dx [Dy Dz]]. split; [exact E|]. split; [exact W|].
    split; [exact Dx|]. split; [exact Dy|]. split; [exact Dz|]. intros i Hi.
    rewrite G by now apply in_box_iff.
    destruct (G1 i Hi) as [v1 [Ha S1]]. destruct (G2 i Hi) as [v2 [Hb S2]].
    unfold val. rewrite Ha, Hb. eexists. split; [reflexivity|].
    assert (NS : ~ in_shell nx ny nz i).
    { destruct i as [[x y] z]. unfold in_shell. tauto. }
    assert (NN : forall b m, is_nearest (fun j => opposite nx ny nz p i j \/ in_shell nx ny nz j /\ b <> p i) i m ->
                 dle (Some 1) m).
    { intros b m Hm. eapply nearest_ge1; [|exact Hm]. cbn beta. intros [H|H]; [now apply opposite_irrefl in H|].
      now destruct H. }
    unfold combine_signed. destruct (p i) eqn:P.
    + (* filled: the first field is negative, the second applies *)
      destruct S1 as [a1 [b1 [m1 [-> [N1 [R1 R1']]]]]].
      rewrite (ge0_neg _ _ m1) by
        (try easy; apply (NN _ _ N1)).
      destruct S2 as [a2 [b2 [m2 [-> [N2 [R2 R2']]]]]].
      rewrite (le0_neg _ _ m2) by
        (try easy; apply (NN _ _ N2)).
      exists a2, b2, m2. split; [easy|]. split; [|easy].
      eapply is_nearest_ext; [|exact N2]. cbn beta. intros j. intuition congruence.
    + destruct S1 as [a1 [b1 [m1 [-> [N1 [R1 R1']]]]]].
      rewrite (ge0_pos _ _ m1) by
        (try easy; apply (NN _ _ N1)).
      exists a1, b1, m1. split; [easy|]. split; [|easy].
      eapply is_nearest_ext; [|exact N1]. cbn beta. intros j. intuition congruence.
Qed.
End Extract.

(** ** Exact values *)

Lemma scaled_sqrt_metric res a m : exact_rep a m -> (match m with Some d => 0 <= d | None => True end) ->
  x_scaled_sqrt res a = metric res m.
Proof.
  destruct a as [| |q|], m as [d|]; cbn; try easy. intros Hq Hd.
  assert (L : Qle_bool 0 q = true).
  { apply Qle_bool_iff. rewrite Hq. change (inject_Z 0 <= inject_Z d)%Q. rewrite <- Zle_Qle. exact Hd. }
  rewrite L. f_equal. rewrite (Qeq_eqR _ _ Hq). unfold Q2R, inject_Z. cbn.
  replace (IZR d * / 1)%R with (IZR d) by field. ring.
Qed.

Lemma nearest_pre_nonneg S i m : is_nearest S i m -> match m with Some d => 0 <= d | None => True end.
Proof. destruct m; [apply is_nearest_nonneg|easy]. Qed.

Lemma x_combine_value res (f : bool) a b m :
  (match m with Some d => 0 <= d | None => True end) ->
  exact_rep (if f then a else b) (Some 0) -> exact_rep (if f then b else a) m ->
  x_combine res a b = if f then xopp (metric res m) else metric res m.
Proof.
  intros Pm R0 Rm. unfold x_combine. destruct f.
  - rewrite (scaled_sqrt_metric res a (Some 0)), (scaled_sqrt_metric res b m) by easy.
    cbn [metric]. rewrite sqrt_0, Rmult_0_r. destruct m as [d|]; cbn; [|easy]. f_equal. ring.
  - rewrite (scaled_sqrt_metric res b (Some 0)), (scaled_sqrt_metric res a m) by easy.
    cbn [metric]. rewrite sqrt_0, Rmult_0_r. destruct m as [d|]; cbn; [|easy]. f_equal. ring.
Qed.

Lemma signed_exact res f T i v :
  signed exact exact_rep xr (x_combine res) f T i v -> is_signed_distance res f T i v.
Proof.
  intros [a [b [m [-> [Hn [R1 R2]]]]]]. exists m. split; [exact Hn|].
  apply x_combine_value; try easy. eapply nearest_pre_nonneg; eauto.
Qed.

Definition N_of (nx ny nz : Z) : Z := nx + ny + nz + 2.

Lemma metric_ge res m : (0 < res)%R -> dle (Some 1) m ->
  match metric res m with XPInf => True | XFin r => (res <= r)%R | _ => False end.
Proof.
  intros Hr H. destruct m as [d|]; cbn; [|easy]. cbn in H.
  assert (1 <= sqrt (IZR d))%R.
  { rewrite <- sqrt_1. apply sqrt_le_1_alt. now apply IZR_le. }
  apply Rle_trans with (res * 1)%R; [lra|]. apply Rmult_le_compat_l; lra.
Qed.

Lemma sdf_exact_ok res nx ny nz p (border : bool) :
  (0 < res)%R -> 0 < nx -> 0 < ny -> 0 < nz ->
  exists g, sdf_exact res true border nx ny nz p = Some g /\ gwf g /\
    g_nx g = nx /\ g_ny g = ny /\ g_nz g = nz /\
    (if border then is_bordered_sdf res nx ny nz p (gget g) else is_sdf res nx ny nz p (gget g)).
Proof.
  intros Hr Hx Hy Hz.
  assert (OK : arith_ok exact exact_rep exact_bp (N_of nx ny nz) (2 * (N_of nx ny nz * N_of nx ny nz))).
  { apply exact_ok. unfold N_of; lia. }
  assert (L : forall n, 0 < n -> size_offset n <= 2) by (intros; unfold size_offset; destruct (1 <? n); lia).
  pose proof (L nx Hx). pose proof (L ny Hy). pose proof (L nz Hz).
  unfold sdf_exact, extract_grid. destruct border.
  - destruct (extract_border_signed exact exact_rep exact_bp _ _ OK) with
      (S := xr) (combine := x_combine res) (oob := XNaN) (ge0 := x_ge0) (le0 := x_le0) (s0 := XFin 0)
      (nx := nx) (ny := ny) (nz := nz) (p := p) as [g [E [W [Dx [Dy [Dz G]]]]]];
      try (unfold N_of; lia).
    + cbn. reflexivity.
    + intros a b m R1 R2 Hm. rewrite (x_combine_value res false a b m); try easy.
      * pose proof (metric_ge res m Hr Hm) as Q. destruct (metric res m); try easy. cbn.
        destruct (Rle_dec 0 r); [easy|lra].
      * destruct m; cbn in *; lia || easy.
    + intros a b m R1 R2 Hm. rewrite (x_combine_value res true a b m); try easy.
      * pose proof (metric_ge res m Hr Hm) as Q. destruct (metric res m); try easy. cbn.
        destruct (Rle_dec 0 (- r)); [lra|easy].
      * destruct m; cbn in *; lia || easy.
    + intros a b m R1 R2 Hm. rewrite (x_combine_value res true a b m); try easy.
      * pose proof (metric_ge res m Hr Hm) as Q. destruct (metric res m); try easy. cbn.
        destruct (Rle_dec (- r) 0); [easy|lra].
      * destruct m; cbn in *; lia || easy.
    + exists g. split; [exact E|]. split; [exact W|]. split; [exact Dx|]. split; [exact Dy|].
      split; [exact Dz|]. intros i Hi. destruct (G i Hi) as [v [Gv Sv]].
      exists v. split; [exact Gv|]. now apply signed_exact.
  - destruct (extract_signed exact exact_rep exact_bp _ _ OK) with
      (S := xr) (combine := x_combine res) (oob := XNaN)
      (nx := nx) (ny := ny) (nz := nz) (p := p) as [g [E [W [Dx [Dy [Dz G]]]]]];
      try (unfold N_of; lia).
    + cbn. reflexivity.
    + exists g. split; [exact E|]. split; [exact W|]. split; [exact Dx|]. split; [exact Dy|].
      split; [exact Dz|]. intros i Hi. destruct (G i Hi) as [v [Gv Sv]].
      exists v. split; [exact Gv|]. now apply signed_exact.
Qed.
