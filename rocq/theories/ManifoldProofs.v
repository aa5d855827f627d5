(** Sets of cells whose boundary does not touch itself: the boundary is a closed surface,
    its surfaces correspond to the regions outside of the set, and its Euler number is at
    most twice the number of surfaces. *)
From Coq Require Import ZArith List Lia Bool Permutation.
From Verif Require Import Util Grid ComponentSpec ComponentMapSpec SurfaceSpec HolesProofs PlaneProofs BoundaryProofs GraphProofs
  ManifoldSpec ManifoldChecks.
Import ListNotations.
Local Open Scope Z_scope.

Lemma triple (a b c a' b' c' : Z) : a = a' -> b = b' -> c = c' -> (a, b, c) = (a', b', c').
Proof. now intros -> -> ->. Qed.

(** ** The boundary as a closed surface *)

Section M.
Variables (q : idx -> bool) (nx ny nz : Z).
Hypothesis bounded : forall x y z, q (x, y, z) = true -> 0 <= x < nx /\ 0 <= y < ny /\ 0 <= z < nz.

Definition mface (f : face) : bool := mixed q (at_face (fst f) (snd f)).
Definition medge (e : face) : bool := mixed q (at_edge (fst e) (snd e)).

Lemma mface_x x y z : mface (Ax, (x, y, z)) = xorb (q (x - 1, y, z)) (q (x, y, z)).
Proof using. unfold mface, mixed, all_of, none_of. cbn [fst snd at_face forallb existsb]. now destruct (q _), (q _). Qed.
Lemma mface_y x y z : mface (Ay, (x, y, z)) = xorb (q (x, y - 1, z)) (q (x, y, z)).
Proof using. unfold mface, mixed, all_of, none_of. cbn [fst snd at_face forallb existsb]. now destruct (q _), (q _). Qed.
Lemma mface_z x y z : mface (Az, (x, y, z)) = xorb (q (x, y, z - 1)) (q (x, y, z)).
Proof using. unfold mface, mixed, all_of, none_of. cbn [fst snd at_face forallb existsb]. now destruct (q _), (q _). Qed.

Definition sides (e : face) : face * face :=
  match filter mface (edge_faces e) with f :: g :: _ => (f, g) | _ => (e, e) end.
Definition edge_ends (e : face) : idx * idx := (snd e, step_along (fst e) (snd e)).

Lemma edge_cases e : edge_contact q (fst e) (snd e) = false ->
  (medge e = true /\ filter mface (edge_faces e) = [fst (sides e); snd (sides e)]) \/
  (medge e = false /\ filter mface (edge_faces e) = []).
Proof using.
  destruct e as [a [[x y] z]]. unfold sides, medge, mixed, all_of, none_of, edge_contact. cbn [fst snd]. unfold edge_faces.
  destruct a; cbn [at_edge forallb existsb filter]; rewrite ?mface_x, ?mface_y, ?mface_z;
    rewrite ?Z.sub_simpl_r;
    destruct (q _), (q _), (q _), (q _); cbn; intros H; try discriminate H; auto.
Qed.

(** Lists of the vertices, edges and faces of the boundary. *)
Definition box : list idx := all_idx (nx + 1) (ny + 1) (nz + 1).
Definition listing (p : face -> bool) : list face :=
  map (pair Ax) (filter (fun v => p (Ax, v)) box) ++ map (pair Ay) (filter (fun v => p (Ay, v)) box) ++
  map (pair Az) (filter (fun v => p (Az, v)) box).
Definition bvertices : list idx := filter (boundary_vertex q) box.
Definition bedges : list face := listing medge.
Definition bfaces : list face := listing mface.

Lemma in_box x y z : In (x, y, z) box <-> 0 <= x <= nx /\ 0 <= y <= ny /\ 0 <= z <= nz.
Proof using. unfold box. rewrite in_all_idx, in_bounds3_iff. lia. Qed.

Lemma in_listing p e : In e (listing p) <-> p e = true /\ In (snd e) box.
Proof using.
  destruct e as [a v]. unfold listing. rewrite !in_app_iff, !in_map_iff. cbn [snd]. split.
  - intros [(w & E & H)|[(w & E & H)|(w & E & H)]]; injection E as <- <-; apply filter_In in H; tauto.
  - intros (P & I). destruct a; [left|right; left|right; right]; exists v; (split; [reflexivity|]); now apply filter_In.
Qed.

Lemma nodup_listing p : NoDup (listing p).
Proof using.
  assert (N : forall a, NoDup (map (pair a) (filter (fun v => p (a, v)) box))).
  { intros a. apply FinFun.Injective_map_NoDup; [intros v w E; now injection E|]. apply NoDup_filter, NoDup_all_idx. }
  unfold listing. apply nodup_app; [apply N|apply nodup_app; [apply N|apply N|]|].
  - intros e E1 E2. apply in_map_iff in E1, E2. destruct E1 as (v & <- & _), E2 as (w & E & _). discriminate E.
  - intros e E1 E2. apply in_app_iff in E2. apply in_map_iff in E1. destruct E1 as (v & <- & _).
    destruct E2 as [E2|E2]; apply in_map_iff in E2; destruct E2 as (w & E & _); discriminate E.
Qed.

Lemma zsum_listing p (f : face -> Z) : zsum f (listing p) =
  zsum (fun v => if p (Ax, v) then f (Ax, v) else 0) box + zsum (fun v => if p (Ay, v) then f (Ay, v) else 0) box
  + zsum (fun v => if p (Az, v) then f (Az, v) else 0) box.
Proof using. unfold listing. rewrite !zsum_app, !zsum_map, !zsum_filter. lia. Qed.

Lemma zlen_listing p : zlen (listing p) =
  vertex_count nx ny nz (fun v => p (Ax, v)) + vertex_count nx ny nz (fun v => p (Ay, v))
  + vertex_count nx ny nz (fun v => p (Az, v)).
Proof using. unfold listing, vertex_count. fold box. unfold zlen. rewrite !app_length, !map_length. lia. Qed.

Lemma euler_lists : boundary_euler q nx ny nz = zlen bvertices - zlen bedges + zlen bfaces.
Proof using. unfold bedges, bfaces. rewrite !zlen_listing. reflexivity. Qed.

(** Everything of the boundary lies in the box. *)
Lemma mixed_box l x y z : incl l (below (x, y, z) ++ above (x, y, z)) -> mixed q l = true -> In (x, y, z) box.
Proof using bounded.
  intros I M. apply in_box. unfold mixed in M. apply andb_prop in M. destruct M as (_ & M).
  unfold none_of in M. rewrite negb_involutive in M.
  apply existsb_exists in M. destruct M as (i & Hi & Q). apply I in Hi. clear I.
  unfold below, above, quad in Hi. rewrite Z.add_0_r in Hi. cbn [app In] in Hi.
  repeat (destruct Hi as [<-|Hi]; [apply bounded in Q; lia|]). destruct Hi.
Qed.
Lemma face_in f : mface f = true -> In f bfaces.
Proof using bounded.
  destruct f as [a [[x y] z]]. intros M. apply in_listing. split; [exact M|].
  apply (mixed_box (at_face a (x, y, z))); [apply incl_face|exact M].
Qed.
Lemma edge_in e : medge e = true -> In e bedges.
Proof using bounded.
  destruct e as [a [[x y] z]]. intros M. apply in_listing. split; [exact M|].
  apply (mixed_box (at_edge a (x, y, z))); [apply incl_edge|exact M].
Qed.
Lemma vertex_in v : boundary_vertex q v = true -> In v bvertices.
Proof using bounded.
  destruct v as [[x y] z]. intros M. apply filter_In. split; [|exact M].
  apply (mixed_box (below (x, y, z) ++ above (x, y, z))); [apply incl_refl|exact M].
Qed.

Lemma mixed_incl l l' : incl l l' -> mixed q l = true -> mixed q l' = true.
Proof using.
  unfold mixed, all_of, none_of. rewrite !andb_true_iff, !negb_true_iff, !negb_false_iff.
  intros I (A & B). apply existsb_exists in B. destruct B as (i & I1 & I2). split.
  - apply not_true_iff_false. intros H. apply not_true_iff_false in A. apply A.
    rewrite forallb_forall in H |- *. auto.
  - apply existsb_exists. exists i. auto.
Qed.

Lemma edge_ends_in e : medge e = true -> In (fst (edge_ends e)) bvertices /\ In (snd (edge_ends e)) bvertices.
Proof using bounded.
  intros M. assert (BE : boundary_edge q (fst (edge_ends e)) (snd (edge_ends e))).
  { exists (fst e). left. split; [reflexivity|exact M]. }
  assert (E1 : boundary_vertex q (fst (edge_ends e)) = true).
  { apply (mixed_incl (at_edge (fst e) (snd e))); [apply incl_edge|exact M]. }
  assert (E2 : boundary_vertex q (snd (edge_ends e)) = true).
  { apply (mixed_incl (at_edge (fst e) (snd e))); [|exact M]. destruct e as [a [[x y] z]]. cbn [fst snd edge_ends].
    unfold below, above, quad, at_edge, step_along.
    destruct a; intros i I; cbn [app In] in *;
      repeat (destruct I as [<-|I];
        [repeat first [left; apply triple; lia|right]|]); destruct I. }
  split; now apply vertex_in.
Qed.

Lemma filter_pair {X} (p : X -> bool) l a b : filter p l = [a; b] -> In a l /\ p a = true /\ In b l /\ p b = true.
Proof using.
  intros H. assert (A : In a (filter p l)) by (rewrite H; now left).
  assert (B : In b (filter p l)) by (rewrite H; right; now left). apply filter_In in A, B. tauto.
Qed.

Hypothesis WC : well_composed q.

(** *** Sets of faces have even boundaries *)

Section Even.
Variable c : face -> bool.
Definition parity (l : list face) : bool := fold_right (fun f b => xorb (mface f && c f) b) false l.

Lemma parity_filter l : parity l = fold_right (fun f b => xorb (c f) b) false (filter mface l).
Proof using.
  induction l as [|f l IH]; [reflexivity|]. cbn [filter]. unfold parity in *. cbn [fold_right]. rewrite IH.
  destruct (mface f); [reflexivity|]. apply xorb_false_l.
Qed.
Lemma parity_edge e : medge e = true -> parity (edge_faces e) = xorb (c (fst (sides e))) (c (snd (sides e))).
Proof using WC.
  intros M. rewrite parity_filter. destruct (edge_cases e (proj1 WC _ _)) as [(_ & ->)|(N & _)]; [|congruence].
  cbn [fold_right]. now rewrite xorb_false_r.
Qed.
Lemma parity_none e : medge e = false -> parity (edge_faces e) = false.
Proof using WC.
  intros M. rewrite parity_filter. destruct (edge_cases e (proj1 WC _ _)) as [(N & _)|(_ & ->)]; [congruence|reflexivity].
Qed.

Lemma star_even v : Z.even (zsum (fun e => Z.b2z (parity (edge_faces e))) (star v)) = true.
Proof using.
  destruct v as [[x y] z]. unfold star, parity. cbn [zsum edge_faces fold_right].
  repeat match goal with |- context [mface ?f && c ?f] => generalize (mface f && c f); intros ? end.
  repeat match goal with b : bool |- _ => revert b; apply allb_spec end. vm_compute. reflexivity.
Qed.

Lemma zsum_place (g : idx -> Z) u : (g u <> 0 -> In u box) ->
  zsum (fun w => g w * Z.b2z (same idx_eq_dec w u)) box = g u.
Proof using.
  intros H. destruct (in_dec idx_eq_dec u box) as [I|N].
  - rewrite (zsum_single _ box u); [|apply NoDup_all_idx|exact I|].
    + replace (same idx_eq_dec u u) with true by (symmetry; now apply same_iff). cbn [Z.b2z]. lia.
    + intros b _ B. replace (same idx_eq_dec b u) with false by (symmetry; now apply same_neq). cbn [Z.b2z]. lia.
  - rewrite zsum_zero; [destruct (Z.eq_dec (g u) 0); [easy|now elim N; apply H]|].
    intros b B. replace (same idx_eq_dec b u) with false; [cbn [Z.b2z]; lia|]. symmetry. apply same_neq. congruence.
Qed.

Definition back_along (a : axis) (v : idx) : idx :=
  let '(x, y, z) := v in
  match a with Ax => (x - 1, y, z) | Ay => (x, y - 1, z) | Az => (x, y, z - 1) end.
Lemma step_back a u v : same idx_eq_dec (step_along a u) v = same idx_eq_dec u (back_along a v).
Proof using.
  destruct (same idx_eq_dec u (back_along a v)) eqn:E.
  - apply same_iff in E. subst u. apply same_iff. destruct v as [[x y] z], a; cbn; apply triple; lia.
  - apply same_neq in E. apply same_neq. intros <-. apply E. destruct u as [[x y] z], a; cbn; apply triple; lia.
Qed.

Lemma axis_sum a v :
  zsum (fun w => if medge (a, w) then Z.b2z (xorb (c (fst (sides (a, w)))) (c (snd (sides (a, w))))) *
      (Z.b2z (same idx_eq_dec (fst (edge_ends (a, w))) v) + Z.b2z (same idx_eq_dec (snd (edge_ends (a, w))) v)) else 0) box =
  Z.b2z (parity (edge_faces (a, v))) + Z.b2z (parity (edge_faces (a, back_along a v))).
Proof using WC bounded.
  rewrite (zsum_ext _ (fun w => Z.b2z (parity (edge_faces (a, w))) * Z.b2z (same idx_eq_dec w v) +
                                Z.b2z (parity (edge_faces (a, w))) * Z.b2z (same idx_eq_dec w (back_along a v)))).
  - rewrite zsum_add.
    assert (H : forall u, Z.b2z (parity (edge_faces (a, u))) <> 0 -> In u box).
    { intros u U. destruct (medge (a, u)) eqn:M; [|now rewrite (parity_none _ M) in U].
      apply edge_in, in_listing in M. apply M. }
    rewrite (zsum_place (fun w => Z.b2z (parity (edge_faces (a, w)))) v) by apply H.
    rewrite (zsum_place (fun w => Z.b2z (parity (edge_faces (a, w)))) (back_along a v)) by apply H. reflexivity.
  - intros w _. unfold edge_ends. cbn [fst snd]. rewrite step_back. destruct (medge (a, w)) eqn:M.
    + rewrite (parity_edge _ M). lia.
    + rewrite (parity_none _ M). reflexivity.
Qed.

Lemma perm6 a b k d e f : a + b + (k + d) + (e + f) = e + (f + (k + (d + (a + (b + 0))))).
Proof using. lia. Qed.

Lemma even_ends v : Z.even (zsum (fun e => Z.b2z (xorb (c (fst (sides e))) (c (snd (sides e)))) *
  (Z.b2z (same idx_eq_dec (fst (edge_ends e)) v) + Z.b2z (same idx_eq_dec (snd (edge_ends e)) v))) bedges) = true.
Proof using WC bounded.
  unfold bedges. rewrite zsum_listing, !axis_sum. rewrite <- (star_even v). f_equal.
  destruct v as [[x y] z]. unfold star. cbn [zsum back_along]. apply perm6.
Qed.
End Even.

(** *** One sheet at every vertex *)

Definition Linked : face -> face -> Prop := linked sides bedges.

Lemma edge_linked e f g : In f (edge_faces e) -> In g (edge_faces e) -> mface f = true -> mface g = true -> Linked f g.
Proof using WC bounded.
  intros F G Mf Mg. assert (F' : In f (filter mface (edge_faces e))) by now apply filter_In.
  assert (G' : In g (filter mface (edge_faces e))) by now apply filter_In.
  destruct (edge_cases e (proj1 WC _ _)) as [(M & E)|(_ & E)]; rewrite E in *; [|destruct F'].
  apply edge_in in M. cbn [In] in F', G'.
  destruct F' as [<-|[<-|[]]], G' as [<-|[<-|[]]]; try apply linked_here; [|apply linked_sym]; now apply linked_edge.
Qed.

Lemma plain_at x y z : plain8 (q (x - 1, y - 1, z - 1)) (q (x - 1, y, z - 1)) (q (x, y - 1, z - 1)) (q (x, y, z - 1))
  (q (x - 1, y - 1, z)) (q (x - 1, y, z)) (q (x, y - 1, z)) (q (x, y, z)) = true.
Proof using WC.
  destruct WC as (C1 & C2). unfold plain8. apply andb_true_iff. split.
  - apply negb_true_iff. rewrite <- (C2 (x, y, z)). unfold corner_contact, below, above, quad. rewrite Z.add_0_r. reflexivity.
  - apply Z.eqb_eq. unfold ends8.
    pose proof (C1 Ax (x, y, z)) as E1. pose proof (C1 Ay (x, y, z)) as E2. pose proof (C1 Az (x, y, z)) as E3.
    pose proof (C1 Ax (x - 1, y, z)) as E4. pose proof (C1 Ay (x, y - 1, z)) as E5. pose proof (C1 Az (x, y, z - 1)) as E6.
    unfold edge_contact in *. cbn [at_edge] in *. unfold con4. rewrite E1, E2, E3, E4, E5, E6. reflexivity.
Qed.

Lemma vertex_linked v f g : In f (vertex_faces v) -> In g (vertex_faces v) -> mface f = true -> mface g = true -> Linked f g.
Proof using WC bounded.
  destruct v as [[x y] z]. intros F G Mf Mg. apply (linked_rep face_dec).
  set (vf := vertex_faces (x, y, z)) in *. set (d := (Ax, (0, 0, 0))).
  pose proof (plain_at x y z) as P.
  assert (M : map mface vf = faces8 (q (x - 1, y - 1, z - 1)) (q (x - 1, y, z - 1)) (q (x, y - 1, z - 1)) (q (x, y, z - 1))
    (q (x - 1, y - 1, z)) (q (x - 1, y, z)) (q (x, y - 1, z)) (q (x, y, z))).
  { unfold vf, vertex_faces. cbn [map]. rewrite !mface_x, !mface_y, !mface_z. reflexivity. }
  pose proof (local_sheet (fun i => rep face_dec sides bedges (nth i vf d)) _ _ _ _ _ _ _ _ P) as L.
  cbv zeta in L. rewrite <- M in L.
  assert (N : forall i, (i < 12)%nat -> nth i (map mface vf) false = mface (nth i vf d)).
  { intros i Hi. rewrite (nth_indep _ false (mface d)) by (rewrite map_length; exact Hi). apply map_nth. }
  destruct (In_nth vf f d F) as (i & Hi & <-). destruct (In_nth vf g d G) as (j & Hj & <-).
  apply L; [|exact Hi|exact Hj|rewrite N; auto|rewrite N; auto].
  clear -N WC bounded. intros l i j Hl Hi Hj Mi Mj.
  assert (B : (i < 12)%nat /\ (j < 12)%nat).
  { unfold star_faces in Hl. cbn [In] in Hl. repeat (destruct Hl as [<-|Hl]; [cbn [In] in Hi, Hj; lia|]). destruct Hl. }
  rewrite N in Mi, Mj by tauto. apply (linked_rep face_dec).
  assert (E : exists e, In (nth i vf d) (edge_faces e) /\ In (nth j vf d) (edge_faces e)).
  { unfold star_faces in Hl. cbn [In] in Hl. 
    destruct Hl as [<-|[<-|[<-|[<-|[<-|[<-|[]]]]]]];
      [exists (Az, (x, y, z))|exists (Az, (x, y, z - 1))|exists (Ay, (x, y, z))|exists (Ay, (x, y - 1, z))
      |exists (Ax, (x, y, z))|exists (Ax, (x - 1, y, z))]; cbn [In] in Hi, Hj; unfold vf, vertex_faces, edge_faces;
      (split; [destruct Hi as [<-|[<-|[<-|[<-|[]]]]]|destruct Hj as [<-|[<-|[<-|[<-|[]]]]]]); cbn [nth In]; tauto. }
  destruct E as (e & E1 & E2). now apply (edge_linked e).
Qed.

(** A boundary edge has a face of the boundary at both of its ends. *)
Lemma edge_has_face e : medge e = true ->
  exists f, mface f = true /\ In f (vertex_faces (fst (edge_ends e))) /\ In f (vertex_faces (snd (edge_ends e))).
Proof using WC.
  intros M. destruct (edge_cases e (proj1 WC _ _)) as [(_ & E)|(N & _)]; [|congruence].
  apply filter_pair in E. destruct E as (I & Mf & _ & _). exists (fst (sides e)). split; [exact Mf|].
  revert I. generalize (fst (sides e)). intros f I. destruct e as [a [[x y] z]]. unfold edge_ends. cbn [fst snd].
  unfold edge_faces in I. unfold vertex_faces, step_along.
  destruct a; cbn [In] in I; destruct I as [<-|[<-|[<-|[<-|[]]]]]; rewrite ?Z.add_simpl_r; cbn [In]; tauto.
Qed.

(** Faces at linked vertices are linked. *)
Lemma linked_faces u w : linked edge_ends bedges u w -> forall f g, In f (vertex_faces u) -> In g (vertex_faces w) ->
  mface f = true -> mface g = true -> Linked f g.
Proof using WC bounded.
  induction 1 as [|w e H IH E W|w e H IH E W]; intros f g F G Mf Mg.
  - now apply (vertex_linked u).
  - subst w. apply in_listing in E. destruct E as (E & _). destruct (edge_has_face e E) as (h & Mh & H1 & H2).
    apply (linked_trans _ _ f h g); [apply IH; auto|]. now apply (vertex_linked (snd (edge_ends e))).
  - subst w. apply in_listing in E. destruct E as (E & _). destruct (edge_has_face e E) as (h & Mh & H1 & H2).
    apply (linked_trans _ _ f h g); [apply IH; auto|]. now apply (vertex_linked (fst (edge_ends e))).
Qed.

Lemma face_at_corner f : In f (vertex_faces (snd f)).
Proof using. destruct f as [[] [[x y] z]]; cbn [vertex_faces snd In]; tauto. Qed.

Lemma sides_in e : medge e = true -> mface (fst (sides e)) = true /\ mface (snd (sides e)) = true.
Proof using WC.
  intros M. destruct (edge_cases e (proj1 WC _ _)) as [(_ & E)|(N & _)]; [|congruence]. apply filter_pair in E. tauto.
Qed.

Lemma linked_same u w : linked edge_ends bedges u w <-> same_surface q u w.
Proof using bounded.
  split.
  - induction 1 as [|w e H IH E W|w e H IH E W]; [constructor|..]; subst w; apply in_listing in E; destruct E as (E & _);
      (eapply same_step; [exact IH|]); exists (fst e); [left|right]; (split; [reflexivity|exact E]).
  - induction 1 as [|w w' H IH (a & [(-> & M)|(-> & M)])]; [constructor|..].
    + change (step_along a w) with (snd (edge_ends (a, w))). eapply linked_step; [exact IH| |reflexivity]. now apply edge_in.
    + change w' with (fst (edge_ends (a, w'))). eapply linked_back; [exact IH| |reflexivity]. now apply edge_in.
Qed.

Lemma roots_number : surface_number q (zlen (roots idx_eq_dec edge_ends bedges bvertices)).
Proof using bounded.
  exists (roots idx_eq_dec edge_ends bedges bvertices).
  assert (W : within edge_ends bvertices bedges).
  { intros e E. apply in_listing in E. now apply edge_ends_in. }
  split; [apply NoDup_filter, NoDup_filter, NoDup_all_idx|]. split; [reflexivity|]. split; [|split].
  - intros r R. apply filter_In in R. destruct R as (R & _). apply filter_In in R. apply R.
  - intros v Hv. apply vertex_in in Hv. exists (rep idx_eq_dec edge_ends bedges v). split.
    + apply filter_In. split; [now apply rep_in|]. apply same_iff, rep_rep.
    + apply linked_same, linked_sym, rep_linked.
  - intros r r' R R' S. apply filter_In in R, R'. destruct R as (_ & R), R' as (_ & R'). apply same_iff in R, R'.
    rewrite <- R, <- R'. now apply linked_rep, linked_same.
Qed.

Lemma euler_bound s : surface_number q s -> boundary_euler q nx ny nz <= 2 * s.
Proof using WC bounded.
  intros S. rewrite (surface_number_unique q s _ S roots_number), euler_lists.
  apply (euler_le idx_eq_dec face_dec edge_ends sides bvertices bfaces bedges) with (corner := snd).
  - apply NoDup_filter, NoDup_all_idx.
  - apply nodup_listing.
  - intros e E. apply in_listing in E. now apply edge_ends_in.
  - intros e E. apply in_listing in E. destruct E as (E & _). destruct (sides_in e E) as (A & B).
    split; now apply face_in.
  - intros c v _. apply even_ends.
  - intros f F. apply in_listing in F. destruct F as (F & _). apply vertex_in.
    apply (mixed_incl (at_face (fst f) (snd f))); [apply incl_face|exact F].
  - intros f g F G L. apply in_listing in F, G. apply (linked_faces _ _ L f g); try apply face_at_corner; tauto.
Qed.

(** *** The Euler number of the boundary is twice that of the solid *)

Definition mv (v : idx) : Z := Z.b2z (boundary_vertex q v).
Definition me (a : axis) (v : idx) : Z := Z.b2z (mixed q (at_edge a v)).
Definition mf (a : axis) (v : idx) : Z := Z.b2z (mixed q (at_face a v)).
Definition sv (v : idx) : Z := Z.b2z (existsb q (below v ++ above v)).
Definition se (a : axis) (v : idx) : Z := Z.b2z (existsb q (at_edge a v)).
Definition sf (a : axis) (v : idx) : Z := Z.b2z (existsb q (at_face a v)).
Definition qz (v : idx) : Z := Z.b2z (q v).
Definition cells (v : idx) : Z :=
  qz (move v (-1, -1, -1)) + qz (move v (-1, 0, -1)) + qz (move v (0, -1, -1)) + qz (move v (0, 0, -1)) +
  (qz (move v (-1, -1, 0)) + qz (move v (-1, 0, 0)) + qz (move v (0, -1, 0)) + qz (move v (0, 0, 0))).

Lemma double_at v :
  8 * mv v - 4 * ends me v + 2 * corners mf v = 2 * (8 * sv v - 4 * ends se v + 2 * corners sf v - cells v).
Proof using WC.
  destruct v as [[x y] z]. pose proof (double8_ok (q (x - 1, y - 1, z - 1)) (q (x - 1, y, z - 1)) (q (x, y - 1, z - 1)) (q (x, y, z - 1))
    (q (x - 1, y - 1, z)) (q (x - 1, y, z)) (q (x, y - 1, z)) (q (x, y, z))) as I.
  unfold double8 in I. rewrite (plain_at x y z) in I. cbn [negb orb] in I. apply Z.eqb_eq in I.
  unfold mv, sv, boundary_vertex, below, above, quad, ends, corners, cells. rewrite !move_at, !Z.add_0_r.
  change (x + -1) with (x - 1). change (y + -1) with (y - 1). change (z + -1) with (z - 1). exact I.
Qed.

Definition in_box_pred (f : idx -> bool) : Prop :=
  forall x y z, f (x, y, z) = true -> 0 <= x <= nx /\ 0 <= y <= ny /\ 0 <= z <= nz.

Lemma exists_box (l : idx -> list idx) : (forall v, incl (l v) (below v ++ above v)) -> in_box_pred (fun v => existsb q (l v)).
Proof using bounded.
  intros I x y z M. apply existsb_exists in M. destruct M as (i & Hi & Q). apply I in Hi. clear I.
  unfold below, above, quad in Hi. rewrite Z.add_0_r in Hi. cbn [app In] in Hi.
  repeat (destruct Hi as [<-|Hi]; [apply bounded in Q; lia|]). destruct Hi.
Qed.
Lemma mixed_in_box (l : idx -> list idx) : (forall v, incl (l v) (below v ++ above v)) -> in_box_pred (fun v => mixed q (l v)).
Proof using bounded.
  intros I x y z M. apply in_box. apply (mixed_box (l (x, y, z))); auto.
Qed.
Lemma pred_core f : in_box_pred f -> core nx ny nz (fun v => Z.b2z (f v)).
Proof using. intros H x y z F. destruct (f (x, y, z)) eqn:Ef; [|now elim F]. apply H in Ef. lia. Qed.
Lemma q_box : in_box_pred q.
Proof using bounded. intros x y z Q. apply bounded in Q. lia. Qed.

Lemma total_cells : total nx ny nz cells = 8 * total nx ny nz qz.
Proof using bounded.
  unfold cells. rewrite !(total_add nx ny nz).
  rewrite !(total_move nx ny nz qz) by (try apply (pred_core q q_box); unfold small; cbn; lia). lia.
Qed.

Lemma euler_double : boundary_euler q nx ny nz = 2 * solid_euler q nx ny nz.
Proof using WC bounded.
  assert (T : total nx ny nz (fun v => 8 * mv v + (-4) * ends me v + 2 * corners mf v) =
    total nx ny nz (fun v => 2 * (8 * sv v + (-4) * ends se v + 2 * corners sf v + (-1) * cells v))).
  { apply total_ext. intros v. pose proof (double_at v). lia. }
  rewrite (total_mul nx ny nz 2), !(total_add nx ny nz), !(total_mul nx ny nz), !total_ends, !total_corners, total_cells in T;
    try (intros a; apply pred_core; first [apply exists_box|apply mixed_in_box]; first [apply incl_edge|apply incl_face]).
  unfold boundary_euler, solid_euler.
  rewrite !(vertex_count_total nx ny nz) by
    (first [apply (mixed_in_box (at_edge Ax))|apply (mixed_in_box (at_edge Ay))|apply (mixed_in_box (at_edge Az))
           |apply (mixed_in_box (at_face Ax))|apply (mixed_in_box (at_face Ay))|apply (mixed_in_box (at_face Az))
           |apply (mixed_in_box (fun v => below v ++ above v))
           |apply (exists_box (at_edge Ax))|apply (exists_box (at_edge Ay))|apply (exists_box (at_edge Az))
           |apply (exists_box (at_face Ax))|apply (exists_box (at_face Ay))|apply (exists_box (at_face Az))
           |apply (exists_box (fun v => below v ++ above v))|apply q_box];
     first [apply incl_edge|apply incl_face|intros; apply incl_refl]).
  unfold over_axes in T. unfold mv, me, mf, sv, se, sf, qz in T. lia.
Qed.

(** *** Surfaces separate *)

Section Colour.
Variable c : face -> bool.
Hypothesis even : forall e, parity c (edge_faces e) = false.

Definition marked (f : face) : bool := mface f && c f.
Definition colour (i : idx) : bool :=
  let '(x, y, z) := i in fold_right (fun x' b => xorb (marked (Ax, (x', y, z))) b) false (zrange (x + 1) (nx + 1)).

Lemma q_out x y z : nx <= x -> q (x, y, z) = false.
Proof using bounded. intros H. apply not_true_iff_false. intros B. apply bounded in B. lia. Qed.

Lemma colour_x x y z : colour (x - 1, y, z) = xorb (marked (Ax, (x, y, z))) (colour (x, y, z)).
Proof using bounded.
  unfold colour. rewrite Z.sub_simpl_r. destruct (Z.le_gt_cases x nx) as [H|H].
  - rewrite (zrange_app x (x + 1) (nx + 1)) by lia.
    replace (zrange x (x + 1)) with [x]; [reflexivity|]. unfold zrange. replace (x + 1 - x) with 1 by lia. reflexivity.
  - rewrite !zrange_nil by lia. unfold marked. rewrite mface_x, !q_out by lia. reflexivity.
Qed.

Lemma colour_far x y z : nx <= x -> colour (x, y, z) = false.
Proof using. intros H. unfold colour. now rewrite zrange_nil by lia. Qed.

Lemma colour_y x y z : colour (x, y - 1, z) = xorb (marked (Ay, (x, y, z))) (colour (x, y, z)).
Proof using bounded even.
  remember (Z.to_nat (nx - x)) as n eqn:N. revert x N. induction n as [|n IH]; intros x N.
  - rewrite !colour_far by lia. unfold marked. rewrite mface_y, !q_out by lia. reflexivity.
  - specialize (IH (x + 1) ltac:(lia)). pose proof (even (Az, (x + 1, y, z))) as E. unfold edge_faces, parity in E.
    cbn [fold_right] in E. fold (marked (Ax, (x + 1, y, z))) (marked (Ax, (x + 1, y - 1, z))) in E.
    fold (marked (Ay, (x + 1, y, z))) in E. rewrite Z.add_simpl_r in E. fold (marked (Ay, (x, y, z))) in E.
    pose proof (colour_x (x + 1) y z) as C1. pose proof (colour_x (x + 1) (y - 1) z) as C2.
    rewrite Z.add_simpl_r in C1, C2. rewrite C1, C2, IH.
    destruct (marked (Ax, (x + 1, y, z))), (marked (Ax, (x + 1, y - 1, z))), (marked (Ay, (x + 1, y, z))),
      (marked (Ay, (x, y, z))), (colour (x + 1, y, z)); try discriminate E; reflexivity.
Qed.

Lemma colour_z x y z : colour (x, y, z - 1) = xorb (marked (Az, (x, y, z))) (colour (x, y, z)).
Proof using bounded even.
  remember (Z.to_nat (nx - x)) as n eqn:N. revert x N. induction n as [|n IH]; intros x N.
  - rewrite !colour_far by lia. unfold marked. rewrite mface_z, !q_out by lia. reflexivity.
  - specialize (IH (x + 1) ltac:(lia)). pose proof (even (Ay, (x + 1, y, z))) as E. unfold edge_faces, parity in E.
    cbn [fold_right] in E. fold (marked (Ax, (x + 1, y, z))) (marked (Ax, (x + 1, y, z - 1))) in E.
    fold (marked (Az, (x + 1, y, z))) in E. rewrite Z.add_simpl_r in E. fold (marked (Az, (x, y, z))) in E.
    pose proof (colour_x (x + 1) y z) as C1. pose proof (colour_x (x + 1) y (z - 1)) as C2.
    rewrite Z.add_simpl_r in C1, C2. rewrite C1, C2, IH.
    destruct (marked (Ax, (x + 1, y, z))), (marked (Ax, (x + 1, y, z - 1))), (marked (Az, (x + 1, y, z))),
      (marked (Az, (x, y, z))), (colour (x + 1, y, z)); try discriminate E; reflexivity.
Qed.

Lemma colour_face f i j : at_face (fst f) (snd f) = [i; j] -> colour i = xorb (marked f) (colour j).
Proof using bounded even.
  destruct f as [a [[x y] z]]. destruct a; cbn [fst snd at_face]; intros E; injection E as <- <-;
    [apply colour_x|apply colour_y|apply colour_z].
Qed.
End Colour.

(** Cells that share a face, and the face. *)
Lemma face_between i j : share_face i j -> exists f, at_face (fst f) (snd f) = [i; j] \/ at_face (fst f) (snd f) = [j; i].
Proof using.
  destruct i as [[x y] z], j as [[x' y'] z']. unfold share_face, ix, iy, iz. cbn [fst snd]. intros H.
  assert (K : (x = x' /\ y = y' /\ (z = z' - 1 \/ z' = z - 1)) \/ (x = x' /\ z = z' /\ (y = y' - 1 \/ y' = y - 1)) \/
    (y = y' /\ z = z' /\ (x = x' - 1 \/ x' = x - 1))) by lia.
  destruct K as [(-> & -> & [->| ->])|[(-> & -> & [->| ->])|(-> & -> & [->| ->])]].
  - exists (Az, (x', y', z')). now left.
  - exists (Az, (x', y', z)). now right.
  - exists (Ay, (x', y', z')). now left.
  - exists (Ay, (x', y, z')). now right.
  - exists (Ax, (x', y', z')). now left.
  - exists (Ax, (x, y', z')). now right.
Qed.
Lemma mixed_pair f i j : at_face (fst f) (snd f) = [i; j] -> mface f = xorb (q i) (q j).
Proof using.
  intros E. unfold mface, mixed, all_of, none_of. rewrite E. cbn [forallb existsb]. now destruct (q i), (q j).
Qed.
Lemma face_pair f : exists i j, at_face (fst f) (snd f) = [i; j].
Proof using. destruct f as [[] [[x y] z]]; cbn [fst snd at_face]; eauto. Qed.

(** The cells on the two sides of a face of the boundary. *)
Definition between (f : face) (i j : idx) : Prop :=
  at_face (fst f) (snd f) = [i; j] \/ at_face (fst f) (snd f) = [j; i].
Lemma mixed_between f : mface f = true -> exists i j, between f i j /\ q i = true /\ q j = false.
Proof using.
  intros M. destruct (face_pair f) as (i & j & E). rewrite (mixed_pair f i j E) in M.
  destruct (q i) eqn:Qi, (q j) eqn:Qj; try discriminate M.
  - exists i, j. split; [now left|now split].
  - exists j, i. split; [now right|now split].
Qed.

Lemma colour_between c f i j : (forall e, parity c (edge_faces e) = false) -> between f i j ->
  xorb (colour c i) (colour c j) = marked c f.
Proof using bounded.
  intros E [B|B]; apply (colour_face c E) in B; rewrite B; destruct (marked c f), (colour c i), (colour c j); easy.
Qed.
Lemma colour_same c i j : (forall e, parity c (edge_faces e) = false) -> share_face i j -> q i = q j ->
  colour c i = colour c j.
Proof using bounded.
  intros E S Q. destruct (face_between i j S) as (f & B). pose proof (colour_between c f i j E B) as C.
  assert (M : marked c f = false).
  { unfold marked. destruct B as [B|B]; rewrite (mixed_pair _ _ _ B), Q, xorb_nilpotent; reflexivity. }
  rewrite M in C. now apply xorb_eq.
Qed.
Lemma piece_sides i j : same_piece q i j -> q i = true /\ q j = true.
Proof using. induction 1; tauto. Qed.
Lemma region_sides i j : same_region q i j -> q i = false /\ q j = false.
Proof using. induction 1; tauto. Qed.
Lemma piece_colour c i j : (forall e, parity c (edge_faces e) = false) -> same_piece q i j -> colour c i = colour c j.
Proof using bounded.
  intros E. induction 1 as [|j k P IH S Q]; [reflexivity|]. rewrite IH. apply colour_same; auto.
  apply piece_sides in P. destruct P as (_ & ->). now symmetry.
Qed.
Lemma region_colour c i j : (forall e, parity c (edge_faces e) = false) -> same_region q i j -> colour c i = colour c j.
Proof using bounded.
  intros E. induction 1 as [|j k P IH S Q]; [reflexivity|]. rewrite IH. apply colour_same; auto.
  apply region_sides in P. destruct P as (_ & ->). now symmetry.
Qed.

Lemma faces_of_region f g i j k l : mface f = true -> mface g = true ->
  between f i j -> between g k l -> same_piece q i k -> same_region q j l -> Linked f g.
Proof using WC bounded.
  intros Mf Mg Bf Bg P R. apply linked_sym. apply (linked_rep face_dec).
  set (c := fun h => same face_dec (rep face_dec sides bedges h) (rep face_dec sides bedges f)).
  assert (E : forall e, parity c (edge_faces e) = false).
  { intros e. destruct (medge e) eqn:M; [|now apply parity_none]. rewrite (parity_edge c e M). unfold c.
    rewrite (rep_edge face_dec sides bedges e (edge_in e M)). apply xorb_nilpotent. }
  pose proof (colour_between c f i j E Bf) as Cf. pose proof (colour_between c g k l E Bg) as Cg.
  rewrite <- (piece_colour c i k E P), <- (region_colour c j l E R), Cf in Cg.
  unfold marked in Cg. rewrite Mf, Mg in Cg. cbn [andb] in Cg. unfold c in Cg at 1.
  replace (same face_dec (rep face_dec sides bedges f) (rep face_dec sides bedges f)) with true in Cg
    by (symmetry; now apply same_iff). symmetry in Cg. now apply same_iff in Cg.
Qed.

(** Linked faces are on one surface. *)
Lemma along a u : mixed q (at_edge a u) = true -> same_surface q u (step_along a u).
Proof using. intros M. eapply same_step; [constructor|]. exists a. now left. Qed.

Lemma corner_same f u : mface f = true -> In f (vertex_faces u) -> same_surface q (snd f) u.
Proof using.
  intros M. unfold mface in M.
  assert (K : forall a w, incl (at_face (fst f) (snd f)) (at_edge a w) -> same_surface q w (step_along a w)).
  { intros a w I. apply along. now apply (mixed_incl (at_face (fst f) (snd f))). }
  clear M. destruct u as [[x y] z]. unfold vertex_faces. cbn [In].
  assert (T : forall w1 w2 w3, same_surface q w1 w2 -> same_surface q w2 w3 -> same_surface q w1 w3) by apply same_trans.
  assert (Dx : forall y' z', incl (at_face (fst f) (snd f)) (at_edge Ax (x - 1, y', z')) -> same_surface q (x - 1, y', z') (x, y', z')).
  { intros y' z' I. pose proof (K Ax (x - 1, y', z') I) as H. cbn [step_along] in H. now rewrite Z.sub_simpl_r in H. }
  assert (Dy : forall x' z', incl (at_face (fst f) (snd f)) (at_edge Ay (x', y - 1, z')) -> same_surface q (x', y - 1, z') (x', y, z')).
  { intros x' z' I. pose proof (K Ay (x', y - 1, z') I) as H. cbn [step_along] in H. now rewrite Z.sub_simpl_r in H. }
  assert (Dz : forall x' y', incl (at_face (fst f) (snd f)) (at_edge Az (x', y', z - 1)) -> same_surface q (x', y', z - 1) (x', y', z)).
  { intros x' y' I. pose proof (K Az (x', y', z - 1) I) as H. cbn [step_along] in H. now rewrite Z.sub_simpl_r in H. }
  clear K.
  intros [<-|[<-|[<-|[<-|[<-|[<-|[<-|[<-|[<-|[<-|[<-|[<-|[]]]]]]]]]]]]]; cbn [fst snd at_face at_edge] in *.
  all: try (constructor; fail).
  all: try (first [apply Dx|apply Dy|apply Dz]; intros i I; cbn [In] in *; tauto).
  - apply (T _ (x, y, z - 1)); [apply Dy|apply Dz]; intros i I; cbn [In] in *; tauto.
  - apply (T _ (x, y, z - 1)); [apply Dx|apply Dz]; intros i I; cbn [In] in *; tauto.
  - apply (T _ (x, y - 1, z)); [apply Dx|apply Dy]; intros i I; cbn [In] in *; tauto.
Qed.

Lemma edge_face_corner e f : In f (edge_faces e) -> In f (vertex_faces (fst (edge_ends e))).
Proof using.
  destruct e as [a [[x y] z]]. unfold edge_faces, edge_ends, vertex_faces. cbn [fst snd].
  destruct a; cbn [In]; tauto.
Qed.

Lemma linked_surface f g : Linked f g -> same_surface q (snd f) (snd g).
Proof using WC.
  induction 1 as [|w e H IH E W|w e H IH E W]; [constructor|..]; subst w; apply in_listing in E; destruct E as (E & _);
    (destruct (edge_cases e (proj1 WC _ _)) as [(_ & F)|(N & _)]; [|congruence]); apply filter_pair in F;
    destruct F as (F1 & M1 & F2 & M2); apply edge_face_corner in F1, F2;
    pose proof (corner_same _ _ M1 F1) as S1; pose proof (corner_same _ _ M2 F2) as S2;
    (eapply same_trans; [exact IH|]); (eapply same_trans; [eassumption|]); now apply same_sym.
Qed.

(** *** Cells next to a surface *)

Definition around_vertex (v : idx) : list idx := below v ++ above v.

Lemma region_trans i j k : same_region q i j -> same_region q j k -> same_region q i k.
Proof using. intros A B. induction B as [|k l B IH S Q]; [exact A|]. now apply (region_step q i k l). Qed.
Lemma region_sym i j : same_region q i j -> same_region q j i.
Proof using.
  induction 1 as [|j k P IH S Q]; [now constructor|]. apply (region_trans k j i); [|exact IH].
  eapply region_step; [apply region_here, Q| |apply (region_sides _ _ P)].
  unfold share_face in *. lia.
Qed.

Lemma around_region v i j : In i (around_vertex v) -> In j (around_vertex v) -> q i = false -> q j = false -> same_region q i j.
Proof using WC.
  destruct v as [[x y] z]. intros I J Qi Qj. set (d := (x, y, z)).
  set (l := around_vertex (x, y, z)) in *.
  pose proof (local_outside (fun a b => same_region q (nth a l d) (nth b l d)) _ _ _ _ _ _ _ _ (plain_at x y z)) as L.
  cbv zeta in L.
  set (m := [q (x - 1, y - 1, z - 1); q (x - 1, y, z - 1); q (x, y - 1, z - 1); q (x, y, z - 1);
    q (x - 1, y - 1, z); q (x - 1, y, z); q (x, y - 1, z); q (x, y, z)]) in L.
  assert (Ml : map q l = m).
  { unfold l, m, around_vertex, below, above, quad. rewrite Z.add_0_r. reflexivity. }
  assert (N : forall a, (a < 8)%nat -> nth a m true = q (nth a l d)).
  { intros a Ha. rewrite <- Ml. rewrite (nth_indep _ true (q d)) by (rewrite map_length; exact Ha). apply map_nth. }
  destruct (In_nth l i d I) as (a & Ha & <-). destruct (In_nth l j d J) as (b & Hb & <-).
  change (length l) with 8%nat in *. apply L; auto; [| |rewrite N; auto|rewrite N; auto].
  - intros k Hk Mk. rewrite N in Mk by exact Hk. now constructor.
  - clear -N. intros a b k Ha Hb Hk R T Mk. rewrite N in Mk by exact Hk.
    apply (region_step q _ (nth b l d)); [exact R| |exact Mk]. clear -T.
    unfold next_to in T. apply existsb_exists in T. destruct T as ([u w] & T & E).
    unfold l, around_vertex, below, above, quad. rewrite Z.add_0_r. cbn [app].
    apply orb_prop in E. cbn [In] in T. 
    destruct E as [E|E]; apply andb_prop in E; destruct E as (E1 & E2); apply Nat.eqb_eq in E1, E2; subst b k;
      repeat (destruct T as [T|T]; [injection T as <- <-; cbn [nth]; unfold share_face, ix, iy, iz; cbn [fst snd]; lia|]);
      destruct T.
Qed.

Lemma incl_edge_end e : incl (at_edge (fst e) (snd e)) (around_vertex (snd (edge_ends e))).
Proof using.
  destruct e as [a [[x y] z]]. cbn [fst snd edge_ends].
  unfold around_vertex, below, above, quad, at_edge, step_along.
  destruct a; intros i I; cbn [app In] in *;
    repeat (destruct I as [<-|I]; [repeat first [left; apply triple; lia|right]|]); destruct I.
Qed.

Lemma mixed_outside l : mixed q l = true -> exists i, In i l /\ q i = false.
Proof using.
  unfold mixed, all_of. rewrite andb_true_iff, !negb_true_iff. intros (A & _).
  induction l as [|i l IH]; [discriminate A|]. cbn [forallb] in A. apply andb_false_iff in A. destruct A as [A|A].
  - exists i. split; [now left|exact A].
  - destruct (IH A) as (j & J & Q). exists j. split; [now right|exact Q].
Qed.

Lemma surface_region u w : same_surface q u w -> forall i j, In i (around_vertex u) -> In j (around_vertex w) ->
  q i = false -> q j = false -> same_region q i j.
Proof using WC.
  induction 1 as [|w w' H IH (a & [(-> & M)|(-> & M)])]; intros i j I J Qi Qj.
  - now apply (around_region u).
  - destruct (mixed_outside _ M) as (k & K & Qk). apply (region_trans i k j).
    + apply IH; auto. now apply (incl_edge a w).
    + apply (around_region (step_along a w)); auto. now apply (incl_edge_end (a, w)).
  - destruct (mixed_outside _ M) as (k & K & Qk). apply (region_trans i k j).
    + apply IH; auto. now apply (incl_edge_end (a, w')).
    + apply (around_region w'); auto. now apply (incl_edge a w').
Qed.

Lemma vertex_has_face v : boundary_vertex q v = true -> exists f, In f (vertex_faces v) /\ mface f = true.
Proof using.
  destruct v as [[x y] z]. intros B.
  pose proof (face8_ok (q (x - 1, y - 1, z - 1)) (q (x - 1, y, z - 1)) (q (x, y - 1, z - 1)) (q (x, y, z - 1))
    (q (x - 1, y - 1, z)) (q (x - 1, y, z)) (q (x, y - 1, z)) (q (x, y, z))) as I. unfold face8 in I.
  assert (M : map mface (vertex_faces (x, y, z)) = faces8 (q (x - 1, y - 1, z - 1)) (q (x - 1, y, z - 1)) (q (x, y - 1, z - 1)) (q (x, y, z - 1))
    (q (x - 1, y - 1, z)) (q (x - 1, y, z)) (q (x, y - 1, z)) (q (x, y, z))).
  { unfold vertex_faces. cbn [map]. rewrite !mface_x, !mface_y, !mface_z. reflexivity. }
  rewrite <- M in I.
  unfold boundary_vertex, below, above, quad in B. rewrite Z.add_0_r in B.
  change (mixed8 _ _ _ _ _ _ _ _) with (mixed q (below (x, y, z) ++ above (x, y, z))) in I || idtac.
  apply orb_prop in I. destruct I as [I|I].
  - exfalso. apply negb_true_iff in I. unfold mixed8 in I. unfold mixed, all_of, none_of in B. cbn [app forallb existsb] in B.
    change (z + -1) with (z - 1) in B. rewrite B in I. discriminate I.
  - apply existsb_exists in I. destruct I as (b & I & ->). apply in_map_iff in I. destruct I as (f & F & I). eauto.
Qed.

Lemma face_around f v i j : In f (vertex_faces v) -> between f i j -> In i (around_vertex v) /\ In j (around_vertex v).
Proof using.
  destruct v as [[x y] z]. unfold vertex_faces, around_vertex, below, above, quad, between. cbn [In app]. rewrite Z.add_0_r.
  change (z + -1) with (z - 1).
  intros F B. repeat (destruct F as [<-|F]; [cbn [fst snd at_face] in B; destruct B as [B|B]; injection B as <- <-; tauto|]).
  destruct F.
Qed.

(** *** Regions *)

Hypothesis connected : forall i j, q i = true -> q j = true -> same_piece q i j.
Hypothesis nonempty : exists i, q i = true.

Lemma towards i t : q i = false -> q t = true -> exists j k, same_region q i j /\ share_face j k /\ q k = true.
Proof using.
  intros Qi Qt. remember (Z.to_nat (Z.abs (ix i - ix t) + Z.abs (iy i - iy t) + Z.abs (iz i - iz t))) as n eqn:N.
  revert i Qi N. induction n as [|n IH]; intros i Qi N.
  - exfalso. assert (i = t); [|congruence]. destruct i as [[x y] z], t as [[x' y'] z']. unfold ix, iy, iz in N.
    cbn [fst snd] in N. apply triple; lia.
  - destruct i as [[x y] z], t as [[x' y'] z'].
    assert (exists k, share_face (x, y, z) k /\
      n = Z.to_nat (Z.abs (ix k - x') + Z.abs (iy k - y') + Z.abs (iz k - z'))) as (k & S & Nk).
    { unfold ix, iy, iz in N. cbn [fst snd] in N. unfold share_face, ix, iy, iz.
      destruct (Z.lt_trichotomy x x') as [L|[->|L]]; [exists (x + 1, y, z); cbn [fst snd]; lia| |exists (x - 1, y, z); cbn [fst snd]; lia].
      destruct (Z.lt_trichotomy y y') as [L|[->|L]]; [exists (x', y + 1, z); cbn [fst snd]; lia| |exists (x', y - 1, z); cbn [fst snd]; lia].
      destruct (Z.lt_trichotomy z z') as [L|[->|L]]; [exists (x', y', z + 1); cbn [fst snd]; lia|lia|exists (x', y', z - 1); cbn [fst snd]; lia]. }
    destruct (q k) eqn:Qk.
    + exists (x, y, z), k. split; [now constructor|]. now split.
    + destruct (IH k Qk Nk) as (j & l & R & H). exists j, l. split; [|exact H].
      apply (region_trans _ k); [|exact R]. eapply region_step; [now constructor|exact S|exact Qk].
Qed.

Definition outside_of (v : idx) : idx := match filter (fun i => negb (q i)) (around_vertex v) with i :: _ => i | [] => v end.
Lemma outside_of_spec v : boundary_vertex q v = true -> In (outside_of v) (around_vertex v) /\ q (outside_of v) = false.
Proof using.
  intros B. destruct (mixed_outside _ B) as (i & I & Qi). fold (around_vertex v) in I. unfold outside_of.
  destruct (filter (fun i => negb (q i)) (around_vertex v)) as [|j l] eqn:F.
  - assert (A : In i []) by (rewrite <- F; apply filter_In; split; [exact I|now rewrite Qi]). destruct A.
  - assert (A : In j (filter (fun i => negb (q i)) (around_vertex v))) by (rewrite F; now left).
    apply filter_In in A. rewrite negb_true_iff in A. exact A.
Qed.

Lemma region_surface u w : boundary_vertex q u = true -> boundary_vertex q w = true ->
  same_region q (outside_of u) (outside_of w) -> same_surface q u w.
Proof using WC bounded connected.
  intros Bu Bw R. destruct (vertex_has_face u Bu) as (f & F & Mf). destruct (vertex_has_face w Bw) as (g & G & Mg).
  destruct (mixed_between f Mf) as (i & j & Bf & Qi & Qj). destruct (mixed_between g Mg) as (k & l & Bg & Qk & Ql).
  destruct (outside_of_spec u Bu) as (Ou & Qu). destruct (outside_of_spec w Bw) as (Ow & Qw).
  assert (L : Linked f g).
  { apply (faces_of_region f g i j k l); auto.
    apply (region_trans j (outside_of u) l).
    - apply (around_region u); auto. now apply (face_around f u i j).
    - apply (region_trans _ (outside_of w)); [exact R|]. apply (around_region w); auto. now apply (face_around g w k l). }
  apply linked_surface in L. apply (same_trans q u (snd f) w); [apply same_sym; now apply corner_same|].
  apply (same_trans q _ (snd g)); [exact L|]. now apply corner_same.
Qed.

Lemma regions s : surface_number q s -> region_number q s.
Proof using WC bounded connected nonempty.
  intros (l & ND & Len & B & Cov & Sep). exists (map outside_of l). split; [|split; [|split; [|split]]].
  - assert (K : forall r r', In r l -> In r' l -> outside_of r = outside_of r' -> r = r').
    { intros r r' R R' E. apply Sep; auto. apply region_surface; auto. rewrite <- E. constructor.
      now apply outside_of_spec, B. }
    clear Len B Cov Sep. induction l as [|r l IH]; [constructor|]. apply NoDup_cons_iff in ND. destruct ND as (N & ND).
    cbn [map]. constructor.
    + rewrite in_map_iff. intros (r' & E & R'). apply N. rewrite (K r r'); [exact R'|now left|now right|now symmetry].
    + apply IH; [exact ND|]. intros u w U W. apply K; now right.
  - unfold zlen in *. now rewrite map_length.
  - intros i I. apply in_map_iff in I. destruct I as (r & <- & R). now apply outside_of_spec, B.
  - intros i Qi. destruct nonempty as (t & Qt). destruct (towards i t Qi Qt) as (j & k & R & S & Qk).
    assert (Qj : q j = false) by now apply (region_sides i j).
    destruct (face_between j k S) as (f & Bf).
    assert (Mf : mface f = true) by (destruct Bf as [Bf|Bf]; rewrite (mixed_pair _ _ _ Bf), Qj, Qk; reflexivity).
    assert (Bv : boundary_vertex q (snd f) = true).
    { apply (mixed_incl (at_face (fst f) (snd f))); [apply incl_face|exact Mf]. }
    destruct (Cov _ Bv) as (r & Rl & Sr). exists (outside_of r). split; [now apply in_map|].
    apply (region_trans _ j); [|now apply region_sym].
    destruct (outside_of_spec r (B r Rl)) as (Or & Qr).
    apply (surface_region r (snd f)); auto. apply (face_around f (snd f) j k); [apply face_at_corner|exact Bf].
  - intros i j I J R. apply in_map_iff in I, J. destruct I as (r & <- & Hr), J as (r' & <- & Hr').
    f_equal. apply Sep; auto. apply region_surface; auto.
Qed.
End M.

(** ** Cavities *)

Section Cavities.
Variables (q : idx -> bool) (nx ny nz : Z).
Hypothesis bounded : forall x y z, q (x, y, z) = true -> 0 <= x < nx /\ 0 <= y < ny /\ 0 <= z < nz.

Definition beyond (i : idx) : Prop := in_bounds3 nx ny nz i = false.
Lemma beyond_q i : beyond i -> q i = false.
Proof using bounded.
  destruct i as [[x y] z]. intros B. apply not_true_iff_false. intros Q. apply bounded in Q.
  apply in_bounds3_iff in Q. unfold beyond in B. congruence.
Qed.

Lemma line (f : Z -> idx) a b : (forall t, share_face (f t) (f (t + 1))) -> (forall t, q (f t) = false) -> same_region q (f a) (f b).
Proof using.
  intros Sh Q.
  assert (U : forall n c, same_region q (f c) (f (c + Z.of_nat n))).
  { induction n as [|n IH]; intros c; [rewrite Z.add_0_r; now constructor|].
    replace (c + Z.of_nat (S n)) with (c + Z.of_nat n + 1) by lia. eapply region_step; [apply IH|apply Sh|apply Q]. }
  destruct (Z.le_gt_cases a b) as [H|H].
  - replace b with (a + Z.of_nat (Z.to_nat (b - a))) by lia. apply U.
  - apply region_sym. replace a with (b + Z.of_nat (Z.to_nat (a - b))) by lia. apply U.
Qed.

Lemma line_x x x' y z : (forall t, q (t, y, z) = false) -> same_region q (x, y, z) (x', y, z).
Proof using. intros Q. apply (line (fun t => (t, y, z))); [|exact Q]. intros t. unfold share_face, ix, iy, iz. cbn [fst snd]. lia. Qed.
Lemma line_y x y y' z : (forall t, q (x, t, z) = false) -> same_region q (x, y, z) (x, y', z).
Proof using. intros Q. apply (line (fun t => (x, t, z))); [|exact Q]. intros t. unfold share_face, ix, iy, iz. cbn [fst snd]. lia. Qed.
Lemma line_z x y z z' : (forall t, q (x, y, t) = false) -> same_region q (x, y, z) (x, y, z').
Proof using. intros Q. apply (line (fun t => (x, y, t))); [|exact Q]. intros t. unfold share_face, ix, iy, iz. cbn [fst snd]. lia. Qed.

(** What lies beyond the grid is one region. *)
Lemma beyond_corner i : beyond i -> same_region q i (-1, -1, -1).
Proof using bounded.
  destruct i as [[x y] z]. unfold beyond. intros B.
  assert (D : (x < 0 \/ nx <= x) \/ (y < 0 \/ ny <= y) \/ (z < 0 \/ nz <= z)).
  { destruct (Z_lt_dec x 0), (Z_le_dec nx x), (Z_lt_dec y 0), (Z_le_dec ny y), (Z_lt_dec z 0), (Z_le_dec nz z); try tauto.
    exfalso. apply not_true_iff_false in B. apply B, in_bounds3_iff. lia. }
  assert (N : forall a b c, (a < 0 \/ nx <= a) \/ (b < 0 \/ ny <= b) \/ (c < 0 \/ nz <= c) -> q (a, b, c) = false).
  { intros a b c H. apply not_true_iff_false. intros Q. apply bounded in Q. lia. }
  destruct D as [D|[D|D]].
  - apply (region_trans q _ (x, -1, z)); [apply line_y; intros; apply N; lia|].
    apply (region_trans q _ (-1, -1, z)); [apply line_x; intros; apply N; lia|]. apply line_z; intros; apply N; lia.
  - apply (region_trans q _ (-1, y, z)); [apply line_x; intros; apply N; lia|].
    apply (region_trans q _ (-1, -1, z)); [apply line_y; intros; apply N; lia|]. apply line_z; intros; apply N; lia.
  - apply (region_trans q _ (-1, y, z)); [apply line_x; intros; apply N; lia|].
    apply (region_trans q _ (-1, -1, z)); [apply line_y; intros; apply N; lia|]. apply line_z; intros; apply N; lia.
Qed.

Lemma cavities n : region_number q n -> cavity_number q beyond (n - 1).
Proof using bounded.
  intros (l & ND & Len & Q & Cov & Sep).
  assert (B0 : beyond (-1, -1, -1)) by reflexivity.
  destruct (Cov (-1, -1, -1) (beyond_q _ B0)) as (r0 & R0 & S0).
  assert (X : forall r, In r l -> same_region q r r0 -> r = r0) by (intros; now apply Sep).
  assert (Enc : forall r, In r l -> (enclosed q beyond r <-> r <> r0)).
  { intros r R. split.
    - intros (_ & E) ->. exact (E _ S0 B0).
    - intros N. split; [now apply Q|]. intros j S B. apply N, X; [exact R|].
      apply (region_trans q r j); [exact S|]. apply (region_trans q j (-1, -1, -1)); [now apply beyond_corner|].
      now apply region_sym. }
  exists (filter (fun r => negb (idx_eqb r r0)) l).
  assert (In_l : forall r, In r (filter (fun r => negb (idx_eqb r r0)) l) <-> In r l /\ r <> r0).
  { intros r. rewrite filter_In, negb_true_iff, idx_eqb_neq. reflexivity. }
  split; [now apply NoDup_filter|]. split; [|split; [|split]].
  - rewrite zlen_filter.
    assert (E : zsum (fun r => 1) l = zsum (fun r => Z.b2z (negb (idx_eqb r r0))) l + zsum (fun r => Z.b2z (idx_eqb r r0)) l).
    { rewrite <- zsum_add. apply zsum_ext. intros r _. destruct (idx_eqb r r0); reflexivity. }
    assert (L1 : forall l : list idx, zsum (fun r => 1) l = zlen l).
    { clear. induction l as [|a l IH]; [reflexivity|]. cbn [zsum]. rewrite IH. unfold zlen. cbn [length]. lia. }
    rewrite L1 in E. rewrite (zsum_single (fun r => Z.b2z (idx_eqb r r0)) l r0 ND R0) in E.
    + rewrite idx_eqb_refl in E. cbn [Z.b2z] in E. lia.
    + intros b _ N. apply idx_eqb_neq in N. now rewrite N.
  - intros r R. apply In_l in R. now apply Enc.
  - intros i (Qi & E). destruct (Cov i Qi) as (r & R & S). exists r. split; [|exact S]. apply In_l. split; [exact R|].
    intros ->. apply (E (-1, -1, -1)); [|exact B0]. apply (region_trans q i r0); [now apply region_sym|exact S0].
  - intros r r' R R' S. apply In_l in R, R'. now apply Sep.
Qed.
End Cavities.

(** ** Components *)

Section Components.
Context {C : Type} (comp_of : C -> Z) (g : grid C) (conn : idx -> idx -> Prop) (n c : Z).
Hypothesis L : is_labelling (in_grid g) conn (label comp_of g) n.
Notation part := (part_of comp_of g c).

Lemma part_iff i : gwf g -> part i = true <-> in_grid g i /\ label comp_of g i = c.
Proof using.
  intros W. unfold part_of, label, in_grid. destruct (gget g i) as [w|] eqn:G.
  - apply gget_in_bounds in G. rewrite Z.eqb_eq. tauto.
  - split; [discriminate|]. intros (H & _). destruct (gget_some _ _ W H) as (w & Hw). congruence.
Qed.
Lemma part_bounded x y z : gwf g -> part (x, y, z) = true -> 0 <= x < g_nx g /\ 0 <= y < g_ny g /\ 0 <= z < g_nz g.
Proof using. intros W H. apply part_iff in H; [|exact W]. destruct H as (H & _). now apply in_bounds3_iff in H. Qed.

Lemma part_connected i j : gwf g -> part i = true -> part j = true -> same_piece part i j.
Proof using L.
  intros W Pi Pj. pose proof Pi as Pi'. apply part_iff in Pi, Pj; [|exact W|exact W].
  destruct Pi as (Gi & Li), Pj as (Gj & Lj).
  destruct L as (_ & _ & J & _). assert (H : joined (in_grid g) conn i j) by (apply J; congruence).
  assert (K : forall k, joined (in_grid g) conn i k -> in_grid g k -> part k = true).
  { intros k Hk Gk. apply part_iff; [exact W|]. split; [exact Gk|]. rewrite <- Li. symmetry. now apply J. }
  clear Lj Gj Li. induction H as [i Hi|i j k H IH S Cn Hk]; [now constructor|].
  apply (piece_step _ i j k); [apply IH; auto|exact S|].
  apply K; [|exact Hk]. eapply joined_step; eassumption.
Qed.

Hypothesis W : gwf g.
Hypothesis NE : exists i, part i = true.
Hypothesis WC : well_composed part.
Notation count f := (f part (g_nx g) (g_ny g) (g_nz g)).

Lemma component_no_contacts : count edge_contacts = 0.
Proof using WC.
  unfold edge_contacts, vertex_count. rewrite !zlen_filter, !zsum_zero; [reflexivity|..];
    intros u _; now rewrite (proj1 WC).
Qed.

Lemma component_holes s : surface_number part s ->
  hole_number comp_of g c s = s + count buried_vertices - count solid_euler /\ count solid_euler <= s.
Proof using W WC.
  intros S. assert (B : forall x y z, part (x, y, z) = true -> 0 <= x < g_nx g /\ 0 <= y < g_ny g /\ 0 <= z < g_nz g)
    by (intros x y z; apply part_bounded; exact W).
  pose proof (euler_bound part _ _ _ B WC s S) as E. rewrite (euler_double part _ _ _ B WC) in E.
  split; [|lia]. unfold hole_number. cbv zeta. rewrite component_no_contacts, (euler_double part _ _ _ B WC).
  replace (0 - 2 * (2 * count solid_euler)) with (- count solid_euler * 4) by lia.
  rewrite Z.quot_mul by lia. lia.
Qed.

Lemma component_cavities s : surface_number part s -> cavity_number part (fun i => ~ in_grid g i) (s - 1).
Proof using L W NE WC.
  intros S. assert (B : forall x y z, part (x, y, z) = true -> 0 <= x < g_nx g /\ 0 <= y < g_ny g /\ 0 <= z < g_nz g)
    by (intros x y z; apply part_bounded; exact W).
  pose proof (regions part _ _ _ B WC (fun i j => part_connected i j W) NE s S) as R.
  destruct (cavities part _ _ _ B s R) as (l & A1 & A2 & A3 & A4 & A5).
  assert (E : forall i, enclosed part (beyond (g_nx g) (g_ny g) (g_nz g)) i <-> enclosed part (fun i => ~ in_grid g i) i).
  { intros i. unfold enclosed. split; intros (Q & H); (split; [exact Q|]); intros j Sj; specialize (H j Sj);
      unfold beyond, in_grid, in_bounds in *; destruct (in_bounds3 _ _ _ j); intuition congruence. }
  exists l. split; [exact A1|]. split; [exact A2|]. split; [intros r R'; apply E; auto|]. split; [|exact A5].
  intros i Hi. apply A4. now apply E.
Qed.
End Components.
