(** Topology of components of any shape: the number of surfaces and the vertex count are
    those of the boundary, up to the vertices the code misses or adds. *)
From Coq Require Import ZArith List Lia Bool Permutation FinFun.
From Verif Require Import Util Grid Occ TopologyModel ComponentSpec ComponentMapModel ComponentMapSpec
  ComponentMapProofs TaggedMapProofs SurfaceModel SurfaceSpec SurfaceProofs HolesProofs PlaneProofs LayerProofs.
Import ListNotations.
Local Open Scope Z_scope.

(** ** The walk finds classes *)

Inductive path (edges : idx -> list bool) (u : idx) : idx -> Prop :=
| path_here : path edges u u
| path_step w w' : path edges u w -> In w' (connected_vertices edges w) -> path edges u w'.

Lemma path_trans edges u v w : path edges u v -> path edges v w -> path edges u w.
Proof. intros A B. induction B as [|w w' B IH E]; [exact A|]. exact (path_step edges u w w' IH E). Qed.

Lemma push_from l q s :
  let r := fold_left (fun '(q, s) w => if existsb (idx_eqb w) s then (q, s) else (q ++ [w], s ++ [w])) l (q, s) in
  forall u, In u (fst r) -> In u q \/ In u l.
Proof.
  revert q s; induction l as [|w l IH]; intros q s; cbn; [auto|].
  intros u U. destruct (existsb (idx_eqb w) s); apply IH in U; destruct U as [U|U]; auto.
  apply in_app_iff in U. destruct U as [U|[<-|[]]]; auto.
Qed.

Lemma walk_sound fuel V edges q s r (Q : idx -> Prop) :
  walk fuel V edges q s = Some r -> NoDup s -> (forall u, In u q -> In u s) ->
  (forall u, In u s -> In u q \/ In u V) -> (forall u, In u s -> Q u) ->
  (forall u w, Q u -> In w (connected_vertices edges u) -> Q w) ->
  NoDup r /\ (forall u, In u r -> In u V) /\ (forall u, In u r -> Q u).
Proof.
  revert q s; induction fuel as [|fuel IH]; intros q s E ND QS SV SQ CQ; destruct q as [|u q]; cbn [walk] in E;
    try discriminate.
  1,2: injection E as <-; split; [exact ND|]; split; [|exact SQ]; intros u U; destruct (SV u U) as [[]|]; auto.
  destruct (existsb (idx_eqb u) V) eqn:Eu; [|discriminate]. apply existsb_idx in Eu.
  destruct (push_spec (connected_vertices edges u) q s ND) as (A & B & D & _); [intros; apply QS; now right|].
  destruct (push_incl (connected_vertices edges u) q s) as (A' & B' & D' & F'). cbn zeta in *.
  apply (IH _ _ E); auto.
  - intros w W. destruct (F' w W) as [H|H]; [|auto]. destruct (SV w H) as [[<-|H']|H']; auto.
  - intros w W. apply D in W. destruct W as [W|W]; [auto|]. apply (CQ u w); [|exact W]. apply SQ, QS. now left.
Qed.

Section Classes.
Variables (V : list idx) (edges : idx -> list bool) (order : list idx -> list idx).
Hypothesis sym : forall u w, In w (connected_vertices edges u) -> In u (connected_vertices edges w).
Hypothesis NDV : NoDup V.
Hypothesis OP : forall l, Permutation (order l) l.

Lemma path_sym u w : path edges u w -> path edges w u.
Proof using sym.
  induction 1 as [|w w' P IH E]; [constructor|]. apply (path_trans edges w' w u); [|exact IH].
  eapply path_step; [apply path_here|]. now apply sym.
Qed.

Definition classes (n : Z) : Prop :=
  exists l, NoDup l /\ zlen l = n /\ (forall r, In r l -> In r V) /\
    (forall v, In v V -> exists r, In r l /\ path edges r v) /\
    forall r r', In r l -> In r' l -> path edges r r' -> r = r'.

(** The state of the loop after some vertices, with representatives. *)
Let good (lab reps : list idx) : Prop :=
  NoDup lab /\ NoDup reps /\ (forall u, In u lab -> In u V) /\ (forall r, In r reps -> In r lab) /\
  (forall u w, In u lab -> In w (connected_vertices edges u) -> In w lab) /\
  (forall u, In u lab -> exists r, In r reps /\ path edges r u) /\
  (forall r r', In r reps -> In r' reps -> path edges r r' -> r = r').

Lemma count_surfaces_classes n : count_surfaces order V edges = Some n ->
  (forall u w, In u V -> In w (connected_vertices edges u) -> In w V) /\ classes n.
Proof using sym NDV OP.
  unfold count_surfaces.
  match goal with |- context [ofold ?f _ _] => set (F := f) end.
  assert (G : forall l lab p k stop reps res,
    ofold F l (lab, p, k, stop) = Some res -> (forall u, In u l -> In u V) ->
    good lab reps -> p = zlen lab -> k = zlen reps -> (stop = true -> p = zlen V) ->
    exists lab' p' stop' reps', res = (lab', p', zlen reps', stop') /\ good lab' reps' /\
      (forall u, In u lab -> In u lab') /\ (forall u, In u l -> In u lab')).
  { induction l as [|v l IH]; intros lab p k stop reps res E L GD Hp Hk Hs; cbn [ofold] in E.
    - injection E as <-. exists lab, p, stop, reps. rewrite Hk. split; [easy|]. split; [easy|].
      split; [auto|]. intros u [].
    - unfold F at 1 in E. destruct stop; cbn [obind] in E.
      { destruct (IH lab p k true reps res E) as (lab' & p' & st & reps' & R1 & R2 & R3 & R4); auto.
        { intros; apply L; now right. }
        exists lab', p', st, reps'. do 2 (split; [easy|]). split; [exact R3|].
        intros u [<-|U]; [|auto]. apply R3. destruct GD as (N1 & _ & I1 & _).
        specialize (Hs eq_refl). rewrite Hp in Hs. unfold zlen in Hs. apply Nat2Z.inj in Hs.
        assert (IV : incl V lab) by (apply (NoDup_length_incl N1); [rewrite Hs; apply Nat.le_refl|exact I1]).
        apply IV, L. now left. }
      destruct (existsb (idx_eqb v) lab) eqn:Ev; cbn [obind] in E.
      { apply existsb_idx in Ev.
        destruct (IH lab p k false reps res E) as (lab' & p' & st & reps' & R1 & R2 & R3 & R4); auto.
        { intros; apply L; now right. }
        exists lab', p', st, reps'. do 2 (split; [easy|]). split; [exact R3|].
        intros u [<-|U]; auto. }
      apply existsb_idx_not in Ev.
      destruct (walk (S (length V)) V edges [v] [v]) as [reached|] eqn:Ew; cbn [obind] in E; [|discriminate].
      destruct (walk_sound _ _ _ _ _ _ (path edges v) Ew) as (W1 & W2 & W3).
      { constructor; [easy|constructor]. }
      { auto. }
      { intros u [<-|[]]. left. now left. }
      { intros u [<-|[]]. constructor. }
      { intros u w A B. exact (path_step edges v u w A B). }
      destruct (walk_complete _ _ _ _ _ _ Ew) as (W4 & W5).
      { intros u [<-|[]]. left. now left. }
      destruct GD as (N1 & N2 & I1 & I2 & C1 & R1 & U1).
      assert (PL : forall a b, path edges a b -> In a lab -> In b lab).
      { intros a b P A. induction P as [|b b' P IP Eb]; [exact A|]. exact (C1 b b' IP Eb). }
      assert (Hvr : In v reached) by (apply W4; now left).
      destruct (IH (lab ++ reached) (p + zlen reached) (k + 1) (p + zlen reached =? zlen V) (v :: reps) res E)
        as (lab' & p' & st & reps' & R1' & R2' & R3' & R4').
      + intros; apply L; now right.
      + repeat split.
        * apply nodup_app; [easy..|]. intros a A B. apply Ev. apply (PL a v); [|exact A].
          apply path_sym. auto.
        * constructor; [|exact N2]. intros H. apply Ev, I2, H.
        * intros u U. apply in_app_iff in U. destruct U; auto.
        * intros r [<-|H]; apply in_app_iff; auto.
        * intros u w U W. apply in_app_iff in U. apply in_app_iff. destruct U; eauto.
        * intros u U. apply in_app_iff in U. destruct U as [U|U].
          -- destruct (R1 u U) as (r & A & B). exists r. split; [now right|exact B].
          -- exists v. split; [now left|auto].
        * intros r r' [<-|A] [<-|B] P.
          -- reflexivity.
          -- elim Ev. apply (PL r' v); [now apply path_sym|auto].
          -- elim Ev. apply (PL r v); auto.
          -- auto.
      + unfold zlen in *. rewrite app_length. lia.
      + unfold zlen in *. cbn [length]. lia.
      + intros H. now apply Z.eqb_eq in H.
      + exists lab', p', st, reps'. do 2 (split; [easy|]). split.
        * intros u U. apply R3', in_app_iff. auto.
        * intros u [<-|U]; [|auto]. apply R3', in_app_iff. auto. }
  intros E. destruct (ofold F (order V) ([], 0, 0, false)) as [res|] eqn:Eo; [|discriminate].
  destruct (G _ _ _ _ _ [] _ Eo) as (lab & p & st & reps & -> & GD & _ & Hl); auto.
  { intros u U. eapply Permutation_in; [apply OP|exact U]. }
  { unfold good. do 2 (split; [constructor|]). split; [intros a []|]. split; [intros a []|]. split; [intros a b []|].
    split; [intros a []|intros a b []]. }
  { discriminate. }
  cbn [obind] in E. injection E as <-.
  assert (VL : forall u, In u V -> In u lab).
  { intros u U. apply Hl. eapply Permutation_in; [apply Permutation_sym, OP|exact U]. }
  destruct GD as (N1 & N2 & I1 & I2 & C1 & R1 & U1). split.
  - intros u w U W. eauto.
  - exists reps. do 2 (split; [easy|]). split; [auto|]. split; [auto|exact U1].
Qed.
End Classes.

(** ** Finite sums over vertices *)

Lemma zsum_support {A} (f : A -> Z) l l' :
  NoDup l -> NoDup l' -> (forall a, f a <> 0 -> In a l /\ In a l') -> zsum f l = zsum f l'.
Proof.
  intros N N' H.
  assert (E : forall k, zsum f k = zsum f (filter (fun a => negb (f a =? 0)) k)).
  { intros k. rewrite zsum_filter. apply zsum_ext. intros a _.
    destruct (f a =? 0) eqn:Ea; cbn [negb]; [now apply Z.eqb_eq|easy]. }
  rewrite (E l), (E l'). apply zsum_perm, NoDup_Permutation; [now apply NoDup_filter..|].
  intros a. rewrite !filter_In. rewrite negb_true_iff, Z.eqb_neq. specialize (H a). tauto.
Qed.

Section Space.
Variables (nx ny nz : Z) (p : idx -> bool).
Hypothesis bounded : forall x y z, p (x, y, z) = true -> 0 <= x < nx /\ 0 <= y < ny /\ 0 <= z < nz.

Definition space : list idx :=
  list_prod (list_prod (zrange (-2) (nx + 4)) (zrange (-2) (ny + 4))) (zrange (-2) (nz + 4)).
Definition total (f : idx -> Z) : Z := zsum f space.
Definition move (i d : idx) : idx := (ix i + ix d, iy i + iy d, iz i + iz d).
Definition small (d : idx) : Prop := -1 <= ix d <= 1 /\ -1 <= iy d <= 1 /\ -1 <= iz d <= 1.

Lemma in_space x y z :
  In (x, y, z) space <-> -2 <= x < nx + 4 /\ -2 <= y < ny + 4 /\ -2 <= z < nz + 4.
Proof using. unfold space. rewrite (in_prod_iff (list_prod _ _)), in_prod_iff, !in_zrange. tauto. Qed.
Lemma nodup_space : NoDup space.
Proof using. unfold space. repeat apply nodup_prod; apply NoDup_zrange. Qed.

Definition core (f : idx -> Z) : Prop :=
  forall x y z, f (x, y, z) <> 0 -> -1 <= x <= nx + 1 /\ -1 <= y <= ny + 1 /\ -1 <= z <= nz + 1.

Lemma move_move i d : move (move i d) (- ix d, - iy d, - iz d) = i.
Proof using. destruct i as [[x y] z]. unfold move, ix, iy, iz. cbn [fst snd]. repeat f_equal; lia. Qed.

Lemma total_move f d : core f -> small d -> total (fun i => f (move i d)) = total f.
Proof using.
  intros Cf (D1 & D2 & D3). unfold total. rewrite <- (zsum_map f (fun i => move i d)). apply zsum_support.
  - apply Injective_map_NoDup; [|apply nodup_space]. intros a b E.
    rewrite <- (move_move a d), <- (move_move b d). now rewrite E.
  - apply nodup_space.
  - intros [[x y] z] F. apply Cf in F. split.
    + rewrite in_map_iff. exists (x - ix d, y - iy d, z - iz d). split.
      * unfold move. cbn [ix iy iz fst snd]. repeat f_equal; lia.
      * apply in_space. lia.
    + apply in_space. lia.
Qed.

Lemma total_add f g : total (fun i => f i + g i) = total f + total g.
Proof using. apply zsum_add. Qed.
Lemma total_mul k f : total (fun i => k * f i) = k * total f.
Proof using. apply zsum_mul. Qed.
Lemma total_ext f g : (forall i, f i = g i) -> total f = total g.
Proof using. intros H. apply zsum_ext. intros. apply H. Qed.

Lemma vertex_count_total f :
  (forall x y z, f (x, y, z) = true -> 0 <= x <= nx /\ 0 <= y <= ny /\ 0 <= z <= nz) ->
  vertex_count nx ny nz f = total (fun v => Z.b2z (f v)).
Proof using.
  intros H. unfold vertex_count, total. rewrite zlen_filter. apply zsum_support.
  - apply NoDup_all_idx.
  - apply nodup_space.
  - intros [[x y] z] F. destruct (f (x, y, z)) eqn:E; [|now elim F]. apply H in E. split.
    + apply in_all_idx, in_bounds3_iff. lia.
    + apply in_space. lia.
Qed.
End Space.

(** ** Checks of all values of a few booleans *)

Definition allb (f : bool -> bool) : bool := f true && f false.
Lemma allb_spec f : allb f = true -> forall b, f b = true.
Proof. unfold allb. intros H b. apply andb_prop in H. destruct b; tauto. Qed.

(** ** The vertices of a component of any shape *)

Section Shape.
Variables (get : idx -> Z) (c : Z) (m : surface_map) (nx ny nz : Z).
Hypothesis all_voxels : forall i, get i = c -> In (i, 1) m.
Hypothesis entries : forall i v, In (i, v) m -> get i = c.
Hypothesis bounded_get : forall x y z, get (x, y, z) = c -> 0 <= x < nx /\ 0 <= y < ny /\ 0 <= z < nz.

Let p (i : idx) : bool := c =? get i.
Notation V := (surface_vertices get c m).
Notation E := (vertex_edges get c).

Lemma shape_p i : p i = true <-> get i = c.
Proof using. unfold p. rewrite Z.eqb_eq. intuition. Qed.
Lemma shape_bounded x y z : p (x, y, z) = true -> 0 <= x < nx /\ 0 <= y < ny /\ 0 <= z < nz.
Proof using bounded_get. intros H. apply shape_p in H. now apply bounded_get. Qed.

(** *** Edges *)

Lemma shape_edges x y z :
  E (x, y, z) =
  [mixed p (at_edge Az (x, y, z - 1)); mixed p (at_edge Az (x, y, z));
   mixed p (at_edge Ay (x, y - 1, z)); mixed p (at_edge Ay (x, y, z));
   mixed p (at_edge Ax (x - 1, y, z)); mixed p (at_edge Ax (x, y, z))].
Proof using.
  unfold vertex_edges, mixed, all_of, none_of, at_edge. cbn [forallb existsb]. cbv zeta.
  rewrite !Z.add_0_r. change (x + -1) with (x - 1). change (y + -1) with (y - 1). change (z + -1) with (z - 1).
  fold (p (x - 1, y - 1, z - 1)) (p (x - 1, y - 1, z)) (p (x - 1, y, z - 1)) (p (x - 1, y, z))
    (p (x, y - 1, z - 1)) (p (x, y - 1, z)) (p (x, y, z - 1)) (p (x, y, z)).
  repeat match goal with |- ?a :: ?l = ?b :: ?k =>
    let X := fresh in assert (X : a = b); [|rewrite X; clear X; apply f_equal] end; [..|reflexivity];
  repeat match goal with |- context [p ?i] => destruct (p i) end; reflexivity.
Qed.

Lemma shape_connected u w : In w (connected_vertices E u) <-> boundary_edge p u w.
Proof using.
  unfold connected_vertices. rewrite in_flat_map. destruct u as [[x y] z]. unfold edge_ends. rewrite shape_edges.
  cbn [combine In]. split.
  - intros ([b w'] & H & W). destruct b; [|destruct W]. destruct W as [->|[]].
    destruct H as [H|[H|[H|[H|[H|[H|[]]]]]]]; injection H as H <-.
    + exists Az. right. split; [cbn; repeat f_equal; lia|exact H].
    + exists Az. left. split; [reflexivity|exact H].
    + exists Ay. right. split; [cbn; repeat f_equal; lia|exact H].
    + exists Ay. left. split; [reflexivity|exact H].
    + exists Ax. right. split; [cbn; repeat f_equal; lia|exact H].
    + exists Ax. left. split; [reflexivity|exact H].
  - destruct w as [[x' y'] z']. intros (a & [(W & H)|(W & H)]); destruct a; cbn [step_along] in W; injection W as W1 W2 W3.
    all: exists (true, (x', y', z')); split; [|now left].
    + subst. rewrite H. do 5 right. now left.
    + subst. rewrite H. do 3 right. now left.
    + subst. rewrite H. do 1 right. now left.
    + assert (x' = x - 1) by lia. assert (y' = y) by lia. assert (z' = z) by lia. subst x' y' z'.
      rewrite H. do 4 right. now left.
    + assert (x' = x) by lia. assert (y' = y - 1) by lia. assert (z' = z) by lia. subst x' y' z'.
      rewrite H. do 2 right. now left.
    + assert (x' = x) by lia. assert (y' = y) by lia. assert (z' = z - 1) by lia. subst x' y' z'.
      rewrite H. now left.
Qed.

Lemma edge_sym u w : In w (connected_vertices E u) -> In u (connected_vertices E w).
Proof using. rewrite !shape_connected. intros (a & [H|H]); exists a; auto. Qed.

(** *** Vertices *)

(** The test of the code, for one cell: two cells beside it and the one below. *)
Definition listed1 (i side side' bottom : bool) : bool := i && (negb bottom || negb side || negb side').
Definition listed12 (l00 l01 l10 l11 h00 h01 h10 h11 b00 b01 b10 b11 : bool) : bool :=
  listed1 l00 l01 l10 b00 || listed1 l01 l00 l11 b01 || listed1 l10 l11 l00 b10 || listed1 l11 l10 l01 b11 ||
  listed1 h00 h01 h10 l00 || listed1 h01 h00 h11 l01 || listed1 h10 h11 h00 l10 || listed1 h11 h10 h01 l11.
Definition listed (v : idx) : bool :=
  let '(x, y, z) := v in
  listed12 (p (x - 1, y - 1, z - 1)) (p (x - 1, y, z - 1)) (p (x, y - 1, z - 1)) (p (x, y, z - 1))
    (p (x - 1, y - 1, z)) (p (x - 1, y, z)) (p (x, y - 1, z)) (p (x, y, z))
    (p (x - 1, y - 1, z - 2)) (p (x - 1, y, z - 2)) (p (x, y - 1, z - 2)) (p (x, y, z - 2)).

Lemma in_if {A} (b : bool) (v w : A) : In w (if b then [v] else []) <-> b = true /\ v = w.
Proof using. destruct b; cbn; intuition congruence. Qed.

Lemma in_shape_V u : In u V <-> listed u = true.
Proof using all_voxels entries.
  rewrite surface_vertices_in. destruct u as [[x y] z]. unfold listed, listed12, listed1. split.
  - intros ([[a b] d] & w & I & _ & H). apply entries in I. apply shape_p in I.
    unfold voxel_vertices in H. rewrite !in_app_iff, !in_if in H.
    destruct H as [H|[H|[H|[H|[H|[H|[H|H]]]]]]]; destruct H as (F & [= H1 H2 H3]).
    + subst a b d. fold (p (x, y, z - 1)) (p (x, y - 1, z)) (p (x - 1, y, z)) in F. rewrite I, F.
      cbn [andb]. now rewrite ?orb_true_r.
    + assert (d = z - 1) by lia. subst a b d. replace (z - 1 - 1) with (z - 2) in F by lia.
      fold (p (x, y, z - 2)) (p (x, y - 1, z - 1)) (p (x - 1, y, z - 1)) in F. rewrite I, F.
      cbn [andb]. now rewrite ?orb_true_r.
    + assert (b = y - 1) by lia. subst a b d. replace (y - 1 + 1) with y in F by lia.
      fold (p (x, y - 1, z - 1)) (p (x, y, z)) (p (x - 1, y - 1, z)) in F. rewrite I, F.
      cbn [andb]. now rewrite ?orb_true_r.
    + assert (b = y - 1) by lia. assert (d = z - 1) by lia. subst a b d. replace (y - 1 + 1) with y in F by lia.
      replace (z - 1 - 1) with (z - 2) in F by lia.
      fold (p (x, y - 1, z - 2)) (p (x, y, z - 1)) (p (x - 1, y - 1, z - 1)) in F. rewrite I, F.
      cbn [andb]. now rewrite ?orb_true_r.
    + assert (a = x - 1) by lia. subst a b d. replace (x - 1 + 1) with x in F by lia.
      fold (p (x - 1, y, z - 1)) (p (x - 1, y - 1, z)) (p (x, y, z)) in F. rewrite I, F.
      cbn [andb]. now rewrite ?orb_true_r.
    + assert (a = x - 1) by lia. assert (d = z - 1) by lia. subst a b d. replace (x - 1 + 1) with x in F by lia.
      replace (z - 1 - 1) with (z - 2) in F by lia.
      fold (p (x - 1, y, z - 2)) (p (x - 1, y - 1, z - 1)) (p (x, y, z - 1)) in F. rewrite I, F.
      cbn [andb]. now rewrite ?orb_true_r.
    + assert (a = x - 1) by lia. assert (b = y - 1) by lia. subst a b d. replace (x - 1 + 1) with x in F by lia.
      replace (y - 1 + 1) with y in F by lia.
      fold (p (x - 1, y - 1, z - 1)) (p (x - 1, y, z)) (p (x, y - 1, z)) in F. rewrite I, F.
      cbn [andb]. now rewrite ?orb_true_r.
    + assert (a = x - 1) by lia. assert (b = y - 1) by lia. assert (d = z - 1) by lia. subst a b d.
      replace (x - 1 + 1) with x in F by lia. replace (y - 1 + 1) with y in F by lia.
      replace (z - 1 - 1) with (z - 2) in F by lia.
      fold (p (x - 1, y - 1, z - 2)) (p (x - 1, y, z - 1)) (p (x, y - 1, z - 1)) in F. rewrite I, F.
      cbn [andb]. now rewrite ?orb_true_r.
  - assert (K : forall a b d, p (a, b, d) = true -> In (x, y, z) (voxel_vertices get c (a, b, d)) ->
      exists i w, In (i, w) m /\ w <> 0 /\ In (x, y, z) (voxel_vertices get c i)).
    { intros a b d Hp H. exists (a, b, d), 1. apply shape_p in Hp. split; [auto|]. split; [lia|exact H]. }
    rewrite !orb_true_iff.
    intros [[[[[[[H|H]|H]|H]|H]|H]|H]|H]; apply andb_prop in H; destruct H as (P & F); apply (K _ _ _ P);
      unfold voxel_vertices; rewrite !in_app_iff, !in_if.
    + do 7 right. replace (x - 1 + 1) with x by lia. replace (y - 1 + 1) with y by lia.
      replace (z - 1 + 1) with z by lia. replace (z - 1 - 1) with (z - 2) by lia. split; [exact F|reflexivity].
    + do 5 right. left. replace (x - 1 + 1) with x by lia.
      replace (z - 1 + 1) with z by lia. replace (z - 1 - 1) with (z - 2) by lia. split; [exact F|reflexivity].
    + do 3 right. left. replace (y - 1 + 1) with y by lia.
      replace (z - 1 + 1) with z by lia. replace (z - 1 - 1) with (z - 2) by lia. split; [exact F|reflexivity].
    + do 1 right. left.
      replace (z - 1 + 1) with z by lia. replace (z - 1 - 1) with (z - 2) by lia. split; [exact F|reflexivity].
    + do 6 right. left. replace (x - 1 + 1) with x by lia. replace (y - 1 + 1) with y by lia.
      split; [exact F|reflexivity].
    + do 4 right. left. replace (x - 1 + 1) with x by lia. split; [exact F|reflexivity].
    + do 2 right. left. replace (y - 1 + 1) with y by lia. split; [exact F|reflexivity].
    + left. split; [exact F|reflexivity].
Qed.

Definition mixed8 (l00 l01 l10 l11 h00 h01 h10 h11 : bool) : bool :=
  negb (l00 && (l01 && (l10 && (l11 && (h00 && (h01 && (h10 && (h11 && true)))))))) &&
  negb (negb (l00 || (l01 || (l10 || (l11 || (h00 || (h01 || (h10 || (h11 || false))))))))).
Definition roof12 (l00 l01 l10 l11 h00 h01 h10 h11 b00 b01 b10 b11 : bool) : bool :=
  (b00 && (b01 && (b10 && (b11 && true)))) && (l00 && (l01 && (l10 && (l11 && true)))) &&
  negb (h00 || (h01 || (h10 || (h11 || false)))).
Definition buried12 (l00 l01 l10 l11 h00 h01 h10 h11 b00 b01 b10 b11 : bool) : bool :=
  (l00 && (l01 && (l10 && (l11 && true)))) && (h00 && (h01 && (h10 && (h11 && true)))) &&
  negb (b00 && (b01 && (b10 && (b11 && true)))).

Lemma listed12_spec l00 l01 l10 l11 h00 h01 h10 h11 b00 b01 b10 b11 :
  Bool.eqb (listed12 l00 l01 l10 l11 h00 h01 h10 h11 b00 b01 b10 b11)
    ((mixed8 l00 l01 l10 l11 h00 h01 h10 h11 && negb (roof12 l00 l01 l10 l11 h00 h01 h10 h11 b00 b01 b10 b11))
     || buried12 l00 l01 l10 l11 h00 h01 h10 h11 b00 b01 b10 b11) = true.
Proof using.
  revert b11. apply allb_spec. revert b10. apply allb_spec. revert b01. apply allb_spec. revert b00. apply allb_spec.
  revert h11. apply allb_spec. revert h10. apply allb_spec. revert h01. apply allb_spec. revert h00. apply allb_spec.
  revert l11. apply allb_spec. revert l10. apply allb_spec. revert l01. apply allb_spec. revert l00. apply allb_spec.
  vm_compute. reflexivity.
Qed.

Lemma mixed8_at x y z : boundary_vertex p (x, y, z) =
  mixed8 (p (x - 1, y - 1, z - 1)) (p (x - 1, y, z - 1)) (p (x, y - 1, z - 1)) (p (x, y, z - 1))
    (p (x - 1, y - 1, z)) (p (x - 1, y, z)) (p (x, y - 1, z)) (p (x, y, z)).
Proof using.
  unfold boundary_vertex, mixed, all_of, none_of, below, above, quad. cbn [app forallb existsb].
  rewrite Z.add_0_r. change (z + -1) with (z - 1). reflexivity.
Qed.
Lemma roof12_at x y z : roof p (x, y, z) =
  roof12 (p (x - 1, y - 1, z - 1)) (p (x - 1, y, z - 1)) (p (x, y - 1, z - 1)) (p (x, y, z - 1))
    (p (x - 1, y - 1, z)) (p (x - 1, y, z)) (p (x, y - 1, z)) (p (x, y, z))
    (p (x - 1, y - 1, z - 2)) (p (x - 1, y, z - 2)) (p (x, y - 1, z - 2)) (p (x, y, z - 2)).
Proof using.
  unfold roof, all_of, none_of, two_below, below, above, quad. cbn [app forallb existsb].
  rewrite Z.add_0_r. change (z + -1) with (z - 1). change (z + -2) with (z - 2). reflexivity.
Qed.
Lemma buried12_at x y z : buried p (x, y, z) =
  buried12 (p (x - 1, y - 1, z - 1)) (p (x - 1, y, z - 1)) (p (x, y - 1, z - 1)) (p (x, y, z - 1))
    (p (x - 1, y - 1, z)) (p (x - 1, y, z)) (p (x, y - 1, z)) (p (x, y, z))
    (p (x - 1, y - 1, z - 2)) (p (x - 1, y, z - 2)) (p (x, y - 1, z - 2)) (p (x, y, z - 2)).
Proof using.
  unfold buried, all_of, two_below, below, above, quad. cbn [app forallb].
  rewrite Z.add_0_r. change (z + -1) with (z - 1). change (z + -2) with (z - 2). reflexivity.
Qed.

Lemma listed_spec u : listed u = (boundary_vertex p u && negb (roof p u)) || buried p u.
Proof using.
  destruct u as [[x y] z]. rewrite mixed8_at, roof12_at, buried12_at. apply eqb_prop, listed12_spec.
Qed.

(** A row of cells with nothing above it is followed by a cell of the same kind. *)
Lemma spread12 l00 l01 l10 l11 h00 h01 h10 h11 b00 b01 b10 b11 :
  implb (negb (listed12 l00 l01 l10 l11 h00 h01 h10 h11 b00 b01 b10 b11) && l00 && l01 && negb h00 && negb h01)
    (l10 && l11 && negb h10 && negb h11) = true.
Proof using.
  revert b11. apply allb_spec. revert b10. apply allb_spec. revert b01. apply allb_spec. revert b00. apply allb_spec.
  revert h11. apply allb_spec. revert h10. apply allb_spec. revert h01. apply allb_spec. revert h00. apply allb_spec.
  revert l11. apply allb_spec. revert l10. apply allb_spec. revert l01. apply allb_spec. revert l00. apply allb_spec.
  vm_compute. reflexivity.
Qed.

Definition top_row (x y z : Z) : Prop :=
  p (x, y - 1, z - 1) = true /\ p (x, y, z - 1) = true /\ p (x, y - 1, z) = false /\ p (x, y, z) = false.

Lemma row_spreads x y z :
  (forall u w, In u V -> In w (connected_vertices E u) -> In w V) ->
  ~ In (x, y, z) V -> top_row (x - 1) y z -> ~ In (x + 1, y, z) V /\ top_row x y z.
Proof using all_voxels entries.
  intros CL N (A1 & A2 & A3 & A4). rewrite in_shape_V in N.
  assert (T : top_row x y z).
  { unfold listed in N. apply not_true_iff_false in N.
    pose proof (spread12 (p (x - 1, y - 1, z - 1)) (p (x - 1, y, z - 1)) (p (x, y - 1, z - 1)) (p (x, y, z - 1))
      (p (x - 1, y - 1, z)) (p (x - 1, y, z)) (p (x, y - 1, z)) (p (x, y, z))
      (p (x - 1, y - 1, z - 2)) (p (x - 1, y, z - 2)) (p (x, y - 1, z - 2)) (p (x, y, z - 2))) as S.
    rewrite N, A1, A2, A3, A4 in S. cbn [negb andb implb] in S.
    rewrite !andb_true_iff, !negb_true_iff in S. unfold top_row. tauto. }
  split; [|exact T]. intros I. apply N, in_shape_V. apply (CL _ _ I), shape_connected.
  exists Ax. right. split; [reflexivity|]. destruct T as (T1 & T2 & T3 & T4).
  unfold mixed, all_of, none_of, at_edge. cbn [forallb existsb]. rewrite T1, T2, T3. reflexivity.
Qed.

Lemma closed_no_roof u : (forall u w, In u V -> In w (connected_vertices E u) -> In w V) -> roof p u = false.
Proof using all_voxels entries bounded_get.
  intros CL. apply not_true_iff_false. intros R. destruct u as [[x y] z].
  assert (N : ~ In (x, y, z) V).
  { rewrite in_shape_V, listed_spec, R. rewrite andb_false_r. cbn [orb]. rewrite roof12_at in R.
    rewrite buried12_at. unfold roof12 in R. unfold buried12. intros B.
    rewrite !andb_true_iff in R, B. destruct R as ((R & _) & _), B as (_ & B). rewrite negb_true_iff in B.
    destruct R as (R1 & R2 & R3 & R4 & _). rewrite R1, R2, R3, R4 in B. discriminate B. }
  rewrite roof12_at in R. unfold roof12 in R. rewrite !andb_true_iff, negb_true_iff, !orb_false_iff in R.
  assert (T : top_row (x - 1) y z) by (unfold top_row; tauto). clear R.
  assert (K : forall k, ~ In (x + Z.of_nat k, y, z) V /\ top_row (x - 1 + Z.of_nat k) y z).
  { induction k as [|k IH].
    - change (Z.of_nat 0) with 0. rewrite !Z.add_0_r. auto.
    - destruct IH as (I1 & I2).
      replace (x - 1 + Z.of_nat k) with (x + Z.of_nat k - 1) in I2 by lia.
      destruct (row_spreads _ _ _ CL I1 I2) as (J1 & J2).
      replace (x + Z.of_nat (S k)) with (x + Z.of_nat k + 1) by lia.
      replace (x - 1 + Z.of_nat (S k)) with (x + Z.of_nat k) by lia. auto. }
  destruct (K (Z.to_nat (nx - x + 1))) as (_ & T' & _). apply shape_bounded in T'.
  destruct T as (T & _). apply shape_bounded in T. lia.
Qed.

Lemma edge_end u w : boundary_edge p u w -> boundary_vertex p u = true /\ boundary_vertex p w = true.
Proof using.
  assert (M : forall l k, incl l k -> mixed p l = true -> mixed p k = true).
  { intros l k I. unfold mixed, all_of, none_of. rewrite !andb_true_iff, !negb_true_iff, !negb_false_iff.
    intros (A & B). split.
    - apply not_true_iff_false. intros F. apply not_true_iff_false in A. apply A.
      rewrite forallb_forall in F |- *. auto.
    - rewrite existsb_exists in B |- *. destruct B as (a & B1 & B2). eauto. }
  assert (S : forall a v, mixed p (at_edge a v) = true ->
    boundary_vertex p v = true /\ boundary_vertex p (step_along a v) = true).
  { intros a [[x y] z] H. split; revert H; apply M; unfold below, above, quad, at_edge;
      destruct a; cbn [app step_along];
      change (z + -1) with (z - 1); rewrite ?Z.add_0_r;
      replace (x + 1 - 1) with x by lia; replace (y + 1 - 1) with y by lia;
      try replace (z + 1 + -1) with z by lia;
      intros i I; cbn [In] in I |- *; tauto. }
  intros (a & [(-> & H)|(-> & H)]); apply S in H; tauto.
Qed.

Lemma no_roof_closed : (forall v, roof p v = false) ->
  forall u w, In u V -> In w (connected_vertices E u) -> In w V.
Proof using all_voxels entries.
  intros NR u w _ W. apply shape_connected, edge_end in W. apply in_shape_V. rewrite listed_spec, NR.
  destruct W as (_ & ->). reflexivity.
Qed.

Lemma no_roof_V u : (forall v, roof p v = false) -> In u V <-> boundary_vertex p u = true \/ buried p u = true.
Proof using all_voxels entries.
  intros NR. rewrite in_shape_V, listed_spec, NR, andb_true_r, orb_true_iff. tauto.
Qed.

(** *** Surfaces *)

Lemma path_same u w : path E u w <-> same_surface p u w.
Proof using.
  split; induction 1 as [|w w' P IH H]; try constructor.
  - apply (same_step p u w w' IH). now apply shape_connected.
  - apply (path_step E u w w' IH). now apply shape_connected.
Qed.

Lemma buried_inner u : buried p u = true -> boundary_vertex p u = false.
Proof using.
  unfold buried, boundary_vertex, mixed, all_of. rewrite forallb_app, !andb_true_iff. intros ((-> & ->) & _).
  reflexivity.
Qed.

Lemma vertex_bounds x y z : existsb p (below (x, y, z) ++ above (x, y, z)) = true ->
  0 <= x <= nx /\ 0 <= y <= ny /\ 0 <= z <= nz.
Proof using bounded_get.
  rewrite existsb_exists. intros ([[a b] d] & I & H). apply shape_bounded in H.
  unfold below, above, quad in I. cbn [app In] in I.
  repeat (destruct I as [[= <- <- <-]|I]; [lia|]). destruct I.
Qed.
Lemma mixed_some l : mixed p l = true -> existsb p l = true.
Proof using. unfold mixed, none_of. rewrite andb_true_iff, negb_involutive. tauto. Qed.

Lemma surfaces_found order n : (forall l, Permutation (order l) l) ->
  (forall v, roof p v = false) -> count_surfaces order V E = Some n ->
  surface_number p (n - buried_vertices p nx ny nz).
Proof using all_voxels entries bounded_get.
  intros OP NR H.
  destruct (count_surfaces_classes V E order edge_sym (surface_vertices_nodup get c m) OP n H)
    as (_ & l & ND & L & LV & COV & SEP).
  exists (filter (boundary_vertex p) l). split; [now apply NoDup_filter|]. split.
  { assert (B : zlen (filter (fun v => negb (boundary_vertex p v)) l) = buried_vertices p nx ny nz).
    { unfold buried_vertices, vertex_count, zlen. f_equal. apply Permutation_length, NoDup_Permutation.
      - now apply NoDup_filter.
      - apply NoDup_filter, NoDup_all_idx.
      - intros u. rewrite !filter_In, negb_true_iff. split.
        + intros (I & NB). apply LV in I. apply (no_roof_V u NR) in I. destruct I as [I|I]; [congruence|].
          split; [|exact I]. destruct u as [[x y] z]. apply in_all_idx, in_bounds3_iff.
          assert (0 <= x <= nx /\ 0 <= y <= ny /\ 0 <= z <= nz); [|lia].
          apply vertex_bounds. unfold buried, all_of in I. rewrite !andb_true_iff in I.
          destruct I as ((I & _) & _). rewrite existsb_app. unfold below, quad in I |- *. cbn [forallb existsb] in I |- *.
          apply andb_prop in I. destruct I as (-> & _). reflexivity.
        + intros (_ & I). split; [|now apply buried_inner].
          destruct (COV u) as (r & R1 & R2); [apply (no_roof_V u NR); now right|].
          inversion R2 as [X|w w' R3 R4]; [now subst|]. subst w'. apply shape_connected, edge_end in R4.
          apply buried_inner in I. destruct R4. congruence. }
    rewrite <- B, <- L. clear. unfold zlen. induction l as [|a l IH]; [reflexivity|].
    cbn [filter length]. destruct (boundary_vertex p a); cbn [negb length]; lia. }
  split; [intros r R; now apply filter_In in R|]. split.
  - intros v Hv. destruct (COV v) as (r & R1 & R2); [apply (no_roof_V v NR); now left|].
    exists r. split; [|now apply path_same]. apply filter_In. split; [exact R1|].
    inversion R2 as [X|w w' R3 R4]; [congruence|]. subst w'.
    apply path_sym in R2; [|exact edge_sym]. inversion R2 as [X|w2 w' R5 R6]; [congruence|]. subst w'.
    apply shape_connected, edge_end in R6. tauto.
  - intros r r' R R' S. apply filter_In in R, R'. apply SEP; try tauto. now apply path_same.
Qed.

(** *** Numbers of edges at the vertices *)

Definition edge_term (a : axis) (v : idx) : Z := Z.b2z (mixed p (at_edge a v)).
Definition face_term (a : axis) (v : idx) : Z := Z.b2z (mixed p (at_face a v)).
Definition contact_term (a : axis) (v : idx) : Z := Z.b2z (edge_contact p a v).

Definition ends (f : axis -> idx -> Z) (v : idx) : Z :=
  f Ax v + f Ax (move v (-1, 0, 0)) + (f Ay v + f Ay (move v (0, -1, 0))) + (f Az v + f Az (move v (0, 0, -1))).
Definition corners (f : axis -> idx -> Z) (v : idx) : Z :=
  f Ax v + f Ax (move v (0, -1, 0)) + f Ax (move v (0, 0, -1)) + f Ax (move v (0, -1, -1)) +
  (f Ay v + f Ay (move v (-1, 0, 0)) + f Ay (move v (0, 0, -1)) + f Ay (move v (-1, 0, -1))) +
  (f Az v + f Az (move v (-1, 0, 0)) + f Az (move v (0, -1, 0)) + f Az (move v (-1, -1, 0))).

Definition degree (v : idx) : Z := zlen (filter (fun b => b) (E v)).

Lemma move_at x y z a b d : move (x, y, z) (a, b, d) = (x + a, y + b, z + d).
Proof using. reflexivity. Qed.

Lemma degree_ends v : degree v = ends edge_term v.
Proof using.
  destruct v as [[x y] z]. unfold degree, ends. rewrite !move_at, shape_edges, !Z.add_0_r.
  change (x + -1) with (x - 1). change (y + -1) with (y - 1). change (z + -1) with (z - 1).
  unfold edge_term. cbn [filter].
  repeat match goal with |- context [mixed p ?l] => destruct (mixed p l) end; reflexivity.
Qed.

Definition mix4 (i j k l : bool) : bool := negb (i && (j && (k && (l && true)))) && negb (negb (i || (j || (k || (l || false))))).
Definition con4 (i j k l : bool) : bool := Bool.eqb i l && Bool.eqb j k && xorb i j.
Definition mix2 (i j : bool) : bool := negb (i && (j && true)) && negb (negb (i || (j || false))).

Definition ends8 (f : bool -> bool -> bool -> bool -> bool) (l00 l01 l10 l11 h00 h01 h10 h11 : bool) : Z :=
  Z.b2z (f l10 h10 l11 h11) + Z.b2z (f l00 h00 l01 h01) + (Z.b2z (f l01 h01 l11 h11) + Z.b2z (f l00 h00 l10 h10)) +
  (Z.b2z (f h00 h01 h10 h11) + Z.b2z (f l00 l01 l10 l11)).
Definition corners8 (l00 l01 l10 l11 h00 h01 h10 h11 : bool) : Z :=
  Z.b2z (mix2 h01 h11) + Z.b2z (mix2 h00 h10) + Z.b2z (mix2 l01 l11) + Z.b2z (mix2 l00 l10) +
  (Z.b2z (mix2 h10 h11) + Z.b2z (mix2 h00 h01) + Z.b2z (mix2 l10 l11) + Z.b2z (mix2 l00 l01)) +
  (Z.b2z (mix2 l11 h11) + Z.b2z (mix2 l01 h01) + Z.b2z (mix2 l10 h10) + Z.b2z (mix2 l00 h00)).

Lemma identity8 l00 l01 l10 l11 h00 h01 h10 h11 :
  (let d := ends8 mix4 l00 l01 l10 l11 h00 h01 h10 h11 in
   Z.b2z (d =? 5) + 2 * Z.b2z (d =? 6) - Z.b2z (d =? 3) =?
   ends8 con4 l00 l01 l10 l11 h00 h01 h10 h11
   - (4 * Z.b2z (mixed8 l00 l01 l10 l11 h00 h01 h10 h11) - 2 * d + corners8 l00 l01 l10 l11 h00 h01 h10 h11)) = true.
Proof using.
  revert h11. apply allb_spec. revert h10. apply allb_spec. revert h01. apply allb_spec. revert h00. apply allb_spec.
  revert l11. apply allb_spec. revert l10. apply allb_spec. revert l01. apply allb_spec. revert l00. apply allb_spec.
  vm_compute. reflexivity.
Qed.

Lemma vertex_identity3 v :
  Z.b2z (degree v =? 5) + 2 * Z.b2z (degree v =? 6) - Z.b2z (degree v =? 3) =
  ends contact_term v - (4 * Z.b2z (boundary_vertex p v) - 2 * ends edge_term v + corners face_term v).
Proof using.
  rewrite degree_ends. destruct v as [[x y] z]. rewrite mixed8_at.
  pose proof (identity8 (p (x - 1, y - 1, z - 1)) (p (x - 1, y, z - 1)) (p (x, y - 1, z - 1)) (p (x, y, z - 1))
      (p (x - 1, y - 1, z)) (p (x - 1, y, z)) (p (x, y - 1, z)) (p (x, y, z))) as I.
  cbv zeta in I. apply Z.eqb_eq in I.
  assert (E1 : ends edge_term (x, y, z) = ends8 mix4 (p (x - 1, y - 1, z - 1)) (p (x - 1, y, z - 1)) (p (x, y - 1, z - 1)) (p (x, y, z - 1))
      (p (x - 1, y - 1, z)) (p (x - 1, y, z)) (p (x, y - 1, z)) (p (x, y, z))).
  { unfold ends. rewrite !move_at, !Z.add_0_r. change (x + -1) with (x - 1). change (y + -1) with (y - 1).
    change (z + -1) with (z - 1). reflexivity. }
  assert (E2 : ends contact_term (x, y, z) = ends8 con4 (p (x - 1, y - 1, z - 1)) (p (x - 1, y, z - 1)) (p (x, y - 1, z - 1)) (p (x, y, z - 1))
      (p (x - 1, y - 1, z)) (p (x - 1, y, z)) (p (x, y - 1, z)) (p (x, y, z))).
  { unfold ends. rewrite !move_at, !Z.add_0_r. change (x + -1) with (x - 1). change (y + -1) with (y - 1).
    change (z + -1) with (z - 1). reflexivity. }
  assert (E3 : corners face_term (x, y, z) = corners8 (p (x - 1, y - 1, z - 1)) (p (x - 1, y, z - 1)) (p (x, y - 1, z - 1)) (p (x, y, z - 1))
      (p (x - 1, y - 1, z)) (p (x - 1, y, z)) (p (x, y - 1, z)) (p (x, y, z))).
  { unfold corners. rewrite !move_at, !Z.add_0_r. change (x + -1) with (x - 1). change (y + -1) with (y - 1).
    change (z + -1) with (z - 1). reflexivity. }
  rewrite E1, E2, E3. exact I.
Qed.

Notation total := (total nx ny nz).
Notation core := (core nx ny nz).

Definition inside_box (f : idx -> bool) : Prop :=
  forall x y z, f (x, y, z) = true -> 0 <= x <= nx /\ 0 <= y <= ny /\ 0 <= z <= nz.

Lemma box_core f : inside_box f -> core (fun v => Z.b2z (f v)).
Proof using.
  intros H x y z F. destruct (f (x, y, z)) eqn:Ef; [|now elim F]. apply H in Ef. lia.
Qed.

Lemma some_box (f : idx -> bool) (l : idx -> list idx) :
  (forall v, f v = true -> existsb p (l v) = true) -> (forall v, incl (l v) (below v ++ above v)) -> inside_box f.
Proof using bounded_get.
  intros F I x y z H. apply vertex_bounds. apply F in H. rewrite existsb_exists in H |- *.
  destruct H as (i & A & B). exists i. split; [now apply I|exact B].
Qed.

Lemma incl_edge a v : incl (at_edge a v) (below v ++ above v).
Proof using.
  clear all_voxels entries bounded_get p. clear get c m nx ny nz.
  destruct v as [[x y] z]. unfold below, above, quad, at_edge. cbn [app]. rewrite Z.add_0_r.
  change (z + -1) with (z - 1). destruct a; intros i I; cbn [In] in *; tauto.
Qed.
Lemma incl_face a v : incl (at_face a v) (below v ++ above v).
Proof using.
  clear all_voxels entries bounded_get p. clear get c m nx ny nz.
  destruct v as [[x y] z]. unfold below, above, quad, at_face. cbn [app]. rewrite Z.add_0_r.
  change (z + -1) with (z - 1). destruct a; intros i I; cbn [In] in *; tauto.
Qed.

Lemma edge_box a : inside_box (fun v => mixed p (at_edge a v)).
Proof using bounded_get. apply (some_box _ (at_edge a)); [intros v; apply mixed_some|apply incl_edge]. Qed.
Lemma face_box a : inside_box (fun v => mixed p (at_face a v)).
Proof using bounded_get. apply (some_box _ (at_face a)); [intros v; apply mixed_some|apply incl_face]. Qed.
Lemma vertex_box : inside_box (boundary_vertex p).
Proof using bounded_get. apply (some_box _ (fun v => below v ++ above v)); [intros v; apply mixed_some|intros v; apply incl_refl]. Qed.
Lemma contact_box a : inside_box (edge_contact p a).
Proof using bounded_get.
  apply (some_box _ (at_edge a)); [|apply incl_edge]. intros [[x y] z].
  unfold edge_contact, at_edge. destruct a; cbn [existsb];
    repeat match goal with |- context [p ?i] => destruct (p i) end; cbn; auto.
Qed.

Definition over_axes (f : axis -> idx -> Z) : Z := total (f Ax) + total (f Ay) + total (f Az).

Lemma total_ends f : (forall a, core (f a)) -> total (ends f) = 2 * over_axes f.
Proof using.
  intros H. unfold ends, over_axes.
  rewrite !(total_add nx ny nz).
  rewrite !(total_move nx ny nz) by (try apply H; unfold small, ix, iy, iz; cbn [fst snd]; lia). lia.
Qed.
Lemma total_corners f : (forall a, core (f a)) -> total (corners f) = 4 * over_axes f.
Proof using.
  intros H. unfold corners, over_axes.
  rewrite !(total_add nx ny nz).
  rewrite !(total_move nx ny nz) by (try apply H; unfold small, ix, iy, iz; cbn [fst snd]; lia). lia.
Qed.

Lemma degree_count order k : (forall l, Permutation (order l) l) -> (forall v, roof p v = false) -> 0 < k ->
  zlen (filter (fun u => zlen (filter (fun b => b) (E u)) =? k) (order V)) = total (fun v => Z.b2z (degree v =? k)).
Proof using all_voxels entries bounded_get.
  intros OP NR K. rewrite zlen_filter, (zsum_perm _ _ _ (OP V)). unfold BoundaryProofs.total.
  apply zsum_support; [apply surface_vertices_nodup|apply nodup_space|].
  intros u F. fold (degree u) in F. destruct (degree u =? k) eqn:D; [|now elim F]. apply Z.eqb_eq in D.
  assert (B : boundary_vertex p u = true).
  { destruct (boundary_vertex p u) eqn:B; [reflexivity|]. exfalso. rewrite degree_ends in D.
    assert (Z1 : forall a, edge_term a u = 0).
    { intros a. unfold edge_term. destruct (mixed p (at_edge a u)) eqn:M; [|reflexivity].
      destruct (edge_end u (step_along a u)) as (X & _); [exists a; auto|congruence]. }
    assert (Z2 : forall a v, step_along a v = u -> edge_term a v = 0).
    { intros a v Sv. unfold edge_term. destruct (mixed p (at_edge a v)) eqn:M; [|reflexivity].
      destruct (edge_end v u) as (_ & X); [exists a; auto|congruence]. }
    unfold ends in D. rewrite !Z1 in D. destruct u as [[x y] z]. rewrite !move_at in D.
    rewrite !Z2 in D by (cbn [step_along]; repeat f_equal; lia). lia. }
  split; [apply (no_roof_V u NR); now left|]. destruct u as [[x y] z]. apply vertex_box in B. apply in_space. lia.
Qed.

Lemma edge_numbers order : (forall l, Permutation (order l) l) -> (forall v, roof p v = false) ->
  let count k := zlen (filter (fun u => zlen (filter (fun b => b) (E u)) =? k) (order V)) in
  count 5 + 2 * count 6 - count 3 = 2 * (edge_contacts p nx ny nz - 2 * boundary_euler p nx ny nz).
Proof using all_voxels entries bounded_get.
  intros OP NR count. unfold count. rewrite !degree_count by (auto; lia). clear count.
  transitivity (total (fun v => Z.b2z (degree v =? 5) + 2 * Z.b2z (degree v =? 6) - Z.b2z (degree v =? 3))).
  { unfold Z.sub. rewrite (total_add nx ny nz (fun v => Z.b2z (degree v =? 5) + 2 * Z.b2z (degree v =? 6))).
    rewrite (total_add nx ny nz), (total_mul nx ny nz).
    rewrite (total_ext nx ny nz (fun v => - Z.b2z (degree v =? 3)) (fun v => -1 * Z.b2z (degree v =? 3))) by (intros; lia).
    rewrite (total_mul nx ny nz). lia. }
  rewrite (total_ext nx ny nz _ (fun v => ends contact_term v + (-4) * Z.b2z (boundary_vertex p v)
    + 2 * ends edge_term v + (-1) * corners face_term v)) by (intros v; rewrite vertex_identity3; lia).
  rewrite !(total_add nx ny nz), !(total_mul nx ny nz), !total_ends, total_corners.
  - unfold over_axes, edge_contacts, boundary_euler.
    rewrite !(vertex_count_total nx ny nz) by (first [apply vertex_box|apply edge_box|apply face_box|apply contact_box]).
    unfold edge_term, face_term, contact_term. lia.
  - intros a. apply box_core, face_box.
  - intros a. apply box_core, edge_box.
  - intros a. apply box_core, contact_box.
Qed.

(** *** The result *)

Hypothesis nonempty : exists i, get i = c.

Lemma roof_throws order v : (forall l, Permutation (order l) l) -> roof p v = true ->
  holes_and_voids get order c m = None.
Proof using all_voxels entries bounded_get.
  intros OP R. unfold holes_and_voids. destruct (count_surfaces order V E) as [n|] eqn:H; [|reflexivity].
  destruct (count_surfaces_classes V E order edge_sym (surface_vertices_nodup get c m) OP n H) as (CL & _).
  rewrite (closed_no_roof v CL) in R. discriminate R.
Qed.

Lemma left_vertex n x y z : p (x, y, z) = true -> (Z.to_nat x <= n)%nat -> exists v, boundary_vertex p v = true.
Proof using bounded_get.
  revert x. induction n as [|n IH]; intros x H L.
  - exists (x, y, z). rewrite mixed8_at. rewrite H.
    assert (N : p (x - 1, y, z) = false).
    { apply not_true_iff_false. intros B. apply shape_bounded in B. lia. }
    rewrite N. unfold mixed8. cbn [andb orb]. rewrite ?andb_false_r, ?orb_true_r. reflexivity.
  - destruct (p (x - 1, y, z)) eqn:N.
    + apply (IH (x - 1) N). apply shape_bounded in N. lia.
    + exists (x, y, z). rewrite mixed8_at. rewrite H, N. unfold mixed8. cbn [andb orb].
      rewrite ?andb_false_r, ?orb_true_r. reflexivity.
Qed.

Lemma no_roof_result order : (forall l, Permutation (order l) l) -> (forall v, roof p v = false) ->
  exists s, surface_number p s /\ 1 <= s /\
    holes_and_voids get order c m =
      (let v := s - 1 + buried_vertices p nx ny nz in
       let h := s + buried_vertices p nx ny nz + Z.quot (edge_contacts p nx ny nz - 2 * boundary_euler p nx ny nz) 4 in
       if h <? 0 then None else Some (h, v)).
Proof using all_voxels entries bounded_get nonempty.
  intros OP NR.
  destruct (count_surfaces_closed V E (no_roof_closed NR) (surface_vertices_nodup get c m) order OP) as (n & H & _ & _).
  pose proof (surfaces_found order n OP NR H) as S.
  set (B := buried_vertices p nx ny nz) in *. exists (n - B). split; [exact S|].
  assert (S1 : 1 <= n - B).
  { destruct S as (l & _ & L & _ & COV & _). destruct nonempty as ([[x y] z] & Hi). apply shape_p in Hi.
    destruct (left_vertex (Z.to_nat x) x y z Hi (Nat.le_refl _)) as (v & Hv).
    destruct (COV v Hv) as (r & R & _). rewrite <- L. destruct l; [destruct R|]. unfold zlen. cbn [length]. lia. }
  split; [exact S1|]. cbv zeta. unfold holes_and_voids. rewrite H. cbn [obind].
  pose proof (edge_numbers order OP NR) as EN. cbv zeta in EN. rewrite EN.
  replace 8 with (2 * 4) by lia. rewrite Z.quot_mul_cancel_l by lia.
  set (q := Z.quot _ 4).
  assert (B0 : 0 <= B) by (unfold B, buried_vertices, vertex_count, zlen; lia).
  replace (1 + q + (n - 1)) with (n - B + B + q) by lia. replace (n - 1) with (n - B - 1 + B) by lia.
  replace (n - B - 1 + B <? 0) with false by (symmetry; apply Z.ltb_ge; lia). rewrite orb_false_r. reflexivity.
Qed.
End Shape.

(** ** The number of surfaces is determined *)

Section Number.
Variable q : idx -> bool.

Lemma same_trans u v w : same_surface q u v -> same_surface q v w -> same_surface q u w.
Proof using. intros A B. induction B as [|w w' B IH E]; [exact A|]. exact (same_step q u w w' IH E). Qed.
Lemma same_sym u w : same_surface q u w -> same_surface q w u.
Proof using.
  induction 1 as [|w w' P IH E]; [constructor|]. apply (same_trans w' w u); [|exact IH].
  apply (same_step q w' w' w); [constructor|]. destruct E as (a & [E|E]); exists a; auto.
Qed.

Lemma surface_number_le n k : surface_number q n -> surface_number q k -> n <= k.
Proof using.
  intros (l & N1 & L1 & B1 & _ & S1) (l' & N2 & L2 & _ & C2 & _).
  assert (M : forall j, incl j l -> NoDup j ->
    exists j', length j' = length j /\ NoDup j' /\ incl j' l' /\
      forall r', In r' j' -> exists r, In r j /\ same_surface q r r').
  { induction j as [|r j IH]; intros I N.
    - exists []. split; [reflexivity|]. split; [constructor|]. split; [intros a []|intros a []].
    - apply NoDup_cons_iff in N. destruct N as (N & NJ).
      destruct IH as (j' & A & B & D & F); [intros a H; apply I; now right|exact NJ|].
      destruct (C2 r) as (r' & R1 & R2); [apply B1, I; now left|]. apply same_sym in R2.
      exists (r' :: j'). split; [cbn; congruence|]. split.
      + constructor; [|exact B]. intros H. destruct (F r' H) as (r2 & G1 & G2).
        assert (r = r2).
        { apply S1; [apply I; now left|apply I; now right|].
          apply (same_trans r r' r2); [exact R2|now apply same_sym]. }
        subst r2. contradiction.
      + split.
        * intros a [<-|H]; auto.
        * intros a [<-|H]; [exists r; split; [now left|exact R2]|].
          destruct (F a H) as (r2 & G1 & G2). exists r2. split; [now right|exact G2]. }
  destruct (M l (incl_refl l) N1) as (j' & A & B & D & _).
  apply NoDup_incl_length in D; [|exact B]. unfold zlen in *. lia.
Qed.
Lemma surface_number_unique n k : surface_number q n -> surface_number q k -> n = k.
Proof using. intros A B. apply Z.le_antisymm; now apply surface_number_le. Qed.
End Number.

Lemma boundary_ext (q q' : idx -> bool) : (forall i, q i = q' i) ->
  (forall l, existsb q l = existsb q' l) /\ (forall l, forallb q l = forallb q' l).
Proof. intros H. split; induction l as [|a l IH]; cbn; congruence. Qed.

Lemma mixed_ext q q' l : (forall i, q i = q' i) -> mixed q l = mixed q' l.
Proof. intros H. destruct (boundary_ext q q' H) as (A & B). unfold mixed, all_of, none_of. now rewrite A, B. Qed.
Lemma roof_ext q q' v : (forall i, q i = q' i) -> roof q v = roof q' v.
Proof. intros H. destruct (boundary_ext q q' H) as (A & B). unfold roof, all_of, none_of. now rewrite A, !B. Qed.
Lemma buried_ext q q' v : (forall i, q i = q' i) -> buried q v = buried q' v.
Proof. intros H. destruct (boundary_ext q q' H) as (A & B). unfold buried, all_of. now rewrite !B. Qed.
Lemma contact_ext q q' a v : (forall i, q i = q' i) -> edge_contact q a v = edge_contact q' a v.
Proof. intros H. destruct v as [[x y] z], a; unfold edge_contact, at_edge; now rewrite !H. Qed.
Lemma edge_ext q q' u w : (forall i, q i = q' i) -> boundary_edge q u w -> boundary_edge q' u w.
Proof.
  intros H (a & [(E & M)|(E & M)]); exists a; [left|right]; (split; [exact E|]);
  now rewrite <- (mixed_ext q q' _ H).
Qed.
Lemma same_ext q q' u w : (forall i, q i = q' i) -> same_surface q u w -> same_surface q' u w.
Proof.
  intros H. induction 1 as [|w w' S IH E]; [constructor|]. apply (same_step q' u w w' IH). now apply (edge_ext q).
Qed.
Lemma number_ext q q' n : (forall i, q i = q' i) -> surface_number q n -> surface_number q' n.
Proof.
  intros H (l & A & B & D & F & G). assert (H' : forall i, q' i = q i) by (intros; now rewrite H).
  exists l. do 2 (split; [assumption|]).
  assert (K : forall v, boundary_vertex q' v = boundary_vertex q v) by (intros; now apply mixed_ext).
  split; [intros r R; rewrite K; auto|]. split.
  - intros v R. rewrite K in R. destruct (F v R) as (r & R1 & R2). exists r. split; [exact R1|]. now apply (same_ext q).
  - intros r r' R R' S. apply G; auto. now apply (same_ext q').
Qed.
Lemma count_ext nx ny nz f f' : (forall i, f i = f' i) -> vertex_count nx ny nz f = vertex_count nx ny nz f'.
Proof. intros H. unfold vertex_count. f_equal. apply filter_ext. exact H. Qed.
Lemma numbers_ext q q' nx ny nz : (forall i, q i = q' i) ->
  boundary_euler q nx ny nz = boundary_euler q' nx ny nz /\ edge_contacts q nx ny nz = edge_contacts q' nx ny nz /\
  buried_vertices q nx ny nz = buried_vertices q' nx ny nz.
Proof.
  intros H. unfold boundary_euler, edge_contacts, buried_vertices, boundary_vertex.
  assert (M : forall l, mixed q l = mixed q' l) by (intros; now apply mixed_ext).
  split; [|split].
  - rewrite !(count_ext nx ny nz _ _ (fun v => M _)). reflexivity.
  - rewrite !(count_ext nx ny nz (edge_contact q _) (edge_contact q' _)) by (intros; now apply contact_ext). reflexivity.
  - apply count_ext. intros. now apply buried_ext.
Qed.

(** ** Maps *)

Section Maps.
Context {C : Type} (occ_of : C -> occ) (comp_of : C -> Z) (k : kinds) (g : grid C)
  (conn : idx -> idx -> Prop) (n : Z).
Hypothesis W : gwf g.
Hypothesis O : occs_ok occ_of g.
Hypothesis N : numbers_ok comp_of g.
Hypothesis LB : is_labelling (in_grid g) conn (label comp_of g) n.
Hypothesis CS : forall i j, conn i j -> same_side occ_of g i j.
Variable order : list idx -> list idx.
Hypothesis OP : forall l, Permutation (order l) l.

Notation part := (part_of comp_of g).

Lemma entry_shape s c m :
  extract_surfaces occ_of comp_of k g = Some s -> In (c, m) s ->
  (forall v, roof (part c) v = true -> holes_and_voids (component_fn comp_of g) order c m = None) /\
  ((forall v, roof (part c) v = false) ->
   exists s, surface_number (part c) s /\ 1 <= s /\
     holes_and_voids (component_fn comp_of g) order c m =
       if hole_number comp_of g c s <? 0 then None else Some (hole_number comp_of g c s, void_number comp_of g c s)).
Proof using W O N LB CS OP.
  intros ES I.
  destruct (extract_surfaces_spec occ_of comp_of k g W O N) as (s' & ES' & (ND & SM) & IS).
  rewrite ES in ES'. injection ES' as <-. destruct (SM c m I) as (NDm & NE & V1).
  assert (U : forall i, In (i, 1) m <-> in_surface s c i).
  { intros i. split; [intros H; exists m; auto|]. intros (m' & I' & H).
    enough (m' = m) by congruence. clear - ND I I'.
    induction s as [|[d w] s IH]; [destruct I|]. cbn in ND. apply NoDup_cons_iff in ND. destruct ND as (NI & ND).
    assert (K : forall x, In (d, x) s -> False)
      by (intros x X; apply NI; change d with (fst (d, x)); now apply in_map).
    destruct I as [E|I], I' as [E'|I'].
    - congruence.
    - injection E as -> ->. now elim (K _ I').
    - injection E' as -> ->. now elim (K _ I).
    - now apply IH. }
  destruct m as [|[j w] m'] eqn:M; [easy|]. rewrite <- M in *.
  assert (HJ : in_surface s c j).
  { apply U. assert (w = 1) by (apply (V1 j); rewrite M; now left). rewrite M. subst w. now left. }
  apply IS in HJ. destruct HJ as (J1 & J2 & J3).
  assert (P : 0 <= c).
  { destruct (gget_some g j W J1) as (x & Hx). rewrite <- J3. unfold label. rewrite Hx. apply (N j x Hx). }
  assert (G : forall i, component_fn comp_of g i = c <-> in_grid g i /\ label comp_of g i = c).
  { intros i. unfold component_fn, label, in_grid. destruct (gget g i) as [x|] eqn:E.
    - apply gget_in_bounds in E. tauto.
    - split; [lia|]. intros (A & _). destruct (gget_some g i W A). congruence. }
  destruct LB as (_ & _ & L3 & _).
  assert (H1 : forall i, component_fn comp_of g i = c -> In (i, 1) m).
  { intros i Hi. apply G in Hi. apply U, IS. split; [tauto|]. split; [|tauto].
    apply (joined_selected occ_of k g conn CS j i); [|easy]. apply L3; [easy|tauto|destruct Hi; congruence]. }
  assert (H2 : forall i v, In (i, v) m -> component_fn comp_of g i = c).
  { intros i v Hv. assert (v = 1) by eauto. subst v. apply U, IS in Hv. apply G. tauto. }
  assert (H3 : forall x y z, component_fn comp_of g (x, y, z) = c ->
    0 <= x < g_nx g /\ 0 <= y < g_ny g /\ 0 <= z < g_nz g).
  { intros x y z H. apply G in H. destruct H as (H & _). unfold in_grid in H. now apply in_bounds_iff in H. }
  assert (H4 : exists i, component_fn comp_of g i = c) by (exists j; apply G; auto).
  assert (PE : forall i, (c =? component_fn comp_of g i) = part c i).
  { intros i. unfold part_of, component_fn. destruct (gget g i); [apply Z.eqb_sym|]. apply Z.eqb_neq. lia. }
  split.
  - intros v R. apply (roof_throws (component_fn comp_of g) c m (g_nx g) (g_ny g) (g_nz g) H1 H2 H3 order v OP).
    now rewrite (roof_ext _ _ v PE).
  - intros NR.
    destruct (no_roof_result (component_fn comp_of g) c m (g_nx g) (g_ny g) (g_nz g) H1 H2 H3 H4 order OP)
      as (t & T1 & T2 & T3).
    { intros v. now rewrite (roof_ext _ _ v PE). }
    exists t. split; [now apply (number_ext _ _ t PE)|]. split; [exact T2|]. rewrite T3. cbv zeta.
    destruct (numbers_ext _ _ (g_nx g) (g_ny g) (g_nz g) PE) as (E1 & E2 & E3). rewrite E1, E2, E3. reflexivity.
Qed.

Lemma roof_in x y z q : (forall i, q i = true -> in_grid g i) -> roof q (x, y, z) = true ->
  In (x, y, z) (all_idx (g_nx g) (g_ny g) (g_nz g + 1)).
Proof using.
  intros Q R. unfold roof, all_of, below, quad in R. rewrite !andb_true_iff in R.
  destruct R as ((_ & R) & _). cbn [forallb] in R. rewrite !andb_true_iff in R.
  destruct R as (_ & _ & _ & R & _). apply Q in R. unfold in_grid in R. apply in_bounds_iff in R.
  apply in_all_idx, in_bounds3_iff. lia.
Qed.

Lemma roof_dec c : (exists v, roof (part c) v = true) \/ (forall v, roof (part c) v = false).
Proof using.
  destruct (existsb (roof (part c)) (all_idx (g_nx g) (g_ny g) (g_nz g + 1))) eqn:E.
  - apply existsb_exists in E. destruct E as (v & _ & E). eauto.
  - right. intros [[x y] z]. apply not_true_iff_false. intros R.
    assert (X : existsb (roof (part c)) (all_idx (g_nx g) (g_ny g) (g_nz g + 1)) = true).
    { apply existsb_exists. exists (x, y, z). split; [|exact R]. apply (roof_in x y z (part c)); [|exact R].
      intros i. unfold part_of, in_grid. destruct (gget g i) eqn:G; [|discriminate]. intros _. eapply gget_in_bounds, G. }
    congruence.
Qed.

Lemma shape_topology :
  (component_topology occ_of comp_of order k g = None <->
     exists i, in_grid g i /\ selected occ_of k g i /\ throws_on comp_of g (label comp_of g i)) /\
  forall r, component_topology occ_of comp_of order k g = Some r ->
    (exists s, extract_surfaces occ_of comp_of k g = Some s /\ map fst r = map fst s) /\ NoDup (map fst r) /\
    (forall c, In c (map fst r) <-> exists i, in_grid g i /\ selected occ_of k g i /\ label comp_of g i = c) /\
    forall c h v, In (c, (h, v)) r -> 0 <= h /\
      exists s, surface_number (part c) s /\ 1 <= s /\ h = hole_number comp_of g c s /\ v = void_number comp_of g c s.
Proof using W O N LB CS OP.
  destruct (extract_surfaces_spec occ_of comp_of k g W O N) as (s & ES & (ND & SM) & IS).
  unfold component_topology. rewrite ES. cbn [obind]. unfold topology_of_surfaces.
  assert (KEY : forall c, In c (map fst s) <-> exists i, in_grid g i /\ selected occ_of k g i /\ label comp_of g i = c).
  { intros c. rewrite in_map_iff. split.
    - intros ([d m] & E & I). cbn [fst] in E. subst d. destruct (SM c m I) as (_ & NE & V1).
      destruct m as [|[i w] m]; [easy|]. exists i. apply IS. exists ((i, w) :: m). split; [exact I|].
      assert (w = 1) by (apply (V1 i); now left). subst w. now left.
    - intros (i & Hi). apply IS in Hi. destruct Hi as (m & I & _). exists (c, m). auto. }
  assert (ENT : forall c m, In (c, m) s ->
    (holes_and_voids (component_fn comp_of g) order c m = None <-> throws_on comp_of g c) /\
    forall h v, holes_and_voids (component_fn comp_of g) order c m = Some (h, v) -> 0 <= h /\
      exists s, surface_number (part c) s /\ 1 <= s /\ h = hole_number comp_of g c s /\ v = void_number comp_of g c s).
  { intros c m I. destruct (entry_shape s c m ES I) as (R1 & R2). destruct (roof_dec c) as [(u & Hu)|NR].
    - rewrite (R1 u Hu). split; [|discriminate]. split; [|reflexivity]. intros _. left. eauto.
    - destruct (R2 NR) as (t & T1 & T2 & T3). rewrite T3. destruct (hole_number comp_of g c t <? 0) eqn:E.
      + apply Z.ltb_lt in E. split; [|discriminate]. split; [|reflexivity]. intros _. right. eauto.
      + apply Z.ltb_ge in E. split.
        * split; [discriminate|]. intros [(u & Hu)|(t' & T1' & T4)].
          -- rewrite NR in Hu. discriminate Hu.
          -- rewrite (surface_number_unique _ t' t T1' T1) in T4. lia.
        * intros h v [= <- <-]. split; [exact E|]. exists t. auto. }
  set (F := fun (acc : list (Z * (Z * Z))) '(c, m) =>
    let* r := holes_and_voids (component_fn comp_of g) order c m in Some (acc ++ [(c, r)])).
  assert (A : forall l acc, (forall c m, In (c, m) l -> In (c, m) s) ->
    (ofold F l acc = None <-> exists c m, In (c, m) l /\ throws_on comp_of g c) /\
    forall r, ofold F l acc = Some r -> exists r', r = acc ++ r' /\ map fst r' = map fst l /\
      forall c h v, In (c, (h, v)) r' -> 0 <= h /\
        exists s, surface_number (part c) s /\ 1 <= s /\ h = hole_number comp_of g c s /\ v = void_number comp_of g c s).
  { intros l. induction l as [|[c m] l IH]; intros acc H.
    - cbn [ofold]. split.
      + split; [discriminate|]. intros (c & m & [] & _).
      + intros r [= <-]. exists []. rewrite app_nil_r. do 2 (split; [reflexivity|]). intros c h v [].
    - cbn [ofold]. unfold F at 1 3. destruct (ENT c m (H c m (or_introl eq_refl))) as (N1 & S1).
      destruct (holes_and_voids (component_fn comp_of g) order c m) as [[h v]|] eqn:Eh; cbn [obind].
      + destruct (IH (acc ++ [(c, (h, v))])) as (I1 & I2); [intros; apply H; now right|]. split.
        * rewrite I1. split.
          -- intros (d & m' & X & Y). exists d, m'. split; [now right|exact Y].
          -- intros (d & m' & [X|X] & Y); [|eauto]. injection X as <- <-. apply N1 in Y. discriminate Y.
        * intros r Hr. destruct (I2 r Hr) as (r' & -> & R1 & R2). exists ((c, (h, v)) :: r').
          split; [now rewrite <- app_assoc|]. split; [cbn [map fst]; now f_equal|].
          intros c' h' v' [X|X]; [|eauto]. injection X as <- <- <-. auto.
      + split; [|discriminate]. split; [|reflexivity]. intros _. exists c, m. split; [now left|]. now apply N1. }
  destruct (A s [] (fun _ _ I => I)) as (A1 & A2). split.
  - rewrite A1. split.
    + intros (c & m & I & T). assert (X : In c (map fst s)) by (apply (in_map fst) in I; exact I).
      apply KEY in X. destruct X as (i & X1 & X2 & X3). exists i. rewrite X3. auto.
    + intros (i & X1 & X2 & T). assert (X : In (label comp_of g i) (map fst s)) by (apply KEY; eauto).
      apply in_map_iff in X. destruct X as ([d m] & E & I). cbn [fst] in E. subst d. eauto.
  - intros r Hr. destruct (A2 r Hr) as (r' & -> & R1 & R2). cbn [app].
    split; [exists s; auto|]. rewrite R1. auto.
Qed.
End Maps.

(** The order of the traversal does not matter. *)
Lemma order_irrelevant {C} (occ_of : C -> occ) (comp_of : C -> Z) k (g : grid C) conn n order order' :
  gwf g -> occs_ok occ_of g -> numbers_ok comp_of g ->
  is_labelling (in_grid g) conn (label comp_of g) n -> (forall i j, conn i j -> same_side occ_of g i j) ->
  (forall l, Permutation (order l) l) -> (forall l, Permutation (order' l) l) ->
  component_topology occ_of comp_of order k g = component_topology occ_of comp_of order' k g.
Proof.
  intros W O N L CS OP OP'.
  destruct (shape_topology occ_of comp_of k g conn n W O N L CS order OP) as (A1 & A2).
  destruct (shape_topology occ_of comp_of k g conn n W O N L CS order' OP') as (B1 & B2).
  destruct (component_topology occ_of comp_of order k g) as [r|].
  - destruct (component_topology occ_of comp_of order' k g) as [r'|].
    + destruct (A2 r eq_refl) as ((s & S1 & S2) & _ & _ & A3).
      destruct (B2 r' eq_refl) as ((s' & S1' & S2') & _ & _ & B3).
      assert (M : map fst r = map fst r') by congruence. clear - M A3 B3. f_equal.
      revert r' M B3. induction r as [|[c [h v]] r IH]; intros [|[c' [h' v']] r'] M B3; try discriminate; [easy|].
      cbn [map fst] in M. injection M as <- M.
      destruct (A3 c h v (or_introl eq_refl)) as (_ & s & X1 & _ & X2 & X3).
      destruct (B3 c h' v' (or_introl eq_refl)) as (_ & s' & Y1 & _ & Y2 & Y3).
      rewrite (surface_number_unique _ _ _ Y1 X1) in Y2, Y3. f_equal; [congruence|].
      apply IH; [intros; apply A3; now right|exact M|intros; apply B3; now right].
    + exfalso. pose proof (proj1 B1 eq_refl) as X. apply A1 in X. discriminate X.
  - symmetry. apply B1, A1. reflexivity.
Qed.


(** ** Maps after their components were updated *)

Lemma topology_of_update {C} (occ_of : C -> occ) (comp_of : C -> Z) k (g g' : grid C) conn n order :
  gwf g' -> same_cells occ_of g' g -> occs_ok occ_of g -> g_total g < 2 ^ 32 ->
  is_labelling (in_grid g) conn (label comp_of g') n -> (forall i j, conn i j -> same_side occ_of g i j) ->
  (forall l, Permutation (order l) l) ->
  (component_topology occ_of comp_of order k g' = None <->
     exists i, in_grid g i /\ selected occ_of k g i /\ throws_on comp_of g' (label comp_of g' i)) /\
  forall r, component_topology occ_of comp_of order k g' = Some r ->
    NoDup (map fst r) /\
    (forall c, In c (map fst r) <-> exists i, in_grid g i /\ selected occ_of k g i /\ label comp_of g' i = c) /\
    forall c h v, In (c, (h, v)) r -> 0 <= h /\
      exists s, surface_number (part_of comp_of g' c) s /\ 1 <= s /\
        h = hole_number comp_of g' c s /\ v = void_number comp_of g' c s.
Proof.
  intros W' S O T L CS OP.
  assert (D : same_dims g' g) by apply S.
  assert (L' : is_labelling (in_grid g') conn (label comp_of g') n).
  { eapply is_labelling_ext; [| | |exact L]; try reflexivity. intros a. apply in_grid_dims. now apply same_dims_sym. }
  assert (X : forall Q : idx -> Prop, (exists i, in_grid g' i /\ selected occ_of k g' i /\ Q i) <->
                         (exists i, in_grid g i /\ selected occ_of k g i /\ Q i)).
  { intros Q. split; intros (i & A & B & H); exists i; (split; [|split; [|exact H]]).
    - now apply (in_grid_dims g' g).
    - now apply (selected_cells occ_of k g' g).
    - now apply (in_grid_dims g' g).
    - now apply (selected_cells occ_of k g' g). }
  destruct (shape_topology occ_of comp_of k g' conn n W') with (order := order) as (E & F).
  - eapply same_cells_occs; eassumption.
  - eapply labelling_numbers; [exact W'| |exact L']. now rewrite (total_dims _ g).
  - exact L'.
  - intros i j H. apply (same_side_cells occ_of g' g); auto.
  - exact OP.
  - split; [rewrite E; apply X|]. intros r Hr. destruct (F r Hr) as (_ & F1 & F2 & F3). split; [exact F1|].
    split; [|exact F3]. intros c. rewrite F2. apply X.
Qed.

Definition topology_result {C} (occ_of : C -> occ) (comp_of : C -> Z) order k (g g' : grid C) : Prop :=
  (component_topology occ_of comp_of order k g' = None <->
     exists i, in_grid g i /\ selected occ_of k g i /\ throws_on comp_of g' (label comp_of g' i)) /\
  forall r, component_topology occ_of comp_of order k g' = Some r ->
    NoDup (map fst r) /\
    (forall c, In c (map fst r) <-> exists i, in_grid g i /\ selected occ_of k g i /\ label comp_of g' i = c) /\
    forall c h v, In (c, (h, v)) r -> 0 <= h /\
      exists s, surface_number (part_of comp_of g' c) s /\ 1 <= s /\
        h = hole_number comp_of g' c s /\ v = void_number comp_of g' c s.

Lemma cm_topology m m' n k order :
  gwf (cm_grid m) -> occs_ok c_occ (cm_grid m) -> g_total (cm_grid m) < 2 ^ 32 -> cm_valid m = false ->
  (forall l, Permutation (order l) l) -> cm_update m = Some (m', n) ->
  topology_result c_occ c_comp order k (cm_grid m) (cm_grid m').
Proof.
  intros W O T V OP U. destruct (cm_update_labels m W O T V) as (m2 & n2 & E & W' & S & _ & L).
  rewrite U in E. injection E as <- <-.
  exact (topology_of_update c_occ c_comp k (cm_grid m) (cm_grid m') _ n order W' S O T L (fun i j H => H) OP).
Qed.

Lemma tm_topology across m m' n k order :
  gwf (tm_grid m) -> occs_ok t_occ (tm_grid m) -> g_total (tm_grid m) < 2 ^ 32 -> tm_valid m = false ->
  (forall l, Permutation (order l) l) -> tm_update across m = Some (m', n) ->
  topology_result t_occ t_comp order k (tm_grid m) (tm_grid m').
Proof.
  intros W O T V OP U. destruct (tm_update_labels across m W O T V) as (m2 & n2 & E & W' & S & _ & _ & L).
  rewrite U in E. injection E as <- <-. apply tview_cells in S. destruct S as (S & _).
  refine (topology_of_update t_occ t_comp k (tm_grid m) (tm_grid m') _ n order W' S O T L _ OP).
  intros i j (H & _); exact H.
Qed.

Lemma cm_order m m' n k order order' :
  gwf (cm_grid m) -> occs_ok c_occ (cm_grid m) -> g_total (cm_grid m) < 2 ^ 32 -> cm_valid m = false ->
  (forall l, Permutation (order l) l) -> (forall l, Permutation (order' l) l) -> cm_update m = Some (m', n) ->
  component_topology c_occ c_comp order k (cm_grid m') = component_topology c_occ c_comp order' k (cm_grid m').
Proof.
  intros W O T V OP OP' U. destruct (cm_update_labels m W O T V) as (m2 & n2 & E & W' & S & _ & L).
  rewrite U in E. injection E as <- <-.
  assert (D : same_dims (cm_grid m') (cm_grid m)) by apply S.
  assert (L' : is_labelling (in_grid (cm_grid m')) (same_side c_occ (cm_grid m)) (label c_comp (cm_grid m')) n).
  { eapply is_labelling_ext; [| | |exact L]; try reflexivity. intros a. apply in_grid_dims. now apply same_dims_sym. }
  apply (order_irrelevant c_occ c_comp k (cm_grid m') (same_side c_occ (cm_grid m)) n); auto.
  - eapply same_cells_occs; eassumption.
  - eapply labelling_numbers; [exact W'| |exact L']. now rewrite (total_dims _ (cm_grid m)).
  - intros i j H. apply (same_side_cells c_occ (cm_grid m') (cm_grid m)); auto.
Qed.

Lemma tm_order across m m' n k order order' :
  gwf (tm_grid m) -> occs_ok t_occ (tm_grid m) -> g_total (tm_grid m) < 2 ^ 32 -> tm_valid m = false ->
  (forall l, Permutation (order l) l) -> (forall l, Permutation (order' l) l) -> tm_update across m = Some (m', n) ->
  component_topology t_occ t_comp order k (tm_grid m') = component_topology t_occ t_comp order' k (tm_grid m').
Proof.
  intros W O T V OP OP' U. destruct (tm_update_labels across m W O T V) as (m2 & n2 & E & W' & S & _ & _ & L).
  rewrite U in E. injection E as <- <-. apply tview_cells in S. destruct S as (S & _).
  assert (D : same_dims (tm_grid m') (tm_grid m)) by apply S.
  match type of L with is_labelling _ ?cn _ _ => 
  assert (L' : is_labelling (in_grid (tm_grid m')) cn (label t_comp (tm_grid m')) n) end.
  { eapply is_labelling_ext; [| | |exact L]; try reflexivity. intros a. apply in_grid_dims. now apply same_dims_sym. }
  eapply (order_irrelevant t_occ t_comp k (tm_grid m')); eauto.
  - eapply same_cells_occs; eassumption.
  - eapply labelling_numbers; [exact W'| |exact L']. now rewrite (total_dims _ (tm_grid m)).
  - intros i j (H & _). apply (same_side_cells t_occ (tm_grid m') (tm_grid m)); auto.
Qed.
