(** Classes of finite graphs, and the inequality between the numbers of vertices, edges
    and faces of a closed surface. *)
From Coq Require Import ZArith List Lia Bool.
From Verif Require Import Util PlaneProofs.
Import ListNotations.
Local Open Scope Z_scope.

(** ** Classes of a graph given by a list of edges *)

Section Classes.
Context {A I : Type} (eq_dec : forall a b : A, {a = b} + {a <> b}) (ends : I -> A * A).

Definition same (a b : A) : bool := if eq_dec a b then true else false.
Lemma same_iff a b : same a b = true <-> a = b.
Proof using. unfold same. destruct (eq_dec a b); split; congruence. Qed.
Lemma same_neq a b : same a b = false <-> a <> b.
Proof using. unfold same. destruct (eq_dec a b); split; congruence. Qed.

(** A representative of the class. *)
Fixpoint rep (es : list I) (v : A) : A :=
  match es with
  | [] => v
  | e :: t => if same (rep t v) (rep t (snd (ends e))) then rep t (fst (ends e)) else rep t v
  end.

Inductive linked (es : list I) (u : A) : A -> Prop :=
| linked_here : linked es u u
| linked_step w e : linked es u w -> In e es -> w = fst (ends e) -> linked es u (snd (ends e))
| linked_back w e : linked es u w -> In e es -> w = snd (ends e) -> linked es u (fst (ends e)).

Lemma linked_trans es u v w : linked es u v -> linked es v w -> linked es u w.
Proof using. intros H1 H2. induction H2 as [|w e H IH E W|w e H IH E W]; [exact H1|..]; econstructor; eauto. Qed.
Lemma linked_edge es e : In e es -> linked es (fst (ends e)) (snd (ends e)).
Proof using. intros H. eapply linked_step; [apply linked_here|exact H|reflexivity]. Qed.
Lemma linked_edge_back es e : In e es -> linked es (snd (ends e)) (fst (ends e)).
Proof using. intros H. eapply linked_back; [apply linked_here|exact H|reflexivity]. Qed.
Lemma linked_sym es u v : linked es u v -> linked es v u.
Proof using.
  induction 1 as [|w e H IH E W|w e H IH E W]; [constructor|..]; subst w;
    (eapply linked_trans; [|exact IH]); [now apply linked_edge_back|now apply linked_edge].
Qed.
Lemma linked_mono es es' u v : incl es es' -> linked es u v -> linked es' u v.
Proof using. intros M. induction 1; [constructor|eapply linked_step|eapply linked_back]; eauto. Qed.

Lemma rep_linked es v : linked es v (rep es v).
Proof using.
  induction es as [|e t IH] in v |- *; cbn [rep]; [constructor|].
  assert (M : forall a b, linked t a b -> linked (e :: t) a b) by (intros a b; apply linked_mono; intros x X; now right).
  destruct (same (rep t v) (rep t (snd (ends e)))) eqn:S; [|auto]. apply same_iff in S.
  apply (linked_trans _ v (rep t v)); [auto|]. rewrite S.
  apply (linked_trans _ _ (snd (ends e))); [apply linked_sym; auto|].
  apply (linked_trans _ _ (fst (ends e))); [apply linked_edge_back; now left|auto].
Qed.

Lemma rep_edge es e : In e es -> rep es (fst (ends e)) = rep es (snd (ends e)).
Proof using.
  induction es as [|f t IH]; [easy|]. cbn [In rep]. intros [->|H].
  - replace (same (rep t (snd (ends e))) (rep t (snd (ends e)))) with true by (symmetry; now apply same_iff).
    destruct (same _ _); reflexivity.
  - now rewrite (IH H).
Qed.

Lemma linked_rep es u v : linked es u v <-> rep es u = rep es v.
Proof using.
  split.
  - induction 1 as [|w e H IH E W|w e H IH E W]; [reflexivity|..]; subst w; rewrite IH; [|symmetry]; now apply rep_edge.
  - intros E. apply (linked_trans _ u (rep es u)); [apply rep_linked|]. rewrite E. apply linked_sym, rep_linked.
Qed.

Lemma rep_rep es v : rep es (rep es v) = rep es v.
Proof using. symmetry. apply linked_rep, rep_linked. Qed.

(** Edges that join two classes of the edges behind them, and the others. *)
Definition joins (e : I) (t : list I) : bool := negb (same (rep t (fst (ends e))) (rep t (snd (ends e)))).
Fixpoint forest (es : list I) : list I :=
  match es with [] => [] | e :: t => if joins e t then e :: forest t else forest t end.
Fixpoint others (es : list I) : list I :=
  match es with [] => [] | e :: t => if joins e t then others t else e :: others t end.

Lemma forest_others es : zlen es = zlen (forest es) + zlen (others es).
Proof using.
  induction es as [|e t IH]; [reflexivity|]. cbn [forest others]. unfold zlen in *.
  destruct (joins e t); cbn [length]; lia.
Qed.
Lemma others_in es e : In e (others es) -> In e es.
Proof using.
  induction es as [|f t IH]; [easy|]. cbn [others]. destruct (joins f t); cbn [In]; intuition.
Qed.

Definition roots (es : list I) (V : list A) : list A := filter (fun v => same (rep es v) v) V.

Variable V : list A.
Hypothesis ND : NoDup V.

Definition within (es : list I) : Prop := forall e, In e es -> In (fst (ends e)) V /\ In (snd (ends e)) V.

Lemma rep_in es v : within es -> In v V -> In (rep es v) V.
Proof using.
  intros W. induction es as [|e t IH] in v, W |- *; cbn [rep]; [easy|]. intros H.
  assert (Wt : within t) by (intros f F; apply W; now right).
  destruct (same _ _); [|auto]. apply IH; [exact Wt|]. apply W. now left.
Qed.

Lemma roots_forest es : within es -> zlen (roots es V) + zlen (forest es) = zlen V.
Proof using ND.
  induction es as [|e t IH]; intros W; cbn [forest].
  - replace (roots [] V) with V; [unfold zlen; cbn [length]; lia|].
    unfold roots. cbn [rep]. clear ND W. induction V as [|a l IH]; [easy|]. cbn [filter].
    replace (same a a) with true by (symmetry; now apply same_iff). now rewrite <- IH.
  - assert (Wt : within t) by (intros f F; apply W; now right). specialize (IH Wt).
    destruct (W e (or_introl eq_refl)) as (E1 & E2).
    destruct (joins e t) eqn:J; unfold joins in J.
    + apply negb_true_iff, same_neq in J. set (a := fst (ends e)) in *. set (b := snd (ends e)) in *.
      assert (R : zlen (roots t V) = zlen (roots (e :: t) V) + 1).
      { unfold roots. rewrite !zlen_filter.
        rewrite (zsum_ext (fun v => Z.b2z (same (rep t v) v))
          (fun v => Z.b2z (same (rep (e :: t) v) v) + Z.b2z (same v (rep t b)))).
        - rewrite zsum_add. f_equal.
          rewrite (zsum_single _ V (rep t b) ND (rep_in t b Wt E2)).
          + replace (same (rep t b) (rep t b)) with true by (symmetry; now apply same_iff). reflexivity.
          + intros c _ N. apply same_neq in N. now rewrite N.
        - intros v Hv. cbn [rep]. fold a b. destruct (same (rep t v) (rep t b)) eqn:S.
          + apply same_iff in S. destruct (same v (rep t b)) eqn:S2.
            * apply same_iff in S2. rewrite S, <- S2.
              replace (same v v) with true by (symmetry; now apply same_iff).
              replace (same (rep t a) v) with false; [reflexivity|]. symmetry. apply same_neq. congruence.
            * rewrite S. apply same_neq in S2. replace (same (rep t b) v) with false by (symmetry; apply same_neq; congruence).
              replace (same (rep t a) v) with false; [reflexivity|]. symmetry. apply same_neq. intros H.
              apply J. rewrite <- S, <- H. symmetry. apply rep_rep.
          + apply same_neq in S. replace (same v (rep t b)) with false; [lia|].
            symmetry. apply same_neq. intros H. apply S. rewrite H. apply rep_rep. }
      unfold zlen in *. cbn [length]. lia.
    + apply negb_false_iff, same_iff in J.
      replace (roots (e :: t) V) with (roots t V); [exact IH|]. unfold roots. apply filter_ext. intros v. cbn [rep].
      rewrite J. destruct (same (rep t v) (rep t (snd (ends e)))) eqn:S; [|reflexivity]. apply same_iff in S. now rewrite S.
Qed.
End Classes.

Lemma forest_le {A I} eq_dec (ends : I -> A * A) es : zlen (forest eq_dec ends es) <= zlen es.
Proof. rewrite (forest_others eq_dec ends es). unfold zlen. lia. Qed.

(** ** Closed surfaces *)

Section Surface.
Context {A B I : Type} (eqA : forall a b : A, {a = b} + {a <> b}) (eqB : forall a b : B, {a = b} + {a <> b}).
Variables (ends : I -> A * A) (sides : I -> B * B) (V : list A) (F : list B) (es : list I).
Hypothesis NDV : NoDup V.
Hypothesis NDF : NoDup F.
Hypothesis WV : within ends V es.
Hypothesis WF : within sides F es.

(** Every set of faces has an even number of edges to other faces at every vertex. *)
Hypothesis even_boundary : forall (c : B -> bool) v, In v V ->
  Z.even (zsum (fun e => Z.b2z (xorb (c (fst (sides e))) (c (snd (sides e)))) *
                         (Z.b2z (same eqA (fst (ends e)) v) + Z.b2z (same eqA (snd (ends e)) v))) es) = true.

Lemma zsum_even {X} (f : X -> Z) l : (forall x, In x l -> Z.even (f x) = true) -> Z.even (zsum f l) = true.
Proof using.
  induction l as [|x l IH]; intros H; [reflexivity|]. cbn [zsum]. rewrite Z.even_add, H by now left.
  rewrite IH; [reflexivity|]. intros y Y. apply H. now right.
Qed.

Lemma zsum_at (f : A -> Z) v : In v V -> zsum (fun u => f u * Z.b2z (same eqA v u)) V = f v.
Proof using NDV.
  intros H. rewrite (zsum_single _ V v NDV H).
  - replace (same eqA v v) with true by (symmetry; now apply same_iff). cbn [Z.b2z]. lia.
  - intros b _ N. replace (same eqA v b) with false by (symmetry; apply same_neq; congruence). cbn [Z.b2z]. lia.
Qed.

Lemma first_in (D : I -> bool) l : existsb D l = true ->
  exists l1 e l2, l = l1 ++ e :: l2 /\ D e = true /\ forall x, In x l1 -> D x = false.
Proof using.
  induction l as [|x l IH]; [discriminate|]. cbn [existsb]. destruct (D x) eqn:E.
  - intros _. exists [], x, l. repeat split; [exact E|]. intros y [].
  - cbn [orb]. intros H. destruct (IH H) as (l1 & e & l2 & -> & H1 & H2).
    exists (x :: l1), e, l2. repeat split; [exact H1|]. intros y [<-|Y]; auto.
Qed.

Lemma others_split l1 e l2 : In e (others eqA ends (l1 ++ e :: l2)) \/ joins eqA ends e l2 = true.
Proof using.
  destruct (joins eqA ends e l2) eqn:J; [now right|left]. induction l1 as [|f l1 IH]; cbn [app others].
  - rewrite J. now left.
  - destruct (joins eqA ends f _); [exact IH|now right].
Qed.

(** Faces on both sides of an edge are joined across edges outside of the forest. *)
Lemma sides_others e : In e es -> linked sides (others eqA ends es) (fst (sides e)) (snd (sides e)).
Proof using eqB NDV WV even_boundary.
  intros He. apply (linked_rep eqB). set (N := others eqA ends es).
  destruct (eqB (rep eqB sides N (fst (sides e))) (rep eqB sides N (snd (sides e)))) as [H|H]; [exact H|exfalso].
  set (c := fun f => same eqB (rep eqB sides N f) (rep eqB sides N (fst (sides e)))).
  set (D := fun x => xorb (c (fst (sides x))) (c (snd (sides x)))).
  assert (De : D e = true).
  { unfold D, c. replace (same eqB (rep eqB sides N (fst (sides e))) (rep eqB sides N (fst (sides e)))) with true
      by (symmetry; now apply same_iff).
    replace (same eqB (rep eqB sides N (snd (sides e))) (rep eqB sides N (fst (sides e)))) with false; [reflexivity|].
    symmetry. apply same_neq. congruence. }
  assert (DN : forall x, In x N -> D x = false).
  { intros x X. unfold D, c. rewrite (rep_edge eqB sides N x X). apply xorb_nilpotent. }
  destruct (first_in D es) as (l1 & e0 & l2 & E & D0 & D1); [apply existsb_exists; now exists e|].
  destruct (others_split l1 e0 l2) as [J|J].
  { rewrite <- E in J. fold N in J. rewrite (DN e0 J) in D0. discriminate D0. }
  unfold joins in J. apply negb_true_iff, same_neq in J.
  set (X := fun v => same eqA (rep eqA ends l2 v) (rep eqA ends l2 (fst (ends e0)))).
  assert (X1 : X (fst (ends e0)) = true) by (unfold X; now apply same_iff).
  assert (X2 : X (snd (ends e0)) = false) by (unfold X; apply same_neq; congruence).
  assert (X3 : forall x, In x l2 -> X (fst (ends x)) = X (snd (ends x))).
  { intros x Hx. unfold X. now rewrite (rep_edge eqA ends l2 x Hx). }
  (* the edges of D at the vertices of X, counted in two ways *)
  set (S := zsum (fun v => Z.b2z (X v) * zsum (fun x => Z.b2z (D x) *
              (Z.b2z (same eqA (fst (ends x)) v) + Z.b2z (same eqA (snd (ends x)) v))) es) V).
  assert (S1 : Z.even S = true).
  { apply zsum_even. intros v Hv. rewrite Z.even_mul. pose proof (even_boundary c v Hv) as EB.
    unfold D. rewrite EB. apply orb_true_r. }
  assert (S2 : S = zsum (fun x => Z.b2z (D x) * (Z.b2z (X (fst (ends x))) + Z.b2z (X (snd (ends x))))) es).
  { unfold S. erewrite zsum_ext; [|intros v _; symmetry; apply zsum_mul]. rewrite zsum_swap. apply zsum_ext.
    intros x Hx. destruct (WV x Hx) as (W1 & W2).
    rewrite (zsum_ext _ (fun v => Z.b2z (D x) * (Z.b2z (X v) * Z.b2z (same eqA (fst (ends x)) v)) +
       Z.b2z (D x) * (Z.b2z (X v) * Z.b2z (same eqA (snd (ends x)) v)))) by (intros; lia).
    rewrite zsum_add, !zsum_mul.
    rewrite (zsum_at (fun v => Z.b2z (X v)) _ W1), (zsum_at (fun v => Z.b2z (X v)) _ W2). lia. }
  assert (S3 : Z.even S = false); [|congruence].
  rewrite S2, E, zsum_app. cbn [zsum]. rewrite D0, X1, X2.
  rewrite (zsum_zero _ l1) by (intros x Hx; rewrite (D1 x Hx); reflexivity).
  rewrite !Z.even_add. rewrite (zsum_even _ l2); [reflexivity|].
  intros x Hx. rewrite (X3 x Hx). rewrite Z.even_mul, Z.even_add.
  destruct (Z.even (Z.b2z (X (snd (ends x))))); apply orb_true_r.
Qed.

Lemma linked_others f g : linked sides es f g -> linked sides (others eqA ends es) f g.
Proof using eqB NDV WV even_boundary.
  induction 1 as [|w e H IH E W|w e H IH E W]; [constructor|..]; subst w; eapply linked_trans; try exact IH;
    [|apply linked_sym]; now apply sides_others.
Qed.

(** A vertex of each face; faces at linked vertices are linked. *)
Variable corner : B -> A.
Hypothesis corner_in : forall f, In f F -> In (corner f) V.
Hypothesis one_sheet : forall f g, In f F -> In g F -> linked ends es (corner f) (corner g) -> linked sides es f g.

Lemma euler_le : zlen V - zlen es + zlen F <= 2 * zlen (roots eqA ends es V).
Proof using eqB NDV NDF WV WF even_boundary corner_in one_sheet.
  set (N := others eqA ends es).
  pose proof (roots_forest eqA ends V NDV es WV) as H1.
  pose proof (forest_others eqA ends es) as H2. fold N in H2.
  assert (WN : within sides F N) by (intros e He; apply WF; now apply (others_in eqA ends)).
  pose proof (roots_forest eqB sides F NDF N WN) as H3.
  pose proof (forest_le eqB sides N) as H4.
  assert (H5 : zlen (roots eqB sides N F) <= zlen (roots eqA ends es V)); [|lia].
  unfold zlen. apply inj_le.
  rewrite <- (map_length (fun f => rep eqA ends es (corner f)) (roots eqB sides N F)).
  apply NoDup_incl_length.
  - assert (NR : NoDup (roots eqB sides N F)) by now apply NoDup_filter.
    assert (K : forall f g, In f (roots eqB sides N F) -> In g (roots eqB sides N F) ->
      rep eqA ends es (corner f) = rep eqA ends es (corner g) -> f = g).
    { intros f g Hf Hg R. apply filter_In in Hf, Hg. destruct Hf as (Ff & Rf), Hg as (Fg & Rg).
      apply same_iff in Rf, Rg. rewrite <- Rf, <- Rg. apply linked_rep, linked_others.
      apply one_sheet; [exact Ff|exact Fg|]. now apply (linked_rep eqA). }
    revert NR K. generalize (roots eqB sides N F). intros l NR K. induction l as [|f l IH]; [constructor|].
    apply NoDup_cons_iff in NR. destruct NR as (Nf & NR). cbn [map]. constructor.
    + rewrite in_map_iff. intros (g & G1 & G2). apply Nf.
      rewrite (K f g); [exact G2|now left|now right|now symmetry].
    + apply IH; [exact NR|]. intros g h G H. apply K; now right.
  - intros v. rewrite in_map_iff. intros (f & <- & Hf). apply filter_In in Hf. destruct Hf as (Ff & _).
    apply filter_In. split; [apply rep_in; [exact WV|now apply corner_in]|]. apply same_iff, rep_rep.
Qed.
End Surface.
