(** Queries of a signed distance field: proofs for every arithmetic. *)
From Coq Require Import ZArith List Bool Lia ZifyBool Relations.
From Verif Require Import Util Grid SdfQueryModel SdfQuerySpec.
Import ListNotations.
Local Open Scope Z_scope.

Section Q.
Variable A : query_arith.
Variable s : qfield A.
Hypothesis W : gwf (s_grid A s).

Lemma stored_some {X Y} (o : option X) (f : X -> answer Y) x : o = Some x -> stored o f = f x.
Proof. now intros ->. Qed.

Lemma gget_at x y z : 0 <= x < g_nx (s_grid A s) -> 0 <= y < g_ny (s_grid A s) -> 0 <= z < g_nz (s_grid A s) ->
  exists d, gget (s_grid A s) (x, y, z) = Some d.
Proof using W. intros. apply gget_some; [exact W|]. apply in_bounds_iff. lia. Qed.

Lemma central_some hi lo f : in_bounds (s_grid A s) hi = true -> in_bounds (s_grid A s) lo = true ->
  exists c, central A s hi lo f = f c.
Proof using W.
  intros H1 H2. destruct (gget_some _ _ W H1) as (a & Ea), (gget_some _ _ W H2) as (b & Eb).
  unfold central. rewrite (stored_some _ _ a Ea), (stored_some _ _ b Eb). now eexists.
Qed.

Lemma edge_some n hi lo f : in_bounds (s_grid A s) hi = true -> in_bounds (s_grid A s) lo = true ->
  exists c, edge_axis A s n hi lo f = f c.
Proof using W.
  intros H1 H2. destruct (gget_some _ _ W H1) as (a & Ea), (gget_some _ _ W H2) as (b & Eb).
  unfold edge_axis. rewrite (stored_some _ _ a Ea), (stored_some _ _ b Eb).
  destruct (q_ltb _ _ _); now eexists.
Qed.

Lemma grid_gradient_total i edges :
  (in_bounds (s_grid A s) i = true /\ (edges = true \/ strictly_inside (s_grid A s) i) ->
     exists g, grid_gradient A s i edges = Answer g) /\
  (~ (in_bounds (s_grid A s) i = true /\ (edges = true \/ strictly_inside (s_grid A s) i)) ->
     grid_gradient A s i edges = Empty).
Proof using W.
  destruct i as [[x y] z]. unfold grid_gradient, strictly_inside. cbn [ix iy iz fst snd].
  destruct (in_bounds (s_grid A s) (x, y, z)) eqn:Eb.
  2: { split; [intros (H & _); easy|easy]. }
  pose proof Eb as Hb. rewrite in_bounds_iff in Hb.
  destruct (_ && _) eqn:Ei.
  - split; [intros _|intros H; exfalso; apply H; split; [easy|right; lia]].
    edestruct (central_some (x + 1, y, z) (x - 1, y, z)) as (gx & ->); [rewrite in_bounds_iff; lia..|].
    edestruct (central_some (x, y + 1, z) (x, y - 1, z)) as (gy & ->); [rewrite in_bounds_iff; lia..|].
    edestruct (central_some (x, y, z + 1) (x, y, z - 1)) as (gz & ->); [rewrite in_bounds_iff; lia..|].
    now eexists.
  - destruct edges.
    + split; [intros _|intros H; exfalso; apply H; auto].
      edestruct (edge_some (Z.min (g_nx (s_grid A s) - 1) (x + 1) - Z.max 0 (x - 1))
        (Z.min (g_nx (s_grid A s) - 1) (x + 1), y, z) (Z.max 0 (x - 1), y, z)) as (gx & ->); [rewrite in_bounds_iff; lia..|].
      edestruct (edge_some (Z.min (g_ny (s_grid A s) - 1) (y + 1) - Z.max 0 (y - 1))
        (x, Z.min (g_ny (s_grid A s) - 1) (y + 1), z) (x, Z.max 0 (y - 1), z)) as (gy & ->); [rewrite in_bounds_iff; lia..|].
      edestruct (edge_some (Z.min (g_nz (s_grid A s) - 1) (z + 1) - Z.max 0 (z - 1))
        (x, y, Z.min (g_nz (s_grid A s) - 1) (z + 1)) (x, y, Z.max 0 (z - 1))) as (gz & ->); [rewrite in_bounds_iff; lia..|].
      now eexists.
    + split; [intros (_ & [H|H]); [easy|lia]|easy].
Qed.

Lemma index_gradient_total i : in_bounds (s_grid A s) i = true ->
  exists g, index_gradient A s i true = Answer g.
Proof using W.
  intros H. destruct (proj1 (grid_gradient_total i true)) as (g & E); [auto|].
  unfold index_gradient. rewrite E. now eexists.
Qed.

(** ** Estimation *)

Lemma axis_indices_good i n off : 0 <= i < n -> good_pair n i (axis_indices A i n off).
Proof using.
  intros H. unfold good_pair, axis_indices.
  destruct (q_leb _ _ _), (n <=? i + 1) eqn:E1, (i - 1 <? 0) eqn:E2, (n =? 1) eqn:E3; cbn [fst snd]; lia.
Qed.

Lemma read_corrected_some cells : (forall c, In c cells -> in_bounds (s_grid A s) c = true) ->
  exists v, read_corrected A s cells = Some v.
Proof using W.
  induction cells as [|c t IH]; intros H; [now eexists|]. cbn [read_corrected].
  destruct (gget_some _ _ W (H c (or_introl eq_refl))) as (d & ->). cbn [obind].
  destruct IH as (v & ->); [intros; apply H; now right|]. now eexists.
Qed.

Lemma corner_in px py pz c : In c (corner_cells px py pz) <->
  (ix c = fst px \/ ix c = snd px) /\ (iy c = fst py \/ iy c = snd py) /\ (iz c = fst pz \/ iz c = snd pz).
Proof using.
  destruct c as [[x y] z]. unfold corner_cells, ix, iy, iz. cbn [fst snd In]. split.
  - intros H. repeat (destruct H as [H|H]; [injection H as <- <- <-; auto 10|]). easy.
  - intros ([-> | ->] & [-> | ->] & [-> | ->]); auto 10.
Qed.

Lemma pairs_good p i px py pz : in_bounds (s_grid A s) i = true ->
  interpolation_pairs A s p i = (px, py, pz) ->
  good_pair (g_nx (s_grid A s)) (ix i) px /\ good_pair (g_ny (s_grid A s)) (iy i) py /\
  good_pair (g_nz (s_grid A s)) (iz i) pz.
Proof using.
  destruct i as [[x y] z]. intros H E. rewrite in_bounds_iff in H. unfold interpolation_pairs in E.
  injection E as <- <- <-. cbn [ix iy iz fst snd]. split; [|split]; apply axis_indices_good; lia.
Qed.

Lemma corners_in_bounds i px py pz c : in_bounds (s_grid A s) i = true ->
  good_pair (g_nx (s_grid A s)) (ix i) px -> good_pair (g_ny (s_grid A s)) (iy i) py ->
  good_pair (g_nz (s_grid A s)) (iz i) pz ->
  In c (corner_cells px py pz) -> in_bounds (s_grid A s) c = true.
Proof using.
  destruct c as [[x y] z], i as [[x0 y0] z0]. rewrite corner_in, !in_bounds_iff. unfold good_pair.
  cbn [ix iy iz fst snd].
  destruct (_ =? 1), (g_ny _ =? 1), (g_nz _ =? 1); lia.
Qed.

Lemma interpolate_some p i : in_bounds (s_grid A s) i = true -> exists d, interpolate A s p i = Answer d.
Proof using W.
  intros H. unfold interpolate. destruct (interpolation_pairs A s p i) as [[px py] pz] eqn:E.
  destruct (pairs_good p i px py pz H E) as (Gx & Gy & Gz).
  destruct (read_corrected_some (corner_cells px py pz)) as (v & ->).
  { intros c Hc. eapply corners_in_bounds; eauto. }
  now eexists.
Qed.

Lemma estimate_total p :
  (in_bounds (s_grid A s) (location_index A s p) = true -> exists d, estimate A s p = Answer d) /\
  (in_bounds (s_grid A s) (location_index A s p) = false -> estimate A s p = Empty).
Proof using W.
  unfold estimate. destruct (in_bounds (s_grid A s) (location_index A s p)) eqn:E.
  - split; [intros _|easy]. now apply interpolate_some.
  - now split.
Qed.

(** ** Local extrema *)

Lemma axis_moves_step c d : axis_moves A (q_mul A (s_res A s) (q_flat A)) c d <-> d = axis_step A s c.
Proof using.
  unfold axis_moves, axis_step.
  destruct (q_ltb A _ c), (q_ltb A c _); split; intros H; auto;
    destruct H as [(H & E)|[(H & H' & E)|(H & H' & E)]]; auto; discriminate.
Qed.

Lemma is_flat_iff g : is_flat A s g = true <-> flat A s g.
Proof using. unfold is_flat, flat. cbv zeta. rewrite !andb_true_iff. tauto. Qed.
Lemma is_flat_false g : is_flat A s g = false <-> ~ flat A s g.
Proof using. rewrite <- is_flat_iff. destruct (is_flat A s g); intuition congruence. Qed.

Lemma moves_next i g d j : index_gradient A s i true = Answer g -> gget (s_grid A s) i = Some d ->
  is_flat A s g = false -> (moves A s i j <-> next_index A s i g = Some j).
Proof using.
  intros Eg Ed Ef. unfold moves, next_index. rewrite Ed. cbn [obind]. split.
  - intros (g' & d' & Eg' & Ed' & _ & Hx & Hy & Hz).
    assert (g' = g) as -> by congruence. assert (d' = d) as -> by congruence.
    rewrite axis_moves_step in Hx, Hy, Hz.
    rewrite <- Hx, <- Hy, <- Hz. destruct j as [[x y] z]. unfold ix, iy, iz. cbn [fst snd].
    match goal with |- Some ?a = Some ?b => assert (a = b) as -> by (apply f_equal2; [apply f_equal2|]; lia) end. easy.
  - intros E. exists g, d. split; [easy|]. split; [easy|]. split; [now apply is_flat_false|]. cbv zeta. rewrite !axis_moves_step.
    assert (j = (ix i + axis_step A s (qx A (if q_ltb A (q_of A d) (q_zero A)
             then qmap A (fun c => q_mul A c (q_opp A (q_one A))) g else g)),
        iy i + axis_step A s (qy A (if q_ltb A (q_of A d) (q_zero A)
             then qmap A (fun c => q_mul A c (q_opp A (q_one A))) g else g)),
        iz i + axis_step A s (qz A (if q_ltb A (q_of A d) (q_zero A)
             then qmap A (fun c => q_mul A c (q_opp A (q_one A))) g else g)))) as -> by congruence.
    cbn [ix iy iz fst snd]. lia.
Qed.

Lemma moves_inside i j : moves A s i j -> in_bounds (s_grid A s) i = true.
Proof using. intros (g & d & _ & E & _). eapply gget_in_bounds; eauto. Qed.

Lemma moves_det i j k : moves A s i j -> moves A s i k -> j = k.
Proof using.
  intros Hj Hk. pose proof Hj as (g & d & Eg & Ed & Ef & _). apply is_flat_false in Ef.
  rewrite (moves_next i g d j Eg Ed Ef) in Hj. rewrite (moves_next i g d k Eg Ed Ef) in Hk. congruence.
Qed.

Lemma rests_still i j : rests A s i -> ~ moves A s i j.
Proof using. intros (g & Eg & Ef) (g' & d & Eg' & _ & Ef' & _). apply Ef'. congruence. Qed.

(** Cell values found so far. *)
Definition settled (w : grid (extremum A)) : Prop :=
  gwf w /\ same_dims w (s_grid A s) /\
  forall i e, gget w i = Some e -> e <> Unset ->
    (rests A s i -> e = At (centre A s i)) /\
    (forall j, moves A s i j -> in_bounds (s_grid A s) j = true -> gget w j = Some e) /\
    (forall j, moves A s i j -> in_bounds (s_grid A s) j = false -> e = OffGrid) /\
    (forall c, e = At c -> exists j, in_bounds (s_grid A s) j = true /\
         reaches A s i j /\ terminal A s j /\ c = centre A s j) /\
    (e = OffGrid -> escapes A s i).

(** The explored path, newest cell first: it was never left, was not settled before
    and is not flat. *)
Inductive chain (w : grid (extremum A)) : list idx -> Prop :=
| chain_one i : gget w i = Some Unset -> ~ rests A s i -> chain w [i]
| chain_more i j l : chain w (j :: l) -> moves A s j i -> gget w i = Some Unset ->
    ~ rests A s i -> ~ In i (j :: l) -> chain w (i :: j :: l).

Lemma chain_unset w l i : chain w l -> In i l -> gget w i = Some Unset /\ ~ rests A s i.
Proof using.
  induction 1 as [k H1 H2|k j l Hc IH Hm H1 H2 H3]; intros [<- |Hi]; auto. destruct Hi.
Qed.

Lemma chain_nodup w l : chain w l -> NoDup l.
Proof using.
  induction 1 as [k H1 H2|k j l Hc IH Hm H1 H2 H3]; constructor; auto. constructor.
Qed.

Lemma chain_reaches w l i c : chain w (c :: l) -> In i (c :: l) -> reaches A s i c.
Proof using.
  intros H. remember (c :: l) as l0 eqn:E. revert c l E i.
  induction H as [k H1 H2|k j l Hc IH Hm H1 H2 H3]; intros c l0 E i Hi; injection E as <- <-.
  - destruct Hi as [<- |[]]. apply rt_refl.
  - destruct Hi as [<- |Hi]; [apply rt_refl|].
    eapply rt_trans; [apply (IH j l eq_refl i Hi)|now apply rt_step].
Qed.

(** Every cell of the path but the newest moves to a cell of the path. *)
Lemma chain_moves w l i c : chain w (c :: l) -> In i l -> exists j, In j (c :: l) /\ moves A s i j.
Proof using.
  intros H. remember (c :: l) as l0 eqn:E. revert c l E i.
  induction H as [k H1 H2|k j l Hc IH Hm H1 H2 H3]; intros c l0 E i Hi; injection E as <- <-; [destruct Hi|].
  destruct Hi as [<- |Hi].
  - exists k. split; [now left|easy].
  - destruct (IH j l eq_refl i Hi) as (m & Hm' & Hmv). exists m. split; [now right|easy].
Qed.

Lemma mark_wf (e : extremum A) l : forall w, gwf w -> gwf (fold_left (fun w j => gset w j e) l w) /\
  same_dims (fold_left (fun w j => gset w j e) l w) w.
Proof using.
  induction l as [|j l IH]; intros w Hw; cbn [fold_left]; [split; [easy|apply same_dims_refl]|].
  destruct (IH (gset w j e) (gset_wf _ _ _ Hw)) as (H1 & H2). split; [easy|].
  eapply same_dims_trans; [exact H2|apply gset_same_dims].
Qed.

Lemma mark_get (e : extremum A) l i : forall w, gwf w -> in_bounds w i = true ->
  gget (fold_left (fun w j => gset w j e) l w) i = if existsb (idx_eqb i) l then Some e else gget w i.
Proof using.
  induction l as [|j l IH]; intros w Hw Hi; cbn [fold_left existsb]; [easy|].
  rewrite IH by (auto using gset_wf; rewrite gset_in_bounds; easy).
  rewrite gget_gset by easy. destruct (existsb (idx_eqb i) l); [now rewrite orb_true_r|].
  rewrite orb_false_r. destruct (idx_eqb i j) eqn:E; [|now rewrite andb_false_r].
  apply idx_eqb_eq in E. subst. now rewrite Hi.
Qed.

Lemma existsb_in i l : existsb (idx_eqb i) l = true <-> In i l.
Proof using.
  rewrite existsb_exists. split.
  - intros (j & Hj & E). apply idx_eqb_eq in E. now subst.
  - intros H. exists i. split; [easy|apply idx_eqb_refl].
Qed.

(** Marking the path. *)
Lemma settled_mark w c l extra e :
  settled w -> chain w (c :: l) ->
  (extra = [] \/ exists x, extra = [x] /\ ~ In x (c :: l)) ->
  e <> Unset ->
  (* what the newest cell and a cell after it are *)
  (forall x, In x extra -> in_bounds (s_grid A s) x = true ->
     gget w x = Some e \/ (rests A s x /\ e = At (centre A s x) /\ gget w x = Some Unset)) ->
  (forall j, moves A s c j -> in_bounds (s_grid A s) j = true -> In j (extra ++ c :: l)) ->
  (forall j, moves A s c j -> in_bounds (s_grid A s) j = false -> e = OffGrid) ->
  (forall p, e = At p -> exists j, in_bounds (s_grid A s) j = true /\
         reaches A s c j /\ terminal A s j /\ p = centre A s j) ->
  (e = OffGrid -> escapes A s c) ->
  settled (fold_left (fun w j => gset w j e) (extra ++ c :: l) w).
Proof using.
  intros (Ww & Dw & Hw) Hc Hex Hne Hx Hmi Hmo Hat Hoff.
  destruct (mark_wf e (extra ++ c :: l) w Ww) as (W' & D'). split; [easy|].
  split; [eapply same_dims_trans; eauto|].
  assert (Hget : forall i, in_bounds (s_grid A s) i = true ->
    gget (fold_left (fun w j => gset w j e) (extra ++ c :: l) w) i =
    if existsb (idx_eqb i) (extra ++ c :: l) then Some e else gget w i).
  { intros i Hi. apply mark_get; [easy|]. now rewrite (in_bounds_dims w (s_grid A s) i Dw). }
  intros i v Ev Hv.
  assert (Hi : in_bounds (s_grid A s) i = true).
  { apply gget_in_bounds in Ev. rewrite <- (in_bounds_dims _ _ i (same_dims_trans _ _ _ D' Dw)). exact Ev. }
  rewrite (Hget i Hi) in Ev. destruct (existsb (idx_eqb i) (extra ++ c :: l)) eqn:Ein.
  - assert (v = e) as -> by congruence. rewrite existsb_in in Ein. apply in_app_or in Ein.
    destruct Ein as [Hi'|Hi'].
    + (* the extra cell *)
      assert (Hold : forall j, in_bounds (s_grid A s) j = true -> gget w j = Some e ->
        gget (fold_left (fun w j => gset w j e) (extra ++ c :: l) w) j = Some e).
      { intros j Hj Ej. rewrite (Hget j Hj), Ej. now destruct (existsb _ _). }
      destruct (Hx i Hi' Hi) as [Ei|(Hr & Ee & Eu)].
      * destruct (Hw i e Ei Hne) as (P1 & P2 & P3 & P4 & P5).
        split; [easy|]. split; [|auto]. intros j Hj Hjb. apply Hold; auto.
      * split; [easy|]. split; [intros j Hj; now apply (rests_still i j) in Hj|].
        split; [intros j Hj; now apply (rests_still i j) in Hj|].
        split; [|intros E; rewrite E in Ee; discriminate].
        intros p Ep. exists i. split; [easy|]. split; [apply rt_refl|]. split; [now left|congruence].
    + assert (Hreach : reaches A s i c) by (eapply chain_reaches; eauto).
      destruct (chain_unset w (c :: l) i Hc Hi') as (_ & Hnr).
      split; [easy|].
      assert (Hcase : i = c \/ exists j, In j (c :: l) /\ moves A s i j).
      { destruct Hi' as [<- |Hil]; [now left|]. right. eapply chain_moves; eauto. }
      split; [|split; [|split]].
      * intros j Hj Hjb. rewrite (Hget j Hjb).
        assert (Hin : In j (extra ++ c :: l)).
        { destruct Hcase as [-> |(k & Hk & Hmk)]; [now apply Hmi|].
          rewrite (moves_det i j k Hj Hmk). apply in_or_app. now right. }
        apply existsb_in in Hin. now rewrite Hin.
      * intros j Hj Hjb. destruct Hcase as [-> |(k & Hk & Hmk)]; [now apply (Hmo j)|].
        rewrite (moves_det i j k Hj Hmk) in Hjb.
        destruct (chain_unset w (c :: l) k Hc Hk) as (Hu & _). apply gget_in_bounds in Hu.
        rewrite (in_bounds_dims w (s_grid A s) k Dw) in Hu. congruence.
      * intros p Ep. destruct (Hat p Ep) as (j & H1 & H2 & H3 & H4). exists j. split; [easy|].
        split; [eapply rt_trans; eauto|]. now split.
      * intros Eo. destruct (Hoff Eo) as (j & H1 & H2). exists j. split; [eapply rt_trans; eauto|easy].
  - destruct (Hw i v Ev Hv) as (P1 & P2 & P3 & P4 & P5).
    split; [easy|]. split; [|auto]. intros j Hj Hjb. rewrite (Hget j Hjb).
    destruct (existsb (idx_eqb j) (extra ++ c :: l)) eqn:Ej; [|now apply P2].
    rewrite existsb_in in Ej. apply in_app_or in Ej. pose proof (P2 j Hj Hjb) as Ev'.
    destruct Ej as [Hj'|Hj'].
    + destruct (Hx j Hj' Hjb) as [E|(_ & _ & E)]; congruence.
    + destruct (chain_unset w (c :: l) j Hc Hj') as (Hu & _). congruence.
Qed.

Lemma chain_in_bounds w l i : same_dims w (s_grid A s) -> chain w l -> In i l -> in_bounds (s_grid A s) i = true.
Proof using.
  intros D Hc Hi. destruct (chain_unset w l i Hc Hi) as (E & _). apply gget_in_bounds in E.
  now rewrite (in_bounds_dims w (s_grid A s) i D) in E.
Qed.

Lemma chain_length w l : same_dims w (s_grid A s) -> chain w l -> zlen l <= g_total (s_grid A s).
Proof using W.
  intros D Hc. destruct W as (Hx & Hy & Hz & _).
  unfold g_total. rewrite <- all_idx_length by lia. unfold zlen. apply inj_le.
  apply NoDup_incl_length; [eapply chain_nodup; eauto|]. intros i Hi. apply in_all_idx.
  exact (chain_in_bounds w l i D Hc Hi).
Qed.

Lemma follow_result : forall fuel w c l g,
  settled w -> chain w (c :: l) -> index_gradient A s c true = Answer g -> is_flat A s g = false ->
  g_total (s_grid A s) < Z.of_nat fuel + zlen (c :: l) ->
  exists e path, follow A s fuel w (c :: l) c g = RunDone (e, path) /\
    settled (fold_left (fun w j => gset w j e) path w) /\ e <> Unset /\ incl (c :: l) path.
Proof using W.
  induction fuel as [|fuel IH]; intros w c l g Hw Hc Eg Ef Hfu.
  { pose proof (chain_length w _ (proj1 (proj2 Hw)) Hc). lia. }
  pose proof Hw as (Ww & Dw & Hset).
  assert (Hcb : in_bounds (s_grid A s) c = true) by (eapply chain_in_bounds; eauto; now left).
  destruct (gget_some _ _ W Hcb) as (d & Ed).
  cbn [follow]. destruct (next_index A s c g) as [nxt|] eqn:En.
  2: { unfold next_index in En. now rewrite Ed in En. }
  assert (Hm : moves A s c nxt) by now apply (moves_next c g d nxt Eg Ed Ef).
  destruct (existsb (idx_eqb nxt) (c :: l)) eqn:Ein.
  { apply existsb_in in Ein. exists (At (centre A s nxt)), (c :: l). split; [easy|].
    split; [|split; [easy|apply incl_refl]].
    apply (settled_mark w c l [] (At (centre A s nxt))); auto; try easy.
    - intros j Hj _. now rewrite (moves_det c j nxt Hj Hm).
    - intros j Hj Hjb. rewrite (moves_det c j nxt Hj Hm) in Hjb.
      pose proof (chain_in_bounds w _ nxt Dw Hc Ein). congruence.
    - intros p Ep. exists nxt. split; [eapply chain_in_bounds; eauto|]. split; [now apply rt_step|].
      split; [|congruence]. right. destruct Ein as [<- |Hl].
      + exists c. split; [easy|apply rt_refl].
      + destruct (chain_moves w l nxt c Hc Hl) as (k & Hk & Hmk). exists k. split; [easy|].
        eapply rt_trans; [eapply chain_reaches; eauto|now apply rt_step]. }
  assert (Hnin : ~ In nxt (c :: l)) by (intros H; apply existsb_in in H; congruence).
  destruct (in_bounds (s_grid A s) nxt) eqn:Enb; cbn [negb].
  2: { exists OffGrid, (nxt :: c :: l). split; [easy|]. split; [|split; [easy|now apply incl_tl, incl_refl]].
    apply (settled_mark w c l [nxt] OffGrid); auto; try easy.
    - right. now exists nxt.
    - intros x [<- |[]] Hb. congruence.
    - intros j Hj Hjb. rewrite (moves_det c j nxt Hj Hm) in Hjb. congruence.
    - intros _. exists nxt. split; [now apply rt_step|easy]. }
  assert (Hnw : in_bounds w nxt = true) by now rewrite (in_bounds_dims w (s_grid A s) nxt Dw).
  destruct (gget_some w nxt Ww Hnw) as (e & Ee). rewrite Ee.
  assert (Hstored : e <> Unset -> settled (fold_left (fun w j => gset w j e) (nxt :: c :: l) w)).
  { intros Hne. destruct (Hset nxt e Ee Hne) as (P1 & P2 & P3 & P4 & P5).
    apply (settled_mark w c l [nxt] e); auto; try easy.
    - right. now exists nxt.
    - intros x [<- |[]] Hb. now left.
    - intros j Hj Hjb. rewrite (moves_det c j nxt Hj Hm). now left.
    - intros j Hj Hjb. rewrite (moves_det c j nxt Hj Hm) in Hjb. congruence.
    - intros p Ep. destruct (P4 p Ep) as (j & H1 & H2 & H3 & H4). exists j. split; [easy|].
      split; [eapply rt_trans; [apply rt_step; exact Hm|exact H2]|]. now split.
    - intros Eo. destruct (P5 Eo) as (j & H1 & H2). exists j.
      split; [eapply rt_trans; [apply rt_step; exact Hm|exact H1]|easy]. }
  destruct e as [|p|].
  - destruct (index_gradient_total nxt Enb) as (g' & Eg'). rewrite Eg'.
    destruct (is_flat A s g') eqn:Ef'.
    + assert (Hr : rests A s nxt) by (exists g'; split; [exact Eg'|now apply is_flat_iff]).
      exists (At (centre A s nxt)), (nxt :: c :: l). split; [easy|].
      split; [|split; [easy|now apply incl_tl, incl_refl]].
      apply (settled_mark w c l [nxt] (At (centre A s nxt))); auto; try easy.
      * right. now exists nxt.
      * intros x [<- |[]] Hb. now right.
      * intros j Hj Hjb. rewrite (moves_det c j nxt Hj Hm). now left.
      * intros j Hj Hjb. rewrite (moves_det c j nxt Hj Hm) in Hjb. congruence.
      * intros p Ep. exists nxt. split; [easy|]. split; [now apply rt_step|]. split; [now left|congruence].
    + destruct (IH w nxt (c :: l) g' Hw) as (e & path & H1 & H2 & H3 & H4); auto.
      * constructor; auto. intros (g2 & E2 & F2). apply is_flat_iff in F2. congruence.
      * unfold zlen in *. cbn [length] in *. lia.
      * exists e, path. split; [easy|]. split; [easy|]. split; [easy|].
        intros j Hj. apply H4. now right.
  - exists (At p), (nxt :: c :: l). split; [easy|]. split; [now apply Hstored|]. split; [easy|now apply incl_tl, incl_refl].
  - exists OffGrid, (nxt :: c :: l). split; [easy|]. split; [now apply Hstored|]. split; [easy|now apply incl_tl, incl_refl].
Qed.

Definition is_set (w : grid (extremum A)) (i : idx) : Prop := exists e, gget w i = Some e /\ e <> Unset.

Lemma mark_set e l w i : gwf w -> in_bounds w i = true -> e <> Unset ->
  (is_set w i \/ In i l -> is_set (fold_left (fun w j => gset w j e) l w) i).
Proof using.
  intros Hw Hi He H. unfold is_set. rewrite mark_get by easy.
  destruct (existsb (idx_eqb i) l) eqn:E; [now exists e|].
  destruct H as [H|H]; [easy|]. apply existsb_in in H. congruence.
Qed.

Lemma follow_from_result fuel w i : settled w -> in_bounds (s_grid A s) i = true ->
  g_total (s_grid A s) <= Z.of_nat fuel ->
  exists w', follow_from A s fuel w i = RunDone w' /\ settled w' /\ is_set w' i /\
    forall j, is_set w j -> is_set w' j.
Proof using W.
  intros Hw Hi Hfu. pose proof Hw as (Ww & Dw & Hset).
  assert (Hiw : in_bounds w i = true) by now rewrite (in_bounds_dims w (s_grid A s) i Dw).
  unfold follow_from. destruct (gget_some w i Ww Hiw) as (e & Ee). rewrite Ee.
  assert (Hdone : e <> Unset -> exists w', RunDone w = RunDone w' /\ settled w' /\ is_set w' i /\
    forall j, is_set w j -> is_set w' j).
  { intros He. exists w. split; [easy|]. split; [easy|]. split; [now exists e|easy]. }
  destruct e as [|p|]; [|now apply Hdone|now apply Hdone].
  destruct (index_gradient_total i Hi) as (g & Eg). rewrite Eg.
  assert (Hmono : forall e l j, e <> Unset -> is_set w j -> is_set (fold_left (fun w j => gset w j e) l w) j).
  { intros e l j He Hj. apply mark_set; auto. destruct Hj as (v & Ev & _). now apply gget_in_bounds in Ev. }
  destruct (is_flat A s g) eqn:Ef.
  - assert (Hr : rests A s i) by (exists g; split; [exact Eg|now apply is_flat_iff]). eexists. split; [reflexivity|].
    change (gset w i (At (centre A s i))) with (fold_left (fun w j => gset w j (At (centre A s i))) [i] w).
    split; [|split; [apply mark_set; auto; [easy|right; now left]|intros j Hj; now apply Hmono]].
    destruct (mark_wf (At (centre A s i)) [i] w Ww) as (W' & D'). split; [easy|].
    split; [eapply same_dims_trans; eauto|]. intros j v Ev Hv.
    assert (Hj : in_bounds (s_grid A s) j = true).
    { apply gget_in_bounds in Ev. rewrite <- (in_bounds_dims _ _ j (same_dims_trans _ _ _ D' Dw)). exact Ev. }
    assert (Hget : forall j, in_bounds (s_grid A s) j = true ->
      gget (fold_left (fun w j => gset w j (At (centre A s i))) [i] w) j =
      if existsb (idx_eqb j) [i] then Some (At (centre A s i)) else gget w j).
    { intros k Hk. apply mark_get; [easy|]. now rewrite (in_bounds_dims w (s_grid A s) k Dw). }
    rewrite (Hget j Hj) in Ev. destruct (existsb (idx_eqb j) [i]) eqn:Ein.
    + apply existsb_in in Ein. destruct Ein as [<- |[]].
      assert (v = At (centre A s i)) as -> by congruence. split; [easy|].
      split; [intros k Hk; now apply (rests_still i k) in Hk|].
      split; [intros k Hk; now apply (rests_still i k) in Hk|]. split; [|easy].
      intros p Ep. exists i. split; [easy|]. split; [apply rt_refl|]. split; [now left|congruence].
    + destruct (Hset j v Ev Hv) as (P1 & P2 & P3 & P4 & P5). split; [easy|]. split; [|auto].
      intros k Hk Hkb. rewrite (Hget k Hkb). pose proof (P2 k Hk Hkb) as Ek.
      destruct (existsb (idx_eqb k) [i]) eqn:Ek'; [|easy].
      apply existsb_in in Ek'. destruct Ek' as [<- |[]]. congruence.
  - destruct (follow_result fuel w i [] g Hw) as (e & path & H1 & H2 & H3 & H4); auto.
    { constructor; [easy|]. intros (g2 & E2 & F2). apply is_flat_iff in F2. congruence. }
    { unfold zlen. cbn [length]. lia. }
    rewrite H1. eexists. split; [reflexivity|]. split; [easy|]. split; [|intros j Hj; now apply Hmono].
    apply mark_set; auto. right. apply H4. now left.
Qed.

Lemma follow_all_result fuel : forall is w, settled w ->
  (forall i, In i is -> in_bounds (s_grid A s) i = true) -> g_total (s_grid A s) <= Z.of_nat fuel ->
  exists w', follow_all A s fuel w is = RunDone w' /\ settled w' /\
    (forall i, In i is -> is_set w' i) /\ forall j, is_set w j -> is_set w' j.
Proof using W.
  induction is as [|i is IH]; intros w Hw Hb Hfu; cbn [follow_all].
  { exists w. split; [easy|]. split; [easy|]. split; [easy|easy]. }
  destruct (follow_from_result fuel w i Hw (Hb i (or_introl eq_refl)) Hfu) as (w1 & E1 & S1 & I1 & M1).
  rewrite E1. destruct (IH w1 S1 (fun j Hj => Hb j (or_intror Hj)) Hfu) as (w2 & E2 & S2 & I2 & M2).
  exists w2. split; [easy|]. split; [easy|]. split; [|auto]. intros j [<- |Hj]; auto.
Qed.

Lemma escapes_move i : escapes A s i -> in_bounds (s_grid A s) i = true -> exists j, moves A s i j /\
  (in_bounds (s_grid A s) j = false \/ escapes A s j).
Proof using.
  intros (k & Hr & Hk) Hi. apply clos_rt_rt1n in Hr. destruct Hr as [|j k Hj Hr]; [congruence|].
  exists j. split; [easy|]. right. exists k. split; [now apply clos_rt1n_rt|easy].
Qed.

Lemma settled_escapes w : settled w -> (forall i, in_bounds (s_grid A s) i = true -> is_set w i) ->
  forall i k, clos_refl_trans_1n _ (moves A s) i k -> in_bounds (s_grid A s) k = false ->
  in_bounds (s_grid A s) i = true -> gget w i = Some OffGrid.
Proof using.
  intros (Ww & Dw & Hset) Hall i k H. induction H as [i|i j k Hm Hr IH]; intros Hk Hi; [congruence|].
  destruct (Hall i Hi) as (e & Ee & He). destruct (Hset i e Ee He) as (P1 & P2 & P3 & _).
  destruct (in_bounds (s_grid A s) j) eqn:Ej.
  - pose proof (IH Hk eq_refl). pose proof (P2 j Hm Ej). congruence.
  - rewrite (P3 j Hm Ej) in Ee. exact Ee.
Qed.

Lemma local_extrema_result fuel : g_total (s_grid A s) <= Z.of_nat fuel ->
  exists w, local_extrema A s fuel = RunDone w /\ extrema_of A s w.
Proof using W.
  intros Hfu. destruct W as (Hx & Hy & Hz & _).
  assert (H0 : settled (gconst (g_nx (s_grid A s)) (g_ny (s_grid A s)) (g_nz (s_grid A s)) Unset)).
  { split; [now apply gconst_wf|]. split; [easy|]. intros i e E He. rewrite gget_gconst in E.
    destruct (in_bounds3 _ _ _ i); congruence. }
  destruct (follow_all_result fuel (all_idx (g_nx (s_grid A s)) (g_ny (s_grid A s)) (g_nz (s_grid A s))) _ H0)
    as (w & E & Hs & Hall & _); auto.
  { intros i Hi. apply in_all_idx in Hi. exact Hi. }
  exists w. split; [exact E|]. pose proof Hs as (Ww & Dw & Hset). split; [easy|]. split; [easy|].
  assert (Hall' : forall i, in_bounds (s_grid A s) i = true -> is_set w i).
  { intros i Hi. apply Hall. now apply in_all_idx. }
  intros i Hi. destruct (Hall' i Hi) as (e & Ee & He). exists e. split; [easy|]. split; [easy|].
  destruct (Hset i e Ee He) as (P1 & P2 & P3 & P4 & P5). split; [|split; [easy|split; easy]].
  split; [easy|]. intros (k & Hr & Hk). apply clos_rt_rt1n in Hr.
  pose proof (settled_escapes w Hs Hall' i k Hr Hk Hi). congruence.
Qed.
End Q.
