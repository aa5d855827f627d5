(** The three passes compute nearest squared distances, for any arithmetic meeting
    [arith_ok], and do so under every schedule. *)
From Coq Require Import ZArith List Lia Bool ZifyBool.
From Verif Require Import Util Grid Prog Schedule EdtModel EdtSpec EdtLineProofs.
Import ListNotations.
Local Open Scope Z_scope.
Local Open Scope prog_scope.

Definition dmin (a b : dist) : dist := if dltb b a then b else a.

Definition envelope (n : Z) (F : Z -> dist) (q : Z) : dist :=
  fold_right (fun p m => dmin (cost (F p) p q) m) None (zrange 0 n).

Lemma dmin_l a b : dle (dmin a b) a.
Proof. unfold dmin. destruct (dltb b a) eqn:E; [now apply dltb_true|apply dle_refl]. Qed.
Lemma dmin_r a b : dle (dmin a b) b.
Proof. unfold dmin. destruct (dltb b a) eqn:E; [apply dle_refl|now apply dltb_false]. Qed.
Lemma dmin_cases a b : dmin a b = a \/ dmin a b = b.
Proof. unfold dmin. destruct (dltb b a); auto. Qed.

Lemma envelope_ok n F q : 0 < n -> is_min_parabola n F q (envelope n F q).
Proof.
  intros Hn.
  assert (G : forall l m, m = fold_right (fun p m => dmin (cost (F p) p q) m) None l ->
    (forall p, In p l -> dle m (cost (F p) p q)) /\
    (m = None \/ exists p, In p l /\ m = cost (F p) p q)).
  { induction l as [|a l IH]; intros m ->; cbn.
    - split; [easy|now left].
    - destruct (IH _ eq_refl) as [H1 H2]. split.
      + intros p [<-|Hp]; [apply dmin_l|]. eapply dle_trans; [apply dmin_r|now apply H1].
      + destruct (dmin_cases (cost (F a) a q)
          (fold_right (fun p m => dmin (cost (F p) p q) m) None l)) as [->| ->].
        * right. exists a. now split; [left|].
        * destruct H2 as [H2|[p [Hp H2]]]; [now left|]. right. exists p. now split; [right|]. }
  destruct (G (zrange 0 n) _ eq_refl) as [H1 H2]. fold (envelope n F q) in H1, H2.
  split.
  - intros p Hp. apply H1. now apply in_zrange.
  - destruct H2 as [H2|[p [Hp H2]]].
    + exists 0. split; [lia|]. specialize (H1 0). rewrite in_zrange in H1.
      specialize (H1 ltac:(lia)). rewrite H2 in *. unfold cost in H1. destruct (F 0); cbn in *; easy.
    + exists p. rewrite in_zrange in Hp. easy.
Qed.

Lemma envelope_unique n F q m : 0 < n -> is_min_parabola n F q m -> m = envelope n F q.
Proof. intros Hn H. eapply is_min_parabola_unique; [exact H|now apply envelope_ok]. Qed.

Lemma envelope_one F : envelope 1 F 0 = F 0.
Proof.
  symmetry. apply envelope_unique; [lia|]. split.
  - intros p Hp. replace p with 0 by lia. destruct (F 0); cbn; lia.
  - exists 0. split; [lia|]. destruct (F 0); cbn; [f_equal; lia|easy].
Qed.

Lemma envelope_ext n F F' q : (forall p, 0 <= p < n -> F p = F' p) -> envelope n F q = envelope n F' q.
Proof.
  intros H. unfold envelope.
  assert (G : forall l, (forall p, In p l -> F p = F' p) ->
    fold_right (fun p m => dmin (cost (F p) p q) m) None l =
    fold_right (fun p m => dmin (cost (F' p) p q) m) None l).
  { induction l as [|a l IH]; intros HL; cbn; [easy|].
    rewrite IH by (intros; apply HL; now right). now rewrite (HL a) by now left. }
  apply G. intros p Hp. apply H. now apply in_zrange in Hp.
Qed.

Lemma envelope_bounded n N F q B :
  0 < n <= N -> 0 <= q < n -> (forall p, 0 <= p < n -> bounded B (F p)) ->
  bounded (B + N * N) (envelope n F q).
Proof.
  intros Hn Hq HB. destruct (envelope_ok n F q) as [_ [p [Hp ->]]]; [lia|].
  specialize (HB p Hp). destruct (F p) as [f|]; cbn in *; [|easy].
  pose proof (Z.square_nonneg (q - p)).
  assert (0 <= (N - (q - p)) * (N + (q - p))) by (apply Z.mul_nonneg_nonneg; lia). lia.
Qed.

(** ** Footprint of a line *)

Section Touch.
Variables (A : arith) (n : Z) (ixr : Z -> idx) (F : idx -> bool).
Hypothesis HF : forall q, F (ixr q) = true.

Lemma touches_write_back d : touches F (write_back (A := A) n ixr d).
Proof.
  unfold write_back. apply touches_pfold. intros a q _. apply touches_bind; [apply touches_lift|].
  intros v. now apply touches_write.
Qed.

Lemma touches_compute_s v q k : touches F (compute_s (A := A) ixr v q k).
Proof.
  unfold compute_s. apply touches_bind; [apply touches_lift|]. intros vk.
  apply touches_bind; [now apply touches_read|]. intros fq.
  apply touches_bind; [now apply touches_read|]. easy.
Qed.

Lemma touches_pop_while fuel v z q k s : touches F (pop_while (A := A) fuel ixr v z q k s).
Proof.
  revert k s. induction fuel as [|fuel IH]; intros k s; cbn [pop_while];
    (destruct (0 <? k); [|easy]); (apply touches_bind; [apply touches_lift|]); intros zk;
    (destruct (a_leb A s zk); [|easy]); [easy|].
  apply touches_bind; [apply touches_compute_s|]. intros s'. apply IH.
Qed.

Lemma touches_edt_1d : touches F (edt_1d (A := A) n ixr).
Proof.
  unfold edt_1d. destruct (8 <? n).
  - unfold edt_linear. apply touches_bind; [apply touches_lift|]. intros z0.
    apply touches_bind; [apply touches_lift|]. intros z1.
    apply touches_bind.
    + apply touches_pfold. intros [[k v] z] q _. unfold phase1_step.
      apply touches_bind; [apply touches_compute_s|]. intros s0.
      apply touches_bind; [apply touches_pop_while|]. intros [k1 s].
      apply touches_bind; [apply touches_lift|]. intros v'.
      apply touches_bind; [apply touches_lift|]. intros z'.
      apply touches_bind; [apply touches_lift|]. intros z''. easy.
    + intros [[k v] z]. apply touches_bind.
      * apply touches_pfold. intros [k1 d] q _. unfold phase2_step.
        apply touches_bind; [apply touches_lift|]. intros k'.
        apply touches_bind; [apply touches_lift|]. intros vk.
        apply touches_bind; [now apply touches_read|]. intros fvk.
        apply touches_bind; [apply touches_lift|]. easy.
      * intros [k' d]. apply touches_write_back.
  - unfold edt_brute_force. apply touches_bind.
    + apply touches_pfold. intros d q _. apply touches_pfold. intros d' o _.
      unfold brute_inner. apply touches_bind; [now apply touches_read|]. intros fo.
      apply touches_bind; [apply touches_lift|]. intros dq.
      destruct (a_ltb A _ dq); [apply touches_lift|easy].
    + intros d. apply touches_write_back.
Qed.
End Touch.

(** ** One pass *)

Section Pass.
Variables (A : arith) (rep : num A -> dist -> Prop) (bp : num A -> Prop) (N M : Z).
Hypothesis OK : arith_ok A rep bp N M.
Notation V := (num A).

(** The field [g] holds the distances [D]. *)
Definition grep (g : grid V) (D : idx -> dist) : Prop :=
  gwf g /\ forall i, in_bounds g i = true -> exists w, gget g i = Some w /\ rep w (D i).

(** A family of lines filling the grid. *)
Record lines (nx ny nz n count : Z) (line : Z -> Z -> idx) (itof qof : idx -> Z) : Prop := {
  ln_inv : forall i, in_bounds3 nx ny nz i = true ->
     0 <= itof i < count /\ 0 <= qof i < n /\ line (itof i) (qof i) = i;
  ln_in : forall it q, 0 <= it < count -> 0 <= q < n -> in_bounds3 nx ny nz (line it q) = true;
  ln_it : forall it q, 0 <= it < count -> itof (line it q) = it;
  ln_q : forall it q, 0 <= it < count -> qof (line it q) = q }.

Variables (nx ny nz n count : Z) (line : Z -> Z -> idx) (itof qof : idx -> Z).
Hypothesis LN : lines nx ny nz n count line itof qof.
Hypothesis Hn : 0 < n <= N.

Definition pass_result (D : idx -> dist) (i : idx) : dist :=
  envelope n (fun q => D (line (itof i) q)) (qof i).

Lemma pass_ok g D :
  grep g D -> g_nx g = nx -> g_ny g = ny -> g_nz g = nz ->
  (forall i, in_bounds g i = true -> bounded M (D i)) ->
  exists g', run (pseq (map (fun it => edt_1d n (line it)) (zrange 0 count))) g = Some (tt, g') /\
    same_dims g' g /\ grep g' (pass_result D).
Proof.
  intros [W HG] Ex Ey Ez HB.
  assert (IB : forall i, in_bounds g i = in_bounds3 nx ny nz i).
  { intros i. unfold in_bounds. now rewrite Ex, Ey, Ez. }
  assert (HIt : forall it, In it (zrange 0 count) -> 0 <= it < count) by (intros it; apply in_zrange).
  destruct (run_pseq_map_zrange (zrange 0 count) (fun it => edt_1d n (line it))
    (fun pre g' => gwf g' /\ same_dims g' g /\
      (forall i, in_bounds g i = true -> In (itof i) pre ->
         exists w, gget g' i = Some w /\ rep w (pass_result D i)) /\
      (forall i, in_bounds g i = true -> ~ In (itof i) pre -> gget g' i = gget g i)) g)
    as [g' [Hr [W' [D' [H1 H2]]]]].
  - split; [easy|]. split; [apply same_dims_refl|]. split; easy.
  - intros pre it post g1 El [W1 [D1 [H1 H2]]].
    assert (Hit : 0 <= it < count).
    { apply HIt. rewrite El. apply in_or_app. right. now left. }
    assert (Hni : ~ In it pre).
    { pose proof (NoDup_zrange 0 count) as ND. rewrite El in ND.
      apply NoDup_remove_2 in ND. intros Hc. apply ND. apply in_or_app. now left. }
    assert (Hold : forall q, 0 <= q < n -> exists w, gget g1 (line it q) = Some w /\ rep w (D (line it q))).
    { intros q Hq.
      assert (HBd : in_bounds g (line it q) = true) by (rewrite IB; now apply (ln_in _ _ _ _ _ _ _ _ LN)).
      rewrite H2; [|easy|now rewrite (ln_it _ _ _ _ _ _ _ _ LN)].
      now apply HG. }
    set (fv := fun q => match gget g1 (line it q) with Some w => w | None => a_inf A end).
    destruct (edt_1d_ok A rep bp N M OK n (line it) g1 fv (fun q => D (line it q)))
      as [g2 [Hr2 [W2 [D2 [L1 L2]]]]]; try easy.
    + intros p Hp. rewrite (in_bounds_dims _ _ _ D1), IB. now apply (ln_in _ _ _ _ _ _ _ _ LN).
    + intros p p' Hp Hp' E.
      rewrite <- (ln_q _ _ _ _ _ _ _ _ LN it p Hit), E. apply (ln_q _ _ _ _ _ _ _ _ LN it p' Hit).
    + intros p Hp. unfold fv. destruct (Hold p Hp) as [w [-> _]]. easy.
    + intros p Hp. unfold fv. destruct (Hold p Hp) as [w [-> Hw]]. easy.
    + intros p Hp. apply HB. rewrite IB. now apply (ln_in _ _ _ _ _ _ _ _ LN).
    + exists g2. split; [exact Hr2|]. split; [easy|].
      split; [eapply same_dims_trans; eauto|].
      assert (Key : forall i, in_bounds g i = true -> itof i = it ->
         exists w, gget g2 i = Some w /\ rep w (pass_result D i)).
      { intros i Hi Ei. rewrite IB in Hi.
        destruct (ln_inv _ _ _ _ _ _ _ _ LN i Hi) as [_ [Hq El2]].
        destruct (L1 (qof i) Hq) as [w [m [Hw [Hrep Hm]]]].
        rewrite <- Ei, El2 in Hw. exists w. split; [easy|].
        apply envelope_unique in Hm; [|lia]. unfold pass_result. rewrite Ei. now rewrite <- Hm. }
      assert (Other : forall i, in_bounds g i = true -> itof i <> it -> gget g2 i = gget g1 i).
      { intros i Hi Ni. apply L2. intros q Hq E. apply Ni. rewrite E.
        now apply (ln_it _ _ _ _ _ _ _ _ LN). }
      split.
      * intros i Hi HIn. apply in_app_or in HIn.
        destruct (Z.eq_dec (itof i) it) as [Ei|Ni]; [now apply Key|].
        rewrite Other by easy. apply H1; [easy|]. destruct HIn as [?|[?|[]]]; [easy|congruence].
      * intros i Hi HIn. rewrite Other; [apply H2|easy|]; [easy| |].
        -- intros Hc. apply HIn, in_or_app. now left.
        -- intros Hc. apply HIn, in_or_app. right. now left.
  - exists g'. split; [exact Hr|]. split; [easy|]. split; [easy|].
    intros i Hi. rewrite (in_bounds_dims _ _ _ D') in Hi. apply H1; [easy|].
    apply in_zrange. rewrite IB in Hi. now apply (ln_inv _ _ _ _ _ _ _ _ LN) in Hi.
Qed.

Lemma pass_separated (task : Z -> prog V unit) :
  (forall it, task it = edt_1d n (line it)) ->
  separated (mkPhase count task).
Proof.
  intros HT. exists (fun it i => itof i =? it). cbn. split.
  - intros a Ha. rewrite HT. apply touches_edt_1d. intros q.
    rewrite (ln_it _ _ _ _ _ _ _ _ LN) by easy. apply Z.eqb_refl.
  - intros a b Ha Hb Hab i Hi. lia.
Qed.
End Pass.

Lemma div_mod_small a b d : 0 <= b < d -> (a * d + b) / d = a /\ (a * d + b) mod d = b.
Proof.
  intros H. split.
  - rewrite Z.div_add_l by lia. rewrite Z.div_small; lia.
  - rewrite Z.add_comm, Z.mod_add by lia. apply Z.mod_small. lia.
Qed.

Lemma div_bound it a d : 0 < d -> 0 <= it < a * d -> 0 <= it / d < a.
Proof. intros Hd H. split; [apply Z.div_pos; lia|apply Z.div_lt_upper_bound; lia]. Qed.

Lemma x_lines nx ny nz : 0 < nx -> 0 < ny -> 0 < nz ->
  lines nx ny nz nx (ny * nz)
    (fun it => x_indexer (first_index nz it) (second_index nz it))
    (fun i => iy i * nz + iz i) ix.
Proof.
  intros Hx Hy Hz. unfold x_indexer, first_index, second_index, ix, iy, iz. split.
  - intros [[x y] z] H. apply in_bounds3_iff in H. cbn.
    destruct (div_mod_small y z nz) as [-> ->]; [lia|]. split; [nia|]. split; [lia|easy].
  - intros it q Hit Hq. apply in_bounds3_iff.
    pose proof (div_bound it ny nz Hz Hit). pose proof (Z.mod_pos_bound it nz Hz). lia.
  - intros it q Hit. cbn. pose proof (Z.div_mod it nz ltac:(lia)). lia.
  - easy.
Qed.

Lemma y_lines nx ny nz : 0 < nx -> 0 < ny -> 0 < nz ->
  lines nx ny nz ny (nx * nz)
    (fun it => y_indexer (first_index nz it) (second_index nz it))
    (fun i => ix i * nz + iz i) iy.
Proof.
  intros Hx Hy Hz. unfold y_indexer, first_index, second_index, ix, iy, iz. split.
  - intros [[x y] z] H. apply in_bounds3_iff in H. cbn.
    destruct (div_mod_small x z nz) as [-> ->]; [lia|]. split; [nia|]. split; [lia|easy].
  - intros it q Hit Hq. apply in_bounds3_iff.
    pose proof (div_bound it nx nz Hz Hit). pose proof (Z.mod_pos_bound it nz Hz). lia.
  - intros it q Hit. cbn. pose proof (Z.div_mod it nz ltac:(lia)). lia.
  - easy.
Qed.

Lemma z_lines nx ny nz : 0 < nx -> 0 < ny -> 0 < nz ->
  lines nx ny nz nz (nx * ny)
    (fun it => z_indexer (first_index ny it) (second_index ny it))
    (fun i => ix i * ny + iy i) iz.
Proof.
  intros Hx Hy Hz. unfold z_indexer, first_index, second_index, ix, iy, iz. split.
  - intros [[x y] z] H. apply in_bounds3_iff in H. cbn.
    destruct (div_mod_small x y ny) as [-> ->]; [lia|]. split; [nia|]. split; [lia|easy].
  - intros it q Hit Hq. apply in_bounds3_iff.
    pose proof (div_bound it nx ny Hy Hit). pose proof (Z.mod_pos_bound it ny Hy). lia.
  - intros it q Hit. cbn. pose proof (Z.div_mod it ny ltac:(lia)). lia.
  - easy.
Qed.

(** Results of the passes as functions of the input field. *)
Definition env_x (nx : Z) (D : idx -> dist) (i : idx) : dist :=
  let '(x, y, z) := i in envelope nx (fun x' => D (x', y, z)) x.
Definition env_y (ny : Z) (D : idx -> dist) (i : idx) : dist :=
  let '(x, y, z) := i in envelope ny (fun y' => D (x, y', z)) y.
Definition env_z (nz : Z) (D : idx -> dist) (i : idx) : dist :=
  let '(x, y, z) := i in envelope nz (fun z' => D (x, y, z')) z.

Section Three.
Variables (A : arith) (rep : num A -> dist -> Prop) (bp : num A -> Prop) (N M : Z).
Hypothesis OK : arith_ok A rep bp N M.
Notation V := (num A).
Notation grep := (grep A rep).

Lemma grep_ext g D D' :
  grep g D -> (forall i, in_bounds g i = true -> D i = D' i) -> grep g D'.
Proof.
  intros [W H] E. split; [easy|]. intros i Hi. destruct (H i Hi) as [w [Hw Hr]].
  exists w. split; [easy|]. now rewrite <- E.
Qed.

Lemma phases_app (l1 l2 : list (phase V)) g :
  run_phases (l1 ++ l2) g = let* g' := run_phases l1 g in run_phases l2 g'.
Proof. unfold run_phases. apply ofold_app. Qed.

Lemma pass_x g D nx ny nz :
  grep g D -> g_nx g = nx -> g_ny g = ny -> g_nz g = nz -> nx <= N ->
  (forall i, in_bounds g i = true -> bounded M (D i)) ->
  exists g', run_phases (if 1 <? nx then [mkPhase (ny * nz) (x_task nx nz)] else []) g = Some g' /\
    same_dims g' g /\ grep g' (env_x nx D).
Proof.
  intros G Ex Ey Ez HN HB. assert (W := proj1 G). destruct W as [Wx [Wy [Wz _]]].
  destruct (1 <? nx) eqn:E.
  - destruct (pass_ok A rep bp N M OK nx ny nz nx (ny * nz) _ _ _ (x_lines nx ny nz ltac:(lia) ltac:(lia) ltac:(lia))
      ltac:(lia) g D G Ex Ey Ez HB) as [g' [Hr [HD HG]]].
    exists g'. split; [|split; [easy|]].
    + unfold run_phases, ofold, run_phase. cbn [p_task p_count].
      change (x_task nx nz) with (fun it => edt_1d (A := A) nx (x_indexer (first_index nz it) (second_index nz it))).
      rewrite Hr. easy.
    + eapply grep_ext; [exact HG|]. intros [[x y] z] Hi. unfold pass_result, env_x.
      rewrite (in_bounds_dims _ _ _ HD), in_bounds_iff in Hi.
      unfold x_indexer, first_index, second_index, ix, iy, iz; cbn.
      destruct (div_mod_small y z nz) as [-> ->]; [lia|]. easy.
  - exists g. split; [easy|]. split; [apply same_dims_refl|].
    eapply grep_ext; [exact G|]. intros [[x y] z] Hi. rewrite in_bounds_iff in Hi. unfold env_x.
    assert (nx = 1) by lia. assert (x = 0) by lia. subst x. rewrite H. now rewrite envelope_one.
Qed.

Lemma pass_y g D nx ny nz :
  grep g D -> g_nx g = nx -> g_ny g = ny -> g_nz g = nz -> ny <= N ->
  (forall i, in_bounds g i = true -> bounded M (D i)) ->
  exists g', run_phases (if 1 <? ny then [mkPhase (nx * nz) (y_task ny nz)] else []) g = Some g' /\
    same_dims g' g /\ grep g' (env_y ny D).
Proof.
  intros G Ex Ey Ez HN HB. assert (W := proj1 G). destruct W as [Wx [Wy [Wz _]]].
  destruct (1 <? ny) eqn:E.
  - destruct (pass_ok A rep bp N M OK nx ny nz ny (nx * nz) _ _ _ (y_lines nx ny nz ltac:(lia) ltac:(lia) ltac:(lia))
      ltac:(lia) g D G Ex Ey Ez HB) as [g' [Hr [HD HG]]].
    exists g'. split; [|split; [easy|]].
    + unfold run_phases, ofold, run_phase. cbn [p_task p_count].
      change (y_task ny nz) with (fun it => edt_1d (A := A) ny (y_indexer (first_index nz it) (second_index nz it))).
      rewrite Hr. easy.
    + eapply grep_ext; [exact HG|]. intros [[x y] z] Hi. unfold pass_result, env_y.
      rewrite (in_bounds_dims _ _ _ HD), in_bounds_iff in Hi.
      unfold y_indexer, first_index, second_index, ix, iy, iz; cbn.
      destruct (div_mod_small x z nz) as [-> ->]; [lia|]. easy.
  - exists g. split; [easy|]. split; [apply same_dims_refl|].
    eapply grep_ext; [exact G|]. intros [[x y] z] Hi. rewrite in_bounds_iff in Hi. unfold env_y.
    assert (ny = 1) by lia. assert (y = 0) by lia. subst y. rewrite H. now rewrite envelope_one.
Qed.

Lemma pass_z g D nx ny nz :
  grep g D -> g_nx g = nx -> g_ny g = ny -> g_nz g = nz -> nz <= N ->
  (forall i, in_bounds g i = true -> bounded M (D i)) ->
  exists g', run_phases (if 1 <? nz then [mkPhase (nx * ny) (z_task ny nz)] else []) g = Some g' /\
    same_dims g' g /\ grep g' (env_z nz D).
Proof.
  intros G Ex Ey Ez HN HB. assert (W := proj1 G). destruct W as [Wx [Wy [Wz _]]].
  destruct (1 <? nz) eqn:E.
  - destruct (pass_ok A rep bp N M OK nx ny nz nz (nx * ny) _ _ _ (z_lines nx ny nz ltac:(lia) ltac:(lia) ltac:(lia))
      ltac:(lia) g D G Ex Ey Ez HB) as [g' [Hr [HD HG]]].
    exists g'. split; [|split; [easy|]].
    + unfold run_phases, ofold, run_phase. cbn [p_task p_count].
      change (z_task ny nz) with (fun it => edt_1d (A := A) nz (z_indexer (first_index ny it) (second_index ny it))).
      rewrite Hr. easy.
    + eapply grep_ext; [exact HG|]. intros [[x y] z] Hi. unfold pass_result, env_z.
      rewrite (in_bounds_dims _ _ _ HD), in_bounds_iff in Hi.
      unfold z_indexer, first_index, second_index, ix, iy, iz; cbn.
      destruct (div_mod_small x y ny) as [-> ->]; [lia|]. easy.
  - exists g. split; [easy|]. split; [apply same_dims_refl|].
    eapply grep_ext; [exact G|]. intros [[x y] z] Hi. rewrite in_bounds_iff in Hi. unfold env_z.
    assert (nz = 1) by lia. assert (z = 0) by lia. subst z. rewrite H. now rewrite envelope_one.
Qed.

Lemma bounded_mono B B' x : B <= B' -> bounded B x -> bounded B' x.
Proof. destruct x; cbn; lia. Qed.

Lemma edt_3d_env g D B :
  grep g D -> g_nx g <= N -> g_ny g <= N -> g_nz g <= N ->
  0 <= B -> B + 2 * (N * N) <= M ->
  (forall i, in_bounds g i = true -> bounded B (D i)) ->
  exists g', edt_3d g = Some g' /\ same_dims g' g /\
    grep g' (env_z (g_nz g) (env_y (g_ny g) (env_x (g_nx g) D))).
Proof.
  intros G Hx Hy Hz HB0 HM HB. assert (W := proj1 G). destruct W as [Wx [Wy [Wz _]]].
  pose proof (Z.square_nonneg N) as HN2.
  destruct (pass_x g D _ _ _ G eq_refl eq_refl eq_refl Hx) as [g1 [R1 [D1 G1]]].
  { intros i Hi. eapply bounded_mono; [|now apply HB]. lia. }
  destruct (pass_y g1 _ (g_nx g) (g_ny g) (g_nz g) G1) as [g2 [R2 [D2 G2]]]; try apply D1; [easy| |].
  { intros [[x y] z] Hi. rewrite (in_bounds_dims _ _ _ D1) in Hi. rewrite in_bounds_iff in Hi. unfold env_x.
    eapply bounded_mono; [|apply (envelope_bounded _ N _ _ B); [lia|lia|]]; [lia|].
    intros p Hp. apply HB. apply in_bounds_iff. lia. }
  destruct (same_dims_trans _ _ _ D2 D1) as [Q1 [Q2 Q3]].
  destruct (pass_z g2 _ (g_nx g) (g_ny g) (g_nz g) G2 Q1 Q2 Q3 Hz) as [g3 [R3 [D3 G3]]].
  { intros [[x y] z] Hi. rewrite (in_bounds_dims _ _ _ D2), (in_bounds_dims _ _ _ D1) in Hi.
    rewrite in_bounds_iff in Hi. unfold env_y.
    eapply bounded_mono; [|apply (envelope_bounded _ N _ _ (B + N * N)); [lia|lia|]]; [lia|].
    intros p Hp. unfold env_x. apply (envelope_bounded _ N _ _ B); [lia|lia|].
    intros p' Hp'. apply HB. apply in_bounds_iff. lia. }
  exists g3. split; [|split; [|exact G3]].
  - unfold edt_3d, passes. rewrite phases_app, R1. cbn [obind].
    rewrite phases_app, R2. cbn [obind]. exact R3.
  - eapply same_dims_trans; [exact D3|]. eapply same_dims_trans; eauto.
Qed.

Lemma passes_separated nx ny nz : 0 < nx -> 0 < ny -> 0 < nz ->
  Forall separated (passes (A := A) nx ny nz).
Proof.
  intros Hx Hy Hz. unfold passes. apply Forall_app. split; [|apply Forall_app; split].
  - destruct (1 <? nx); constructor; [|constructor].
    eapply (pass_separated A nx ny nz nx); [now apply x_lines|]. intros it; reflexivity.
  - destruct (1 <? ny); constructor; [|constructor].
    eapply (pass_separated A nx ny nz ny); [now apply y_lines|]. intros it; reflexivity.
  - destruct (1 <? nz); constructor; [|constructor].
    eapply (pass_separated A nx ny nz nz); [now apply z_lines|]. intros it; reflexivity.
Qed.
End Three.

(** ** Separability: composing the envelopes gives the nearest marked cell *)

Definition mark (S : idx -> bool) (i : idx) : dist := if S i then Some 0 else None.

Lemma env_nearest nx ny nz (S : idx -> bool) i :
  0 < nx -> 0 < ny -> 0 < nz -> in_bounds3 nx ny nz i = true ->
  is_nearest (fun j => in_bounds3 nx ny nz j = true /\ S j = true) i
    (env_z nz (env_y ny (env_x nx (mark S))) i).
Proof.
  intros Hx Hy Hz Hi. destruct i as [[x y] z].
  set (E1 := env_x nx (mark S)). set (E2 := env_y ny E1).
  assert (X : forall x y z, is_min_parabola nx (fun x' => mark S (x', y, z)) x (E1 (x, y, z)))
    by (intros; now apply envelope_ok).
  assert (Y : forall x y z, is_min_parabola ny (fun y' => E1 (x, y', z)) y (E2 (x, y, z)))
    by (intros; now apply envelope_ok).
  assert (Z0 : is_min_parabola nz (fun z' => E2 (x, y, z')) z (env_z nz E2 (x, y, z)))
    by now apply envelope_ok.
  assert (Low : forall j, in_bounds3 nx ny nz j = true -> S j = true ->
            dle (env_z nz E2 (x, y, z)) (Some (sqdist (x, y, z) j))).
  { intros [[x' y'] z'] Hj HS. apply in_bounds3_iff in Hj.
    destruct (X x y' z') as [Lx _]. specialize (Lx x' ltac:(lia)).
    destruct (Y x y z') as [Ly _]. specialize (Ly y' ltac:(lia)).
    destruct Z0 as [Lz _]. specialize (Lz z' ltac:(lia)). cbn beta in *.
    unfold mark in Lx. rewrite HS in Lx. unfold sqdist.
    destruct (E1 (x, y', z')) as [e1|]; [|easy].
    destruct (E2 (x, y, z')) as [e2|]; [|easy].
    destruct (env_z nz E2 (x, y, z)) as [e3|]; [|easy]. cbn in *. lia. }
  destruct Z0 as [_ [z' [Hz' Ez]]]. cbn beta in Ez.
  destruct (env_z nz E2 (x, y, z)) as [d|] eqn:Ed.
  - destruct (Y x y z') as [_ [y' [Hy' Ey]]]. cbn beta in Ey.
    destruct (X x y' z') as [_ [x' [Hx' Ex]]]. cbn beta in Ex.
    rewrite Ey, Ex in Ez. unfold mark in Ez. destruct (S (x', y', z')) eqn:ES; [|discriminate].
    split.
    + exists (x', y', z'). split; [split; [apply in_bounds3_iff; lia|easy]|].
      cbn in Ez. injection Ez as ->. unfold sqdist. lia.
    + intros j [Hj HS]. specialize (Low j Hj HS). exact Low.
  - intros j [Hj HS]. specialize (Low j Hj HS). easy.
Qed.
