(** Correctness of connected component labelling. *)
From Coq Require Import ZArith List Lia Bool ZifyBool.
From Verif Require Import Util Grid TopologyModel ComponentSpec.
Import ListNotations.
Local Open Scope Z_scope.

(** ** Lists and scan order *)

Lemma ofold_prefix {A B} (f : A -> B -> option A) (P : list B -> A -> Prop) l a0 :
  P [] a0 ->
  (forall pre x post a, l = pre ++ x :: post -> P pre a -> exists a', f a x = Some a' /\ P (pre ++ [x]) a') ->
  exists a', ofold f l a0 = Some a' /\ P l a'.
Proof.
  intros H0 Hs.
  assert (G : forall post pre a, l = pre ++ post -> P pre a -> exists a', ofold f post a = Some a' /\ P l a').
  { induction post as [|x post IH]; intros pre a E HP.
    - rewrite app_nil_r in E. subst pre. exists a. split; [reflexivity|assumption].
    - destruct (Hs pre x post a E HP) as (a1 & E1 & H1).
      destruct (IH (pre ++ [x]) a1) as (a' & E' & H').
      + now rewrite <- app_assoc.
      + exact H1.
      + exists a'. split; [|exact H']. cbn. now rewrite E1. }
  exact (G l [] a0 eq_refl H0).
Qed.

Lemma NoDup_app_left {A} (l m : list A) : NoDup (l ++ m) -> NoDup l.
Proof.
  induction l as [|x l IH]; intros H; [constructor|]. inversion H; subst. constructor; auto.
  intros Hin. apply H2. apply in_or_app. now left.
Qed.

Lemma mem_idx_In i l : existsb (idx_eqb i) l = true <-> In i l.
Proof.
  rewrite existsb_exists. split.
  - intros (x & H & E). apply idx_eqb_eq in E. now subst.
  - intros H. exists i. split; [assumption|]. apply idx_eqb_refl.
Qed.

Lemma index_lt_scanned nx ny nz i j :
  in_bounds3 nx ny nz i = true -> in_bounds3 nx ny nz j = true ->
  data_index3 ny nz i < data_index3 ny nz j -> scanned_before i j.
Proof.
  destruct i as [[x y] z], j as [[x' y'] z']. rewrite !in_bounds3_iff.
  unfold data_index3, scanned_before, ix, iy, iz. cbn. intros Hi Hj H.
  destruct (Z.lt_trichotomy x x') as [?|[?|?]]; [now left| |].
  - subst x'. right. split; [reflexivity|].
    destruct (Z.lt_trichotomy y y') as [?|[?|?]]; [now left| |].
    + subst y'. right. split; [reflexivity|]. lia.
    + exfalso. assert ((y' + 1) * nz <= y * nz) by nia. nia.
  - exfalso. assert ((x' + 1) * ny <= x * ny) by nia.
    assert ((x' * ny + y' + 1) <= x * ny + y) by nia.
    assert ((x' * ny + y' + 1) * nz <= (x * ny + y) * nz) by nia. nia.
Qed.

Lemma scan_prefix nx ny nz pre x post i :
  all_idx nx ny nz = pre ++ x :: post -> In i pre -> scanned_before i x.
Proof.
  intros E Hi.
  assert (Bx : in_bounds3 nx ny nz x = true) by (apply in_all_idx; rewrite E; apply in_elt).
  assert (Bi : in_bounds3 nx ny nz i = true) by (apply in_all_idx; rewrite E; apply in_or_app; now left).
  apply (index_lt_scanned nx ny nz); auto.
  destruct (In_nth_error _ _ Hi) as [k Hk].
  assert (Lk : (k < length pre)%nat) by (apply nth_error_Some; congruence).
  assert (N := NoDup_all_idx nx ny nz). rewrite NoDup_nth_error in N.
  pose proof (nth_all_idx nx ny nz i Bi) as Pi. pose proof (nth_all_idx nx ny nz x Bx) as Px.
  unfold zget in Pi, Px.
  pose proof (data_index3_range nx ny nz i Bi) as Ri. pose proof (data_index3_range nx ny nz x Bx) as Rx.
  destruct (data_index3 ny nz i <? 0) eqn:Ni; [lia|]. destruct (data_index3 ny nz x <? 0) eqn:Nx; [lia|].
  assert (k = Z.to_nat (data_index3 ny nz i)).
  { apply N; [|rewrite Pi, E, nth_error_app1 by assumption; assumption].
    rewrite E, app_length. lia. }
  assert (length pre = Z.to_nat (data_index3 ny nz x)).
  { apply N; [rewrite E, app_length; cbn; lia|].
    rewrite Px, E, nth_error_app2 by lia. now rewrite Nat.sub_diag. }
  lia.
Qed.

(** ** Paths *)

Lemma in_face_neighbors i j : In j (face_neighbors i) <-> share_face i j.
Proof.
  destruct i as [[x y] z], j as [[x' y'] z']. unfold face_neighbors, share_face, ix, iy, iz. cbn.
  split.
  - intros H. repeat destruct H as [H|H]; try contradiction; injection H; intros; subst; lia.
  - intros H.
    assert (C : (x' = x - 1 /\ y' = y /\ z' = z) \/ (x' = x + 1 /\ y' = y /\ z' = z) \/
                (x' = x /\ y' = y - 1 /\ z' = z) \/ (x' = x /\ y' = y + 1 /\ z' = z) \/
                (x' = x /\ y' = y /\ z' = z - 1) \/ (x' = x /\ y' = y /\ z' = z + 1)) by lia.
    destruct C as [(-> & -> & ->)|[(-> & -> & ->)|[(-> & -> & ->)|[(-> & -> & ->)|[(-> & -> & ->)|(-> & -> & ->)]]]]];
      tauto.
Qed.

Lemma share_face_sym i j : share_face i j -> share_face j i.
Proof. unfold share_face. lia. Qed.

Section Paths.
Context (X : idx -> Prop) (conn : idx -> idx -> Prop).
Hypothesis conn_sym : forall a b, X a -> X b -> conn a b -> conn b a.

Lemma joined_X i j : joined X conn i j -> X i /\ X j.
Proof. induction 1; tauto. Qed.

Lemma joined_trans i j k : joined X conn i j -> joined X conn j k -> joined X conn i k.
Proof using.
  intros H1 H2. induction H2 as [j|j j' k H2 IH F Cn Xk]; [assumption|].
  apply joined_step with j'; auto.
Qed.

Lemma joined_sym i j : joined X conn i j -> joined X conn j i.
Proof.
  induction 1 as [i Hi|i j k H IH F C Xk]; [now apply joined_here|].
  apply joined_trans with j; [|assumption].
  apply joined_step with k; [now apply joined_here|now apply share_face_sym| |].
  - apply conn_sym; auto. now apply joined_X in H.
  - now apply joined_X in H.
Qed.
End Paths.

Lemma joined_mono (X Y : idx -> Prop) (conn conn' : idx -> idx -> Prop) i j :
  (forall a, X a -> Y a) -> (forall a b, X a -> X b -> conn a b -> conn' a b) ->
  joined X conn i j -> joined Y conn' i j.
Proof.
  intros H Hc. induction 1 as [|i j k J IH F C Xk]; [now apply joined_here; auto|].
  apply joined_step with j; auto. apply Hc; auto. now apply joined_X in J.
Qed.

(** ** The labelling algorithm *)

Section Correct.
Context {St : Type} (are_connected : St -> idx -> idx -> option bool)
  (get : St -> idx -> Z) (mark : St -> idx -> Z -> St).
Context (nx ny nz : Z) (act : idx -> bool) (conn : idx -> idx -> bool) (WF : St -> Prop).
Notation A := (fun i => act i = true).
Notation C := (fun i j => conn i j = true).
Hypothesis mark_wf : forall s i c, WF s -> act i = true -> WF (mark s i c).
Hypothesis get_mark : forall s i c j, WF s -> 0 <= c < 2 ^ 32 -> act i = true ->
  get (mark s i c) j = if idx_eqb i j then c else get s j.
Hypothesis get_inactive : forall s i, WF s -> act i = false -> get s i = -1.
Hypothesis act_in : forall i, act i = true -> in_bounds3 nx ny nz i = true.
Hypothesis connected_ok : forall s a b, WF s -> act a = true -> act b = true ->
  are_connected s a b = Some (conn a b).
Hypothesis conn_sym : forall a b, conn a b = true -> conn b a = true.
Hypothesis small : nx * ny * nz < 2 ^ 32.
Hypothesis pos : 0 < nx /\ 0 < ny /\ 0 < nz.

Lemma total_length : length (all_idx nx ny nz) = Z.to_nat (nx * ny * nz).
Proof using pos.
  pose proof (all_idx_length nx ny nz) as H. unfold zlen in H. lia.
Qed.

Definition ranged (s : St) : Prop := forall i, act i = true -> 0 <= get s i < 2 ^ 32.

Lemma u32_zero s n : WF s -> ranged s -> (u32 (get s n) =? 0) = act n && (get s n =? 0).
Proof using get_inactive.
  intros W R. unfold u32. destruct (act n) eqn:E.
  - specialize (R n E). rewrite Z.mod_small by assumption. reflexivity.
  - rewrite get_inactive by assumption. reflexivity.
Qed.

Lemma handle_fold s cur l : WF s -> ranged s -> act cur = true -> forall rest queued,
  NoDup queued ->
  exists new, ofold (handle_neighbor are_connected get cur) l (s, rest, queued)
              = Some (s, rest ++ new, queued ++ new) /\
    NoDup (queued ++ new) /\
    (forall n, In n new -> In n l /\ act n = true /\ get s n = 0 /\ conn cur n = true) /\
    (forall n, In n l -> act n = true -> get s n = 0 -> conn cur n = true -> In n (queued ++ new)).
Proof using get_inactive connected_ok.
  intros W R Ac. induction l as [|n l IH]; intros rest queued ND.
  - exists []. rewrite !app_nil_r. cbn. split; [reflexivity|]. split; [assumption|]. split; contradiction.
  - cbn [ofold]. unfold handle_neighbor at 1. rewrite u32_zero by assumption.
    destruct (act n && (get s n =? 0)) eqn:E.
    + assert (An : act n = true) by lia. assert (Gn : get s n = 0) by lia.
      rewrite connected_ok by assumption. cbn. destruct (conn cur n) eqn:Cn.
      * destruct (existsb (idx_eqb n) queued) eqn:M.
        -- apply mem_idx_In in M. destruct (IH rest queued ND) as (new & H1 & H2 & H3 & H4).
           exists new. split; [exact H1|]. split; [exact H2|]. split.
           ++ intros m Hm. destruct (H3 m Hm) as (? & ?). split; [now right|assumption].
           ++ intros m [<-|Hm]; [intros; apply in_or_app; now left|now apply H4].
        -- assert (NM : ~ In n queued) by (rewrite <- mem_idx_In; congruence).
           destruct (IH (rest ++ [n]) (queued ++ [n])) as (new & H1 & H2 & H3 & H4).
           { apply NoDup_app_comm || idtac. apply (NoDup_Add (a := n) (l := queued)).
             - rewrite <- (app_nil_r queued) at 1. apply Add_app.
             - split; assumption. }
           exists (n :: new).
           rewrite <- !app_assoc in H1. rewrite <- app_assoc in H2. cbn [app] in H1, H2.
           split; [exact H1|]. split; [exact H2|]. split.
           ++ intros m [<-|Hm]; [split; [now left|auto]|]. destruct (H3 m Hm) as (? & ?). split; [now right|assumption].
           ++ intros m [<-|Hm].
              ** intros. apply in_or_app. right. now left.
              ** intros A1 A2 A3. specialize (H4 m Hm A1 A2 A3). rewrite <- app_assoc in H4. exact H4.
      * destruct (IH rest queued ND) as (new & H1 & H2 & H3 & H4). exists new.
        split; [exact H1|]. split; [exact H2|]. split.
        -- intros m Hm. destruct (H3 m Hm) as (? & ?). split; [now right|assumption].
        -- intros m [<-|Hm]; [congruence|now apply H4].
    + destruct (IH rest queued ND) as (new & H1 & H2 & H3 & H4). exists new.
      split; [exact H1|]. split; [exact H2|]. split.
      * intros m Hm. destruct (H3 m Hm) as (? & ?). split; [now right|assumption].
      * intros m [<-|Hm]; [intros; lia|now apply H4].
Qed.

(** Termination, whatever the number of cells: every cell is queued at most once. *)
Lemma mark_loop_total c fuel : 0 <= c < 2 ^ 32 -> forall P Q s k,
  WF s -> ranged s -> NoDup (P ++ Q) -> (forall i, In i (P ++ Q) -> act i = true) ->
  (Z.to_nat (nx * ny * nz) + 1 <= fuel + length P)%nat ->
  exists s' k', mark_loop are_connected get mark fuel c (s, Q, P ++ Q) k = Some (s', k') /\ WF s' /\ ranged s'.
Proof using mark_wf get_mark get_inactive act_in connected_ok pos.
  intros Hc. induction fuel as [|fuel IH]; intros P Q s k W R ND HA Hf.
  - exfalso. assert (Hl : (length P <= length (all_idx nx ny nz))%nat).
    { apply NoDup_incl_length; [now apply NoDup_app_left in ND|].
      intros i Hi. apply in_all_idx. apply act_in. apply HA. apply in_or_app. now left. }
    rewrite total_length in Hl. lia.
  - destruct Q as [|cur rest]; cbn [mark_loop].
    + exists s, k. split; [reflexivity|]. split; assumption.
    + assert (Ac : act cur = true) by (apply HA; apply in_elt).
      set (s1 := mark s cur c).
      assert (W1 : WF s1) by (apply mark_wf; assumption).
      assert (R1 : ranged s1).
      { intros i Ai. unfold s1. rewrite get_mark by assumption. destruct (idx_eqb cur i); [assumption|now apply R]. }
      destruct (handle_fold s1 cur (face_neighbors cur) W1 R1 Ac rest (P ++ cur :: rest) ND)
        as (new & H1 & H2 & H3 & _).
      rewrite H1. cbn [obind].
      assert (EQ : (P ++ cur :: rest) ++ new = (P ++ [cur]) ++ (rest ++ new)) by now rewrite <- !app_assoc.
      rewrite EQ in H2 |- *. apply IH; try assumption.
      * intros i Hi. rewrite <- EQ in Hi. apply in_app_or in Hi. destruct Hi as [Hi|Hi]; [now apply HA|].
        apply (H3 i Hi).
      * rewrite app_length. cbn. lia.
Qed.

Lemma compute_components_total s :
  WF (reset_components mark nx ny nz s) ->
  (forall i, act i = true -> get (reset_components mark nx ny nz s) i = 0) ->
  exists s' n, compute_components are_connected get mark nx ny nz s = Some (s', n) /\ WF s'.
Proof using mark_wf get_mark get_inactive act_in connected_ok pos.
  intros W0 G0. unfold compute_components.
  destruct (ofold_prefix (sweep_step are_connected get mark (nx * ny * nz))
              (fun _ st => let '(s, _, _, _) := st in WF s /\ ranged s)
              (all_idx nx ny nz) (reset_components mark nx ny nz s, 0, 0, false)) as (st & E & I).
  - split; [assumption|]. intros i Ai. rewrite G0 by assumption. lia.
  - intros pre x post [[[s1 m1] n1] d1] Ea [W1 R1]. unfold sweep_step. destruct d1; [eexists; split; [reflexivity|]; split; assumption|].
    destruct (get s1 x =? 0) eqn:Gx; [|eexists; split; [reflexivity|]; split; assumption].
    assert (Ax : act x = true).
    { destruct (act x) eqn:Ax; [reflexivity|]. rewrite get_inactive in Gx by assumption. discriminate. }
    unfold mark_connected_component.
    destruct (mark_loop_total (u32 (n1 + 1)) (S (Z.to_nat (nx * ny * nz)))) with (P := @nil idx) (Q := [x]) (s := s1) (k := 0)
      as (s' & k' & Es & W' & R'); try assumption.
    + apply Z.mod_pos_bound. lia.
    + constructor; [intros []|constructor].
    + intros i [<-|[]]. assumption.
    + cbn. lia.
    + cbn [app] in Es. rewrite Es. cbn [obind]. eexists. split; [reflexivity|]. split; assumption.
  - rewrite E. destruct st as [[[s' m'] n'] d']. cbn [obind]. exists s', n'. split; [reflexivity|]. apply I.
Qed.

(** One component. *)
Section Mark.
Context (s0 : St) (start : idx) (c : Z).
Hypothesis W0 : WF s0.
Hypothesis R0 : ranged s0.
Hypothesis Cc : 1 <= c < 2 ^ 32.
Notation U := (fun i => act i = true /\ get s0 i = 0).
Hypothesis Ustart : act start = true /\ get s0 start = 0.

Definition mark_inv (P Q : list idx) (s : St) : Prop :=
  WF s /\ NoDup (P ++ Q) /\ In start (P ++ Q) /\
  (forall i, In i (P ++ Q) -> joined U C start i) /\
  (forall i, get s i = if existsb (idx_eqb i) P then c else get s0 i) /\
  (forall p n, In p P -> share_face p n -> act n = true -> get s0 n = 0 -> conn p n = true -> In n (P ++ Q)).

Lemma joined_U i : joined U C start i -> act i = true /\ get s0 i = 0.
Proof using. intros H. apply joined_X in H. destruct H as [_ H]. exact H. Qed.

Lemma mark_loop_ok fuel : forall P Q s,
  mark_inv P Q s -> (Z.to_nat (nx * ny * nz) + 1 <= fuel + length P)%nat ->
  exists s' L, mark_loop are_connected get mark fuel c (s, Q, P ++ Q) (zlen P) = Some (s', zlen L) /\
    mark_inv L [] s'.
Proof using W0 R0 Cc Ustart mark_wf get_mark get_inactive act_in connected_ok pos.
  induction fuel as [|fuel IH]; intros P Q s I Hf.
  - exfalso. destruct I as (_ & ND & _ & J & _).
    assert (Hl : (length P <= length (all_idx nx ny nz))%nat).
    { apply NoDup_incl_length; [now apply NoDup_app_left in ND|].
      intros i Hi. apply in_all_idx. apply act_in. apply joined_U. apply J. apply in_or_app. now left. }
    rewrite total_length in Hl. lia.
  - destruct Q as [|cur rest]; cbn [mark_loop].
    + exists s, P. split; [reflexivity|assumption].
    + destruct I as (W & ND & Hs & J & G & Cl).
      assert (Jc : joined U C start cur) by (apply J; apply in_elt).
      destruct (joined_U cur Jc) as [Ac Gc].
      set (s1 := mark s cur c).
      assert (W1 : WF s1) by (apply mark_wf; assumption).
      assert (G1 : forall i, get s1 i = if existsb (idx_eqb i) (P ++ [cur]) then c else get s0 i).
      { intros i. unfold s1. rewrite get_mark by (assumption || lia). rewrite existsb_app. cbn.
        rewrite orb_false_r, G.
        replace (idx_eqb i cur) with (idx_eqb cur i)
          by (apply eq_true_iff_eq; rewrite !idx_eqb_eq; split; congruence).
        destruct (existsb (idx_eqb i) P), (idx_eqb cur i); reflexivity. }
      assert (R1 : ranged s1).
      { intros i Ai. rewrite G1. destruct (existsb (idx_eqb i) (P ++ [cur])); [lia|now apply R0]. }
      assert (EQ : P ++ cur :: rest = (P ++ [cur]) ++ rest) by now rewrite <- app_assoc.
      destruct (handle_fold s1 cur (face_neighbors cur) W1 R1 Ac rest (P ++ cur :: rest) ND)
        as (new & H1 & H2 & H3 & H4).
      rewrite H1. cbn [obind].
      replace (zlen P + 1) with (zlen (P ++ [cur])) by (unfold zlen; rewrite app_length; cbn; lia).
      rewrite EQ in H1, H2, H4 |- *. rewrite <- app_assoc.
      apply (IH (P ++ [cur]) (rest ++ new) s1).
      * split; [assumption|]. rewrite app_assoc.
        split; [assumption|]. split; [apply in_or_app; left; rewrite <- EQ; assumption|].
        split; [|split; [assumption|]].
        -- intros i Hi. apply in_app_or in Hi. destruct Hi as [Hi|Hi]; [apply J; now rewrite EQ|].
           destruct (H3 i Hi) as (N1 & N2 & N3 & N4).
           apply joined_step with cur; [assumption|now apply in_face_neighbors|exact N4|].
           split; [assumption|]. rewrite G1 in N3.
           destruct (existsb (idx_eqb i) (P ++ [cur])); [lia|assumption].
        -- intros p n Hp F An Gn Cn. apply in_app_or in Hp. destruct Hp as [Hp|[<-|[]]].
           ++ apply in_or_app. left. rewrite <- EQ. eapply Cl; eauto.
           ++ destruct (existsb (idx_eqb n) (P ++ [cur])) eqn:E.
              ** apply mem_idx_In in E. apply in_or_app. left. apply in_or_app. now left.
              ** apply H4; auto; [now apply in_face_neighbors|]. rewrite G1, E. assumption.
      * rewrite app_length. cbn. lia.
Qed.

Lemma mark_component_ok :
  exists s' L, mark_connected_component are_connected get mark (nx * ny * nz) s0 start c = Some (s', zlen L) /\
    WF s' /\ NoDup L /\ (forall i, In i L <-> joined U C start i) /\
    (forall i, get s' i = if existsb (idx_eqb i) L then c else get s0 i).
Proof using W0 R0 Cc Ustart mark_wf get_mark get_inactive act_in connected_ok pos.
  unfold mark_connected_component.
  destruct (mark_loop_ok (S (Z.to_nat (nx * ny * nz))) [] [start] s0) as (s' & L & E & I).
  - split; [assumption|]. split; [constructor; [intros []|constructor]|].
    split; [now left|]. split; [intros i [<-|[]]; now apply joined_here|]. split; [reflexivity|contradiction].
  - cbn. lia.
  - exists s', L. split; [exact E|]. destruct I as (W & ND & Hs & J & G & Cl).
    rewrite app_nil_r in *. split; [assumption|]. split; [assumption|]. split; [|assumption].
    intros i. split; [apply J|]. intros H. induction H as [i Ui|i j k H IH F Cjk [Ak Gk]]; [assumption|].
    apply (Cl j k); auto.
Qed.
End Mark.

Definition sweep_inv (pre : list idx) (st : St * Z * Z * bool) : Prop :=
  let '(s, marked, n, done) := st in
  WF s /\ 0 <= n /\
  (exists L, NoDup L /\ (forall i, In i L <-> act i = true /\ get s i <> 0) /\ marked = zlen L) /\
  n <= marked /\
  (forall i, act i = true -> 0 <= get s i <= n) /\
  (forall i, In i pre -> act i = true -> get s i <> 0) /\
  (done = true -> forall i, act i = true -> get s i <> 0) /\
  (forall i j, act i = true -> get s i <> 0 -> (joined A C i j <-> act j = true /\ get s j = get s i)) /\
  (forall k, 1 <= k <= n -> exists j, In j pre /\ act j = true /\ get s j = k) /\
  (forall i k, act i = true -> 1 <= k < get s i -> exists j, act j = true /\ get s j = k /\ scanned_before j i).

Lemma labelled_le_total s L :
  NoDup L -> (forall i, In i L <-> act i = true /\ get s i <> 0) ->
  zlen L <= Z.of_nat (length (all_idx nx ny nz)).
Proof using act_in.
  intros ND H. unfold zlen. apply inj_le. apply NoDup_incl_length; [assumption|].
  intros i Hi. apply in_all_idx. apply act_in. now apply H.
Qed.

Lemma sweep_step_inv pre x post st :
  all_idx nx ny nz = pre ++ x :: post -> sweep_inv pre st ->
  exists st', sweep_step are_connected get mark (nx * ny * nz) st x = Some st' /\ sweep_inv (pre ++ [x]) st'.
Proof using mark_wf get_mark get_inactive act_in connected_ok conn_sym small pos.
  intros E. destruct st as [[[s marked] n] done]. intros I.
  pose proof I as (W & N0 & (L & ND & HL & ->) & Nm & Rg & Hpre & Hdone & Cls & Us & Ord).
  unfold sweep_step. destruct done eqn:D.
  - eexists. split; [reflexivity|].
    split; [assumption|]. split; [assumption|]. split; [now exists L|]. split; [assumption|].
    split; [assumption|]. split; [intros i _ Ai; now apply Hdone|]. split; [assumption|].
    split; [assumption|]. split; [|assumption].
    intros k Hk. destruct (Us k Hk) as (j & Hj & ?). exists j. split; [apply in_or_app; now left|assumption].
  - destruct (get s x =? 0) eqn:G0.
    2:{ eexists. split; [reflexivity|].
        split; [assumption|]. split; [assumption|]. split; [now exists L|]. split; [assumption|].
        split; [assumption|].
        split; [intros i Hi Ai; apply in_app_or in Hi; destruct Hi as [Hi|[<-|[]]]; [now apply Hpre|lia]|].
        split; [discriminate|].
        split; [assumption|]. split; [|assumption].
        intros k Hk. destruct (Us k Hk) as (j & Hj & ?). exists j. split; [apply in_or_app; now left|assumption]. }
    assert (Gx : get s x = 0) by lia.
    assert (Ax : act x = true).
    { destruct (act x) eqn:Ax; [reflexivity|]. rewrite get_inactive in Gx by assumption. discriminate. }
    assert (Bd := labelled_le_total s L ND HL).
    assert (Lx : ~ In x L) by (rewrite HL; tauto).
    assert (Tot : zlen (x :: L) <= nx * ny * nz /\ length (all_idx nx ny nz) = Z.to_nat (nx * ny * nz) /\ 0 <= nx * ny * nz).
    { assert (P0 : 0 <= nx * ny * nz) by (clear - pos; nia).
      assert (EL : length (all_idx nx ny nz) = Z.to_nat (nx * ny * nz)).
      { exact total_length. }
      split; [|split; assumption].
      assert ((length (x :: L) <= length (all_idx nx ny nz))%nat); [|unfold zlen; lia].
      apply NoDup_incl_length; [now constructor|].
      intros i [<-|Hi]; apply in_all_idx; apply act_in; [assumption|]. now apply HL. }
    destruct Tot as (Tot & EL & P0).
    assert (Hn : zlen (x :: L) = zlen L + 1) by (unfold zlen; cbn; lia).
    assert (U1 : u32 (n + 1) = n + 1) by (unfold u32; apply Z.mod_small; lia).
    rewrite U1.
    assert (R : ranged s) by (intros i Ai; specialize (Rg i Ai); lia).
    destruct (mark_component_ok s x (n + 1) W R ltac:(lia) (conj Ax Gx)) as (s' & M & EM & W' & NDM & HM & G').
    rewrite EM. cbn [obind]. eexists. split; [reflexivity|].
    set (U := fun i => act i = true /\ get s i = 0) in *.
    (* cells of the new component are exactly those joined to x *)
    assert (CA : forall a b, act a = true -> act b = true -> conn a b = true -> conn b a = true)
      by (intros; now apply conn_sym).
    assert (Unl : forall i, joined A C x i -> act i = true /\ get s i = 0).
    { intros i Ji. pose proof (joined_X _ _ _ _ Ji) as [_ Ai]. split; [assumption|].
      destruct (Z.eq_dec (get s i) 0) as [|Hne]; [assumption|].
      apply joined_sym in Ji; [|exact CA]. apply (Cls i x Ai Hne) in Ji. lia. }
    assert (JU : forall i, joined U C x i <-> joined A C x i).
    { intros i. split.
      - apply joined_mono; [intros a [? ?]; assumption|auto].
      - intros H. induction H as [i Hi|i j k H IH F Cjk Ak]; [apply joined_here; split; assumption|].
        apply joined_step with j; auto.
        apply Unl. eapply joined_step; eauto. }
    assert (HM' : forall i, existsb (idx_eqb i) M = true <-> joined A C x i)
      by (intros i; rewrite mem_idx_In, HM; apply JU).
    assert (Gnew : forall i, joined A C x i -> get s' i = n + 1)
      by (intros i Hi; rewrite G'; apply HM' in Hi; now rewrite Hi).
    assert (Gold : forall i, ~ joined A C x i -> get s' i = get s i).
    { intros i Hi. rewrite G'. destruct (existsb (idx_eqb i) M) eqn:Em; [|reflexivity].
      apply HM' in Em. contradiction. }
    assert (Dec : forall i, joined A C x i \/ ~ joined A C x i).
    { intros i. destruct (existsb (idx_eqb i) M) eqn:Em; [left|right]; rewrite <- HM'; congruence. }
    assert (NDA : NoDup (M ++ L)).
    { clear - NDM ND HM HL JU Unl. induction NDM as [|y M Hy NDM IH] in HM |- *.
      - exact ND.
      - assert (forall z, In z M -> act z = true /\ get s z = 0).
        { intros z Hz. apply Unl. apply JU. apply HM. now right. }
        assert (act y = true /\ get s y = 0) as [Ay Gy] by (apply Unl, JU, HM; now left).
        cbn. clear IH HM. assert (Hall : forall z, In z (y :: M) -> get s z = 0).
        { intros z [<-|Hz]; [assumption|now apply H]. }
        constructor.
        + intros Hin. apply in_app_or in Hin. destruct Hin as [Hin|Hin]; [contradiction|]. apply HL in Hin. tauto.
        + clear Hy Ay Gy Hall. induction NDM as [|z M Hz NDM IH]; [exact ND|].
          cbn. constructor.
          * intros Hin. apply in_app_or in Hin. destruct Hin as [Hin|Hin]; [contradiction|].
            apply HL in Hin. destruct (H z (or_introl eq_refl)). tauto.
          * apply IH. intros w Hw. apply H. now right. }
    assert (Lab' : forall i, In i (M ++ L) <-> act i = true /\ get s' i <> 0).
    { intros i. rewrite in_app_iff. rewrite <- mem_idx_In, HM', HL. destruct (Dec i) as [Hi|Hi].
      - rewrite (Gnew i Hi). split; [intros _; split; [now apply Unl|lia]|tauto].
      - rewrite (Gold i Hi). tauto. }
    assert (M1 : 1 <= zlen M).
    { assert (In x M) by (apply HM, JU; now apply joined_here). destruct M; [contradiction|]. unfold zlen. cbn. lia. }
    assert (ZA : zlen (M ++ L) = zlen M + zlen L) by (unfold zlen; rewrite app_length; lia).
    split; [assumption|]. split; [lia|].
    split; [exists (M ++ L); split; [assumption|]; split; [assumption|]; lia|].
    split; [lia|].
    split; [intros i Ai; destruct (Dec i) as [Hi|Hi]; [rewrite (Gnew i Hi); lia|rewrite (Gold i Hi); specialize (Rg i Ai); lia]|].
    split.
    { intros i Hi Ai. apply in_app_or in Hi. destruct (Dec i) as [Ji|Ji]; [rewrite (Gnew i Ji); lia|].
      rewrite (Gold i Ji). destruct Hi as [Hi|[<-|[]]]; [now apply Hpre|].
      exfalso. apply Ji. now apply joined_here. }
    split.
    { intros Hd i Ai. assert (HT : zlen (M ++ L) = nx * ny * nz) by lia.
      apply Lab'. apply (NoDup_length_incl NDA (l' := all_idx nx ny nz)).
      - rewrite EL. unfold zlen in HT. lia.
      - intros j Hj. apply in_all_idx. apply act_in. now apply Lab'.
      - apply in_all_idx. now apply act_in. }
    split.
    { intros i j Ai Hne. destruct (Dec i) as [Ji|Ji].
      - rewrite (Gnew i Ji). split.
        + intros Jij. assert (Jj : joined A C x j) by (eapply joined_trans; eauto).
          split; [now apply joined_X in Jj|]. now apply Gnew.
        + intros [Aj Gj]. destruct (Dec j) as [Jj|Jj].
          * eapply joined_trans; [apply joined_sym; [exact CA|exact Ji]|exact Jj].
          * rewrite (Gold j Jj) in Gj. specialize (Rg j Aj). lia.
      - rewrite (Gold i Ji) in Hne |- *. rewrite (Cls i j Ai Hne). destruct (Dec j) as [Jj|Jj].
        + rewrite (Gnew j Jj). destruct (Unl j Jj) as [_ Gj]. specialize (Rg i Ai). split; intros [_ Q]; exfalso; lia.
        + rewrite (Gold j Jj). tauto. }
    split.
    { intros k Hk. destruct (Z.eq_dec k (n + 1)) as [->|Hk'].
      - exists x. split; [apply in_elt|]. split; [assumption|]. apply Gnew. now apply joined_here.
      - destruct (Us k ltac:(lia)) as (j & Hj & Aj & Gj). exists j.
        split; [apply in_or_app; now left|]. split; [assumption|]. rewrite Gold; [assumption|].
        intros Jj. destruct (Unl j Jj). lia. }
    intros i k Ai Hk.
    assert (Keep : forall j, act j = true -> get s j = k -> get s' j = k).
    { intros j Aj Gj. rewrite Gold; [assumption|]. intros Jj. destruct (Unl j Jj). lia. }
    destruct (Dec i) as [Ji|Ji].
    + rewrite (Gnew i Ji) in Hk. destruct (Us k ltac:(lia)) as (j & Hj & Aj & Gj).
      exists j. split; [assumption|]. split; [now apply Keep|].
      assert (Bi : In i (all_idx nx ny nz)) by (apply in_all_idx, act_in; assumption).
      rewrite E in Bi. apply in_app_or in Bi. destruct Bi as [Bi|[<-|Bi]].
      * exfalso. apply (Hpre i Bi Ai). now apply Unl.
      * eapply scan_prefix; eauto.
      * destruct (in_split _ _ Bi) as (p1 & p2 & ->).
        apply (scan_prefix nx ny nz (pre ++ x :: p1) i p2).
        -- rewrite E, <- app_assoc. reflexivity.
        -- apply in_or_app. now left.
    + rewrite (Gold i Ji) in Hk. destruct (Ord i k Ai Hk) as (j & Aj & Gj & Bj).
      exists j. split; [assumption|]. split; [now apply Keep|assumption].
Qed.

Lemma compute_components_ok s :
  WF (reset_components mark nx ny nz s) ->
  (forall i, act i = true -> get (reset_components mark nx ny nz s) i = 0) ->
  exists s' n, compute_components are_connected get mark nx ny nz s = Some (s', n) /\ WF s' /\
    0 <= n /\
    is_labelling A C (get s') n.
Proof using mark_wf get_mark get_inactive act_in connected_ok conn_sym small pos.
  intros W0 G0. unfold compute_components.
  destruct (ofold_prefix (sweep_step are_connected get mark (nx * ny * nz)) sweep_inv
              (all_idx nx ny nz) (reset_components mark nx ny nz s, 0, 0, false)) as (st & E & I).
  - split; [assumption|]. split; [lia|].
    split; [exists []; split; [constructor|]; split; [|reflexivity]; intros i; split; [contradiction|];
            intros [Ai Hi]; apply Hi; now apply G0|].
    split; [lia|].
    split; [intros i Ai; rewrite (G0 i Ai); lia|]. split; [contradiction|]. split; [discriminate|].
    split; [intros i j Ai Hi; exfalso; apply Hi; now apply G0|]. split; [lia|].
    intros i k Ai Hk. rewrite (G0 i Ai) in Hk. lia.
  - intros pre x post a Ea Ia. eapply sweep_step_inv; eauto.
  - rewrite E. destruct st as [[[s' marked] n] done]. cbn [obind]. exists s', n. split; [reflexivity|].
    destruct I as (W' & N0 & (L & ND & HL & ->) & Nm & Rg & Hpre & _ & Cls & Us & Ord).
    assert (Lab : forall i, act i = true -> get s' i <> 0).
    { intros i Ai. apply Hpre; [|assumption]. apply in_all_idx. now apply act_in. }
    split; [assumption|]. split; [assumption|].
    split; [intros i Ai; specialize (Rg i Ai); specialize (Lab i Ai); lia|].
    split; [intros k Hk; destruct (Us k Hk) as (j & _ & Aj & Gj); now exists j|].
    split; [|assumption].
    intros i j Ai Aj. rewrite (Cls i j Ai (Lab i Ai)). split; [intros ->; tauto|]. intros [_ ->]. reflexivity.
Qed.
End Correct.

(** The reset loop writes every cell once; [P] is any property of a cell that
    marking it with 0 establishes and marking others keeps. *)
Lemma reset_wf {St} (mark : St -> idx -> Z -> St) nx ny nz (WF : St -> Prop) (P : St -> idx -> Prop) s :
  (forall s i, WF s -> WF (mark s i 0)) ->
  (forall s i j, WF s -> in_bounds3 nx ny nz i = true -> P s j \/ i = j -> P (mark s i 0) j) ->
  WF s ->
  WF (reset_components mark nx ny nz s) /\
  (forall i, in_bounds3 nx ny nz i = true -> P (reset_components mark nx ny nz s) i).
Proof.
  intros Hw HP W. unfold reset_components.
  assert (G : forall l s, (forall i, In i l -> in_bounds3 nx ny nz i = true) -> WF s ->
    WF (fold_left (fun s i => mark s i 0) l s) /\
    (forall i, In i l \/ P s i -> P (fold_left (fun s i => mark s i 0) l s) i)).
  { induction l as [|x l IH]; intros s1 B W1; cbn.
    - split; [assumption|]. intros i [[]|H]; assumption.
    - destruct (IH (mark s1 x 0)) as [H1 H2]; [intros; apply B; now right|now apply Hw|]. split; [assumption|].
      intros i Hi. apply H2. destruct Hi as [[->|Hi]|Hi]; [right|now left|right].
      + apply HP; [assumption|apply B; now left|now right].
      + apply HP; [assumption|apply B; now left|now left]. }
  destruct (G (all_idx nx ny nz) s) as [G1 G2]; [intros i Hi; now apply in_all_idx|assumption|].
  split; [assumption|]. intros i Hi. apply G2. left. now apply in_all_idx.
Qed.
