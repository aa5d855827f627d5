(** The one-dimensional transforms compute the lower envelope, for any arithmetic
    meeting [arith_ok]. *)
From Coq Require Import ZArith List Lia Bool ZifyBool.
From Verif Require Import Util Grid Prog Schedule EdtModel EdtSpec.
Import ListNotations.
Local Open Scope Z_scope.
Local Open Scope prog_scope.

Definition bounded (M : Z) (x : dist) : Prop :=
  match x with Some v => 0 <= v <= M | None => True end.

Definition cost (x : dist) (p t : Z) : dist := dadd x ((t - p) * (t - p)).

Definition dltb (a b : dist) : bool :=
  match a, b with
  | None, _ => false
  | Some _, None => true
  | Some x, Some y => x <? y
  end.

Lemma dltb_true a b : dltb a b = true -> dle a b.
Proof. destruct a, b; cbn; try easy. lia. Qed.

Lemma dltb_false a b : dltb a b = false -> dle b a.
Proof. destruct a, b; cbn; try easy. lia. Qed.

(** What the proof needs from the arithmetic for lines of at most [N] elements with
    finite samples in [0, M]. *)
Record arith_ok (A : arith) (rep : num A -> dist -> Prop) (bp : num A -> Prop) (N M : Z) : Prop := {
  ok_inf : rep (a_inf A) None;
  ok_add : forall a x k, rep a x -> bounded M x -> - N < k < N ->
             rep (a_add A (square k) a) (dadd x (k * k));
  ok_lt : forall a x b y, rep a x -> bounded (M + N * N) x -> rep b y -> bounded (M + N * N) y ->
             a_ltb A a b = dltb x y;
  ok_bp : forall a x b y p q, rep a x -> bounded M x -> rep b y -> bounded M y ->
             0 <= p < q -> q < N ->
             let s := breakpoint q p a b in
             bp s /\
             (forall t, 0 <= t < N -> a_ltb A s (a_ofZ A t) = false -> dle (cost y p t) (cost x q t)) /\
             (forall t, 0 <= t < N -> a_ltb A s (a_ofZ A t) = true -> dle (cost x q t) (cost y p t));
  ok_bp_inf : bp (a_inf A);
  ok_inf_lt : forall t, 0 <= t < N -> a_ltb A (a_inf A) (a_ofZ A t) = false;
  ok_le_true : forall s s' t, bp s -> bp s' -> 0 <= t < N -> a_leb A s s' = true ->
             a_ltb A s' (a_ofZ A t) = true -> a_ltb A s (a_ofZ A t) = true;
  ok_le_false : forall s s' t, bp s -> bp s' -> 0 <= t < N -> a_leb A s s' = false ->
             a_ltb A s (a_ofZ A t) = true -> a_ltb A s' (a_ofZ A t) = true;
  ok_lt_mono : forall s t t', bp s -> 0 <= t <= t' -> t' < N ->
             a_ltb A s (a_ofZ A t) = true -> a_ltb A s (a_ofZ A t') = true }.

Section Line.
Variables (A : arith) (rep : num A -> dist -> Prop) (bp : num A -> Prop) (N M : Z).
Hypothesis OK : arith_ok A rep bp N M.
Notation V := (num A).

Variables (n : Z) (ixr : Z -> idx) (g : grid V) (fv : Z -> V) (F : Z -> dist).
Hypothesis Hn : 0 < n <= N.
Hypothesis Wg : gwf g.
Hypothesis Hin : forall p, 0 <= p < n -> in_bounds g (ixr p) = true.
Hypothesis Hinj : forall p p', 0 <= p < n -> 0 <= p' < n -> ixr p = ixr p' -> p = p'.
Hypothesis Hget : forall p, 0 <= p < n -> gget g (ixr p) = Some (fv p).
Hypothesis Hrep : forall p, 0 <= p < n -> rep (fv p) (F p).
Hypothesis Hbd : forall p, 0 <= p < n -> bounded M (F p).

Notation cst p t := (cost (F p) p t).
Notation below s t := (a_ltb A s (a_ofZ A t)).

(** What one transform of the line leaves behind. *)
Definition line_done (g' : grid V) : Prop :=
  gwf g' /\ same_dims g' g /\
  (forall q, 0 <= q < n -> exists w m, gget g' (ixr q) = Some w /\ rep w m /\
     is_min_parabola n F q m) /\
  (forall i, (forall q, 0 <= q < n -> i <> ixr q) -> gget g' i = gget g i).

Lemma write_back_ok d :
  zlen d = n ->
  (forall q, 0 <= q < n -> exists w m, zget d q = Some w /\ rep w m /\ is_min_parabola n F q m) ->
  wp (write_back n ixr d) g (fun _ g' => line_done g').
Proof.
  intros HL HD. unfold write_back.
  eapply wp_mono.
  - apply (wp_pfold_zrange _ (fun q _ g' => gwf g' /\ same_dims g' g /\
      (forall p, 0 <= p < q -> gget g' (ixr p) = zget d p) /\
      (forall i, (forall p, 0 <= p < q -> i <> ixr p) -> gget g' i = gget g i))); [lia| |].
    + split; [easy|]. split; [apply same_dims_refl|]. split; [intros; lia|easy].
    + intros q [] g1 Hq [W1 [D1 [H1 H2]]]. apply wp_bind.
      destruct (HD q Hq) as [w [m [Hw _]]]. eapply wp_lift; [exact Hw|].
      apply wp_write. split; [now apply gset_wf|].
      split; [eapply same_dims_trans; [apply gset_same_dims|easy]|].
      assert (HB : in_bounds g1 (ixr q) = true).
      { rewrite (in_bounds_dims _ _ _ D1). now apply Hin. }
      split.
      * intros p Hp. destruct (Z.eq_dec p q) as [->|Np].
        -- rewrite gget_gset_same; easy.
        -- rewrite gget_gset_other; [apply H1; lia|easy|]. intros E. apply Hinj in E; lia.
      * intros i Hi. rewrite gget_gset_other; [apply H2|easy|apply Hi; lia].
        intros p Hp. apply Hi. lia.
  - cbn. intros _ g' [W' [D' [H1 H2]]]. split; [easy|]. split; [easy|]. split; [|easy].
    intros q Hq. destruct (HD q Hq) as [w [m [Hw [Hr Hm]]]]. exists w, m.
    rewrite H1 by lia. easy.
Qed.

(** *** Brute force *)

Lemma bounded_cost q p : 0 <= p < n -> 0 <= q < n -> bounded (M + N * N) (cst p q).
Proof.
  intros Hp Hq. specialize (Hbd p Hp). unfold cost, bounded, dadd in *.
  destruct (F p); [|easy]. pose proof (Z.square_nonneg (q - p)).
  assert (0 <= (N - (q - p)) * (N + (q - p))) by (apply Z.mul_nonneg_nonneg; lia). lia.
Qed.

Lemma rep_cost q p : 0 <= p < n -> 0 <= q < n ->
  rep (a_add A (square (q - p)) (fv p)) (cst p q).
Proof.
  intros Hp Hq. unfold cost. apply (ok_add _ _ _ _ _ OK); auto. lia.
Qed.

(** Minimum of the first [hi] parabolas, or infinity. *)
Definition part_min (hi q : Z) (m : dist) : Prop :=
  bounded (M + N * N) m /\
  (forall p, 0 <= p < hi -> dle m (cst p q)) /\
  (m = None \/ exists p, 0 <= p < hi /\ m = cst p q).

Lemma part_min_full q m : part_min n q m -> is_min_parabola n F q m.
Proof.
  intros [_ [H1 H2]]. split; [exact H1|]. destruct H2 as [->|H2]; [|exact H2].
  exists 0. split; [lia|]. specialize (H1 0 ltac:(lia)). unfold cost in H1.
  destruct (F 0); cbn in *; easy.
Qed.

Lemma edt_brute_force_ok : wp (edt_brute_force n ixr) g (fun _ g' => line_done g').
Proof.
  unfold edt_brute_force. apply wp_bind.
  eapply wp_mono.
  - apply (wp_pfold_zrange _ (fun q d g' => g' = g /\ zlen d = n /\
      (forall p, 0 <= p < q -> exists w m, zget d p = Some w /\ rep w m /\ part_min n p m) /\
      (forall p, q <= p < n -> zget d p = Some (a_inf A)))); [lia| |].
    + split; [easy|]. split; [rewrite zlen_repeat; lia|]. split; [intros; lia|].
      intros p Hp. apply zget_repeat. lia.
    + intros q d g1 Hq [-> [HL [H1 H2]]].
      eapply wp_mono.
      * apply (wp_pfold_zrange _ (fun hi d' g' => g' = g /\ zlen d' = n /\
          (forall p, p <> q -> zget d' p = zget d p) /\
          exists w m, zget d' q = Some w /\ rep w m /\ part_min hi q m)); [lia| |].
        -- split; [easy|]. split; [easy|]. split; [easy|].
           exists (a_inf A), None. split; [apply H2; lia|]. split; [apply (ok_inf _ _ _ _ _ OK)|].
           split; [easy|]. split; [intros; lia|]. now left.
        -- intros o d1 g2 Ho [-> [HL1 [HO (w & m & Hw & Hr & Hm)]]].
           unfold brute_inner. apply wp_bind. eapply wp_read; [apply Hget; lia|].
           apply wp_bind. eapply wp_lift; [exact Hw|].
           destruct Hm as [Hb [Hm1 Hm2]].
           rewrite (ok_lt _ _ _ _ _ OK _ _ _ _ (rep_cost q o ltac:(lia) ltac:(lia))
                     (bounded_cost q o ltac:(lia) ltac:(lia)) Hr Hb).
           destruct (dltb (cst o q) m) eqn:Elt.
           ++ destruct (zset_some d1 q (a_add A (square (q - o)) (fv o))) as [d2 Hd2]; [lia|].
              eapply wp_lift; [exact Hd2|].
              split; [easy|]. split; [apply zset_length in Hd2; lia|]. split.
              ** intros p Np. rewrite (zget_zset_other _ _ _ _ _ Hd2) by easy. now apply HO.
              ** exists (a_add A (square (q - o)) (fv o)), (cst o q).
                 split; [eapply zget_zset_same; eauto|]. split; [apply rep_cost; lia|].
                 split; [apply bounded_cost; lia|]. split.
                 { intros p Hp. destruct (Z.eq_dec p o) as [->|Np]; [apply dle_refl|].
                   eapply dle_trans; [apply dltb_true; exact Elt|]. apply Hm1. lia. }
                 { right. exists o. split; [lia|easy]. }
           ++ apply wp_ret. split; [easy|]. split; [easy|]. split; [easy|].
              exists w, m. split; [easy|]. split; [easy|]. split; [easy|]. split.
              { intros p Hp. destruct (Z.eq_dec p o) as [->|Np]; [now apply dltb_false|].
                apply Hm1. lia. }
              { destruct Hm2 as [->|[p [Hp ->]]]; [now left|right]. exists p. split; [lia|easy]. }
      * cbn. intros d' g' [-> [HL' [HO HQ]]]. split; [easy|]. split; [easy|]. split.
        -- intros p Hp. destruct (Z.eq_dec p q) as [->|Np]; [exact HQ|].
           rewrite HO by easy. apply H1. lia.
        -- intros p Hp. rewrite HO by lia. apply H2. lia.
  - cbn. intros d g' [-> [HL [H1 _]]]. apply write_back_ok; [easy|].
    intros q Hq. destruct (H1 q Hq) as [w [m [Hw [Hr Hm]]]]. exists w, m.
    split; [easy|]. split; [easy|]. now apply part_min_full.
Qed.

(** *** Linear: phase 1 *)

(** The stack after processing the samples [0, q): [vv 0 .. vv k] with breakpoints
    [zz 1 .. zz k]. *)
Record stack (q k : Z) (vv : Z -> Z) (zz : Z -> V) : Prop := {
  st_k : 0 <= k < q;
  st_rng : forall j, 0 <= j <= k -> 0 <= vv j < q;
  st_inc : forall j, 0 <= j < k -> vv j < vv (j + 1);
  st_bp : forall j, 1 <= j <= k -> bp (zz j);
  st_lo : forall j t, 1 <= j <= k -> 0 <= t < n -> below (zz j) t = false ->
            dle (cst (vv (j - 1)) t) (cst (vv j) t);
  st_hi : forall j t, 1 <= j <= k -> 0 <= t < n -> below (zz j) t = true ->
            dle (cst (vv j) t) (cst (vv (j - 1)) t);
  st_sorted : forall j, 1 <= j < k -> a_leb A (zz (j + 1)) (zz j) = false;
  st_cover : forall p t, 0 <= p < q -> 0 <= t < n ->
            exists j, 0 <= j <= k /\ dle (cst (vv j) t) (cst p t) }.

Lemma compute_s_ok v q k vk :
  zget v k = Some vk -> 0 <= vk < n -> 0 <= q < n ->
  forall (Q : V -> grid V -> Prop),
  Q (breakpoint q vk (fv q) (fv vk)) g -> wp (compute_s ixr v q k) g Q.
Proof.
  intros Hv Hvk Hq Q HQ. unfold compute_s. apply wp_bind. eapply wp_lift; [exact Hv|].
  apply wp_bind. eapply wp_read; [now apply Hget|].
  apply wp_bind. eapply wp_read; [now apply Hget|]. now apply wp_ret.
Qed.

Lemma bp_ok q p : 0 <= p < q -> q < n ->
  let s := breakpoint q p (fv q) (fv p) in
  bp s /\
  (forall t, 0 <= t < n -> below s t = false -> dle (cst p t) (cst q t)) /\
  (forall t, 0 <= t < n -> below s t = true -> dle (cst q t) (cst p t)).
Proof.
  intros Hp Hq s.
  destruct (ok_bp _ _ _ _ _ OK (fv q) (F q) (fv p) (F p) p q) as [B1 [B2 B3]];
    try (apply Hrep; lia); try (apply Hbd; lia); try lia.
  split; [exact B1|]. split; intros t Ht; [apply B2|apply B3]; lia.
Qed.

(** State of the [while] loop of phase 1. *)
Record popst (q k0 k : Z) (vv : Z -> Z) (zz : Z -> V) (s : V) : Prop := {
  po_k : 0 <= k <= k0;
  po_s : s = breakpoint q (vv k) (fv q) (fv (vv k));
  po_cover : forall p t, 0 <= p <= q -> 0 <= t < n ->
    dle (cst q t) (cst p t) \/ exists j, 0 <= j <= k /\ dle (cst (vv j) t) (cst p t) }.

Lemma pop_while_ok q k0 vv zz v z :
  1 <= q < n -> stack q k0 vv zz ->
  (forall j, 0 <= j <= k0 -> zget v j = Some (vv j)) ->
  (forall j, 0 <= j <= k0 + 1 -> zget z j = Some (zz j)) ->
  forall fuel k s, Z.of_nat fuel >= k -> popst q k0 k vv zz s ->
  wp (pop_while fuel ixr v z q k s) g (fun r g' => g' = g /\
    popst q k0 (fst r) vv zz (snd r) /\
    (fst r = 0 \/ a_leb A (snd r) (zz (fst r)) = false)).
Proof.
  intros Hq ST Hv Hz. induction fuel as [|fuel IH]; intros k s Hf PS; cbn [pop_while].
  - destruct (0 <? k) eqn:E; [pose proof (po_k _ _ _ _ _ _ PS); lia|].
    apply wp_ret. split; [easy|]. split; [exact PS|].
    left. cbn. pose proof (po_k _ _ _ _ _ _ PS). lia.
  - pose proof (po_k _ _ _ _ _ _ PS) as Hk.
    destruct (0 <? k) eqn:E.
    2:{ apply wp_ret. split; [easy|]. split; [exact PS|]. left; cbn; lia. }
    apply wp_bind. eapply wp_lift; [apply Hz; lia|].
    destruct (a_leb A s (zz k)) eqn:El.
    2:{ apply wp_ret. split; [easy|]. split; [exact PS|]. now right. }
    apply wp_bind.
    pose proof (st_k _ _ _ _ ST) as Hk0.
    assert (Hv1 : 0 <= vv (k - 1) < q) by (apply (st_rng _ _ _ _ ST); lia).
    assert (Hvk : 0 <= vv k < q) by (apply (st_rng _ _ _ _ ST); lia).
    apply (compute_s_ok v q (k - 1) (vv (k - 1))); [apply Hv; lia|lia|lia|].
    apply IH; [lia|]. split; [lia|easy|].
    intros p t Hp Ht.
    destruct (po_cover _ _ _ _ _ _ PS p t Hp Ht) as [C|[j [Hj C]]]; [now left|].
    destruct (Z.eq_dec j k) as [->|Nj].
    2:{ right. exists j. split; [lia|easy]. }
    destruct (bp_ok q (vv k)) as [B1 [B2 B3]]; [lia|lia|].
    rewrite (po_s _ _ _ _ _ _ PS) in El.
    destruct (below (zz k) t) eqn:Eb.
    + left. eapply dle_trans; [apply B3; [easy|]|exact C].
      eapply (ok_le_true _ _ _ _ _ OK); [exact B1| |lia|exact El|exact Eb].
      apply (st_bp _ _ _ _ ST). lia.
    + right. exists (k - 1). split; [lia|].
      eapply dle_trans; [|exact C]. apply (st_lo _ _ _ _ ST); [lia|easy|easy].
Qed.

Definition p1_inv (q : Z) (st : Z * list Z * list V) (g' : grid V) : Prop :=
  g' = g /\ let '(k, v, z) := st in
  zlen v = n /\ zlen z = n + 1 /\
  exists vv zz, stack q k vv zz /\
    (forall j, 0 <= j <= k -> zget v j = Some (vv j)) /\
    (forall j, 0 <= j <= k + 1 -> zget z j = Some (zz j)) /\
    zz (k + 1) = a_inf A.

Lemma phase1_step_ok q st :
  1 <= q < n -> p1_inv q st g -> wp (phase1_step ixr st q) g (p1_inv (q + 1)).
Proof.
  destruct st as [[k v] z]. intros Hq [_ [HLv [HLz (vv & zz & ST & Hv & Hz & _)]]].
  unfold phase1_step. pose proof (st_k _ _ _ _ ST) as Hk.
  assert (Hvk : 0 <= vv k < q) by (apply (st_rng _ _ _ _ ST); lia).
  apply wp_bind. apply (compute_s_ok v q k (vv k)); [apply Hv; lia|lia|lia|].
  apply wp_bind.
  eapply wp_mono; [apply (pop_while_ok q k vv zz v z); try easy; [lia|]|].
  { split; [lia|easy|]. intros p t Hp Ht. destruct (Z.eq_dec p q) as [->|Np].
    - left. apply dle_refl.
    - right. apply (st_cover _ _ _ _ ST); lia. }
  cbn. intros [k1 s] g' [-> [PS Hle]]. cbn in PS, Hle.
  pose proof (po_k _ _ _ _ _ _ PS) as Hk1.
  destruct (zset_some v (k1 + 1) q) as [v' Ev]; [lia|].
  destruct (zset_some z (k1 + 1) s) as [z' Ez]; [lia|].
  assert (HLz' : zlen z' = n + 1) by (apply zset_length in Ez; lia).
  destruct (zset_some z' (k1 + 1 + 1) (a_inf A)) as [z'' Ez']; [lia|].
  apply wp_bind. eapply wp_lift; [exact Ev|].
  apply wp_bind. eapply wp_lift; [exact Ez|].
  apply wp_bind. eapply wp_lift; [exact Ez'|]. apply wp_ret.
  split; [easy|]. split; [apply zset_length in Ev; lia|].
  split; [apply zset_length in Ez'; lia|].
  exists (fun j => if j =? k1 + 1 then q else vv j),
         (fun j => if j =? k1 + 1 + 1 then a_inf A else if j =? k1 + 1 then s else zz j).
  assert (Hvk1 : 0 <= vv k1 < q) by (apply (st_rng _ _ _ _ ST); lia).
  destruct (bp_ok q (vv k1)) as [B1 [B2 B3]]; [lia|lia|].
  rewrite <- (po_s _ _ _ _ _ _ PS) in B1, B2, B3.
  split; [split|split; [|split]].
  - lia.
  - intros j Hj. destruct (j =? k1 + 1) eqn:E; [lia|].
    pose proof (st_rng _ _ _ _ ST j ltac:(lia)). lia.
  - intros j Hj. destruct (j =? k1 + 1) eqn:E; [lia|].
    destruct (j + 1 =? k1 + 1) eqn:E'.
    + pose proof (st_rng _ _ _ _ ST j ltac:(lia)). lia.
    + apply (st_inc _ _ _ _ ST). lia.
  - intros j Hj. destruct (j =? k1 + 1 + 1) eqn:E; [lia|]. destruct (j =? k1 + 1) eqn:E'; [easy|].
    apply (st_bp _ _ _ _ ST). lia.
  - intros j t Hj Ht. destruct (j =? k1 + 1 + 1) eqn:E; [lia|].
    destruct (j - 1 =? k1 + 1) eqn:E1; [lia|]. destruct (j =? k1 + 1) eqn:E2.
    + replace (j - 1) with k1 by lia. now apply B2.
    + apply (st_lo _ _ _ _ ST); lia.
  - intros j t Hj Ht. destruct (j =? k1 + 1 + 1) eqn:E; [lia|].
    destruct (j - 1 =? k1 + 1) eqn:E1; [lia|]. destruct (j =? k1 + 1) eqn:E2.
    + replace (j - 1) with k1 by lia. now apply B3.
    + apply (st_hi _ _ _ _ ST); lia.
  - intros j Hj. destruct (j =? k1 + 1 + 1) eqn:E; [lia|].
    destruct (j + 1 =? k1 + 1 + 1) eqn:E1; [lia|].
    destruct (j =? k1 + 1) eqn:E2; [lia|]. destruct (j + 1 =? k1 + 1) eqn:E3.
    + destruct Hle as [Hle|Hle]; [lia|]. now replace j with k1 by lia.
    + apply (st_sorted _ _ _ _ ST). lia.
  - intros p t Hp Ht. destruct (po_cover _ _ _ _ _ _ PS p t ltac:(lia) Ht) as [C|[j [Hj C]]].
    + exists (k1 + 1). split; [lia|]. rewrite Z.eqb_refl. exact C.
    + exists j. split; [lia|]. destruct (j =? k1 + 1) eqn:E; [lia|]. exact C.
  - intros j Hj. destruct (j =? k1 + 1) eqn:E.
    + replace j with (k1 + 1) by lia. eapply zget_zset_same; eauto.
    + rewrite (zget_zset_other _ _ _ _ _ Ev) by lia. apply Hv. lia.
  - intros j Hj. destruct (j =? k1 + 1 + 1) eqn:E.
    + replace j with (k1 + 1 + 1) by lia. eapply zget_zset_same; eauto.
    + rewrite (zget_zset_other _ _ _ _ _ Ez') by lia. destruct (j =? k1 + 1) eqn:E'.
      * replace j with (k1 + 1) by lia. eapply zget_zset_same; eauto.
      * rewrite (zget_zset_other _ _ _ _ _ Ez) by lia. apply Hz. lia.
  - cbn. destruct (k1 + 1 + 1 =? k1 + 1 + 1) eqn:E; [easy|lia].
Qed.

(** *** Linear: phase 2 *)

Section Phase2.
Variables (K : Z) (vv : Z -> Z) (zz : Z -> V) (v : list Z) (z : list V).
Hypothesis ST : stack n K vv zz.
Hypothesis Hv : forall j, 0 <= j <= K -> zget v j = Some (vv j).
Hypothesis Hz : forall j, 0 <= j <= K + 1 -> zget z j = Some (zz j).
Hypothesis Hlast : zz (K + 1) = a_inf A.

Lemma below_down t j k : 0 <= t < n -> 1 <= j <= k -> k <= K ->
  below (zz k) t = true -> below (zz j) t = true.
Proof.
  intros Ht Hj Hk.
  remember (Z.to_nat (k - j)) as d eqn:Ed. revert k Hj Hk Ed.
  induction d as [|d IH]; intros k Hj Hk Ed HB.
  - now replace j with k by lia.
  - apply (IH (k - 1)); [lia|lia|lia|].
    eapply (ok_le_false _ _ _ _ _ OK (zz k)); [apply (st_bp _ _ _ _ ST); lia
      |apply (st_bp _ _ _ _ ST); lia|lia| |exact HB].
    replace (zz k) with (zz (k - 1 + 1)) by (f_equal; lia).
    apply (st_sorted _ _ _ _ ST). lia.
Qed.

Lemma select_ok t k : 0 <= t < n -> 0 <= k <= K ->
  (forall j, 1 <= j <= k -> below (zz j) t = true) ->
  below (zz (k + 1)) t = false ->
  is_min_parabola n F t (cst (vv k) t).
Proof.
  intros Ht Hk HB HN.
  assert (Lo : forall j, 0 <= j <= k -> dle (cst (vv k) t) (cst (vv j) t)).
  { intros j Hj. remember (Z.to_nat (k - j)) as d eqn:Ed. revert j Hj Ed.
    induction d as [|d IH]; intros j Hj Ed.
    - replace j with k by lia. apply dle_refl.
    - eapply dle_trans; [apply (IH (j + 1)); lia|].
      pose proof (st_hi _ _ _ _ ST (j + 1) t ltac:(lia) Ht (HB (j + 1) ltac:(lia))) as H.
      now replace (j + 1 - 1) with j in H by lia. }
  assert (Hi : forall j, k <= j <= K -> dle (cst (vv k) t) (cst (vv j) t)).
  { intros j Hj. remember (Z.to_nat (j - k)) as d eqn:Ed. revert j Hj Ed.
    induction d as [|d IH]; intros j Hj Ed.
    - replace j with k by lia. apply dle_refl.
    - eapply dle_trans; [apply (IH (j - 1)); lia|].
      apply (st_lo _ _ _ _ ST); [lia|easy|].
      destruct (below (zz j) t) eqn:E; [|easy].
      apply (below_down t (k + 1) j) in E; [congruence|easy|lia|lia]. }
  split.
  - intros p Hp. destruct (st_cover _ _ _ _ ST p t Hp Ht) as [j [Hj C]].
    eapply dle_trans; [|exact C].
    destruct (Z_le_gt_dec j k); [apply Lo; lia|apply Hi; lia].
  - exists (vv k). split; [apply (st_rng _ _ _ _ ST); lia|easy].
Qed.

Lemma advance_while_ok t : 0 <= t < n ->
  forall fuel k, 0 <= k <= K -> Z.of_nat fuel >= K - k ->
  (forall j, 1 <= j <= k -> below (zz j) t = true) ->
  exists k', advance_while fuel z t k = Some k' /\ k <= k' <= K /\
    (forall j, 1 <= j <= k' -> below (zz j) t = true) /\ below (zz (k' + 1)) t = false.
Proof.
  intros Ht. induction fuel as [|fuel IH]; intros k Hk Hf HB; cbn [advance_while];
    rewrite Hz by lia; cbn [obind].
  - assert (k = K) by lia. subst k. rewrite Hlast.
    rewrite (ok_inf_lt _ _ _ _ _ OK) by lia. exists K. split; [easy|]. split; [lia|].
    split; [easy|]. rewrite Hlast. apply (ok_inf_lt _ _ _ _ _ OK). lia.
  - destruct (below (zz (k + 1)) t) eqn:E.
    + assert (k <> K).
      { intros ->. rewrite Hlast, (ok_inf_lt _ _ _ _ _ OK) in E by lia. discriminate. }
      destruct (IH (k + 1)) as [k' [E' [Hk' HH]]]; [lia|lia| |].
      * intros j Hj. destruct (Z.eq_dec j (k + 1)) as [->|]; [easy|]. apply HB. lia.
      * exists k'. split; [easy|]. split; [lia|easy].
    + exists k. split; [easy|]. split; [lia|]. split; easy.
Qed.

Definition p2_inv (q : Z) (st : Z * list V) (g' : grid V) : Prop :=
  g' = g /\ let '(k, d) := st in
  0 <= k <= K /\ zlen d = n /\
  (forall j t, 1 <= j <= k -> q <= t < n -> below (zz j) t = true) /\
  (forall p, 0 <= p < q -> exists w m, zget d p = Some w /\ rep w m /\ is_min_parabola n F p m).

Lemma phase2_step_ok q st :
  0 <= q < n -> p2_inv q st g -> wp (phase2_step n ixr v z st q) g (p2_inv (q + 1)).
Proof.
  destruct st as [k d]. intros Hq [_ [Hk [HL [HB HD]]]]. unfold phase2_step.
  pose proof (st_k _ _ _ _ ST) as HK.
  destruct (advance_while_ok q Hq (Z.to_nat n) k) as [k' [Ea [Hk' [HB' HN]]]];
    [lia|lia|intros j Hj; apply HB; lia|].
  apply wp_bind. eapply wp_lift; [exact Ea|].
  apply wp_bind. eapply wp_lift; [apply Hv; lia|].
  assert (Hr : 0 <= vv k' < n) by (apply (st_rng _ _ _ _ ST); lia).
  apply wp_bind. eapply wp_read; [now apply Hget|].
  destruct (zset_some d q (a_add A (square (q - vv k')) (fv (vv k')))) as [d' Ed]; [lia|].
  apply wp_bind. eapply wp_lift; [exact Ed|]. apply wp_ret.
  split; [easy|]. split; [lia|]. split; [apply zset_length in Ed; lia|]. split.
  - intros j t Hj Ht. eapply (ok_lt_mono _ _ _ _ _ OK _ q t); [apply (st_bp _ _ _ _ ST); lia|lia|lia|].
    now apply HB'.
  - intros p Hp. destruct (Z.eq_dec p q) as [->|Np].
    + exists (a_add A (square (q - vv k')) (fv (vv k'))), (cst (vv k') q).
      split; [eapply zget_zset_same; eauto|]. split; [apply rep_cost; lia|].
      now apply select_ok; [|lia| |].
    + rewrite (zget_zset_other _ _ _ _ _ Ed) by easy. apply HD. lia.
Qed.
End Phase2.

Lemma wp_same_grid {B} (p : prog V B) (Q : B -> grid V -> Prop) (P : B -> Prop) :
  wp p g (fun r g' => g' = g /\ P r) -> (forall r, P r -> Q r g) -> wp p g Q.
Proof. intros H HQ. eapply wp_mono; [exact H|]. cbn. intros r g' [-> HP]. auto. Qed.

Lemma edt_linear_ok : wp (edt_linear n ixr) g (fun _ g' => line_done g').
Proof.
  unfold edt_linear.
  destruct (zset_some (repeat (a_zero A) (Z.to_nat (n + 1))) 0 (a_ninf A)) as [z0 E0];
    [rewrite zlen_repeat; lia|].
  assert (L0 : zlen z0 = n + 1) by (apply zset_length in E0; rewrite zlen_repeat in E0; lia).
  destruct (zset_some z0 1 (a_inf A)) as [z1 E1]; [lia|].
  assert (L1 : zlen z1 = n + 1) by (apply zset_length in E1; lia).
  apply wp_bind. eapply wp_lift; [exact E0|].
  apply wp_bind. eapply wp_lift; [exact E1|].
  apply wp_bind. eapply wp_mono.
  - apply (wp_pfold_zrange _ p1_inv); [lia| |].
    + split; [easy|]. split; [rewrite zlen_repeat; lia|]. split; [easy|].
      exists (fun _ => 0), (fun j => if j =? 1 then a_inf A else a_ninf A).
      split; [split|split; [|split]]; try (intros; lia).
      * intros p t Hp Ht. exists 0. split; [lia|]. replace p with 0 by lia. apply dle_refl.
      * intros j Hj. apply zget_repeat. lia.
      * intros j Hj. destruct (j =? 1) eqn:E.
        -- replace j with 1 by lia. eapply zget_zset_same; eauto.
        -- rewrite (zget_zset_other _ _ _ _ _ E1) by lia. replace j with 0 by lia.
           eapply zget_zset_same; eauto.
      * easy.
    + intros q st g' Hq HI. assert (Eg : g' = g) by apply HI. subst g'. now apply phase1_step_ok.
  - cbn. intros [[K v] z] g' [-> [HLv [HLz (vv & zz & ST & Hv & Hz & Hlast)]]].
    apply wp_bind. eapply wp_mono.
    + apply (wp_pfold_zrange _ (p2_inv K zz)); [lia| |].
      * split; [easy|]. pose proof (st_k _ _ _ _ ST). split; [lia|].
        split; [rewrite zlen_repeat; lia|]. split; intros; lia.
      * intros q st g' Hq HI. assert (Eg : g' = g) by apply HI. subst g'.
        now apply (phase2_step_ok K vv zz v z).
    + cbn. intros [k d] g' [-> [_ [HL [_ HD]]]]. now apply write_back_ok.
Qed.

Lemma edt_1d_ok : exists g', run (edt_1d n ixr) g = Some (tt, g') /\ line_done g'.
Proof.
  assert (H : wp (edt_1d n ixr) g (fun _ g' => line_done g')).
  { unfold edt_1d. destruct (8 <? n); [apply edt_linear_ok|apply edt_brute_force_ok]. }
  unfold wp in H. destruct (run (edt_1d n ixr) g) as [[[] g']|]; [|easy]. now exists g'.
Qed.

End Line.
