(** A map for a mesh, computed in binary64. *)
From Coq Require Import ZArith Reals List Bool Lia Lra.
From Flocq Require Import Core BinarySingleNaN.
From Verif Require Import Util Grid Occ Prog Schedule EdtFloat FloatModel SdfQueryModel SdfQueryArith SdfDoubleModel SdfDoubleSpec SdfDoubleProofs MeshModel MeshProofs
  MeshGeoProofs MeshDoubleModel.
Import ListNotations.
Local Open Scope R_scope.

(** ** One axis *)

Notation K := 281474976710656.

Lemma rnd_len r x c : bpow radix2 (-300) <= r <= bpow radix2 300 -> Rabs x <= c * r -> Rabs (rnd x - x) <= (c + 1) * (u53 * r).
Proof.
  intros Hr H. eapply Rle_trans; [apply (rnd_close x r)|].
  - apply Rle_trans with (bpow radix2 (-300)); [apply bpow_le; lia|apply Hr].
  - replace ((c + 1) * (u53 * r)) with (u53 * (c * r + r)) by ring. apply Rmult_le_compat_l; [left; apply u53_pos|lra].
Qed.

Lemma len_huge r x c : bpow radix2 (-300) <= r <= bpow radix2 300 -> Rabs x <= c * r -> c <= bpow radix2 100 -> Rabs x <= huge.
Proof.
  intros Hr H Hc. pose proof (bpow_gt_0 radix2 (-300)). eapply Rle_trans; [exact H|]. apply Rle_trans with (bpow radix2 100 * bpow radix2 300).
  - apply Rle_trans with (bpow radix2 100 * r); [apply Rmult_le_compat_r; lra|]. apply Rmult_le_compat_l; [apply bpow_ge_0|apply Hr].
  - rewrite <- bpow_plus. apply bpow_le. lia.
Qed.

Lemma axis_double fl (res lo hi v : b64) : floors fl -> is_finite res = true ->
  is_finite lo = true -> is_finite hi = true -> is_finite v = true ->
  let r := B2R res in
  bpow radix2 (-300) <= r <= bpow radix2 300 -> Rabs (B2R lo) <= K * r -> Rabs (B2R hi) <= K * r -> B2R lo <= B2R v <= B2R hi ->
  let o := b64_sub lo res in
  let q := b64_sub v o in
  let i := fl (b64_mul q (b64_div (b64_lit 1 0) res)) in
  let n := (- fl (Bopp (b64_div (b64_add (b64_sub hi lo) (b64_mul res (b64_lit 2 0))) res)))%Z in
  is_finite q = true /\ r / 2 <= B2R q <= r * IZR n - r / 2 /\ (0 <= i < n)%Z /\ r * IZR n <= B2R hi - B2R lo + 4 * r.
Proof.
  intros Hfl Fr Flo Fhi Fv r Hr Blo Bhi Bv o q i n. assert (rp : 0 < r) by (pose proof (bpow_gt_0 radix2 (-300)); lra). pose proof u53_pos as U0. pose proof u53_val as U1.
  set (ur := u53 * r). assert (Up : 0 < ur) by (apply Rmult_lt_0_compat; assumption).
  assert (Ur : ur * 9007199254740992 = r) by (unfold ur; replace (u53 * r * 9007199254740992) with (u53 * 9007199254740992 * r) by ring; rewrite U1; ring).
  assert (B100 : 1000000000000000000000000000 <= bpow radix2 100) by (change (bpow radix2 100) with (IZR (2 ^ 100)); apply IZR_le; lia).
  apply Rabs_le_inv in Blo, Bhi.
  set (l := B2R lo) in *. set (h := B2R hi) in *. set (x := B2R v) in *.
  assert (Vr : val res r) by (split; [exact Fr|reflexivity]).
  (* the corner *)
  assert (A1 : Rabs (l - r) <= (K + 1) * r) by (apply Rabs_le; lra).
  assert (Vo : val o (rnd (l - r))) by (apply sub_val; [split; [exact Flo|reflexivity]|exact Vr|apply (len_huge r _ _ Hr A1); lra]).
  pose proof (rnd_len r _ _ Hr A1) as E1. fold ur in E1. apply Rabs_le_inv in E1. set (O := rnd (l - r)) in *.
  (* the location *)
  assert (A2 : Rabs (x - O) <= (2 * K + 2) * r) by (apply Rabs_le; lra).
  assert (Vq : val q (rnd (x - O))) by (apply sub_val; [split; [exact Fv|reflexivity]|exact Vo|apply (len_huge r _ _ Hr A2); lra]).
  pose proof (rnd_len r _ _ Hr A2) as E2. fold ur in E2. apply Rabs_le_inv in E2. set (Q := rnd (x - O)) in *.
  (* the size *)
  assert (A3 : Rabs (h - l) <= (2 * K) * r) by (apply Rabs_le; lra).
  assert (Vs : val (b64_sub hi lo) (rnd (h - l))).
  { apply sub_val; [split; [exact Fhi|reflexivity]|split; [exact Flo|reflexivity]|apply (len_huge r _ _ Hr A3); lra]. }
  pose proof (rnd_len r _ _ Hr A3) as E3. fold ur in E3. apply Rabs_le_inv in E3. set (S := rnd (h - l)) in *.
  assert (A4 : Rabs (r * 2) <= 2 * r) by (apply Rabs_le; lra).
  assert (V2 : val (b64_lit 2 0) 2) by (replace 2 with (IZR 2 * bpow radix2 0) by (cbn; lra); apply lit_val; [reflexivity|lia]).
  assert (Vb : val (b64_mul res (b64_lit 2 0)) (rnd (r * 2))) by (apply mul_val; [exact Vr|exact V2|apply (len_huge r _ _ Hr A4); lra]).
  pose proof (rnd_len r _ _ Hr A4) as E4. fold ur in E4. apply Rabs_le_inv in E4. set (Bf := rnd (r * 2)) in *.
  assert (A5 : Rabs (S + Bf) <= (2 * K + 4) * r) by (apply Rabs_le; lra).
  assert (Vg : val (b64_add (b64_sub hi lo) (b64_mul res (b64_lit 2 0))) (rnd (S + Bf))) by (apply add_val; [exact Vs|exact Vb|apply (len_huge r _ _ Hr A5); lra]).
  pose proof (rnd_len r _ _ Hr A5) as E5. fold ur in E5. apply Rabs_le_inv in E5. set (G := rnd (S + Bf)) in *.
  (* the count *)
  set (D := G / r). assert (DG : D * r = G) by (unfold D; field; lra).
  assert (D0 : 0 <= D <= 2 * K + 6).
  { clear - DG E3 E4 E5 Ur Up Blo Bhi Bv rp. split; apply Rmult_le_reg_r with r; lra. }
  assert (HD : Rabs D <= huge).
  { rewrite Rabs_pos_eq by apply D0. apply Rle_trans with (bpow radix2 100); [lra|apply bpow_le; lia]. }
  assert (Vd : val (b64_div (b64_add (b64_sub hi lo) (b64_mul res (b64_lit 2 0))) res) (rnd D)) by (apply div_val; [exact Vg|exact Vr|lra|exact HD]).
  pose proof (rnd_close D 1 ltac:(change 1 with (bpow radix2 0); apply bpow_le; lia)) as E6. rewrite (Rabs_pos_eq D) in E6 by apply D0.
  assert (E6' : Rabs (rnd D - D) <= u53 * (2 * K + 7)) by (eapply Rle_trans; [exact E6|apply Rmult_le_compat_l; lra]).
  clear E6. apply Rabs_le_inv in E6'. set (N := rnd D) in *.
  assert (Hn : n = Zceil N).
  { unfold n. destruct Vd as (Fd & Ed). unfold Zceil. f_equal. rewrite Hfl.
    - rewrite B2R_Bopp, Ed. reflexivity.
    - now rewrite is_finite_Bopp.
    - rewrite B2R_Bopp, Rabs_Ropp, Ed. apply Rle_lt_trans with (IZR (2 ^ 62)); [|change (bpow radix2 63) with (IZR (2 ^ 63)); apply IZR_lt; lia].
      apply Rabs_le. clear - E6' D0 U0 U1. change (2 ^ 62)%Z with 4611686018427387904%Z. lra. }
  assert (N1 : N <= IZR n < N + 1).
  { rewrite Hn. split; [apply Zceil_ub|]. pose proof (Zceil_lb N). lra. }
  assert (Nr : D * r - (2 * K + 7) * ur <= r * IZR n <= D * r + (2 * K + 7) * ur + r).
  { assert (X1 : (D - u53 * (2 * K + 7)) * r <= IZR n * r) by (apply Rmult_le_compat_r; lra).
    assert (X2 : IZR n * r <= (D + u53 * (2 * K + 7) + 1) * r) by (apply Rmult_le_compat_r; lra).
    replace ((D - u53 * (2 * K + 7)) * r) with (D * r - (2 * K + 7) * ur) in X1 by (unfold ur; ring).
    replace ((D + u53 * (2 * K + 7) + 1) * r) with (D * r + (2 * K + 7) * ur + r) in X2 by (unfold ur; ring).
    rewrite (Rmult_comm r (IZR n)). split; assumption. }
  rewrite DG in Nr.
  destruct Vq as (Fq & Eq). split; [exact Fq|].
  assert (Mid : r / 2 <= B2R q <= r * IZR n - r / 2) by (rewrite Eq; clear - E1 E2 E3 E4 E5 Nr Ur Up Blo Bhi Bv; lra).
  split; [exact Mid|].
  split; [|clear - E3 E4 E5 Nr Ur Up Blo Bhi Bv; lra].
  (* the index *)
  destruct (inv_val res r Vr ltac:(split; [apply Rle_trans with (bpow radix2 (-300)); [apply bpow_le; lia|apply Hr]|apply Rle_trans with (bpow radix2 300); [apply Hr|apply bpow_le; lia]])) as (w & (Fw & Ew) & Hw).
  set (W := Q / r). assert (WQ : W * r = Q) by (unfold W; field; lra).
  assert (W0 : 7 / 10 <= W <= IZR n - / 2).
  { rewrite Eq in Mid. clear - WQ Mid E1 E2 Ur Up Blo Bhi Bv rp. split; apply Rmult_le_reg_r with r; lra. }
  assert (W1 : W <= 2 * K + 4).
  { clear - WQ E1 E2 Ur Up Blo Bhi Bv rp. apply Rmult_le_reg_r with r; lra. }
  assert (HW : Rabs W <= bpow radix2 62).
  { rewrite Rabs_pos_eq by lra. change (bpow radix2 62) with (IZR (2 ^ 62)). change (2 ^ 62)%Z with 4611686018427387904%Z. lra. }
  subst w.
  destruct (product_val r ltac:(split; [apply Rle_trans with (bpow radix2 (-300)); [apply bpow_le; lia|apply Hr]|apply Rle_trans with (bpow radix2 300); [apply Hr|apply bpow_le; lia]])
    q W _ ltac:(split; [exact Fq|rewrite WQ; exact Eq]) HW (conj Fw eq_refl) Hw) as (p & (Fp & Ep) & Hp).
  rewrite (Rabs_pos_eq W) in Hp by lra.
  assert (Hp' : Rabs (p - W) <= u53 * (4 * (2 * K + 4) + 1)) by (eapply Rle_trans; [exact Hp|apply Rmult_le_compat_l; lra]).
  apply Rabs_le_inv in Hp'.
  assert (Hi : i = Zfloor p).
  { unfold i. rewrite Hfl; [now rewrite Ep|exact Fp|]. rewrite Ep. apply Rle_lt_trans with (IZR (2 ^ 62)); [|change (bpow radix2 63) with (IZR (2 ^ 63)); apply IZR_lt; lia].
    change (2 ^ 62)%Z with 4611686018427387904%Z. apply Rabs_le. clear - Hp' U0 U1 W0 W1. lra. }
  assert (P0 : 0 <= p < IZR n) by (clear - Hp' U0 U1 W0 W1; lra).
  rewrite Hi. split.
  - apply Zfloor_lub. cbn. apply P0.
  - apply lt_IZR. pose proof (Zfloor_lb p). lra.
Qed.

(** ** Corners *)

Section Map.
Variables (fl : b64 -> Z) (tri : b64 * b64 * b64 -> b64 * b64 * b64 -> list b64 -> b64 * b64 * b64 -> b64).
Notation M := (double_mesh fl tri).
Notation vec := (qvec (m_query M)).

Lemma tmin_val (a b : b64) : is_finite a = true -> is_finite b = true ->
  (tmin M a b = a \/ tmin M a b = b) /\ B2R (tmin M a b) <= B2R a /\ B2R (tmin M a b) <= B2R b.
Proof using.
  intros Fa Fb. unfold tmin. cbn [q_ltb m_query double_mesh double_query]. unfold b64_ltb. rewrite Bltb_correct by assumption.
  case Rlt_bool_spec; intros H; (split; [tauto|lra]).
Qed.

Lemma tmax_val (a b : b64) : is_finite a = true -> is_finite b = true ->
  (tmax M a b = a \/ tmax M a b = b) /\ B2R a <= B2R (tmax M a b) /\ B2R b <= B2R (tmax M a b).
Proof using.
  intros Fa Fb. unfold tmax. cbn [q_ltb m_query double_mesh double_query]. unfold b64_ltb. rewrite Bltb_correct by assumption.
  case Rlt_bool_spec; intros H; (split; [tauto|lra]).
Qed.

Lemma fold_min (c : vec -> b64) : (forall a b, c (vmin M a b) = tmin M (c a) (c b)) ->
  forall l v, (forall w, In w (v :: l) -> is_finite (c w) = true) ->
  (exists w, In w (v :: l) /\ c (fold_left (vmin M) l v) = c w) /\
  forall w, In w (v :: l) -> B2R (c (fold_left (vmin M) l v)) <= B2R (c w).
Proof using.
  intros Hc l. induction l as [|b l IH]; intros v F; cbn [fold_left].
  - split; [exists v; split; [now left|reflexivity]|]. intros w [ <- |[]]. lra.
  - pose proof (F v (or_introl eq_refl)) as Fv. pose proof (F b (or_intror (or_introl eq_refl))) as Fb.
    destruct (tmin_val (c v) (c b) Fv Fb) as (T & Tv & Tb). rewrite <- Hc in T, Tv, Tb.
    destruct (IH (vmin M v b)) as ((w & Iw & Ew) & L).
    { intros w [ <- |I]; [|apply F; right; now right]. destruct T as [ -> | -> ]; assumption. }
    split.
    + rewrite Ew. destruct Iw as [ <- |I]; [|exists w; split; [right; now right|reflexivity]].
      destruct T as [ -> | -> ]; eexists; (split; [|reflexivity]); [now left|right; now left].
    + pose proof (L _ (or_introl eq_refl)). intros w' [ <- |[ <- |I]]; [lra|lra|]. apply L. now right.
Qed.

Lemma fold_max (c : vec -> b64) : (forall a b, c (vmax M a b) = tmax M (c a) (c b)) ->
  forall l v, (forall w, In w (v :: l) -> is_finite (c w) = true) ->
  (exists w, In w (v :: l) /\ c (fold_left (vmax M) l v) = c w) /\
  forall w, In w (v :: l) -> B2R (c w) <= B2R (c (fold_left (vmax M) l v)).
Proof using.
  intros Hc l. induction l as [|b l IH]; intros v F; cbn [fold_left].
  - split; [exists v; split; [now left|reflexivity]|]. intros w [ <- |[]]. lra.
  - pose proof (F v (or_introl eq_refl)) as Fv. pose proof (F b (or_intror (or_introl eq_refl))) as Fb.
    destruct (tmax_val (c v) (c b) Fv Fb) as (T & Tv & Tb). rewrite <- Hc in T, Tv, Tb.
    destruct (IH (vmax M v b)) as ((w & Iw & Ew) & L).
    { intros w [ <- |I]; [|apply F; right; now right]. destruct T as [ -> | -> ]; assumption. }
    split.
    + rewrite Ew. destruct Iw as [ <- |I]; [|exists w; split; [right; now right|reflexivity]].
      destruct T as [ -> | -> ]; eexists; (split; [|reflexivity]); [now left|right; now left].
    + pose proof (L _ (or_introl eq_refl)). intros w' [ <- |[ <- |I]]; [lra|lra|]. apply L. now right.
Qed.

(** ** The map *)

Variable res : b64.
Notation r := (B2R res).

(** What the coordinates [c] of the vertices have to do with those of the corners. *)
Definition spans (vertices : list vec) (c : vec -> b64) (lo hi : b64) : Prop :=
  is_finite lo = true /\ is_finite hi = true /\ Rabs (B2R lo) <= K * r /\ Rabs (B2R hi) <= K * r /\
  (exists v w, In v vertices /\ In w vertices /\ B2R (c v) = B2R lo /\ B2R (c w) = B2R hi) /\
  forall v, In v vertices -> is_finite (c v) = true /\ B2R lo <= B2R (c v) <= B2R hi.

Lemma spans_fold (c : vec -> b64) v l :
  (forall a b, c (vmin M a b) = tmin M (c a) (c b)) -> (forall a b, c (vmax M a b) = tmax M (c a) (c b)) ->
  (forall w, In w (v :: l) -> is_finite (c w) = true /\ Rabs (B2R (c w)) <= K * r) ->
  spans (v :: l) c (c (fold_left (vmin M) l v)) (c (fold_left (vmax M) l v)).
Proof using.
  intros H1 H2 F. destruct (fold_min c H1 l v (fun w I => proj1 (F w I))) as ((a & Ia & Ea) & La).
  destruct (fold_max c H2 l v (fun w I => proj1 (F w I))) as ((b & Ib & Eb) & Lb).
  unfold spans. rewrite Ea in *. rewrite Eb in *. destruct (F a Ia), (F b Ib).
  repeat (split; [assumption|]). split; [exists a, b; now repeat split|].
  intros w I. split; [apply F, I|]. split; [now apply La|now apply Lb].
Qed.

Definition corner_count (lo hi : b64) : Z := (- fl (Bopp (b64_div (b64_add (b64_sub hi lo) (b64_mul res (b64_lit 2 0))) res)))%Z.

Lemma map_for_mesh_double (vertices : list vec) : vertices <> [] -> is_finite res = true -> 0 < r ->
  (forall v, In v vertices -> finite3 v /\ Rabs (B2R (fst (fst v))) <= K * r /\ Rabs (B2R (snd (fst v))) <= K * r /\ Rabs (B2R (snd v)) <= K * r) ->
  exists lx ly lz hx hy hz : b64,
    spans vertices (fun v => fst (fst v)) lx hx /\ spans vertices (fun v => snd (fst v)) ly hy /\ spans vertices (fun v => snd v) lz hz /\
    let o : vec := (b64_sub lx res, b64_sub ly res, b64_sub lz res) in
    map_for_mesh M vertices res =
      Some (mkMmap M (corner_count lx hx) (corner_count ly hy) (corner_count lz hz) res (b64_div (b64_lit 1 0) res)
        (fun p => vsub M p o) (fun p => vadd M p o)).
Proof using.
  intros N Fr Rp F. destruct vertices as [|v l]; [congruence|].
  assert (L : q_leb (m_query M) res (q_zero (m_query M)) = false).
  { cbn [q_leb q_zero m_query double_mesh double_query]. unfold b64_leb. rewrite Bleb_correct by (exact Fr || reflexivity). apply Rle_bool_false. exact Rp. }
  unfold map_for_mesh. rewrite L. cbn [corners obind].
  exists (fst (fst (fold_left (vmin M) l v))), (snd (fst (fold_left (vmin M) l v))), (snd (fold_left (vmin M) l v)),
    (fst (fst (fold_left (vmax M) l v))), (snd (fst (fold_left (vmax M) l v))), (snd (fold_left (vmax M) l v)).
  split; [|split; [|split; [|reflexivity]]].
  - apply (spans_fold (fun v => fst (fst v))); [reflexivity|reflexivity|]. intros w I. destruct (F w I) as ((F1 & F2 & F3) & B1 & B2 & B3). now split.
  - apply (spans_fold (fun v => snd (fst v))); [reflexivity|reflexivity|]. intros w I. destruct (F w I) as ((F1 & F2 & F3) & B1 & B2 & B3). now split.
  - apply (spans_fold (fun v => snd v)); [reflexivity|reflexivity|]. intros w I. destruct (F w I) as ((F1 & F2 & F3) & B1 & B2 & B3). now split.
Qed.

(** Coordinates between those of the corners have their index in the grid. *)
Lemma axis_index lo hi v : floors fl -> is_finite res = true -> bpow radix2 (-300) <= r <= bpow radix2 300 ->
  is_finite lo = true -> is_finite hi = true -> Rabs (B2R lo) <= K * r -> Rabs (B2R hi) <= K * r ->
  is_finite v = true -> B2R lo <= B2R v <= B2R hi ->
  (0 <= fl (b64_mul (b64_sub v (b64_sub lo res)) (b64_div (b64_lit 1 0) res)) < corner_count lo hi)%Z.
Proof using. intros Hfl Fr Hr Fl Fh Bl Bh Fv Bv. exact (proj1 (proj2 (proj2 (axis_double fl res lo hi v Hfl Fr Fl Fh Fv Hr Bl Bh Bv)))). Qed.

Lemma min3_one (P : b64 -> Prop) a b c : P a -> P b -> P c -> P (min3 M a b c).
Proof using. intros. unfold min3, tmin. repeat match goal with |- context [if ?x then _ else _] => destruct x end; assumption. Qed.
Lemma max3_one (P : b64 -> Prop) a b c : P a -> P b -> P c -> P (max3 M a b c).
Proof using. intros. unfold max3, tmax. repeat match goal with |- context [if ?x then _ else _] => destruct x end; assumption. Qed.
End Map.

(** ** The rasterization, run serially *)

Lemma mesh_result (M : mesh_arith) (m : mmap M) vertices triangles enforce (g : grid occ) : gwf g ->
  (forall t, (0 <= t < zlen triangles)%Z -> corners_of M vertices triangles t <> None /\
     (enforce = true -> forall i, In i (voxels_of M m vertices triangles t) -> inb M m i = true)) ->
  exists g', run (mesh_task M m vertices triangles enforce) g = Some (tt, g') /\
    overwritten (V:=occ) one_bits g g' (flat_map (fun t => filter (inb M m) (voxels_of M m vertices triangles t)) (zrange 0 (zlen triangles))).
Proof.
  intros W H. unfold mesh_task.
  set (task := triangle_task M m vertices triangles enforce).
  assert (T : forall l, (forall t, In t l -> (0 <= t < zlen triangles)%Z) ->
    Forall (only_writes (V:=occ) one_bits) (map task l) /\
    flat_map (targets (V:=occ)) (map task l) = flat_map (fun t => filter (inb M m) (voxels_of M m vertices triangles t)) l).
  { induction l as [|t l IH]; intros I; [split; [constructor|reflexivity]|].
    destruct (IH (fun s J => I s (or_intror J))) as (A1 & A2). destruct (H t (I t (or_introl eq_refl))) as (C & E).
    destruct (task_writes M m vertices triangles enforce t C E) as (B1 & B2).
    cbn [map flat_map]. split; [constructor; assumption|]. now rewrite A2, <- B2. }
  destruct (T (zrange 0 (zlen triangles)) ltac:(intros t It; now apply in_zrange in It)) as (A1 & A2).
  destruct (only_writes_pseq (V:=occ) one_bits _ A1) as (P1 & P2).
  destruct (run_writes (V:=occ) one_bits _ P1 g g [] (overwritten_nil (V:=occ) _ g W)) as (g' & R & O).
  exists g'. split; [exact R|]. cbn [app] in O. rewrite P2, A2 in O. exact O.
Qed.
