(** Proofs about point copies and PointCloud2 messages. *)
From Coq Require Import ZArith List Bool Lia String ZifyBool.
From Verif Require Import Util SerialModel SerialProofs PointCloudModel PointCloudSpec.
Import ListNotations.
Local Open Scope Z_scope.

(** ** Copies into a vector *)

Lemma store_ret {T} (l : list T) i v : 0 <= i < zlen l ->
  exists l', store l i v = Ret l' /\ zset l i v = Some l'.
Proof.
  intros H. destruct (zset_some l i v H) as (l' & E). exists l'. unfold store. now rewrite E.
Qed.

Lemma store3 {T} (v : list T) vi x y z : 0 <= vi -> vi + 3 <= zlen v ->
  exists v', (let! v1 := store v vi x in
              let! v2 := store v1 (vi + 1) y in store v2 (vi + 2) z) = Ret v' /\
    zlen v' = zlen v /\
    zget v' vi = Some x /\ zget v' (vi + 1) = Some y /\ zget v' (vi + 2) = Some z /\
    forall j, ~ (vi <= j < vi + 3) -> zget v' j = zget v j.
Proof.
  intros L U.
  destruct (store_ret v vi x) as (v1 & E1 & S1); [lia|].
  pose proof (zset_length _ _ _ _ S1) as L1.
  destruct (store_ret v1 (vi + 1) y) as (v2 & E2 & S2); [lia|].
  pose proof (zset_length _ _ _ _ S2) as L2.
  destruct (store_ret v2 (vi + 2) z) as (v3 & E3 & S3); [lia|].
  pose proof (zset_length _ _ _ _ S3) as L3.
  exists v3. rewrite E1. cbn [rbind]. rewrite E2. cbn [rbind].
  split; [exact E3|]. split; [lia|].
  split; [|split; [|split]].
  - rewrite (zget_zset_other _ _ _ _ vi S3) by lia.
    rewrite (zget_zset_other _ _ _ _ vi S2) by lia. exact (zget_zset_same _ _ _ _ S1).
  - rewrite (zget_zset_other _ _ _ _ (vi + 1) S3) by lia. exact (zget_zset_same _ _ _ _ S2).
  - exact (zget_zset_same _ _ _ _ S3).
  - intros j J. rewrite (zget_zset_other _ _ _ _ j S3) by lia.
    rewrite (zget_zset_other _ _ _ _ j S2) by lia.
    now rewrite (zget_zset_other _ _ _ _ j S1) by lia.
Qed.

Lemma copy_into_vector_ok {T} (c : cloud T) pi v vi x y z :
  0 <= pi < cl_size c -> 0 <= vi -> vi + 3 <= zlen v -> vi + 3 <= int64_max ->
  cl_impl c pi = Ret (x, y, z) ->
  exists v', copy_into_vector c pi v vi = Ret v' /\ zlen v' = zlen v /\
    zget v' vi = Some x /\ zget v' (vi + 1) = Some y /\ zget v' (vi + 2) = Some z /\
    forall j, ~ (vi <= j < vi + 3) -> zget v' j = zget v j.
Proof.
  intros P V U M I. unfold copy_into_vector, enforce_vector_index, copy_into_ptr, enforce_point_index.
  destruct (Z.ltb_spec vi 0); [lia|].
  destruct (Z.ltb_spec int64_max (vi + 3)); [lia|].
  destruct (Z.ltb_spec (zlen v) (vi + 3)); [lia|]. cbn [rbind].
  destruct (Z.ltb_spec pi 0); [lia|]. destruct (Z.leb_spec (cl_size c) pi); [lia|].
  cbn [orb rbind]. rewrite I. cbn [rbind].
  exact (store3 v vi x y z V U).
Qed.

Lemma copy_into_vector_cases {T} (c : cloud T) pi v vi :
  vi + 3 <= int64_max ->
  match copy_into_vector c pi v vi with
  | Ret v' =>
      0 <= pi < cl_size c /\ 0 <= vi /\ vi + 3 <= zlen v /\
      exists x y z, cl_impl c pi = Ret (x, y, z) /\ zlen v' = zlen v /\
        zget v' vi = Some x /\ zget v' (vi + 1) = Some y /\ zget v' (vi + 2) = Some z /\
        forall j, ~ (vi <= j < vi + 3) -> zget v' j = zget v j
  | Throw e =>
      (e = OutOfRange /\ (~ (0 <= pi < cl_size c) \/ ~ (0 <= vi /\ vi + 3 <= zlen v)))
      \/ (0 <= pi < cl_size c /\ cl_impl c pi = Throw e)
  | Undefined => 0 <= pi < cl_size c /\ cl_impl c pi = Undefined
  end.
Proof.
  intros M. unfold copy_into_vector, enforce_vector_index, copy_into_ptr, enforce_point_index.
  destruct (Z.ltb_spec vi 0); cbn [rbind]; [left; split; [easy|lia]|].
  destruct (Z.ltb_spec int64_max (vi + 3)); [lia|].
  destruct (Z.ltb_spec (zlen v) (vi + 3)); cbn [rbind]; [left; split; [easy|lia]|].
  destruct (Z.ltb_spec pi 0); cbn [orb rbind]; [left; split; [easy|lia]|].
  destruct (Z.leb_spec (cl_size c) pi); cbn [orb rbind]; [left; split; [easy|lia]|].
  destruct (cl_impl c pi) as [[[x y] z]|e|] eqn:I; cbn [rbind].
  - destruct (store3 v vi x y z) as (v' & E & R); [lia|lia|]. rewrite E.
    split; [lia|]. split; [lia|]. split; [lia|]. exists x, y, z. split; [reflexivity|exact R].
  - right. split; [lia|reflexivity].
  - split; [lia|reflexivity].
Qed.

(** ** Copying a whole cloud *)

Lemma copy_loop_ok {T} (c : cloud T) (pt : Z -> T * T * T) :
  (forall i, 0 <= i < cl_size c -> cl_impl c i = Ret (pt i)) ->
  cl_size c * 3 <= int64_max ->
  forall n a raw, 0 <= a -> a + Z.of_nat n = cl_size c -> zlen raw = cl_size c * 3 ->
    (forall i, 0 <= i < a -> zget raw (i * 3) = Some (fst (fst (pt i))) /\
       zget raw (i * 3 + 1) = Some (snd (fst (pt i))) /\ zget raw (i * 3 + 2) = Some (snd (pt i))) ->
    exists raw', copy_loop c (zseq a n) raw = Ret raw' /\ zlen raw' = cl_size c * 3 /\
      forall i, 0 <= i < cl_size c -> zget raw' (i * 3) = Some (fst (fst (pt i))) /\
       zget raw' (i * 3 + 1) = Some (snd (fst (pt i))) /\ zget raw' (i * 3 + 2) = Some (snd (pt i)).
Proof.
  intros I S. induction n as [|n IH]; intros a raw A N L H.
  - exists raw. cbn [zseq copy_loop]. split; [reflexivity|]. split; [exact L|].
    intros i Hi. apply H. lia.
  - cbn [zseq copy_loop]. destruct (pt a) as [[x y] z] eqn:P.
    destruct (copy_into_vector_ok c a raw (a * 3) x y z) as (v' & E & L' & X & Y & Z' & O);
      [lia|lia|lia|lia| |].
    { rewrite I by lia. now rewrite P. }
    rewrite E. cbn [rbind]. apply IH; [lia|lia|lia|].
    intros i Hi. destruct (Z.eq_dec i a) as [->|Na].
    + rewrite P. cbn [fst snd]. auto.
    + destruct (H i ltac:(lia)) as (Hx & Hy & Hz).
      rewrite !O by lia. auto.
Qed.

Lemma copy_cloud_ok {T} (zero : T) (c : cloud T) (pt : Z -> T * T * T) :
  0 <= cl_size c ->
  (forall i, 0 <= i < cl_size c -> cl_impl c i = Ret (pt i)) ->
  cl_size c * 3 <= int64_max ->
  exists raw, copy_cloud zero c = Ret raw /\ zlen raw = cl_size c * 3 /\
    forall i, 0 <= i < cl_size c -> zget raw (i * 3) = Some (fst (fst (pt i))) /\
       zget raw (i * 3 + 1) = Some (snd (fst (pt i))) /\ zget raw (i * 3 + 2) = Some (snd (pt i)).
Proof.
  intros N I S. unfold copy_cloud, zrange.
  apply copy_loop_ok; [exact I|exact S|lia|lia| |intros i Hi; lia].
  rewrite zlen_repeat. lia.
Qed.

(** ** Messages *)

Lemma de_word4 data pos : 0 <= pos -> pos + 4 <= zlen data ->
  exists w, de_word 4 data pos = Some (w, 4) /\ has_word data false pos w.
Proof.
  intros P L.
  destruct (proj2 (zget_some_iff data pos)) as (b0 & B0); [lia|].
  destruct (proj2 (zget_some_iff data (pos + 1))) as (b1 & B1); [lia|].
  destruct (proj2 (zget_some_iff data (pos + 2))) as (b2 & B2); [lia|].
  destruct (proj2 (zget_some_iff data (pos + 3))) as (b3 & B3); [lia|].
  exists (b0 + 2 ^ 8 * b1 + 2 ^ 16 * b2 + 2 ^ 24 * b3). split.
  - cbn [de_word]. rewrite B0. cbn [obind]. rewrite B1. cbn [obind].
    replace (pos + 1 + 1) with (pos + 2) by lia. rewrite B2. cbn [obind].
    replace (pos + 2 + 1) with (pos + 3) by lia. rewrite B3. cbn [obind].
    f_equal. apply pair_equal_spec. split; lia.
  - exists b0, b1, b2, b3. auto 6.
Qed.

Lemma read_words3_ok data pos : 0 <= pos -> pos + 12 <= zlen data ->
  exists x y z, read_words3 data pos = Ret (x, y, z) /\
    has_word data false pos x /\ has_word data false (pos + 4) y /\ has_word data false (pos + 8) z.
Proof.
  intros P L. unfold read_words3.
  destruct (de_word4 data pos) as (x & -> & X); [lia|lia|].
  destruct (de_word4 data (pos + 4)) as (y & -> & Y); [lia|lia|].
  destruct (de_word4 data (pos + 8)) as (z & -> & Z'); [lia|lia|].
  exists x, y, z. auto.
Qed.

Lemma pc2_start_exact m xo pi : uint32 (m_point_step m) -> 0 <= pi < 2 ^ 32 -> uint32 xo ->
  pc2_start m xo pi = pi * m_point_step m + xo.
Proof.
  unfold uint32, pc2_start, szt. intros P I X.
  assert (0 <= pi * m_point_step m <= (2 ^ 32 - 1) * (2 ^ 32 - 1)) as B by nia.
  rewrite (Z.mod_small (pi * m_point_step m)) by lia.
  now rewrite Z.mod_small by lia.
Qed.

Lemma pc2_size_range m : 0 <= pc2_size m < 2 ^ 32.
Proof. unfold pc2_size. apply Z.mod_pos_bound. lia. Qed.

Lemma de_word_short n data i : zlen data < i + Z.of_nat (S n) -> de_word (S n) data i = None.
Proof.
  revert i. induction n as [|n IH]; intros i H.
  - cbn [de_word]. rewrite (proj2 (zget_none_iff data i)) by lia. reflexivity.
  - change (de_word (S (S n)) data i) with
      (let* b := zget data i in let* (v, k) := de_word (S n) data (i + 1) in Some (b + 256 * v, 1 + k)).
    destruct (zget data i); [|reflexivity]. cbn [obind]. rewrite IH by lia. reflexivity.
Qed.

Lemma read_words3_short data i : i < zlen data < i + 12 -> 0 <= i -> read_words3 data i = Undefined.
Proof.
  intros (H1 & H2) P. unfold read_words3.
  assert (E : de_word 4 data (i + 8) = None) by (apply de_word_short; cbn; lia).
  rewrite E. now destruct (de_word 4 data i) as [[]|], (de_word 4 data (i + 4)) as [[]|].
Qed.

Lemma pc2_read m xo pi :
  uint32 (m_point_step m) -> uint32 xo -> 0 <= pi < pc2_size m ->
  pi * m_point_step m + xo + 12 <= zlen (m_data m) ->
  exists x y z, copy_into_ptr (pc2_cloud m xo) pi = Ret (x, y, z) /\
    let pos := pi * m_point_step m + xo in
    has_word (m_data m) false pos x /\ has_word (m_data m) false (pos + 4) y /\
    has_word (m_data m) false (pos + 8) z.
Proof.
  intros S X P L. pose proof (pc2_size_range m) as Z'.
  unfold copy_into_ptr, enforce_point_index. cbn [pc2_cloud cl_size cl_impl].
  destruct (Z.ltb_spec pi 0); [lia|]. destruct (Z.leb_spec (pc2_size m) pi); [lia|].
  cbn [orb rbind]. unfold pc2_float_impl. rewrite pc2_start_exact by (auto; lia).
  unfold uint32 in *.
  destruct (proj2 (zget_some_iff (m_data m) (pi * m_point_step m + xo))) as (b & ->); [nia|].
  apply read_words3_ok; [nia|lia].
Qed.

Lemma last_field_acc name l acc :
  last_field name l acc = match last_field name l None with Some f => Some f | None => acc end.
Proof.
  revert acc; induction l as [|f l IH]; intros acc; cbn [last_field]; [reflexivity|].
  rewrite IH. rewrite (IH (if (f_name f =? name)%string then Some f else None)).
  destruct (last_field name l None); [reflexivity|].
  destruct (f_name f =? name)%string; reflexivity.
Qed.

Lemma last_field_in name l f : last_field name l None = Some f -> In f l /\ f_name f = name.
Proof.
  induction l as [|g l IH]; cbn [last_field]; [discriminate|].
  rewrite last_field_acc. destruct (last_field name l None) as [h|] eqn:E.
  - intros [= ->]. destruct (IH eq_refl). split; [now right|assumption].
  - destruct (String.eqb_spec (f_name g) name); intros [= <-]. split; [now left|assumption].
Qed.

Lemma last_field_unique l f : NoDup (map f_name l) -> In f l -> last_field (f_name f) l None = Some f.
Proof.
  induction l as [|g l IH]; cbn [last_field map In]; [tauto|].
  intros N I. inversion N as [|? ? Ng Nl]; subst. rewrite last_field_acc.
  destruct I as [->|I].
  - rewrite String.eqb_refl. destruct (last_field (f_name f) l None) as [h|] eqn:E; [|reflexivity].
    destruct (last_field_in _ _ _ E) as (H & Hn). exfalso. apply Ng. rewrite <- Hn. now apply in_map.
  - now rewrite (IH Nl I).
Qed.

Lemma pc2_make_ok m xo : uint32 xo -> NoDup (map f_name (m_fields m)) -> has_xyz m xo ->
  pc2_make (Some m) false = Ret xo.
Proof.
  intros U N (X & Y & Z'). unfold pc2_make, field_at.
  pose proof (last_field_unique _ _ N X) as EX. pose proof (last_field_unique _ _ N Y) as EY.
  pose proof (last_field_unique _ _ N Z') as EZ. cbn [f_name] in *.
  rewrite EX, EY, EZ. cbn [rbind check_type f_datatype f_offset].
  unfold check_type. cbn [f_datatype]. change (float32 =? float32) with true. cbn [rbind].
  replace (xo + 8 - (xo + 4)) with 4 by lia. replace (xo + 4 - xo) with 4 by lia. reflexivity.
Qed.

Lemma res_ret_inv {A B} (r : res A) (f : A -> res B) b :
  rbind r f = Ret b -> exists a, r = Ret a /\ f a = Ret b.
Proof. destruct r; cbn [rbind]; intros H; [eauto|discriminate|discriminate]. Qed.

(** Conversely an accepted message has such fields. *)
Lemma pc2_make_inv m rl xo :
  (forall f, In f (m_fields m) -> uint32 (f_offset f)) ->
  pc2_make (Some m) rl = Ret xo -> rl = false /\ has_xyz m xo.
Proof.
  intros U. unfold pc2_make. destruct rl; [discriminate|]. intros H. split; [reflexivity|].
  apply res_ret_inv in H as (fx & FX & H). apply res_ret_inv in H as ([] & TX & H).
  apply res_ret_inv in H as (fy & FY & H). apply res_ret_inv in H as ([] & TY & H).
  apply res_ret_inv in H as (fz & FZ & H). apply res_ret_inv in H as ([] & TZ & H).
  unfold field_at in *.
  destruct (last_field "x" (m_fields m) None) as [fx'|] eqn:EX; [|discriminate]. injection FX as ->.
  destruct (last_field "y" (m_fields m) None) as [fy'|] eqn:EY; [|discriminate]. injection FY as ->.
  destruct (last_field "z" (m_fields m) None) as [fz'|] eqn:EZ; [|discriminate]. injection FZ as ->.
  apply last_field_in in EX as (IX & NX). apply last_field_in in EY as (IY & NY).
  apply last_field_in in EZ as (IZ & NZ).
  unfold check_type in *.
  destruct (Z.eqb_spec (f_datatype fx) float32) as [DX|]; [|discriminate].
  destruct (Z.eqb_spec (f_datatype fy) float32) as [DY|]; [|discriminate].
  destruct (Z.eqb_spec (f_datatype fz) float32) as [DZ|]; [|discriminate].
  pose proof (U _ IX) as UX. pose proof (U _ IY) as UY. pose proof (U _ IZ) as UZ.
  unfold uint32, szt in *.
  destruct (Z.eqb_spec ((f_offset fz - f_offset fy) mod 2 ^ 64) 4) as [E1|]; [|discriminate].
  destruct (Z.eqb_spec ((f_offset fy - f_offset fx) mod 2 ^ 64) 4) as [E2|]; [|discriminate].
  cbn [andb] in H. injection H as <-.
  assert (forall a b, 0 <= a < 2 ^ 32 -> 0 <= b < 2 ^ 32 -> (a - b) mod 2 ^ 64 = 4 -> a = b + 4) as W.
  { clear. intros a b A B E. destruct (Z.le_gt_cases b a).
    - rewrite Z.mod_small in E by lia. lia.
    - replace (a - b) with ((a - b + 2 ^ 64) + (-1) * 2 ^ 64) in E by lia.
      rewrite Z.mod_add in E by lia. rewrite Z.mod_small in E by lia. lia. }
  apply W in E1; [|assumption|assumption]. apply W in E2; [|assumption|assumption].
  destruct fx as [nx ox tx], fy as [ny oy ty], fz as [nz oz tz]. cbn [f_name f_offset f_datatype] in *.
  subst. unfold has_xyz. replace (ox + 8) with (ox + 4 + 4) by lia. auto.
Qed.

Lemma point_linear m r c off : m_row_step m = m_width m * m_point_step m ->
  (r * m_width m + c) * m_point_step m + off = point_pos m r c off.
Proof. unfold point_pos. intros ->. ring. Qed.

Lemma pc2_double_of_float {D} (cast : Z -> D) m xo pi :
  copy_into_ptr (pc2_double_cloud cast m xo) pi =
  let! (x, y, z) := copy_into_ptr (pc2_cloud m xo) pi in Ret (cast x, cast y, cast z).
Proof.
  unfold copy_into_ptr at 1. unfold enforce_point_index. cbn [pc2_double_cloud cl_size cl_impl].
  unfold copy_into_ptr, enforce_point_index. cbn [pc2_cloud cl_size cl_impl].
  destruct ((pi <? 0) || (pc2_size m <=? pi)) eqn:E; cbn [rbind]; [reflexivity|].
  unfold pc2_double_impl, point_vector4, copy_into_ptr, enforce_point_index.
  cbn [pc2_cloud cl_size cl_impl]. rewrite E. cbn [rbind].
  destruct (pc2_float_impl m xo pi) as [[[x y] z]| |]; reflexivity.
Qed.
