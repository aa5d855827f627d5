(** Properties C48 and C66: point copies and PointCloud2 messages. *)
From Coq Require Import ZArith List Bool Lia String.
From Verif Require Import Util SerialModel SerialProofs PointCloudModel PointCloudSpec PointCloudProofs.
Import ListNotations.
Local Open Scope Z_scope.

(** ** C48: copies into vectors *)

(** Copying a point into a vector returns only with both indices in range, and then
    three consecutive elements hold the point, the others and the size are unchanged;
    it throws out_of_range when an index is not in range, and otherwise only when the
    cloud itself throws.  Partial: indices within three of the largest int64_t. *)
Theorem c48_vector_partial :
  forall T (c : cloud T) point_index vector vector_index,
  vector_index + 3 <= 2 ^ 63 - 1 ->
  match copy_into_vector c point_index vector vector_index with
  | Ret vector' =>
      0 <= point_index < cl_size c /\ 0 <= vector_index /\ vector_index + 3 <= zlen vector /\
      exists x y z, cl_impl c point_index = Ret (x, y, z) /\ zlen vector' = zlen vector /\
        zget vector' vector_index = Some x /\ zget vector' (vector_index + 1) = Some y /\
        zget vector' (vector_index + 2) = Some z /\
        forall j, ~ (vector_index <= j < vector_index + 3) -> zget vector' j = zget vector j
  | Throw e =>
      (e = OutOfRange /\
       (~ (0 <= point_index < cl_size c) \/
        ~ (0 <= vector_index /\ vector_index + 3 <= zlen vector)))
      \/ (0 <= point_index < cl_size c /\ cl_impl c point_index = Throw e)
  | Undefined => 0 <= point_index < cl_size c /\ cl_impl c point_index = Undefined
  end.
Proof. intros T c pi v vi. apply copy_into_vector_cases. Qed.
Print Assumptions c48_vector_partial.

(** A cloud of two points. *)
Definition two_points : cloud Z :=
  mkCloud 2 (fun i => if i =? 0 then Ret (1, 2, 3) else Ret (4, 5, 6)).

Example c48_vector_case :
  copy_into_vector two_points 1 [0; 0; 0; 0; 0] 1 = Ret [0; 4; 5; 6; 0] /\
  copy_into_vector two_points 1 [0; 0; 0; 0; 0] 3 = Throw OutOfRange /\
  copy_into_vector two_points 2 [0; 0; 0; 0; 0] 1 = Throw OutOfRange.
Proof. vm_compute. auto. Qed.

(** For the largest indices the range check itself overflows, whatever the cloud, the
    point and the vector. *)
Theorem c48_overflow_refuted :
  exists vector_index, 0 <= vector_index <= 2 ^ 63 - 1 /\
  forall T (c : cloud T) point_index vector,
  copy_into_vector c point_index vector vector_index = Undefined.
Proof. exists int64_max. split; [unfold int64_max; lia|]. reflexivity. Qed.
Print Assumptions c48_overflow_refuted.

(** The point as a vector of four: the coordinates the cloud gives, and 1. *)
Theorem c48_vector4 :
  forall T (one : T) (c : cloud T) point_index,
  (0 <= point_index < cl_size c ->
     (forall x y z, cl_impl c point_index = Ret (x, y, z) ->
        point_vector4 one c point_index = Ret (x, y, z, one)) /\
     (forall e, cl_impl c point_index = Throw e -> point_vector4 one c point_index = Throw e)) /\
  (~ (0 <= point_index < cl_size c) -> point_vector4 one c point_index = Throw OutOfRange).
Proof.
  intros T one c i. unfold point_vector4, copy_into_ptr, enforce_point_index.
  destruct (Z.ltb_spec i 0), (Z.leb_spec (cl_size c) i); cbn [orb rbind]; (split; [|intros; (reflexivity || lia)]);
    intros; try lia.
  split; [intros x y z ->|intros e ->]; reflexivity.
Qed.
Print Assumptions c48_vector4.
Example c48_vector4_case :
  point_vector4 1 two_points 1 = Ret (4, 5, 6, 1) /\ point_vector4 1 two_points 2 = Throw OutOfRange.
Proof. split; reflexivity. Qed.

(** The copy made for the devices writes every point of the cloud once, in order. *)
Theorem c48_copy_cloud :
  forall T (zero : T) (c : cloud T) (point : Z -> T * T * T),
  0 <= cl_size c -> cl_size c * 3 <= 2 ^ 63 - 1 ->
  (forall i, 0 <= i < cl_size c -> cl_impl c i = Ret (point i)) ->
  exists raw, copy_cloud zero c = Ret raw /\ zlen raw = cl_size c * 3 /\
    forall i, 0 <= i < cl_size c ->
      zget raw (i * 3) = Some (fst (fst (point i))) /\
      zget raw (i * 3 + 1) = Some (snd (fst (point i))) /\
      zget raw (i * 3 + 2) = Some (snd (point i)).
Proof. intros T zero c point N S I. now apply copy_cloud_ok. Qed.
Print Assumptions c48_copy_cloud.

Example c48_copy_cloud_case : copy_cloud 0 two_points = Ret [1; 2; 3; 4; 5; 6].
Proof. reflexivity. Qed.

(** ** C48: reads from messages *)

(** When the data has [point_step] bytes for every point and the coordinates lie inside
    a point, every point of an accepted message is read inside the data.  Partial:
    messages whose data is shorter, or whose coordinates reach past the point. *)
Theorem c48_message_partial :
  forall m max_range_le_zero xyz_offset point_index,
  uint32 (m_point_step m) ->
  (forall f, In f (m_fields m) -> uint32 (f_offset f)) ->
  pc2_make (Some m) max_range_le_zero = Ret xyz_offset ->
  xyz_offset + 12 <= m_point_step m ->
  pc2_size m * m_point_step m <= zlen (m_data m) ->
  match copy_into_ptr (pc2_cloud m xyz_offset) point_index with
  | Ret _ => 0 <= point_index < pc2_size m
  | Throw e => e = OutOfRange /\ ~ (0 <= point_index < pc2_size m)
  | Undefined => False
  end.
Proof.
  intros m rl xo pi US UO M X D.
  destruct (pc2_make_inv m rl xo UO M) as (_ & FX & _ & _).
  pose proof (UO _ FX) as UX. cbn [f_offset] in UX.
  destruct (Z.le_gt_cases 0 pi) as [P|P]; [destruct (Z.lt_ge_cases pi (pc2_size m)) as [Q|Q]|].
  - destruct (pc2_read m xo pi US UX (conj P Q)) as (x & y & z & -> & _); [unfold uint32 in US; nia|].
    lia.
  - unfold copy_into_ptr, enforce_point_index. cbn [pc2_cloud cl_size].
    destruct (Z.ltb_spec pi 0); [lia|]. destruct (Z.leb_spec (pc2_size m) pi); [|lia].
    cbn [orb rbind]. split; [reflexivity|lia].
  - unfold copy_into_ptr, enforce_point_index.
    destruct (Z.ltb_spec pi 0); [|lia]. cbn [orb rbind]. split; [reflexivity|lia].
Qed.
Print Assumptions c48_message_partial.

Definition xyz_fields : list field :=
  [mkField "x" 0 7; mkField "y" 4 7; mkField "z" 8 7]%string.

(** Two points of 12 bytes. *)
Definition small_message : pc2 :=
  mkPc2 1 2 xyz_fields false 12 24
    [1;0;0;0; 2;0;0;0; 3;0;0;0;  4;0;0;0; 5;0;0;0; 6;0;0;0].
Example c48_message_case :
  pc2_make (Some small_message) false = Ret 0 /\ 0 + 12 <= m_point_step small_message /\
  pc2_size small_message * m_point_step small_message <= zlen (m_data small_message) /\
  copy_into_ptr (pc2_cloud small_message 0) 1 = Ret (4, 5, 6).
Proof. vm_compute. intuition discriminate. Qed.

(** A truncated message is accepted and reading its last point leaves the data. *)
Theorem c48_message_refuted :
  exists m xyz_offset point_index,
    uint32 (m_point_step m) /\ (forall f, In f (m_fields m) -> uint32 (f_offset f)) /\
    pc2_make (Some m) false = Ret xyz_offset /\ 0 <= point_index < pc2_size m /\
    copy_into_ptr (pc2_cloud m xyz_offset) point_index = Undefined.
Proof.
  exists (mkPc2 1 1 xyz_fields false 12 12 [0; 0; 0; 0]), 0, 0.
  split; [unfold uint32; cbn; lia|].
  split; [|repeat split; (reflexivity || (cbn; lia) || easy)].
  cbn [m_fields xyz_fields In]. intros f [<-|[<-|[<-|[]]]]; unfold uint32; cbn [f_offset]; lia.
Qed.
Print Assumptions c48_message_refuted.

(** Exactly when: reading a point of an accepted message succeeds if its 12 bytes are
    in the data, throws if even the first of them is not, and otherwise reads past the
    end of the data. *)
Theorem c48_message_reads :
  forall m max_range_le_zero xyz_offset point_index,
  uint32 (m_point_step m) ->
  (forall f, In f (m_fields m) -> uint32 (f_offset f)) ->
  pc2_make (Some m) max_range_le_zero = Ret xyz_offset ->
  0 <= point_index < pc2_size m ->
  let first := point_index * m_point_step m + xyz_offset in
  (first + 12 <= zlen (m_data m) -> exists p, copy_into_ptr (pc2_cloud m xyz_offset) point_index = Ret p) /\
  (zlen (m_data m) <= first -> copy_into_ptr (pc2_cloud m xyz_offset) point_index = Throw OutOfRange) /\
  (first < zlen (m_data m) < first + 12 ->
     copy_into_ptr (pc2_cloud m xyz_offset) point_index = Undefined).
Proof.
  intros m rl xo pi US UO M P first.
  destruct (pc2_make_inv m rl xo UO M) as (_ & FX & _ & _).
  pose proof (UO _ FX) as UX. cbn [f_offset] in UX.
  split; [intros L; destruct (pc2_read m xo pi US UX P L) as (x & y & z & E & _); eauto|].
  pose proof (pc2_size_range m) as R.
  unfold copy_into_ptr, enforce_point_index. cbn [pc2_cloud cl_size cl_impl].
  destruct (Z.ltb_spec pi 0); [lia|]. destruct (Z.leb_spec (pc2_size m) pi); [lia|].
  cbn [orb rbind]. unfold pc2_float_impl. rewrite pc2_start_exact by (auto; lia). fold first.
  unfold uint32 in *. assert (0 <= first) by (unfold first; nia).
  split; intros L.
  - now rewrite (proj2 (zget_none_iff (m_data m) first)) by lia.
  - destruct (proj2 (zget_some_iff (m_data m) first)) as (b & ->); [lia|]. now apply read_words3_short.
Qed.
Print Assumptions c48_message_reads.
Example c48_message_reads_cases :
  let m := mkPc2 1 3 xyz_fields false 12 36 [1;0;0;0; 2;0;0;0; 3;0;0;0;  4;0;0;0] in
  pc2_make (Some m) false = Ret 0 /\ copy_into_ptr (pc2_cloud m 0) 0 = Ret (1, 2, 3) /\
  copy_into_ptr (pc2_cloud m 0) 1 = Undefined /\ copy_into_ptr (pc2_cloud m 0) 2 = Throw OutOfRange.
Proof. repeat split; reflexivity. Qed.

(** ** C66: the points of a message *)

(** For a message as documented, with rows that are not padded, in the byte order of
    the host and with fewer than 2^32 points, the wrapper has width * height points and
    point [row * width + column] has the coordinates the message stores there, as floats
    and, converted, as doubles. *)
Theorem c66_decodes_partial :
  forall D (cast : Z -> D) m xyz_offset,
  message_ok m -> has_xyz m xyz_offset ->
  m_bigendian m = false -> m_row_step m = m_width m * m_point_step m ->
  m_width m * m_height m < 2 ^ 32 ->
  pc2_make (Some m) false = Ret xyz_offset /\
  pc2_size m = m_width m * m_height m /\
  forall r c, 0 <= r < m_height m -> 0 <= c < m_width m ->
  exists x y z,
    copy_into_ptr (pc2_cloud m xyz_offset) (r * m_width m + c) = Ret (x, y, z) /\
    copy_into_ptr (pc2_double_cloud cast m xyz_offset) (r * m_width m + c)
      = Ret (cast x, cast y, cast z) /\
    has_word (m_data m) (m_bigendian m) (point_pos m r c xyz_offset) x /\
    has_word (m_data m) (m_bigendian m) (point_pos m r c (xyz_offset + 4)) y /\
    has_word (m_data m) (m_bigendian m) (point_pos m r c (xyz_offset + 8)) z.
Proof.
  intros D cast m xo [H W S R N O RW DA] XYZ BE RS SM.
  pose proof XYZ as (FX & FY & FZ).
  destruct (O _ FX) as (X0 & _). destruct (O _ FZ) as (_ & Z1).
  specialize (Z1 eq_refl). cbn [f_offset] in *. unfold uint32 in *.
  assert (uint32 xo) as UX by (unfold uint32; lia).
  split; [now apply pc2_make_ok|].
  assert (pc2_size m = m_width m * m_height m) as SZ.
  { unfold pc2_size. apply Z.mod_small. nia. }
  split; [exact SZ|]. intros r c Hr Hc. rewrite BE.
  assert (0 <= r * m_width m + c < pc2_size m) as I by (rewrite SZ; nia).
  destruct (pc2_read m xo (r * m_width m + c)) as (x & y & z & E & X & Y & Z'); auto.
  { rewrite DA, RS.
    replace (m_width m * m_point_step m * m_height m)
      with ((m_width m * m_height m) * m_point_step m) by ring.
    assert (r * m_width m + c + 1 <= m_width m * m_height m) as J by lia.
    pose proof (Z.mul_le_mono_nonneg_r _ _ (m_point_step m) ltac:(lia) J). lia. }
  exists x, y, z. split; [exact E|]. split; [rewrite pc2_double_of_float, E; reflexivity|].
  rewrite <- !(point_linear m r c) by exact RS.
  split; [exact X|]. split.
  - replace ((r * m_width m + c) * m_point_step m + (xo + 4))
      with ((r * m_width m + c) * m_point_step m + xo + 4) by ring. exact Y.
  - replace ((r * m_width m + c) * m_point_step m + (xo + 8))
      with ((r * m_width m + c) * m_point_step m + xo + 8) by ring. exact Z'.
Qed.
Print Assumptions c66_decodes_partial.

Lemma xyz_fields_ok step : 12 <= step ->
  NoDup (map f_name xyz_fields) /\
  forall f, In f xyz_fields -> 0 <= f_offset f /\ (f_datatype f = 7 -> f_offset f + 4 <= step).
Proof.
  intros S. split.
  - cbn. repeat constructor; cbn; intuition discriminate.
  - cbn [xyz_fields In]. intros f [<-|[<-|[<-|[]]]]; cbn [f_offset]; lia.
Qed.

Lemma xyz_has h w be st rs data : has_xyz (mkPc2 h w xyz_fields be st rs data) 0.
Proof. unfold has_xyz. cbn. tauto. Qed.

Example c66_decodes_case :
  message_ok small_message /\ has_xyz small_message 0 /\ m_bigendian small_message = false /\
  m_row_step small_message = m_width small_message * m_point_step small_message /\
  m_width small_message * m_height small_message < 2 ^ 32.
Proof.
  split; [|split; [apply xyz_has|repeat split; cbn; lia]].
  destruct (xyz_fields_ok 12 ltac:(lia)) as (N & O).
  constructor; try exact N; try exact O; unfold uint32; cbn; lia.
Qed.

(** Rows that end in padding: the point in row 1 is read from the padding of row 0. *)
Definition padded_message : pc2 :=
  mkPc2 2 1 xyz_fields false 12 24
    [1;0;0;0; 2;0;0;0; 3;0;0;0;  0;0;0;0; 0;0;0;0; 0;0;0;0;
     4;0;0;0; 5;0;0;0; 6;0;0;0;  0;0;0;0; 0;0;0;0; 0;0;0;0].

Theorem c66_rows_refuted :
  exists m xyz_offset r c x y z,
    message_ok m /\ has_xyz m xyz_offset /\ m_bigendian m = false /\
    0 <= r < m_height m /\ 0 <= c < m_width m /\
    copy_into_ptr (pc2_cloud m xyz_offset) (r * m_width m + c) = Ret (x, y, z) /\
    ~ has_word (m_data m) false (point_pos m r c xyz_offset) x.
Proof.
  exists padded_message, 0, 1, 0, 0, 0, 0.
  destruct (xyz_fields_ok 12 ltac:(lia)) as (N & O).
  split; [constructor; try exact N; try exact O; unfold uint32; cbn; lia|].
  split; [apply xyz_has|]. split; [reflexivity|]. split; [cbn; lia|]. split; [cbn; lia|].
  split; [reflexivity|].
  intros (b0 & b1 & b2 & b3 & [= <-] & [= <-] & [= <-] & [= <-] & E). discriminate E.
Qed.
Print Assumptions c66_rows_refuted.

(** Messages in the other byte order are read as if they were in the host's. *)
Theorem c66_byte_order_refuted :
  exists m xyz_offset x y z,
    message_ok m /\ has_xyz m xyz_offset /\ m_row_step m = m_width m * m_point_step m /\
    pc2_make (Some m) false = Ret xyz_offset /\
    copy_into_ptr (pc2_cloud m xyz_offset) 0 = Ret (x, y, z) /\
    ~ has_word (m_data m) (m_bigendian m) (point_pos m 0 0 xyz_offset) x.
Proof.
  exists (mkPc2 1 1 xyz_fields true 12 12 [0;0;0;1; 0;0;0;2; 0;0;0;3]), 0,
    16777216, 33554432, 50331648.
  destruct (xyz_fields_ok 12 ltac:(lia)) as (N & O).
  split; [constructor; try exact N; try exact O; unfold uint32; cbn; lia|].
  split; [apply xyz_has|]. split; [reflexivity|]. split; [reflexivity|]. split; [reflexivity|].
  intros (b0 & b1 & b2 & b3 & [= <-] & [= <-] & [= <-] & [= <-] & E). discriminate E.
Qed.
Print Assumptions c66_byte_order_refuted.

(** With 2^32 points or more the number of points wraps around. *)
Theorem c66_size_refuted :
  exists m, message_ok m /\ has_xyz m 0 /\ m_row_step m = m_width m * m_point_step m /\
    0 < m_width m * m_height m /\ pc2_size m = 0.
Proof.
  exists (mkPc2 (2 ^ 16) (2 ^ 16) xyz_fields false 12 (2 ^ 16 * 12)
    (repeat 0 (Z.to_nat (2 ^ 16 * 12 * 2 ^ 16)))).
  destruct (xyz_fields_ok 12 ltac:(lia)) as (N & O).
  split.
  { constructor; cbn [m_height m_width m_point_step m_row_step m_fields m_data]; try exact N; try exact O;
      unfold uint32; try lia. rewrite zlen_repeat. lia. }
  split; [apply xyz_has|]. cbn [m_height m_width m_point_step m_row_step].
  split; [reflexivity|]. split; [lia|reflexivity].
Qed.
Print Assumptions c66_size_refuted.
