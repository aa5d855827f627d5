(** What a PointCloud2 message means, from the documentation of sensor_msgs, stated
    without the functions of the model. *)
From Coq Require Import ZArith List Bool String.
From Verif Require Import Util SerialModel PointCloudModel.
Import ListNotations.
Local Open Scope Z_scope.

(** The four bytes at [pos] encode the word [w] in the given byte order. *)
Definition has_word (data : bytes) (big : bool) (pos w : Z) : Prop :=
  exists b0 b1 b2 b3,
    zget data pos = Some b0 /\ zget data (pos + 1) = Some b1 /\
    zget data (pos + 2) = Some b2 /\ zget data (pos + 3) = Some b3 /\
    w = if big then b3 + 2 ^ 8 * b2 + 2 ^ 16 * b1 + 2 ^ 24 * b0
        else b0 + 2 ^ 8 * b1 + 2 ^ 16 * b2 + 2 ^ 24 * b3.

(** Where the message stores the field with offset [off] of the point in row [r],
    column [c]. *)
Definition point_pos (m : pc2) (r c off : Z) : Z :=
  r * m_row_step m + c * m_point_step m + off.

Definition uint32 (z : Z) : Prop := 0 <= z < 2 ^ 32.

(** x, y and z are FLOAT32 fields (datatype 7) at three consecutive words of every point. *)
Definition has_xyz (m : pc2) (off : Z) : Prop :=
  In (mkField "x" off 7) (m_fields m) /\
  In (mkField "y" (off + 4) 7) (m_fields m) /\
  In (mkField "z" (off + 8) 7) (m_fields m).

(** A message that follows the documentation of sensor_msgs/PointCloud2. *)
Record message_ok (m : pc2) : Prop := {
  ok_height : uint32 (m_height m);
  ok_width : uint32 (m_width m);
  ok_point_step : uint32 (m_point_step m);
  ok_row_step : uint32 (m_row_step m);
  ok_names : NoDup (map f_name (m_fields m));
  ok_offsets : forall f, In f (m_fields m) ->
     0 <= f_offset f /\ (f_datatype f = 7 -> f_offset f + 4 <= m_point_step m);
  ok_rows : m_width m * m_point_step m <= m_row_step m;
  ok_data : zlen (m_data m) = m_row_step m * m_height m }.
