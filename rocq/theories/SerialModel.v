(** Model of serialization, of saving to and loading from files, and of the ROS
    message representation of the map types and of SDFs.

    The serialization of the base class (VoxelGridBase and
    DynamicSpatialHashedVoxelGridBase) and zlib are not in /repo.  They are the
    parameter [deps] below; what is assumed of them is [deps_ok] in SerialSpec. *)
From Coq Require Import ZArith List Bool.
From Verif Require Import Util Grid Occ ComponentMapModel SdfStateModel.
Import ListNotations.
Local Open Scope Z_scope.

Definition bytes : Type := list Z.

(** ** Primitive codecs (common_robotics_utilities::serialization) *)

(** SerializeMemcpyable of an [n]-byte unsigned integer, enumeration or float: its
    bytes, least significant first. *)
Fixpoint ser_word (n : nat) (v : Z) : bytes :=
  match n with O => [] | S m => v mod 256 :: ser_word m (v / 256) end.

(** DeserializeMemcpyable: value and bytes read; throws when the buffer is too
    short. *)
Fixpoint de_word (n : nat) (buf : bytes) (off : Z) : option (Z * Z) :=
  match n with
  | O => Some (0, 0)
  | S m => let* b := zget buf off in
           let* (v, k) := de_word m buf (off + 1) in
           Some (b + 256 * v, 1 + k)
  end.

(** SerializeString: 64 bit length, then the characters. *)
Definition ser_string (s : bytes) : bytes := ser_word 8 (zlen s) ++ s.
(** DeserializeString: throws when fewer characters remain than announced. *)
Definition de_string (buf : bytes) (off : Z) : option (bytes * Z) :=
  let* (n, k) := de_word 8 buf off in
  if off + k + n <=? zlen buf
  then Some (firstn (Z.to_nat n) (skipn (Z.to_nat (off + k)) buf), k + n)
  else None.

(** ** The base class *)

(** State of a VoxelGridBase: [initialized_], origin transform and its inverse (the
    16 words of each matrix), the three voxel sizes (bits of doubles), sizes and
    cells, default and out-of-bounds value. *)
Record vgrid (C : Type) : Type := mkVgrid {
  v_init : bool;
  v_origin : list Z;
  v_inverse : list Z;
  v_sizes : Z * Z * Z;
  v_grid : grid C;
  v_default : C;
  v_oob : C }.
Arguments mkVgrid {C}. Arguments v_init {C}. Arguments v_origin {C}. Arguments v_inverse {C}.
Arguments v_sizes {C}. Arguments v_grid {C}. Arguments v_default {C}. Arguments v_oob {C}.

(** HasUniformVoxelSize.  Simplification: it compares doubles, so that 0.0 and -0.0 are
    equal and NaN is not; voxel sizes are positive numbers. *)
Definition v_uniform {C} (g : vgrid C) : bool :=
  let '(x, y, z) := v_sizes g in (x =? y) && (x =? z).

Definition reader (A : Type) : Type := bytes -> Z -> option (A * Z).

(** The dependencies: base class serialization given the cell codec, the dynamic
    spatial hashed base class, zlib. *)
Record deps : Type := mkDeps {
  d_ser : forall C, (C -> bytes) -> vgrid C -> bytes;
  d_de : forall C, reader C -> reader (vgrid C);
  d_dsh : Type;
  d_dsh_ok : d_dsh -> Prop; (* states the class can be in *)
  d_dsh_uniform : d_dsh -> bool;
  d_dsh_ser : (occ -> bytes) -> d_dsh -> bytes;
  d_dsh_de : reader occ -> reader d_dsh;
  d_compress : bytes -> bytes;
  d_decompress : bytes -> option bytes }.

(** ** Cells *)

(** occupancy_map.cpp:23-31 and 33-46. *)
Definition occ_ser (c : occ) : bytes := ser_word 4 c.
Definition occ_de : reader occ := fun buf off =>
  let* (o, n) := de_word 4 buf off in Some (o, n).

(** occupancy_component_map.cpp:24-34 and 36-55. *)
Definition ccell_ser (c : ccell) : bytes := ser_word 4 (c_occ c) ++ ser_word 4 (c_comp c).
Definition ccell_de : reader ccell := fun buf off =>
  let* (o, n) := de_word 4 buf off in
  let* (k, n') := de_word 4 buf (off + n) in
  Some (mkCcell o k, n + n').

(** TaggedObjectOccupancyCell (tagged_object_occupancy_map.hpp:27-70), and its
    serialization, tagged_object_occupancy_map.cpp:23-33 and 35-54. *)
Record tcell : Type := mkTcell { g_occ : occ; g_obj : Z }.
Definition tcell_ser (c : tcell) : bytes := ser_word 4 (g_occ c) ++ ser_word 4 (g_obj c).
Definition tcell_de : reader tcell := fun buf off =>
  let* (o, n) := de_word 4 buf off in
  let* (k, n') := de_word 4 buf (off + n) in
  Some (mkTcell o k, n + n').

(** tagged_object_occupancy_component_map.cpp:24-39 and 41-70. *)
Definition tccell_ser (c : tccell) : bytes :=
  ser_word 4 (t_occ c) ++ ser_word 4 (t_obj c) ++ ser_word 4 (t_comp c) ++ ser_word 4 (t_seg c).
Definition tccell_de : reader tccell := fun buf off =>
  let* (o, n1) := de_word 4 buf off in
  let* (j, n2) := de_word 4 buf (off + n1) in
  let* (k, n3) := de_word 4 buf (off + n1 + n2) in
  let* (s, n4) := de_word 4 buf (off + n1 + n2 + n3) in
  Some (mkTccell o j k s, n1 + n2 + n3 + n4).

Section Serial.
Variable D : deps.

(** VoxelGridBase::DeserializeSelf: the base part, then DerivedDeserializeSelf,
    which first enforces uniform voxel sizes. *)
Definition de_self {C M} (cell : reader C) (derived : vgrid C -> reader M) : reader M := fun buf off =>
  let* (b, n) := d_de D C cell buf off in
  if v_uniform b then
    let* (m, n') := derived b buf (off + n) in Some (m, n + n')
  else None.

(** ** OccupancyMap (and TaggedObjectOccupancyMap): base class and frame *)

Record fmap (C : Type) : Type := mkFmap { fm_base : vgrid C; fm_frame : bytes }.
Arguments mkFmap {C}. Arguments fm_base {C}. Arguments fm_frame {C}.

(** occupancy_map.cpp:56-65 (DerivedSerializeSelf) and 100-104 (Serialize);
    tagged_object_occupancy_map.cpp:66-75 and 110-114. *)
Definition fmap_ser {C} (cell : C -> bytes) (m : fmap C) : bytes :=
  d_ser D C cell (fm_base m) ++ ser_string (fm_frame m).
(** occupancy_map.cpp:67-84 (DerivedDeserializeSelf) and 106-114 (Deserialize);
    tagged_object_occupancy_map.cpp:77-94 and 116-125. *)
Definition fmap_de {C} (cell : reader C) : reader (fmap C) :=
  de_self cell (fun b buf off =>
    let* (frame, n) := de_string buf off in Some (mkFmap b frame, n)).

Definition om_serialize : fmap occ -> bytes := fmap_ser occ_ser.
Definition om_deserialize : reader (fmap occ) := fmap_de occ_de.
Definition tg_serialize : fmap tcell -> bytes := fmap_ser tcell_ser.
Definition tg_deserialize : reader (fmap tcell) := fmap_de tcell_de.

(** ** OccupancyComponentMap *)

Record cmmap : Type := mkCmmap {
  s_base : vgrid ccell; s_n : Z; s_frame : bytes; s_valid : bool }.

(** occupancy_component_map.cpp:66-79 (DerivedSerializeSelf) and 129-133. *)
Definition bool_byte (b : bool) : Z := if b then 1 else 0.
Definition cm_serialize (m : cmmap) : bytes :=
  d_ser D ccell ccell_ser (s_base m) ++
  ser_word 4 (s_n m) ++ ser_string (s_frame m) ++ ser_word 1 (bool_byte (s_valid m)).
(** occupancy_component_map.cpp:81-109 (DerivedDeserializeSelf) and 135-144. *)
Definition cm_deserialize : reader cmmap :=
  de_self ccell_de (fun b buf off =>
    let* (n, k1) := de_word 4 buf off in
    let* (frame, k2) := de_string buf (off + k1) in
    let* (valid, k3) := de_word 1 buf (off + k1 + k2) in
    Some (mkCmmap b n frame (negb (valid =? 0)), k1 + k2 + k3)).

(** ** TaggedObjectOccupancyComponentMap *)

Record tcmap : Type := mkTcmap {
  u_base : vgrid tccell; u_n : Z; u_nseg : Z; u_frame : bytes; u_valid : bool; u_seg_valid : bool }.

(** tagged_object_occupancy_component_map.cpp:82-99 and 162-167. *)
Definition tc_serialize (m : tcmap) : bytes :=
  d_ser D tccell tccell_ser (u_base m) ++
  ser_word 4 (u_n m) ++ ser_word 4 (u_nseg m) ++ ser_string (u_frame m) ++
  ser_word 1 (bool_byte (u_valid m)) ++ ser_word 1 (bool_byte (u_seg_valid m)).
(** tagged_object_occupancy_component_map.cpp:101-140 and 169-178. *)
Definition tc_deserialize : reader tcmap :=
  de_self tccell_de (fun b buf off =>
    let* (n, k1) := de_word 4 buf off in
    let* (nseg, k2) := de_word 4 buf (off + k1) in
    let* (frame, k3) := de_string buf (off + k1 + k2) in
    let* (valid, k4) := de_word 1 buf (off + k1 + k2 + k3) in
    let* (seg_valid, k5) := de_word 1 buf (off + k1 + k2 + k3 + k4) in
    Some (mkTcmap b n nseg frame (negb (valid =? 0)) (negb (seg_valid =? 0)), k1 + k2 + k3 + k4 + k5)).

(** ** DynamicSpatialHashedOccupancyMap *)

Record dmap : Type := mkDmap { w_base : d_dsh D; w_frame : bytes }.

(** dynamic_spatial_hashed_occupancy_map.cpp:32-41 and 77-81. *)
Definition dm_serialize (m : dmap) : bytes := d_dsh_ser D occ_ser (w_base m) ++ ser_string (w_frame m).
(** dynamic_spatial_hashed_occupancy_map.cpp:44-61 and 83-93. *)
Definition dm_deserialize : reader dmap := fun buf off =>
  let* (b, n) := d_dsh_de D occ_de buf off in
  if d_dsh_uniform D b then
    let* (frame, k) := de_string buf (off + n) in Some (mkDmap b frame, n + k)
  else None.

(** ** SignedDistanceField *)

Section Sdf.
(** The scalar type: number of bytes and comparison of the patterns. *)
Variables (width : nat) (lt : Z -> Z -> bool).

Record sdf : Type := mkSdf {
  x_base : vgrid Z; x_frame : bytes; x_locked : bool; x_minmax : Z * Z }.

(** The lock state machine of SdfStateModel on this object. *)
Definition x_state (s : sdf) : field_state Z :=
  mkField (v_grid (x_base s)) (x_locked s) (x_minmax s) [].

(** signed_distance_field.hpp:765-779. *)
Definition x_get_minmax (s : sdf) : option (Z * Z) := get_minmax lt (x_state s).

(** signed_distance_field.hpp:551-563 (DerivedSerializeSelf) and 622-629. *)
Definition sdf_serialize (s : sdf) : bytes :=
  d_ser D Z (ser_word width) (x_base s) ++
  ser_string (x_frame s) ++ ser_word 1 (bool_byte (x_locked s)).
(** signed_distance_field.hpp:565-596 (DerivedDeserializeSelf, into a default
    constructed, hence unlocked, field) and 631-641.  [s0] is the value of the
    default constructed minimum and maximum. *)
Definition sdf_deserialize (s0 : Z) : reader sdf :=
  de_self (de_word width) (fun b buf off =>
    let* (frame, k1) := de_string buf off in
    let* (locked, k2) := de_word 1 buf (off + k1) in
    let s := mkSdf b frame false (s0, s0) in
    if negb (locked =? 0) then
      let* f := f_lock lt (x_state s) in
      Some (mkSdf b frame (f_locked f) (f_minmax f), k1 + k2)
    else Some (s, k1 + k2)).
End Sdf.

(** ** Files *)

Section Files.
Variables (header_z header_r : bytes).

(** occupancy_map.cpp:116-143 (SaveToFile): the content of the file.  The other types
    repeat it with their own headers: occupancy_component_map.cpp:146-173,
    tagged_object_occupancy_map.cpp:127-154,
    tagged_object_occupancy_component_map.cpp:180-207,
    dynamic_spatial_hashed_occupancy_map.cpp:95-122,
    signed_distance_field.hpp:643-669. *)
Definition save_file {M} (ser : M -> bytes) (m : M) (compress : bool) : bytes :=
  if compress then header_z ++ d_compress D (ser m) else header_r ++ ser m.

(** The C string held by a zero-terminated buffer. *)
Fixpoint c_string (l : bytes) : bytes :=
  match l with [] => [] | b :: t => if b =? 0 then [] else b :: c_string t end.
Definition bytes_eqb (a b : bytes) : bool := if list_eq_dec Z.eq_dec a b then true else false.

(** occupancy_map.cpp:145-193 (LoadFromFile; the same code in
    occupancy_component_map.cpp:175-224, tagged_object_occupancy_map.cpp:156-205,
    tagged_object_occupancy_component_map.cpp:209-260,
    dynamic_spatial_hashed_occupancy_map.cpp:124-175 and
    signed_distance_field.hpp:671-722); [None] for the content when the file
    does not exist; [None] as result: an exception. *)
Definition load_file {M} (de : reader M) (content : option bytes) : option M :=
  let* file := content in
  if 4 <=? zlen file then
    let header := c_string (firstn 4 file ++ [0]) in
    let payload := skipn 4 file in
    if bytes_eqb header header_z then
      let* raw := d_decompress D payload in let* (m, _) := de raw 0 in Some m
    else if bytes_eqb header header_r then let* (m, _) := de payload 0 in Some m
    else None
  else None.
End Files.

(** The types, with the headers written by SaveToFile and accepted by LoadFromFile:
    occupancy_map.cpp:126, 136, 172, 179; occupancy_component_map.cpp:156, 166, 203,
    210; tagged_object_occupancy_map.cpp:137, 147, 184, 191;
    tagged_object_occupancy_component_map.cpp:190, 200, 237, 245;
    dynamic_spatial_hashed_occupancy_map.cpp:105, 115, 152, 160;
    signed_distance_field.hpp:652, 662, 699, 707. *)
Inductive kind : Type := KOccupancy | KComponent | KTagged | KTaggedComponent | KDynamic | KSdf.
Definition header_of (k : kind) (compressed : bool) : bytes :=
  let last := if compressed then 90 (* Z *) else 82 (* R *) in
  match k with
  | KOccupancy | KComponent => [67; 77; 71; last]      (* CMG *)
  | KTagged | KTaggedComponent => [84; 77; 71; last]   (* TMG *)
  | KDynamic => [68; 77; 71; last]                     (* DMG *)
  | KSdf => [83; 68; 70; last]                         (* SDF *)
  end.
Definition save {M} (k : kind) (ser : M -> bytes) (m : M) (compress : bool) : bytes :=
  save_file (header_of k true) (header_of k false) ser m compress.
Definition load {M} (k : kind) (de : reader M) (content : option bytes) : option M :=
  load_file (header_of k true) (header_of k false) de content.

(** ** ROS messages *)

(** msg/*.msg: frame of the header, bytes, compression flag and, for SDFs, the scalar
    type. *)
Record message : Type := mkMessage {
  msg_frame : bytes; msg_data : bytes; msg_compressed : bool; msg_scalar : Z }.
Definition scalar_float : Z := 1.
Definition scalar_double : Z := 2.

(** ros_interface.cpp:204-214, 429-440, 515-526, 792-803, 1150-1161; the map messages
    have no scalar type (0 here). *)
Definition to_message {M} (frame : M -> bytes) (ser : M -> bytes) (m : M) : message :=
  mkMessage (frame m) (d_compress D (ser m)) true 0.
(** ros_interface.cpp:216-229, 442-457, 528-544, 805-820, 1163-1179. *)
Definition from_message {M} (de : reader M) (msg : message) : option M :=
  if msg_compressed msg then
    let* raw := d_decompress D (msg_data msg) in let* (m, _) := de raw 0 in Some m
  else let* (m, _) := de (msg_data msg) 0 in Some m.

(** ros_interface.hpp:415-443; [double]: the scalar type of the field. *)
Definition sdf_to_message (double : bool) (ser : sdf -> bytes) (s : sdf) : message :=
  mkMessage (x_frame s) (d_compress D (ser s)) true (if double then scalar_double else scalar_float).
(** ros_interface.hpp:445-485. *)
Definition sdf_from_message (double : bool) (de : reader sdf) (msg : message) : option sdf :=
  if msg_compressed msg then
    if msg_scalar msg =? (if double then scalar_double else scalar_float) then
      let* raw := d_decompress D (msg_data msg) in let* (s, _) := de raw 0 in Some s
    else None
  else let* (s, _) := de (msg_data msg) 0 in Some s.
End Serial.

Arguments mkFmap {C}. Arguments fm_base {C}. Arguments fm_frame {C}.
