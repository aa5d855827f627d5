(** Specification vocabulary for serialization, files and messages, and what is
    assumed of the libraries that are not in /repo. *)
From Coq Require Import ZArith List Bool Ascii String.
From Verif Require Import Util Grid Occ ComponentMapModel SerialModel.
Import ListNotations.
Local Open Scope Z_scope.

(** Values of [n] bytes. *)
Definition word (n : Z) (v : Z) : Prop := 0 <= v < 256 ^ n.

(** The buffer holds the bytes [bs] at position [off]. *)
Definition holds (buf : bytes) (off : Z) (bs : bytes) : Prop :=
  exists pre post, buf = pre ++ bs ++ post /\ zlen pre = off.

(** Whatever surrounds them, the bytes written for an object that satisfies [ok] read
    back as this object, and the number of bytes read is the number written. *)
Definition round_trips {A} (ok : A -> Prop) (ser : A -> bytes) (de : reader A) : Prop :=
  forall a buf off, ok a -> holds buf off (ser a) -> de buf off = Some (a, zlen (ser a)).

(** A successful read lies inside the buffer, and its result depends on nothing but
    the bytes it reports as read. *)
Definition reads_what_it_reports {A} (de : reader A) : Prop :=
  forall buf off a n, Forall (word 1) buf -> 0 <= off -> de buf off = Some (a, n) ->
    exists bs, holds buf off bs /\ zlen bs = n /\
      forall buf' off', holds buf' off' bs -> de buf' off' = Some (a, n).

(** ** Representable values *)

Definition is_string (s : bytes) : Prop := Forall (word 1) s /\ word 8 (zlen s).
Definition is_transform (l : list Z) : Prop := List.length l = 16%nat /\ Forall (word 8) l.

Definition is_ccell (c : ccell) : Prop := word 4 (c_occ c) /\ word 4 (c_comp c).
Definition is_tcell (c : tcell) : Prop := word 4 (g_occ c) /\ word 4 (g_obj c).
Definition is_tccell (c : tccell) : Prop :=
  word 4 (t_occ c) /\ word 4 (t_obj c) /\ word 4 (t_comp c) /\ word 4 (t_seg c).

(** States of the base class with cells that satisfy [ok]. *)
Definition is_vgrid {C} (ok : C -> Prop) (g : vgrid C) : Prop :=
  is_transform (v_origin g) /\ is_transform (v_inverse g) /\
  word 8 (fst (fst (v_sizes g))) /\ word 8 (snd (fst (v_sizes g))) /\ word 8 (snd (v_sizes g)) /\
  zlen (g_cells (v_grid g)) = g_total (v_grid g) /\
  word 8 (g_nx (v_grid g)) /\ word 8 (g_ny (v_grid g)) /\ word 8 (g_nz (v_grid g)) /\
  word 8 (zlen (g_cells (v_grid g))) /\
  Forall ok (g_cells (v_grid g)) /\ ok (v_default g) /\ ok (v_oob g).

(** What is assumed of the base classes and of zlib. *)
Definition deps_ok (D : deps) : Prop :=
  (forall C (ok : C -> Prop) ser de, round_trips ok ser de ->
     round_trips (is_vgrid ok) (d_ser D C ser) (d_de D C de)) /\
  (forall C (de : reader C), reads_what_it_reports de -> reads_what_it_reports (d_de D C de)) /\
  (forall C (ser : C -> bytes), (forall c, Forall (word 1) (ser c)) ->
     forall g, Forall (word 1) (d_ser D C ser g)) /\
  (forall ser de, round_trips (word 4) ser de ->
     round_trips (d_dsh_ok D) (d_dsh_ser D ser) (d_dsh_de D de)) /\
  (forall de, reads_what_it_reports de -> reads_what_it_reports (d_dsh_de D de)) /\
  (forall ser, (forall c, Forall (word 1) (ser c)) -> forall g, Forall (word 1) (d_dsh_ser D ser g)) /\
  (forall b, d_decompress D (d_compress D b) = Some b).

(** Map objects: the constructors and the deserializers enforce uniform voxel sizes. *)
Definition is_fmap {C} (ok : C -> Prop) (m : fmap C) : Prop :=
  is_vgrid ok (fm_base m) /\ v_uniform (fm_base m) = true /\ is_string (fm_frame m).
Definition is_cmmap (m : cmmap) : Prop :=
  is_vgrid is_ccell (s_base m) /\ v_uniform (s_base m) = true /\ is_string (s_frame m) /\ word 4 (s_n m).
Definition is_tcmap (m : tcmap) : Prop :=
  is_vgrid is_tccell (u_base m) /\ v_uniform (u_base m) = true /\ is_string (u_frame m) /\
  word 4 (u_n m) /\ word 4 (u_nseg m).
Definition is_dmap {D} (m : dmap D) : Prop :=
  d_dsh_ok D (w_base D m) /\ d_dsh_uniform D (w_base D m) = true /\ is_string (w_frame D m).

(** An SDF object with scalars of [width] bytes. *)
Definition is_sdf (width : nat) (s : sdf) : Prop :=
  is_vgrid (word (Z.of_nat width)) (x_base s) /\ v_uniform (x_base s) = true /\ is_string (x_frame s).

(** The cached minimum and maximum are those of the stored distances (C15). *)
Definition cache_current (lt : Z -> Z -> bool) (s : sdf) : Prop :=
  x_locked s = true -> x_get_minmax lt (mkSdf (x_base s) (x_frame s) false (x_minmax s)) = Some (x_minmax s).

(** ** Files *)

Definition ascii_bytes (s : string) : bytes :=
  map (fun c => Z.of_nat (nat_of_ascii c)) (list_ascii_of_string s).

(** The four characters a file of this type starts with. *)
Definition magic (k : kind) (compressed : bool) : bytes :=
  ascii_bytes (match k, compressed with
    | KOccupancy, true => "CMGZ" | KOccupancy, false => "CMGR"
    | KComponent, true => "CMGZ" | KComponent, false => "CMGR"
    | KTagged, true => "TMGZ" | KTagged, false => "TMGR"
    | KTaggedComponent, true => "TMGZ" | KTaggedComponent, false => "TMGR"
    | KDynamic, true => "DMGZ" | KDynamic, false => "DMGR"
    | KSdf, true => "SDFZ" | KSdf, false => "SDFR"
    end).

(** ** Conversions *)

(** An initialized grid: sizes match the cells, uniform voxels, and the inverse is that
    of the origin. *)
Definition initialized {C} (inv : list Z -> list Z) (g : vgrid C) : Prop :=
  v_init g = true /\ gwf (v_grid g) /\ v_uniform g = true /\ v_inverse g = inv (v_origin g).

(** An uninitialized base: no cells, and both transforms are the identity, as bits of doubles
    by columns. *)
Definition identity_bits (t : list Z) : Prop :=
  zlen t = 16 /\ forall r c, 0 <= r < 4 -> 0 <= c < 4 -> zget t (4 * c + r) = Some (if r =? c then 1023 * 2 ^ 52 else 0).
Definition no_cells {A} (g : vgrid A) : Prop :=
  v_init g = false /\ identity_bits (v_origin g) /\ identity_bits (v_inverse g) /\ v_sizes g = (0, 0, 0) /\
  g_nx (v_grid g) = 0 /\ g_ny (v_grid g) = 0 /\ g_nz (v_grid g) = 0 /\ g_cells (v_grid g) = [].

(** Everything but the cells agrees, default and out-of-bounds value up to [f], and
    each cell is the image under [f]. *)
Definition image_of {A C} (f : A -> C) (g : vgrid A) (h : vgrid C) : Prop :=
  v_init h = v_init g /\ v_origin h = v_origin g /\ v_inverse h = v_inverse g /\ v_sizes h = v_sizes g /\
  g_nx (v_grid h) = g_nx (v_grid g) /\ g_ny (v_grid h) = g_ny (v_grid g) /\ g_nz (v_grid h) = g_nz (v_grid g) /\
  v_default h = f (v_default g) /\ v_oob h = f (v_oob g) /\
  forall i, gget (v_grid h) i = option_map f (gget (v_grid g) i).
