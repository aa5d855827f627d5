(** Property theorems C16, C22-C25, C54 and C59: serialization, files, messages and
    conversions.  The base classes and zlib are any [deps] with [deps_ok]; SerialDeps
    gives one. *)
From Coq Require Import ZArith List Bool Lia.
From Verif Require Import Util Grid Occ ComponentMapModel SdfStateModel SdfStateSpec SdfStateProofs
  SerialModel SerialSpec SerialProofs
  SerialDeps ConversionModel ConversionProofs.
Import ListNotations.
Local Open Scope Z_scope.

(** Example objects. *)
Definition ex_base {C} (a b d : C) : vgrid C :=
  mkVgrid true identity_words identity_words (4602678819172646912, 4602678819172646912, 4602678819172646912)
    (mkGrid 2 1 1 [a; b]) d d.
Definition ex_frame : bytes := [119; 111; 114; 108; 100].
Definition ex_om : fmap occ := mkFmap (ex_base 0 1065353216 0) ex_frame.
Definition ex_tg : fmap tcell := mkFmap (ex_base (mkTcell 0 7) (mkTcell 1065353216 9) (mkTcell 0 0)) ex_frame.
Definition ex_cm : cmmap :=
  mkCmmap (ex_base (mkCcell 0 1) (mkCcell 1065353216 2) (mkCcell 0 0)) 2 ex_frame true.
Definition ex_tc : tcmap :=
  mkTcmap (ex_base (mkTccell 0 0 1 0) (mkTccell 1065353216 5 2 1) (mkTccell 0 0 0 0)) 2 1 ex_frame true false.
Definition ex_dm : dmap std_deps := mkDmap std_deps (ex_base 0 1065353216 0) ex_frame.
Definition ex_sdf : sdf := mkSdf (ex_base 5 3 0) ex_frame true (3, 5).

Ltac words := repeat split; cbn; repeat constructor; unfold word; cbn; try lia.
Lemma ex_om_ok : is_fmap (word 4) ex_om.
Proof. words. Qed.
Lemma ex_tg_ok : is_fmap is_tcell ex_tg.
Proof. words. Qed.
Lemma ex_cm_ok : is_cmmap ex_cm.
Proof. words. Qed.
Lemma ex_tc_ok : is_tcmap ex_tc.
Proof. words. Qed.
Lemma ex_dm_ok : is_dmap ex_dm.
Proof. words. Qed.
Lemma ex_sdf_ok : is_sdf 8 ex_sdf /\ cache_current Z.ltb ex_sdf.
Proof. split; [words|]. intros _. reflexivity. Qed.

(** C16, for scalars of any width and any comparison: the bytes of an SDF whose cached
    minimum and maximum are current (C15) read back, at any place of any buffer, as an
    SDF with the same base state, frame, lock state and GetMinimumMaximum answer, and
    the read reports the number of bytes written. *)
Theorem c16_sdf_round_trip D width lt s0 s buf off :
  deps_ok D -> is_sdf width s -> cache_current lt s -> holds buf off (sdf_serialize D width s) ->
  exists s', sdf_deserialize D width lt s0 buf off = Some (s', zlen (sdf_serialize D width s)) /\
    x_base s' = x_base s /\ x_frame s' = x_frame s /\ x_locked s' = x_locked s /\
    x_get_minmax lt s' = x_get_minmax lt s.
Proof.
  intros DOK S CC H. eexists. split; [exact (sdf_rt D DOK width lt s0 s buf off S CC H)|].
  cbn [x_base x_frame x_locked]. do 3 (split; [reflexivity|]).
  unfold x_get_minmax, x_state, get_minmax. cbn. destruct (x_locked s); reflexivity.
Qed.
Print Assumptions c16_sdf_round_trip.
Example c16_hypotheses : deps_ok std_deps /\ is_sdf 8 ex_sdf /\ cache_current Z.ltb ex_sdf /\
  holds ([1; 2; 3] ++ sdf_serialize std_deps 8 ex_sdf ++ [4]) 3 (sdf_serialize std_deps 8 ex_sdf).
Proof.
  split; [exact std_deps_ok|]. split; [apply ex_sdf_ok|]. split; [apply ex_sdf_ok|].
  exists [1; 2; 3], [4]. split; reflexivity.
Qed.

(** The condition on the cache holds after every careful history (C15) of a
    constructed SDF, for any comparison. *)
Theorem c16_cache_current_after_histories lt s0 nx ny nz d ops s :
  along lt careful (f_construct s0 nx ny nz d) ops ->
  v_grid (x_base s) = f_grid (fst (frun lt (f_construct s0 nx ny nz d) ops)) ->
  x_locked s = f_locked (fst (frun lt (f_construct s0 nx ny nz d) ops)) ->
  x_minmax s = f_minmax (fst (frun lt (f_construct s0 nx ny nz d) ops)) ->
  cache_current lt s.
Proof.
  intros A G L M HL. pose proof (cache_inv_run lt (f_construct s0 nx ny nz d) ops) as I.
  specialize (I ltac:(intros X; discriminate) A). rewrite L in HL. destruct (I HL) as (_ & E).
  unfold x_get_minmax, x_state. cbn. rewrite G, M. unfold get_minmax in *. cbn in *. exact E.
Qed.
Print Assumptions c16_cache_current_after_histories.
Example c16_histories_hypotheses :
  along Z.ltb careful (f_construct 0 2 1 1 3) [FSet (0, 0, 0) 5; FLock] /\
  f_grid (fst (frun Z.ltb (f_construct 0 2 1 1 3) [FSet (0, 0, 0) 5; FLock])) = v_grid (x_base ex_sdf) /\
  f_minmax (fst (frun Z.ltb (f_construct 0 2 1 1 3) [FSet (0, 0, 0) 5; FLock])) = x_minmax ex_sdf.
Proof. split; [cbn; tauto|]. split; reflexivity. Qed.

(** C22: the five map types. *)
Theorem c22_map_round_trips D : deps_ok D ->
  round_trips (is_fmap (word 4)) (om_serialize D) (om_deserialize D) /\
  round_trips is_cmmap (cm_serialize D) (cm_deserialize D) /\
  round_trips (is_fmap is_tcell) (tg_serialize D) (tg_deserialize D) /\
  round_trips is_tcmap (tc_serialize D) (tc_deserialize D) /\
  round_trips is_dmap (dm_serialize D) (dm_deserialize D).
Proof.
  intros DOK. split; [exact (fmap_rt D DOK _ _ _ occ_rt)|]. split; [exact (cm_rt D DOK)|].
  split; [exact (fmap_rt D DOK _ _ _ tcell_rt)|]. split; [exact (tc_rt D DOK)|exact (dm_rt D DOK)].
Qed.
Print Assumptions c22_map_round_trips.
Example c22_hypotheses : deps_ok std_deps /\
  is_fmap (word 4) ex_om /\ is_cmmap ex_cm /\ is_fmap is_tcell ex_tg /\ is_tcmap ex_tc /\ is_dmap ex_dm.
Proof. exact (conj std_deps_ok (conj ex_om_ok (conj ex_cm_ok (conj ex_tg_ok (conj ex_tc_ok ex_dm_ok))))). Qed.

(** C59: a successful read of any of the types stays inside the buffer and depends on
    the reported bytes only; every strict prefix of serialized bytes is rejected. *)
Theorem c59_reads_what_it_reports D : deps_ok D ->
  reads_what_it_reports (om_deserialize D) /\ reads_what_it_reports (cm_deserialize D) /\
  reads_what_it_reports (tg_deserialize D) /\ reads_what_it_reports (tc_deserialize D) /\
  reads_what_it_reports (dm_deserialize D) /\
  forall width lt s0, (0 < width)%nat -> reads_what_it_reports (sdf_deserialize D width lt s0).
Proof.
  intros DOK. split; [exact (fmap_local D DOK _ occ_local)|]. split; [exact (cm_local D DOK)|].
  split; [exact (fmap_local D DOK _ tcell_local)|]. split; [exact (tc_local D DOK)|].
  split; [exact (dm_local D DOK)|]. exact (fun w lt s0 => sdf_local D DOK w lt s0).
Qed.
Print Assumptions c59_reads_what_it_reports.

Theorem c59_truncated_rejected D k : deps_ok D ->
  (forall m, is_fmap (word 4) m -> (k < length (om_serialize D m))%nat ->
     om_deserialize D (firstn k (om_serialize D m)) 0 = None) /\
  (forall m, is_cmmap m -> (k < length (cm_serialize D m))%nat ->
     cm_deserialize D (firstn k (cm_serialize D m)) 0 = None) /\
  (forall m, is_fmap is_tcell m -> (k < length (tg_serialize D m))%nat ->
     tg_deserialize D (firstn k (tg_serialize D m)) 0 = None) /\
  (forall m, is_tcmap m -> (k < length (tc_serialize D m))%nat ->
     tc_deserialize D (firstn k (tc_serialize D m)) 0 = None) /\
  (forall m, is_dmap m -> (k < length (dm_serialize D m))%nat ->
     dm_deserialize D (firstn k (dm_serialize D m)) 0 = None) /\
  (forall width lt s0 s, (0 < width)%nat -> is_sdf width s -> cache_current lt s ->
     (k < length (sdf_serialize D width s))%nat ->
     sdf_deserialize D width lt s0 (firstn k (sdf_serialize D width s)) 0 = None).
Proof. exact (truncated_all D k). Qed.
Print Assumptions c59_truncated_rejected.
Example c59_hypotheses : (4 < length (om_serialize std_deps ex_om))%nat /\
  om_deserialize std_deps (om_serialize std_deps ex_om) 0 = Some (ex_om, zlen (om_serialize std_deps ex_om)).
Proof. split; [cbn; lia|]. vm_compute. reflexivity. Qed.

(** C23: loading a saved file gives back the object, for every type and both
    compression settings. *)
Theorem c23_save_load D c : deps_ok D ->
  (forall m, is_fmap (word 4) m ->
     load D KOccupancy (om_deserialize D) (Some (save D KOccupancy (om_serialize D) m c)) = Some m) /\
  (forall m, is_cmmap m ->
     load D KComponent (cm_deserialize D) (Some (save D KComponent (cm_serialize D) m c)) = Some m) /\
  (forall m, is_fmap is_tcell m ->
     load D KTagged (tg_deserialize D) (Some (save D KTagged (tg_serialize D) m c)) = Some m) /\
  (forall m, is_tcmap m ->
     load D KTaggedComponent (tc_deserialize D) (Some (save D KTaggedComponent (tc_serialize D) m c)) = Some m) /\
  (forall m, is_dmap m ->
     load D KDynamic (dm_deserialize D) (Some (save D KDynamic (dm_serialize D) m c)) = Some m) /\
  (forall width lt s0 s, is_sdf width s -> cache_current lt s ->
     exists s', load D KSdf (sdf_deserialize D width lt s0) (Some (save D KSdf (sdf_serialize D width) s c)) = Some s' /\
       x_base s' = x_base s /\ x_frame s' = x_frame s /\ x_locked s' = x_locked s /\
       x_get_minmax lt s' = x_get_minmax lt s).
Proof. exact (save_load_all D c). Qed.
Print Assumptions c23_save_load.
Example c23_hypotheses : firstn 4 (save std_deps KOccupancy (om_serialize std_deps) ex_om true) = magic KOccupancy true.
Proof. reflexivity. Qed.

(** C23: whatever is loaded existed and started with a magic of the type; anything
    else raises an exception. *)
Theorem c23_other_files_rejected D M k (de : reader M) content :
  (forall c payload, content <> Some (magic k c ++ payload)) -> load D k de content = None.
Proof.
  intros N. destruct (load D k de content) as [m|] eqn:E; [|reflexivity]. exfalso.
  destruct (load_accepts D k de content m E) as (c & p & ->). apply (N c p). now rewrite header_magic.
Qed.
Print Assumptions c23_other_files_rejected.
Example c23_rejected_hypotheses :
  (forall c payload, Some [67; 77; 71] <> Some (magic KOccupancy c ++ payload)) /\
  (forall c payload, Some (magic KDynamic true ++ [1]) <> Some (magic KSdf c ++ payload)).
Proof. split; intros [] p; discriminate. Qed.

(** C24 fails: the plain loader accepts the header of a component map file, and loads
    the file of a default constructed component map as a plain map. *)
Theorem c24_shared_header_refuted :
  exists k1 k2, k1 <> k2 /\ forall c, magic k1 c = magic k2 c /\
  exists D m m', deps_ok D /\ is_cmmap m /\
    load D KOccupancy (om_deserialize D) (Some (save D KComponent (cm_serialize D) m c)) = Some m'.
Proof.
  exists KOccupancy, KComponent. split; [discriminate|]. intros c. split; [destruct c; reflexivity|].
  exists std_deps, (mkCmmap (v_uninitialized (mkCcell 0 0)) 0 [] false).
  exists (mkFmap (v_uninitialized 0) []). split; [exact std_deps_ok|]. split; [words|].
  destruct c; vm_compute; reflexivity.
Qed.
Print Assumptions c24_shared_header_refuted.

(** C24, the part that holds: between the families (plain/component, tagged/tagged
    component, dynamic, SDF) no file is accepted. *)
Definition family (k : kind) : Z :=
  match k with KOccupancy | KComponent => 0 | KTagged | KTaggedComponent => 1 | KDynamic => 2 | KSdf => 3 end.
Theorem c24_families_partial D M N k1 k2 (ser : M -> bytes) (de : reader N) m c :
  family k1 <> family k2 -> load D k2 de (Some (save D k1 ser m c)) = None.
Proof. exact (family_rejected D k1 k2 ser de m c). Qed.
Print Assumptions c24_families_partial.
Example c24_hypotheses : family KOccupancy <> family KTagged /\ family KDynamic <> family KSdf.
Proof. split; discriminate. Qed.

(** C54: loading from the message representation gives back the object. *)
Theorem c54_message_round_trips D : deps_ok D ->
  (forall m, is_fmap (word 4) m ->
     from_message D (om_deserialize D) (to_message D fm_frame (om_serialize D) m) = Some m /\
     msg_frame (to_message D fm_frame (om_serialize D) m) = fm_frame m) /\
  (forall m, is_cmmap m ->
     from_message D (cm_deserialize D) (to_message D s_frame (cm_serialize D) m) = Some m) /\
  (forall m, is_fmap is_tcell m ->
     from_message D (tg_deserialize D) (to_message D fm_frame (tg_serialize D) m) = Some m) /\
  (forall m, is_tcmap m ->
     from_message D (tc_deserialize D) (to_message D u_frame (tc_serialize D) m) = Some m) /\
  (forall m, is_dmap m ->
     from_message D (dm_deserialize D) (to_message D (w_frame D) (dm_serialize D) m) = Some m) /\
  (forall double width lt s0 s, is_sdf width s -> cache_current lt s ->
     exists s', sdf_from_message D double (sdf_deserialize D width lt s0)
         (sdf_to_message D double (sdf_serialize D width) s) = Some s' /\
       x_base s' = x_base s /\ x_frame s' = x_frame s /\ x_locked s' = x_locked s /\
       x_get_minmax lt s' = x_get_minmax lt s).
Proof. exact (messages_back D). Qed.
Print Assumptions c54_message_round_trips.
Example c54_hypotheses :
  from_message std_deps (om_deserialize std_deps) (to_message std_deps fm_frame (om_serialize std_deps) ex_om) = Some ex_om.
Proof. vm_compute. reflexivity. Qed.

(** Messages whose content is not compressed load as well. *)
Theorem c54_uncompressed D frame scalar : deps_ok D ->
  (forall m, is_fmap (word 4) m ->
     from_message D (om_deserialize D) (mkMessage frame (om_serialize D m) false scalar) = Some m) /\
  (forall m, is_cmmap m ->
     from_message D (cm_deserialize D) (mkMessage frame (cm_serialize D m) false scalar) = Some m) /\
  (forall m, is_fmap is_tcell m ->
     from_message D (tg_deserialize D) (mkMessage frame (tg_serialize D m) false scalar) = Some m) /\
  (forall m, is_tcmap m ->
     from_message D (tc_deserialize D) (mkMessage frame (tc_serialize D m) false scalar) = Some m) /\
  (forall m, is_dmap m ->
     from_message D (dm_deserialize D) (mkMessage frame (dm_serialize D m) false scalar) = Some m) /\
  (forall double width lt s0 s, is_sdf width s -> cache_current lt s ->
     exists s', sdf_from_message D double (sdf_deserialize D width lt s0)
         (mkMessage frame (sdf_serialize D width s) false scalar) = Some s' /\
       x_base s' = x_base s /\ x_frame s' = x_frame s /\ x_locked s' = x_locked s /\
       x_get_minmax lt s' = x_get_minmax lt s).
Proof. exact (uncompressed_back D frame scalar). Qed.
Print Assumptions c54_uncompressed.
Example c54_uncompressed_case :
  deps_ok std_deps /\ is_sdf 8 ex_sdf /\
  from_message std_deps (om_deserialize std_deps) (mkMessage [1] (om_serialize std_deps ex_om) false 7) = Some ex_om.
Proof. split; [exact std_deps_ok|]. split; [apply ex_sdf_ok|]. vm_compute. reflexivity. Qed.

(** C54, rejection: holds for messages made by GetMessageRepresentation. *)
Theorem c54_other_scalar_type_partial D double ser de s :
  sdf_from_message D (negb double) de (sdf_to_message D double ser s) = None.
Proof. destruct double; reflexivity. Qed.
Print Assumptions c54_other_scalar_type_partial.

(** C54, rejection fails for uncompressed messages: a message that says it carries
    floats loads as an SDF of doubles. *)
Theorem c54_uncompressed_scalar_type_refuted :
  exists D msg s n, deps_ok D /\ is_sdf 8 s /\ msg_scalar msg = scalar_float /\ msg_compressed msg = false /\
    sdf_from_message D true (sdf_deserialize D 8 Z.ltb n) msg = Some s.
Proof.
  exists std_deps, (mkMessage ex_frame (sdf_serialize std_deps 8 ex_sdf) false scalar_float), ex_sdf, 0.
  split; [exact std_deps_ok|]. split; [apply ex_sdf_ok|]. split; [reflexivity|]. split; [reflexivity|].
  vm_compute. reflexivity.
Qed.
Print Assumptions c54_uncompressed_scalar_type_refuted.

(** C25: converting an initialized plain (or tagged) map succeeds, preserves
    everything but the components, which are 0 and invalid, and converting back gives
    the original. *)
Theorem c25_plain_conversion inv (m : fmap occ) : initialized inv (fm_base m) ->
  exists m', to_component inv m = Some m' /\
    image_of (fun o => mkCcell o 0) (fm_base m) (s_base m') /\
    s_frame m' = fm_frame m /\ s_valid m' = false /\ from_component inv m' = Some m.
Proof. exact (plain_conversion inv m). Qed.
Print Assumptions c25_plain_conversion.

Theorem c25_tagged_conversion inv (m : fmap tcell) : initialized inv (fm_base m) ->
  exists m', to_tagged_component inv m = Some m' /\
    image_of (fun c => mkTccell (g_occ c) (g_obj c) 0 0) (fm_base m) (u_base m') /\
    u_frame m' = fm_frame m /\ u_valid m' = false /\ u_seg_valid m' = false /\
    from_tagged_component inv m' = Some m.
Proof. exact (tagged_conversion inv m). Qed.
Print Assumptions c25_tagged_conversion.

(** C25, from component maps: occupancy and object id survive. *)
Theorem c25_component_conversion inv (m : cmmap) : initialized inv (s_base m) ->
  exists m', from_component inv m = Some m' /\ image_of c_occ (s_base m) (fm_base m') /\ fm_frame m' = s_frame m.
Proof. exact (component_conversion inv m). Qed.
Print Assumptions c25_component_conversion.

Theorem c25_tagged_component_conversion inv (m : tcmap) : initialized inv (u_base m) ->
  exists m', from_tagged_component inv m = Some m' /\
    image_of (fun c => mkTcell (t_occ c) (t_obj c)) (u_base m) (fm_base m') /\ fm_frame m' = u_frame m.
Proof. exact (tagged_component_conversion inv m). Qed.
Print Assumptions c25_tagged_component_conversion.
Example c25_hypotheses : initialized (fun t => t) (fm_base ex_om) /\ initialized (fun t => t) (fm_base ex_tg) /\
  initialized (fun t => t) (s_base ex_cm) /\ initialized (fun t => t) (u_base ex_tc).
Proof. repeat split; cbn; lia. Qed.

(** An uninitialized map is converted to an uninitialized one: no cells, at the identity. *)
Theorem c25_uninitialized_partial inv :
  (forall m : fmap occ, v_init (fm_base m) = false ->
   exists m', to_component inv m = Some m' /\ no_cells (s_base m') /\ s_frame m' = []) /\
  (forall m : cmmap, v_init (s_base m) = false ->
   exists m', from_component inv m = Some m' /\ no_cells (fm_base m') /\ fm_frame m' = []) /\
  (forall m : fmap tcell, v_init (fm_base m) = false ->
   exists m', to_tagged_component inv m = Some m' /\ no_cells (u_base m') /\ u_frame m' = []) /\
  (forall m : tcmap, v_init (u_base m) = false ->
   exists m', from_tagged_component inv m = Some m' /\ no_cells (fm_base m') /\ fm_frame m' = []).
Proof. exact (uninitialized_conversions inv). Qed.
Print Assumptions c25_uninitialized_partial.
Example c25_uninitialized_hypotheses : v_init (fm_base (mkFmap (v_uninitialized 0) ex_frame)) = false.
Proof. reflexivity. Qed.

(** C25 fails for an uninitialized map whose frame was set: the frame is lost. *)
Theorem c25_uninitialized_frame_refuted inv :
  exists (m : fmap occ) m' m'', v_init (fm_base m) = false /\ to_component inv m = Some m' /\
    from_component inv m' = Some m'' /\ fm_base m'' = fm_base m /\ fm_frame m'' <> fm_frame m.
Proof.
  exists (mkFmap (v_uninitialized 0) ex_frame). eexists; eexists.
  split; [reflexivity|]. split; [reflexivity|]. split; [reflexivity|]. split; [reflexivity|]. discriminate.
Qed.
Print Assumptions c25_uninitialized_frame_refuted.
