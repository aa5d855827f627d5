(** Proofs about map conversions. *)
From Coq Require Import ZArith List Bool Lia.
From Verif Require Import Util Grid Occ ComponentMapModel SerialModel SerialSpec ConversionModel.
Import ListNotations.
Local Open Scope Z_scope.

Lemma zget_map {A C} (f : A -> C) l i : zget (map f l) i = option_map f (zget l i).
Proof. unfold zget. destruct (i <? 0); [reflexivity|]. apply nth_error_map. Qed.

Lemma gget_map {A C} (f : A -> C) nx ny nz (l : list A) i :
  gget (mkGrid nx ny nz (map f l)) i = option_map f (gget (mkGrid nx ny nz l) i).
Proof.
  unfold gget. change (in_bounds (mkGrid nx ny nz (map f l)) i) with (in_bounds (mkGrid nx ny nz l) i).
  destruct (in_bounds (mkGrid nx ny nz l) i); [|reflexivity].
  change (data_index (mkGrid nx ny nz (map f l)) i) with (data_index (mkGrid nx ny nz l) i).
  cbn [g_cells]. apply zget_map.
Qed.

Section Convert.
Variable inv : list Z -> list Z.

Definition converted {A C} (f : A -> C) (g : vgrid A) : vgrid C :=
  mkVgrid true (v_origin g) (inv (v_origin g)) (v_sizes g)
    (mkGrid (g_nx (v_grid g)) (g_ny (v_grid g)) (g_nz (v_grid g)) (map f (g_cells (v_grid g))))
    (f (v_default g)) (f (v_oob g)).

Lemma convert_base_spec {A C} (f : A -> C) g : initialized inv g -> convert_base inv f g = Some (converted f g).
Proof.
  intros (I & W & U & V). unfold convert_base, v_construct. cbn [v_grid v_init v_origin v_inverse v_sizes v_default v_oob].
  assert (U' : v_uniform (mkVgrid true (v_origin g) (inv (v_origin g)) (v_sizes g)
     (gconst (g_nx (v_grid g)) (g_ny (v_grid g)) (g_nz (v_grid g)) (f (v_default g))) (f (v_default g)) (f (v_oob g)))
     = true) by exact U.
  rewrite U'. 
  assert (L : zlen (g_cells (v_grid g)) =
    zlen (g_cells (gconst (g_nx (v_grid g)) (g_ny (v_grid g)) (g_nz (v_grid g)) (f (v_default g))))).
  { destruct W as (N1 & N2 & N3 & L). cbn. rewrite zlen_repeat, L. unfold g_total. lia. }
  rewrite L, Z.eqb_refl. reflexivity.
Qed.

Lemma converted_initialized {A C} (f : A -> C) g : initialized inv g -> initialized inv (converted f g).
Proof.
  intros (I & W & U & V). split; [reflexivity|]. split; [|split; [exact U|reflexivity]].
  destruct W as (N1 & N2 & N3 & L). repeat split; try assumption.
  cbn. unfold zlen in *. rewrite map_length. exact L.
Qed.

Lemma converted_image {A C} (f : A -> C) g : initialized inv g -> image_of f g (converted f g).
Proof.
  intros (I & W & U & V). unfold image_of, converted. cbn. rewrite I, V.
  repeat (split; [reflexivity|]). intros i. rewrite gget_map. destruct (v_grid g). reflexivity.
Qed.

Lemma converted_back {A C} (f : A -> C) (b : C -> A) g : (forall a, b (f a) = a) ->
  initialized inv g -> converted b (converted f g) = g.
Proof.
  intros E (I & W & U & V). destruct g as [i o v s [nx ny nz cells] d ob]. cbn in *. subst.
  unfold converted. cbn. rewrite !E, map_map, (map_ext _ (fun x => x)) by exact E. now rewrite map_id.
Qed.
End Convert.

Lemma plain_conversion inv (m : fmap occ) : initialized inv (fm_base m) ->
  exists m', to_component inv m = Some m' /\
    image_of (fun o => mkCcell o 0) (fm_base m) (s_base m') /\
    s_frame m' = fm_frame m /\ s_valid m' = false /\ from_component inv m' = Some m.
Proof.
  intros I. destruct m as [b frame]. cbn [fm_base fm_frame] in *.
  exists (mkCmmap (converted inv to_ccell b) 0 frame false).
  unfold to_component, from_component. cbn [fm_base fm_frame s_base s_frame s_valid].
  rewrite (proj1 I), (convert_base_spec inv to_ccell b I). cbn [obind].
  split; [reflexivity|]. split; [exact (converted_image inv to_ccell b I)|].
  split; [reflexivity|]. split; [reflexivity|]. change (v_init (converted inv to_ccell b)) with true. cbv iota.
  rewrite (convert_base_spec inv from_ccell _ (converted_initialized inv to_ccell b I)). cbn [obind].
  now rewrite (converted_back inv to_ccell from_ccell b (fun _ => eq_refl) I).
Qed.

Lemma tagged_conversion inv (m : fmap tcell) : initialized inv (fm_base m) ->
  exists m', to_tagged_component inv m = Some m' /\
    image_of (fun c => mkTccell (g_occ c) (g_obj c) 0 0) (fm_base m) (u_base m') /\
    u_frame m' = fm_frame m /\ u_valid m' = false /\ u_seg_valid m' = false /\
    from_tagged_component inv m' = Some m.
Proof.
  intros I. destruct m as [b frame]. cbn [fm_base fm_frame] in *.
  exists (mkTcmap (converted inv to_tccell b) 0 0 frame false false).
  unfold to_tagged_component, from_tagged_component. cbn [fm_base fm_frame u_base u_frame u_valid u_seg_valid].
  rewrite (proj1 I), (convert_base_spec inv to_tccell b I). cbn [obind].
  split; [reflexivity|]. split; [exact (converted_image inv to_tccell b I)|].
  split; [reflexivity|]. split; [reflexivity|]. split; [reflexivity|].
  change (v_init (converted inv to_tccell b)) with true. cbv iota.
  rewrite (convert_base_spec inv from_tccell _ (converted_initialized inv to_tccell b I)). cbn [obind].
  rewrite (converted_back inv to_tccell from_tccell b); [reflexivity| |exact I]. intros []; reflexivity.
Qed.

Lemma component_conversion inv (m : cmmap) : initialized inv (s_base m) ->
  exists m', from_component inv m = Some m' /\ image_of c_occ (s_base m) (fm_base m') /\ fm_frame m' = s_frame m.
Proof.
  intros I. exists (mkFmap (converted inv from_ccell (s_base m)) (s_frame m)).
  unfold from_component. rewrite (proj1 I), (convert_base_spec inv from_ccell _ I).
  split; [reflexivity|]. split; [exact (converted_image inv from_ccell _ I)|reflexivity].
Qed.

Lemma tagged_component_conversion inv (m : tcmap) : initialized inv (u_base m) ->
  exists m', from_tagged_component inv m = Some m' /\
    image_of (fun c => mkTcell (t_occ c) (t_obj c)) (u_base m) (fm_base m') /\ fm_frame m' = u_frame m.
Proof.
  intros I. exists (mkFmap (converted inv from_tccell (u_base m)) (u_frame m)).
  unfold from_tagged_component. rewrite (proj1 I), (convert_base_spec inv from_tccell _ I).
  split; [reflexivity|]. split; [exact (converted_image inv from_tccell _ I)|reflexivity].
Qed.

Lemma identity_words_bits : identity_bits identity_words.
Proof.
  split; [reflexivity|]. intros r c Hr Hc.
  assert (R : r = 0 \/ r = 1 \/ r = 2 \/ r = 3) by lia. assert (C : c = 0 \/ c = 1 \/ c = 2 \/ c = 3) by lia.
  destruct R as [ -> |[ -> |[ -> | -> ]]]; destruct C as [ -> |[ -> |[ -> | -> ]]]; reflexivity.
Qed.

Lemma uninitialized_empty {C} (c : C) : no_cells (v_uninitialized c).
Proof.
  split; [reflexivity|]. split; [exact identity_words_bits|]. split; [exact identity_words_bits|].
  repeat split.
Qed.

Lemma uninitialized_conversions inv :
  (forall m : fmap occ, v_init (fm_base m) = false ->
   exists m', to_component inv m = Some m' /\ no_cells (s_base m') /\ s_frame m' = []) /\
  (forall m : cmmap, v_init (s_base m) = false ->
   exists m', from_component inv m = Some m' /\ no_cells (fm_base m') /\ fm_frame m' = []) /\
  (forall m : fmap tcell, v_init (fm_base m) = false ->
   exists m', to_tagged_component inv m = Some m' /\ no_cells (u_base m') /\ u_frame m' = []) /\
  (forall m : tcmap, v_init (u_base m) = false ->
   exists m', from_tagged_component inv m = Some m' /\ no_cells (fm_base m') /\ fm_frame m' = []).
Proof.
  split; [|split; [|split]]; intros m H;
    [unfold to_component|unfold from_component|unfold to_tagged_component|unfold from_tagged_component]; rewrite H;
    eexists; (split; [reflexivity|]); (split; [apply uninitialized_empty|reflexivity]).
Qed.
