(** Property theorems C01 and C05-C13: signed distance field generation. *)
From Coq Require Import ZArith QArith Reals List Lia Lra Bool.
From Flocq Require Import Core BinarySingleNaN.
From Verif Require Import Util Grid EdtModel ExactModel FloatModel EdtSpec EdtFloat Occ OccProofs SdfModel
  SdfSpec SdfProofs SdfLaws SdfMapProofs SdfFloatSpec SdfFloatProofs SdfTop.
Import ListNotations.
Local Open Scope Z_scope.

(** C01 *)
Theorem c01_sdf_exact res nx ny nz (filled : idx -> bool) :
  (0 < res)%R -> 0 < nx -> 0 < ny -> 0 < nz ->
  exists g, sdf_exact res true false nx ny nz filled = Some g /\ gwf g /\
    g_nx g = nx /\ g_ny g = ny /\ g_nz g = nz /\
    is_sdf res nx ny nz filled (gget g).
Proof. exact (fun Hr Hx Hy Hz => sdf_exact_ok res nx ny nz filled false Hr Hx Hy Hz). Qed.
Print Assumptions c01_sdf_exact.

(** The double-precision field: the distance to the nearest opposite cell, with one
    rounding for the square root and one for the product. *)
Theorem c01_sdf_binary64 (res oob : b64) nx ny nz (filled : idx -> bool) (border : bool) :
  is_finite res = true -> (0 < B2R res)%R ->
  0 < nx <= B25 - 2 -> 0 < ny <= B25 - 2 -> 0 < nz <= B25 - 2 ->
  exists g, sdf_binary64 res oob true border nx ny nz filled = Some g /\ gwf g /\
    g_nx g = nx /\ g_ny g = ny /\ g_nz g = nz /\
    is_sdf64 (B2R res) nx ny nz filled (extra border nx ny nz) (gget g).
Proof. exact (fun Hf Hr Hx Hy Hz => sdf_binary64_ok res Hf Hr oob nx ny nz filled border Hx Hy Hz). Qed.
Print Assumptions c01_sdf_binary64.

Definition ex_filled (i : idx) : bool := let '(x, y, z) := i in (x + 2 * y + 3 * z) mod 5 =? 0.

(** The model runs: squared distances of a 9x2x1 grid (first axis long enough for
    the linear-time variant). *)
Example c01_runs :
  option_map (fun g => gget g (3, 0, 0))
    (extract exact (ext * ext) (fun a b => (a, b)) (NaN, NaN) 9 2 1 ex_filled)
  = Some (Some (Fin 1, Fin 0)).
Proof. vm_compute. reflexivity. Qed.
Example c01_hypotheses : (0 < 1 / 4)%R /\ 0 < 9 /\ 0 < 2 /\ 0 < 1 /\
  exists i j, in_box 9 2 1 i /\ in_box 9 2 1 j /\ ex_filled i = true /\ ex_filled j = false.
Proof.
  split; [lra|]. split; [lia|]. split; [lia|]. split; [lia|].
  exists (0, 0, 0), (1, 0, 0). unfold in_box. repeat split; lia || reflexivity.
Qed.
Definition ex_res : b64 := b64_ofZ 2.
Example c01_hypotheses_binary64 : is_finite ex_res = true /\ (0 < B2R ex_res)%R /\ 0 < 9 <= B25 - 2.
Proof.
  split; [reflexivity|]. split; [|unfold B25; lia].
  destruct (ofZ_exact 2) as [_ E]; [unfold P53; lia|]. unfold ex_res. rewrite E. lra.
Qed.

(** C05: the sign classifies cells, and magnitudes are at least the resolution. *)
Theorem c05_sdf_sign res nx ny nz (filled : idx -> bool) (border : bool) g i v :
  (0 < res)%R -> 0 < nx -> 0 < ny -> 0 < nz ->
  sdf_exact res true border nx ny nz filled = Some g -> in_box nx ny nz i -> gget g i = Some v ->
  (filled i = true -> xle v (XFin (- res))) /\ (filled i = false -> xle (XFin res) v).
Proof. exact (sdf_sign res nx ny nz filled border g i v). Qed.
Print Assumptions c05_sdf_sign.

(** The same for the double-precision field. *)
Theorem c05_sdf_sign_binary64 (res oob : b64) nx ny nz (filled : idx -> bool) (border : bool) g i v :
  is_finite res = true -> (0 < B2R res)%R ->
  0 < nx <= B25 - 2 -> 0 < ny <= B25 - 2 -> 0 < nz <= B25 - 2 ->
  sdf_binary64 res oob true border nx ny nz filled = Some g -> in_box nx ny nz i -> gget g i = Some v ->
  (filled i = true -> b64_leb v (Bopp res) = true) /\ (filled i = false -> b64_leb res v = true).
Proof. exact (sdf_sign_binary64 res oob nx ny nz filled border g i v). Qed.
Print Assumptions c05_sdf_sign_binary64.

(** C06: uniform maps. *)
Theorem c06_uniform res nx ny nz (filled : idx -> bool) g i v :
  (0 < res)%R -> 0 < nx -> 0 < ny -> 0 < nz ->
  sdf_exact res true false nx ny nz filled = Some g -> in_box nx ny nz i -> gget g i = Some v ->
  ((forall j, in_box nx ny nz j -> filled j = false) -> v = XPInf) /\
  ((forall j, in_box nx ny nz j -> filled j = true) -> v = XNInf) /\
  ((exists j, in_box nx ny nz j /\ filled j = true) -> (exists k, in_box nx ny nz k /\ filled k = false) ->
   exists r, v = XFin r).
Proof. exact (sdf_uniform res nx ny nz filled g i v). Qed.
Print Assumptions c06_uniform.

(** C07: Lipschitz. *)
Theorem c07_lipschitz res nx ny nz (filled : idx -> bool) (border : bool) g i j u v :
  (0 < res)%R -> 0 < nx -> 0 < ny -> 0 < nz ->
  sdf_exact res true border nx ny nz filled = Some g ->
  in_box nx ny nz i -> in_box nx ny nz j -> gget g i = Some (XFin u) -> gget g j = Some (XFin v) ->
  (filled i = filled j -> (Rabs (u - v) <= cell_dist res i j)%R) /\
  (filled i <> filled j -> (Rabs (u - v) <= 2 * cell_dist res i j)%R).
Proof. exact (sdf_lipschitz res nx ny nz filled border g i j u v). Qed.
Print Assumptions c07_lipschitz.

(** C08: monotone in the filled set. *)
Theorem c08_monotone res nx ny nz (a b : idx -> bool) (border : bool) ga gb i u v :
  (0 < res)%R -> 0 < nx -> 0 < ny -> 0 < nz ->
  sdf_exact res true border nx ny nz a = Some ga -> sdf_exact res true border nx ny nz b = Some gb ->
  (forall j, in_box nx ny nz j -> a j = true -> b j = true) ->
  in_box nx ny nz i -> gget ga i = Some u -> gget gb i = Some v -> xle v u.
Proof. exact (sdf_monotone res nx ny nz a b border ga gb i u v). Qed.
Print Assumptions c08_monotone.

Example c08_hypotheses :
  (forall j, in_box 9 2 1 j -> ex_filled j = true -> (ex_filled j || (fst (fst j) =? 1)) = true) /\
  (exists j, in_box 9 2 1 j /\ ex_filled j = false /\ (ex_filled j || (fst (fst j) =? 1)) = true).
Proof.
  split.
  - intros j _ ->. reflexivity.
  - exists (1, 0, 0). unfold in_box. repeat split; lia || reflexivity.
Qed.

(** C09: the virtual border. *)
Theorem c09_virtual_border res nx ny nz (filled : idx -> bool) :
  (0 < res)%R -> 0 < nx -> 0 < ny -> 0 < nz ->
  exists g, sdf_exact res true true nx ny nz filled = Some g /\ gwf g /\
    g_nx g = nx /\ g_ny g = ny /\ g_nz g = nz /\
    is_bordered_sdf res nx ny nz filled (gget g).
Proof. exact (fun Hr Hx Hy Hz => sdf_exact_ok res nx ny nz filled true Hr Hx Hy Hz). Qed.
Print Assumptions c09_virtual_border.

(** The shell exists on the first two axes of a 9x2x1 grid only. *)
Example c09_shell : in_shell 9 2 1 (-1, 0, 0) /\ in_shell 9 2 1 (9, 2, 0) /\ ~ in_shell 9 2 1 (0, 0, 1).
Proof. unfold in_shell, in_box. cbn. repeat split; lia. Qed.

(** C10: occupancy classification; [filled_spec] compares IEEE binary32 values. *)
Theorem c10_occupancy_classification res (unknown_is_filled border : bool) (g : grid occ) (filled : idx -> bool) :
  (0 < res)%R -> gwf g -> occs (fun c => c) g ->
  (forall i c, gget g i = Some c -> (filled i = true <-> filled_spec unknown_is_filled c)) ->
  exists s, occupancy_sdf_exact res unknown_is_filled border g = Some s /\ gwf s /\ same_dims s g /\
    (if border then is_bordered_sdf res (g_nx g) (g_ny g) (g_nz g) filled (gget s)
     else is_sdf res (g_nx g) (g_ny g) (g_nz g) filled (gget s)).
Proof. exact (occupancy_sdf_ok res unknown_is_filled border g filled). Qed.
Print Assumptions c10_occupancy_classification.

Theorem c10_unknown_is_filled_lowers res border (g : grid occ) s s' i u v :
  (0 < res)%R -> gwf g ->
  occupancy_sdf_exact res false border g = Some s ->
  occupancy_sdf_exact res true border g = Some s' ->
  gget s i = Some u -> gget s' i = Some v -> xle v u.
Proof. exact (occupancy_sdf_unknown res border g s s' i u v). Qed.
Print Assumptions c10_unknown_is_filled_lowers.

(** A map with empty, unknown, filled and NaN cells. *)
Definition ex_map : grid occ := mkGrid 2 2 1 [zero_bits; half_bits; one_bits; 2 ^ 31 - 1].
Example c10_hypotheses : gwf ex_map /\ occs (fun c => c) ex_map /\
  (forall i c, gget ex_map i = Some c -> (map_filled ex_map (occ_filled true) i = true <-> filled_spec true c)) /\
  filled_spec true half_bits /\ ~ filled_spec false half_bits /\ ~ filled_spec true (2 ^ 31 - 1).
Proof.
  assert (O : occs (fun c => c) ex_map).
  { apply occs_cells. cbn.
    intros c Hc. intuition (subst; vm_compute; split; congruence). }
  split; [unfold gwf; cbn; lia|]. split; [exact O|]. split.
  - intros i c H. unfold map_filled. rewrite H. apply occ_filled_spec. exact (O i c H).
  - split; [right; split; reflexivity|]. split; intros [H|[H1 H2]]; discriminate.
Qed.

(** C11: object lists. *)
Theorem c11_object_lists res (unknown_is_filled border : bool) objects (g : grid tcell) (filled : idx -> bool) :
  (0 < res)%R -> gwf g -> occs fst g ->
  (forall i c, gget g i = Some c ->
     (filled i = true <-> (objects = [] \/ In (snd c) objects) /\ filled_spec unknown_is_filled (fst c))) ->
  exists s, tagged_sdf_exact res unknown_is_filled border objects g = Some s /\ gwf s /\ same_dims s g /\
    (if border then is_bordered_sdf res (g_nx g) (g_ny g) (g_nz g) filled (gget s)
     else is_sdf res (g_nx g) (g_ny g) (g_nz g) filled (gget s)).
Proof. exact (tagged_sdf_ok res unknown_is_filled border objects g filled). Qed.
Print Assumptions c11_object_lists.

Theorem c11_order_and_repetition res uf border (l l' : list Z) (g : grid tcell) :
  gwf g -> (forall x, In x l <-> In x l') ->
  tagged_sdf_exact res uf border l g = tagged_sdf_exact res uf border l' g.
Proof. exact (tagged_sdf_same_set res uf border l l' g). Qed.
Print Assumptions c11_order_and_repetition.

Definition ex_tagged : grid tcell :=
  mkGrid 2 2 1 [(one_bits, 3); (one_bits, 0); (one_bits, 7); (zero_bits, 3)].
Example c11_hypotheses : gwf ex_tagged /\ occs fst ex_tagged /\
  (forall i c, gget ex_tagged i = Some c ->
     (map_filled ex_tagged (tagged_filled true [3; 9]) i = true <->
      ([3; 9] = [] \/ In (snd c) [3; 9]) /\ filled_spec true (fst c))).
Proof.
  assert (O : occs fst ex_tagged).
  { apply occs_cells. cbn.
    intros c Hc. intuition (subst; vm_compute; split; congruence). }
  split; [unfold gwf; cbn; lia|]. split; [exact O|].
  intros i c H. unfold map_filled. rewrite H. apply tagged_filled_spec. exact (O i c H).
Qed.

(** C12: MakeAllObjectSDFs. *)
Theorem c12_all_object_sdfs res uf border (g : grid tcell) :
  (0 < res)%R -> gwf g ->
  exists m, make_all_sdfs_exact res uf border g = Some m /\ NoDup (map fst m) /\
    (forall k, (exists s, map_get m k = Some s) <-> 0 < k /\ exists i c, gget g i = Some c /\ snd c = k) /\
    (forall k s, map_get m k = Some s -> tagged_sdf_exact res uf border [k] g = Some s).
Proof. exact (make_all_sdfs_keys res uf border g). Qed.
Print Assumptions c12_all_object_sdfs.

Example c12_ids : all_object_ids ex_tagged = Some [3; 7].
Proof. vm_compute. reflexivity. Qed.

(** C13: free space and named objects.  [f] and [n] are the SDFs of all filled
    cells and of the filled cells of named objects. *)
Theorem c13_free_and_named res uf border (g : grid tcell) (all named : idx -> bool) :
  (0 < res)%R -> gwf g -> occs fst g ->
  (forall i c, gget g i = Some c -> (all i = true <-> filled_spec uf (fst c))) ->
  (forall i c, gget g i = Some c -> (named i = true <-> 0 < snd c /\ filled_spec uf (fst c))) ->
  exists s f n, free_and_named_sdf_exact res uf border g = Some s /\ gwf s /\ same_dims s g /\
    field res (g_nx g) (g_ny g) (g_nz g) all (extra border (g_nx g) (g_ny g) (g_nz g)) f /\
    field res (g_nx g) (g_ny g) (g_nz g) named (extra border (g_nx g) (g_ny g) (g_nz g)) n /\
    forall i, g_box g i ->
      gget s i = if all i then (if named i then n i else Some (XFin 0)) else f i.
Proof. exact (free_and_named_ok res uf border g all named). Qed.
Print Assumptions c13_free_and_named.

Example c13_hypotheses : gwf ex_tagged /\ occs fst ex_tagged /\
  (exists i c, gget ex_tagged i = Some c /\ 0 < snd c /\ filled_spec true (fst c)) /\
  (exists i c, gget ex_tagged i = Some c /\ snd c = 0 /\ filled_spec true (fst c)).
Proof.
  split; [apply c11_hypotheses|]. split; [apply c11_hypotheses|]. split.
  - exists (0, 0, 0), (one_bits, 3). split; [reflexivity|]. split; [cbn; lia|left; reflexivity].
  - exists (0, 1, 0), (one_bits, 0). split; [reflexivity|]. split; [reflexivity|left; reflexivity].
Qed.
