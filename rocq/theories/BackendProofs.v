(** Proofs about backend selection. *)
From Coq Require Import ZArith List Bool Lia String ZifyBool.
From Verif Require Import Util PointCloudModel BackendModel BackendSpec.
Import ListNotations.
Local Open Scope Z_scope.

Lemma opt_find_in o name v : opt_find o name = Some v -> In (name, v) o.
Proof.
  induction o as [|[k w] o IH]; cbn [opt_find In]; [discriminate|].
  destruct (String.eqb_spec k name) as [->|]; [intros [= ->]; now left|right; auto].
Qed.

Lemma opt_find_unique o name v : keys_unique o -> In (name, v) o -> opt_find o name = Some v.
Proof.
  unfold keys_unique. induction o as [|[k w] o IH]; cbn [opt_find In map fst]; [tauto|].
  intros N I. inversion N as [|? ? Nk No]; subst.
  destruct I as [[= -> ->]|I]; [now rewrite String.eqb_refl|].
  destruct (String.eqb_spec k name) as [->|]; [|auto].
  exfalso. apply Nk. apply (in_map fst) in I. exact I.
Qed.

Lemma opt_find_none o name : ~ In name (map fst o) -> opt_find o name = None.
Proof.
  induction o as [|[k w] o IH]; cbn [opt_find In map fst]; [reflexivity|].
  intros H. destruct (String.eqb_spec k name) as [->|]; [tauto|]. apply IH. tauto.
Qed.

Lemma retrieve_spec o name d v : keys_unique o ->
  (retrieve o name d = v <-> has_option o name d v).
Proof.
  intros N. unfold retrieve, has_option. split.
  - destruct (opt_find o name) as [w|] eqn:E; intros <-; [left; now apply opt_find_in|].
    right. split; [|reflexivity]. intros I. apply in_map_iff in I as ([k w] & <- & I).
    apply (opt_find_unique _ _ _ N) in I. cbn [fst] in *. congruence.
  - intros [I|(I & ->)]; [now rewrite (opt_find_unique _ _ _ N I)|now rewrite (opt_find_none _ _ I)].
Qed.

Lemma int32_small z : 0 <= z < 2 ^ 31 -> int32 z = z.
Proof. intros H. unfold int32. rewrite Z.mod_small by lia. lia. Qed.

(** ** The constructors *)

Lemma cuda_ctor env o d : keys_unique o ->
  cuda_usable env o d ->
  exists b, cuda_voxelizer env o = Ret (VCuda (dispatch_parallelism env o) d b) /\
    has_option o "CUDA_THREADS_PER_BLOCK" (-1) (retrieve o "CUDA_THREADS_PER_BLOCK" (-1)) /\ 0 < b.
Proof.
  intros N (c & n & name & C & K & O & R & S & P).
  apply (retrieve_spec _ _ _ _ N) in O.
  unfold cuda_voxelizer, cuda_helper. rewrite C, K, O, S, P.
  destruct (Z.leb_spec 0 d); [|lia]. destruct (Z.ltb_spec d n); [|lia]. cbn [andb].
  destruct (Z.leb_spec 0 d); [|lia].
  eexists. split; [reflexivity|]. split; [now apply (retrieve_spec _ _ _ _ N)|].
  destruct (Z.ltb_spec 0 (retrieve o "CUDA_THREADS_PER_BLOCK" (-1))); [lia|reflexivity].
Qed.

Lemma cuda_ctor_inv env o : keys_unique o ->
  match cuda_voxelizer env o with
  | Ret v => exists d b, v = VCuda (dispatch_parallelism env o) d b /\ cuda_usable env o d
  | Throw e => e = RuntimeError /\ ~ exists d, cuda_usable env o d
  | Undefined => False
  end.
Proof.
  intros N. destruct (cuda_voxelizer env o) as [v|e|] eqn:E.
  - unfold cuda_voxelizer, cuda_helper in E.
    destruct (e_cuda env) as [c|] eqn:C; [|discriminate].
    destruct (cu_count c) as [n|] eqn:K; [|discriminate].
    set (d := retrieve o "CUDA_DEVICE" 0) in *.
    destruct (Z.leb_spec 0 d) as [D0|]; [|discriminate].
    destruct (Z.ltb_spec d n) as [D1|]; [|discriminate]. cbn [andb] in E.
    destruct (cu_set c d) eqn:S; [|discriminate].
    destruct (cu_name c d) as [name|] eqn:P; [|discriminate].
    destruct (Z.leb_spec 0 d) as [_|]; [|lia]. injection E as <-.
    eexists _, _. split; [reflexivity|]. exists c, n, name.
    repeat (split; [easy|]). split; [now apply (retrieve_spec _ _ _ _ N)|]. auto.
  - split.
    + unfold cuda_voxelizer in E. destruct (e_cuda env); [|now injection E].
      destruct (cuda_helper c o). destruct (0 <=? z0); [discriminate|now injection E].
    + intros (d & U). destruct (cuda_ctor env o d N U) as (b & H & _). congruence.
  - unfold cuda_voxelizer in E. destruct (e_cuda env); [|discriminate].
    destruct (cuda_helper c o). destruct (0 <=? z0); discriminate.
Qed.

Lemma opencl_ctor env o p d : keys_unique o -> small_env env ->
  opencl_usable env o p d ->
  opencl_voxelizer env o = Ret (VOpenCL (dispatch_parallelism env o) p d).
Proof.
  intros N S (ps & P & D & E & Op & Od & Gp & Gd & R & F).
  apply (retrieve_spec _ _ _ _ N) in Op. apply (retrieve_spec _ _ _ _ N) in Od.
  destruct (S ps E) as (S1 & S2).
  pose proof (zget_range _ _ _ Gp) as RP. pose proof (zget_range _ _ _ Gd) as RD.
  assert (In P ps) as IP.
  { unfold zget in Gp. destruct (p <? 0); [discriminate|]. now apply nth_error_In in Gp. }
  specialize (S2 P IP).
  unfold opencl_voxelizer, opencl_helper. rewrite E, Op.
  rewrite int32_small by (pose proof (zlen_nonneg ps); lia).
  destruct (Z.ltb_spec 0 (zlen ps)); [|lia]. destruct (Z.leb_spec 0 p); [|lia].
  destruct (Z.ltb_spec p (zlen ps)); [|lia]. cbn [andb]. rewrite Gp. cbn [obind]. rewrite Od.
  rewrite int32_small by (pose proof (zlen_nonneg (cp_devices P)); lia).
  destruct (Z.ltb_spec 0 (zlen (cp_devices P))); [|lia]. destruct (Z.leb_spec 0 d); [|lia].
  destruct (Z.ltb_spec d (zlen (cp_devices P))); [|lia]. cbn [andb]. rewrite Gd. cbn [obind].
  rewrite R, F. reflexivity.
Qed.

Lemma opencl_ctor_inv env o : keys_unique o -> small_env env ->
  match opencl_voxelizer env o with
  | Ret v => exists p d, v = VOpenCL (dispatch_parallelism env o) p d /\ opencl_usable env o p d
  | Throw e => e = RuntimeError /\ ~ exists p d, opencl_usable env o p d
  | Undefined => False
  end.
Proof.
  intros N S. destruct (opencl_voxelizer env o) as [v|e|] eqn:E.
  - unfold opencl_voxelizer in E. destruct (e_opencl env) as [ps|] eqn:C; [|discriminate].
    destruct (opencl_helper ps o) as [[[[p d] [|]] [|]]|] eqn:H; try discriminate.
    injection E as <-. exists p, d. split; [reflexivity|].
    unfold opencl_helper in H.
    destruct ((0 <? zlen ps) && (0 <=? retrieve o "OPENCL_PLATFORM_INDEX" 0) &&
              (retrieve o "OPENCL_PLATFORM_INDEX" 0 <? int32 (zlen ps))) eqn:B; [|discriminate].
    destruct (zget ps (retrieve o "OPENCL_PLATFORM_INDEX" 0)) as [P|] eqn:GP; [|discriminate].
    cbn [obind] in H.
    destruct ((0 <? zlen (cp_devices P)) && (0 <=? retrieve o "OPENCL_DEVICE_INDEX" 0) &&
              (retrieve o "OPENCL_DEVICE_INDEX" 0 <? int32 (zlen (cp_devices P)))) eqn:B2; [|discriminate].
    destruct (zget (cp_devices P) (retrieve o "OPENCL_DEVICE_INDEX" 0)) as [D|] eqn:GD; [|discriminate].
    cbn [obind] in H. injection H as <- <- R F.
    exists ps, P, D. split; [exact C|].
    split; [now apply (retrieve_spec _ _ _ _ N)|]. split; [now apply (retrieve_spec _ _ _ _ N)|]. auto.
  - split.
    + unfold opencl_voxelizer in E. destruct (e_opencl env); [|now injection E].
      destruct (opencl_helper l o) as [[[[? ?] [|]] [|]]|]; try discriminate; now injection E.
    + intros (p & d & U). rewrite (opencl_ctor env o p d N S U) in E. discriminate.
  - unfold opencl_voxelizer in E. destruct (e_opencl env); [|discriminate].
    destruct (opencl_helper l o) as [[[[? ?] [|]] [|]]|]; discriminate.
Qed.

(** ** Listing *)

Lemma in_indexed {A} (l : list A) a i x : In (i, x) (indexed l a) <-> a <= i /\ zget l (i - a) = Some x.
Proof.
  revert a; induction l as [|y l IH]; intros a; cbn [indexed In].
  - split; [tauto|]. intros (_ & H). unfold zget in H. destruct (i - a <? 0); [discriminate|].
    now rewrite nth_error_nil in H || destruct (Z.to_nat (i - a)).
  - rewrite IH. split.
    + intros [[= -> ->]|(L & G)].
      * split; [lia|]. now rewrite Z.sub_diag.
      * split; [lia|]. unfold zget in *. destruct (Z.ltb_spec (i - (a + 1)) 0); [discriminate|].
        destruct (Z.ltb_spec (i - a) 0); [lia|].
        replace (Z.to_nat (i - a)) with (S (Z.to_nat (i - (a + 1)))) by lia. exact G.
    + intros (L & G). destruct (Z.eq_dec i a) as [->|Na].
      * left. rewrite Z.sub_diag in G. unfold zget in G. cbn in G. now injection G as ->.
      * right. split; [lia|]. unfold zget in *. destruct (Z.ltb_spec (i - a) 0); [lia|].
        destruct (Z.ltb_spec (i - (a + 1)) 0); [lia|].
        replace (Z.to_nat (i - a)) with (S (Z.to_nat (i - (a + 1)))) in G by lia. exact G.
Qed.

Lemma in_cuda_list c l b : In b (cuda_list c l) ->
  exists d name, In d l /\ cu_name c d = Some name /\ b_option b = CUDA /\
    b_options b = [("CUDA_DEVICE"%string, d)].
Proof.
  induction l as [|i l IH]; cbn [cuda_list In]; [tauto|].
  destruct (cu_name c i) as [name|] eqn:E; cbn [In]; [|tauto].
  intros [<-|I].
  - exists i, name. cbn. auto.
  - destruct (IH I) as (d & n & H). exists d, n. tauto.
Qed.

Lemma cuda_list_in c n d : forall a,
  (forall i, a <= i <= d -> cu_name c i <> None) -> a <= d < a + Z.of_nat n ->
  exists b, In b (cuda_list c (zseq a n)) /\ b_option b = CUDA /\
    b_options b = [("CUDA_DEVICE"%string, d)].
Proof.
  induction n as [|n IH]; intros a H R; [lia|]. cbn [zseq cuda_list].
  destruct (cu_name c a) as [name|] eqn:E; [|exfalso; apply (H a); [lia|exact E]].
  destruct (Z.eq_dec d a) as [->|Na].
  - eexists. split; [now left|]. cbn. auto.
  - destruct (IH (a + 1)) as (b & I & B); [intros i Hi; apply H; lia|lia|].
    exists b. split; [now right|exact B].
Qed.

Lemma in_cuda_devices env b : In b (cuda_devices env) ->
  exists c n d name, e_cuda env = Some c /\ cu_count c = Some n /\ 0 <= d < n /\
    cu_name c d = Some name /\ b_option b = CUDA /\ b_options b = [("CUDA_DEVICE"%string, d)].
Proof.
  unfold cuda_devices. destruct (e_cuda env) as [c|] eqn:C; [|intros []].
  destruct (cu_count c) as [n|] eqn:K; [|intros []]. intros I.
  destruct (in_cuda_list _ _ _ I) as (d & name & D & H). apply in_zrange in D.
  exists c, n, d, name. tauto.
Qed.

Lemma in_opencl_devices env b : small_env env -> In b (opencl_devices env) ->
  exists ps p d P D, e_opencl env = Some ps /\ zget ps p = Some P /\ zget (cp_devices P) d = Some D /\
    b_option b = OPENCL /\
    b_options b = [("OPENCL_DEVICE_INDEX"%string, d); ("OPENCL_PLATFORM_INDEX"%string, p)].
Proof.
  intros S. unfold opencl_devices. destruct (e_opencl env) as [ps|] eqn:C; [|intros []].
  intros I. apply in_flat_map in I as ([p P] & IP & I). apply in_map_iff in I as ([d D] & <- & ID).
  apply in_indexed in IP as (P0 & GP). apply in_indexed in ID as (D0 & GD).
  rewrite Z.sub_0_r in *. destruct (S ps C) as (S1 & S2).
  assert (In P ps) as IP.
  { unfold zget in GP. destruct (p <? 0); [discriminate|]. now apply nth_error_In in GP. }
  specialize (S2 P IP).
  pose proof (zget_range _ _ _ GP). pose proof (zget_range _ _ _ GD).
  exists ps, p, d, P, D. cbn [b_option b_options]. rewrite !int32_small by lia. auto.
Qed.

Lemma opencl_devices_in env ps p d P D : small_env env ->
  e_opencl env = Some ps -> zget ps p = Some P -> zget (cp_devices P) d = Some D ->
  exists b, In b (opencl_devices env) /\ b_option b = OPENCL /\
    b_options b = [("OPENCL_DEVICE_INDEX"%string, d); ("OPENCL_PLATFORM_INDEX"%string, p)].
Proof.
  intros S C GP GD. unfold opencl_devices. rewrite C. destruct (S ps C) as (S1 & S2).
  assert (In P ps) as IP.
  { unfold zget in GP. destruct (p <? 0); [discriminate|]. now apply nth_error_In in GP. }
  specialize (S2 P IP).
  pose proof (zget_range _ _ _ GP). pose proof (zget_range _ _ _ GD).
  eexists. split.
  - apply in_flat_map. exists (p, P). split; [apply in_indexed; rewrite Z.sub_0_r; split; [lia|exact GP]|].
    apply in_map_iff. exists (d, D). split; [reflexivity|].
    apply in_indexed. rewrite Z.sub_0_r. split; [lia|exact GD].
  - cbn [b_option b_options]. rewrite !int32_small by lia. auto.
Qed.

Lemma keys1 k v : keys_unique [(k, v)].
Proof. unfold keys_unique. cbn. repeat constructor. tauto. Qed.

Lemma keys_cl p d :
  keys_unique [("OPENCL_DEVICE_INDEX"%string, d); ("OPENCL_PLATFORM_INDEX"%string, p)].
Proof. unfold keys_unique. cbn. repeat constructor; cbn; intuition discriminate. Qed.
