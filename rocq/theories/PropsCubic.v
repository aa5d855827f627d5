(** C86: only grids with cubic voxels. *)
From Coq Require Import ZArith Reals List Bool Lia.
From Verif Require Import Util Grid Occ ComponentMapModel FloatModel EdtModel SdfModel SdfSingleModel SerialModel SerialSpec SerialDeps
  SerialProofs ConversionModel.
Import ListNotations.
Local Open Scope Z_scope.

Definition cubic {C} (g : vgrid C) : Prop :=
  let '(x, y, z) := v_sizes g in x = y /\ y = z.

Lemma obind_inv {A B} (a : option A) (f : A -> option B) b : obind a f = Some b -> exists x, a = Some x /\ f x = Some b.
Proof. destruct a as [x|]; [|easy]. intros H. now exists x. Qed.

Lemma uniform_cubic {C} (g : vgrid C) : v_uniform g = true <-> cubic g.
Proof.
  unfold v_uniform, cubic. destruct (v_sizes g) as [[x y] z]. rewrite andb_true_iff, !Z.eqb_eq.
  split; intros [H K]; split; congruence.
Qed.

(** What can be read, whatever the bytes are: [P] holds of every object that a reader
    delivers, directly, from a file or from a message. *)
Definition delivers_only {M} (D : deps) (k : kind) (de : reader M) (P : M -> Prop) : Prop :=
  (forall buf off m n, de buf off = Some (m, n) -> P m) /\
  (forall content m, load D k de content = Some m -> P m) /\
  (forall msg m, from_message D de msg = Some m -> P m).

Lemma delivers {M} D k (de : reader M) (P : M -> Prop) :
  (forall buf off m n, de buf off = Some (m, n) -> P m) -> delivers_only D k de P.
Proof.
  intros H. split; [exact H|]. split.
  - intros content m E. unfold load, load_file in E. apply obind_inv in E. destruct E as (file & _ & E).
    destruct (4 <=? zlen file); [|easy]. destruct (bytes_eqb _ (header_of k true)).
    + apply obind_inv in E. destruct E as (raw & _ & E). apply obind_inv in E. destruct E as ([m' n] & R & E).
      injection E as <-. eapply H; eassumption.
    + destruct (bytes_eqb _ (header_of k false)); [|easy].
      apply obind_inv in E. destruct E as ([m' n] & R & E). injection E as <-. eapply H; eassumption.
  - intros msg m E. unfold from_message in E. destruct (msg_compressed msg).
    + apply obind_inv in E. destruct E as (raw & _ & E). apply obind_inv in E. destruct E as ([m' n] & R & E).
      injection E as <-. eapply H; eassumption.
    + apply obind_inv in E. destruct E as ([m' n] & R & E). injection E as <-. eapply H; eassumption.
Qed.

Lemma self_cubic {C M} D (cell : reader C) (derived : vgrid C -> reader M) (base : M -> vgrid C) :
  (forall b buf off m n, derived b buf off = Some (m, n) -> base m = b) ->
  forall buf off m n, de_self D cell derived buf off = Some (m, n) -> cubic (base m).
Proof.
  intros H buf off m n E. unfold de_self in E. apply obind_inv in E. destruct E as ([b k] & _ & E).
  destruct (v_uniform b) eqn:U; [|easy]. apply obind_inv in E. destruct E as ([m' k'] & R & E). injection E as <- _.
  apply H in R. rewrite R. now apply uniform_cubic.
Qed.

Ltac read_members E :=
  repeat (let x := fresh "x" in let k := fresh "k" in apply obind_inv in E; destruct E as ([x k] & _ & E)).

(** Whatever bytes, file or message is read, an object that results has cubic voxels. *)
Theorem c86_loaded :
  forall D width lt s0,
  delivers_only D KOccupancy (om_deserialize D) (fun m => cubic (fm_base m)) /\
  delivers_only D KTagged (tg_deserialize D) (fun m => cubic (fm_base m)) /\
  delivers_only D KComponent (cm_deserialize D) (fun m => cubic (s_base m)) /\
  delivers_only D KTaggedComponent (tc_deserialize D) (fun m => cubic (u_base m)) /\
  delivers_only D KDynamic (dm_deserialize D) (fun m => d_dsh_uniform D (w_base D m) = true) /\
  delivers_only D KSdf (sdf_deserialize D width lt s0) (fun m => cubic (x_base m)) /\
  (forall double msg m, sdf_from_message D double (sdf_deserialize D width lt s0) msg = Some m -> cubic (x_base m)).
Proof.
  intros D width lt s0.
  assert (S : forall buf off m n, sdf_deserialize D width lt s0 buf off = Some (m, n) -> cubic (x_base m)).
  { apply (self_cubic D _ _ x_base). intros b buf off m n E. apply obind_inv in E. destruct E as ([x k] & _ & E).
    apply obind_inv in E. destruct E as ([l k'] & _ & E). destruct (negb (l =? 0)).
    - apply obind_inv in E. destruct E as (f & _ & E). now inversion E.
    - now inversion E. }
  split; [apply delivers|split; [apply delivers|split; [apply delivers|split; [apply delivers|split;
    [apply delivers|split; [apply delivers|]]]]]].
  - apply (self_cubic D _ _ fm_base). intros b buf off m n E. read_members E. now inversion E.
  - apply (self_cubic D _ _ fm_base). intros b buf off m n E. read_members E. now inversion E.
  - apply (self_cubic D _ _ s_base). intros b buf off m n E. read_members E. now inversion E.
  - apply (self_cubic D _ _ u_base). intros b buf off m n E. read_members E. now inversion E.
  - intros buf off m n E. unfold dm_deserialize in E. apply obind_inv in E. destruct E as ([b k] & _ & E).
    destruct (d_dsh_uniform D b) eqn:U; [|easy]. read_members E. now inversion E.
  - exact S.
  - intros double msg m E. unfold sdf_from_message in E. destruct (msg_compressed msg).
    + destruct (msg_scalar msg =? _); [|easy]. apply obind_inv in E. destruct E as (raw & _ & E).
      apply obind_inv in E. destruct E as ([m' n] & R & E). injection E as <-. eapply S; eassumption.
    + apply obind_inv in E. destruct E as ([m' n] & R & E). injection E as <-. eapply S; eassumption.
Qed.
Print Assumptions c86_loaded.

Lemma convert_cubic {A C} inv (conv : A -> C) from to : convert_base inv conv from = Some to ->
  cubic from /\ cubic to.
Proof.
  intros E. unfold convert_base in E. destruct (v_uniform (v_construct _ _ _ _)) eqn:U; [|easy].
  apply uniform_cubic in U. unfold cubic, v_construct in U. cbn [v_sizes] in U.
  destruct (zlen _ =? zlen _); [|easy]. injection E as <-. split; exact U.
Qed.

(** Conversions deliver cubic voxels only, and refuse initialized maps without. *)
Theorem c86_converted : forall inv,
  (forall m m', to_component inv m = Some m' -> cubic (s_base m') /\ (v_init (fm_base m) = true -> cubic (fm_base m))) /\
  (forall m m', from_component inv m = Some m' -> cubic (fm_base m') /\ (v_init (s_base m) = true -> cubic (s_base m))) /\
  (forall m m', to_tagged_component inv m = Some m' ->
     cubic (u_base m') /\ (v_init (fm_base m) = true -> cubic (fm_base m))) /\
  (forall m m', from_tagged_component inv m = Some m' ->
     cubic (fm_base m') /\ (v_init (u_base m) = true -> cubic (u_base m))).
Proof.
  intros inv. repeat apply conj; intros m m' E;
    unfold to_component, from_component, to_tagged_component, from_tagged_component in E.
  - destruct (v_init (fm_base m)); [|injection E as <-; now split]. apply obind_inv in E. destruct E as (b & R & E).
    injection E as <-. apply convert_cubic in R. now destruct R.
  - destruct (v_init (s_base m)); [|injection E as <-; now split]. apply obind_inv in E. destruct E as (b & R & E).
    injection E as <-. apply convert_cubic in R. now destruct R.
  - destruct (v_init (fm_base m)); [|injection E as <-; now split]. apply obind_inv in E. destruct E as (b & R & E).
    injection E as <-. apply convert_cubic in R. now destruct R.
  - destruct (v_init (u_base m)); [|injection E as <-; now split]. apply obind_inv in E. destruct E as (b & R & E).
    injection E as <-. apply convert_cubic in R. now destruct R.
Qed.
Print Assumptions c86_converted.

(** Signed distance fields of grids without cubic voxels are refused, for every scalar
    type, border option and map. *)
Theorem c86_extracted : forall (border : bool) nx ny nz filled,
  (forall res g, sdf_exact res false border nx ny nz filled <> Some g) /\
  (forall res oob g, sdf_binary64 res oob false border nx ny nz filled <> Some g) /\
  (forall res oob g, sdf_binary32 res oob false border nx ny nz filled <> Some g).
Proof. intros border nx ny nz filled. repeat apply conj; intros; discriminate. Qed.
Print Assumptions c86_extracted.

(** A map with voxels of 0.5 on all axes loads, the same bytes with 1.0 on the last axis do
    not, and only the first one can be converted. *)
Definition ex_voxels (z : Z) : fmap occ :=
  mkFmap (mkVgrid true identity_words identity_words (4602678819172646912, 4602678819172646912, z)
    (mkGrid 2 1 1 [0; 1065353216]) 0 0) [119].
Example c86_cases :
  let bad := ex_voxels 4607182418800017408 in let good := ex_voxels 4602678819172646912 in
  load std_deps KOccupancy (om_deserialize std_deps)
    (Some (save std_deps KOccupancy (om_serialize std_deps) good false)) = Some good /\
  load std_deps KOccupancy (om_deserialize std_deps)
    (Some (save std_deps KOccupancy (om_serialize std_deps) bad false)) = None /\
  (exists m, to_component (fun t => t) good = Some m) /\ to_component (fun t => t) bad = None.
Proof.
  cbn zeta. split; [vm_compute; reflexivity|]. split; [vm_compute; reflexivity|].
  split; [|vm_compute; reflexivity]. eexists. vm_compute. reflexivity.
Qed.
