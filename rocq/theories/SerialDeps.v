(** An instance of the dependencies of SerialModel that satisfies [deps_ok]: what is
    assumed of the libraries is consistent.  The layout follows VoxelGridBase
    (initialized flag, transforms, cells with a 64 bit count, sizes, default and
    out-of-bounds value); it is not used by the property theorems other than as a
    witness. *)
From Coq Require Import ZArith List Bool Lia.
From Verif Require Import Util Grid Occ ComponentMapModel SerialModel SerialSpec SerialProofs.
Import ListNotations.
Local Open Scope Z_scope.

(** Stand-in for SerializeVectorLike and for the transforms. *)
Fixpoint ser_list {C} (ser : C -> bytes) (l : list C) : bytes :=
  match l with [] => [] | c :: t => ser c ++ ser_list ser t end.
Fixpoint de_list {C} (n : nat) (de : reader C) : reader (list C) := fun buf off =>
  match n with
  | O => if off <=? zlen buf then Some ([], 0) else None
  | S m => let* (c, k) := de buf off in let* (t, k') := de_list m de buf (off + k) in Some (c :: t, k + k')
  end.

(** Stand-in for VoxelGridBase::SerializeSelf. *)
Definition std_ser (C : Type) (ser : C -> bytes) (g : vgrid C) : bytes :=
  ser_word 1 (bool_byte (v_init g)) ++
  ser_list (ser_word 8) (v_origin g) ++ ser_list (ser_word 8) (v_inverse g) ++
  ser_word 8 (zlen (g_cells (v_grid g))) ++ ser_list ser (g_cells (v_grid g)) ++
  ser_list (ser_word 8) [fst (fst (v_sizes g)); snd (fst (v_sizes g)); snd (v_sizes g);
                         g_nx (v_grid g); g_ny (v_grid g); g_nz (v_grid g)] ++
  ser (v_default g) ++ ser (v_oob g).

(** Reading in sequence. *)
Definition bind {A B} (r1 : reader A) (r2 : A -> reader B) : reader B := fun buf off =>
  let* (a, n) := r1 buf off in let* (b, k) := r2 a buf (off + n) in Some (b, n + k).
Definition give {A B} (r : reader A) (f : A -> option B) : reader B := fun buf off =>
  let* (a, n) := r buf off in let* b := f a in Some (b, n).

(** Stand-in for VoxelGridBase::DeserializeSelf. *)
Definition std_de (C : Type) (de : reader C) : reader (vgrid C) :=
  bind (de_word 1) (fun i =>
  bind (de_list 16 (de_word 8)) (fun o =>
  bind (de_list 16 (de_word 8)) (fun v =>
  bind (de_word 8) (fun n =>
  bind (de_list (Z.to_nat n) de) (fun cells =>
  bind (de_list 6 (de_word 8)) (fun s =>
  bind de (fun d =>
  give de (fun b =>
    match s with
    | [sx; sy; sz; nx; ny; nz] =>
        Some (mkVgrid (negb (i =? 0)) o v (sx, sy, sz) (mkGrid nx ny nz cells) d b)
    | _ => None
    end)))))))).

Definition std_deps : deps :=
  mkDeps std_ser std_de (vgrid occ) (is_vgrid (word 4)) v_uniform (std_ser occ) (std_de occ)
    (fun b => 120 :: b) (fun b => match b with 120 :: t => Some t | _ => None end).

(** ** It satisfies the assumptions *)

Lemma list_rt {C} (ok : C -> Prop) ser de l buf off :
  round_trips ok ser de -> Forall ok l -> holds buf off (ser_list ser l) ->
  de_list (length l) de buf off = Some (l, zlen (ser_list ser l)).
Proof.
  intros RT F. revert off; induction F as [|c l O F IH]; intros off H; cbn [ser_list length de_list] in *.
  - pose proof (holds_length _ _ _ H) as L. change (zlen (@nil Z)) with 0 in *.
    destruct (Z.leb_spec off (zlen buf)); [reflexivity|lia].
  - apply holds_app in H. destruct H as (H1 & H2). rewrite (RT _ _ _ O H1). cbn [obind].
    rewrite (IH _ H2). cbn [obind]. now rewrite zlen_app.
Qed.

Lemma list_local {C} n (de : reader C) : reads_what_it_reports de -> reads_what_it_reports (de_list n de).
Proof.
  intros L. induction n as [|n IH].
  - intros buf off a k B O H. cbn [de_list] in H. destruct (Z.leb_spec off (zlen buf)); [|discriminate].
    injection H as <- <-. exists []. split; [apply holds_nil; lia|]. split; [reflexivity|].
    intros buf' off' H'. cbn [de_list]. pose proof (holds_length _ _ _ H') as X. change (zlen (@nil Z)) with 0 in X.
    destruct (Z.leb_spec off' (zlen buf')); [reflexivity|lia].
  - exact (last_local de (fun _ => de_list n de) cons L (fun _ => IH)).
Qed.

Lemma ser_list_bytes {C} (ser : C -> bytes) l : (forall c, Forall (word 1) (ser c)) -> Forall (word 1) (ser_list ser l).
Proof. intros B. induction l; cbn [ser_list]; [constructor|]. apply Forall_app. auto. Qed.

Lemma bind_at {A B} (r1 : reader A) (r2 : A -> reader B) buf off a b (x y : bytes) :
  r1 buf off = Some (a, zlen x) -> r2 a buf (off + zlen x) = Some (b, zlen y) ->
  bind r1 r2 buf off = Some (b, zlen (x ++ y)).
Proof. intros H1 H2. unfold bind. rewrite H1. cbn [obind]. rewrite H2, zlen_app. reflexivity. Qed.

Lemma word8_rt : round_trips (word 8) (ser_word 8) (de_word 8).
Proof. exact (word_rt 8). Qed.

Lemma std_rt C (ok : C -> Prop) ser de : round_trips ok ser de ->
  round_trips (is_vgrid ok) (std_ser C ser) (std_de C de).
Proof.
  intros RT [i o v [[sx sy] sz] [nx ny nz cells] d b] buf off
    ((Lo & Fo) & (Lv & Fv) & Wx & Wy & Wz & G & Nx & Ny & Nz & Nc & Fc & Od & Ob) H.
  cbn [v_init v_origin v_inverse v_sizes v_grid v_default v_oob fst snd g_nx g_ny g_nz g_cells] in *.
  unfold std_ser in *.
  cbn [v_init v_origin v_inverse v_sizes v_grid v_default v_oob fst snd g_nx g_ny g_nz g_cells] in *.
  apply holds_app in H. destruct H as (H1 & H).
  apply holds_app in H. destruct H as (H2 & H).
  apply holds_app in H. destruct H as (H3 & H).
  apply holds_app in H. destruct H as (H4 & H).
  apply holds_app in H. destruct H as (H5 & H).
  apply holds_app in H. destruct H as (H6 & H).
  apply holds_app in H. destruct H as (H7 & H8).
  assert (F6 : Forall (word 8) [sx; sy; sz; nx; ny; nz]) by auto 10.
  unfold std_de.
  eapply bind_at; [exact (bool_rt _ _ _ H1)|].
  eapply bind_at. { rewrite <- Lo. exact (list_rt _ _ _ _ _ _ word8_rt Fo H2). }
  eapply bind_at. { rewrite <- Lv. exact (list_rt _ _ _ _ _ _ word8_rt Fv H3). }
  eapply bind_at; [exact (word8_rt _ _ _ Nc H4)|].
  eapply bind_at. { unfold zlen at 1. rewrite Nat2Z.id. exact (list_rt _ _ _ _ _ _ RT Fc H5). }
  eapply bind_at; [exact (list_rt _ _ _ _ _ _ word8_rt F6 H6)|].
  eapply bind_at; [exact (RT _ _ _ Od H7)|].
  unfold give. rewrite (RT _ _ _ Ob H8). cbn [obind]. now rewrite bool_byte_back.
Qed.

Lemma std_local C (de : reader C) : reads_what_it_reports de -> reads_what_it_reports (std_de C de).
Proof.
  intros L. unfold std_de. pose proof (word_local 7) as W8.
  apply bind_local; [exact (word_local 0)|]. intros i.
  apply bind_local; [exact (list_local 16 _ W8)|]. intros o.
  apply bind_local; [exact (list_local 16 _ W8)|]. intros v.
  apply bind_local; [exact W8|]. intros n.
  apply bind_local; [exact (list_local _ _ L)|]. intros cells.
  apply bind_local; [exact (list_local 6 _ W8)|]. intros s.
  apply bind_local; [exact L|]. intros d.
  apply map_local. exact L.
Qed.

Lemma std_bytes C (ser : C -> bytes) : (forall c, Forall (word 1) (ser c)) ->
  forall g, Forall (word 1) (std_ser C ser g).
Proof.
  intros B g. unfold std_ser.
  repeat (apply Forall_app; split); auto using ser_word_bytes, ser_list_bytes.
Qed.

Theorem std_deps_ok : deps_ok std_deps.
Proof.
  repeat split; cbn [d_ser d_de d_dsh d_dsh_ok d_dsh_ser d_dsh_de d_compress d_decompress std_deps].
  - exact std_rt.
  - exact std_local.
  - exact std_bytes.
  - exact (std_rt occ (word 4)).
  - exact (std_local occ).
  - exact (std_bytes occ).
Qed.
