(** Proofs about serialization, files and messages. *)
From Coq Require Import ZArith List Bool Lia.
From Verif Require Import Util Grid Occ ComponentMapModel SdfStateModel SerialModel SerialSpec.
Import ListNotations.
Local Open Scope Z_scope.

Lemma zlen_app {A} (a b : list A) : zlen (a ++ b) = zlen a + zlen b.
Proof. unfold zlen. rewrite app_length. lia. Qed.
Lemma zlen_cons {A} (a : A) l : zlen (a :: l) = 1 + zlen l.
Proof. unfold zlen. cbn [length]. lia. Qed.
Lemma zlen_nil {A} : zlen (@nil A) = 0.
Proof. reflexivity. Qed.

(** ** Bytes held in a buffer *)

Lemma holds_app buf off a b : holds buf off (a ++ b) -> holds buf off a /\ holds buf (off + zlen a) b.
Proof.
  intros (pre & post & E & L). split.
  - exists pre, (b ++ post). split; [|exact L]. rewrite E. now rewrite !app_assoc.
  - exists (pre ++ a), post. split; [|rewrite zlen_app; lia]. rewrite E. now rewrite !app_assoc.
Qed.

Lemma app_same_length {A} (a b c d : list A) : length a = length b -> a ++ c = b ++ d -> a = b /\ c = d.
Proof.
  revert b; induction a as [|x a IH]; intros [|y b] L E; cbn in *; try discriminate; [auto|].
  injection E as -> E. destruct (IH b ltac:(lia) E) as (-> & ->). auto.
Qed.

Lemma holds_app_intro buf off a b :
  holds buf off a -> holds buf (off + zlen a) b -> holds buf off (a ++ b).
Proof.
  intros (pre & post & E & L) (pre' & post' & E' & L').
  rewrite E in E'. rewrite app_assoc in E'.
  assert (LE : length (pre ++ a) = length pre') by (unfold zlen in *; rewrite app_length; lia).
  destruct (app_same_length _ _ _ _ LE E') as (Ep & Eq).
  exists pre, post'. split; [|exact L]. rewrite E, Eq. now rewrite !app_assoc.
Qed.

Lemma holds_nonneg buf off bs : holds buf off bs -> 0 <= off.
Proof. intros (pre & post & E & L). pose proof (zlen_nonneg pre). lia. Qed.

Lemma holds_length buf off bs : holds buf off bs -> off + zlen bs <= zlen buf.
Proof.
  intros (pre & post & E & L). rewrite E, !zlen_app. pose proof (zlen_nonneg post). lia.
Qed.

Lemma holds_nil buf off : 0 <= off <= zlen buf -> holds buf off [].
Proof.
  intros H. exists (firstn (Z.to_nat off) buf), (skipn (Z.to_nat off) buf).
  split; [cbn; now rewrite firstn_skipn|]. unfold zlen in *. rewrite firstn_length. lia.
Qed.

Lemma holds_all bs : holds bs 0 bs.
Proof. exists [], []. split; [cbn; now rewrite app_nil_r | reflexivity]. Qed.

Lemma zget_app_r {A} (a b : list A) i : 0 <= i -> zget (a ++ b) (zlen a + i) = zget b i.
Proof.
  intros H. unfold zget, zlen.
  destruct (Z.ltb_spec (Z.of_nat (length a) + i) 0); [lia|]. destruct (Z.ltb_spec i 0); [lia|].
  rewrite nth_error_app2 by lia. f_equal. lia.
Qed.

Lemma holds_get buf off b bs : holds buf off (b :: bs) -> zget buf off = Some b.
Proof.
  intros (pre & post & -> & L). replace off with (zlen pre + 0) by lia. now rewrite zget_app_r by lia.
Qed.

Lemma get_holds buf off b : zget buf off = Some b -> holds buf off [b].
Proof.
  intros H. pose proof (zget_range _ _ _ H) as R. unfold zget in H.
  destruct (Z.ltb_spec off 0); [lia|].
  destruct (nth_error_split _ _ H) as (l1 & l2 & -> & L).
  exists l1, l2. split; [reflexivity|]. unfold zlen. lia.
Qed.

Lemma holds_tail buf off b bs : holds buf off (b :: bs) -> holds buf (off + 1) bs.
Proof. intros H. change (b :: bs) with ([b] ++ bs) in H. now apply holds_app in H. Qed.

(** ** Words *)

Lemma ser_word_length n v : zlen (ser_word n v) = Z.of_nat n.
Proof. revert v; induction n; intros v; cbn [ser_word]; [reflexivity|]. rewrite zlen_cons, IHn. lia. Qed.

Lemma pow256_S n : 256 ^ Z.of_nat (S n) = 256 * 256 ^ Z.of_nat n.
Proof. rewrite Nat2Z.inj_succ. apply Z.pow_succ_r. lia. Qed.

Lemma word_rt n : round_trips (word (Z.of_nat n)) (ser_word n) (de_word n).
Proof.
  induction n as [|n IH]; intros v buf off W H.
  - unfold word in W. cbn in *. change (zlen (@nil Z)) with 0. f_equal. f_equal. lia.
  - cbn [ser_word] in *. cbn [de_word]. rewrite (holds_get _ _ _ _ H). cbn [obind].
    unfold word in *. rewrite pow256_S in W.
    rewrite (IH (v / 256) buf (off + 1)).
    + cbn [obind]. rewrite zlen_cons. f_equal. f_equal. pose proof (Z.div_mod v 256). lia.
    + pose proof (Z.div_le_lower_bound v 256 0). split; [apply Z.div_pos; lia|].
      apply Z.div_lt_upper_bound; lia.
    + exact (holds_tail _ _ _ _ H).
Qed.

Lemma word_local_gen n buf off a k : 0 <= off <= zlen buf -> de_word n buf off = Some (a, k) ->
  exists bs, holds buf off bs /\ zlen bs = k /\
    forall buf' off', holds buf' off' bs -> de_word n buf' off' = Some (a, k).
Proof.
  revert off a k; induction n as [|n IH]; intros off a k O H; cbn [de_word] in H.
  - injection H as <- <-. exists []. split; [now apply holds_nil|]. split; [reflexivity|]. reflexivity.
  - destruct (zget buf off) as [b|] eqn:B; [|discriminate]. cbn [obind] in H.
    destruct (de_word n buf (off + 1)) as [[v k']|] eqn:W; [|discriminate]. cbn [obind] in H.
    pose proof (zget_range _ _ _ B) as R.
    destruct (IH (off + 1) v k' ltac:(lia) W) as (bs & H1 & H2 & H3).
    assert (a = b + 256 * v /\ k = 1 + k') as (-> & ->) by (split; congruence).
    exists (b :: bs). split; [|split].
    + apply (holds_app_intro buf off [b] bs); [now apply get_holds|exact H1].
    + rewrite zlen_cons. lia.
    + intros buf' off' H'. cbn [de_word]. rewrite (holds_get _ _ _ _ H'). cbn [obind].
      rewrite (H3 _ _ (holds_tail _ _ _ _ H')). reflexivity.
Qed.

Lemma word_local n : reads_what_it_reports (de_word (S n)).
Proof.
  intros buf off a k _ O H. apply word_local_gen; [|exact H]. cbn [de_word] in H.
  destruct (zget buf off) as [b|] eqn:B; [|discriminate]. pose proof (zget_range _ _ _ B). lia.
Qed.

(** ** Sequencing *)

Lemma bind_local {A B} (r1 : reader A) (r2 : A -> reader B) :
  reads_what_it_reports r1 -> (forall a, reads_what_it_reports (r2 a)) ->
  reads_what_it_reports (fun buf off =>
    let* (a, n) := r1 buf off in let* (b, k) := r2 a buf (off + n) in Some (b, n + k)).
Proof.
  intros L1 L2 buf off b m FB O H.
  destruct (r1 buf off) as [[a n]|] eqn:E1; [|discriminate]. cbn [obind] in H.
  destruct (r2 a buf (off + n)) as [[b' k]|] eqn:E2; [|discriminate]. cbn [obind] in H.
  injection H as <- <-.
  destruct (L1 _ _ _ _ FB O E1) as (bs1 & H1 & Z1 & R1).
  pose proof (zlen_nonneg bs1).
  assert (O2 : 0 <= off + n) by lia.
  destruct (L2 a _ _ _ _ FB O2 E2) as (bs2 & H2 & Z2 & R2).
  exists (bs1 ++ bs2). split; [|split].
  - apply holds_app_intro; [exact H1|]. now rewrite Z1.
  - rewrite zlen_app. lia.
  - intros buf' off' H'. apply holds_app in H'. destruct H' as (H1' & H2').
    rewrite (R1 _ _ H1'). cbn [obind]. rewrite Z1 in H2'. rewrite (R2 _ _ H2'). reflexivity.
Qed.

Lemma map_local {A B} (r : reader A) (f : A -> option B) :
  reads_what_it_reports r ->
  reads_what_it_reports (fun buf off => let* (a, n) := r buf off in let* b := f a in Some (b, n)).
Proof.
  intros L buf off b m FB O H.
  destruct (r buf off) as [[a n]|] eqn:E; [|discriminate]. cbn [obind] in H.
  destruct (f a) as [b'|] eqn:F; [|discriminate]. cbn [obind] in H. injection H as <- <-.
  destruct (L _ _ _ _ FB O E) as (bs & H1 & H2 & H3). exists bs. split; [exact H1|]. split; [exact H2|].
  intros buf' off' H'. rewrite (H3 _ _ H'). cbn [obind]. now rewrite F.
Qed.

Lemma local_ext {A} (r r' : reader A) :
  (forall buf off, r buf off = r' buf off) -> reads_what_it_reports r -> reads_what_it_reports r'.
Proof.
  intros E L buf off a n B O H. rewrite <- E in H. destruct (L _ _ _ _ B O H) as (bs & H1 & H2 & H3).
  exists bs. split; [exact H1|]. split; [exact H2|]. intros. rewrite <- E. now apply H3.
Qed.

(** A reader that returns a constant without reading, after [bind_local]. *)
Lemma last_local {A B C} (r1 : reader A) (r2 : A -> reader B) (f : A -> B -> C) :
  reads_what_it_reports r1 -> (forall a, reads_what_it_reports (r2 a)) ->
  reads_what_it_reports (fun buf off =>
    let* (a, n) := r1 buf off in let* (b, k) := r2 a buf (off + n) in Some (f a b, n + k)).
Proof.
  intros L1 L2.
  eapply local_ext; [|apply (bind_local r1 (fun a => fun buf off =>
      let* (b, n) := r2 a buf off in let* c := Some (f a b) in Some (c, n)) L1)].
  - intros buf off. cbn beta. destruct (r1 buf off) as [[a n]|]; [|reflexivity]. cbn [obind].
    destruct (r2 a buf (off + n)) as [[b k]|]; reflexivity.
  - intros a. apply map_local. apply L2.
Qed.

(** ** Strings *)

Lemma string_rt : round_trips is_string ser_string de_string.
Proof.
  intros s buf off (F & W) H. unfold ser_string in *. apply holds_app in H. destruct H as (H1 & H2).
  unfold de_string. rewrite (word_rt 8 _ _ _ W H1). cbn [obind]. rewrite zlen_app, ser_word_length in *.
  pose proof (holds_length _ _ _ H2). destruct (Z.leb_spec (off + Z.of_nat 8 + zlen s) (zlen buf)); [|lia].
  f_equal. f_equal. destruct H2 as (pre & post & -> & L). rewrite <- L. unfold zlen. rewrite !Nat2Z.id.
  rewrite skipn_app, Nat.sub_diag, skipn_all. cbn [app skipn].
  rewrite firstn_app, Nat.sub_diag, firstn_all. cbn. now rewrite app_nil_r.
Qed.

Lemma word_nonneg n buf off v k : Forall (word 1) buf -> de_word n buf off = Some (v, k) -> 0 <= v.
Proof.
  intros F. revert off v k; induction n as [|n IH]; intros off v k H; cbn [de_word] in H.
  - injection H as <- <-. lia.
  - destruct (zget buf off) as [b|] eqn:B; [|discriminate]. cbn [obind] in H.
    destruct (de_word n buf (off + 1)) as [[w k']|] eqn:W; [|discriminate]. cbn [obind] in H.
    assert (v = b + 256 * w) as -> by congruence. pose proof (IH _ _ _ W).
    assert (Wb : word 1 b).
    { unfold zget in B. destruct (off <? 0); [discriminate|]. apply nth_error_In in B.
      rewrite Forall_forall in F. now apply F. }
    unfold word in Wb. lia.
Qed.

Lemma string_local : reads_what_it_reports de_string.
Proof.
  intros buf off s k B O H. unfold de_string in H.
  destruct (de_word 8 buf off) as [[n k1]|] eqn:E; [|discriminate]. cbn [obind] in H.
  destruct (Z.leb_spec (off + k1 + n) (zlen buf)) as [LE|]; [|discriminate].
  pose proof (word_nonneg _ _ _ _ _ B E) as N.
  destruct (word_local 7 _ _ _ _ B O E) as (bs & H1 & Z1 & R1).
  injection H as <- <-. pose proof (zlen_nonneg bs).
  set (s := firstn (Z.to_nat n) (skipn (Z.to_nat (off + k1)) buf)).
  assert (HL : zlen s = n).
  { unfold s, zlen in *. rewrite firstn_length, skipn_length. lia. }
  assert (Hs : holds buf (off + zlen bs) s).
  { exists (firstn (Z.to_nat (off + k1)) buf), (skipn (Z.to_nat n) (skipn (Z.to_nat (off + k1)) buf)).
    split; [unfold s; now rewrite !firstn_skipn|]. rewrite Z1. unfold zlen in *. rewrite firstn_length. lia. }
  exists (bs ++ s). split; [now apply holds_app_intro|]. split; [rewrite zlen_app; lia|].
  intros buf' off' H'. apply holds_app in H'. destruct H' as (H1' & H2').
  unfold de_string. rewrite (R1 _ _ H1'). cbn [obind]. rewrite Z1 in H2'.
  pose proof (holds_length _ _ _ H2') as HL'.
  destruct (Z.leb_spec (off' + k1 + n) (zlen buf')); [|lia].
  f_equal. f_equal. destruct H2' as (pre & post & -> & L). rewrite <- L.
  replace (Z.to_nat n) with (length s) by (unfold zlen in HL; lia). unfold zlen. rewrite Nat2Z.id.
  rewrite skipn_app, Nat.sub_diag, skipn_all. cbn [app skipn].
  rewrite firstn_app, Nat.sub_diag, firstn_all. cbn. now rewrite app_nil_r.
Qed.

(** ** Cells *)

Lemma word4_rt : round_trips (word 4) (ser_word 4) (de_word 4).
Proof. exact (word_rt 4). Qed.

Lemma occ_rt : round_trips (word 4) occ_ser occ_de.
Proof. intros o buf off W H. unfold occ_de, occ_ser in *. now rewrite (word4_rt _ _ _ W H). Qed.

Ltac next rt W H :=
  let H' := fresh H in
  first [ apply holds_app in H; destruct H as [H' H]; rewrite (rt _ _ _ W H')
        | rewrite (rt _ _ _ W H) ]; cbn [obind];
  rewrite ?ser_word_length in *.

Lemma ccell_rt : round_trips is_ccell ccell_ser ccell_de.
Proof.
  intros [o c] buf off (W1 & W2) H. unfold ccell_ser, ccell_de in *. cbn [c_occ c_comp] in *.
  next word4_rt W1 H. next word4_rt W2 H. rewrite zlen_app, !ser_word_length. reflexivity.
Qed.

Lemma tcell_rt : round_trips is_tcell tcell_ser tcell_de.
Proof.
  intros [o c] buf off (W1 & W2) H. unfold tcell_ser, tcell_de in *. cbn [g_occ g_obj] in *.
  next word4_rt W1 H. next word4_rt W2 H. rewrite zlen_app, !ser_word_length. reflexivity.
Qed.

Lemma tccell_rt : round_trips is_tccell tccell_ser tccell_de.
Proof.
  intros [o j c g] buf off (W1 & W2 & W3 & W4) H. unfold tccell_ser, tccell_de in *. cbn [t_occ t_obj t_comp t_seg] in *.
  next word4_rt W1 H. next word4_rt W2 H. next word4_rt W3 H. next word4_rt W4 H.
  rewrite !zlen_app, !ser_word_length. reflexivity.
Qed.

Lemma occ_local : reads_what_it_reports occ_de.
Proof.
  eapply local_ext; [|exact (map_local (de_word 4) (@Some Z) (word_local 3))].
  intros buf off. unfold occ_de. destruct (de_word 4 buf off) as [[o n]|]; reflexivity.
Qed.

Lemma ccell_local : reads_what_it_reports ccell_de.
Proof. exact (last_local (de_word 4) (fun _ => de_word 4) mkCcell (word_local 3) (fun _ => word_local 3)). Qed.

Lemma tcell_local : reads_what_it_reports tcell_de.
Proof. exact (last_local (de_word 4) (fun _ => de_word 4) mkTcell (word_local 3) (fun _ => word_local 3)). Qed.

Lemma tccell_local : reads_what_it_reports tccell_de.
Proof.
  pose proof (word_local 3) as W.
  eapply local_ext.
  2: exact (bind_local (de_word 4) (fun o buf off =>
       let* (r, n) := (fun buf off => let* (j, n) := de_word 4 buf off in
                         let* (r, n') := (fun buf off => let* (k, n) := de_word 4 buf off in
                            let* (s, n') := de_word 4 buf (off + n) in Some (mkTccell o j k s, n + n')) buf (off + n) in
                         Some (r, n + n')) buf off in
       let* r := Some r in Some (r, n)) W
       (fun o => map_local _ _ (bind_local (de_word 4) _ W
          (fun j => last_local (de_word 4) (fun _ => de_word 4) (mkTccell o j) W (fun _ => W))))).
  intros buf off. unfold tccell_de. cbn beta.
  destruct (de_word 4 buf off) as [[o n1]|]; [|reflexivity]. cbn [obind].
  destruct (de_word 4 buf (off + n1)) as [[j n2]|]; [|reflexivity]. cbn [obind].
  destruct (de_word 4 buf (off + n1 + n2)) as [[k n3]|]; [|reflexivity]. cbn [obind].
  destruct (de_word 4 buf (off + n1 + n2 + n3)) as [[g n4]|]; [|reflexivity]. cbn [obind].
  f_equal. f_equal. lia.
Qed.

Lemma bool_rt (b : bool) buf off : holds buf off (ser_word 1 (bool_byte b)) ->
  de_word 1 buf off = Some (bool_byte b, 1).
Proof. intros H. apply (word_rt 1); [destruct b; unfold word; cbn; lia | exact H]. Qed.

Lemma bool_byte_back b : negb (bool_byte b =? 0) = b.
Proof. destruct b; reflexivity. Qed.

(** ** Maps *)

Section Maps.
Variable D : deps.
Hypothesis DOK : deps_ok D.

Lemma self_rt {C M} (ok : C -> Prop) (cser : C -> bytes) (cde : reader C) (derived : vgrid C -> reader M)
    (b : vgrid C) (rest : bytes) (m : M) buf off :
  round_trips ok cser cde -> is_vgrid ok b -> v_uniform b = true ->
  (forall off', holds buf off' rest -> derived b buf off' = Some (m, zlen rest)) ->
  holds buf off (d_ser D C cser b ++ rest) ->
  de_self D cde derived buf off = Some (m, zlen (d_ser D C cser b ++ rest)).
Proof using DOK.
  intros RT V U R H. apply holds_app in H. destruct H as (H1 & H2).
  unfold de_self. destruct DOK as (B & _). rewrite (B C ok cser cde RT b buf off V H1). cbn [obind].
  rewrite U, (R _ H2). cbn [obind]. now rewrite zlen_app.
Qed.

Lemma self_local {C M} (cde : reader C) (derived : vgrid C -> reader M) :
  reads_what_it_reports cde -> (forall b, reads_what_it_reports (derived b)) ->
  reads_what_it_reports (de_self D cde derived).
Proof using DOK.
  intros L1 L2. destruct DOK as (_ & B & _).
  eapply local_ext.
  2: exact (bind_local (fun buf off => let* (b, n) := d_de D C cde buf off in
              let* b := (if v_uniform b then Some b else None) in Some (b, n)) derived
              (map_local _ _ (B C cde L1)) L2).
  intros buf off. unfold de_self. cbn beta. destruct (d_de D C cde buf off) as [[b n]|]; [|reflexivity].
  cbn [obind]. destruct (v_uniform b); reflexivity.
Qed.

Lemma fmap_rt {C} (ok : C -> Prop) cser cde :
  round_trips ok cser cde -> round_trips (is_fmap ok) (fmap_ser D cser) (fmap_de D cde).
Proof using DOK.
  intros RT [b frame] buf off (V & U & F) H. unfold fmap_ser, fmap_de in *. cbn [fm_base fm_frame] in *.
  apply (self_rt ok); auto. intros off' H'. now rewrite (string_rt _ _ _ F H').
Qed.

Lemma fmap_local {C} (cde : reader C) : reads_what_it_reports cde -> reads_what_it_reports (fmap_de D cde).
Proof using DOK.
  intros L. apply self_local; [exact L|]. intros b.
  eapply local_ext; [|exact (map_local de_string (fun s => Some (mkFmap b s)) string_local)].
  intros buf off. cbn beta. destruct (de_string buf off) as [[s n]|]; reflexivity.
Qed.

Lemma cm_rt : round_trips is_cmmap (cm_serialize D) (cm_deserialize D).
Proof using DOK.
  intros [b n frame valid] buf off (V & U & F & N) H. unfold cm_serialize, cm_deserialize in *.
  cbn [s_base s_n s_frame s_valid] in *.
  apply (self_rt is_ccell); auto using ccell_rt. intros off' H'.
  next word4_rt N H'. next string_rt F H'. rewrite (bool_rt _ _ _ H'). cbn [obind].
  rewrite bool_byte_back, !zlen_app, !ser_word_length. f_equal. f_equal. lia.
Qed.

Lemma cm_local : reads_what_it_reports (cm_deserialize D).
Proof using DOK.
  apply self_local; [exact ccell_local|]. intros b.
  eapply local_ext.
  2: exact (bind_local (de_word 4) _ (word_local 3) (fun n =>
       last_local de_string (fun _ => de_word 1) (fun frame valid => mkCmmap b n frame (negb (valid =? 0)))
         string_local (fun _ => word_local 0))).
  intros buf off. cbn beta. destruct (de_word 4 buf off) as [[n k1]|]; [|reflexivity]. cbn [obind].
  destruct (de_string buf (off + k1)) as [[s k2]|]; [|reflexivity]. cbn [obind].
  destruct (de_word 1 buf (off + k1 + k2)) as [[v k3]|]; [|reflexivity]. cbn [obind]. f_equal. f_equal. lia.
Qed.

Lemma tc_rt : round_trips is_tcmap (tc_serialize D) (tc_deserialize D).
Proof using DOK.
  intros [b n ns frame valid svalid] buf off (V & U & F & N & NS) H. unfold tc_serialize, tc_deserialize in *.
  cbn [u_base u_n u_nseg u_frame u_valid u_seg_valid] in *.
  apply (self_rt is_tccell); auto using tccell_rt. intros off' H'.
  next word4_rt N H'. next word4_rt NS H'. next string_rt F H'.
  apply holds_app in H'. destruct H' as (HV & HS). rewrite ser_word_length in HS.
  rewrite (bool_rt _ _ _ HV). cbn [obind]. change (Z.of_nat 1) with 1 in HS. rewrite (bool_rt _ _ _ HS). cbn [obind].
  rewrite !bool_byte_back, !zlen_app, !ser_word_length. f_equal. f_equal. lia.
Qed.

Lemma tc_local : reads_what_it_reports (tc_deserialize D).
Proof using DOK.
  apply self_local; [exact tccell_local|]. intros b.
  eapply local_ext.
  2: exact (bind_local (de_word 4) _ (word_local 3) (fun n =>
       bind_local (de_word 4) _ (word_local 3) (fun ns =>
       bind_local de_string _ string_local (fun frame =>
       last_local (de_word 1) (fun _ => de_word 1)
         (fun valid svalid => mkTcmap b n ns frame (negb (valid =? 0)) (negb (svalid =? 0)))
         (word_local 0) (fun _ => word_local 0))))).
  intros buf off. cbn beta. destruct (de_word 4 buf off) as [[n k1]|]; [|reflexivity]. cbn [obind].
  destruct (de_word 4 buf (off + k1)) as [[ns k2]|]; [|reflexivity]. cbn [obind].
  destruct (de_string buf (off + k1 + k2)) as [[s k3]|]; [|reflexivity]. cbn [obind].
  destruct (de_word 1 buf (off + k1 + k2 + k3)) as [[v k4]|]; [|reflexivity]. cbn [obind].
  destruct (de_word 1 buf (off + k1 + k2 + k3 + k4)) as [[w k5]|]; [|reflexivity]. cbn [obind]. f_equal. f_equal. lia.
Qed.

Lemma dm_rt : round_trips is_dmap (dm_serialize D) (dm_deserialize D).
Proof using DOK.
  intros [b frame] buf off (V & U & F) H. unfold dm_serialize, dm_deserialize in *. cbn [w_base w_frame] in *.
  destruct DOK as (_ & _ & _ & B & _). apply holds_app in H. destruct H as (H1 & H2).
  rewrite (B _ _ occ_rt b buf off V H1). cbn [obind]. rewrite U, (string_rt _ _ _ F H2). cbn [obind].
  now rewrite zlen_app.
Qed.

Lemma dm_local : reads_what_it_reports (dm_deserialize D).
Proof using DOK.
  destruct DOK as (_ & _ & _ & _ & B & _).
  eapply local_ext.
  2: exact (last_local (fun buf off => let* (b, n) := d_dsh_de D occ_de buf off in
              let* b := (if d_dsh_uniform D b then Some b else None) in Some (b, n)) (fun _ => de_string) (mkDmap D)
              (map_local _ _ (B occ_de occ_local)) (fun _ => string_local)).
  intros buf off. unfold dm_deserialize. cbn beta. destruct (d_dsh_de D occ_de buf off) as [[b n]|]; [|reflexivity].
  cbn [obind]. destruct (d_dsh_uniform D b); reflexivity.
Qed.

(** ** SDFs *)

Lemma sdf_rt width lt s0 s buf off :
  is_sdf width s -> cache_current lt s -> holds buf off (sdf_serialize D width s) ->
  sdf_deserialize D width lt s0 buf off =
  Some (mkSdf (x_base s) (x_frame s) (x_locked s) (if x_locked s then x_minmax s else (s0, s0)),
        zlen (sdf_serialize D width s)).
Proof using DOK.
  destruct s as [b frame locked mm]. intros (V & U & F) CC H. unfold sdf_serialize, sdf_deserialize in *.
  unfold cache_current in CC. cbn [x_base x_frame x_locked x_minmax] in *.
  apply (self_rt (word (Z.of_nat width))); auto using word_rt. intros off' H'.
  next string_rt F H'. rewrite (bool_rt _ _ _ H'). cbn [obind]. rewrite bool_byte_back, zlen_app, ser_word_length.
  destruct locked; [|reflexivity]. specialize (CC eq_refl). unfold x_get_minmax in CC. cbn in CC.
  unfold f_lock, get_minmax. cbn. rewrite CC. reflexivity.
Qed.

Lemma sdf_local width lt s0 : (0 < width)%nat -> reads_what_it_reports (sdf_deserialize D width lt s0).
Proof using DOK.
  intros W. destruct width as [|w]; [lia|]. apply self_local; [exact (word_local w)|]. intros b.
  eapply local_ext.
  2: exact (map_local _ (fun fl => let '(frame, locked) := fl in
       let s := mkSdf b frame false (s0, s0) in
       if negb (locked =? 0) then let* f := f_lock lt (x_state s) in Some (mkSdf b frame (f_locked f) (f_minmax f))
       else Some s)
       (last_local de_string (fun _ => de_word 1) (fun frame l => (frame, l)) string_local (fun _ => word_local 0))).
  intros buf off. cbn beta. destruct (de_string buf off) as [[s k2]|]; [|reflexivity]. cbn [obind].
  destruct (de_word 1 buf (off + k2)) as [[v k3]|]; [|reflexivity]. cbn [obind].
  destruct (negb (v =? 0)); [|reflexivity].
  destruct (f_lock lt (x_state (mkSdf b s false (s0, s0)))); reflexivity.
Qed.

(** What is written consists of bytes. *)
Lemma ser_word_bytes n v : Forall (word 1) (ser_word n v).
Proof using.
  revert v; induction n; intros v; cbn [ser_word]; constructor; [|apply IHn].
  unfold word. pose proof (Z.mod_pos_bound v 256). change (256 ^ 1) with 256. lia.
Qed.

Lemma ser_string_bytes s : is_string s -> Forall (word 1) (ser_string s).
Proof using. intros (F & _). apply Forall_app. split; [apply ser_word_bytes | exact F]. Qed.

Lemma fmap_bytes {C} (ok : C -> Prop) cser m : (forall c, Forall (word 1) (cser c)) ->
  is_fmap ok m -> Forall (word 1) (fmap_ser D cser m).
Proof using DOK.
  intros B (_ & _ & F). unfold fmap_ser. apply Forall_app. split; [|now apply ser_string_bytes].
  destruct DOK as (_ & _ & X & _). now apply X.
Qed.

Ltac all_bytes :=
  repeat first [apply ser_word_bytes | apply ser_string_bytes; assumption | apply Forall_app; split].

Lemma occ_bytes c : Forall (word 1) (occ_ser c).
Proof using. apply ser_word_bytes. Qed.
Lemma ccell_bytes c : Forall (word 1) (ccell_ser c).
Proof using. unfold ccell_ser. all_bytes. Qed.
Lemma tcell_bytes c : Forall (word 1) (tcell_ser c).
Proof using. unfold tcell_ser. all_bytes. Qed.
Lemma tccell_bytes c : Forall (word 1) (tccell_ser c).
Proof using. unfold tccell_ser. all_bytes. Qed.

Lemma cm_bytes m : is_cmmap m -> Forall (word 1) (cm_serialize D m).
Proof using DOK.
  intros (_ & _ & F & _). unfold cm_serialize. destruct DOK as (_ & _ & X & _).
  all_bytes. apply X. exact ccell_bytes.
Qed.
Lemma tc_bytes m : is_tcmap m -> Forall (word 1) (tc_serialize D m).
Proof using DOK.
  intros (_ & _ & F & _). unfold tc_serialize. destruct DOK as (_ & _ & X & _).
  all_bytes. apply X. exact tccell_bytes.
Qed.
Lemma dm_bytes (m : dmap D) : is_dmap m -> Forall (word 1) (dm_serialize D m).
Proof using DOK.
  intros (_ & _ & F). unfold dm_serialize. destruct DOK as (_ & _ & _ & _ & _ & X & _).
  all_bytes. apply X. exact occ_bytes.
Qed.
Lemma sdf_bytes width s : is_sdf width s -> Forall (word 1) (sdf_serialize D width s).
Proof using DOK.
  intros (_ & _ & F). unfold sdf_serialize. destruct DOK as (_ & _ & X & _).
  all_bytes. apply X. intros. apply ser_word_bytes.
Qed.

(** Truncated input is rejected. *)
Lemma truncated {A} (ok : A -> Prop) ser de a k :
  round_trips ok ser de -> reads_what_it_reports de -> ok a -> Forall (word 1) (ser a) ->
  (k < length (ser a))%nat -> de (firstn k (ser a)) 0 = None.
Proof using.
  intros RT L O B K. destruct (de (firstn k (ser a)) 0) as [[a' n]|] eqn:E; [|reflexivity]. exfalso.
  assert (B' : Forall (word 1) (firstn k (ser a))).
  { apply Forall_forall. intros x X. rewrite Forall_forall in B. apply B.
    rewrite <- (firstn_skipn k (ser a)). apply in_or_app. now left. }
  destruct (L _ _ _ _ B' (Z.le_refl 0) E) as (bs & H1 & H2 & H3).
  pose proof (holds_length _ _ _ H1) as HL.
  assert (Hh : holds (ser a) 0 bs).
  { destruct H1 as (pre & post & P & Z0). exists pre, (post ++ skipn k (ser a)). split; [|exact Z0].
    rewrite <- (firstn_skipn k (ser a)) at 1. rewrite P. now rewrite <- !app_assoc. }
  pose proof (H3 _ _ Hh) as X. rewrite (RT a (ser a) 0 O (holds_all _)) in X.
  injection X as X1 X2. unfold zlen in *. rewrite firstn_length in HL. lia.
Qed.
End Maps.

(** ** Files *)

Section FileProofs.
Variable D : deps.
Hypothesis DOK : deps_ok D.

Lemma header_magic k c : header_of k c = magic k c.
Proof using. destruct k, c; reflexivity. Qed.

Lemma header_length k c : length (header_of k c) = 4%nat.
Proof using. destruct k, c; reflexivity. Qed.

Lemma c_string_header k c : c_string (header_of k c ++ [0]) = header_of k c.
Proof using. destruct k, c; reflexivity. Qed.

Lemma header_r_not_z k : header_of k false <> header_of k true.
Proof using. destruct k; discriminate. Qed.

Lemma bytes_eqb_spec a b : bytes_eqb a b = true <-> a = b.
Proof using. unfold bytes_eqb. destruct (list_eq_dec Z.eq_dec a b); split; intros; congruence. Qed.

Lemma load_header {M} k (de : reader M) h payload : length h = 4%nat ->
  load D k de (Some (h ++ payload)) =
  if bytes_eqb (c_string (h ++ [0])) (header_of k true) then
    let* raw := d_decompress D payload in let* (m, _) := de raw 0 in Some m
  else if bytes_eqb (c_string (h ++ [0])) (header_of k false) then let* (m, _) := de payload 0 in Some m
  else None.
Proof using.
  intros L. unfold load, load_file. cbn [obind].
  destruct (Z.leb_spec 4 (zlen (h ++ payload))) as [_|X].
  2: { exfalso. rewrite zlen_app in X. pose proof (zlen_nonneg payload). unfold zlen in X at 1. lia. }
  rewrite <- L. rewrite firstn_app, Nat.sub_diag, firstn_all, skipn_app, Nat.sub_diag, skipn_all.
  cbn [firstn skipn app]. now rewrite app_nil_r.
Qed.

Lemma save_load {M} k (ser : M -> bytes) (de : reader M) m m' c :
  de (ser m) 0 = Some m' -> load D k de (Some (save D k ser m c)) = Some (fst m').
Proof using DOK.
  intros RT. unfold save, save_file. destruct DOK as (_ & _ & _ & _ & _ & _ & Z).
  destruct c; rewrite load_header by apply header_length; rewrite c_string_header.
  - rewrite (proj2 (bytes_eqb_spec _ _) eq_refl), Z. cbn [obind]. rewrite RT. destruct m'. reflexivity.
  - destruct (bytes_eqb (header_of k false) (header_of k true)) eqn:E.
    { apply bytes_eqb_spec in E. now apply header_r_not_z in E. }
    rewrite (proj2 (bytes_eqb_spec _ _) eq_refl), RT. destruct m'. reflexivity.
Qed.

Lemma c_string_4 h : length h = 4%nat -> length (c_string (h ++ [0])) = 4%nat -> c_string (h ++ [0]) = h.
Proof using.
  destruct h as [|a [|b [|c [|d [|]]]]]; try discriminate. intros _. cbn.
  destruct (a =? 0); [discriminate|]. destruct (b =? 0); [discriminate|].
  destruct (c =? 0); [discriminate|]. destruct (d =? 0); [discriminate|]. reflexivity.
Qed.

Lemma load_accepts {M} k (de : reader M) content m :
  load D k de content = Some m -> exists c payload, content = Some (header_of k c ++ payload).
Proof using.
  intros H. destruct content as [file|]; [|discriminate].
  assert (L4 : 4 <= zlen file).
  { unfold load, load_file in H. cbn [obind] in H. destruct (Z.leb_spec 4 (zlen file)); [assumption|discriminate]. }
  rewrite <- (firstn_skipn 4 file) in H |- *. set (h := firstn 4 file) in *.
  assert (L : length h = 4%nat) by (unfold h, zlen in *; rewrite firstn_length; lia).
  rewrite load_header in H by exact L.
  destruct (bytes_eqb (c_string (h ++ [0])) (header_of k true)) eqn:E1.
  - apply bytes_eqb_spec in E1. rewrite c_string_4 in E1 by (rewrite ?E1; auto using header_length).
    exists true, (skipn 4 file). now rewrite E1.
  - destruct (bytes_eqb (c_string (h ++ [0])) (header_of k false)) eqn:E2; [|discriminate].
    apply bytes_eqb_spec in E2. rewrite c_string_4 in E2 by (rewrite ?E2; auto using header_length).
    exists false, (skipn 4 file). now rewrite E2.
Qed.

Lemma message_back {M} (frame : M -> bytes) (ser : M -> bytes) (de : reader M) m m' :
  de (ser m) 0 = Some m' -> from_message D de (to_message D frame ser m) = Some (fst m').
Proof using DOK.
  intros RT. unfold from_message, to_message. cbn. destruct DOK as (_ & _ & _ & _ & _ & _ & Z). rewrite Z. cbn.
  rewrite RT. destruct m'. reflexivity.
Qed.
End FileProofs.

(** ** All types together *)

Section All.
Variable D : deps.

Lemma rt_all {A} (ok : A -> Prop) ser de a : round_trips ok ser de -> ok a -> de (ser a) 0 = Some (a, zlen (ser a)).
Proof using. intros RT O. exact (RT a (ser a) 0 O (holds_all _)). Qed.

Lemma same_answers lt s s0 mm :
  mm = (if x_locked s then x_minmax s else (s0, s0)) ->
  x_get_minmax lt (mkSdf (x_base s) (x_frame s) (x_locked s) mm) = x_get_minmax lt s.
Proof using. intros ->. unfold x_get_minmax, x_state, get_minmax. cbn. destruct (x_locked s); reflexivity. Qed.

Lemma truncated_all k : deps_ok D ->
  (forall m, is_fmap (word 4) m -> (k < length (om_serialize D m))%nat ->
     om_deserialize D (firstn k (om_serialize D m)) 0 = None) /\
  (forall m, is_cmmap m -> (k < length (cm_serialize D m))%nat ->
     cm_deserialize D (firstn k (cm_serialize D m)) 0 = None) /\
  (forall m, is_fmap is_tcell m -> (k < length (tg_serialize D m))%nat ->
     tg_deserialize D (firstn k (tg_serialize D m)) 0 = None) /\
  (forall m, is_tcmap m -> (k < length (tc_serialize D m))%nat ->
     tc_deserialize D (firstn k (tc_serialize D m)) 0 = None) /\
  (forall m, is_dmap m -> (k < length (dm_serialize D m))%nat ->
     dm_deserialize D (firstn k (dm_serialize D m)) 0 = None) /\
  (forall width lt s0 s, (0 < width)%nat -> is_sdf width s -> cache_current lt s ->
     (k < length (sdf_serialize D width s))%nat ->
     sdf_deserialize D width lt s0 (firstn k (sdf_serialize D width s)) 0 = None).
Proof using.
  intros DOK. split; [|split; [|split; [|split; [|split]]]].
  - intros m O K. exact (truncated _ _ _ m k (fmap_rt D DOK _ _ _ occ_rt) (fmap_local D DOK _ occ_local) O
      (fmap_bytes D DOK _ _ m occ_bytes O) K).
  - intros m O K. exact (truncated _ _ _ m k (cm_rt D DOK) (cm_local D DOK) O (cm_bytes D DOK m O) K).
  - intros m O K. exact (truncated _ _ _ m k (fmap_rt D DOK _ _ _ tcell_rt) (fmap_local D DOK _ tcell_local) O
      (fmap_bytes D DOK _ _ m tcell_bytes O) K).
  - intros m O K. exact (truncated _ _ _ m k (tc_rt D DOK) (tc_local D DOK) O (tc_bytes D DOK m O) K).
  - intros m O K. exact (truncated _ _ _ m k (dm_rt D DOK) (dm_local D DOK) O (dm_bytes D DOK m O) K).
  - intros width lt s0 s W O CC K.
    (* through the field as read back *)
    set (back := fun s => mkSdf (x_base s) (x_frame s) (x_locked s) (if x_locked s then x_minmax s else (s0, s0))).
    assert (E : sdf_serialize D width (back s) = sdf_serialize D width s) by reflexivity.
    rewrite <- E in K |- *.
    apply (truncated (fun t => t = back s) (sdf_serialize D width) (sdf_deserialize D width lt s0) (back s) k).
    + intros t buf off -> H. rewrite E in H. rewrite (sdf_rt D DOK width lt s0 s buf off O CC H). now rewrite E.
    + exact (sdf_local D DOK width lt s0 W).
    + reflexivity.
    + rewrite E. exact (sdf_bytes D DOK width s O).
    + exact K.
Qed.

Lemma save_load_all c : deps_ok D ->
  (forall m, is_fmap (word 4) m ->
     load D KOccupancy (om_deserialize D) (Some (save D KOccupancy (om_serialize D) m c)) = Some m) /\
  (forall m, is_cmmap m ->
     load D KComponent (cm_deserialize D) (Some (save D KComponent (cm_serialize D) m c)) = Some m) /\
  (forall m, is_fmap is_tcell m ->
     load D KTagged (tg_deserialize D) (Some (save D KTagged (tg_serialize D) m c)) = Some m) /\
  (forall m, is_tcmap m ->
     load D KTaggedComponent (tc_deserialize D) (Some (save D KTaggedComponent (tc_serialize D) m c)) = Some m) /\
  (forall m, is_dmap m ->
     load D KDynamic (dm_deserialize D) (Some (save D KDynamic (dm_serialize D) m c)) = Some m) /\
  (forall width lt s0 s, is_sdf width s -> cache_current lt s ->
     exists s', load D KSdf (sdf_deserialize D width lt s0) (Some (save D KSdf (sdf_serialize D width) s c)) = Some s' /\
       x_base s' = x_base s /\ x_frame s' = x_frame s /\ x_locked s' = x_locked s /\
       x_get_minmax lt s' = x_get_minmax lt s).
Proof using.
  intros DOK. split; [|split; [|split; [|split; [|split]]]].
  - intros m O. exact (save_load D DOK _ _ _ m (m, _) c (rt_all _ _ _ m (fmap_rt D DOK _ _ _ occ_rt) O)).
  - intros m O. exact (save_load D DOK _ _ _ m (m, _) c (rt_all _ _ _ m (cm_rt D DOK) O)).
  - intros m O. exact (save_load D DOK _ _ _ m (m, _) c (rt_all _ _ _ m (fmap_rt D DOK _ _ _ tcell_rt) O)).
  - intros m O. exact (save_load D DOK _ _ _ m (m, _) c (rt_all _ _ _ m (tc_rt D DOK) O)).
  - intros m O. exact (save_load D DOK _ _ _ m (m, _) c (rt_all _ _ _ m (dm_rt D DOK) O)).
  - intros width lt s0 s O CC. eexists. split.
    + exact (save_load D DOK _ _ _ s (_, _) c (sdf_rt D DOK width lt s0 s _ 0 O CC (holds_all _))).
    + cbn [fst x_base x_frame x_locked]. do 3 (split; [reflexivity|]). now apply (same_answers lt s s0).
Qed.

Lemma family_rejected {M N} k1 k2 (ser : M -> bytes) (de : reader N) m c :
  match k1 with KOccupancy | KComponent => 0 | KTagged | KTaggedComponent => 1 | KDynamic => 2 | KSdf => 3 end <>
  match k2 with KOccupancy | KComponent => 0 | KTagged | KTaggedComponent => 1 | KDynamic => 2 | KSdf => 3 end ->
  load D k2 de (Some (save D k1 ser m c)) = None.
Proof using.
  intros F. destruct (load D k2 de (Some (save D k1 ser m c))) as [n|] eqn:E; [|reflexivity]. exfalso.
  destruct (load_accepts D k2 de _ n E) as (c' & p & X). injection X as X.
  unfold save, save_file in X. destruct k1, k2, c, c'; cbn in X; congruence.
Qed.

Lemma messages_back : deps_ok D ->
  (forall m, is_fmap (word 4) m ->
     from_message D (om_deserialize D) (to_message D fm_frame (om_serialize D) m) = Some m /\
     msg_frame (to_message D fm_frame (om_serialize D) m) = fm_frame m) /\
  (forall m, is_cmmap m ->
     from_message D (cm_deserialize D) (to_message D s_frame (cm_serialize D) m) = Some m) /\
  (forall m, is_fmap is_tcell m ->
     from_message D (tg_deserialize D) (to_message D fm_frame (tg_serialize D) m) = Some m) /\
  (forall m, is_tcmap m ->
     from_message D (tc_deserialize D) (to_message D u_frame (tc_serialize D) m) = Some m) /\
  (forall m, is_dmap m ->
     from_message D (dm_deserialize D) (to_message D (w_frame D) (dm_serialize D) m) = Some m) /\
  (forall double width lt s0 s, is_sdf width s -> cache_current lt s ->
     exists s', sdf_from_message D double (sdf_deserialize D width lt s0)
         (sdf_to_message D double (sdf_serialize D width) s) = Some s' /\
       x_base s' = x_base s /\ x_frame s' = x_frame s /\ x_locked s' = x_locked s /\
       x_get_minmax lt s' = x_get_minmax lt s).
Proof using.
  intros DOK. split; [|split; [|split; [|split; [|split]]]].
  - intros m O. split; [|reflexivity].
    exact (message_back D DOK _ _ _ m (m, _) (rt_all _ _ _ m (fmap_rt D DOK _ _ _ occ_rt) O)).
  - intros m O. exact (message_back D DOK _ _ _ m (m, _) (rt_all _ _ _ m (cm_rt D DOK) O)).
  - intros m O. exact (message_back D DOK _ _ _ m (m, _) (rt_all _ _ _ m (fmap_rt D DOK _ _ _ tcell_rt) O)).
  - intros m O. exact (message_back D DOK _ _ _ m (m, _) (rt_all _ _ _ m (tc_rt D DOK) O)).
  - intros m O. exact (message_back D DOK _ _ _ m (m, _) (rt_all _ _ _ m (dm_rt D DOK) O)).
  - intros double width lt s0 s O CC. pose proof DOK as (_ & _ & _ & _ & _ & _ & Z). eexists. split.
    + unfold sdf_from_message, sdf_to_message. cbn [msg_compressed msg_scalar msg_data].
      rewrite Z.eqb_refl, Z. cbn [obind].
      rewrite (sdf_rt D DOK width lt s0 s _ 0 O CC (holds_all _)). cbn [obind]. reflexivity.
    + cbn [x_base x_frame x_locked]. do 3 (split; [reflexivity|]). now apply (same_answers lt s s0).
Qed.

Lemma uncompressed_back frame scalar : deps_ok D ->
  (forall m, is_fmap (word 4) m ->
     from_message D (om_deserialize D) (mkMessage frame (om_serialize D m) false scalar) = Some m) /\
  (forall m, is_cmmap m ->
     from_message D (cm_deserialize D) (mkMessage frame (cm_serialize D m) false scalar) = Some m) /\
  (forall m, is_fmap is_tcell m ->
     from_message D (tg_deserialize D) (mkMessage frame (tg_serialize D m) false scalar) = Some m) /\
  (forall m, is_tcmap m ->
     from_message D (tc_deserialize D) (mkMessage frame (tc_serialize D m) false scalar) = Some m) /\
  (forall m, is_dmap m ->
     from_message D (dm_deserialize D) (mkMessage frame (dm_serialize D m) false scalar) = Some m) /\
  (forall double width lt s0 s, is_sdf width s -> cache_current lt s ->
     exists s', sdf_from_message D double (sdf_deserialize D width lt s0)
         (mkMessage frame (sdf_serialize D width s) false scalar) = Some s' /\
       x_base s' = x_base s /\ x_frame s' = x_frame s /\ x_locked s' = x_locked s /\
       x_get_minmax lt s' = x_get_minmax lt s).
Proof using.
  assert (plain_message_back : forall M (ser : M -> bytes) (de : reader M) m m' k,
    de (ser m) 0 = Some (m', k) -> from_message D de (mkMessage frame (ser m) false scalar) = Some m').
  { intros M ser de m m' k RT. unfold from_message. cbn [msg_compressed msg_data]. now rewrite RT. }
  intros DOK. split; [|split; [|split; [|split; [|split]]]].
  - intros m O. exact (plain_message_back _ _ _ m m _ (rt_all _ _ _ m (fmap_rt D DOK _ _ _ occ_rt) O)).
  - intros m O. exact (plain_message_back _ _ _ m m _ (rt_all _ _ _ m (cm_rt D DOK) O)).
  - intros m O. exact (plain_message_back _ _ _ m m _ (rt_all _ _ _ m (fmap_rt D DOK _ _ _ tcell_rt) O)).
  - intros m O. exact (plain_message_back _ _ _ m m _ (rt_all _ _ _ m (tc_rt D DOK) O)).
  - intros m O. exact (plain_message_back _ _ _ m m _ (rt_all _ _ _ m (dm_rt D DOK) O)).
  - intros double width lt s0 s O CC. eexists. split.
    + unfold sdf_from_message. cbn [msg_compressed msg_data].
      rewrite (sdf_rt D DOK width lt s0 s _ 0 O CC (holds_all _)). cbn [obind]. reflexivity.
    + cbn [x_base x_frame x_locked]. do 3 (split; [reflexivity|]). now apply (same_answers lt s s0).
Qed.
End All.
