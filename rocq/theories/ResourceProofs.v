(** Proofs about the life cycle of device memory. *)
From Coq Require Import ZArith List Bool Lia Permutation.
From Verif Require Import Util ResourceModel ResourceSpec.
Import ListNotations.
Local Open Scope Z_scope.

Definition keys (l : list (Z * Z)) : list Z := map fst l.

Lemma has_any_in l p : has_any l p = true <-> In p (keys l).
Proof.
  unfold has_any, keys. rewrite existsb_exists, in_map_iff. split.
  - intros (a & Ha & E). apply Z.eqb_eq in E. now exists a.
  - intros (a & E & Ha). exists a. split; [easy|]. now apply Z.eqb_eq.
Qed.

Lemma has_any_out l p : has_any l p = false <-> ~ In p (keys l).
Proof. rewrite <- has_any_in. now destruct (has_any l p). Qed.

Lemma has_in l p d : has l p d = true <-> In (p, d) l.
Proof.
  unfold has. rewrite existsb_exists. split.
  - intros ([q e] & Ha & E). cbn [fst snd] in E. apply andb_prop in E. destruct E as [E1 E2].
    apply Z.eqb_eq in E1. apply Z.eqb_eq in E2. now subst.
  - intros H. exists (p, d). split; [easy|]. cbn [fst snd]. now rewrite !Z.eqb_refl.
Qed.

Lemma keys_app a b : keys (a ++ b) = keys a ++ keys b.
Proof. apply map_app. Qed.

Lemma drop_out l p : ~ In p (keys l) -> drop l p = l.
Proof.
  induction l as [|[q e] l IH]; intros H; [reflexivity|]. cbn [drop filter fst] in *.
  destruct (Z.eqb_spec q p) as [->|N]; [exfalso; apply H; now left|].
  cbn [negb]. f_equal. apply IH. intros I. apply H. now right.
Qed.

Lemma drop_app a b p : drop (a ++ b) p = drop a p ++ drop b p.
Proof. apply filter_app. Qed.

Lemma drop_head p d l : ~ In p (keys l) -> drop ((p, d) :: l) p = l.
Proof. intros H. cbn [drop filter fst]. rewrite Z.eqb_refl. cbn [negb]. now apply drop_out. Qed.

Lemma drop_perm l l' p : Permutation l l' -> Permutation (drop l p) (drop l' p).
Proof.
  induction 1; cbn [drop filter]; [constructor| | |].
  - destruct (negb _); [now constructor|assumption].
  - destruct (negb (fst y =? p)), (negb (fst x =? p)); try apply Permutation_refl. constructor.
  - etransitivity; eassumption.
Qed.

Lemma nodup_filter l p : NoDup (keys l) -> NoDup (keys (drop l p)).
Proof.
  induction l as [|[q e] l IH]; intros H; [constructor|]. inversion H as [|? ? N D]; subst.
  cbn [drop filter fst]. destruct (negb (q =? p)); [|now apply IH].
  constructor; [|now apply IH]. intros I. apply N.
  unfold keys in *. apply in_map_iff in I. destruct I as (a & E & Ha). apply filter_In in Ha.
  apply in_map_iff. now exists a.
Qed.

Lemma perm_keys l l' : Permutation l l' -> Permutation (keys l) (keys l').
Proof. apply Permutation_map. Qed.

Lemma nodup_app_out a b p : NoDup (keys (a ++ b)) -> In p (keys a) -> ~ In p (keys b).
Proof.
  rewrite keys_app. induction (keys a) as [|x l IH]; [easy|]. cbn [app]. intros H [->|I].
  - inversion H as [|? ? N _]; subst. intros J. apply N. apply in_or_app. now right.
  - inversion H; subst. now apply IH.
Qed.

(** Memory in use. *)
Definition inv (s : host) (l : list (Z * Z)) : Prop :=
  NoDup (keys (h_live s)) /\ Permutation (h_live s) l.

Lemma inv_perm s l l' : inv s l -> Permutation l l' -> inv s l'.
Proof. intros [H P] Q. split; [easy|]. now transitivity l. Qed.

Lemma inv_nodup s l : inv s l -> NoDup (keys l).
Proof. intros [H P]. eapply Permutation_NoDup; [apply perm_keys; exact P|exact H]. Qed.

Lemma check_good ok s : ok = true -> check_use ok s = s.
Proof. intros ->. destruct s. unfold check_use. cbn. now rewrite orb_false_r. Qed.

Section Wp.
Variable fails : call -> bool.

(** Weakest precondition: [d] is the device of the thread, [O] what it owns, [o] the state of
    the output, [S] memory that exists throughout.  A [quiet] program leaves the output alone. *)
Fixpoint wp {A} (S : list (Z * Z)) (quiet : bool) (p : cprog A) (d : Z) (O : list (Z * Z)) (o : written)
    (Q : ending A -> Z -> list (Z * Z) -> written -> Prop) : Prop :=
  match p with
  | CEnd e => Q e d O o
  | CCall c k =>
    let err := fails c = true -> wp S quiet (k RErr) d O o Q in
    match c with
    | CSetDevice d' => wp S quiet (k ROk) d' O o Q /\ err
    | CProperties _ => wp S quiet (k ROk) d O o Q /\ err
    | CMalloc => (forall a, ~ In a (keys O) -> wp S quiet (k (RPtr a)) d ((a, d) :: O) o Q) /\ err
    | CMemset a | CCopyIn a => In a (keys (O ++ S)) /\ wp S quiet (k ROk) d O o Q /\ err
    | CLaunch l => (forall a, In a l -> In (a, d) (O ++ S)) /\ wp S quiet (k ROk) d O o Q /\ err
    | CCopyOut a => quiet = false /\ In a (keys (O ++ S)) /\ wp S quiet (k ROk) d O Written Q /\
        (fails c = true -> wp S quiet (k RErr) d O Unspecified Q)
    | CFree a => In a (keys O) /\ wp S quiet (k ROk) d (drop O a) o Q /\ err
    | LCreate d' => (forall a, ~ In a (keys O) -> wp S quiet (k (RPtr a)) d ((a, d') :: O) o Q) /\ err
    | LEnqueue d' l => (forall a, In a l -> In (a, d') (O ++ S)) /\ wp S quiet (k ROk) d O o Q /\ err
    | LRead d' a => quiet = false /\ In (a, d') (O ++ S) /\ wp S quiet (k ROk) d O Written Q /\
        (fails c = true -> wp S quiet (k RErr) d O Unspecified Q)
    | LRelease a => In a (keys O) /\ wp S quiet (k ROk) d (drop O a) o Q
    end
  end.

Lemma wp_mono {A} S quiet (p : cprog A) : forall d O o (Q R : ending A -> Z -> list (Z * Z) -> written -> Prop),
  (forall e d O o, Q e d O o -> R e d O o) -> wp S quiet p d O o Q -> wp S quiet p d O o R.
Proof.
  induction p as [e|c k IH]; intros d O o Q R H; cbn [wp]; [apply H|].
  destruct c; cbn zeta; intros W; repeat match goal with
    | H : _ /\ _ |- _ => destruct H
    | |- _ /\ _ => split
    | |- forall _, _ => intro
    end; eauto.
Qed.

Lemma wp_then {A B} S quiet (p : cprog A) (f : ending A -> cprog B) (Q : ending B -> Z -> list (Z * Z) -> written -> Prop) :
  forall d O o, wp S quiet p d O o (fun e d O o => wp S quiet (f e) d O o Q) -> wp S quiet (cthen p f) d O o Q.
Proof.
  induction p as [e|c k IH]; intros d O o; cbn [wp cthen]; [easy|].
  destruct c; cbn zeta; intros W; repeat match goal with
    | H : _ /\ _ |- _ => destruct H
    | |- _ /\ _ => split
    | |- forall _, _ => intro
    end; eauto.
Qed.

(** One call. *)
Lemma wp_api {A} S quiet c (k : reply -> cprog A) t s O F r s1 (Q : ending A -> Z -> list (Z * Z) -> written -> Prop) :
  wp S quiet (CCall c k) (h_current s t) O (h_out s) Q -> inv s (O ++ F) -> incl S F ->
  api fails t s c r s1 ->
  exists O1, inv s1 (O1 ++ F) /\ wp S quiet (k r) (h_current s1 t) O1 (h_out s1) Q /\
    h_bad s1 = h_bad s /\ (forall u, u <> t -> h_current s1 u = h_current s u) /\
    (quiet = true -> h_out s1 = h_out s).
Proof.
  intros W I SF H. destruct I as [N P].
  assert (KO : forall a, In a (keys (O ++ S)) -> has_any (h_live s) a = true).
  { intros a Ha. apply has_any_in. eapply Permutation_in; [symmetry; apply perm_keys; exact P|].
    rewrite keys_app in *. apply in_or_app. apply in_app_or in Ha. destruct Ha as [Ha|Ha]; [now left|right].
    unfold keys in *. apply in_map_iff in Ha. destruct Ha as (b & E & Hb). apply in_map_iff. exists b. auto. }
  assert (DO : forall a e, In (a, e) (O ++ S) -> has (h_live s) a e = true).
  { intros a e Ha. apply has_in. eapply Permutation_in; [symmetry; exact P|].
    apply in_or_app. apply in_app_or in Ha. destruct Ha as [Ha|Ha]; [now left|right; auto]. }
  assert (NO : forall a, has_any (h_live s) a = false -> ~ In a (keys O)).
  { intros a Ha J. apply has_any_out in Ha. apply Ha.
    eapply Permutation_in; [symmetry; apply perm_keys; exact P|]. rewrite keys_app. apply in_or_app. now left. }
  assert (FREE : forall a, In a (keys O) -> inv (with_live (drop (h_live s) a) s) (drop O a ++ F)).
  { intros a Ha. split; cbn [h_live with_live]; [now apply nodup_filter|].
    transitivity (drop (O ++ F) a); [now apply drop_perm|]. rewrite drop_app.
    rewrite (drop_out F); [apply Permutation_refl|]. eapply nodup_app_out; [|exact Ha].
    eapply Permutation_NoDup; [apply perm_keys; exact P|exact N]. }
  assert (NEW : forall a e, has_any (h_live s) a = false -> inv (with_live ((a, e) :: h_live s) s) (((a, e) :: O) ++ F)).
  { intros a e Ha. split; cbn [h_live with_live keys map fst].
    - constructor; [now apply has_any_out|exact N].
    - cbn [app]. now constructor. }
  assert (LL : forall l e, (forall a, In a l -> In (a, e) (O ++ S)) -> forallb (fun a => has (h_live s) a e) l = true).
  { intros l e Hl. apply forallb_forall. intros a Ha. apply DO. auto. }
  assert (ANY : forall a e, In (a, e) (O ++ S) -> In a (keys (O ++ S))).
  { intros a e Ha. unfold keys. apply in_map_iff. now exists (a, e). }
  destruct H as [d|d|p HP|p|p|ps|p|p|d p HP|d ps|d p|p|c HF N1 N2 N3|p HF|d p HF]; cbn [wp] in W; cbn zeta in W.
  - destruct W as [W _]. exists O. cbn [h_current h_live h_out h_bad]. rewrite Z.eqb_refl.
    split; [now split|]. split; [exact W|]. split; [easy|]. split; [|easy].
    intros u Hu. destruct (Z.eqb_spec u t); [contradiction|easy].
  - destruct W as [W _]. exists O. repeat split; auto.
  - destruct W as [W _]. exists ((p, h_current s t) :: O). split; [now apply NEW|]. repeat split; auto.
  - destruct W as [Ha [W _]]. rewrite check_good by auto. exists O. repeat split; auto.
  - destruct W as [Ha [W _]]. rewrite check_good by auto. exists O. repeat split; auto.
  - destruct W as [Ha [W _]]. rewrite check_good by auto. exists O. repeat split; auto.
  - destruct W as [Hq [Ha [W _]]]. rewrite check_good by auto. exists O. subst quiet. repeat split; auto. discriminate.
  - destruct W as [Ha [W _]]. rewrite check_good by (apply KO; rewrite keys_app; apply in_or_app; now left).
    exists (drop O p). split; [now apply FREE|]. repeat split; auto.
  - destruct W as [W _]. exists ((p, d) :: O). split; [now apply NEW|]. repeat split; auto.
  - destruct W as [Ha [W _]]. rewrite check_good by auto. exists O. repeat split; auto.
  - destruct W as [Hq [Ha [W _]]]. rewrite check_good by auto. exists O. subst quiet. repeat split; auto. discriminate.
  - destruct W as [Ha W]. rewrite check_good by (apply KO; rewrite keys_app; apply in_or_app; now left).
    exists (drop O p). split; [now apply FREE|]. repeat split; auto.
  - exists O. destruct c;
      try (exfalso; eapply N1; reflexivity); try (exfalso; eapply N2; reflexivity); try (exfalso; eapply N3; reflexivity);
      cbn zeta in W; repeat match goal with H : _ /\ _ |- _ => destruct H end; repeat split; auto.
  - destruct W as [Hq [Ha [_ W]]]. exists O. subst quiet. repeat split; auto. discriminate.
  - destruct W as [Hq [Ha [_ W]]]. exists O. subst quiet. repeat split; auto. discriminate.
Qed.

Lemma wp_exec {A} S quiet (p : cprog A) t F (Q : ending A -> Z -> list (Z * Z) -> written -> Prop) :
  forall s O e s', wp S quiet p (h_current s t) O (h_out s) Q -> inv s (O ++ F) -> incl S F ->
  exec fails t p s e s' ->
  exists O', inv s' (O' ++ F) /\ Q e (h_current s' t) O' (h_out s') /\ h_bad s' = h_bad s /\
    (forall u, u <> t -> h_current s' u = h_current s u).
Proof.
  intros s O e s' W I SF H. revert O W I. induction H as [e s|c k s r s1 e s2 HA HE IH]; intros O W I.
  - exists O. auto.
  - destruct (wp_api _ _ _ _ _ _ _ _ _ _ _ W I SF HA) as (O1 & I1 & W1 & B1 & C1 & _).
    destruct (IH O1 W1 I1) as (O' & I' & W' & B' & C'). exists O'. split; [exact I'|]. split; [exact W'|].
    split; [congruence|]. intros u Hu. now rewrite C', C1.
Qed.

(** Threads. *)
Definition winv (S F : list (Z * Z)) (o : written) (Q : Z -> ending unit -> Z -> list (Z * Z) -> Prop)
    (ws : workers) (s : host) (Os : list (list (Z * Z))) : Prop :=
  Forall2 (fun w O => wp S true (snd w) (h_current s (fst w)) O o (fun e d O _ => Q (fst w) e d O)) ws Os /\
  inv s (concat Os ++ F) /\ NoDup (map fst ws) /\ h_out s = o.

Lemma winv_step S F o Q ws s ws' s' Os : incl S F ->
  winv S F o Q ws s Os -> wstep fails (ws, s) (ws', s') ->
  exists Os', winv S F o Q ws' s' Os' /\ h_bad s' = h_bad s /\
    (forall u, ~ In u (map fst ws) -> h_current s' u = h_current s u) /\ map fst ws' = map fst ws.
Proof.
  intros SF (W & I & N & O) H. inversion H as [w1 t c k w2 s0 r s1 HA]; subst; clear H.
  apply Forall2_app_inv_l in W. destruct W as (Os1 & Os2' & W1 & W2' & ->).
  inversion W2' as [|x O0 l Os2 W0 W2]; subst; clear W2'. cbn [fst snd] in W0.
  assert (IP : Permutation (concat (Os1 ++ O0 :: Os2) ++ F) (O0 ++ (concat Os1 ++ concat Os2 ++ F))).
  { rewrite concat_app. cbn [concat]. rewrite <- !app_assoc. rewrite Permutation_app_swap_app. reflexivity. }
  destruct (wp_api S true c k t s O0 (concat Os1 ++ concat Os2 ++ F) r s' _ W0) as (O1 & I1 & P1 & B1 & C1 & Q1);
    [now apply (inv_perm _ _ _ I)| |exact HA|].
  { intros a Ha. apply in_or_app. right. apply in_or_app. right. auto. }
  rewrite map_app in N. cbn [map fst] in N.
  assert (T1 : ~ In t (map fst w1)). { apply NoDup_remove_2 in N. intros J. apply N. apply in_or_app. now left. }
  assert (T2 : ~ In t (map fst w2)). { apply NoDup_remove_2 in N. intros J. apply N. apply in_or_app. now right. }
  specialize (Q1 eq_refl).
  assert (EX : forall w L, ~ In t (map fst w) ->
    Forall2 (fun w O => wp S true (snd w) (h_current s (fst w)) O (h_out s) (fun e d O _ => Q (fst w) e d O)) w L ->
    Forall2 (fun w O => wp S true (snd w) (h_current s' (fst w)) O (h_out s) (fun e d O _ => Q (fst w) e d O)) w L).
  { intros w L T HL. induction HL as [|x y w L Hxy HL IH]; constructor.
    - rewrite C1; [exact Hxy|]. intros E. apply T. left. exact E.
    - apply IH. intros J. apply T. now right. }
  exists (Os1 ++ O1 :: Os2). split; [|split; [exact B1|split]].
  - split; [|split; [|split]].
    + apply Forall2_app; [now apply EX|]. constructor; [|now apply EX]. cbn [fst snd]. rewrite <- Q1. exact P1.
    + eapply inv_perm; [exact I1|]. symmetry. rewrite concat_app. cbn [concat]. rewrite <- !app_assoc.
      rewrite Permutation_app_swap_app. reflexivity.
    + rewrite map_app. exact N.
    + exact Q1.
  - intros u Hu. apply C1. intros ->. apply Hu. rewrite map_app. apply in_or_app. right. now left.
  - rewrite !map_app. reflexivity.
Qed.

Lemma winv_steps S F o Q ws s ws' s' Os : incl S F ->
  winv S F o Q ws s Os -> wsteps fails (ws, s) (ws', s') ->
  exists Os', winv S F o Q ws' s' Os' /\ h_bad s' = h_bad s /\
    (forall u, ~ In u (map fst ws) -> h_current s' u = h_current s u) /\ map fst ws' = map fst ws.
Proof.
  intros SF W H. remember (ws, s) as a eqn:Ea. remember (ws', s') as b eqn:Eb.
  revert ws s Os Ea W. induction H as [x|a [ws1 s1] b H1 H2 IH]; intros ws s Os Ea W.
  - rewrite Ea in Eb. injection Eb as <- <-. exists Os. auto.
  - subst a. destruct (winv_step _ _ _ _ _ _ _ _ _ SF W H1) as (Os1 & W1 & B1 & C1 & M1).
    destruct (IH Eb _ _ _ eq_refl W1) as (Os' & W' & B' & C' & M'). exists Os'. split; [exact W'|].
    split; [congruence|]. split; [|congruence]. intros u Hu. rewrite C'; [now apply C1|now rewrite M1].
Qed.

(** *** Programs *)

(** [frees]: nothing was left over because cudaFree failed. *)
Variable frees : Prop.
Definition cuda_frees : Prop := frees -> forall a, fails (CFree a) = false.
Definition something_fails : Prop := exists c, fails c = true.

(** Nothing was freed, and nothing is left over. *)
Definition keeps (O O' : list (Z * Z)) : Prop :=
  exists L, O' = L ++ O /\ NoDup (keys O') /\ (frees -> L = []).

Definition post {A} (R : ending A -> Z -> written -> Prop) (O : list (Z * Z))
    (e : ending A) (d : Z) (O' : list (Z * Z)) (o : written) : Prop :=
  R e d o /\ (e = Terminated \/ keeps O O').

Lemma keeps_refl O : NoDup (keys O) -> keeps O O.
Proof. intros N. exists []. auto. Qed.

Lemma keeps_trans a b c : keeps a b -> keeps b c -> keeps a c.
Proof.
  intros (L & -> & _ & F) (M & -> & N & G). exists (M ++ L). split; [apply app_assoc|].
  split; [exact N|]. intros H. now rewrite (F H), (G H).
Qed.

Lemma nodup_cons_inv p d O : NoDup (keys ((p, d) :: O)) -> ~ In p (keys O) /\ NoDup (keys O).
Proof. intros H. now inversion H. Qed.

Lemma nodup_mid L p d O : NoDup (keys (L ++ (p, d) :: O)) ->
  NoDup (keys (L ++ O)) /\ drop (L ++ (p, d) :: O) p = L ++ O /\ In p (keys (L ++ (p, d) :: O)).
Proof.
  intros N. rewrite keys_app in N. cbn [keys map fst] in N. rewrite !keys_app. cbn [keys map fst].
  pose proof (NoDup_remove_2 _ _ _ N) as N2. apply NoDup_remove_1 in N.
  split; [exact N|]. split.
  - rewrite drop_app, drop_out, drop_head; [reflexivity| |]; intros I; apply N2; apply in_or_app; auto.
  - apply in_or_app. right. now left.
Qed.

Lemma wp_check S q c d O o Q :
  wp S q (check c) d O o Q =
  wp S q (CCall c (fun r => match r with RErr => CEnd Thrown | _ => CEnd (Returned tt) end)) d O o Q.
Proof. reflexivity. Qed.

Lemma wp_new_buffer S q fill n d O o (Q : ending Z -> Z -> list (Z * Z) -> written -> Prop) :
  cuda_frees -> fill = CMemset \/ fill = CCopyIn -> NoDup (keys O) -> n <> 0 ->
  (forall a, NoDup (keys ((a, d) :: O)) -> Q (Returned a) d ((a, d) :: O) o) ->
  (forall O', keeps O O' -> something_fails -> Q Thrown d O' o) ->
  wp S q (new_buffer fill n) d O o Q.
Proof.
  intros CF F N N0 H1 H2. unfold new_buffer. destruct (Z.eqb_spec n 0); [contradiction|].
  unfold cbind. apply wp_then. unfold allocate. cbn [wp]. cbn zeta. split.
  - intros a Ha.
    assert (D : NoDup (keys ((a, d) :: O))) by (cbn [keys map fst]; now constructor).
    assert (E : fails (fill a) = true ->
      wp S q (cthen (free_buffer a) (fun e => match e with Terminated => CEnd Terminated | _ => CEnd (@Thrown Z) end))
        d ((a, d) :: O) o Q).
    { intros HF. apply wp_then. unfold free_buffer. rewrite wp_check. cbn [wp]. cbn zeta.
      split; [now left|]. split.
      - rewrite drop_head by easy. apply H2; [now apply keeps_refl|]. now exists (fill a).
      - intros HF'. apply H2; [|now exists (fill a)]. exists [(a, d)]. split; [easy|]. split; [exact D|].
        intros FF. rewrite (CF FF) in HF'. discriminate. }
    destruct F as [-> | ->]; cbn [wp]; cbn zeta; (split; [now left|]; split; [now apply H1|]);
      intros HF; specialize (E HF); unfold cbind, free_buffer, check in *; cbn [cthen] in *; cbn [wp] in *; cbn zeta in *;
      (split; [now left|]; destruct E as (_ & E1 & E2); split; [exact E1|exact E2]).
  - intros HF. apply H2; [now apply keeps_refl|]. now exists CMalloc.
Qed.

Lemma wp_scope {A} S q (body : cprog A) a da d O o (R : ending A -> Z -> written -> Prop) :
  (forall e d' o', R e d' o' -> fails (CFree a) = true -> R Terminated d' o') ->
  wp S q body d ((a, da) :: O) o (post R ((a, da) :: O)) ->
  wp S q (cscope body (free_buffer a)) d ((a, da) :: O) o (post R O).
Proof.
  intros HT W. unfold cscope. apply wp_then. revert W. apply wp_mono. intros e d' O' o' (HR & HK).
  assert (K : e <> Terminated -> wp S q (cthen (free_buffer a)
     (fun e' => match e' with Returned _ => CEnd e | _ => CEnd Terminated end)) d' O' o' (post R O)).
  { intros NE. destruct HK as [->|(L & -> & N & FF)]; [contradiction|]. apply wp_then.
    unfold free_buffer. rewrite wp_check. cbn [wp]. cbn zeta.
    destruct (nodup_mid L a da O N) as (N1 & D1 & I1). split; [exact I1|]. split.
    - rewrite D1. split; [exact HR|right]. now exists L.
    - intros HF. split; [now apply (HT e)|now left]. }
  destruct e; [apply K; discriminate|apply K; discriminate|]. cbn [wp]. split; [exact HR|now left].
Qed.

Lemma wp_with_buffer {A} S q n (body : Z -> cprog A) d O o (R : ending A -> Z -> written -> Prop) :
  cuda_frees -> NoDup (keys O) -> n <> 0 -> (something_fails -> R Thrown d o) ->
  (forall a e d' o', R e d' o' -> fails (CFree a) = true -> R Terminated d' o') ->
  (forall a, NoDup (keys ((a, d) :: O)) -> wp S q (body a) d ((a, d) :: O) o (post R ((a, d) :: O))) ->
  wp S q (with_buffer (new_buffer CCopyIn n) body) d O o (post R O).
Proof.
  intros CF N N0 H1 H2 H3. unfold with_buffer, cbind. apply wp_then. apply wp_new_buffer; auto.
  - intros a Ha. apply wp_scope; [apply H2|]. now apply H3.
  - intros O' K F. cbn [wp]. split; auto.
Qed.

(** What is known about how a piece of the loop ends, for a thread that was on device [d0]. *)
Definition ends {A} (v d0 : Z) (o0 : written) (thrown : Prop) (e : ending A) (d : Z) (o : written) : Prop :=
  (d = v \/ d = d0) /\ o = o0 /\ (e = Thrown -> thrown) /\ (e = Terminated -> ~ frees).

Lemma free_fails a : cuda_frees -> fails (CFree a) = true -> ~ frees.
Proof. intros CF H F. rewrite (CF F) in H. discriminate. Qed.

Lemma wp_cuda_raycast S q v tr n d O o :
  cuda_frees -> NoDup (keys O) -> 0 < n -> In (tr, v) S ->
  wp S q (cuda_raycast v tr n) d O o (post (ends v d o something_fails) O).
Proof.
  intros CF N Hn T. unfold cuda_raycast. unfold cbind at 1. apply wp_then. rewrite wp_check. cbn [wp]. cbn zeta.
  assert (E : forall e : ending unit, (e = Thrown -> something_fails) -> (e = Terminated -> ~ frees) -> ends v d o something_fails e v o).
  { intros e H1 H2. split; [now left|auto]. }
  assert (T' : forall a (e : ending unit) d' o', ends v d o something_fails e d' o' -> fails (CFree a) = true ->
    ends v d o something_fails (@Terminated unit) d' o').
  { intros a e d' o' (H1 & H2 & _) HF. split; [exact H1|]. split; [exact H2|]. split; [discriminate|].
    intros _. now apply (free_fails a). }
  split.
  - apply wp_with_buffer; [exact CF|exact N|lia|intros H; apply E; [easy|discriminate]|exact T'|].
    intros a Na. apply wp_with_buffer; [exact CF|exact Na|lia|intros H; apply E; [easy|discriminate]|exact T'|].
    intros b Nb. rewrite wp_check. cbn [wp]. cbn zeta. split.
    + intros x [<-|[<-|[<-|[]]]]; apply in_or_app; [left; right; now left|left; now left|now right].
    + split; [split; [apply E; discriminate|right; now apply keeps_refl]|].
      intros HF. split; [apply E; [now eexists; eauto|discriminate]|right; now apply keeps_refl].
  - intros HF. split; [split; [now right|split; [easy|split; [now eexists; eauto|discriminate]]]|right; now apply keeps_refl].
Qed.

(** *** OpenCL *)

Lemma wp_cl_buffer S q v d O o (Q : ending Z -> Z -> list (Z * Z) -> written -> Prop) :
  NoDup (keys O) ->
  (forall a, NoDup (keys ((a, v) :: O)) -> Q (Returned a) d ((a, v) :: O) o) ->
  (something_fails -> Q Thrown d O o) ->
  wp S q (cl_buffer v) d O o Q.
Proof.
  intros N H1 H2. unfold cl_buffer. cbn [wp]. cbn zeta. split.
  - intros a Ha. apply H1. cbn [keys map fst]. now constructor.
  - intros HF. apply H2. now eexists; eauto.
Qed.

Lemma wp_cl_scope {A} S q (body : cprog A) a da d O o (R : ending A -> Z -> written -> Prop) :
  wp S q body d ((a, da) :: O) o (post R ((a, da) :: O)) ->
  wp S q (cscope body (cl_release a)) d ((a, da) :: O) o (post R O).
Proof.
  intros W. unfold cscope. apply wp_then. revert W. apply wp_mono. intros e d' O' o' (HR & HK).
  assert (K : e <> Terminated -> wp S q (cthen (cl_release a)
     (fun e' => match e' with Returned _ => CEnd e | _ => CEnd Terminated end)) d' O' o' (post R O)).
  { intros NE. destruct HK as [->|(L & -> & N & FF)]; [contradiction|]. apply wp_then.
    unfold cl_release. cbn [wp]. cbn zeta.
    destruct (nodup_mid L a da O N) as (N1 & D1 & I1). split; [exact I1|].
    rewrite D1. split; [exact HR|right]. now exists L. }
  destruct e; [apply K; discriminate|apply K; discriminate|]. cbn [wp]. split; [exact HR|now left].
Qed.

Lemma wp_with_cl_buffer {A} S q v (body : Z -> cprog A) d O o (R : ending A -> Z -> written -> Prop) :
  NoDup (keys O) -> (something_fails -> R Thrown d o) ->
  (forall a, NoDup (keys ((a, v) :: O)) -> wp S q (body a) d ((a, v) :: O) o (post R ((a, v) :: O))) ->
  wp S q (with_cl_buffer (cl_buffer v) body) d O o (post R O).
Proof.
  intros N H1 H3. unfold with_cl_buffer, cbind. apply wp_then. apply wp_cl_buffer; [exact N| |].
  - intros a Ha. apply wp_cl_scope. now apply H3.
  - intros F. cbn [wp]. split; [auto|right; now apply keeps_refl].
Qed.

Lemma wp_opencl_raycast S q v w tr n d O o :
  NoDup (keys O) -> In (tr, v) S ->
  wp S q (opencl_raycast v tr n) d O o (post (ends w d o something_fails) O).
Proof.
  intros N T. unfold opencl_raycast.
  assert (E : forall e : ending unit, (e = Thrown -> something_fails) -> (e = Terminated -> ~ frees) -> ends w d o something_fails e d o).
  { intros e H1 H2. split; [now right|auto]. }
  apply wp_with_cl_buffer; [exact N|intros H; apply E; [easy|discriminate]|].
  intros a Na. apply wp_with_cl_buffer; [exact Na|intros H; apply E; [easy|discriminate]|].
  intros b Nb. rewrite wp_check. cbn [wp]. cbn zeta. split.
  - intros x [<-|[<-|[<-|[]]]]; apply in_or_app; [left; right; now left|left; now left|now right].
  - split; [split; [apply E; discriminate|right; now apply keeps_refl]|].
    intros HF. split; [apply E; [now eexists; eauto|discriminate]|right; now apply keeps_refl].
Qed.

(** *** Helpers *)

(** A helper for device [v]; threads it runs on may be switched to device [w]. *)
Definition is_helper (v w : Z) (h : helper) : Prop :=
  (h = cuda_helper_of v /\ w = v /\ cuda_frees) \/ h = opencl_helper_of v.

Definition cloud_throws (clouds : list dcloud) : Prop := Exists (fun c => 0 < dc_size c /\ dc_throws c = true) clouds.

Lemma ends_weaken {A} v d o (T T' : Prop) (e : ending A) d' o' : (T -> T') -> ends v d o T e d' o' -> ends v d o T' e d' o'.
Proof. intros H (H1 & H2 & H3 & H4). split; [easy|]. split; [easy|]. split; [auto|easy]. Qed.

Lemma post_weaken {A} (R R' : ending A -> Z -> written -> Prop) O e d O' o :
  (forall e d o, R e d o -> R' e d o) -> post R O e d O' o -> post R' O e d O' o.
Proof. intros H [H1 H2]. split; auto. Qed.

Lemma wp_item S q v w h tr c d O o : is_helper v w h -> NoDup (keys O) -> In (tr, v) S ->
  wp S q (item_work h tr c) d O o (post (ends w d o (something_fails \/ (0 < dc_size c /\ dc_throws c = true))) O).
Proof.
  intros H N T. unfold item_work. destruct (Z.ltb_spec 0 (dc_size c)) as [L|L].
  - destruct (dc_throws c).
    + cbn [wp]. split; [|right; now apply keeps_refl]. split; [now right|]. split; [easy|].
      split; [intros _; right; auto|discriminate].
    + eapply wp_mono; [intros e d' O' o'; apply post_weaken; intros ? ? ?; apply (ends_weaken w d o something_fails); now left|].
      destruct H as [(-> & -> & CF) | ->]; cbn [hl_raycast cuda_helper_of opencl_helper_of].
      * now apply wp_cuda_raycast.
      * now apply wp_opencl_raycast.
  - cbn [wp]. split; [|right; now apply keeps_refl]. split; [now right|]. split; [easy|]. split; discriminate.
Qed.

Lemma wp_items S q v w h tr cs : is_helper v w h -> In (tr, v) S -> forall d O o, NoDup (keys O) ->
  wp S q (items_work h tr cs) d O o (post (ends w d o (something_fails \/ cloud_throws cs)) O).
Proof.
  intros H T. induction cs as [|c cs IH]; intros d O o N; cbn [items_work].
  - cbn [wp]. split; [|right; now apply keeps_refl]. split; [now right|]. split; [easy|]. split; discriminate.
  - unfold cbind. apply wp_then.
    eapply wp_mono; [|exact (wp_item S q v w h tr c d O o H N T)].
    intros e d' O' o' [(E1 & -> & E3 & E4) K]. destruct e as [u| |].
    + destruct K as [K|K]; [discriminate|]. destruct K as (L & -> & N' & FF).
      eapply wp_mono; [|apply (IH d' (L ++ O) o N')].
      intros e2 d2 O2 o2 [(F1 & -> & F3 & F4) K2]. split.
      * split; [destruct F1 as [F1|F1]; [now left|rewrite F1; exact E1]|]. split; [easy|]. split; [|exact F4].
        intros J. destruct (F3 J) as [J'|J']; [now left|]. right. now apply Exists_cons_tl.
      * destruct K2 as [K2|K2]; [now left|]. right. eapply keeps_trans; [|exact K2]. now exists L.
    + cbn [wp]. split; [|exact K]. split; [exact E1|]. split; [easy|]. split; [|exact E4].
      intros J. destruct (E3 J) as [J'|J']; [now left|]. right. now apply Exists_cons_hd.
    + cbn [wp]. split; [|now left]. split; [exact E1|]. split; [easy|]. split; [discriminate|exact E4].
Qed.

(** The last part: filter, copy to the output. *)
Definition finish (thrown : Prop) (o0 : written) (e : ending unit) (o : written) : Prop :=
  (e = Returned tt -> o = Written) /\ (e = Thrown -> thrown /\ o <> Written) /\ (e = Terminated -> ~ frees).

Lemma wp_filter S v w h cells tr : is_helper v w h -> cells <> 0 -> forall d O, NoDup (keys O) ->
  In (tr, v) (O ++ S) -> (h = cuda_helper_of v -> d = v) ->
  wp S false (hl_filter h cells tr) d O Untouched (post (fun e d' o => d' = d /\ finish something_fails Untouched e o) O).
Proof.
  intros H C d O N T D.
  assert (G : forall o, finish something_fails Untouched (Returned tt) o <-> o = Written).
  { intros o. split; [intros (A & _); now apply A|]. intros ->. split; [easy|]. split; discriminate. }
  assert (G2 : forall o, something_fails -> o <> Written -> finish something_fails Untouched Thrown o).
  { intros o A B. split; [discriminate|]. split; [easy|discriminate]. }
  destruct H as [(-> & _ & CF) | ->]; cbn [hl_filter cuda_helper_of opencl_helper_of].
  - specialize (D eq_refl). subst d. unfold cuda_filter_grid. apply wp_with_buffer; [exact CF|exact N|exact C| | |].
    + intros HF. split; [easy|]. apply G2; [exact HF|discriminate].
    + intros a e d' o' (A & _) HF. split; [exact A|]. split; [discriminate|]. split; [discriminate|].
      intros _. now apply (free_fails a).
    + intros a Na. unfold cbind. apply wp_then. rewrite wp_check. cbn [wp]. cbn zeta. split; [|split].
      * intros x [<-|[<-|[]]]; [right; exact T|left; reflexivity].
      * split; [easy|]. split; [left; reflexivity|]. split.
        -- split; [split; [easy|now apply G]|right; now apply keeps_refl].
        -- intros HF. split; [split; [easy|apply G2; [now eexists; eauto|discriminate]]|right; now apply keeps_refl].
      * intros HF. split; [split; [easy|apply G2; [now eexists; eauto|discriminate]]|right; now apply keeps_refl].
  - unfold opencl_filter_grid. apply wp_with_cl_buffer; [exact N| |].
    + intros HF. split; [easy|]. apply G2; [exact HF|discriminate].
    + intros a Na. unfold cbind. apply wp_then. rewrite wp_check. cbn [wp]. cbn zeta. split; [|split].
      * intros x [<-|[<-|[]]]; [right; exact T|left; reflexivity].
      * split; [easy|]. split; [left; reflexivity|]. split.
        -- split; [split; [easy|now apply G]|right; now apply keeps_refl].
        -- intros HF. split; [split; [easy|apply G2; [now eexists; eauto|discriminate]]|right; now apply keeps_refl].
      * intros HF. split; [split; [easy|apply G2; [now eexists; eauto|discriminate]]|right; now apply keeps_refl].
Qed.


Lemma helpers_differ v : cuda_helper_of v <> opencl_helper_of v.
Proof. intros E. apply (f_equal (fun h => hl_destroy h 0)) in E. discriminate E. Qed.

Lemma wp_prepare S v w h cells grids d o : is_helper v w h -> 2 * (cells * grids) <> 0 ->
  (h = cuda_helper_of v -> d = v) ->
  wp S false (hl_prepare h cells grids) d [] o
    (fun e d' O' o' => d' = d /\ o' = o /\
       match e with
       | Returned a => O' = [(a, v)]
       | Thrown => something_fails /\ keeps [] O'
       | Terminated => False
       end).
Proof.
  intros H N D. destruct H as [(-> & _ & CF) | ->]; cbn [hl_prepare cuda_helper_of opencl_helper_of].
  - rewrite (D eq_refl). apply wp_new_buffer; [exact CF|now left|constructor|exact N| |].
    + intros a _. easy.
    + intros O' K F. easy.
  - unfold opencl_prepare, cbind. apply wp_then. apply wp_cl_buffer; [constructor| |].
    + intros a Na. cbn [wp]. cbn zeta. split; [|split].
      * intros x [<-|[]]. now left.
      * easy.
      * intros HF. unfold cl_release. cbn [cthen wp]. split; [now left|].
        split; [easy|]. split; [easy|]. split; [now eexists; eauto|]. rewrite drop_head by easy. apply keeps_refl. constructor.
    + intros F. cbn [wp]. split; [easy|]. split; [easy|]. split; [exact F|]. apply keeps_refl. constructor.
Qed.

Lemma cloud_throws_part (sched : list (Z * list dcloud)) clouds x :
  Permutation (concat (map snd sched)) clouds -> In x sched -> cloud_throws (snd x) -> cloud_throws clouds.
Proof.
  intros P I T. apply Exists_exists in T. destruct T as (c & Hc & T). apply Exists_exists. exists c.
  split; [|exact T]. eapply Permutation_in; [exact P|]. apply in_concat. exists (snd x). split; [|exact Hc].
  now apply in_map.
Qed.

Lemma dispatch_start S F v w h tr clouds sched s :
  is_helper v w h -> In (tr, v) S -> inv s F -> NoDup (map fst sched) ->
  Permutation (concat (map snd sched)) clouds ->
  winv S F (h_out s)
    (fun t e d O => post (ends w (h_current s t) (h_out s) (something_fails \/ cloud_throws clouds)) [] e d O (h_out s))
    (map (fun x => (fst x, items_work h tr (snd x))) sched) s (map (fun _ => []) sched).
Proof.
  intros H T I N P. split; [|split; [|split]].
  - assert (IN : forall x, In x sched -> In x sched) by auto. revert IN.
    generalize sched at 1 3 4. intros l. induction l as [|x l IH]; intros IN; cbn [map]; constructor.
    + cbn [fst snd]. eapply wp_mono; [|apply (wp_items S true v w h tr (snd x) H T); constructor].
      intros e d O o PO. pose proof PO as ((_ & E & _) & _). subst o. revert PO. apply post_weaken.
      intros e' d' o'. apply ends_weaken. intros [J|J]; [now left|right].
      eapply cloud_throws_part; [exact P| |exact J]. apply IN. now left.
    + apply IH. intros y Hy. apply IN. now right.
  - replace (concat (map (fun _ => []) sched)) with (@nil (Z * Z)); [exact I|].
    clear. induction sched; [reflexivity|assumption].
  - rewrite map_map. cbn [fst]. exact N.
  - reflexivity.
Qed.

Lemma dispatch_ok S F v w h tr clouds rethrows s e s' :
  is_helper v w h -> In (tr, v) S -> incl S F -> inv s F ->
  dispatch fails rethrows h tr clouds s e s' ->
  h_bad s' = h_bad s /\ h_out s' = h_out s /\
  (e <> Terminated -> (forall u, h_current s' u = w \/ h_current s' u = h_current s u) /\
     exists L, inv s' (L ++ F) /\ (frees -> L = [])) /\
  (e = Thrown -> something_fails \/ cloud_throws clouds) /\
  (e = Terminated -> ~ frees \/ (rethrows = false /\ (something_fails \/ cloud_throws clouds))).
Proof.
  intros H T SF I D. destruct D as [sched ws s' e N P HS HE ->|sched ws s' N P HS HE].
  - destruct (winv_steps S F _ _ _ _ _ _ _ SF (dispatch_start S F v w h tr clouds sched s H T I N P) HS)
      as (Os & (W & I' & N' & O') & B & C & M).
    split; [exact B|]. split; [exact O'|].
    assert (K : forall x, In x ws -> snd x = CEnd Thrown -> something_fails \/ cloud_throws clouds).
    { intros x Hx E. clear - W Hx E. induction W as [|a O l Os HW W IH]; [contradiction|]. destruct Hx as [->|Hx]; [|auto].
      rewrite E in HW. cbn [wp] in HW. destruct HW as ((_ & _ & G & _) & _). now apply G. }
    split; [|split].
    + intros _. split.
      * intros u. destruct (in_dec Z.eq_dec u (map fst ws)) as [IU|IU].
        -- clear - W IU HE. induction W as [|a O l Os HW W IH]; [contradiction|].
           inversion HE as [|? ? HA HE']; subst. destruct IU as [IU|IU]; [|auto].
           subst u. destruct HA as [HA|[_ HA]]; unfold ended in HA; rewrite HA in HW; cbn [wp] in HW;
             destruct HW as ((G & _) & _); exact G.
        -- right. apply C. rewrite M in IU. exact IU.
      * exists (concat Os). split; [exact I'|]. intros FF. clear - W HE FF.
        induction W as [|a O l Os HW W IH]; [reflexivity|]. inversion HE as [|? ? HA HE']; subst.
        cbn [concat]. rewrite (IH HE'), app_nil_r.
        destruct HA as [HA|[_ HA]]; unfold ended in HA; rewrite HA in HW; cbn [wp] in HW;
          destruct HW as (_ & [G|(L & G & _ & GF)]); try discriminate; rewrite G, (GF FF); reflexivity.
    + destruct (existsb _ ws) eqn:E; [|discriminate]. intros _. apply existsb_exists in E.
      destruct E as (x & Hx & E). apply (K x Hx). destruct (snd x) as [[| |]|]; try discriminate. reflexivity.
    + destruct (existsb _ ws); discriminate.
  - destruct (winv_steps S F _ _ _ _ _ _ _ SF (dispatch_start S F v w h tr clouds sched s H T I N P) HS)
      as (Os & (W & I' & N' & O') & B & C & M).
    split; [exact B|]. split; [exact O'|]. split; [intros J; contradiction|]. split; [discriminate|]. intros _.
    clear - W HE. apply Exists_exists in HE. destruct HE as (x & Hx & HE).
    induction W as [|a O l Os HW W IH]; [contradiction|]. destruct Hx as [->|Hx]; [|auto].
    unfold ended in HE. destruct HE as [HE|[HR HE]]; rewrite HE in HW; cbn [wp] in HW;
      destruct HW as ((_ & _ & G1 & G2) & _); [left; now apply G2|right; split; [exact HR|now apply G1]].
Qed.

Lemma voxelize_ok v w h t cells clouds rethrows s e s' :
  is_helper v w h -> (h = cuda_helper_of v -> h_current s t = v) -> 0 < cells -> NoDup (keys (h_live s)) ->
  voxelize fails rethrows t h cells clouds s e s' ->
  h_bad s' = h_bad s /\
  (e <> Terminated -> (forall u, h_current s' u = w \/ h_current s' u = h_current s u) /\
     exists L, inv s' (L ++ h_live s) /\ (frees -> L = [])) /\
  (e = Returned tt -> h_out s' = Written) /\
  (e = Thrown -> (something_fails \/ cloud_throws clouds) /\ h_out s' <> Written) /\
  (e = Terminated -> ~ frees \/ (rethrows = false /\ (something_fails \/ cloud_throws clouds))).
Proof.
  intros H D C N (e1 & s1 & H1 & H2).
  assert (I0 : inv (with_out Untouched s) ([] ++ h_live s)) by (split; [exact N|apply Permutation_refl]).
  assert (NZ : 2 * (cells * Z.max (zlen clouds) 1) <> 0) by nia.
  destruct (wp_exec [] false _ t (h_live s) _ (with_out Untouched s) [] _ _
    (wp_prepare [] v w h cells (Z.max (zlen clouds) 1) _ Untouched H NZ D) I0 (fun a Ha => match Ha with end) H1)
    as (O1 & I1 & (D1 & E1 & R1) & B1 & C1).
  cbn [h_bad h_current with_out] in *.
  destruct e1 as [p| |]; [| |contradiction].
  2: { destruct H2 as [-> ->]. destruct R1 as (SF & L & -> & NL & FL). rewrite app_nil_r in I1.
       split; [exact B1|]. split; [|split; [discriminate|split; [|discriminate]]].
       - intros _. split; [|now exists L]. intros u. right.
         destruct (Z.eq_dec u t) as [->|U]; [exact D1|now apply C1].
       - intros _. split; [now left|]. rewrite E1. discriminate. }
  subst O1. destruct H2 as (e2 & s2 & HD & HX).
  destruct (dispatch_ok [(p, v)] ((p, v) :: h_live s) v w h p clouds rethrows s1 e2 s2 H) as (B2 & O2 & K2 & T2 & X2);
    [now left|intros x [<-|[]]; now left|exact I1|exact HD|].
  rewrite E1 in O2.
  destruct e2 as [u| |].
  3: { cbn [cbind cscope cthen] in HX. inversion HX; subst. split; [congruence|].
       split; [intros J; contradiction|]. split; [discriminate|]. split; [discriminate|]. exact X2. }
  all: destruct (K2 ltac:(discriminate)) as (G & L & I2 & FL).
  all: assert (CC : h = cuda_helper_of v -> h_current s2 t = v)
         by (intros HC; destruct (G t) as [G'|G'];
             [destruct H as [(_ & -> & _)|HO]; [exact G'|exfalso; rewrite HC in HO; exact (helpers_differ v HO)]
             |rewrite G', D1; now apply D]).
  all: assert (I2' : inv s2 ([(p, v)] ++ (L ++ h_live s)))
         by (apply (inv_perm _ _ _ I2); symmetry; apply (Permutation_middle L (h_live s) (p, v))).
  all: set (R := fun (e : ending unit) (d' : Z) (o : written) => d' = h_current s2 t /\
         (e = Returned tt -> o = Written) /\
         (e = Thrown -> (something_fails \/ cloud_throws clouds) /\ o <> Written) /\ (e = Terminated -> ~ frees)).
  all: assert (FIN : forall b, wp [] false b (h_current s2 t) [(p, v)] (h_out s2) (post R [(p, v)]) ->
         exec fails t (cscope b (hl_destroy h p)) s2 e s' ->
         h_bad s' = h_bad s /\
         (e <> Terminated -> (forall u, h_current s' u = w \/ h_current s' u = h_current s u) /\
            exists L, inv s' (L ++ h_live s) /\ (frees -> L = [])) /\
         (e = Returned tt -> h_out s' = Written) /\
         (e = Thrown -> (something_fails \/ cloud_throws clouds) /\ h_out s' <> Written) /\
         (e = Terminated -> ~ frees \/ (rethrows = false /\ (something_fails \/ cloud_throws clouds)))).
  1, 3: intros b WB HB;
    assert (WS : wp [] false (cscope b (hl_destroy h p)) (h_current s2 t) [(p, v)] (h_out s2) (post R []))
      by (destruct H as [(-> & _ & CF) | ->]; cbn [hl_destroy cuda_helper_of opencl_helper_of];
          [apply wp_scope; [|exact WB]; intros e0 d0 o0 (HR & _) HF; split; [exact HR|]; split; [discriminate|];
             split; [discriminate|]; intros _; now apply (free_fails p)
          |now apply wp_cl_scope]);
    destruct (wp_exec [] false _ t (L ++ h_live s) _ s2 [(p, v)] _ _ WS I2' (fun a Ha => match Ha with end) HB)
      as (O' & I' & ((RD & RR & RT & RX) & RK) & B' & C');
    (split; [congruence|]; split; [|split; [exact RR|split; [exact RT|intros J; left; now apply RX]]]);
    intros NT; (split;
      [intros u'; destruct (Z.eq_dec u' t) as [->|U];
        [rewrite RD; destruct (G t) as [G'|G']; [now left|right; now rewrite G', D1]
        |rewrite C' by exact U; destruct (G u') as [G'|G']; [now left|right; now rewrite G', C1]]
      |]);
    destruct RK as [RK|(M & -> & _ & FM)]; [contradiction|]; rewrite app_nil_r in I'; exists (M ++ L);
    (split; [now rewrite <- app_assoc|]); intros FF; now rewrite (FL FF), (FM FF).
  - apply (FIN _) in HX; [exact HX|]. cbn [cbind cthen]. rewrite O2.
    eapply wp_mono; [|apply (wp_filter [] v w h cells p H); [lia| | |exact CC]].
    + intros e0 d0 O0 o0 ((E0 & F1 & F2 & F3) & K). split; [|exact K]. split; [exact E0|]. split; [exact F1|].
      split; [|exact F3]. intros J. destruct (F2 J) as [J1 J2]. split; [now left|exact J2].
    + repeat constructor; intros [].
    + left. reflexivity.
  - apply (FIN _) in HX; [exact HX|]. cbn [cbind cthen wp]. split; [|right; apply keeps_refl; repeat constructor; intros []].
    split; [reflexivity|]. split; [discriminate|]. split; [|discriminate]. intros _. split; [now apply T2|].
    rewrite O2. discriminate.
Qed.
End Wp.

(** ** Memory and output after one call *)

Lemma same_of_inv s l : inv s l -> forall a d, In (a, d) (h_live s) <-> In (a, d) l.
Proof.
  intros [_ P] a d. split; intros I; [eapply Permutation_in; [exact P|exact I]|].
  eapply Permutation_in; [symmetry; exact P|exact I].
Qed.

Lemma voxelize_cuda fails t v cells clouds rethrows s e s' :
  (forall a, fails (CFree a) = false) -> h_current s t = v -> 0 < cells -> NoDup (map fst (h_live s)) ->
  voxelize fails rethrows t (cuda_helper_of v) cells clouds s e s' ->
  h_bad s' = h_bad s /\
  (e <> Terminated -> (forall a d, In (a, d) (h_live s') <-> In (a, d) (h_live s)) /\ NoDup (map fst (h_live s'))) /\
  (e = Returned tt -> h_out s' = Written) /\
  (e = Thrown -> (something_fails fails \/ cloud_throws clouds) /\ h_out s' <> Written) /\
  (e = Terminated -> rethrows = false /\ (something_fails fails \/ cloud_throws clouds)).
Proof.
  intros F D C N H.
  destruct (voxelize_ok fails True v v (cuda_helper_of v) t cells clouds rethrows s e s') as (B & K & R & T & X);
    [left; split; [easy|split; [easy|intros _; exact F]]|easy|exact C|exact N|exact H|].
  split; [exact B|]. split; [|split; [exact R|split; [exact T|intros J; destruct (X J) as [[]|]; easy]]].
  intros NE. destruct (K NE) as (_ & L & I & E). rewrite (E Logic.I) in I. split; [now apply same_of_inv|exact (proj1 I)].
Qed.

Lemma voxelize_opencl fails t v cells clouds rethrows s e s' :
  0 < cells -> NoDup (map fst (h_live s)) ->
  voxelize fails rethrows t (opencl_helper_of v) cells clouds s e s' ->
  h_bad s' = h_bad s /\
  (e <> Terminated -> (forall a d, In (a, d) (h_live s') <-> In (a, d) (h_live s)) /\ NoDup (map fst (h_live s'))) /\
  (e = Returned tt -> h_out s' = Written) /\
  (e = Thrown -> (something_fails fails \/ cloud_throws clouds) /\ h_out s' <> Written) /\
  (e = Terminated -> rethrows = false /\ (something_fails fails \/ cloud_throws clouds)) /\
  (e <> Terminated -> forall u, h_current s' u = h_current s u).
Proof.
  intros C N H.
  assert (V : forall w, _) by (intros w;
    exact (voxelize_ok fails True v w (opencl_helper_of v) t cells clouds rethrows s e s'
      (or_intror eq_refl) (fun E => match helpers_differ v (eq_sym E) with end) C N H)).
  destruct (V v) as (B & K & R & T & X).
  split; [exact B|]. split; [|split; [exact R|split; [exact T|split]]].
  - intros NE. destruct (K NE) as (_ & L & I & E). rewrite (E Logic.I) in I. split; [now apply same_of_inv|exact (proj1 I)].
  - intros J; destruct (X J) as [[]|]; easy.
  - intros NE u. destruct (V (h_current s u)) as (_ & K' & _). destruct (K' NE) as (G & _). destruct (G u); easy.
Qed.

(** ** Histories *)

Lemma one_device_prefix v l ev : one_device v (l ++ [ev]) -> one_device v l.
Proof.
  intros [H1 H2]. split.
  - intros t d b I. apply (H1 t d b). apply in_or_app. now left.
  - intros l1 t d cells clouds l2 ->. apply (H2 l1 t d cells clouds (l2 ++ [ev])). now rewrite <- app_assoc.
Qed.

Lemma exec_construct fails t d b s s' : exec fails t (cuda_construct d) s (Returned b) s' ->
  h_live s' = h_live s /\ h_bad s' = h_bad s /\ (forall u, u <> t -> h_current s' u = h_current s u) /\
  (h_current s' t = h_current s t \/ h_current s' t = d) /\ (b = true -> h_current s' t = d).
Proof.
  unfold cuda_construct, cbind, check. cbn [cthen]. intros H. inversion H as [|c k s0 r s1 e s2 HA HE]; subst; clear H.
  inversion HA; subst; cbn [cthen] in HE.
  - inversion HE as [|c k s0 r s1 e s2 HA2 HE2]; subst; clear HE.
    assert (S1 : s1 = mkHost (fun u => if u =? t then d else h_current s u) (h_live s) (h_bad s) (h_out s)).
    { inversion HA2; subst; try easy. }
    assert (S2 : s' = s1). { inversion HA2; subst; cbn [cthen] in HE2; inversion HE2; reflexivity. }
    subst s'. rewrite S1. cbn [h_live h_bad h_current]. rewrite Z.eqb_refl.
    split; [easy|]. split; [easy|]. split; [|split; [now right|easy]].
    intros u U. destruct (Z.eqb_spec u t); [contradiction|easy].
  - inversion HE; subst. split; [easy|]. split; [easy|]. split; [easy|]. split; [now left|discriminate].
Qed.

Lemma history_ok fails rethrows v l s : history fails rethrows init_host l s -> one_device v l -> positive_cells l ->
  h_bad s = false /\ NoDup (map fst (h_live s)) /\
  (forall u, h_current s u = 0 \/ h_current s u = v) /\
  (forall u, In (EConstruct u v true) l -> h_current s u = v) /\
  ((forall a, fails (CFree a) = false) -> h_live s = []).
Proof.
  induction 1 as [|l ev s1 s2 H IH HE]; intros O P.
  - cbn. split; [easy|]. split; [constructor|]. split; [auto|]. split; [easy|easy].
  - destruct IH as (B & N & C & CC & L); [now apply one_device_prefix in O| |].
    { intros t d cells clouds I. apply (P t d cells clouds). destruct I; [left|right]; apply in_or_app; now left. }
    destruct O as [O1 O2]. destruct HE as [t d b s2 HE|t d cells clouds e s2 HE NE|t d cells clouds e s2 HE NE].
    + assert (D : d = v) by (apply (O1 t d b), in_or_app; right; now left). subst d.
      destruct (exec_construct _ _ _ _ _ _ HE) as (E1 & E2 & E3 & E4 & E5). rewrite E1, E2.
      split; [exact B|]. split; [exact N|]. split; [|split; [|exact L]].
      * intros u. destruct (Z.eq_dec u t) as [->|U]; [|rewrite E3 by exact U; apply C].
        destruct E4 as [E4|E4]; rewrite E4; [apply C|now right].
      * intros u I. apply in_app_or in I. destruct I as [I|[I|[]]].
        -- destruct (Z.eq_dec u t) as [->|U]; [|rewrite E3 by exact U; now apply CC].
           destruct E4 as [E4|E4]; rewrite E4; [now apply CC|reflexivity].
        -- injection I as -> ->. now apply E5.
    + assert (Hc : 0 < cells) by (apply (P t d cells clouds); left; apply in_or_app; right; now left).
      destruct (O2 l t d cells clouds [] eq_refl) as (-> & OV).
      assert (D : h_current s1 t = v). { destruct OV as [V0|I]; [|now apply CC]. destruct (C t) as [E|E]; lia. }
      destruct (voxelize_ok fails (forall a, fails (CFree a) = false) v v (cuda_helper_of v) t cells clouds rethrows s1 e s2)
        as (B' & K & _); [left; split; [easy|split; [easy|now intros F]]|easy|exact Hc|exact N|exact HE|].
      destruct (K NE) as (G & M & I & E). split; [congruence|]. split; [exact (proj1 I)|]. split; [|split].
      * intros u. destruct (G u) as [G'|G']; rewrite G'; [now right|apply C].
      * intros u I'. apply in_app_or in I'. destruct I' as [I'|[I'|[]]]; [|discriminate].
        destruct (G u) as [G'|G']; rewrite G'; [reflexivity|now apply CC].
      * intros F. rewrite (E F), (L F) in I. apply Permutation_nil. symmetry. exact (proj2 I).
    + assert (Hc : 0 < cells) by (apply (P t d cells clouds); right; apply in_or_app; right; now left).
      destruct (voxelize_opencl fails t d cells clouds rethrows s1 e s2 Hc N HE) as (B' & K & _ & _ & _ & G).
      specialize (G NE). destruct (K NE) as (S & N2). split; [congruence|]. split; [exact N2|].
      split; [intros u; rewrite G; apply C|]. split.
      * intros u I'. apply in_app_or in I'. destruct I' as [I'|[I'|[]]]; [|discriminate]. rewrite G. now apply CC.
      * intros F. rewrite (L F) in S. destruct (h_live s2) as [|[a x] r]; [reflexivity|].
        exfalso. apply (S a x). now left.
Qed.

(** ** Executions for witnesses: calls fail whenever they may *)

Definition fresh (s : host) : Z := 1 + fold_right Z.max 0 (map fst (h_live s)).

Lemma fresh_ok s : has_any (h_live s) (fresh s) = false.
Proof.
  apply has_any_out. unfold fresh, keys. intros I.
  assert (G : forall l x, In x l -> x <= fold_right Z.max 0 l).
  { intros l x. induction l as [|y l IH]; [easy|]. cbn [fold_right]. intros [->|J]; [lia|]. specialize (IH J). lia. }
  apply G in I. lia.
Qed.

Definition call_fails (c : call) : bool := match c with LRelease _ => false | _ => true end.

Definition answer (fails : call -> bool) (t : Z) (s : host) (c : call) : reply * host :=
  if fails c && call_fails c then
    (RErr, match c with CCopyOut _ | LRead _ _ => with_out Unspecified s | _ => s end)
  else
  match c with
  | CSetDevice d => (ROk, mkHost (fun u => if u =? t then d else h_current s u) (h_live s) (h_bad s) (h_out s))
  | CProperties _ => (ROk, s)
  | CMalloc => (RPtr (fresh s), with_live ((fresh s, h_current s t) :: h_live s) s)
  | CMemset p | CCopyIn p => (ROk, check_use (has_any (h_live s) p) s)
  | CLaunch ps => (ROk, check_use (forallb (fun p => has (h_live s) p (h_current s t)) ps) s)
  | CCopyOut p => (ROk, check_use (has_any (h_live s) p) (with_out Written s))
  | CFree p | LRelease p => (ROk, check_use (has_any (h_live s) p) (with_live (drop (h_live s) p) s))
  | LCreate d => (RPtr (fresh s), with_live ((fresh s, d) :: h_live s) s)
  | LEnqueue d ps => (ROk, check_use (forallb (fun p => has (h_live s) p d) ps) s)
  | LRead d p => (ROk, check_use (has (h_live s) p d) (with_out Written s))
  end.

Lemma answer_api fails t s c : api fails t s c (fst (answer fails t s c)) (snd (answer fails t s c)).
Proof.
  unfold answer. destruct (fails c && call_fails c) eqn:E.
  - apply andb_prop in E. destruct E as [E1 E2]. destruct c; cbn [fst snd]; try discriminate;
      try (apply api_copy_out_error; exact E1); try (apply api_read_error; exact E1);
      apply api_error; try exact E1; intros; discriminate.
  - destruct c; cbn [fst snd]; try (constructor; apply fresh_ok); constructor.
Qed.

Fixpoint run {A} (fails : call -> bool) (t : Z) (p : cprog A) (s : host) : ending A * host :=
  match p with
  | CEnd e => (e, s)
  | CCall c k => let a := answer fails t s c in run fails t (k (fst a)) (snd a)
  end.

Lemma run_exec {A} fails t (p : cprog A) : forall s, exec fails t p s (fst (run fails t p s)) (snd (run fails t p s)).
Proof.
  induction p as [e|c k IH]; intros s; cbn [run]; [constructor|].
  econstructor; [apply answer_api|apply IH].
Qed.

Lemma exec_wsteps fails t p s e s' : exec fails t p s e s' -> wsteps fails ([(t, p)], s) ([(t, CEnd e)], s').
Proof.
  induction 1 as [e s|c k s r s1 e s2 HA HE IH]; [constructor|].
  econstructor; [|exact IH]. exact (wstep_call fails [] t c k [] s r s1 HA).
Qed.

(** One dispatching thread, that of the caller. *)
Definition run_dispatch (fails : call -> bool) (rethrows : bool) (t : Z) (h : helper) (tracking : Z)
    (clouds : list dcloud) (s : host) : ending unit * host :=
  let r := run fails t (items_work h tracking clouds) s in
  (match fst r with Thrown => if rethrows then Thrown else Terminated | e => e end, snd r).

Lemma run_dispatch_ok fails rethrows t h tracking clouds s :
  let r := run_dispatch fails rethrows t h tracking clouds s in
  dispatch fails rethrows h tracking clouds s (fst r) (snd r).
Proof.
  cbn zeta. unfold run_dispatch. pose proof (run_exec fails t (items_work h tracking clouds) s) as H.
  destruct (run fails t (items_work h tracking clouds) s) as [e s']. cbn [fst snd] in *. apply exec_wsteps in H.
  assert (N : NoDup (map fst [(t, clouds)])) by (repeat constructor; intros []).
  assert (P : Permutation (concat (map snd [(t, clouds)])) clouds) by (cbn; now rewrite app_nil_r).
  destruct e as [[]| |].
  - eapply (dispatch_ends fails rethrows h tracking clouds s [(t, clouds)]); [exact N|exact P|exact H| |reflexivity].
    constructor; [now left|constructor].
  - destruct rethrows.
    + eapply (dispatch_ends fails true h tracking clouds s [(t, clouds)]); [exact N|exact P|exact H| |reflexivity].
      constructor; [now right|constructor].
    + eapply (dispatch_terminates fails false h tracking clouds s [(t, clouds)]); [exact N|exact P|exact H|].
      constructor. now right.
  - eapply (dispatch_terminates fails rethrows h tracking clouds s [(t, clouds)]); [exact N|exact P|exact H|].
    constructor. now left.
Qed.

Definition run_voxelize (fails : call -> bool) (rethrows : bool) (t : Z) (h : helper) (cells : Z)
    (clouds : list dcloud) (s : host) : ending unit * host :=
  let r1 := run fails t (hl_prepare h cells (Z.max (zlen clouds) 1)) (with_out Untouched s) in
  match fst r1 with
  | Returned p =>
      let r2 := run_dispatch fails rethrows t h p clouds (snd r1) in
      run fails t (cscope (cbind (CEnd (fst r2)) (fun _ => hl_filter h cells p)) (hl_destroy h p)) (snd r2)
  | Thrown => (Thrown, snd r1)
  | Terminated => (Terminated, snd r1)
  end.

Lemma run_voxelize_ok fails rethrows t h cells clouds s :
  let r := run_voxelize fails rethrows t h cells clouds s in
  voxelize fails rethrows t h cells clouds s (fst r) (snd r).
Proof.
  cbn zeta. unfold run_voxelize, voxelize.
  pose proof (run_exec fails t (hl_prepare h cells (Z.max (zlen clouds) 1)) (with_out Untouched s)) as H1.
  destruct (run fails t (hl_prepare h cells (Z.max (zlen clouds) 1)) (with_out Untouched s)) as [e1 s1].
  cbn [fst snd] in *. exists e1, s1. split; [exact H1|]. destruct e1 as [p| |]; [|easy|easy].
  pose proof (run_dispatch_ok fails rethrows t h p clouds s1) as H2. cbn zeta in H2.
  destruct (run_dispatch fails rethrows t h p clouds s1) as [e2 s2]. cbn [fst snd] in *.
  exists e2, s2. split; [exact H2|]. apply run_exec.
Qed.

(** ** Executions are finite *)

Definition wsub (b a : workers) : Prop :=
  exists w1 t c k r w2, a = w1 ++ (t, CCall c k) :: w2 /\ b = w1 ++ (t, k r) :: w2.

Lemma acc_cons p : forall ws, Acc wsub ws -> forall t, Acc wsub ((t, p) :: ws).
Proof.
  induction p as [e|c k IH]; intros ws A; induction A as [ws HA IHA]; intros t; constructor;
    intros ws' (w1 & t' & c' & k' & r & w2 & E & ->).
  - destruct w1 as [|x w1]; [discriminate|]. injection E as <- ->. cbn [app]. apply IHA. now exists w1, t', c', k', r, w2.
  - destruct w1 as [|x w1].
    + injection E as <- <- <- <-. cbn [app]. apply IH. constructor. exact HA.
    + injection E as <- ->. cbn [app]. apply IHA. now exists w1, t', c', k', r, w2.
Qed.

Lemma acc_workers ws : Acc wsub ws.
Proof.
  induction ws as [|[t p] ws IH]; [|now apply acc_cons].
  constructor. intros ws' (w1 & t' & c' & k' & r & w2 & E & _). destruct w1; discriminate.
Qed.

Lemma no_infinite fails (f : nat -> workers * host) : ~ (forall n, wstep fails (f n) (f (S n))).
Proof.
  intros H.
  assert (G : forall ws, Acc wsub ws -> forall n, fst (f n) <> ws).
  { induction 1 as [ws _ IH]. intros n E. apply (IH (fst (f (S n)))) with (n := S n); [|reflexivity].
    specialize (H n). destruct (f n) as [a sa], (f (S n)) as [b sb]. cbn [fst] in *. subst a.
    inversion H as [w1 t c k w2 s r s1 HA]; subst. now exists w1, t, c, k, r, w2. }
  exact (G _ (acc_workers (fst (f 0%nat))) 0%nat eq_refl).
Qed.

Lemma workers_progress fails (ws : workers) s :
  Forall (fun w => exists e, ended e w) ws \/ exists x, wstep fails (ws, s) x.
Proof.
  induction ws as [|[t p] ws IH]; [left; constructor|]. destruct p as [e|c k].
  - destruct IH as [IH|(x & HX)]; [left; constructor; [now exists e|exact IH]|]. right.
    inversion HX as [w1 t' c k w2 s0 r s1 HA]; subst.
    exists (((t, CEnd e) :: w1) ++ (t', k r) :: w2, s1).
    exact (wstep_call fails ((t, CEnd e) :: w1) t' c k w2 s r s1 HA).
  - right. eexists. exact (wstep_call fails [] t c k ws s _ _ (answer_api fails t s c)).
Qed.

(** ** No cloud is left out *)

Lemma path_then {A B} (p : cprog A) (f : ending A -> cprog B) : forall l e, path (cthen p f) l e ->
  exists l1 l2 e1, l = l1 ++ l2 /\ path p l1 e1 /\ path (f e1) l2 e.
Proof.
  induction p as [e0|c k IH]; intros l e H.
  - exists [], l, e0. split; [easy|]. split; [constructor|exact H].
  - cbn [cthen] in H. inversion H as [|? ? r l' ? H']; subst. destruct (IH r _ _ H') as (l1 & l2 & e1 & -> & P1 & P2).
    exists ((c, r) :: l1), l2, e1. split; [easy|]. split; [now constructor|easy].
Qed.

Lemma path_bind {A B} (p : cprog A) (f : A -> cprog B) l b : path (cbind p f) l (Returned b) ->
  exists l1 l2 a, l = l1 ++ l2 /\ path p l1 (Returned a) /\ path (f a) l2 (Returned b).
Proof.
  intros H. apply path_then in H. destruct H as (l1 & l2 & [a| |] & -> & P1 & P2); [now exists l1, l2, a|inversion P2..].
Qed.

Lemma path_scope {A} (p : cprog A) q l a : path (cscope p q) l (Returned a) ->
  exists l1 l2 u, l = l1 ++ l2 /\ path p l1 (Returned a) /\ path q l2 (Returned u).
Proof.
  intros H. apply path_then in H. destruct H as (l1 & l2 & e1 & -> & P1 & P2).
  destruct e1 as [a'| |]; [| |inversion P2]; apply path_then in P2; destruct P2 as (l3 & l4 & [u| |] & -> & P3 & P4);
    inversion P4; subst; exists l1, l3, u; rewrite app_nil_r; now repeat split.
Qed.

Lemma path_check c l u : path (check c) l (Returned u) -> exists r, l = [(c, r)] /\ r <> RErr.
Proof.
  intros H. inversion H as [|? ? r l' ? H']; subst. exists r. destruct r; inversion H'; subst; (split; [reflexivity|discriminate]).
Qed.

Lemma kernels_app l1 l2 : kernels (l1 ++ l2) = kernels l1 + kernels l2.
Proof.
  induction l1 as [|[c r] l IH]; [reflexivity|]. cbn [app kernels].
  destruct c; try exact IH; destruct r; try exact IH; lia.
Qed.

Lemma sensible_app l1 l2 : sensible (l1 ++ l2) -> sensible l1 /\ sensible l2.
Proof. apply Forall_app. Qed.

Lemma new_buffer_kernels l n p : path (new_buffer CCopyIn n) l (Returned p) -> kernels l = 0.
Proof.
  unfold new_buffer. destruct (n =? 0); intros H; [inversion H|].
  apply path_bind in H. destruct H as (l1 & l2 & a & -> & H1 & H2).
  inversion H1 as [|? ? r l' ? H1']; subst. inversion H2 as [|? ? r' l'' ? H2']; subst.
  destruct r; inversion H1'; subst. destruct r'; try (inversion H2'; subst; reflexivity).
  apply path_bind in H2'. destruct H2' as (? & ? & ? & _ & _ & H2'). inversion H2'.
Qed.

Lemma check_kernel c l u : sensible l -> path (check c) l (Returned u) ->
  kernels l = match c with CLaunch _ | LEnqueue _ _ => 1 | _ => 0 end.
Proof.
  intros S H. apply path_check in H. destruct H as (r & -> & N). inversion S as [|? ? S1 _]; subst.
  destruct c; destruct r; try easy; reflexivity.
Qed.

Lemma cuda_raycast_kernels v tr n l u : sensible l -> path (cuda_raycast v tr n) l (Returned u) -> kernels l = 1.
Proof.
  intros S H. unfold cuda_raycast in H. apply path_bind in H. destruct H as (l1 & l2 & u1 & -> & H1 & H).
  apply sensible_app in S. destruct S as [S1 S]. apply check_kernel in H1; [|easy].
  unfold with_buffer at 1 in H. apply path_bind in H. destruct H as (l3 & l4 & a & -> & H3 & H).
  apply sensible_app in S. destruct S as [S3 S]. apply new_buffer_kernels in H3.
  apply path_scope in H. destruct H as (l5 & l6 & u2 & -> & H & H6). apply sensible_app in S. destruct S as [S S6].
  apply check_kernel in H6; [|easy].
  unfold with_buffer at 1 in H. apply path_bind in H. destruct H as (l7 & l8 & b & -> & H7 & H).
  apply sensible_app in S. destruct S as [S7 S]. apply new_buffer_kernels in H7.
  apply path_scope in H. destruct H as (l9 & l10 & u3 & -> & H9 & H10). apply sensible_app in S. destruct S as [S9 S10].
  apply check_kernel in H9; [|easy]. apply check_kernel in H10; [|easy].
  rewrite !kernels_app. lia.
Qed.

Lemma cl_buffer_kernels d l p : path (cl_buffer d) l (Returned p) -> kernels l = 0.
Proof. intros H. inversion H as [|? ? r l' ? H']; subst. destruct r; inversion H'; subst; reflexivity. Qed.

Lemma cl_release_kernels p l u : path (cl_release p) l (Returned u) -> kernels l = 0.
Proof. intros H. inversion H as [|? ? r l' ? H']; subst. inversion H'; subst. reflexivity. Qed.

Lemma opencl_raycast_kernels v tr n l u : sensible l -> path (opencl_raycast v tr n) l (Returned u) -> kernels l = 1.
Proof.
  intros S H. unfold opencl_raycast in H.
  unfold with_cl_buffer at 1 in H. apply path_bind in H. destruct H as (l3 & l4 & a & -> & H3 & H).
  apply sensible_app in S. destruct S as [S3 S]. apply cl_buffer_kernels in H3.
  apply path_scope in H. destruct H as (l5 & l6 & u2 & -> & H & H6). apply sensible_app in S. destruct S as [S S6].
  apply cl_release_kernels in H6.
  unfold with_cl_buffer at 1 in H. apply path_bind in H. destruct H as (l7 & l8 & b & -> & H7 & H).
  apply sensible_app in S. destruct S as [S7 S]. apply cl_buffer_kernels in H7.
  apply path_scope in H. destruct H as (l9 & l10 & u3 & -> & H9 & H10). apply sensible_app in S. destruct S as [S9 S10].
  apply check_kernel in H9; [|easy]. apply cl_release_kernels in H10.
  rewrite !kernels_app. lia.
Qed.

Lemma items_path h tr cs :
  (forall tr n l u, sensible l -> path (hl_raycast h tr n) l (Returned u) -> kernels l = 1) ->
  forall l u, path (items_work h tr cs) l (Returned u) ->
  Forall (fun c => 0 < dc_size c -> dc_throws c = false) cs /\ (sensible l -> kernels l = zlen (with_points cs)).
Proof.
  intros HK. induction cs as [|c cs IH]; intros l u H; cbn [items_work] in H.
  - inversion H; subst. split; [constructor|reflexivity].
  - apply path_bind in H. destruct H as (l1 & l2 & u1 & -> & H1 & H2). destruct (IH _ _ H2) as [F K].
    unfold with_points in *. cbn [filter]. unfold item_work in H1. destruct (Z.ltb_spec 0 (dc_size c)) as [L|L].
    + destruct (dc_throws c) eqn:T; [inversion H1|]. split; [now constructor|].
      intros S. apply sensible_app in S. destruct S as [S1 S2]. rewrite kernels_app, (K S2), (HK _ _ _ _ S1 H1).
      unfold zlen. cbn [length]. lia.
    + inversion H1; subst. cbn [app]. split; [constructor; [lia|easy]|exact K].
Qed.

Lemma wsteps_paths fails : forall x y, wsteps fails x y ->
  Forall2 (fun w w' => exists l, sensible l /\ forall l' e, path (snd w') l' e -> path (snd w) (l ++ l') e) (fst x) (fst y).
Proof.
  intros x y H. induction H as [x|x y z H _ IH].
  - induction (fst x) as [|w ws IH]; constructor; [|exact IH]. exists []. split; [constructor|easy].
  - inversion H as [w1 t c k w2 s r s1 HA]; subst. cbn [fst] in *.
    apply Forall2_app_inv_l in IH. destruct IH as (v1 & v2 & F1 & F2 & E). rewrite E.
    apply Forall2_app; [exact F1|]. inversion F2 as [|? w' ? v2' HW F2']; subst. constructor; [|exact F2'].
    destruct HW as (l & S & HW). exists ((c, r) :: l). split.
    + constructor; [|exact S]. cbn [fst snd]. inversion HA; subst; try exact I. destruct c; exact I.
    + intros l' e P. cbn [snd] in *. constructor. now apply HW.
Qed.

Lemma dispatch_all fails rethrows h tr clouds s u s' :
  (forall tr n l u, sensible l -> path (hl_raycast h tr n) l (Returned u) -> kernels l = 1) ->
  dispatch fails rethrows h tr clouds s (Returned u) s' ->
  Forall (fun c => 0 < dc_size c -> dc_throws c = false) clouds.
Proof.
  intros HK H. inversion H as [sched ws s2 e ND PM W F E|]; subst.
  apply wsteps_paths in W. cbn [fst] in W.
  assert (FR : Forall (fun w => ended (Returned tt) w) ws).
  { destruct (existsb _ ws) eqn:X; [discriminate|]. apply Forall_forall. intros w Hw. rewrite Forall_forall in F.
    destruct (F w Hw) as [K|[_ K]]; [exact K|]. exfalso.
    assert (existsb (fun w => match snd w with CEnd Thrown => true | _ => false end) ws = true) as Y.
    { apply existsb_exists. exists w. split; [exact Hw|]. unfold ended in K. now rewrite K. }
    congruence. }
  eapply Permutation_Forall; [exact PM|]. clear PM ND F E H. revert ws W FR.
  induction sched as [|[t cs] sched IH]; intros ws W FR; [constructor|].
  cbn [map concat fst snd] in *. inversion W as [|? w ? ws' HW W']; subst. inversion FR; subst.
  apply Forall_app. split; [|now apply (IH ws')].
  destruct HW as (l & _ & HW). cbn [snd] in HW. unfold ended in H1.
  specialize (HW [] (Returned tt)). rewrite H1 in HW. specialize (HW (path_end _)).
  now apply items_path in HW.
Qed.

Lemma exec_path {A} fails t (p : cprog A) s e s' : exec fails t p s e s' -> exists l, path p l e.
Proof.
  induction 1 as [e s|c k s r s1 e s2 _ _ [l IH]]; [exists []; constructor|]. exists ((c, r) :: l). now constructor.
Qed.

Lemma voxelize_all fails rethrows t h cells clouds s u s' :
  (forall tr n l u, sensible l -> path (hl_raycast h tr n) l (Returned u) -> kernels l = 1) ->
  voxelize fails rethrows t h cells clouds s (Returned u) s' ->
  Forall (fun c => 0 < dc_size c -> dc_throws c = false) clouds.
Proof.
  intros HK (e1 & s1 & _ & H). destruct e1 as [p| |]; [|now destruct H..].
  destruct H as (e2 & s2 & D & X). apply exec_path in X. destruct X as [l X]. apply path_scope in X.
  destruct X as (l1 & l2 & u1 & _ & X & _). destruct e2 as [u2| |]; [|inversion X..]. eapply dispatch_all; eassumption.
Qed.
