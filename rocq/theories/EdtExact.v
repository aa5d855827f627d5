(** The exact arithmetic meets the conditions under which the transform is correct. *)
From Coq Require Import ZArith QArith List Lia Bool.
From Verif Require Import Util Grid Prog Schedule EdtModel ExactModel EdtSpec EdtLineProofs EdtProofs.
Local Open Scope Z_scope.

(** Field values and the distances they stand for. *)
Definition exact_rep (a : ext) (x : dist) : Prop :=
  match a, x with
  | PInf, None => True
  | Fin q, Some z => (q == inject_Z z)%Q
  | _, _ => False
  end.

Definition exact_bp (a : ext) : Prop := a <> NaN.

Lemma Qle_bool_false x y : Qle_bool x y = false <-> (y < x)%Q.
Proof.
  split.
  - intros H. apply Qnot_le_lt. intros C. apply Qle_bool_iff in C. congruence.
  - intros H. destruct (Qle_bool x y) eqn:E; [|easy]. apply Qle_bool_iff in E.
    exfalso. eapply Qlt_not_le; eauto.
Qed.

Lemma inject_le a b : (inject_Z a <= inject_Z b)%Q <-> a <= b.
Proof. unfold Qle; cbn. lia. Qed.
Lemma inject_lt a b : (inject_Z a < inject_Z b)%Q <-> a < b.
Proof. unfold Qlt; cbn. lia. Qed.

Lemma Qdiv_lt_Z (x : Q) a b t : (x == inject_Z a)%Q -> 0 < b ->
  (x / inject_Z b < inject_Z t)%Q <-> a < b * t.
Proof.
  intros -> Hb. destruct b as [|b|b]; try lia.
  unfold Qlt, Qdiv, Qinv, inject_Z; cbn -[Z.mul]. lia.
Qed.

Lemma exact_ok N M : 0 <= N -> arith_ok exact exact_rep exact_bp N M.
Proof.
  intros HN. split; cbn -[Z.mul].
  - easy.
  - intros [| |a|] [x|] k; cbn; try easy. intros E _ _. rewrite E.
    rewrite <- inject_Z_plus. unfold Qeq; cbn. lia.
  - intros [| |a|] [x|] [| |b|] [y|]; cbn; try easy. intros Ea _ Eb _.
    destruct (x <? y) eqn:E.
    + rewrite negb_true_iff, Qle_bool_false, Ea, Eb, inject_lt. lia.
    + rewrite negb_false_iff, Qle_bool_iff, Ea, Eb, inject_le. lia.
  - intros a x b y p q Ra _ Rb _ Hp Hq.
    assert (Hb : 0 < 2 * q - 2 * p) by lia.
    assert (NZ : Qeq_bool (inject_Z (2 * q - 2 * p)) 0 = false).
    { apply not_true_iff_false. rewrite Qeq_bool_iff. unfold Qeq; cbn -[Z.mul]. lia. }
    assert (NP : Qle_bool (inject_Z (2 * q - 2 * p)) 0 = false).
    { apply Qle_bool_false. change 0%Q with (inject_Z 0). apply inject_lt. lia. }
    unfold breakpoint, sub_no_nan, square, exact_bp, cost. cbn -[Z.mul].
    destruct a as [| |a|], x as [x|]; try easy; destruct b as [| |b|], y as [y|]; try easy;
      cbn -[Z.mul Qle_bool]; unfold e_eqb; cbn -[Z.mul Qle_bool]; rewrite ?NZ, ?NP;
      cbn -[Z.mul Qle_bool].
    + assert (Et : (a + inject_Z (q * q) + - (b + inject_Z (p * p)) ==
                   inject_Z (x + q * q - (y + p * p)))%Q).
      { cbn in Ra, Rb. rewrite Ra, Rb. unfold Qeq; cbn -[Z.mul]. lia. }
      split; [easy|]. split; intros t Ht.
      * rewrite negb_false_iff, Qle_bool_iff. intros H. apply Qle_not_lt in H.
        rewrite (Qdiv_lt_Z _ _ _ _ Et Hb) in H. nia.
      * rewrite negb_true_iff, Qle_bool_false, (Qdiv_lt_Z _ _ _ _ Et Hb). nia.
    + split; [easy|]. split; intros t Ht; easy.
    + split; [easy|]. split; intros t Ht; easy.
    + split; [easy|]. split; intros t Ht; easy.
  - easy.
  - easy.
  - unfold exact_bp. intros [| |s|] [| |s'|] t B B' Ht; cbn; try easy.
    rewrite Qle_bool_iff, !negb_true_iff, !Qle_bool_false. intros. eapply Qle_lt_trans; eauto.
  - unfold exact_bp. intros [| |s|] [| |s'|] t B B' Ht; cbn; try easy.
    rewrite Qle_bool_false, !negb_true_iff, !Qle_bool_false. intros. eapply Qlt_trans; eauto.
  - unfold exact_bp. intros [| |s|] t t' B Ht Ht'; cbn; try easy.
    rewrite !negb_true_iff, !Qle_bool_false. intros. eapply Qlt_le_trans; [eassumption|].
    apply inject_le. lia.
Qed.
