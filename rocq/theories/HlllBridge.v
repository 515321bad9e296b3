(** R-factors and the rational Gram-Schmidt coefficients of QGs.v; transformations
    applied to linear combinations.  Not part of the model: used to prove that
    hlll() ends. *)
From Coq Require Import List ZArith QArith Qcanon Qreals Reals Lra Lia Arith Bool.
From Flocq Require Import Core.
From Verif Require Import Util QcUtil LatticeSpec GsoModel GsoFModel GsoFSpec GsoQ QGs GramDet LatPot LllSpec LllSpecFacts
  HouseReal HouseRun HlllSpec HlllSpecFacts.
From Verif Require PropLllTotal.
Import ListNotations.
Local Open Scope R_scope.

Notation qr := PropLllTotal.qr.

Lemma qr_mul x y : qr (x * y)%Qc = qr x * qr y. Proof. apply PropLllTotal.qr_mul. Qed.
Lemma qr_z n : qr (Qcz n) = IZR n. Proof. apply PropLllTotal.qr_z. Qed.
Lemma qr_0 : qr 0%Qc = 0. Proof. apply (qr_z 0). Qed.
Lemma qr_add x y : qr (x + y)%Qc = qr x + qr y.
Proof. unfold qr. rewrite <- Q2R_plus. apply Qeq_eqR. apply Qred_correct. Qed.
Lemma qr_opp x : qr (- x)%Qc = - qr x.
Proof. unfold qr. rewrite <- Q2R_opp. apply Qeq_eqR. apply Qred_correct. Qed.
Lemma qr_sub x y : qr (x - y)%Qc = qr x - qr y.
Proof. unfold Qcminus. rewrite qr_add, qr_opp. ring. Qed.
Lemma qr_div x y : y <> 0%Qc -> qr (x / y)%Qc = qr x / qr y.
Proof.
  intros H. assert (E : qr (x / y * y)%Qc = qr x) by (f_equal; field; auto). rewrite qr_mul in E. rewrite <- E.
  assert (qr y <> 0).
  { intros Q. apply H. apply Qcle_antisym; apply PropLllTotal.qr_le; rewrite qr_0; lra. }
  field. auto.
Qed.
Lemma qr_pos x : (0 < x)%Qc -> 0 < qr x.
Proof. intros H. rewrite <- qr_0. apply PropLllTotal.qr_lt. auto. Qed.
Lemma qr_inj x y : qr x = qr y -> x = y.
Proof. intros H. apply Qcle_antisym; apply PropLllTotal.qr_le; lra. Qed.
Lemma qr_sum n f : qr (qsum n f) = rsum n (fun i => qr (f i)).
Proof. induction n; [apply qr_0|]. cbn [qsum]. rewrite rsum_S, qr_add, IHn. auto. Qed.

(** independence over the real numbers gives positive squared norms *)
Lemma rows_independent_pos c B : rows_independent c B -> all_pos c B (length B).
Proof.
  intros H. assert (I : LllSpec.independent c B (length B)).
  { intros x Hx i Hi. apply qr_inj. rewrite qr_0. apply (H (fun i => qr (x i))); auto.
    intros l Hl. rewrite <- qr_0, <- (Hx l Hl), qr_sum. apply rsum_ext. intros j Hj. rewrite qr_mul. f_equal.
    symmetry. apply qr_z. }
  intros j Hj. eapply independent_pos; eauto.
Qed.

(** entries of the R-factor are the coefficients of the orthogonalisation *)
Section Bridge.
Variables (c : nat) (B : list (list Z)) (r : nat -> nat -> R).
Hypothesis RF : r_factor c B r.
Hypothesis AP : all_pos c B (length B).

Lemma bridge j : forall i, (j <= i < length B)%nat -> r i j * r j j = qr (qR c B i j).
Proof.
  induction j as [j IH] using lt_wf_ind. intros i Hi.
  rewrite (rf_entry c B r i j RF) by lia. rewrite qR_eq, qr_sub, gq_z, qr_z, qr_sum. f_equal. apply rsum_ext.
  intros l Hl. pose proof (AP l ltac:(lia)) as P. pose proof (qr_pos _ P) as P'.
  rewrite qM_eq, qr_mul, qr_div by (intros Q; rewrite Q in P; discriminate).
  rewrite <- !(IH l) by lia. rewrite <- (IH l Hl l) in P' by lia. field. nra.
Qed.
Lemma bridge_pos j : (j < length B)%nat -> 0 < r j j.
Proof.
  intros Hj. pose proof (bridge j j ltac:(lia)) as E. pose proof (qr_pos _ (AP j Hj)) as P. rewrite <- E in P.
  destruct RF as [_ NN _]. specialize (NN j Hj). nra.
Qed.
Lemma bridge_proj k i : (i <= k < length B)%nat ->
  qr (qproj c B k i) = IZR (inner c (nth k B []) (nth k B [])) - rsum i (fun l => r k l * r k l).
Proof.
  intros H. unfold qproj. rewrite qr_sub, gq_z, qr_z, qr_sum. f_equal. apply rsum_ext. intros l Hl.
  pose proof (AP l ltac:(lia)) as P. pose proof (qr_pos _ P) as P'.
  rewrite qM_eq, qr_mul, qr_div by (intros Q; rewrite Q in P; discriminate).
  rewrite <- !(bridge l) by lia. rewrite <- (bridge l l) in P' by lia. field. nra.
Qed.
End Bridge.

(** ** linear combinations *)
Lemma hs_comb n j v sg a b f g l :
  hs n j v sg (fun l => a * f l + b * g l) l = a * hs n j v sg f l + b * hs n j v sg g l.
Proof.
  unfold hs.
  replace (rs (fun l0 => v l0 * (a * f l0 + b * g l0)) j (n - j))
    with (a * rs (fun l0 => v l0 * f l0) j (n - j) + b * rs (fun l0 => v l0 * g l0) j (n - j)).
  - destruct (l <? j)%nat, (l =? j)%nat; ring.
  - rewrite <- !rs_scal, <- rs_add. apply rs_ext. intros. ring.
Qed.
Lemma ah_comb n V sg k a b f g : (k <= n)%nat -> forall l, (l < n)%nat ->
  ah n V sg k (fun l => a * f l + b * g l) l = a * ah n V sg k f l + b * ah n V sg k g l.
Proof.
  induction k; intros Hk l Hl; cbn [ah]; auto.
  rewrite <- hs_comb. apply hs_ext; auto. intros. apply IHk; lia.
Qed.

(** ** rounding *)
Lemma near_half x : Rabs (IZR (ZnearestE x) - x) <= / 2.
Proof. rewrite Rabs_minus_sym. apply Znearest_half. Qed.
Lemma near_0 x : Rabs x <= / 2 -> ZnearestE x = 0%Z.
Proof.
  intros H. destruct (Rle_lt_or_eq_dec _ _ H) as [L|E].
  - apply Znearest_imp. rewrite Rminus_0_r. auto.
  - unfold Rabs in E. destruct (Rcase_abs x) as [N|N].
    + assert (X : x = - / 2) by lra. subst x. unfold Znearest.
      rewrite (Zfloor_imp (-1)) by (cbn; lra). rewrite (Zceil_imp 0) by (cbn; lra).
      rewrite Rcompare_Eq by (cbn; lra). reflexivity.
    + subst x. unfold Znearest.
      rewrite (Zfloor_imp 0) by (cbn; lra). rewrite (Zceil_imp 1) by (cbn; lra).
      rewrite Rcompare_Eq by (cbn; lra). reflexivity.
Qed.
