(** Exact Gram-Schmidt coefficients of an integer basis over the rationals. *)
From Coq Require Import List ZArith QArith Qcanon Lia Lqa Arith Bool.
From Verif Require Import Util QcUtil LatticeSpec GsoModel GsoFModel GsoFSpec GsoQ.
Import ListNotations.
Local Open Scope Qc_scope.

(** inner product of rows i, j of B over c columns *)
Definition gq (c : nat) (B : list (list Z)) (i j : nat) : Qc := qdot c (zq (nth i B [])) (zq (nth j B [])).
Definition qR (c : nat) (B : list (list Z)) (i j : nat) : Qc := refR qc_ops (gq c B) i j.
Definition qM (c : nat) (B : list (list Z)) (i j : nat) : Qc := refM qc_ops (gq c B) i j.
(** orthogonalised vectors; [n] is fuel >= i *)
Fixpoint qst (c : nat) (B : list (list Z)) (n i k : nat) : Qc :=
  match n with
  | O => zq (nth i B []) k
  | S n' => zq (nth i B []) k - qsum i (fun j => qM c B i j * qst c B n' j k)
  end.
Definition qS (c : nat) (B : list (list Z)) (i k : nat) : Qc := qst c B i i k.
(** squared norm of row k minus its components along the first i orthogonalised vectors *)
Definition qproj (c : nat) (B : list (list Z)) (k i : nat) : Qc :=
  gq c B k k - qsum i (fun j => qM c B k j * qR c B k j).

Section S.
Variable c : nat.
Notation gq := (gq c). Notation qR := (qR c). Notation qM := (qM c). Notation qS := (qS c). Notation qproj := (qproj c).

Lemma qst_fuel B : forall i n m k, (i <= n)%nat -> (i <= m)%nat -> qst c B n i k = qst c B m i k.
Proof.
  induction i as [i IH] using lt_wf_ind. intros n m k Hn Hm.
  destruct i as [|i].
  - destruct n, m; simpl; ring.
  - destruct n as [|n]; [lia|]. destruct m as [|m]; [lia|]. cbn [qst]. f_equal. apply qsum_ext. intros j Hj.
    f_equal. apply IH; lia.
Qed.
Lemma qS_eq B i k : qS B i k = zq (nth i B []) k - qsum i (fun j => qM B i j * qS B j k).
Proof.
  unfold QGs.qS at 1. rewrite (qst_fuel B i i (S i)) by lia. cbn [qst]. f_equal. apply qsum_ext. intros j Hj.
  f_equal. apply qst_fuel; lia.
Qed.
Lemma qR_eq B i j : qR B i j = gq B i j - qsum j (fun k => qM B j k * qR B i k).
Proof. apply refR_q. Qed.
Lemma qM_eq B i j : qM B i j = qR B i j / qR B j j.
Proof. reflexivity. Qed.
Lemma gq_sym B i j : gq B i j = gq B j i.
Proof. apply qdot_comm. Qed.

Lemma qR_dot B i j : (j <= i)%nat -> qR B i j = qdot c (zq (nth i B [])) (qS B j).
Proof.
  intros H. apply (gs_r_dot c (S i) (fun i => zq (nth i B [])) (qS B) (qM B) (qR B)); auto.
  - intros; apply qS_eq.
  - intros; apply qR_eq.
Qed.
Lemma qR_norm B i : qR B i i = qdot c (qS B i) (qS B i).
Proof.
  apply (gs_both c (S i) (fun i => zq (nth i B [])) (qS B) (qM B) (qR B)); auto.
  - intros; apply qS_eq.
  - intros; apply qR_eq.
Qed.
Lemma qS_orth B i j : (j < i)%nat -> qdot c (qS B i) (qS B j) = 0.
Proof.
  apply (gs_both c (S i) (fun i => zq (nth i B [])) (qS B) (qM B) (qR B)); auto.
  - intros; apply qS_eq.
  - intros; apply qR_eq.
Qed.
Lemma qR_M B i j : (j < i)%nat -> qR B i j = qM B i j * qR B j j.
Proof.
  intros H. apply (gs_mu_r c (S i) (fun i => zq (nth i B [])) (qS B) (qM B) (qR B)); auto.
  - intros; apply qS_eq.
  - intros; apply qR_eq.
Qed.
Lemma qR_nonneg B i : 0 <= qR B i i.
Proof. rewrite qR_norm. apply qdot_nonneg. Qed.

Lemma qproj_0 B k : qproj B k 0 = gq B k k.
Proof. unfold QGs.qproj. simpl. ring. Qed.
Lemma qproj_S B k i : (i < k)%nat -> qproj B k (S i) = qproj B k i - qM B k i * qM B k i * qR B i i.
Proof. intros H. unfold QGs.qproj. cbn [qsum]. rewrite (qR_M B k i) by auto. ring. Qed.
Lemma qproj_diag B k : qproj B k k = qR B k k.
Proof. unfold QGs.qproj. rewrite (qR_eq B k k). auto. Qed.

(** ** changing the basis *)
Lemma gq_ext B B' i j i' j' : nth i' B' [] = nth i B [] -> nth j' B' [] = nth j B [] -> gq B' i' j' = gq B i j.
Proof. unfold QGs.gq. intros -> ->. auto. Qed.

Lemma qR_move B B' k i j : (j <= i)%nat -> (forall a, (a < i)%nat -> nth a B' [] = nth a B []) -> nth i B' [] = nth k B [] ->
  (j < i)%nat -> qR B' i j = qR B k j /\ qM B' i j = qM B k j.
Proof.
  intros H H1 H2 Hj. split.
  - apply (refR_reindex qc_ops).
    + intros a Ha. apply gq_ext; auto. apply H1. lia.
    + intros a b Hb Ha _. apply gq_ext; apply H1; lia.
  - apply (refM_reindex qc_ops).
    + intros a Ha. apply gq_ext; auto. apply H1. lia.
    + intros a b Hb Ha. apply gq_ext; apply H1; lia.
Qed.
Lemma qR_same B B' i j : (j <= i)%nat -> (forall a, (a <= i)%nat -> nth a B' [] = nth a B []) -> qR B' i j = qR B i j.
Proof.
  intros H H1. apply (refR_reindex qc_ops).
  - intros a Ha. apply gq_ext; apply H1; lia.
  - intros a b Hb Ha _. apply gq_ext; apply H1; lia.
Qed.
Lemma qM_same B B' i j : (j <= i)%nat -> (forall a, (a <= i)%nat -> nth a B' [] = nth a B []) -> qM B' i j = qM B i j.
Proof. intros H H1. rewrite !qM_eq. rewrite (qR_same B B' i j), (qR_same B B' j j); auto. intros. apply H1. lia. Qed.
Lemma qproj_same B B' k i : (i <= k)%nat -> (forall a, (a <= k)%nat -> nth a B' [] = nth a B []) -> qproj B' k i = qproj B k i.
Proof.
  intros H H1. unfold QGs.qproj. f_equal. { apply gq_ext; apply H1; lia. }
  apply qsum_ext. intros j Hj. rewrite (qM_same B B' k j), (qR_same B B' k j); auto; lia.
Qed.
(** the norm of b*_i once row k is moved to position i *)
Lemma qR_proj B B' k i : (forall a, (a < i)%nat -> nth a B' [] = nth a B []) -> nth i B' [] = nth k B [] ->
  qR B' i i = qproj B k i.
Proof.
  intros H1 H2. rewrite qR_eq. unfold QGs.qproj. f_equal. { apply gq_ext; auto. } apply qsum_ext. intros j Hj.
  destruct (qR_move B B' k i j) as [-> ->]; auto. lia.
Qed.
Lemma qproj_nonneg B k i : 0 <= qproj B k i.
Proof.
  rewrite <- (qR_proj B (map (fun a => nth (if (a <? i)%nat then a else k) B []) (seq 0 (S i))) k i); [apply qR_nonneg| |].
  - intros a Ha. rewrite map_nth_lt with (d := O) by (rewrite seq_length; lia). rewrite seq_nth by lia.
    destruct (Nat.ltb_spec (0 + a) i); [auto|lia].
  - rewrite map_nth_lt with (d := O) by (rewrite seq_length; lia). rewrite seq_nth by lia.
    destruct (Nat.ltb_spec (0 + i) i); [lia|auto].
Qed.

(** ** zero rows *)
Definition zrow (r : list Z) : Prop := forall k, (k < c)%nat -> nth k r 0%Z = 0%Z.
Lemma zrow_R B i j : zrow (nth i B []) -> (j <= i)%nat -> qR B i j = 0.
Proof. intros H Hj. rewrite qR_dot by auto. apply qdot_0_l. intros k Hk. unfold zq. rewrite H by auto. reflexivity. Qed.
Lemma zrow_M B i j : zrow (nth i B []) -> (j <= i)%nat -> qM B i j = 0.
Proof. intros H Hj. rewrite qM_eq, zrow_R by auto. unfold Qcdiv. ring. Qed.
Lemma gq_zrow B i : gq B i i = 0 -> zrow (nth i B []).
Proof.
  intros H k Hk. apply qdot_0 with (k := k) in H; auto. unfold zq in H. apply Qcz_inj. rewrite H. reflexivity.
Qed.

(** ** scaling *)
Lemma ref_scale (G G' : nat -> nat -> Qc) (s : nat -> Qc) n :
  (forall i, (i < n)%nat -> s i <> 0) ->
  (forall i j, (j <= i)%nat -> (i < n)%nat -> G' i j = G i j * s i * s j) ->
  forall j i, (j <= i)%nat -> (i < n)%nat ->
   refR qc_ops G' i j = refR qc_ops G i j * s i * s j /\
   refM qc_ops G' i j = refM qc_ops G i j * s i / s j.
Proof.
  intros Hs HG. induction j as [j IH] using lt_wf_ind.
  assert (HR : forall i, (j <= i)%nat -> (i < n)%nat -> refR qc_ops G' i j = refR qc_ops G i j * s i * s j).
  { intros i Hj Hi. rewrite (refR_q G'), (refR_q G). rewrite HG by auto.
    rewrite (qsum_ext j _ (fun k => (refM qc_ops G j k * refR qc_ops G i k) * (s i * s j))).
    - rewrite (qsum_scal_r j). change (F qc_ops) with Qc; ring.
    - intros k Hk. destruct (IH k Hk j) as [_ ->]; try lia. destruct (IH k Hk i) as [-> _]; try lia.
      field. apply Hs. lia. }
  intros i Hj Hi. split; auto. unfold refM. rewrite !HR by lia. simpl.
  pose proof (Hs i Hi). pose proof (Hs j ltac:(lia)).
  destruct (Qc_eq_dec (refR qc_ops G j j) 0) as [E|E].
  - rewrite E. unfold Qcdiv. replace (0 * s j * s j) with 0 by ring. replace (/ 0) with 0 by reflexivity. ring.
  - field. auto.
Qed.
End S.
