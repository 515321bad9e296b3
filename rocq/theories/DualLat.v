(** The dual of a projected block: lengths in terms of Gram-Schmidt coefficients, and how it changes under row operations.
    Not part of the model (proofs for PropBkzDual.v). *)
From Coq Require Import List ZArith QArith Qcanon Lia Lqa Arith Bool.
From Verif Require Import Util QcUtil LatticeSpec GsoModel GsoFModel GsoFSpec GsoQ QGs LllSpec LllSpecFacts GramDet LatPot LllTotal EnumSpec EnumLink BkzSpec LatProj
  BkzModel BkzProofs PropBkz BlockAct BkzExact EnumDual BkzDualSpec.
Import ListNotations.
Local Open Scope Qc_scope.

Lemma qsum_rev n f : qsum n f = qsum n (fun i => f (n - 1 - i)%nat).
Proof.
  induction n as [|n IH]; [reflexivity|]. transitivity (qsum n f + f n); [reflexivity|]. rewrite IH.
  assert (E : forall g, qsum (S n) g = g 0%nat + qsum n (fun i => g (S i))) by (intros g; change (S n) with (1 + n)%nat; rewrite qsum_split; cbn [qsum]; cbn [Nat.add]; ring).
  rewrite E. replace (S n - 1 - 0)%nat with n by lia. rewrite (qsum_ext n (fun i => f (S n - 1 - S i)%nat) (fun i => f (n - 1 - i)%nat)) by (intros; f_equal; lia). ring.
Qed.
Lemma qsum_low n i f : (i <= n)%nat -> qsum n (fun j => if (j <? i)%nat then f j else 0) = qsum i f.
Proof.
  intros H. replace n with (i + (n - i))%nat by lia. rewrite qsum_split, (qsum_0 (n - i)).
  - rewrite Qcplus_0_r. apply qsum_ext. intros j Hj. destruct (Nat.ltb_spec j i); [auto|lia].
  - intros j Hj. destruct (Nat.ltb_spec (i + j) i); [lia|auto].
Qed.

(** ** length of a dual vector from its inner products y with the rows *)
Definition dlen (d : nat) (mu : nat -> nat -> Qc) (r : nat -> Qc) (y : list Z) : Qc := vlen d (dnu d mu) (dr d r) (rev y).
(** inner products with the Gram-Schmidt vectors *)
Definition betas (d : nat) (mu : nat -> nat -> Qc) (y : list Z) (b : nat -> Qc) : Prop :=
  forall i, (i < d)%nat -> b i = Qcz (nth i y 0%Z) - qsum i (fun j => mu i j * b j).
Lemma flip_eq d mu (x : nat -> Z) b k : (k < d)%nat ->
  Qcz (x (d - 1 - k)%nat) + sfrom d (S k) (fun l => dmut d mu k l * b (d - 1 - l)%nat) = Qcz (x (d - 1 - k)%nat) - qsum (d - 1 - k) (fun j => mu (d - 1 - k)%nat j * b j).
Proof.
  intros Hk. unfold Qcminus. f_equal. unfold sfrom. rewrite qsum_rev.
  rewrite <- (qsum_low d (d - 1 - k)) by lia.
  rewrite (qsum_ext d _ (fun j => (- (1)) * (if (j <? d - 1 - k)%nat then mu (d - 1 - k)%nat j * b j else 0))).
  - rewrite qsum_scal. ring.
  - intros j Hj. unfold dmut. destruct (Nat.leb_spec (S k) (d - 1 - j)), (Nat.ltb_spec j (d - 1 - k)); try lia; [|ring].
    replace (d - k - 1)%nat with (d - 1 - k)%nat by lia. replace (d - (d - 1 - j) - 1)%nat with j by lia. replace (d - 1 - (d - 1 - j))%nat with j by lia. ring.
Qed.
Lemma betas_exist d mu y : exists b, betas d mu y b.
Proof.
  exists (fun i => al d (dmut d mu) (fun l => Qcz (nth (d - 1 - l) y 0%Z)) (d - 1 - i)%nat). intros i Hi.
  rewrite al_eq by lia. replace (d - 1 - (d - 1 - i))%nat with i by lia.
  pose proof (flip_eq d mu (fun i => nth i y 0%Z) (fun i => al d (dmut d mu) (fun l => Qcz (nth (d - 1 - l) y 0%Z)) (d - 1 - i)%nat) (d - 1 - i)%nat ltac:(lia)) as E.
  replace (d - 1 - (d - 1 - i))%nat with i in E by lia. cbn beta in E. rewrite <- E. f_equal.
  unfold sfrom. apply qsum_ext. intros l Hl. destruct (Nat.leb _ _); auto. replace (d - 1 - (d - 1 - l))%nat with l by lia. reflexivity.
Qed.
Lemma dlen_betas d mu r y b : length y = d -> betas d mu y b -> dlen d mu r y = qsum d (fun i => b i * b i * / r i).
Proof.
  intros HL HB. unfold dlen, vlen, plen. symmetry. rewrite qsum_rev. apply qsum_ext. intros k Hk. cbn [Nat.leb].
  assert (E : gcoord d (dnu d mu) no_target (rev y) k = b (d - 1 - k)%nat).
  { pose proof (gcoord_nu d (dmut d mu) (rev y) k Hk) as G. change (gcoord d (dnu d mu) no_target (rev y) k = al d (dmut d mu) (fun i => Qcz (nth i (rev y) 0%Z)) k) in G. rewrite G. symmetry.
    apply (al_unique d (dmut d mu) (fun i => Qcz (nth i (rev y) 0%Z)) (fun k => b (d - 1 - k)%nat)); auto.
    intros l Hl. rewrite (HB (d - 1 - l)%nat) by lia. rewrite <- (flip_eq d mu (fun i => nth i y 0%Z) b l Hl). f_equal. f_equal.
    rewrite rev_nth by lia. rewrite HL. f_equal. lia. }
  rewrite E. unfold dr. replace (d - k - 1)%nat with (d - 1 - k)%nat by lia. reflexivity.
Qed.
Lemma dlen_ext d mu mu' r r' y : length y = d -> (forall i j, (i < j < d)%nat -> mu j i = mu' j i) -> (forall i, (i < d)%nat -> r i = r' i) -> dlen d mu r y = dlen d mu' r' y.
Proof.
  intros HL H1 H2. destruct (betas_exist d mu y) as [b HB]. rewrite (dlen_betas d mu r y b HL HB).
  rewrite (dlen_betas d mu' r' y b HL); [apply qsum_ext; intros i Hi; rewrite H2; auto|].
  intros i Hi. rewrite (HB i Hi). f_equal. apply qsum_ext. intros j Hj. rewrite H1 by lia. auto.
Qed.

Section L.
Variable c : nat.
Notation R B := (qR c B). Notation M B := (qM c B). Notation S_ B := (qS c B).
Definition dv (B : list (list Z)) (k m : nat) (w : nat -> Qc) : Prop := dual_vec c B (S_ B) k m w.
Definition nz (w : nat -> Qc) : Prop := exists t, (t < c)%nat /\ w t <> 0.
(** in the span of the Gram-Schmidt vectors of the block *)
Definition inspan (B : list (list Z)) (k m : nat) (w : nat -> Qc) : Prop := exists x : nat -> Qc, forall t, (t < c)%nat -> w t = qsum m (fun i => x i * S_ B (k + i)%nat t).

Lemma span_full B k m x w : (forall t, (t < c)%nat -> w t = qsum m (fun i => x i * S_ B (k + i)%nat t)) ->
  forall t, (t < c)%nat -> w t = qsum (k + m) (fun a => (if (a <? k)%nat then 0 else x (a - k)%nat) * S_ B a t).
Proof.
  intros H t Ht. rewrite H by auto. rewrite qsum_split, (qsum_0 k).
  - rewrite Qcplus_0_l. apply qsum_ext. intros i Hi. destruct (Nat.ltb_spec (k + i) k); [lia|]. replace (k + i - k)%nat with i by lia. auto.
  - intros a Ha. destruct (Nat.ltb_spec a k); [ring|lia].
Qed.
Lemma span_ip B k m x w : (forall t, (t < c)%nat -> w t = qsum m (fun i => x i * S_ B (k + i)%nat t)) ->
  (forall j, (j < k)%nat -> qdot c w (S_ B j) = 0) /\ (forall i, (i < m)%nat -> qdot c w (S_ B (k + i)) = x i * R B (k + i) (k + i)).
Proof.
  intros H. pose proof (span_full B k m x w H) as HF. split.
  - intros j Hj. rewrite (qdot_orth c B (k + m) _ w j ltac:(lia) HF). destruct (Nat.ltb_spec j k); [ring|lia].
  - intros i Hi. rewrite (qdot_orth c B (k + m) _ w (k + i) ltac:(lia) HF). destruct (Nat.ltb_spec (k + i) k); [lia|]. replace (k + i - k)%nat with i by lia. auto.
Qed.
Lemma row_ip B i w : qdot c w (zq (nth i B [])) = qdot c w (S_ B i) + qsum i (fun j => M B i j * qdot c w (S_ B j)).
Proof.
  rewrite (qdot_ext c w w (S_ B i) (fun t => zq (nth i B []) t - qsum i (fun j => M B i j * S_ B j t))) by (auto; intros t _; apply qS_eq).
  rewrite qdot_sub_r, qdot_sum_r. ring.
Qed.
(** the inner products with the rows of a block determine the length *)
Lemma span_betas B k m w y : inspan B k m w -> length y = m -> (forall i, (i < m)%nat -> ip c w (qrow B (k + i)) = Qcz (nth i y 0%Z)) ->
  betas m (bmu c B k) y (fun i => qdot c w (S_ B (k + i))).
Proof.
  intros [x Hx] HL HY i Hi. destruct (span_ip B k m x w Hx) as [P1 P2].
  specialize (HY i Hi). change (ip c w (qrow B (k + i))) with (qdot c w (zq (nth (k + i) B []))) in HY. rewrite row_ip in HY. rewrite <- HY.
  rewrite qsum_split, (qsum_0 k) by (intros j Hj; rewrite P1 by auto; ring). unfold bmu. ring.
Qed.
Lemma span_len B k m w y : (forall i, (i < m)%nat -> R B (k + i) (k + i) <> 0) -> inspan B k m w -> length y = m -> (forall i, (i < m)%nat -> ip c w (qrow B (k + i)) = Qcz (nth i y 0%Z)) ->
  norm2 c w = dlen m (bmu c B k) (br c B k) y.
Proof.
  intros HR HS HL HY. rewrite (dlen_betas _ _ _ _ _ HL (span_betas B k m w y HS HL HY)). destruct HS as [x Hx]. destruct (span_ip B k m x w Hx) as [P1 P2].
  unfold norm2. rewrite ip_qdot. rewrite (qdot_ext c w w w (fun t => qsum m (fun i => x i * S_ B (k + i)%nat t))) by auto. rewrite qdot_sum_r.
  apply qsum_ext. intros i Hi. rewrite !P2 by auto. rewrite ?(P2 i Hi). unfold br. field. auto.
Qed.
(** every choice of inner products occurs *)
Lemma span_exists B k m (y : list Z) : (forall i, (i < m)%nat -> R B (k + i) (k + i) <> 0) ->
  exists w, inspan B k m w /\ forall i, (i < m)%nat -> ip c w (qrow B (k + i)) = Qcz (nth i y 0%Z).
Proof.
  intros HR. destruct (betas_exist m (bmu c B k) y) as [b HB].
  set (x := fun i => b i / R B (k + i) (k + i)). set (w := fun t => qsum m (fun i => x i * S_ B (k + i)%nat t)). exists w.
  assert (HS : forall t, (t < c)%nat -> w t = qsum m (fun i => x i * S_ B (k + i)%nat t)) by reflexivity.
  split; [exists x; auto|]. intros i Hi. destruct (span_ip B k m x w HS) as [P1 P2].
  change (ip c w (qrow B (k + i))) with (qdot c w (zq (nth (k + i) B []))). rewrite row_ip. rewrite qsum_split, (qsum_0 k) by (intros j Hj; rewrite P1 by auto; ring).
  assert (PB : forall j, (j < m)%nat -> qdot c w (S_ B (k + j)) = b j) by (intros j Hj; rewrite P2 by auto; unfold x; field; auto).
  rewrite PB, (HB i Hi) by auto. rewrite (qsum_ext i (fun j => M B (k + i) (k + j) * qdot c w (S_ B (k + j))) (fun j => bmu c B k i j * b j)) by (intros j Hj; rewrite PB by lia; auto). ring.
Qed.
(** a dual vector with its list of inner products *)
Lemma dv_list B k m w : dv B k m w -> exists y, length y = m /\ forall i, (i < m)%nat -> ip c w (qrow B (k + i)) = Qcz (nth i y 0%Z).
Proof.
  intros [_ H]. destruct (fin_choice 0%Z m (fun i y => ip c w (qrow B (k + i)) = Qcz y) H) as [Y HY].
  exists (map Y (seq 0 m)). rewrite map_length, seq_length. split; auto. intros i Hi. rewrite (nth_map_seq Y) by auto. auto.
Qed.
Lemma norm2_nz w : nz w -> 0 < norm2 c w.
Proof.
  intros [t [Ht Hw]]. destruct (Qclt_le_dec 0 (norm2 c w)) as [|L]; auto. exfalso. apply Hw. apply (qdot_0 c w); auto. apply Qcle_antisym; [exact L|apply qdot_nonneg].
Qed.
Lemma dlen_zero m mu r y : length y = m -> (forall i, (i < m)%nat -> nth i y 0%Z = 0%Z) -> dlen m mu r y = 0.
Proof.
  intros HL H. rewrite (dlen_betas m mu r y (fun _ => 0)); auto.
  - apply qsum_0. intros; ring.
  - intros i Hi. rewrite H by auto. rewrite qsum_0 by (intros; ring). rewrite Qcz_0. ring.
Qed.
Lemma dv_nonzero B k m w y : (forall i, (i < m)%nat -> R B (k + i) (k + i) <> 0) -> inspan B k m w -> length y = m -> (forall i, (i < m)%nat -> ip c w (qrow B (k + i)) = Qcz (nth i y 0%Z)) ->
  nz w -> nonzero y.
Proof.
  intros HR HS HL HY HN. apply norm2_nz in HN. rewrite (span_len B k m w y HR HS HL HY) in HN. apply (nonzero_lt m); auto.
  destruct (existsb (fun i => negb (nth i y 0 =? 0)%Z) (seq 0 m)) eqn:E.
  - apply existsb_exists in E. destruct E as [i [I1 I2]]. apply in_seq in I1. exists i. split; [lia|]. destruct (Z.eqb_spec (nth i y 0%Z) 0); [discriminate|auto].
  - exfalso. rewrite dlen_zero in HN; auto; [discriminate|]. intros i Hi. destruct (Z.eqb_spec (nth i y 0%Z) 0) as [Z0|Z0]; auto. exfalso.
    assert (existsb (fun i => negb (nth i y 0 =? 0)%Z) (seq 0 m) = true); [|congruence]. apply existsb_exists. exists i. split; [apply in_seq; lia|]. destruct (Z.eqb_spec (nth i y 0%Z) 0); auto.
Qed.
(** dual-reduced in terms of the coefficients *)
Definition dred (B : list (list Z)) (delta : Qc) (k m : nat) : Prop := dual_reduced c B (S_ B) delta k m.
Lemma dred_coef B delta k m : (forall i, (i < m)%nat -> R B (k + i) (k + i) <> 0) ->
  (forall y, length y = m -> nonzero y -> delta <= R B (k + m - 1)%nat (k + m - 1)%nat * dlen m (bmu c B k) (br c B k) y) -> dred B delta k m.
Proof.
  intros HR H w HV HN. destruct (dv_list B k m w HV) as [y [HL HY]]. destruct HV as [HS _].
  change (norm2 c (S_ B (k + m - 1))) with (qdot c (S_ B (k + m - 1)) (S_ B (k + m - 1))). rewrite <- qR_norm. rewrite (span_len B k m w y HR HS HL HY). apply H; auto.
  eapply dv_nonzero; eauto.
Qed.

(** ** change of basis within a block *)
(** the span of the orthogonalised vectors *)
Lemma span_trans B B' n : (forall a, (a < n)%nat -> exists x : nat -> Qc, forall t, (t < c)%nat -> zq (nth a B' []) t = qsum n (fun b => x b * zq (nth b B []) t)) ->
  forall i, (i < n)%nat -> exists x : nat -> Qc, forall t, (t < c)%nat -> S_ B' i t = qsum n (fun j => x j * S_ B j t).
Proof.
  intros H i. induction i as [i IH] using lt_wf_ind. intros Hi. destruct (H i Hi) as [x Hx]. pose proof (comb_orth c B n x (zq (nth i B' [])) Hx) as HC.
  destruct (fin_choice (fun _ : nat => 0) i (fun j x => forall t, (t < c)%nat -> S_ B' j t = qsum n (fun j => x j * S_ B j t))) as [Y HY]; [intros j Hj; apply IH; lia|].
  exists (fun j => crd c B n x j - qsum i (fun l => M B' i l * Y l j)). intros t Ht. rewrite qS_eq, HC by auto.
  rewrite (qsum_ext i _ (fun l => qsum n (fun j => M B' i l * Y l j * S_ B j t))).
  - rewrite qsum_swap, <- qsum_minus. apply qsum_ext. intros j Hj. rewrite qsum_scal_r. ring.
  - intros l Hl. rewrite HY by auto. rewrite <- qsum_scal. apply qsum_ext. intros; ring.
Qed.
Lemma inspan_trans B B' k m w : (forall j, (j < k)%nat -> 0 < R B j j) -> (forall a, (a < k)%nat -> nth a B' [] = nth a B []) ->
  (forall a, (a < k + m)%nat -> exists x : nat -> Qc, forall t, (t < c)%nat -> zq (nth a B' []) t = qsum (k + m) (fun b => x b * zq (nth b B []) t)) ->
  inspan B' k m w -> inspan B k m w.
Proof.
  intros HP HK H [x Hx]. pose proof (span_full B' k m x w Hx) as HF. destruct (span_ip B' k m x w Hx) as [P1 _].
  destruct (fin_choice (fun _ : nat => 0) (k + m) (fun a x => forall t, (t < c)%nat -> S_ B' a t = qsum (k + m) (fun j => x j * S_ B j t)) (span_trans B B' (k + m) H)) as [Y HY].
  set (z := fun j => qsum (k + m) (fun a => (if (a <? k)%nat then 0 else x (a - k)%nat) * Y a j)).
  assert (HZ : forall t, (t < c)%nat -> w t = qsum (k + m) (fun j => z j * S_ B j t)).
  { intros t Ht. rewrite HF by auto. rewrite (qsum_ext (k + m) _ (fun a => qsum (k + m) (fun j => (if (a <? k)%nat then 0 else x (a - k)%nat) * Y a j * S_ B j t))).
    - rewrite qsum_swap. apply qsum_ext. intros j Hj. unfold z. rewrite qsum_scal_r. auto.
    - intros a Ha. rewrite HY by auto. rewrite <- qsum_scal. apply qsum_ext. intros; ring. }
  exists (fun i => z (k + i)%nat). intros t Ht. rewrite HZ, qsum_split, (qsum_0 k) by (auto; intros j Hj; 
    assert (E : z j * R B j j = 0) by (rewrite <- (qdot_orth c B (k + m) z w j ltac:(lia) HZ), <- (P1 j Hj); apply qdot_ext; auto; intros t' _; symmetry; apply qS_same; intros; apply HK; lia);
    specialize (HP j Hj); assert (E2 : z j = 0) by (transitivity (z j * R B j j / R B j j); [field; intros X; rewrite X in HP; discriminate|rewrite E; field; intros X; rewrite X in HP; discriminate]);
    rewrite E2; ring). ring.
Qed.

(** adding earlier rows to a row does not change the dual of a block *)
Lemma dv_row B B' kp n k m w : row_changed c B B' kp -> (n <= length B)%nat -> (kp < n)%nat -> all_pos c B n -> (k + m <= n)%nat -> dv B k m w -> dv B' k m w.
Proof.
  intros HR Hn Hkp HA Hk [[x Hx] HI]. pose proof (row_changed_S c B B' kp n HR Hn HA) as HS. destruct (span_ip B k m x w Hx) as [P1 _]. split.
  - exists x. intros t Ht. rewrite Hx by auto. apply qsum_ext. intros i Hi. rewrite (proj1 (HS (k + i)%nat ltac:(lia))) by auto. auto.
  - assert (PR : forall a, (a < k + m)%nat -> exists y, ip c w (qrow B a) = Qcz y).
    { intros a Ha. destruct (Nat.lt_ge_cases a k) as [L|L].
      - exists 0%Z. change (ip c w (qrow B a)) with (qdot c w (zq (nth a B []))). rewrite row_ip, P1 by auto. rewrite qsum_0 by (intros j Hj; rewrite P1 by lia; ring). rewrite Qcz_0. ring.
      - replace a with (k + (a - k))%nat by lia. apply HI. lia. }
    intros i Hi. destruct HR as [H1 [xx H2]]. destruct (Nat.eq_dec (k + i) kp) as [E|E].
    + destruct (fin_choice 0%Z kp (fun a y => ip c w (qrow B a) = Qcz y)) as [Y HY]; [intros a Ha; apply PR; lia|]. destruct (PR kp ltac:(lia)) as [y0 Hy0].
      exists (y0 + zsum kp (fun a => xx a * Y a))%Z. rewrite E, Qcz_add, <- Hy0, Qcz_sum.
      transitivity (ip c w (fun t => qrow B kp t + qsum kp (fun a => Qcz (xx a) * qrow B a t))).
      * unfold ip. apply qsum_ext. intros t Ht. unfold qrow at 1. rewrite H2, Qcz_add, Qcz_sum by auto. unfold qrow. f_equal. f_equal. apply qsum_ext. intros a Ha. rewrite Qcz_mul. auto.
      * unfold ip. rewrite (qsum_ext c _ (fun t => w t * qrow B kp t + qsum kp (fun a => Qcz (xx a) * (w t * qrow B a t)))).
        -- rewrite qsum_plus. f_equal. rewrite qsum_swap. apply qsum_ext. intros a Ha. rewrite qsum_scal. rewrite Qcz_mul, <- (HY a Ha). reflexivity.
        -- intros t Ht. rewrite Qcmult_plus_distr_r, <- qsum_scal. f_equal. apply qsum_ext. intros; ring.
    + destruct (HI i Hi) as [y Hy]. exists y. rewrite <- Hy. unfold ip. apply qsum_ext. intros t Ht. unfold qrow, ent. rewrite H1 by (auto; lia). auto.
Qed.
Lemma dred_row B B' kp n delta k m : row_changed c B B' kp -> length B = n -> length B' = n -> (kp < n)%nat -> all_pos c B n -> (0 < m)%nat -> (k + m <= n)%nat -> dred B delta k m -> dred B' delta k m.
Proof.
  intros HR HL HL' Hkp HA Hm Hk H w HV HN.
  pose proof (row_changed_pos c B B' kp n HR ltac:(lia) HA) as HA'. pose proof (row_changed_rev c B B' kp ltac:(lia) ltac:(lia) HR) as HR'.
  change (norm2 c (S_ B' (k + m - 1))) with (qdot c (S_ B' (k + m - 1)) (S_ B' (k + m - 1))). rewrite <- qR_norm.
  rewrite (proj2 (row_changed_S c B B' kp n HR ltac:(lia) HA (k + m - 1)%nat ltac:(lia))). rewrite qR_norm. apply H; auto.
  apply (dv_row B' B kp n); auto. lia.
Qed.
End L.

(** ** the effect of the dual insertion of the vector with inner products y *)
Section P.
Variables (c D : nat).
Notation R B := (qR c B). Notation M B := (qM c B). Notation S_ B := (qS c B).
Definition dput (B B' : list (list Z)) (kappa m : nat) (y : list Z) : Prop :=
  length B' = length B /\
  (forall a, (a < D)%nat -> (a < kappa \/ kappa + m <= a)%nat -> nth a B' [] = nth a B []) /\
  (forall v, LB c D B' v <-> LB c D B v) /\
  (forall a, (a < m)%nat -> exists X : nat -> Z, forall t, (t < c)%nat -> ent B (kappa + a) t = zsum m (fun b => X b * ent B' (kappa + b) t)%Z) /\
  (forall a, (a < m)%nat -> exists X : nat -> Z, forall t, (t < c)%nat -> ent B' (kappa + a) t = zsum m (fun b => X b * ent B (kappa + b) t)%Z) /\
  exists s, pm1 s /\ forall w, (forall i, (i < m)%nat -> ip c w (qrow B (kappa + i)) = Qcz (nth i y 0%Z)) ->
    forall i, (i < m)%nat -> ip c w (qrow B' (kappa + i)) = Qcz (if (i =? m - 1)%nat then s else 0%Z).

Definition dblen (B : list (list Z)) (kappa m : nat) (y : list Z) : Qc := dlen m (bmu c B kappa) (br c B kappa) y.

Lemma comb_all B B' kappa m : (forall a, (a < kappa)%nat -> nth a B' [] = nth a B []) ->
  (forall a, (a < m)%nat -> exists X : nat -> Z, forall t, (t < c)%nat -> ent B' (kappa + a) t = zsum m (fun b => X b * ent B (kappa + b) t)%Z) ->
  forall a, (a < kappa + m)%nat -> exists x : nat -> Qc, forall t, (t < c)%nat -> zq (nth a B' []) t = qsum (kappa + m) (fun b => x b * zq (nth b B []) t).
Proof.
  intros H1 H2 a Ha. destruct (Nat.lt_ge_cases a kappa) as [L|L].
  - exists (fun b => if (b =? a)%nat then 1 else 0). intros t Ht. rewrite H1 by auto.
    rewrite (qsum_single (kappa + m) a); [rewrite Nat.eqb_refl; ring|lia|]. intros i Hi Hn. destruct (Nat.eqb_spec i a); [congruence|ring].
  - destruct (H2 (a - kappa)%nat ltac:(lia)) as [X HX]. replace (kappa + (a - kappa))%nat with a in HX by lia.
    exists (fun b => if (b <? kappa)%nat then 0 else Qcz (X (b - kappa)%nat)). intros t Ht. change (zq (nth a B' []) t) with (Qcz (ent B' a t)). rewrite HX, Qcz_sum by auto.
    rewrite qsum_split, (qsum_0 kappa), Qcplus_0_l.
    + apply qsum_ext. intros b Hb. destruct (Nat.ltb_spec (kappa + b) kappa); [lia|]. replace (kappa + b - kappa)%nat with b by lia. rewrite Qcz_mul. reflexivity.
    + intros b Hb. destruct (Nat.ltb_spec b kappa); [ring|lia].
Qed.
Lemma dlen_unit m mu r s : (0 < m)%nat -> pm1 s -> dlen m mu r (map (fun i => if (i =? m - 1)%nat then s else 0%Z) (seq 0 m)) = / r (m - 1)%nat.
Proof.
  intros Hm Hs. rewrite (dlen_betas m mu r _ (fun i => if (i =? m - 1)%nat then Qcz s else 0)).
  - rewrite (qsum_single m (m - 1)%nat); [|lia|intros i Hi Hn; destruct (Nat.eqb_spec i (m - 1)); [lia|ring]].
    rewrite Nat.eqb_refl, <- Qcz_mul. replace (s * s)%Z with 1%Z by (destruct Hs; subst; auto). rewrite Qcz_1. ring.
  - rewrite map_length, seq_length. auto.
  - intros i Hi. rewrite (nth_map_seq (fun i => if (i =? m - 1)%nat then s else 0%Z)) by auto.
    rewrite (qsum_0 i) by (intros j Hj; destruct (Nat.eqb_spec j (m - 1)); [lia|ring]). destruct (Nat.eqb_spec i (m - 1)); [ring|rewrite Qcz_0; ring].
Qed.
Lemma dput_R B B' kappa m y : all_pos c B D -> all_pos c B' D -> (0 < m)%nat -> (kappa + m <= D)%nat -> length y = m -> dput B B' kappa m y ->
  R B' (kappa + m - 1)%nat (kappa + m - 1)%nat * dblen B kappa m y = 1.
Proof.
  intros HA HA' Hm HD HL (H1 & H2 & H3 & H4 & H5 & s & Hs & H6).
  assert (NZ : forall C, all_pos c C D -> forall i, (i < m)%nat -> R C (kappa + i) (kappa + i) <> 0).
  { intros C HC i Hi E. specialize (HC (kappa + i)%nat ltac:(lia)). rewrite E in HC. discriminate. }
  destruct (span_exists c B kappa m y (NZ B HA)) as [w [W1 W2]].
  assert (W3 : inspan c B' kappa m w).
  { apply (inspan_trans c B' B); auto; [intros j Hj; apply HA'; lia|intros a Ha; symmetry; apply H2; lia|]. apply comb_all; auto. intros a Ha. symmetry. apply H2; lia. }
  assert (N1 : norm2 c w = dblen B kappa m y) by (apply span_len; auto).
  assert (N2 : norm2 c w = / R B' (kappa + m - 1)%nat (kappa + m - 1)%nat).
  { rewrite (span_len c B' kappa m w (map (fun i => if (i =? m - 1)%nat then s else 0%Z) (seq 0 m))); auto.
    - rewrite dlen_unit by auto. unfold br. replace (kappa + (m - 1))%nat with (kappa + m - 1)%nat by lia. auto.
    - rewrite map_length, seq_length. auto.
    - intros i Hi. rewrite (nth_map_seq (fun i => if (i =? m - 1)%nat then s else 0%Z)) by auto. apply H6; auto. }
  rewrite <- N1, N2. specialize (HA' (kappa + m - 1)%nat ltac:(lia)). field. intros E. rewrite E in HA'. discriminate.
Qed.
Lemma dput_dv B B' kappa m y w : all_pos c B D -> all_pos c B' D -> (kappa + m <= D)%nat -> dput B B' kappa m y -> dv c B' kappa m w -> dv c B kappa m w.
Proof.
  intros HA HA' HD (H1 & H2 & H3 & H4 & H5 & _) [W1 W2]. split.
  - apply (inspan_trans c B B'); auto; [intros j Hj; apply HA; lia|intros a Ha; apply H2; lia|]. apply comb_all; auto. intros a Ha. apply H2; lia.
  - intros i Hi. destruct (H4 i Hi) as [X HX]. destruct (fin_choice 0%Z m (fun i y => ip c w (qrow B' (kappa + i)) = Qcz y) W2) as [Y HY].
    exists (zsum m (fun b => X b * Y b))%Z. rewrite Qcz_sum.
    transitivity (ip c w (fun t => qsum m (fun b => Qcz (X b) * qrow B' (kappa + b) t))).
    + unfold ip. apply qsum_ext. intros t Ht. f_equal. unfold qrow at 1. rewrite HX, Qcz_sum by auto. apply qsum_ext. intros b Hb. rewrite Qcz_mul. reflexivity.
    + rewrite ip_qdot, qdot_sum_r. apply qsum_ext. intros b Hb. rewrite Qcz_mul, <- (HY b Hb). reflexivity.
Qed.
(** the block is dual-reduced after the insertion of a shortest vector *)
Lemma dput_dred B B' kappa m y delta : all_pos c B D -> all_pos c B' D -> (0 < m)%nat -> (kappa + m <= D)%nat -> length y = m -> dput B B' kappa m y ->
  (forall z, length z = m -> nonzero z -> dblen B kappa m y <= dblen B kappa m z) -> delta <= 1 -> dred c B' delta kappa m.
Proof.
  intros HA HA' Hm HD HL HP HM Hd w HV HN.
  assert (NZ : forall i, (i < m)%nat -> R B (kappa + i) (kappa + i) <> 0).
  { intros i Hi E. specialize (HA (kappa + i)%nat ltac:(lia)). rewrite E in HA. discriminate. }
  pose proof (dput_dv B B' kappa m y w HA HA' HD HP HV) as HV1. destruct (dv_list c B kappa m w HV1) as [z [Z1 Z2]]. destruct HV1 as [W1 _].
  pose proof (HM z Z1 (dv_nonzero c B kappa m w z NZ W1 Z1 Z2 HN)) as LE. pose proof (span_len c B kappa m w z NZ W1 Z1 Z2) as N1.
  pose proof (dput_R B B' kappa m y HA HA' Hm HD HL HP) as E1. change (norm2 c (S_ B' (kappa + m - 1))) with (qdot c (S_ B' (kappa + m - 1)) (S_ B' (kappa + m - 1))). rewrite <- qR_norm.
  rewrite N1. fold (dblen B kappa m z). specialize (HA' (kappa + m - 1)%nat ltac:(lia)). revert LE E1 HA'. generalize (dblen B kappa m z), (dblen B kappa m y), (R B' (kappa + m - 1) (kappa + m - 1)). clear - Hd.
  intros a b r LE E HR. eapply Qcle_trans; [exact Hd|]. rewrite <- E. clear - LE HR. qcnra.
Qed.
End P.
