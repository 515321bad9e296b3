(** Facts about the specification of LLL-reduced bases: existence and
    uniqueness of the Gram-Schmidt data, and the bound on the first vector. *)
From Coq Require Import List ZArith QArith Qcanon Lia Lqa Arith Bool.
From Verif Require Import Util QcUtil LatticeSpec GsoModel GsoFModel GsoFSpec GsoQ QGs LllSpec.
Import ListNotations.
Local Open Scope Qc_scope.

Section S.
Variable c : nat.
Variable B : list (list Z).

Lemma qrow_zq i : qrow B i = zq (nth i B []). Proof. reflexivity. Qed.
Lemma ip_qdot v w : ip c v w = qdot c v w. Proof. reflexivity. Qed.

Lemma qS_gso n : gso_of c B n (qS c B) (qM c B).
Proof.
  split.
  - intros i k Hi Hk. rewrite qS_eq. rewrite qrow_zq. ring.
  - intros i j Hj Hi. apply qS_orth. auto.
Qed.

(** inner products of a row with the orthogonalised vectors *)
Lemma gso_ip n bs mu : gso_of c B n bs mu -> forall i j, (i < n)%nat -> (j < n)%nat ->
  ip c (qrow B i) (bs j) = if (j <? i)%nat then mu i j * norm2 c (bs j) else if (j =? i)%nat then norm2 c (bs i) else 0.
Proof.
  intros [H1 H2] i j Hi Hj. unfold ip.
  transitivity (qdot c (bs j) (bs i) + qsum i (fun l => mu i l * qdot c (bs j) (bs l))).
  { rewrite <- (qdot_sum_r c (bs j) i (mu i) bs). unfold qdot. rewrite <- qsum_plus. apply qsum_ext. intros k Hk.
    rewrite H1 by auto. ring. }
  destruct (Nat.ltb_spec j i) as [L|L].
  - rewrite (qsum_single i j); auto.
    + rewrite qdot_comm. rewrite <- ip_qdot, H2 by auto. unfold norm2. rewrite <- ip_qdot. ring.
    + intros l Hl Hne. replace (qdot c (bs j) (bs l)) with 0; [ring|]. symmetry.
      destruct (Nat.lt_total l j) as [X|[X|X]]; [apply H2; auto|congruence|]. rewrite qdot_comm. apply H2; auto. lia.
  - rewrite qsum_0.
    + destruct (Nat.eqb_spec j i) as [->|]. { unfold norm2. rewrite <- ip_qdot. ring. }
      rewrite <- ip_qdot, H2 by (auto; lia). ring.
    + intros l Hl. rewrite <- ip_qdot, H2 by (auto; lia). ring.
Qed.

Lemma gso_unique n bs mu : gso_of c B n bs mu -> (forall i, (i < n)%nat -> 0 < norm2 c (bs i)) ->
  forall i, (i < n)%nat -> (forall k, (k < c)%nat -> bs i k = qS c B i k) /\ (forall j, (j < i)%nat -> mu i j = qM c B i j).
Proof.
  intros HG HP. induction i as [i IH] using lt_wf_ind. intros Hi.
  assert (HM : forall j, (j < i)%nat -> mu i j = qM c B i j).
  { intros j Hj. pose proof (gso_ip n bs mu HG i j Hi ltac:(lia)) as E.
    replace (j <? i)%nat with true in E by (symmetry; apply Nat.ltb_lt; auto).
    destruct (IH j Hj ltac:(lia)) as [IS _].
    rewrite qM_eq, (qR_dot c B i j) by lia. rewrite (qR_norm c B j).
    replace (qdot c (zq (nth i B [])) (qS c B j)) with (ip c (qrow B i) (bs j)).
    2:{ rewrite ip_qdot. apply qdot_ext; auto. }
    replace (qdot c (qS c B j) (qS c B j)) with (norm2 c (bs j)).
    2:{ unfold norm2. rewrite ip_qdot. apply qdot_ext; auto. }
    rewrite E. assert (norm2 c (bs j) <> 0). { specialize (HP j ltac:(lia)). intros X. rewrite X in HP. discriminate. }
    field. auto. }
  split; auto. intros k Hk. destruct HG as [H1 _]. specialize (H1 i k Hi Hk).
  rewrite qS_eq, <- qrow_zq, H1. rewrite (qsum_ext i (fun j => mu i j * bs j k) (fun j => qM c B i j * qS c B j k)); [ring|].
  intros j Hj. rewrite HM by auto. destruct (IH j Hj ltac:(lia)) as [-> _]; auto.
Qed.
Lemma gso_norm n bs mu : gso_of c B n bs mu -> (forall i, (i < n)%nat -> 0 < norm2 c (bs i)) ->
  forall i, (i < n)%nat -> norm2 c (bs i) = qR c B i i.
Proof.
  intros HG HP i Hi. rewrite qR_norm. unfold norm2. rewrite ip_qdot.
  destruct (gso_unique n bs mu HG HP i Hi) as [E _]. apply qdot_ext; auto.
Qed.

(** the specification in terms of the canonical data *)
Lemma lll_reduced_q n delta eta : lll_reduced c B n delta eta <->
  (forall i, (i < n)%nat -> 0 < qR c B i i) /\
  (forall i j, (j < i)%nat -> (i < n)%nat -> - eta <= qM c B i j /\ qM c B i j <= eta) /\
  (forall i, (S i < n)%nat -> delta * qR c B i i <= qR c B (S i) (S i) + qM c B (S i) i * qM c B (S i) i * qR c B i i).
Proof.
  split.
  - intros [bs [mu [HG [HP [HS HL]]]]]. pose proof (gso_norm n bs mu HG HP) as EN. pose proof (gso_unique n bs mu HG HP) as EU.
    split; [|split].
    + intros i Hi. rewrite <- EN; auto.
    + intros i j Hj Hi. destruct (EU i Hi) as [_ <-]; auto.
    + intros i Hi. specialize (HL i Hi). rewrite !EN in HL by lia. destruct (EU (S i) Hi) as [_ EM]. rewrite EM in HL by lia. auto.
  - intros [HP [HS HL]]. exists (qS c B), (qM c B). split; [apply qS_gso|]. split; [|split; auto].
    + intros i Hi. unfold norm2. rewrite ip_qdot, <- qR_norm. auto.
    + intros i Hi. unfold norm2. rewrite !ip_qdot, <- !qR_norm. auto.
Qed.
Lemma siegel_reduced_q n delta eta : siegel_reduced c B n delta eta <->
  (forall i, (i < n)%nat -> 0 < qR c B i i) /\
  (forall i j, (j < i)%nat -> (i < n)%nat -> - eta <= qM c B i j /\ qM c B i j <= eta) /\
  (forall i, (S i < n)%nat -> (delta - eta * eta) * qR c B i i <= qR c B (S i) (S i)).
Proof.
  split.
  - intros [bs [mu [HG [HP [HS HL]]]]]. pose proof (gso_norm n bs mu HG HP) as EN. pose proof (gso_unique n bs mu HG HP) as EU.
    split; [|split].
    + intros i Hi. rewrite <- EN; auto.
    + intros i j Hj Hi. destruct (EU i Hi) as [_ <-]; auto.
    + intros i Hi. specialize (HL i Hi). rewrite !EN in HL by lia. auto.
  - intros [HP [HS HL]]. exists (qS c B), (qM c B). split; [apply qS_gso|]. split; [|split; auto].
    + intros i Hi. unfold norm2. rewrite ip_qdot, <- qR_norm. auto.
    + intros i Hi. unfold norm2. rewrite !ip_qdot, <- !qR_norm. auto.
Qed.

(** independence *)
Lemma qS_comb i : exists x : nat -> Qc, x i = 1 /\ forall k, (k < c)%nat -> qS c B i k = qsum (S i) (fun a => x a * qrow B a k).
Proof.
  induction i as [i IH] using lt_wf_ind.
  assert (HC : forall m, (m <= i)%nat -> exists y : nat -> Qc,
     forall k, (k < c)%nat -> qsum m (fun j => qM c B i j * qS c B j k) = qsum m (fun a => y a * qrow B a k)).
  { induction m as [|m IHm]; intros Hm. { exists (fun _ => 0). reflexivity. }
    destruct IHm as [y Hy]; [lia|]. destruct (IH m ltac:(lia)) as [x [_ Hx]].
    exists (fun a => (if (a <? m)%nat then y a else 0) + qM c B i m * x a). intros k Hk. cbn [qsum]. rewrite Hy, Hx by auto.
    cbn [qsum].
    rewrite (qsum_ext m (fun a => ((if (a <? m)%nat then y a else 0) + qM c B i m * x a) * qrow B a k)
               (fun a => y a * qrow B a k + qM c B i m * (x a * qrow B a k))).
    2:{ intros a Ha. destruct (Nat.ltb_spec a m); [ring|lia]. }
    rewrite qsum_plus, qsum_scal. rewrite Nat.ltb_irrefl. ring. }
  destruct (HC i (le_n i)) as [y Hy].
  exists (fun a => if (a =? i)%nat then 1 else - y a). rewrite Nat.eqb_refl. split; auto. intros k Hk.
  rewrite qS_eq, Hy by auto. cbn [qsum]. rewrite Nat.eqb_refl.
  rewrite (qsum_ext i (fun a => (if (a =? i)%nat then 1 else - y a) * qrow B a k) (fun a => (-(1)) * (y a * qrow B a k))).
  2:{ intros a Ha. destruct (Nat.eqb_spec a i); [lia|ring]. }
  rewrite qsum_scal, <- qrow_zq. ring.
Qed.
Lemma independent_pos n : independent c B n -> forall i, (i < n)%nat -> 0 < qR c B i i.
Proof.
  intros HI i Hi. pose proof (qR_nonneg c B i) as X. apply Qcle_lt_or_eq in X. destruct X as [|X]; auto. exfalso.
  destruct (qS_comb i) as [x [X1 Hx]].
  assert (1 = 0); [|discriminate]. rewrite <- X1.
  assert (E : (if (i <=? i)%nat then x i else 0) = 0); [|rewrite Nat.leb_refl in E; auto].
  apply (HI (fun a => if (a <=? i)%nat then x a else 0)); auto. intros k Hk.
  replace n with (S i + (n - S i))%nat by lia. rewrite qsum_split.
  rewrite (qsum_0 (n - S i)).
  - rewrite (qsum_ext (S i) _ (fun a => x a * qrow B a k)).
    + rewrite <- Hx by auto. rewrite (qdot_0 c (qS c B i)); auto. rewrite <- qR_norm. auto.
    + intros a Ha. destruct (Nat.leb_spec a i); [auto|lia].
  - intros a Ha. destruct (Nat.leb_spec (S i + a) i); [lia|ring].
Qed.
Lemma pos_independent n : (forall i, (i < n)%nat -> 0 < qR c B i i) -> independent c B n.
Proof.
  intros HP x Hx.
  assert (H : forall m, (m <= n)%nat -> forall i, (n - m <= i < n)%nat -> x i = 0).
  { induction m as [|m IH]; intros Hm i Hi; [lia|].
    destruct (Nat.eq_dec i (n - S m)) as [->|]; [|apply IH; lia].
    set (p := (n - S m)%nat) in *.
    assert (E : qsum n (fun i => x i * ip c (qrow B i) (qS c B p)) = 0).
    { transitivity (qdot c (qS c B p) (fun k => qsum n (fun i => x i * qrow B i k))).
      - rewrite qdot_sum_r. apply qsum_ext. intros a Ha. rewrite ip_qdot, qdot_comm. auto.
      - rewrite qdot_comm. apply qdot_0_l. auto. }
    rewrite (qsum_single n p) in E; [|lia|].
    - rewrite (gso_ip n _ _ (qS_gso n) p p) in E by lia. rewrite Nat.ltb_irrefl, Nat.eqb_refl in E.
      unfold norm2 in E. rewrite ip_qdot, <- qR_norm in E.
      apply Qcmult_integral in E. destruct E as [|E]; auto. specialize (HP p ltac:(lia)). rewrite E in HP. discriminate.
    - intros a Ha Hne. rewrite (gso_ip n _ _ (qS_gso n) a p) by lia.
      destruct (Nat.ltb_spec p a). { rewrite (IH ltac:(lia) a) by lia. ring. }
      destruct (Nat.eqb_spec p a); [congruence|ring]. }
  intros i Hi. apply (H n); lia.
Qed.

(** ** the first vector *)
Lemma cauchy v w : 0 < norm2 c w -> ip c v w * ip c v w <= norm2 c v * norm2 c w.
Proof.
  intros HW. set (a := norm2 c v). set (b := norm2 c w) in *. set (p := ip c v w).
  assert (H : 0 <= a - (p / b) * p - (p / b) * p + (p / b) * (p / b) * b).
  { replace (a - (p / b) * p - (p / b) * p + (p / b) * (p / b) * b) with (norm2 c (fun k => v k - (p / b) * w k)).
    - apply qdot_nonneg.
    - unfold norm2, ip, a, b, p, norm2, ip.
      set (t := qsum c (fun k => v k * w k) / qsum c (fun k => w k * w k)).
      rewrite (qsum_ext c _ (fun k => (v k * v k - t * (v k * w k)) - (t * (v k * w k) - (t * t) * (w k * w k)))).
      + rewrite qsum_minus, qsum_minus, qsum_minus, !qsum_scal. ring.
      + intros. ring. }
  assert (b <> 0) by (intros X; rewrite X in HW; discriminate).
  replace (a - p / b * p - p / b * p + p / b * (p / b) * b) with ((a * b - p * p) / b) in H by (field; auto).
  assert (0 <= a * b - p * p).
  { replace (a * b - p * p) with (((a * b - p * p) / b) * b) by (field; auto). apply Qcle_trans with (0 * b). { replace (0 * b) with 0 by ring. apply Qcle_refl. }
    apply Qcmult_le_compat_r; auto. apply Qclt_le_weak; auto. }
  qclra.
Qed.

Lemma chain thr n : 0 < thr -> (forall i, (S i < n)%nat -> thr * qR c B i i <= qR c B (S i) (S i)) ->
  forall i, (i < n)%nat -> thr ^ i * qR c B 0 0 <= qR c B i i.
Proof.
  intros Ht H. induction i as [|i IH]; intros Hi. { cbn [Qcpower]. replace (1 * qR c B 0 0) with (qR c B 0 0) by ring. apply Qcle_refl. }
  cbn [Qcpower]. specialize (IH ltac:(lia)). specialize (H i Hi). apply Qcle_trans with (thr * qR c B i i); auto.
  replace (thr * thr ^ i * qR c B 0 0) with ((thr ^ i * qR c B 0 0) * thr) by ring. rewrite (Qcmult_comm thr).
  apply Qcmult_le_compat_r; auto. apply Qclt_le_weak; auto.
Qed.
Lemma pow_mono (t : Qc) m n : 0 < t -> t <= 1 -> (m <= n)%nat -> 0 < t ^ n /\ t ^ n <= t ^ m.
Proof.
  intros H0 H1 H. assert (HP : forall k, 0 < t ^ k).
  { induction k; cbn [Qcpower]; [reflexivity|]. replace 0 with (0 * t ^ k) by ring. apply Qcmult_lt_compat_r; auto. }
  split; auto. induction H as [|n H IH]; [apply Qcle_refl|]. cbn [Qcpower]. apply Qcle_trans with (t ^ n); auto.
  apply Qcle_trans with (1 * t ^ n); [|replace (1 * t ^ n) with (t ^ n) by ring; apply Qcle_refl].
  apply Qcmult_le_compat_r; auto. apply Qclt_le_weak; auto.
Qed.

Lemma Qcz_zsum n f : Qcz (zsum n f) = qsum n (fun i => Qcz (f i)).
Proof. induction n; cbn [zsum qsum]; auto. rewrite Qcz_add, IHn. auto. Qed.

Lemma first_vector thr n v : rect c B -> length B = n -> 0 < thr -> thr <= 1 ->
  (forall i, (i < n)%nat -> 0 < qR c B i i) ->
  (forall i, (S i < n)%nat -> thr * qR c B i i <= qR c B (S i) (S i)) ->
  in_lattice c B v -> (exists k, (k < c)%nat /\ nth k v 0%Z <> 0%Z) ->
  thr ^ (n - 1) * znorm2 c (nth 0 B []) <= znorm2 c v.
Proof.
  intros HR HN Ht0 Ht1 HP HC [HL [x Hx]] [k0 [Hk0 Hv]].
  set (vq := fun k => Qcz (nth k v 0%Z)).
  assert (EV : forall k, (k < c)%nat -> vq k = qsum n (fun i => Qcz (x i) * qrow B i k)).
  { intros k Hk. unfold vq. rewrite Hx, HN by auto. rewrite Qcz_zsum. apply qsum_ext. intros. rewrite Qcz_mul. auto. }
  assert (EN : znorm2 c v = norm2 c vq).
  { unfold znorm2, inner. rewrite Qcz_zsum. apply qsum_ext. intros. rewrite Qcz_mul. auto. }
  assert (EB : znorm2 c (nth 0 B []) = qR c B 0 0).
  { unfold znorm2, inner. rewrite Qcz_zsum, qR_eq. cbn [qsum]. unfold gq, qdot, zq.
    rewrite (qsum_ext c _ (fun k => Qcz (nth k (nth 0 B []) 0%Z) * Qcz (nth k (nth 0 B []) 0%Z))); [ring|]. intros. rewrite Qcz_mul. auto. }
  (* the last non-zero coefficient *)
  assert (HM : exists m, (m < n)%nat /\ x m <> 0%Z /\ forall i, (m < i < n)%nat -> x i = 0%Z).
  { assert (H : forall p, (p <= n)%nat -> (forall i, (p <= i < n)%nat -> x i = 0%Z) \/
        exists m, (m < n)%nat /\ x m <> 0%Z /\ forall i, (m < i < n)%nat -> x i = 0%Z).
    { intros p Hp. remember (n - p)%nat as q eqn:Eq. revert p Hp Eq. induction q as [|q IHq]; intros p Hp Eq.
      - left. intros. lia.
      - destruct (IHq (S p)) as [H|H]; [lia|lia| |right; auto].
        destruct (Z.eq_dec (x p) 0) as [E|E].
        + left. intros i Hi. destruct (Nat.eq_dec i p) as [->|]; auto. apply H. lia.
        + right. exists p. split; [lia|]. split; [auto|]. intros i Hi. apply H. lia. }
    destruct (H O ltac:(lia)) as [H0|H0]; auto. exfalso. apply Hv. rewrite Hx, HN by auto.
    apply zsum_0. intros i Hi. rewrite H0 by lia. lia. }
  destruct HM as [m [Hm [Hxm Hlast]]].
  assert (EI : ip c vq (qS c B m) = Qcz (x m) * qR c B m m).
  { transitivity (qsum n (fun i => Qcz (x i) * ip c (qrow B i) (qS c B m))).
    - rewrite ip_qdot, qdot_comm. rewrite (qdot_ext c (qS c B m) (qS c B m) vq (fun k => qsum n (fun i => Qcz (x i) * qrow B i k))); auto.
      rewrite qdot_sum_r. apply qsum_ext. intros. f_equal. apply qdot_comm.
    - rewrite (qsum_single n m); auto.
      + f_equal. rewrite (gso_ip n _ _ (qS_gso n) m m) by auto. rewrite Nat.ltb_irrefl, Nat.eqb_refl.
        unfold norm2. rewrite ip_qdot, <- qR_norm. auto.
      + intros i Hi Hne. rewrite (gso_ip n _ _ (qS_gso n) i m) by auto. destruct (Nat.ltb_spec m i).
        * rewrite Hlast by lia. rewrite Qcz_0. ring.
        * destruct (Nat.eqb_spec m i); [congruence|ring]. }
  assert (EW : norm2 c (qS c B m) = qR c B m m) by (unfold norm2; rewrite ip_qdot, <- qR_norm; auto).
  pose proof (HP m Hm) as Hpos.
  pose proof (cauchy vq (qS c B m)) as HCS. rewrite EI, EW in HCS. specialize (HCS Hpos).
  assert (HX : 1 <= Qcz (x m) * Qcz (x m)).
  { rewrite <- Qcz_mul, <- Qcz_1. apply Qcz_le. nia. }
  assert (HB : qR c B m m <= norm2 c vq).
  { apply Qcmult_lt_0_le_reg_r with (qR c B m m); auto.
    apply Qcle_trans with (Qcz (x m) * qR c B m m * (Qcz (x m) * qR c B m m)); auto.
    replace (Qcz (x m) * qR c B m m * (Qcz (x m) * qR c B m m)) with ((Qcz (x m) * Qcz (x m)) * (qR c B m m * qR c B m m)) by ring.
    apply Qcle_trans with (1 * (qR c B m m * qR c B m m)).
    - replace (1 * (qR c B m m * qR c B m m)) with (qR c B m m * qR c B m m) by ring. apply Qcle_refl.
    - apply Qcmult_le_compat_r; auto. apply Qcsq_nonneg. }
  rewrite EN, EB. apply Qcle_trans with (qR c B m m); auto.
  apply Qcle_trans with (thr ^ m * qR c B 0 0).
  - destruct (pow_mono thr m (n - 1) Ht0 Ht1) as [_ X]; [lia|]. apply Qcmult_le_compat_r; auto. apply qR_nonneg.
  - apply (chain thr n); auto.
Qed.
End S.
