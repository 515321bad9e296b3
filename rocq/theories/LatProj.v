(** Projected lattices: lengths of projections in terms of Gram-Schmidt coefficients, and how they
    change under row operations.  Not part of the model (proofs for PropBkzExact.v). *)
From Coq Require Import List ZArith QArith Qcanon Lia Lqa Arith Bool.
From Verif Require Import Util QcUtil LatticeSpec GsoModel GsoFModel GsoFSpec GsoQ QGs LllSpec LllSpecFacts GramDet LatPot LllTotal EnumSpec BkzSpec.
Import ListNotations.
Local Open Scope Qc_scope.

Section L.
Variable c : nat.
Notation R B := (qR c B). Notation M B := (qM c B). Notation S_ B := (qS c B).
(** projected length with respect to the orthogonalisation of B *)
Definition pl (B : list (list Z)) (k : nat) (v : nat -> Qc) : Qc := proj_sq c (qS c B) k v.
Definition zv (v : nat -> Z) (t : nat) : Qc := Qcz (v t).

Lemma pl_ext B k v w : (forall t, (t < c)%nat -> v t = w t) -> pl B k v = pl B k w.
Proof.
  intros H. unfold pl, proj_sq, norm2, ip. f_equal.
  - apply qsum_ext. intros t Ht. rewrite H by auto. auto.
  - apply qsum_ext. intros j Hj.
    rewrite (qsum_ext c (fun t => v t * S_ B j t) (fun t => w t * S_ B j t)) by (intros t Ht; rewrite H by auto; auto). auto.
Qed.
Lemma pl_basis B B' k v : (forall j, (j < k)%nat -> forall t, (t < c)%nat -> S_ B' j t = S_ B j t) -> pl B' k v = pl B k v.
Proof.
  intros H. unfold pl, proj_sq. f_equal. apply qsum_ext. intros j Hj. unfold norm2, ip.
  rewrite (qsum_ext c (fun t => v t * S_ B' j t) (fun t => v t * S_ B j t)) by (intros t Ht; rewrite H by auto; auto).
  rewrite (qsum_ext c (fun t => S_ B' j t * S_ B' j t) (fun t => S_ B j t * S_ B j t)) by (intros t Ht; rewrite H by auto; auto). auto.
Qed.
Lemma pl_same B B' k v : (forall a, (a < k)%nat -> nth a B' [] = nth a B []) -> pl B' k v = pl B k v.
Proof. intros H. apply pl_basis. intros j Hj t _. apply qS_same. intros; apply H; lia. Qed.

Lemma pl_row B k i : (k <= i)%nat -> pl B k (zq (nth i B [])) = qproj c B i k.
Proof.
  intros Hk. unfold pl, proj_sq, qproj, norm2. rewrite ip_qdot. fold (gq c B i i). f_equal. apply qsum_ext. intros j Hj.
  rewrite ip_qdot. rewrite <- (qR_dot c B i j) by lia. rewrite qM_eq. change (ip c (S_ B j) (S_ B j)) with (qdot c (S_ B j) (S_ B j)). rewrite <- qR_norm. unfold Qcdiv. ring.
Qed.

(** coordinates with respect to the orthogonalised vectors *)
Definition crd (B : list (list Z)) (n : nat) (X : nat -> Qc) (j : nat) : Qc :=
  X j + qsum n (fun a => if (j <? a)%nat then X a * M B a j else 0).

Lemma comb_orth B n X v : (forall t, (t < c)%nat -> v t = qsum n (fun a => X a * zq (nth a B []) t)) ->
  forall t, (t < c)%nat -> v t = qsum n (fun j => crd B n X j * S_ B j t).
Proof.
  intros Hv t Ht. rewrite Hv by auto.
  transitivity (qsum n (fun i => X i * S_ B i t + qsum n (fun j => if Nat.ltb j i then X i * M B i j * S_ B j t else 0))).
  - apply qsum_ext. intros i Hi. pose proof (qS_eq c B i t) as E.
    replace (zq (nth i B []) t) with (S_ B i t + qsum i (fun j => M B i j * S_ B j t)) by (rewrite E; ring).
    rewrite Qcmult_plus_distr_r. f_equal. rewrite <- qsum_scal.
    assert (E2 : n = (i + (n - i))%nat) by lia. rewrite E2. rewrite qsum_split.
    rewrite (qsum_0 (n - i)) by (intros j Hj; destruct (Nat.ltb_spec (i + j) i); [lia|auto]).
    rewrite Qcplus_0_r. apply qsum_ext. intros j Hj. destruct (Nat.ltb_spec j i); [ring|lia].
  - rewrite qsum_plus, qsum_swap. rewrite <- qsum_plus. apply qsum_ext. intros i Hi. unfold crd.
    rewrite Qcmult_plus_distr_l. f_equal. rewrite <- qsum_scal_r. apply qsum_ext. intros j Hj. destruct (Nat.ltb i j); ring.
Qed.
Lemma qdot_orth B n (a : nat -> Qc) v j : (j < n)%nat -> (forall t, (t < c)%nat -> v t = qsum n (fun i => a i * S_ B i t)) ->
  qdot c v (S_ B j) = a j * R B j j.
Proof.
  intros Hj Hv. rewrite qdot_comm. rewrite (qdot_ext c (S_ B j) (S_ B j) v (fun t => qsum n (fun i => a i * S_ B i t))) by auto.
  rewrite qdot_sum_r. rewrite (qsum_single n j).
2: auto. 2:{ intros i Hi Hne; destruct (Nat.lt_total i j) as [X|[X|X]]; [rewrite qS_orth by auto; ring|congruence|rewrite qdot_comm, qS_orth by auto; ring]. }
  rewrite <- qR_norm. ring.
Qed.
Lemma qdot_norm B n (a : nat -> Qc) v : (forall t, (t < c)%nat -> v t = qsum n (fun i => a i * S_ B i t)) ->
  qdot c v v = qsum n (fun j => a j * a j * R B j j).
Proof.
  intros Hv. rewrite (qdot_ext c v v v (fun t => qsum n (fun i => a i * S_ B i t))) by auto. rewrite qdot_sum_r.
  apply qsum_ext. intros j Hj. rewrite (qdot_orth B n a v j) by auto. ring.
Qed.

Lemma pl_crd B n k X v : (k <= n)%nat -> (forall j, (j < k)%nat -> 0 < R B j j) ->
  (forall t, (t < c)%nat -> v t = qsum n (fun a => X a * zq (nth a B []) t)) ->
  pl B k v = qsum (n - k) (fun i => crd B n X (k + i)%nat * crd B n X (k + i)%nat * R B (k + i)%nat (k + i)%nat).
Proof.
  intros Hk HP Hv. pose proof (comb_orth B n X v Hv) as HO. unfold pl, proj_sq. unfold norm2 at 1. rewrite ip_qdot, (qdot_norm B n _ v HO).
  rewrite (qsum_ext k _ (fun j => crd B n X j * crd B n X j * R B j j)).
  - replace n with (k + (n - k))%nat at 1 by lia. rewrite qsum_split. ring.
  - intros j Hj. rewrite ip_qdot, (qdot_orth B n _ v j) by (auto; lia). change (norm2 c (S_ B j)) with (qdot c (S_ B j) (S_ B j)). rewrite <- qR_norm.
    specialize (HP j Hj). field. intros E. rewrite E in HP. discriminate.
Qed.

(** the Gram-Schmidt data of the block of m rows from k *)
Definition bmu (B : list (list Z)) (k : nat) : nat -> nat -> Qc := fun j i => M B (k + j)%nat (k + i)%nat.
Definition br (B : list (list Z)) (k : nat) : nat -> Qc := fun i => R B (k + i)%nat (k + i)%nat.
Lemma pl_vlen B k m (X : nat -> Z) v x : (forall j, (j < k)%nat -> 0 < R B j j) ->
  (forall t, (t < c)%nat -> v t = qsum (k + m) (fun a => Qcz (X a) * zq (nth a B []) t)) ->
  (forall i, (i < m)%nat -> nth i x 0%Z = X (k + i)%nat) ->
  pl B k v = vlen m (bmu B k) (br B k) x.
Proof.
  intros HP Hv Hx. rewrite (pl_crd B (k + m) k (fun a => Qcz (X a)) v) by (auto; lia). replace (k + m - k)%nat with m by lia.
  unfold vlen, plen. apply qsum_ext. intros i Hi. cbn [Nat.leb].
  assert (E : crd B (k + m) (fun a => Qcz (X a)) (k + i) = gcoord m (bmu B k) no_target x i); [|rewrite E; reflexivity].
  unfold crd, gcoord, no_target, bmu. rewrite Hx by auto. rewrite qsum_split. rewrite (qsum_0 k).
  2:{ intros a Ha. destruct (Nat.ltb_spec (k + i) a); [lia|auto]. }
  rewrite (qsum_ext m (fun a => if (k + i <? k + a)%nat then Qcz (X (k + a)%nat) * M B (k + a)%nat (k + i)%nat else 0)
                      (fun j => if (i <? j)%nat then Qcz (nth j x 0%Z) * M B (k + j)%nat (k + i)%nat else 0)); [ring|].
  intros a Ha. rewrite Hx by auto. destruct (Nat.ltb_spec (k + i) (k + a)), (Nat.ltb_spec i a); try lia; auto.
Qed.

(** adding earlier rows to a row does not change the orthogonalised vectors *)
Lemma row_changed_S B B' kappa n : row_changed c B B' kappa -> (n <= length B)%nat -> all_pos c B n ->
  forall i, (i < n)%nat -> (forall t, (t < c)%nat -> S_ B' i t = S_ B i t) /\ R B' i i = R B i i.
Proof.
  intros [H1 [x Hx]] Hn HA.
  assert (G : gso_of c B' n (S_ B) (fun i j => if (i =? kappa)%nat then M B i j + crd B kappa (fun a => Qcz (x a)) j else M B i j)).
  { destruct (qS_gso c B n) as [A1 A2]. split; [|exact A2]. intros i t Hi Ht. destruct (Nat.eqb_spec i kappa) as [->|N].
    - unfold qrow. rewrite Hx, Qcz_add by auto. rewrite (qsum_ext kappa _ (fun j => M B kappa j * S_ B j t + crd B kappa (fun a => Qcz (x a)) j * S_ B j t)) by (intros; ring).
      rewrite qsum_plus. rewrite <- (comb_orth B kappa (fun a => Qcz (x a)) (fun t => Qcz (zsum kappa (fun a => x a * ent B a t)%Z))); auto.
      + change (Qcz (ent B kappa t)) with (qrow B kappa t). rewrite (A1 kappa t) by auto. ring.
      + intros t' Ht'. rewrite Qcz_zsum. apply qsum_ext. intros a Ha. rewrite Qcz_mul. reflexivity.
    - unfold qrow, ent. rewrite H1 by (auto; lia). apply (A1 i t); auto. }
  assert (HP : forall i, (i < n)%nat -> 0 < norm2 c (S_ B i)).
  { intros i Hi. change (norm2 c (S_ B i)) with (qdot c (S_ B i) (S_ B i)). rewrite <- qR_norm. apply HA. auto. }
  intros i Hi. destruct (gso_unique c B' n _ _ G HP i Hi) as [E _]. split; [intros t Ht; symmetry; apply E; auto|].
  rewrite <- (gso_norm c B' n _ _ G HP i Hi). symmetry. apply qR_norm.
Qed.

(** ** the lattice *)
Variable d : nat.
Definition LB (B : list (list Z)) (v : nat -> Z) : Prop := exists X : nat -> Z, forall t, (t < c)%nat -> v t = zsum d (fun a => X a * ent B a t)%Z.

Lemma LB_ext B v w : (forall t, (t < c)%nat -> v t = w t) -> LB B v -> LB B w.
Proof. intros H [X HX]. exists X. intros t Ht. rewrite <- H by auto. auto. Qed.
Lemma LB_row B a : (a < d)%nat -> LB B (ent B a).
Proof. intros Ha. exists (fun b => if (b =? a)%nat then 1%Z else 0%Z). intros t Ht. rewrite (zsum_single d a); auto; [rewrite Nat.eqb_refl; ring|]. intros i Hi Hne. destruct (Nat.eqb_spec i a); [congruence|ring]. Qed.
Lemma LB_lin B v w x y : LB B v -> LB B w -> LB B (fun t => x * v t + y * w t)%Z.
Proof.
  intros [X HX] [Y HY]. exists (fun a => x * X a + y * Y a)%Z. intros t Ht. rewrite HX, HY by auto. rewrite <- !zsum_scal, <- zsum_plus. apply zsum_ext. intros; ring.
Qed.
Lemma LB_sum B n (Y : nat -> Z) (w : nat -> nat -> Z) : (forall a, (a < n)%nat -> LB B (w a)) -> LB B (fun t => zsum n (fun a => Y a * w a t)%Z).
Proof.
  induction n as [|n IH]; intros H; cbn [zsum].
  - exists (fun _ => 0%Z). intros t Ht. rewrite zsum_0; auto.
  - eapply LB_ext; [|apply (LB_lin B (fun t => zsum n (fun a => Y a * w a t)%Z) (w n) 1 (Y n)); auto]. intros t Ht. cbn beta. ring.
Qed.
Lemma LB_sub B B' : (forall a, (a < d)%nat -> LB B (ent B' a)) -> forall v, LB B' v -> LB B v.
Proof. intros H v [X HX]. eapply LB_ext; [|apply (LB_sum B d X (fun a => ent B' a)); auto]. intros t Ht. rewrite HX by auto. auto. Qed.

Lemma row_changed_rev B B' kappa : length B' = length B -> (kappa < length B)%nat -> row_changed c B B' kappa -> row_changed c B' B kappa.
Proof.
  intros HL Hk [H1 [x Hx]]. split; [intros a Ha Hl; symmetry; apply H1; auto; lia|]. exists (fun a => - x a)%Z. intros t Ht. rewrite Hx by auto.
  rewrite (zsum_ext kappa (fun a => - x a * ent B' a t)%Z (fun a => (-1) * (x a * ent B a t))%Z); [rewrite zsum_scal; ring|].
  intros a Ha. unfold ent. rewrite H1 by lia. ring.
Qed.
Lemma row_changed_LB1 B B' kappa : length B = d -> (kappa < d)%nat -> row_changed c B B' kappa -> forall v, LB B' v -> LB B v.
Proof.
  intros HL Hk [H1 [x Hx]]. apply LB_sub. intros a Ha. destruct (Nat.eq_dec a kappa) as [->|N].
  - eapply LB_ext; [|apply (LB_lin B (ent B kappa) (fun t => zsum kappa (fun a => x a * ent B a t)%Z) 1 1)]; [intros t Ht; rewrite Hx by auto; cbn beta; ring|apply LB_row; auto|].
    apply (LB_sum B kappa x (fun a => ent B a)). intros b Hb. apply LB_row. lia.
  - eapply LB_ext; [|apply (LB_row B a Ha)]. intros t Ht. unfold ent. rewrite H1 by (auto; lia). auto.
Qed.
Lemma row_changed_LB B B' kappa : length B = d -> length B' = d -> (kappa < d)%nat -> row_changed c B B' kappa -> forall v, LB B' v <-> LB B v.
Proof.
  intros HL HL' Hk H v. split; [eapply row_changed_LB1; eauto|]. eapply row_changed_LB1; eauto. apply row_changed_rev; auto; lia.
Qed.
Lemma inserted_LB B B' old k : length B = d -> (k <= old < d)%nat -> inserted B B' old k -> forall v, LB B' v <-> LB B v.
Proof.
  intros HL Hk (I1 & I2 & I3 & I4) v.
  assert (E : forall a b, (b < d)%nat -> nth a B' [] = nth b B [] -> LB B (ent B' a)).
  { intros a b Hb E. eapply LB_ext; [|apply (LB_row B b Hb)]. intros t Ht. unfold ent. rewrite E. auto. }
  assert (E' : forall a b, (b < d)%nat -> nth b B' [] = nth a B [] -> LB B' (ent B a)).
  { intros a b Hb X. eapply LB_ext; [|apply (LB_row B' b Hb)]. intros t Ht. unfold ent. rewrite X. auto. }
  split; apply LB_sub; intros a Ha.
  - destruct (Nat.lt_total a k) as [L|[->|L]]; [apply (E a a); auto|apply (E k old); auto; lia|].
    destruct (Nat.le_gt_cases a old) as [L2|L2]; [apply (E a (a - 1)%nat); [lia|apply I3; lia]|apply (E a a); auto; apply I4; lia].
  - destruct (Nat.eq_dec a old) as [->|N]; [apply (E' old k); auto; lia|]. destruct (Nat.lt_ge_cases a k) as [L|L]; [apply (E' a a); auto|].
    destruct (Nat.lt_ge_cases a old) as [L2|L2]; [|apply (E' a a); auto; apply I4; lia].
    apply (E' a (S a)); [lia|]. rewrite I3 by lia. f_equal. lia.
Qed.

Lemma fin_choice {A} (x0 : A) n (Q : nat -> A -> Prop) : (forall a, (a < n)%nat -> exists x, Q a x) -> exists F : nat -> A, forall a, (a < n)%nat -> Q a (F a).
Proof.
  induction n as [|n IH]; intros H; [exists (fun _ => x0); intros; lia|]. destruct IH as [F HF]; [intros; apply H; lia|]. destruct (H n ltac:(lia)) as [x Hx].
  exists (fun a => if (a =? n)%nat then x else F a). intros a Ha. destruct (Nat.eqb_spec a n) as [->|]; auto. apply HF. lia.
Qed.
Lemma LB_pos B B' : (forall v, LB B' v <-> LB B v) -> all_pos c B d -> all_pos c B' d.
Proof.
  intros H HA.
  assert (HU : exists U : nat -> nat -> Z, forall a, (a < d)%nat -> forall t, (t < c)%nat -> ent B' a t = zsum d (fun b => U a b * ent B b t)%Z).
  { apply (fin_choice (fun _ => 0%Z) d (fun a U => forall t, (t < c)%nat -> ent B' a t = zsum d (fun b => U b * ent B b t)%Z)). intros a Ha. apply (proj1 (H (ent B' a))). apply LB_row. auto. }
  assert (HV : exists V : nat -> nat -> Z, forall a, (a < d)%nat -> forall t, (t < c)%nat -> ent B a t = zsum d (fun b => V a b * ent B' b t)%Z).
  { apply (fin_choice (fun _ => 0%Z) d (fun a U => forall t, (t < c)%nat -> ent B a t = zsum d (fun b => U b * ent B' b t)%Z)). intros a Ha. apply (proj2 (H (ent B a))). apply LB_row. auto. }
  destruct HU as [U HU], HV as [V HV].
  pose proof (gram_det_equiv c d U V B B' ltac:(intros; apply HU; auto) ltac:(intros; apply HV; auto)) as E.
  pose proof (all_pos_det c B d d HA (le_n d)) as P0. rewrite <- E, gram_det_prod in P0. clear - P0.
  assert (X : forall n, (n <= d)%nat -> qprod n (fun j => R B' j j) <> 0).
  { intros n Hn E. assert (Z : forall m, qprod (n + m) (fun j => R B' j j) = 0).
    { induction m as [|m IH]; [rewrite Nat.add_0_r; auto|]. rewrite Nat.add_succ_r. cbn [qprod]. rewrite IH. ring. }
    specialize (Z (d - n)%nat). replace (n + (d - n))%nat with d in Z by lia. rewrite Z in P0. discriminate. }
  intros j Hj. pose proof (qR_nonneg c B' j) as N. specialize (X (S j) ltac:(lia)). cbn [qprod] in X.
  destruct (Qclt_le_dec 0 (R B' j j)) as [|L]; auto. exfalso. apply X. rewrite (Qcle_antisym _ _ L N). ring.
Qed.
End L.
