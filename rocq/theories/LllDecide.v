(** is_lll_reduced in exact arithmetic. *)
From Coq Require Import List ZArith QArith Qcanon Lia Arith Bool.
From Verif Require Import Util QcUtil LatticeSpec NumVectModel NumVectProofs MatrixModel MatrixProofs
  GsoModel GsoProofs GsoHistory GsoFModel GsoFSpec GsoFProofs GsoQ GsoWeak PropGso PropGsoF LllModel LllProofs LllQ QGs LllExact.
Import ListNotations.
Local Open Scope nat_scope.

Section X.
Variable rnd : Qc -> Z -> Qc.
Variable si ze : Qc -> Z -> Z * nat.
Variable expo : Qc -> Z.
Notation lo := (lq_ops rnd si ze expo).
Notation fo := qc_ops.
Variable P : lpar lo.
Notation en_e := (p_e P).
Notation FI := (FInv fo (p_e P)).
Notation XP := (XP rnd si ze expo P).
Notation sc := (sc rnd si ze expo P).
Notation RR z := (qR (gc z) (gb z)).
Notation MM z := (qM (gc z) (gb z)).
Notation vc s j := (nth j (fvc s) 0).
Notation Gr z := (gram_ref fo (p_e P) (en_g z) (gc z) (gb z)).

Lemma get_r_q z s i j : FI z s -> XP z -> i < nkr z -> j <= i -> j < vc s i -> get_r fo en_e (z, s) i j = Some (RR z i j).
Proof.
  intros HF HX Hi Hj Hv. destruct (coeff_reference fo en_e (qc_laws _) z s i j HF HX) as [X _].
  { split; auto. }
  unfold get_r. rewrite X. cbn [obind fst snd]. f_equal.
  destruct (I_known _ (F_inv _ _ _ _ HF)) as [K1 [K2 K3]].
  destruct (ref_q rnd si ze expo P z i j (F_inv _ _ _ _ HF) HX) as [E _]; try lia. rewrite E. unfold LllExact.sc.
  destruct (p_e P) eqn:EE.
  - cbn [f_mul2 qc_ops]. rewrite pow2_add, !pow2_opp. pose proof (pow2_nz (encexp fo true (nth i (gb z) []))).
    pose proof (pow2_nz (encexp fo true (nth j (gb z) []))). change (F fo) with Qc. field. auto.
  - change (pow2 (- encexp fo false (nth i (gb z) []))) with 1%Qc. change (pow2 (- encexp fo false (nth j (gb z) []))) with 1%Qc.
    change (F fo) with Qc. ring.
Qed.

Lemma update_gso_x : forall cnt i z s, FI z s -> XP z -> locked z = false -> i + cnt = gd z -> i <= nkr z ->
  (forall j, j < i -> j < vc s j) ->
  exists z' s' ok m, update_gso lo cnt i z s = Some (z', s', ok) /\ FI z' s' /\ XP z' /\ gb z' = gb z /\ gc z' = gc z /\
    m <= gd z /\ m <= nkr z' /\ (forall j, j < m -> j < vc s' j) /\
    (ok = true -> m = gd z) /\ (ok = false -> exists k, k < m /\ RR z k k = 0%Qc).
Proof.
  induction cnt as [|cnt IH]; intros i z s HF HX HL Hc Hi HV.
  - exists z, s, true, i. rewrite Nat.add_0_r in Hc. cbn [update_gso]. repeat (split; [auto; lia|]). discriminate.
  - cbn [update_gso].
    assert (HLU : flegal fo (z, s) (FUpdate i i)).
    { split; [lia|]. split; [lia|]. split; [intros X; cbn [legal]; split; [lia|]; rewrite HL; auto|]. split; [lia|].
      split; [|intros; apply HV; auto].
      pose proof (I_unl _ (F_inv _ _ _ _ HF) HL). rewrite HL. cbn [negb]. rewrite andb_true_r. destruct (Nat.eqb_spec i (nkr z)); lia. }
    destruct (update_gso_row_ok fo en_e (qc_laws _) z s i i HF HLU) as [z2 [s2 [ok [E2 [F2 [Fl2 [B2 [V2 Q2]]]]]]]].
    destruct (update_gso_row_w fo z s i i) as [z2' [s2' [ok' [E2' [_ [_ [_ [_ [[Ka [Kb Kc]] [_ [_ [_ VV]]]]]]]]]]]]; auto; try lia; [apply HF|apply HF|rewrite HL; auto|rewrite HL; discriminate|].
    assert (z2' = z2 /\ s2' = s2 /\ ok' = ok) as [-> [-> ->]] by (rewrite E2 in E2'; injection E2'; auto).
    replace (update_gso_row (lf lo) z s i i) with (Some (z2, s2, ok)) by (symmetry; exact E2). cbn [obind].
    assert (C2 : gc z2 = gc z) by apply Fl2.
    assert (GD : gd z2 = gd z) by (unfold gd; rewrite B2; auto).
    assert (X2 : XP z2) by (eapply XP_flags; eauto).
    destruct ok.
    + specialize (V2 eq_refl).
      destruct (IH (S i) z2 s2) as [z' [s' [ok [m [E' [F' [X' [B' [C' [M1 [M2 [M3 [M4 M5]]]]]]]]]]]]]; auto; try lia.
      { congruence. }
      { intros j Hj. destruct (Nat.eq_dec j i) as [->|]; [exact V2|]. change (j < vc s2 j). rewrite VV by auto. apply HV. lia. }
      exists z', s', ok, m. split; [exact E'|]. rewrite B', B2, C', C2 in *. rewrite GD in *.
      repeat (split; [auto|]). auto.
    + destruct (Q2 eq_refl) as [k [K1 [K2 K3]]]. exists z2, s2, false, i.
      split; [reflexivity|]. repeat (split; [auto; lia|]). split.
      { intros j Hj. change (j < vc s2 j). rewrite VV by lia. auto. }
      split; [discriminate|]. intros _. exists k. split; auto.
      cbn [f_fin qc_ops] in K3. destruct (Qc_eq_dec (refR fo (Gr z2) k k) 0) as [K4|]; [|discriminate].
      destruct (ref_q rnd si ze expo P z2 k k) as [X _]; auto; try lia; [apply F2|].
      rewrite K4 in X. rewrite B2, C2 in X. pose proof (sc_nz rnd si ze expo P z2 k) as N. symmetry in X.
      apply Qcmult_integral in X. destruct X as [X|X]; [|contradiction]. apply Qcmult_integral in X. destruct X; [auto|contradiction].
Qed.

(** the tests *)
Lemma mu_row_ok_x z s eta i : FI z s -> XP z -> i < nkr z -> i < vc s i -> forall cnt j, j + cnt <= i ->
  exists b, mu_row_ok lo P (z, s) eta i j cnt = Some b /\
    (b = true <-> forall a, j <= a < j + cnt -> (qabs (MM z i a) <= eta)%Qc).
Proof.
  intros HF HX Hi Hv. induction cnt as [|cnt IH]; intros j Hj; cbn [mu_row_ok].
  - exists true. split; auto. split; auto. lia.
  - change (lf lo) with fo. rewrite (get_mu_q rnd si ze expo P) by (auto; lia). cbn [obind]. cbn [l_gt l_abs lq_ops].
    destruct (qltb eta (qabs (MM z i j))) eqn:EB.
    + exists false. split; auto. split; [discriminate|]. intros H. specialize (H j ltac:(lia)). apply qltb_ge in H. congruence.
    + destruct (IH (S j)) as [b [E Hb]]; [lia|]. exists b. split; auto. rewrite Hb. split; intros H a Ha.
      * destruct (Nat.eq_dec a j) as [->|]; [apply qltb_ge; auto|]. apply H. lia.
      * apply H. lia.
Qed.
Lemma mu_all_ok_x z s eta m : FI z s -> XP z -> m <= nkr z -> (forall j, j < m -> j < vc s j) -> forall cnt i, i + cnt <= m ->
  exists b, mu_all_ok lo P (z, s) eta i cnt = Some b /\
    (b = true <-> forall a j, i <= a < i + cnt -> j < a -> (qabs (MM z a j) <= eta)%Qc).
Proof.
  intros HF HX Hm HV. induction cnt as [|cnt IH]; intros i Hi; cbn [mu_all_ok].
  - exists true. split; auto. split; auto. lia.
  - destruct (mu_row_ok_x z s eta i HF HX ltac:(lia) (HV i ltac:(lia)) i 0) as [b [E Hb]]; [lia|]. rewrite E. cbn [obind].
    destruct b.
    + destruct (IH (S i)) as [b' [E' Hb']]; [lia|]. exists b'. split; auto. rewrite Hb'. split; intros H a j Ha Hj.
      * destruct (Nat.eq_dec a i) as [->|]; [apply Hb; auto; lia|]. apply H; lia.
      * apply H; lia.
    + exists false. split; auto. split; [discriminate|]. intros H. apply Hb. intros a Ha. apply H; lia.
Qed.
Lemma lov_all_ok_x z s delta m : FI z s -> XP z -> m <= nkr z -> (forall j, j < m -> j < vc s j) -> forall cnt i, 1 <= i -> i + cnt <= m ->
  exists b, lov_all_ok lo P (z, s) delta i cnt = Some b /\
    (b = true <-> forall a, i <= a < i + cnt -> (RR z (a - 1) (a - 1) * (delta - MM z a (a - 1) * MM z a (a - 1)) <= RR z a a)%Qc).
Proof.
  intros HF HX Hm HV. induction cnt as [|cnt IH]; intros i Hi1 Hi; cbn [lov_all_ok].
  - exists true. split; auto. split; auto. lia.
  - change (lf lo) with fo. pose proof (HV i ltac:(lia)). pose proof (HV (i - 1) ltac:(lia)).
    rewrite (get_mu_q rnd si ze expo P) by (auto; lia). cbn [obind].
    rewrite (get_r_q z s (i - 1) (i - 1)) by (auto; lia). cbn [obind].
    rewrite (get_r_q z s i i) by (auto; lia). cbn [obind]. cbn [l_lt lq_ops f_mul f_sub qc_ops].
    destruct (qltb (RR z i i) (RR z (i - 1) (i - 1) * (delta - MM z i (i - 1) * MM z i (i - 1)))) eqn:EB.
    + exists false. split; auto. split; [discriminate|]. intros X. specialize (X i ltac:(lia)). apply qltb_ge in X. congruence.
    + destruct (IH (S i)) as [b [E Hb]]; [lia|lia|]. exists b. split; auto. rewrite Hb. split; intros X a Ha.
      * destruct (Nat.eq_dec a i) as [->|]; [apply qltb_ge; auto|]. apply X. lia.
      * apply X. lia.
Qed.
(** the tests never pass for a range without passing for every part of it *)
Lemma mu_all_true zs eta : forall cnt i, mu_all_ok lo P zs eta i cnt = Some true -> forall n, n <= cnt -> mu_all_ok lo P zs eta i n = Some true.
Proof.
  induction cnt as [|cnt IH]; intros i E n Hn. { replace n with 0 by lia. reflexivity. }
  destruct n as [|n]; [reflexivity|]. cbn [mu_all_ok] in *. destruct (mu_row_ok lo P zs eta i 0 i) as [[|]|]; try discriminate.
  cbn [obind] in *. apply IH; auto. lia.
Qed.
Lemma lov_all_true zs delta : forall cnt i, lov_all_ok lo P zs delta i cnt = Some true -> forall n, n <= cnt -> lov_all_ok lo P zs delta i n = Some true.
Proof.
  induction cnt as [|cnt IH]; intros i E n Hn. { replace n with 0 by lia. reflexivity. }
  destruct n as [|n]; [reflexivity|]. cbn [lov_all_ok] in *.
  destruct (get_mu (lf lo) (p_e P) zs i (i - 1)) as [m1|]; [|discriminate]. cbn [obind] in *.
  destruct (get_r (lf lo) (p_e P) zs (i - 1) (i - 1)) as [m2|]; [|discriminate]. cbn [obind] in *.
  destruct (get_r (lf lo) (p_e P) zs i i) as [m3|]; [|discriminate]. cbn [obind] in *.
  match goal with |- context [if ?x then _ else _] => destruct x end; [discriminate|]. apply IH; auto. lia.
Qed.

Lemma decide_x z s delta eta : FI z s -> XP z -> locked z = false -> (forall i, i < gd z -> (0 < RR z i i)%Qc) ->
  exists b, is_lll_reduced lo P z s delta eta = Some b /\
   (b = true <->
     (forall i j, j < i -> i < gd z -> (qabs (MM z i j) <= eta)%Qc) /\
     (forall i, S i < gd z -> (RR z i i * (delta - MM z (S i) i * MM z (S i) i) <= RR z (S i) (S i))%Qc)).
Proof.
  intros HF HX HL HP. unfold is_lll_reduced.
  destruct (update_gso_x (gd z) 0 z s) as [z' [s' [ok [m [E' [F' [X' [B' [C' [M1 [M2 [M3 [M4 M5]]]]]]]]]]]]]; auto; try lia.
  rewrite E'. cbn [obind].
  assert (ok = true) as ->.
  { destruct ok; auto. destruct (M5 eq_refl) as [k [K1 K2]]. specialize (HP k ltac:(lia)). rewrite K2 in HP. discriminate. }
  rewrite (M4 eq_refl) in *. assert (GD : gd z' = gd z) by (unfold gd; rewrite B'; auto). rewrite GD.
  destruct (mu_all_ok_x z' s' eta (gd z) F' X' M2 M3 (gd z) 0) as [b1 [E1 H1]]; [lia|].
  match goal with |- context [obind ?A _] => replace A with (Some b1) by (symmetry; exact E1) end. cbn [obind].
  rewrite B', C' in H1. cbn [Nat.add] in H1.
  destruct b1.
  - destruct (gd z) as [|g] eqn:EG.
    + exists true. split; [reflexivity|]. split; auto. intros _. split; intros; lia.
    + rewrite <- EG in *. destruct (lov_all_ok_x z' s' delta (gd z) F' X' M2 M3 (gd z - 1) 1) as [b2 [E2 H2]]; [lia|lia|].
      exists b2. split; [exact E2|]. rewrite H2. rewrite B', C'. split.
      * intros H. split. { intros i j Hj Hi. apply H1; auto. lia. }
        intros i Hi. specialize (H (S i) ltac:(lia)). replace (S i - 1) with i in H by lia. exact H.
      * intros [Ha Hb] a Hl. specialize (Hb (a - 1) ltac:(lia)). replace (S (a - 1)) with a in Hb by lia. exact Hb.
  - exists false. split; auto. split; [discriminate|]. intros [Ha _]. apply H1. intros a j Hr Hj. apply Ha; lia.
Qed.

(** whatever the basis: if the tests pass, the first row is zero or the basis is
    independent and reduced *)
Lemma accept_x z s delta eta : FI z s -> XP z -> locked z = false -> (0 <= eta)%Qc -> (eta * eta < delta)%Qc -> is_lll_reduced lo P z s delta eta = Some true ->
  RR z 0 0 = 0%Qc \/
  ((forall i, i < gd z -> (0 < RR z i i)%Qc) /\
   (forall i j, j < i -> i < gd z -> (qabs (MM z i j) <= eta)%Qc) /\
   (forall i, S i < gd z -> (RR z i i * (delta - MM z (S i) i * MM z (S i) i) <= RR z (S i) (S i))%Qc)).
Proof.
  intros HF HX HL He Hd HE.
  destruct (Qc_eq_dec (RR z 0 0) 0) as [|HZ]; [auto|right].
  assert (HP : forall i, i < gd z -> (0 < RR z i i)%Qc).
  { unfold is_lll_reduced in HE.
    destruct (update_gso_x (gd z) 0 z s) as [z' [s' [ok [m [E' [F' [X' [B' [C' [M1 [M2 [M3 [M4 M5]]]]]]]]]]]]]; auto; try lia.
    rewrite E' in HE. cbn [obind] in HE. assert (GD : gd z' = gd z) by (unfold gd; rewrite B'; auto). rewrite GD in HE.
    destruct (mu_all_ok lo P (z', s') eta 0 (gd z)) as [[|]|] eqn:EM; try discriminate. cbn [obind] in HE.
    pose proof (mu_all_true _ _ _ _ EM m M1) as EM'.
    destruct (mu_all_ok_x z' s' eta m F' X' M2 M3 m 0) as [b1 [E1 H1]]; [lia|].
    assert (b1 = true) as -> by (assert (X : Some b1 = Some true) by (rewrite <- E1; exact EM'); congruence). destruct H1 as [H1 _]. specialize (H1 eq_refl). rewrite B', C' in H1.
    assert (HPm : forall i, i < m -> (0 < RR z i i)%Qc).
    { induction i as [|i IHi]; intros Hi.
      - pose proof (qR_nonneg (gc z) (gb z) 0) as X. apply Qcle_lt_or_eq in X. destruct X as [X|X]; auto. congruence.
      - specialize (IHi ltac:(lia)). pose proof (lov_all_true _ _ _ _ HE (m - 1) ltac:(lia)) as EL.
        destruct (lov_all_ok_x z' s' delta m F' X' M2 M3 (m - 1) 1) as [b2 [E2 H2]]; [lia|lia|].
        assert (b2 = true) as -> by (assert (X : Some b2 = Some true) by (rewrite <- E2; exact EL); congruence). destruct H2 as [H2 _]. specialize (H2 eq_refl (S i) ltac:(lia)).
        rewrite B', C' in H2. replace (S i - 1) with i in H2 by lia.
        eapply Qclt_le_trans; [|exact H2]. replace 0%Qc with (0 * (delta - MM z (S i) i * MM z (S i) i))%Qc by ring.
        apply Qcmult_lt_compat_r; auto.
        pose proof (sq_bound _ _ (H1 (S i) i ltac:(lia) ltac:(lia))) as X.
        assert (MM z (S i) i * MM z (S i) i < delta)%Qc by (eapply Qcle_lt_trans; eauto). apply Qclt_minus_iff in H. exact H. }
    destruct ok.
    - rewrite (M4 eq_refl) in HPm. auto.
    - destruct (M5 eq_refl) as [k [K1 K2]]. specialize (HPm k K1). rewrite K2 in HPm. discriminate. }
  destruct (decide_x z s delta eta HF HX HL HP) as [b [Eb Hb]]. assert (b = true) as -> by congruence.
  split; auto. apply Hb. auto.
Qed.
End X.
