(** Proofs about the exact model of slide reduction (BkzSlideModel.v): determinants of the leading blocks never grow,
    the loops end, the last tour changes nothing.  Not part of the model (proofs for PropBkzSlide.v). *)
From Coq Require Import List ZArith QArith Qcanon Lia Lqa Arith Bool.
From Verif Require Import Util QcUtil LatticeSpec MatrixModel MatrixProofs GsoModel GsoProofs GsoHistory GsoFModel GsoFSpec GsoFProofs GsoWeak GsoQ QGs
  LllModel LllQ LllExact LllDecide LllProofs LllSpec LllSpecFacts GramDet LatPot LllTotal LllKeep
  EnumModel EnumExact EnumSpec EnumLink EvalModel EnumCall PropEnum BkzModel BkzProofs PropBkz BlockAct BkzExactModel BkzSpec LatProj BkzExact BkzHkz BkzTotal
  EnumDual BkzDualModel BkzDualSpec DualLat BkzDual LatBlock BkzSlideModel.
Import ListNotations.
Local Open Scope nat_scope.

Section S.
Variable rnd : Qc -> Z -> Qc.
Variable si ze : Qc -> Z -> Z * nat.
Variable expo : Qc -> Z.
Notation lo := (lq_ops rnd si ze expo).
Notation fo := qc_ops.
Variable P : lpar lo.
Notation lst := (lst lo).
Notation half := (Q2Qc (1 # 2)).
Notation vc s j := (nth j (fvc s) 0).
Hypothesis HX : exact_rounding rnd si ze.
Hypothesis Heta : (half <= p_eta P)%Qc.
Hypothesis Hthr : p_thr P = (if p_siegel P then p_delta P - p_eta P * p_eta P else p_delta P)%Qc.
Hypothesis Hdelta : (p_eta P * p_eta P < p_delta P)%Qc.
Hypothesis Hearly : p_early P = false.
Hypothesis Hpd1 : (p_delta P < 1)%Qc.
Variables (fuel : nat) (max_iter : list (list Z) -> nat) (ne : list Qc -> Z) (rec : bool) (delta : Qc).
Hypothesis Hfuel : 2 <= fuel.
Hypothesis Hd0 : (0 <= delta)%Qc.
Hypothesis Hd1 : (delta < 1)%Qc.
Variables (c D : nat).
Notation calm := (calm rnd si ze expo P).
Notation stable := (stable rnd si ze expo P c).
Notation lstable := (lstable rnd si ze expo P c).
Notation reds := (reds rnd si ze expo P c).
Notation ready := (ready rnd si ze expo P c D).
Notation valid_to := (valid_to rnd si ze expo).
Notation size_reduced_to := (size_reduced_to rnd si ze expo P c).
Notation lovasz_to := (lovasz_to rnd si ze expo P c).
Notation bvlen := (bvlen c).
Notation dblen := (dblen c).
Notation put := (put c D).
Notation dput := (dput c D).
Notation svp ef := (svp_reduction rnd si ze expo P fuel ef max_iter ne rec delta).
Notation dsvp ef := (dsvp_reduction rnd si ze expo P fuel ef max_iter ne rec delta).
Notation dt B n := (gram_det c B n).
Variable Bs : list (list Z).
Notation LK := (LK c D Bs).
Notation BB st := (gb (lz st)).
Notation LKs := (LK_stable rnd si ze expo P fuel Hfuel c D Bs).
Notation LKl := (LK_lstable rnd si ze expo P fuel Hfuel c D Bs).

(** ** determinants *)
Lemma dt_pos B n : all_pos c B D -> n <= D -> (0 < dt B n)%Z.
Proof. intros HA Hn. apply Qcz_lt. rewrite Qcz_0. apply (all_pos_det c B D); auto. Qed.
Lemma dt_S B n : Qcz (dt B (S n)) = (Qcz (dt B n) * qR c B n n)%Qc.
Proof. apply gram_det_step. Qed.
Lemma ins_dt B B' k i n : length B = D -> all_pos c B D -> i < k < D -> inserted B B' k i ->
  (forall j, i <= j < k -> (qproj c B k j <= p_delta P * qR c B j j)%Qc) -> n <= D ->
  (n <= i \/ k < n) /\ dt B' n = dt B n \/ i < n <= k /\ (dt B' n < dt B n)%Z.
Proof.
  intros HL HA Hi HI HP Hn. destruct (Nat.le_gt_cases n i) as [N|N].
  { left. split; auto. apply (gram_det_outside c B B' k i n HI); auto; lia. }
  destruct (Nat.le_gt_cases n k) as [N2|N2].
  2:{ left. split; auto. apply (gram_det_outside c B B' k i n HI); auto; lia. }
  right. split; auto. apply Qcz_lt. rewrite (gram_det_inside c B B' k i n HI) by lia. specialize (HP (n - 1) ltac:(lia)).
  replace (dt B n) with (dt B (S (n - 1))) by (f_equal; lia). rewrite dt_S. pose proof (all_pos_det c B D (n - 1) HA ltac:(lia)) as A1. pose proof (HA (n - 1) ltac:(lia)) as A2.
  assert (A3 : (qproj c B k (n - 1) < qR c B (n - 1) (n - 1))%Qc).
  { eapply Qcle_lt_trans; [exact HP|]. set (r := qR _ _ _ _) in *. clearbody r. revert A2 Hpd1. clear. generalize (p_delta P). change (F fo) with Qc. intros; qcnra. }
  set (x := Qcz _) in *. set (y := qproj _ _ _ _) in *. set (r := qR _ _ _ _) in *. clearbody x y r. clear - A1 A3. qcnra.
Qed.

Definition le_at (n : nat) (d : Z) (B : list (list Z)) : Prop := LK B /\ (dt B n <= d)%Z.
Lemma le_stable n d : n <= D -> stable (le_at n d).
Proof.
  intros Hn B B' k srs [HK Hd] Hk HL HP HR HS. split; [eapply LKs; eauto|]. rewrite (gram_det_row c B B' k n HR) by (destruct HK; lia). auto.
Qed.
Lemma le_lstable n d kend : n <= D -> kend <= D -> lstable kend (le_at n d).
Proof.
  intros Hn HD B B' k k' [HK Hd] Hk HE HA HI. split; [eapply (LKl kend); eauto|]. destruct HI as [B1 [L1 [R1 [_ HC]]]]. pose proof HK as [H1 [H2 H3]].
  pose proof (gram_det_row c B B1 k n R1 ltac:(lia)) as E1. destruct HC as [[_ ->]|[i [Hi [_ [L2 [HI [_ HQ]]]]]]]; [lia|].
  assert (A1 : all_pos c B1 D) by (eapply row_changed_pos; eauto; lia).
  destruct (ins_dt B1 B' k i n ltac:(lia) A1 ltac:(lia) HI HQ Hn); lia.
Qed.
Lemma reds_dt B B' n : LK B -> reds B B' -> n <= D -> LK B' /\ dt B' n = dt B n.
Proof.
  intros HK HR Hn. apply (HR (fun C => LK C /\ dt C n = dt B n)); auto.
  intros C C' k srs [CK Cd] Hk HL HP HRC HS. split; [eapply LKs; eauto|]. rewrite (gram_det_row c C C' k n HRC) by (destruct CK; lia). auto.
Qed.
Lemma put_dt B B' k m x n : put B B' k m x -> n <= D -> n <= k \/ k + m <= n -> dt B' n = dt B n.
Proof. intros (H1 & H2 & H3 & H4 & H5 & _). eapply block_det; eauto. Qed.
Lemma dput_dt B B' k m x n : dput B B' k m x -> n <= D -> n <= k \/ k + m <= n -> dt B' n = dt B n.
Proof. intros (H1 & H2 & H3 & H4 & H5 & _). eapply block_det; eauto. Qed.
Lemma put_lt B B' k m x : all_pos c B D -> 0 < m -> k + m <= D -> put B B' k m x -> (bvlen B k m x <= delta * qR c B k k)%Qc -> (dt B' (S k) < dt B (S k))%Z.
Proof.
  intros HA Hm HD HP HB. apply Qcz_lt. rewrite !dt_S. rewrite (put_dt B B' k m x k HP) by lia. rewrite (put_R fuel Hfuel c D B B' k m x HA Hm HD HP).
  pose proof (all_pos_det c B D k HA ltac:(lia)) as A1. pose proof (HA k ltac:(lia)) as A2.
  set (u := Qcz _) in *. set (y := bvlen _ _ _ _) in *. set (r := qR _ _ _ _) in *. clearbody u y r.
  assert (y < r)%Qc by (clear - HB A2 Hd1; qcnra). clear - H A1. qcnra.
Qed.
Lemma dput_lt B B' k m x : all_pos c B D -> all_pos c B' D -> 0 < m -> k + m <= D -> length x = m -> dput B B' k m x ->
  (dblen B k m x <= / qR c B (k + m - 1) (k + m - 1) * delta)%Qc -> (dt B' (k + m - 1) < dt B (k + m - 1))%Z.
Proof.
  intros HA HA' Hm HD HL HP HB. apply Qcz_lt. pose proof (dput_R c D B B' k m x HA HA' Hm HD HL HP) as E2.
  pose proof (dput_dt B B' k m x (k + m) HP ltac:(lia) ltac:(lia)) as E.
  replace (k + m) with (S (k + m - 1)) in E by lia. apply (f_equal Qcz) in E. rewrite !dt_S in E.
  pose proof (all_pos_det c B D (k + m - 1) HA ltac:(lia)) as A1. pose proof (HA (k + m - 1) ltac:(lia)) as A2.
  set (a := dblen B k m x) in *. set (u := Qcz (dt B (k + m - 1))) in *. set (u' := Qcz (dt B' (k + m - 1))) in *.
  set (r := qR c B (k + m - 1) (k + m - 1)) in *. set (r' := qR c B' (k + m - 1) (k + m - 1)) in *.
  assert (RI : (r * / r = 1)%Qc) by (field; intros EE; rewrite EE in A2; discriminate).
  assert (X6 : (r * a <= delta)%Qc).
  { replace delta with (r * (/ r * delta))%Qc by (rewrite Qcmult_assoc, RI; ring). revert HB. generalize (/ r * delta)%Qc. clear - A2. clearbody r a. intros; qcnra. }
  replace u' with (u * (r * a))%Qc.
  - clearbody r a u. revert X6 A1 Hd1. clear. generalize (r * a)%Qc. intros; qcnra.
  - rewrite Qcmult_assoc, <- E, <- Qcmult_assoc, E2. ring.
Qed.

(** ** one call *)
Lemma svp_dt ef st k m st' b n : ready st -> LK (BB st) -> 0 < m -> k + m <= D -> svp ef st k m = Some (st', BRet b) ->
  n <= D -> n <= S k \/ k + m <= n -> (dt (BB st') n <= dt (BB st) n)%Z.
Proof.
  intros HR HJ Hm HD E Hn Hk.
  destruct (svp_gen2 rnd si ze expo P HX Heta Hthr Hdelta Hearly fuel ef max_iter ne rec delta Hfuel Hd0 c D (le_at n (dt (BB st) n)) st st' k m b)
    as [B0 [B1 [B2 [J0 [[K1 D1] [L1 [HC [RE [L2 [P2 _]]]]]]]]]]; auto.
  { intros B HB. apply HB. }
  { apply le_stable. auto. }
  { apply le_lstable; auto. }
  { split; auto. lia. }
  assert (K2 : LK B2 /\ (dt B2 n <= dt B1 n)%Z).
  { destruct HC as [[-> _]|[x [X1 [X2 [X3 [X4 X5]]]]]]; [split; auto; lia|]. split.
    - destruct K1 as [G1 [G2 G3]]. split; auto. split; auto. intros v. rewrite <- G2. apply X5.
    - destruct (Nat.eq_dec n (S k)) as [->|N]; [pose proof (put_lt B1 B2 k m x ltac:(apply K1) Hm HD X5 X3); lia|]. rewrite (put_dt B1 B2 k m x n X5) by lia. lia. }
  destruct K2 as [K2 D2]. destruct (reds_dt B2 (BB st') n K2 RE Hn) as [_ E3]. lia.
Qed.
(** what the returned flag says *)
Lemma svp_flag ef st k m st' b : ready st -> LK (BB st) -> 0 < m -> k + m <= D -> svp ef st k m = Some (st', BRet b) ->
  dt (BB st') k = dt (BB st) k -> (b = true <-> (dt (BB st) (S k) <= dt (BB st') (S k))%Z).
Proof.
  intros HR HJ Hm HD E Ek.
  destruct (svp_gen2 rnd si ze expo P HX Heta Hthr Hdelta Hearly fuel ef max_iter ne rec delta Hfuel Hd0 c D LK st st' k m b)
    as [B0 [B1 [B2 [J0 [J1 [L1 [HC [RE [L2 [P2 [R' [V' [S' [F [RS _]]]]]]]]]]]]]]]; auto.
  { intros B HB. apply HB. }
  { apply LKs. }
  { apply LKl. auto. }
  rewrite F. destruct (reds_dt (BB st) B0 k HJ RS ltac:(lia)) as [_ E0]. destruct (reds_dt (BB st) B0 (S k) HJ RS ltac:(lia)) as [_ E1].
  rewrite <- E1, <- Qcz_le, !dt_S. rewrite E0, <- Ek. pose proof (all_pos_det c (BB st') D k ltac:(apply R') ltac:(lia)) as A1.
  set (u := Qcz _) in *. clearbody u. set (r := qR c B0 k k). set (r' := qR c (BB st') k k). clearbody r r'. clear - A1. split; intros; qcnra.
Qed.
Lemma svp_less ef st k m st' : ready st -> LK (BB st) -> 0 < m -> k + m <= D -> svp ef st k m = Some (st', BRet false) ->
  (dt (BB st') k < dt (BB st) k \/ dt (BB st') (S k) < dt (BB st) (S k))%Z.
Proof.
  intros HR HJ Hm HD E. pose proof (svp_dt ef st k m st' false k HR HJ Hm HD E ltac:(lia) ltac:(lia)) as D1.
  destruct (Z.eq_dec (dt (BB st') k) (dt (BB st) k)) as [Ek|Nk]; [|left; lia]. right.
  pose proof (svp_flag ef st k m st' false HR HJ Hm HD E Ek) as F. destruct (Z_lt_le_dec (dt (BB st') (S k)) (dt (BB st) (S k))); auto. apply F in l. discriminate.
Qed.
Lemma dsvp_dt ef st k m st' b n : ready st -> LK (BB st) -> 0 < m -> k + m <= D -> dsvp ef st k m = Some (st', BRet b) ->
  n <= D -> n <= k \/ k + m - 1 <= n -> (dt (BB st') n <= dt (BB st) n)%Z.
Proof.
  intros HR HJ Hm HD E Hn Hk.
  destruct (dsvp_gen rnd si ze expo P HX Heta Hthr Hdelta Hearly fuel max_iter ne rec delta Hfuel Hd0 c D (le_at n (dt (BB st) n)) ef st st' k m b)
    as [B0 [B1 [B2 [J0 [[K1 D1] [L1 [HC [RE [L2 [P2 _]]]]]]]]]]; auto.
  { intros B HB. apply HB. }
  { apply le_stable. auto. }
  { apply le_lstable; auto. }
  { split; auto. lia. }
  assert (K2 : LK B2 /\ (dt B2 n <= dt B1 n)%Z).
  { destruct HC as [[-> _]|[x [X1 [X2 [X3 [X4 X5]]]]]]; [split; auto; lia|]. split.
    - destruct K1 as [G1 [G2 G3]]. split; auto. split; auto. intros v. rewrite <- G2. apply X5.
    - destruct (Nat.eq_dec n (k + m - 1)) as [->|N]; [pose proof (dput_lt B1 B2 k m x ltac:(apply K1) P2 Hm HD X1 X5 X3); lia|]. rewrite (dput_dt B1 B2 k m x n X5) by lia. lia. }
  destruct K2 as [K2 D2]. destruct (reds_dt B2 (BB st') n K2 RE Hn) as [_ E3]. lia.
Qed.

(** ** rows that stay *)
Definition rows_eq (n : nat) (A B : list (list Z)) : Prop := forall a, a < n -> nth a A [] = nth a B [].
Lemma sr_eq n A B : rows_eq n A B -> size_reduced_to B n -> size_reduced_to A n.
Proof. intros H HS i j Hi Hj. rewrite (qM_same c B A i j) by (try lia; intros; apply H; lia). apply HS; auto. Qed.
Lemma lv_eq n A B : rows_eq n A B -> lovasz_to B n -> lovasz_to A n.
Proof.
  intros H HS i Hi. rewrite (qR_same c B A (i - 1) (i - 1)) by (try lia; intros; apply H; lia).
  rewrite (qproj_same c B A i) by (try (apply tidx_le); intros; apply H; lia). apply HS; auto.
Qed.
Lemma bv_eq k m A B y : rows_eq (k + m) A B -> bvlen A k m y = bvlen B k m y.
Proof.
  intros H. unfold BkzExact.bvlen. apply vlen_ext.
  - intros i j Hj. unfold bmu. apply qM_same; [lia|]. intros a Ha. apply H. lia.
  - intros i Hi. unfold br. apply qR_same; [lia|]. intros a Ha. apply H. lia.
Qed.
(** a reduced prefix of F either stays or its determinant has become smaller *)
Definition fz (n : nat) (F B : list (list Z)) : Prop := LK B /\ (dt B n <= dt F n)%Z /\ (dt B n = dt F n -> rows_eq n B F).
Lemma fz_row n F B B' k srs : n <= D -> size_reduced_to F n -> fz n F B -> 0 < k < D -> length B' = length B -> (forall j, j < k -> (0 < qR c B j j)%Qc) ->
  row_changed c B B' k -> ((forall j, srs <= j < k -> (qabs (qM c B k j) <= p_eta P)%Qc) -> B' = B) -> fz n F B'.
Proof.
  intros Hn HF [HK [H1 H2]] Hk HL HP HR HS. pose proof (gram_det_row c B B' k n HR ltac:(destruct HK; lia)) as E.
  split; [eapply LKs; eauto; destruct HK; lia|]. rewrite E. split; auto. intros EE. specialize (H2 EE).
  destruct (Nat.lt_ge_cases k n) as [L|L].
  - rewrite HS; auto. intros j Hj. rewrite (qM_same c F B k j) by (try lia; intros; apply H2; lia). apply HF; lia.
  - intros a Ha. rewrite <- H2 by auto. apply HR; [lia|destruct HK; lia].
Qed.
Lemma fz_stable n F : n <= D -> size_reduced_to F n -> stable (fz n F).
Proof. intros Hn HF B B' k srs HZ Hk HL HP HR HS. eapply fz_row; eauto. destruct HZ as [[H _] _]. lia. Qed.
Lemma fz_lstable n F kend : n <= D -> size_reduced_to F n -> lovasz_to F n -> kend <= D -> lstable kend (fz n F).
Proof.
  intros Hn HF HV HD B B' k k' HZ Hk HE HA HI. destruct HI as [B1 [L1 [R1 [HS HC]]]]. pose proof HZ as [[H1 [H2 H3]] _].
  assert (Z1 : fz n F B1).
  { apply (fz_row n F B B1 k 0); auto; [lia|]. intros j Hj. apply HA. lia. }
  destruct HC as [[_ ->]|[i [Hi [_ [L2 [HI [HB HQ]]]]]]]; auto.
  pose proof Z1 as [[G1 [G2 G3]] [Z2 Z3]]. pose proof (inserted_LB c D B1 B' k i G1 ltac:(lia) HI) as IB.
  split; [split; [congruence|]; split; [intros v; rewrite IB; auto|]; eapply LB_pos; eauto|].
  destruct (ins_dt B1 B' k i n G1 G3 ltac:(lia) HI HQ Hn) as [[Hr E]|[Hr E]]; [|split; [lia|intros; exfalso; lia]].
  rewrite E. split; auto. intros EE. specialize (Z3 EE). destruct Hr as [Hr|Hr].
  - intros a Ha. rewrite <- Z3 by auto. destruct HI as [_ [HI _]]. apply HI. lia.
  - exfalso. apply (Qclt_not_le _ _ HB).
    rewrite (qR_same c F B1 (k - 1) (k - 1)) by (try lia; intros; apply Z3; lia).
    rewrite (qproj_same c F B1 k) by (try (apply tidx_le); intros; apply Z3; lia). apply HV. lia.
Qed.
(** a block whose leading determinant stays and that is reported as clean has not been changed *)
Lemma svp_fix ef st k m st' : ready st -> LK (BB st) -> 0 < m -> k + m <= D -> svp ef st k m = Some (st', BRet true) ->
  size_reduced_to (BB st) k -> lovasz_to (BB st) k -> (dt (BB st) k <= dt (BB st') k)%Z ->
  ready st' /\ LK (BB st') /\ rows_eq k (BB st') (BB st) /\ size_reduced_to (BB st') (k + m) /\ lovasz_to (BB st') (k + m) /\
  (forall y, length y = m -> nonzero y -> (delta * qR c (BB st') k k <= bvlen (BB st') k m y)%Qc).
Proof.
  intros HR HJ Hm HD E HS HV Hk.
  pose proof (svp_dt ef st k m st' true k HR HJ Hm HD E ltac:(lia) ltac:(lia)) as M1. assert (Ek : dt (BB st') k = dt (BB st) k) by lia. clear Hk M1.
  pose proof (proj1 (svp_flag ef st k m st' true HR HJ Hm HD E Ek) eq_refl) as F.
  destruct (svp_gen2 rnd si ze expo P HX Heta Hthr Hdelta Hearly fuel ef max_iter ne rec delta Hfuel Hd0 c D
    (fun B => fz k (BB st) B /\ le_at (S k) (dt (BB st) (S k)) B) st st' k m true)
    as [B0 [B1 [B2 [J0 [[Z1 [K1 D1]] [L1 [HC [RE [L2 [P2 [R' [V' [S' [_ [RS [SR LV]]]]]]]]]]]]]]]]; auto.
  { intros B [[HB _] _]. apply HB. }
  { intros B B' kp srs [G1 G2] A1 A2 A3 A4 A5. split; [eapply (fz_stable k (BB st)); eauto; lia|eapply (le_stable (S k)); eauto; lia]. }
  { intros B B' kp kp' [G1 G2] A1 A2 A3 A4. split; [eapply (fz_lstable k (BB st) (k + m)); eauto; lia|eapply (le_lstable (S k) _ (k + m)); eauto; lia]. }
  { split; split; auto; [|lia]. split; [lia|]. intros _ a Ha. auto. }
  destruct HC as [[-> HN]|[x [X1 [X2 [X3 [X4 X5]]]]]].
  - assert (ZF : fz (k + m) B1 (BB st')).
    { apply (RE (fz (k + m) B1)); [apply fz_stable; auto|]. split; auto. split; [lia|]. intros _ a Ha. auto. }
    destruct ZF as [K' [_ Z']]. specialize (Z' (proj2 (reds_dt B1 (BB st') (k + m) K1 RE HD))).
    split; auto. split; auto. split.
    + intros a Ha. rewrite Z' by lia. destruct Z1 as [_ [_ Z1]]. apply Z1; auto. rewrite <- Ek. symmetry. apply (reds_dt B1 (BB st')); auto. lia.
    + split; [eapply sr_eq; eauto|]. split; [eapply lv_eq; eauto|]. intros y Ly Ny. rewrite (bv_eq k m (BB st') B1) by auto.
      rewrite (qR_same c B1 (BB st') k k) by (auto; intros; apply Z'; lia). apply Qclt_le_weak. apply HN; auto.
  - exfalso. pose proof (put_lt B1 B2 k m x ltac:(apply K1) Hm HD X5 X3) as LT.
    assert (K2 : LK B2). { destruct K1 as [G1 [G2 G3]]. split; auto. split; auto. intros v. rewrite <- G2. apply X5. }
    pose proof (proj2 (reds_dt B2 (BB st') (S k) K2 RE ltac:(lia))). lia.
Qed.
(** a dual block of a reduced basis whose determinant stays *)
Lemma dsvp_fix ef st k m st' b B0 : length B0 = D -> all_pos c B0 D -> size_reduced_to B0 D -> lovasz_to B0 D ->
  ready st -> BB st = B0 -> 0 < m -> k + m <= D -> dsvp ef st k m = Some (st', BRet b) -> (dt B0 (k + m - 1) <= dt (BB st') (k + m - 1))%Z ->
  BB st' = B0 /\ ready st' /\ valid_to st' (k + m) /\ dred c B0 delta k m.
Proof.
  intros HL0 HA0 HM0 HP0 HR HB Hm HD E Hdt.
  assert (HK : BkzTotal.LK c D B0 (BB st)) by (rewrite HB; split; auto; split; auto; tauto).
  destruct (dsvp_dred rnd si ze expo P HX Heta Hthr Hdelta Hearly fuel max_iter ne rec delta Hfuel Hd0 c D ef st st' k m b B0 ltac:(apply Qclt_le_weak; auto) HR Hm HD HK E) as [_ [_ [_ [_ DR]]]].
  destruct (dsvp_gen rnd si ze expo P HX Heta Hthr Hdelta Hearly fuel max_iter ne rec delta Hfuel Hd0 c D (fun B => B = B0) ef st st' k m b)
    as [Ba [B1 [B2 [-> [-> [L1 [HC [RE [L2 [P2 [R' [V' _]]]]]]]]]]]]; auto.
  { intros B ->. auto. }
  { exact (same_stable rnd si ze expo P fuel Hfuel c D B0 HL0 HM0). }
  { apply (same_lstable rnd si ze expo P fuel Hfuel c D B0 HL0 HM0 HP0). auto. }
  assert (SB : BB st' = B0).
  { destruct HC as [[-> HN]|[x [X1 [X2 [X3 [X4 X5]]]]]].
    - apply (RE (fun B => B = B0)); auto. exact (same_stable rnd si ze expo P fuel Hfuel c D B0 HL0 HM0).
    - exfalso. pose proof (dput_lt B0 B2 k m x HA0 P2 Hm HD X1 X5 X3) as LT.
      assert (Q : length (BB st') = D /\ dt (BB st') (k + m - 1) = dt B2 (k + m - 1)).
      { apply (RE (fun B => length B = D /\ dt B (k + m - 1) = dt B2 (k + m - 1))); auto. intros B B' kp srs [G1 G2] Hkp GL _ HRC _.
        split; [congruence|]. rewrite (gram_det_row c B B' kp (k + m - 1) HRC) by lia. auto. }
      lia. }
  split; auto. split; auto. split; auto. rewrite <- SB at 1. exact DR.
Qed.

(** ** the loops *)
Section Loops.
Variable beta : nat.
Hypothesis Hb : 2 <= beta.
Hypothesis HD0 : 0 < D.
Notation p := (n_blocks D beta).
Notation sl_primal ef := (sl_primal rnd si ze expo P fuel ef max_iter ne rec delta).
Notation sl_inner ef := (sl_inner rnd si ze expo P fuel ef max_iter ne rec delta).
Notation sl_dual ef := (sl_dual rnd si ze expo P fuel ef max_iter ne rec delta).
Notation slide_pot := (slide_pot rnd si ze expo P).
Notation slide_tour ef := (slide_tour rnd si ze expo P fuel ef max_iter ne rec delta).
Notation slide_loop ef := (slide_loop rnd si ze expo P fuel ef max_iter ne rec delta).

Lemma nb_lt i : i < p <-> i * beta < D.
Proof.
  unfold n_blocks. pose proof (Nat.div_mod D beta ltac:(lia)) as E. pose proof (Nat.mod_upper_bound D beta ltac:(lia)) as U.
  set (q := D / beta) in *. set (r := D mod beta) in *. clearbody q r. destruct (Nat.eqb_spec r 0); split; intros; nia.
Qed.
Lemma nb_pos : 0 < p.
Proof. apply nb_lt. lia. Qed.
Lemma nb_last : (p - 1) * beta < D.
Proof. apply nb_lt. pose proof nb_pos. lia. Qed.
Lemma nb_pot : D / beta - (if D mod beta =? 0 then 1 else 0) = p - 1.
Proof.
  pose proof nb_pos as H. unfold n_blocks in *. destruct (Nat.eqb_spec (D mod beta) 0); lia.
Qed.
(** the determinants that never grow *)
Definition tr (n : nat) : Prop := n <= D /\ n mod beta <= 1.
Lemma tr_k i : i * beta <= D -> tr (i * beta).
Proof. intros H. split; auto. rewrite Nat.mod_mul by lia. lia. Qed.
Lemma tr_k1 i : i * beta < D -> tr (S (i * beta)).
Proof. intros H. split; auto. replace (S (i * beta)) with (1 + i * beta) by lia. rewrite Nat.mod_add by lia. rewrite Nat.mod_small by lia. lia. Qed.
Lemma tr_gap i n : tr n -> n <= S (i * beta) \/ i * beta + beta <= n.
Proof.
  intros [_ H]. pose proof (Nat.div_mod n beta ltac:(lia)) as E. set (q := n / beta) in *. set (r := n mod beta) in *. clearbody q r.
  destruct (Nat.le_gt_cases q i); [left|right]; nia.
Qed.
Definition mono (A B : list (list Z)) : Prop := forall n, tr n -> (dt A n <= dt B n)%Z.
Lemma mono_refl A : mono A A.
Proof. intros n _. lia. Qed.
Lemma mono_trans A B C : mono A B -> mono B C -> mono A C.
Proof. intros H1 H2 n Hn. specialize (H1 n Hn). specialize (H2 n Hn). lia. Qed.
Definition less (A B : list (list Z)) : Prop := exists n, tr n /\ (dt A n < dt B n)%Z.
Definition Phi (B : list (list Z)) : Z := zsum (S D) (fun n => if (n mod beta <=? 1)%nat then dt B n else 0%Z).
Lemma zsum_le n f g : (forall i, i < n -> (f i <= g i)%Z) -> (zsum n f <= zsum n g)%Z.
Proof. intros H. assert (0 <= zsum n (fun i => g i - f i))%Z by (apply zsum_nonneg; intros; specialize (H i H0); lia). rewrite zsum_minus in H0. lia. Qed.
Lemma zsum_lt n f g k : (forall i, i < n -> (f i <= g i)%Z) -> k < n -> (f k < g k)%Z -> (zsum n f < zsum n g)%Z.
Proof.
  induction n as [|n IH]; intros H Hk HK; [lia|]. cbn [zsum]. destruct (Nat.eq_dec k n) as [->|N].
  - pose proof (zsum_le n f g ltac:(intros; apply H; lia)). lia.
  - pose proof (IH ltac:(intros; apply H; lia) ltac:(lia) HK). pose proof (H n ltac:(lia)). lia.
Qed.
Lemma Phi_less A B : mono A B -> less A B -> (Phi A < Phi B)%Z.
Proof.
  intros HM [n [[T1 T2] Hn]]. apply (zsum_lt _ _ _ n); [|lia|].
  - intros i Hi. destruct (Nat.leb_spec (i mod beta) 1); [|lia]. apply HM. split; lia.
  - destruct (Nat.leb_spec (n mod beta) 1); [auto|lia].
Qed.
Lemma Phi_nonneg B : all_pos c B D -> (0 <= Phi B)%Z.
Proof. intros HA. apply zsum_nonneg. intros i Hi. destruct (_ <=? _); [|lia]. pose proof (dt_pos B i HA ltac:(lia)). lia. Qed.

Definition size (i : nat) : nat := Nat.min (D - i * beta) beta.
Lemma size_ok i : i < p -> 0 < size i /\ i * beta + size i <= D.
Proof. intros H. apply nb_lt in H. unfold size. lia. Qed.
Lemma S_k i : i * beta + beta = S i * beta.
Proof. lia. Qed.
Lemma svp_ok ef st i st' b : i < p -> ready st -> LK (BB st) -> svp ef st (i * beta) (size i) = Some (st', BRet b) ->
  ready st' /\ LK (BB st') /\ mono (BB st') (BB st) /\ (b = false -> less (BB st') (BB st)).
Proof.
  intros Hi HR HK E. destruct (size_ok i Hi) as [S1 S2]. pose proof (proj1 (nb_lt i) Hi) as Hk.
  destruct (svp_keep rnd si ze expo P HX Heta Hthr Hdelta Hearly fuel max_iter ne rec delta Hfuel Hd0 c D Bs ef st (i * beta) (size i) st' b HR HK S1 S2 E) as [R1 K1].
  split; auto. split; auto. split.
  - intros n Hn. apply (svp_dt ef st (i * beta) (size i) st' b n); auto; [apply Hn|]. destruct (tr_gap i n Hn); [left; auto|]. right. unfold size. lia.
  - intros ->. destruct (svp_less ef st (i * beta) (size i) st' HR HK S1 S2 E) as [H|H]; [exists (i * beta)|exists (S (i * beta))]; split; auto; [apply tr_k; lia|apply tr_k1; auto].
Qed.
Lemma less_l A B C : mono A B -> less B C -> less A C.
Proof. intros H [n [T L]]. exists n. split; auto. specialize (H n T). lia. Qed.
Lemma less_r A B C : less A B -> mono B C -> less A C.
Proof. intros [n [T L]] H. exists n. split; auto. specialize (H n T). lia. Qed.

Lemma sl_primal_dt ef : forall cnt st i cl st' b, i + cnt = p -> ready st -> LK (BB st) -> sl_primal ef beta D cnt st (i * beta) cl = Some (st', BRet b) ->
  ready st' /\ LK (BB st') /\ mono (BB st') (BB st) /\ (b = true -> cl = true) /\ (b = false -> cl = false \/ less (BB st') (BB st)).
Proof.
  induction cnt as [|cnt IH]; intros st i cl st' b Hi HR HK E; cbn [BkzSlideModel.sl_primal] in E.
  - injection E as <- <-. split; auto. split; auto. split; [apply mono_refl|]. auto.
  - fold (size i) in E. destruct (svp ef st (i * beta) (size i)) as [[s1 [b1|]]|] eqn:E1; cbn [obind fst snd] in E; try discriminate.
    destruct (svp_ok ef st i s1 b1 ltac:(lia) HR HK E1) as [R1 [K1 [M1 F1]]]. rewrite S_k in E.
    destruct (IH s1 (S i) (cl && b1) st' b ltac:(lia) R1 K1 E) as [R2 [K2 [M2 [T2 F2]]]].
    split; auto. split; auto. split; [eapply mono_trans; eauto|]. split.
    + intros Hbt. specialize (T2 Hbt). apply andb_prop in T2. apply T2.
    + intros Hbf. destruct (F2 Hbf) as [H|H]; [|right; eapply less_r; eauto]. apply andb_false_elim in H. destruct H as [->| ->]; auto. right. eapply less_l; eauto.
Qed.
Lemma sl_inner_dt ef : forall n st st' b, ready st -> LK (BB st) -> sl_inner ef n beta D st = Some (st', BRet b) ->
  b = true /\ ready st' /\ LK (BB st') /\ mono (BB st') (BB st) /\
  exists s0, ready s0 /\ LK (BB s0) /\ mono (BB s0) (BB st) /\ sl_primal ef beta D p s0 0 true = Some (st', BRet true).
Proof.
  induction n as [|n IH]; intros st st' b HR HK E; cbn [BkzSlideModel.sl_inner] in E; [discriminate|].
  destruct (sl_primal ef beta D p st 0 true) as [[s1 [[]|]]|] eqn:E1; cbn [obind fst snd] in E; try discriminate;
    destruct (sl_primal_dt ef p st 0 true s1 _ ltac:(lia) HR HK E1) as [R1 [K1 [M1 _]]].
  - injection E as <- <-. split; auto. split; auto. split; auto. split; auto. exists st. split; auto. split; auto. split; auto. apply mono_refl.
  - destruct (IH s1 st' b R1 K1 E) as [-> [R2 [K2 [M2 [s0 [G1 [G2 [G3 G4]]]]]]]]. split; auto. split; auto. split; auto. split; [eapply mono_trans; eauto|].
    exists s0. split; auto. split; auto. split; auto. eapply mono_trans; eauto.
Qed.
Lemma dsvp_ok ef st i st' b : i < p - 1 -> ready st -> LK (BB st) -> dsvp ef st (i * beta + 1) beta = Some (st', BRet b) ->
  ready st' /\ LK (BB st') /\ mono (BB st') (BB st) /\ valid_to st' (S i * beta).
Proof.
  intros Hi HR HK E. pose proof (proj1 (nb_lt (S i)) ltac:(lia)) as Hk. cbn [Nat.mul] in *.
  destruct (dsvp_dred rnd si ze expo P HX Heta Hthr Hdelta Hearly fuel max_iter ne rec delta Hfuel Hd0 c D ef st st' (i * beta + 1) beta b Bs ltac:(apply Qclt_le_weak; auto) HR ltac:(lia) ltac:(lia) HK E)
    as [R1 [[V1 V2] [_ [K1 _]]]].
  split; auto. split; auto. split; [|split; [lia|intros j Hj; apply V2; lia]].
  intros n Hn. apply (dsvp_dt ef st (i * beta + 1) beta st' b n); auto; [lia|lia|apply Hn|]. destruct (tr_gap i n Hn); lia.
Qed.
Lemma dual_k i : i * beta + 1 + beta = S i * beta + 1.
Proof. lia. Qed.
Lemma sl_dual_dt ef : forall cnt st i st' b, i + cnt = p - 1 -> ready st -> LK (BB st) -> valid_to st (i * beta) -> sl_dual ef beta cnt st (i * beta + 1) = Some (st', BRet b) ->
  ready st' /\ LK (BB st') /\ mono (BB st') (BB st) /\ valid_to st' ((p - 1) * beta).
Proof.
  induction cnt as [|cnt IH]; intros st i st' b Hi HR HK HV E; cbn [BkzSlideModel.sl_dual] in E.
  - injection E as <- _. replace (p - 1) with i by lia. split; auto. split; auto. split; auto. apply mono_refl.
  - destruct (dsvp ef st (i * beta + 1) beta) as [[s1 [b1|]]|] eqn:E1; cbn [obind fst snd] in E; try discriminate.
    destruct (dsvp_ok ef st i s1 b1 ltac:(lia) HR HK E1) as [R1 [K1 [M1 V1]]]. rewrite dual_k in E.
    destruct (IH s1 (S i) st' b ltac:(lia) R1 K1 V1 E) as [R2 [K2 [M2 V2]]]. split; auto. split; auto. split; auto. eapply mono_trans; eauto.
Qed.

(** ** the potential *)
Definition pot (B : list (list Z)) : Qc := qprod (p - 1) (fun i => Qcz (dt B (S i * beta))).
Lemma fold_qprod (f : nat -> Qc) n : forall s a, fold_left Qcmult (map f (seq s n)) a = (a * qprod n (fun i => f (s + i)%nat))%Qc.
Proof.
  induction n as [|n IH]; intros s a; [cbn; change (Q2Qc 1) with 1%Qc; ring|].
  rewrite seq_S, map_app, fold_left_app, IH. cbn [map fold_left qprod]. ring.
Qed.
Lemma qprod_pow (x d : nat -> Qc) k : (forall n, n < k -> qprod (S n) x = d n) -> qprod k (fun i => x i ^ (k - i))%Qc = qprod k d.
Proof.
  induction k as [|k IH]; intros H; auto. cbn [qprod]. rewrite <- (H k) by lia. rewrite <- IH by (intros; apply H; lia). cbn [qprod].
  rewrite Nat.sub_succ_l, Nat.sub_diag by auto. change ((x k ^ 1)%Qc) with (x k * 1)%Qc.
  assert (E : forall n, n <= k -> qprod n (fun i => x i ^ (S k - i))%Qc = (qprod n (fun i => x i ^ (k - i)) * qprod n x)%Qc).
  { induction n as [|n IHn]; intros Hn; cbn [qprod]; [change (Q2Qc 1) with 1%Qc; ring|]. rewrite IHn by lia. replace (S k - n) with (S (k - n)) by lia. cbn [Qcpower]. ring. }
  rewrite E by auto. ring.
Qed.
Lemma qprod_blocks (f : nat -> Qc) n : qprod (n * beta) f = qprod n (fun i => qprod beta (fun j => f (i * beta + j)%nat)).
Proof.
  assert (A : forall m k g, qprod (m + k) g = (qprod m g * qprod k (fun j => g (m + j)%nat))%Qc).
  { intros m k g. induction k as [|k IH]; [rewrite Nat.add_0_r; cbn; change (Q2Qc 1) with 1%Qc; ring|]. rewrite Nat.add_succ_r. cbn [qprod]. rewrite IH. ring. }
  induction n as [|n IH]; auto. cbn [qprod]. rewrite <- IH, <- A. f_equal. lia.
Qed.
Lemma slide_pot_q st : ready st -> valid_to st ((p - 1) * beta) -> slide_pot st D beta = Some (pot (BB st)).
Proof.
  intros HR [V1 V2]. pose proof HR as [C G GD GI GP]. unfold BkzSlideModel.slide_pot. rewrite nb_pot.
  set (x := fun i => qprod beta (fun j => qR c (BB st) (i * beta + j) (i * beta + j))).
  rewrite (oseq_map _ (fun i => x i ^ (p - 1 - i))%Qc).
  - cbn [obind]. rewrite fold_qprod. f_equal. rewrite Qcmult_1_l. cbn [Nat.add]. unfold pot. apply qprod_pow. intros n Hn. rewrite gram_det_prod, qprod_blocks. reflexivity.
  - intros i Hi. apply in_seq in Hi. unfold r_prod. assert (HI : S i * beta <= (p - 1) * beta) by (apply Nat.mul_le_mono_r; lia). cbn [Nat.mul] in HI |- *.
    rewrite (oseq_map _ (fun j => qR c (BB st) j j)).
    + cbn [obind]. rewrite fold_qprod, Qcmult_1_l. replace (beta + i * beta - i * beta) with beta by lia. reflexivity.
    + intros j Hj. apply in_seq in Hj. rewrite <- G. apply r_val_q; [apply C|apply C|lia|apply V2; lia].
Qed.
Lemma qprod_strict n (f g : nat -> Qc) k : (forall i, i < n -> (0 < f i)%Qc /\ (f i <= g i)%Qc) -> k < n -> (f k < g k)%Qc -> (qprod n f < qprod n g)%Qc.
Proof.
  induction n as [|n IH]; intros H Hk HK; [lia|]. cbn [qprod]. destruct (H n ltac:(lia)) as [A1 A2].
  assert (B1 : (0 < qprod n f)%Qc) by (apply qprod_pos; intros; apply H; lia).
  destruct (Nat.eq_dec k n) as [->|N].
  - destruct (qprod_le n f g) as [_ B2]; [intros i Hi; destruct (H i ltac:(lia)); split; auto; apply Qclt_le_weak; auto|].
    revert A1 A2 B1 B2 HK. generalize (qprod n f), (qprod n g), (f n), (g n). clear. intros u v x y. intros. assert (u * x < u * y)%Qc by qcnra. assert (u * y <= v * y)%Qc by qcnra. qclra.
  - pose proof (IH ltac:(intros; apply H; lia) ltac:(lia) HK) as B2. revert A1 A2 B1 B2. generalize (qprod n f), (qprod n g), (f n), (g n). clear. intros u v x y. intros.
    assert (u * x < v * x)%Qc by qcnra. assert (v * x <= v * y)%Qc by qcnra. qclra.
Qed.
Lemma pot_k i : i < p - 1 -> S i * beta < D.
Proof. intros Hi. apply nb_lt. lia. Qed.
Lemma pot_less A B : LK A -> mono A B -> (pot A < pot B)%Qc -> less A B.
Proof.
  intros HA HM H. unfold pot in H. assert (X : forall n, n <= p - 1 -> (qprod n (fun i => Qcz (dt A (S i * beta))) < qprod n (fun i => Qcz (dt B (S i * beta))))%Qc ->
    exists i, i < n /\ (dt A (S i * beta) < dt B (S i * beta))%Z).
  { induction n as [|n IH]; intros Hn H0; [exfalso; apply (Qclt_not_le _ _ H0); apply Qcle_refl|].
    destruct (Z_lt_le_dec (dt A (S n * beta)) (dt B (S n * beta))) as [L|L]; [exists n; auto|].
    destruct IH as [i [I1 I2]]; [lia| |exists i; split; auto]. cbn [qprod] in H0. pose proof (HM (S n * beta) ltac:(apply tr_k; pose proof (pot_k n ltac:(lia)); lia)) as M.
    assert (EE : dt A (S n * beta) = dt B (S n * beta)) by lia. rewrite EE in H0.
    pose proof (all_pos_det c A D (S n * beta) ltac:(apply HA) ltac:(pose proof (pot_k n ltac:(lia)); lia)) as PP. rewrite EE in PP.
    revert H0 PP. generalize (qprod n (fun i => Qcz (dt A (S i * beta)))), (qprod n (fun i => Qcz (dt B (S i * beta)))), (Qcz (dt B (S n * beta))). clear. intros; qcnra. }
  destruct (X (p - 1) (le_n _) H) as [i [I1 I2]]. exists (S i * beta). split; auto. apply tr_k. pose proof (pot_k i I1). lia.
Qed.
Lemma pot_eq A B : LK A -> mono A B -> ~ (pot A < pot B)%Qc -> pot A = pot B /\ forall i, i < p - 1 -> dt A (S i * beta) = dt B (S i * beta).
Proof.
  intros HA HM H. assert (X : forall i, i < p - 1 -> dt A (S i * beta) = dt B (S i * beta)).
  { intros i Hi. pose proof (HM (S i * beta) ltac:(apply tr_k; pose proof (pot_k i ltac:(lia)); lia)) as M.
    destruct (Z.eq_dec (dt A (S i * beta)) (dt B (S i * beta))) as [|N]; auto. exfalso. apply H. unfold pot. apply (qprod_strict _ _ _ i); auto; [|apply Qcz_lt; lia].
    intros j Hj. pose proof (pot_k j Hj). split; [apply (all_pos_det c A D); [apply HA|lia]|]. apply Qcz_le. apply HM. apply tr_k. lia. }
  split; auto. unfold pot. apply qprod_ext. intros i Hi. rewrite X; auto.
Qed.

(** ** the last tour *)
Lemma sl_primal_last ef : forall cnt st i cl st', i + cnt = p -> ready st -> LK (BB st) -> sl_primal ef beta D cnt st (i * beta) cl = Some (st', BRet true) ->
  size_reduced_to (BB st) (Nat.min (i * beta) D) -> lovasz_to (BB st) (Nat.min (i * beta) D) ->
  (forall j, j < p -> (dt (BB st) (j * beta) <= dt (BB st') (j * beta))%Z) ->
  rows_eq (Nat.min (i * beta) D) (BB st') (BB st) /\ size_reduced_to (BB st') D /\ lovasz_to (BB st') D /\
  forall j, i <= j < p -> forall y, length y = size j -> nonzero y -> (delta * qR c (BB st') (j * beta) (j * beta) <= bvlen (BB st') (j * beta) (size j) y)%Qc.
Proof.
  induction cnt as [|cnt IH]; intros st i cl st' Hi HR HK E HS HV HE; cbn [BkzSlideModel.sl_primal] in E.
  - injection E as <- _. assert (L : ~ i * beta < D) by (intros L; apply nb_lt in L; lia). replace (Nat.min (i * beta) D) with D in * by lia.
    split; [intros a Ha; auto|]. split; auto. split; auto. intros j Hj. lia.
  - fold (size i) in E. destruct (svp ef st (i * beta) (size i)) as [[s1 [b1|]]|] eqn:E1; cbn [obind fst snd] in E; try discriminate.
    rewrite S_k in E. pose proof (proj1 (nb_lt i) ltac:(lia)) as Hk. replace (Nat.min (i * beta) D) with (i * beta) in * by lia.
    destruct (size_ok i ltac:(lia)) as [S1 S2].
    destruct (svp_ok ef st i s1 b1 ltac:(lia) HR HK E1) as [R1 [K1 [M1 F1]]].
    destruct (sl_primal_dt ef cnt s1 (S i) (cl && b1) st' true ltac:(lia) R1 K1 E) as [R2 [K2 [M2 [T2 _]]]].
    specialize (T2 eq_refl). apply andb_prop in T2. destruct T2 as [-> ->].
    assert (TK : forall j, j < p -> tr (j * beta)) by (intros j Hj; apply tr_k; apply nb_lt in Hj; lia).
    destruct (svp_fix ef st (i * beta) (size i) s1 HR HK S1 S2 E1 HS HV) as [_ [_ [Q1 [Q2 [Q3 Q4]]]]].
    { pose proof (HE i ltac:(lia)). pose proof (M2 (i * beta) (TK i ltac:(lia))). lia. }
    assert (EN : i * beta + size i = Nat.min (S i * beta) D) by (unfold size; lia). rewrite EN in Q2, Q3.
    destruct (IH s1 (S i) (true && true) st' ltac:(lia) R1 K1 E Q2 Q3) as [P1 [P2 [P3 P4]]].
    { intros j Hj. pose proof (HE j Hj). pose proof (M1 (j * beta) (TK j Hj)). lia. }
    split; [intros a Ha; rewrite P1 by lia; apply Q1; auto|]. split; auto. split; auto. intros j Hj y Ly Ny.
    destruct (Nat.eq_dec j i) as [->|N]; [|apply P4; auto; lia].
    rewrite (bv_eq (i * beta) (size i) (BB st') (BB s1)) by (intros a Ha; apply P1; lia).
    rewrite (qR_same c (BB s1) (BB st') (i * beta) (i * beta)) by (auto; intros a Ha; apply P1; lia). apply Q4; auto.
Qed.
Lemma sl_dual_last ef B0 : length B0 = D -> all_pos c B0 D -> (forall v, LB c D B0 v <-> LB c D Bs v) -> size_reduced_to B0 D -> lovasz_to B0 D ->
  forall cnt st i st' b, i + cnt = p - 1 -> ready st -> BB st = B0 -> valid_to st (i * beta) -> sl_dual ef beta cnt st (i * beta + 1) = Some (st', BRet b) ->
  (forall j, j < p -> (dt B0 (j * beta) <= dt (BB st') (j * beta))%Z) ->
  BB st' = B0 /\ forall j, i <= j < p - 1 -> dred c B0 delta (j * beta + 1) beta.
Proof.
  intros HL0 HA0 HB0 HM0 HP0. induction cnt as [|cnt IH]; intros st i st' b Hi HR HB HV E HE; cbn [BkzSlideModel.sl_dual] in E.
  - injection E as <- _. split; auto. intros j Hj. lia.
  - destruct (dsvp ef st (i * beta + 1) beta) as [[s1 [b1|]]|] eqn:E1; cbn [obind fst snd] in E; try discriminate.
    assert (HK : LK (BB st)) by (rewrite HB; split; auto).
    destruct (dsvp_ok ef st i s1 b1 ltac:(lia) HR HK E1) as [R1 [K1 [M1 V1]]]. rewrite dual_k in E.
    destruct (sl_dual_dt ef cnt s1 (S i) st' b ltac:(lia) R1 K1 V1 E) as [R2 [K2 [M2 V2]]].
    pose proof (proj1 (nb_lt (S i)) ltac:(lia)) as Hk. cbn [Nat.mul] in Hk.
    destruct (dsvp_fix ef st (i * beta + 1) beta s1 b1 B0 HL0 HA0 HM0 HP0 HR HB ltac:(lia) ltac:(lia) E1) as [Q1 [_ [_ Q4]]].
    { replace (i * beta + 1 + beta - 1) with (S i * beta) by (cbn [Nat.mul]; lia). pose proof (HE (S i) ltac:(lia)).
      pose proof (M2 (S i * beta) ltac:(apply tr_k; cbn [Nat.mul]; lia)). lia. }
    destruct (IH s1 (S i) st' b ltac:(lia) R1 Q1 V1 E HE) as [P1 P2]. split; auto. intros j Hj. destruct (Nat.eq_dec j i) as [->|N]; auto. apply P2. lia.
Qed.

Definition slide_red (B : list (list Z)) : Prop :=
  size_reduced_to B D /\ lovasz_to B D /\
  (forall j, j < p -> forall y, length y = size j -> nonzero y -> (delta * qR c B (j * beta) (j * beta) <= bvlen B (j * beta) (size j) y)%Qc) /\
  (forall j, j < p - 1 -> dred c B delta (j * beta + 1) beta).
Lemma slide_tour_ok ef n st st' b q : ready st -> LK (BB st) -> slide_tour ef n st beta D (pot (BB st)) = Some (st', BRet b, q) ->
  ready st' /\ LK (BB st') /\ mono (BB st') (BB st) /\ q = pot (BB st') /\ (b = true -> slide_red (BB st')) /\ (b = false -> less (BB st') (BB st)).
Proof.
  intros HR HK E. unfold BkzSlideModel.slide_tour in E.
  destruct (sl_inner ef n beta D st) as [[s1 [b1|]]|] eqn:E1; cbn [obind fst snd] in E; try discriminate.
  destruct (sl_inner_dt ef n st s1 b1 HR HK E1) as [-> [R1 [K1 [M1 [s0 [R0 [K0 [M0 E0]]]]]]]].
  destruct (sl_dual ef beta (p - 1) s1 1) as [[s2 [b2|]]|] eqn:E2; cbn [obind fst snd] in E; try discriminate.
  destruct (sl_dual_dt ef (p - 1) s1 0 s2 b2 ltac:(lia) R1 K1 ltac:(split; [lia|intros; lia]) E2) as [R2 [K2 [M2 V2]]].
  rewrite (slide_pot_q s2 R2 V2) in E. cbn [obind] in E. pose proof (mono_trans _ _ _ M2 M1) as M3.
  destruct (qltb (pot (BB s2)) (pot (BB st))) eqn:EQ.
  - injection E as <- <- <-. apply qltb_lt in EQ. split; auto. split; auto. split; auto. split; auto. split; [discriminate|]. intros _. apply pot_less; auto.
  - injection E as <- <- <-. assert (NQ : ~ (pot (BB s2) < pot (BB st))%Qc) by (intros L; apply qltb_lt in L; congruence).
    destruct (pot_eq (BB s2) (BB st) K2 M3 NQ) as [PE DE]. split; auto. split; auto. split; auto. split; auto. split; [|discriminate]. intros _.
    assert (DE0 : forall j, j < p -> dt (BB s2) (j * beta) = dt (BB st) (j * beta)).
    { intros [|j] Hj; [apply gram_det_same; intros; lia|]. apply DE. lia. }
    assert (TK : forall j, j < p -> tr (j * beta)) by (intros j Hj; apply tr_k; apply nb_lt in Hj; lia).
    destruct (sl_primal_dt ef p s0 0 true s1 true ltac:(lia) R0 K0 E0) as [_ [_ [M4 _]]].
    destruct (sl_primal_last ef p s0 0 true s1 ltac:(lia) R0 K0 E0) as [_ [P2 [P3 P4]]].
    { intros i j Hi. cbn in Hi. lia. }
    { intros i Hi. cbn in Hi. lia. }
    { intros j Hj. pose proof (M0 _ (TK j Hj)). pose proof (M2 _ (TK j Hj)). rewrite <- (DE0 j Hj) in *. lia. }
    destruct K1 as [G1 [G2 G3]].
    destruct (sl_dual_last ef (BB s1) G1 G3 G2 P2 P3 (p - 1) s1 0 s2 b2 ltac:(lia) R1 eq_refl ltac:(split; [lia|intros; lia]) E2) as [Q1 Q2].
    { intros j Hj. pose proof (M1 _ (TK j Hj)). rewrite <- (DE0 j Hj) in *. lia. }
    rewrite Q1. split; auto. split; auto. split; [intros j Hj; apply P4; lia|intros j Hj; apply Q2; lia].
Qed.
Lemma slide_loop_ok ef ni : forall n st st' b, ready st -> LK (BB st) -> slide_loop ef n ni st beta D (pot (BB st)) = Some (st', BRet b) ->
  ready st' /\ LK (BB st') /\ (b = true -> slide_red (BB st')).
Proof.
  induction n as [|n IH]; intros st st' b HR HK E; cbn [BkzSlideModel.slide_loop] in E.
  { injection E as <- <-. split; auto. split; auto. discriminate. }
  destruct (slide_tour ef ni st beta D (pot (BB st))) as [[[s1 [b1|]] q]|] eqn:E1; cbn [obind fst snd] in E; try discriminate.
  destruct (slide_tour_ok ef ni st s1 b1 q HR HK E1) as [R1 [K1 [M1 [-> [T1 F1]]]]].
  destruct b1; cbn [orb] in E.
  - injection E as <- <-. auto.
  - destruct (Nat.leb_spec D beta) as [L|L]; [|apply (IH s1); auto].
    exfalso. specialize (F1 eq_refl). revert E1. unfold BkzSlideModel.slide_tour.
    destruct (sl_inner ef ni beta D st) as [[s3 [b3|]]|] eqn:E3; cbn [obind fst snd]; try discriminate.
    destruct (sl_inner_dt ef ni st s3 b3 HR HK E3) as [_ [R3 [K3 _]]].
    destruct (sl_dual ef beta (p - 1) s3 1) as [[s2 [b2|]]|] eqn:E2; cbn [obind fst snd]; try discriminate.
    destruct (sl_dual_dt ef (p - 1) s3 0 s2 b2 ltac:(lia) R3 K3 ltac:(split; [lia|intros; lia]) E2) as [R2 [K2 [M2 V2]]].
    rewrite (slide_pot_q s2 R2 V2). cbn [obind]. assert (p - 1 = 0). { destruct (p - 1) eqn:EP; auto. pose proof (proj1 (nb_lt 1) ltac:(lia)). lia. }
    unfold pot. rewrite H. cbn [qprod]. destruct (qltb (Q2Qc 1) (Q2Qc 1)) eqn:EQ; [|discriminate]. exfalso. apply qltb_lt in EQ. apply (Qclt_not_le _ _ EQ). apply Qcle_refl.
Qed.

(** ** the calls return *)
Hypothesis Hmi : forall B kend, length B = D -> all_pos c B D -> 0 < kend <= D ->
  exists m, (potential c B kend * p_delta P ^ S m < 1)%Qc /\ kend - 1 + m <= max_iter B.
Lemma sl_primal_total : forall cnt st i cl, i + cnt = p -> ready st -> LK (BB st) ->
  exists e0 st' b, forall ef, e0 <= ef -> sl_primal ef beta D cnt st (i * beta) cl = Some (st', BRet b).
Proof.
  induction cnt as [|cnt IH]; intros st i cl Hi HR HK; [exists 0, st, cl; reflexivity|]. destruct (size_ok i ltac:(lia)) as [S1 S2].
  destruct (svp_total rnd si ze expo P HX Heta Hthr Hdelta Hpd1 Hearly fuel max_iter ne rec delta Hfuel Hd0 c D Hmi Bs st (i * beta) (size i) HR HK S1 S2) as [e1 [s1 [b1 [E1 [R1 [K1 _]]]]]].
  destruct (IH s1 (S i) (cl && b1) ltac:(lia) R1 K1) as [e2 [s2 [b2 E2]]]. exists (Nat.max e1 e2), s2, b2. intros ef Hef. cbn [BkzSlideModel.sl_primal].
  fold (size i). rewrite E1 by lia. cbn [obind fst snd]. rewrite S_k. apply E2. lia.
Qed.
Lemma sl_inner_total : forall N st, (Phi (BB st) < Z.of_nat N)%Z -> ready st -> LK (BB st) ->
  exists e0 n0 st', forall ef n, e0 <= ef -> n0 <= n -> sl_inner ef n beta D st = Some (st', BRet true).
Proof.
  induction N as [|N IH]; intros st HP HR HK; [pose proof (Phi_nonneg (BB st) ltac:(apply HK)); lia|].
  destruct (sl_primal_total p st 0 true ltac:(lia) HR HK) as [e1 [s1 [b1 E1]]]. cbn [Nat.mul] in E1.
  destruct (sl_primal_dt e1 p st 0 true s1 b1 ltac:(lia) HR HK (E1 e1 (le_n _))) as [R1 [K1 [M1 [_ F1]]]]. destruct b1.
  - exists e1, 1, s1. intros ef n He Hn. destruct n; [lia|]. cbn [BkzSlideModel.sl_inner]. rewrite E1 by auto. reflexivity.
  - destruct (F1 eq_refl) as [F|F]; [discriminate F|]. pose proof (Phi_less _ _ M1 F) as PL.
    destruct (IH s1 ltac:(lia) R1 K1) as [e2 [n2 [s2 E2]]]. exists (Nat.max e1 e2), (S n2), s2. intros ef n He Hn. destruct n; [lia|].
    cbn [BkzSlideModel.sl_inner]. rewrite E1 by lia. cbn [obind fst snd]. apply E2; lia.
Qed.
Lemma sl_dual_total : forall cnt st i, i + cnt = p - 1 -> ready st -> LK (BB st) ->
  exists e0 st', forall ef, e0 <= ef -> sl_dual ef beta cnt st (i * beta + 1) = Some (st', BRet true).
Proof.
  induction cnt as [|cnt IH]; intros st i Hi HR HK; [exists 0, st; reflexivity|]. pose proof (proj1 (nb_lt (S i)) ltac:(lia)) as Hk. cbn [Nat.mul] in Hk.
  destruct (dsvp_total rnd si ze expo P HX Heta Hthr Hdelta Hearly fuel max_iter ne rec delta Hfuel Hd0 c D Hpd1 Hmi Bs ltac:(apply Qclt_le_weak; auto) st (i * beta + 1) beta HR HK ltac:(lia) ltac:(lia))
    as [e1 [s1 [b1 [E1 [R1 [K1 _]]]]]].
  destruct (IH s1 (S i) ltac:(lia) R1 K1) as [e2 [s2 E2]]. exists (Nat.max e1 e2), s2. intros ef Hef. cbn [BkzSlideModel.sl_dual].
  rewrite E1 by lia. cbn [obind fst snd]. rewrite dual_k. apply E2. lia.
Qed.
Lemma slide_tour_total st : ready st -> LK (BB st) ->
  exists e0 n0 st' b, forall ef n, e0 <= ef -> n0 <= n -> slide_tour ef n st beta D (pot (BB st)) = Some (st', BRet b, pot (BB st')).
Proof.
  intros HR HK. destruct (sl_inner_total (Z.to_nat (Phi (BB st) + 1)) st) as [e1 [n1 [s1 E1]]]; auto.
  { pose proof (Phi_nonneg (BB st) ltac:(apply HK)). lia. }
  destruct (sl_inner_dt e1 n1 st s1 true HR HK (E1 _ _ (le_n _) (le_n _))) as [_ [R1 [K1 [M1 _]]]].
  destruct (sl_dual_total (p - 1) s1 0 ltac:(lia) R1 K1) as [e2 [s2 E2]]. cbn [Nat.mul Nat.add] in E2.
  destruct (sl_dual_dt e2 (p - 1) s1 0 s2 true ltac:(lia) R1 K1 ltac:(split; [lia|intros; lia]) (E2 _ (le_n _))) as [R2 [K2 [M2 V2]]].
  exists (Nat.max e1 e2), n1, s2, (negb (qltb (pot (BB s2)) (pot (BB st)))). intros ef n He Hn. unfold BkzSlideModel.slide_tour.
  rewrite E1 by lia. cbn [obind fst snd]. rewrite E2 by lia. cbn [obind fst snd]. rewrite (slide_pot_q s2 R2 V2). cbn [obind].
  destruct (qltb (pot (BB s2)) (pot (BB st))) eqn:EQ; cbn [negb]; auto.
  assert (NQ : ~ (pot (BB s2) < pot (BB st))%Qc) by (intros L; apply qltb_lt in L; congruence).
  destruct (pot_eq (BB s2) (BB st) K2 (mono_trans _ _ _ M2 M1) NQ) as [-> _]. reflexivity.
Qed.
Lemma slide_loop_total : forall n st, ready st -> LK (BB st) ->
  exists e0 n0 st' b, forall ef ni, e0 <= ef -> n0 <= ni -> slide_loop ef n ni st beta D (pot (BB st)) = Some (st', BRet b).
Proof.
  induction n as [|n IH]; intros st HR HK; [exists 0, 0, st, false; reflexivity|].
  destruct (slide_tour_total st HR HK) as [e1 [n1 [s1 [b1 E1]]]]. destruct (slide_tour_ok e1 n1 st s1 b1 _ HR HK (E1 _ _ (le_n _) (le_n _))) as [R1 [K1 _]].
  destruct (b1 || (D <=? beta)) eqn:EB.
  - exists e1, n1, s1, true. intros ef ni He Hn. cbn [BkzSlideModel.slide_loop]. rewrite E1 by auto. cbn [obind fst snd]. rewrite EB. reflexivity.
  - destruct (IH s1 R1 K1) as [e2 [n2 [s2 [b2 E2]]]]. exists (Nat.max e1 e2), (Nat.max n1 n2), s2, b2. intros ef ni He Hn. cbn [BkzSlideModel.slide_loop].
    rewrite E1 by lia. cbn [obind fst snd]. rewrite EB. apply E2; lia.
Qed.
(** no limit on the number of tours is needed *)
Lemma slide_loop_ends : forall N st, (Phi (BB st) < Z.of_nat N)%Z -> ready st -> LK (BB st) ->
  exists e0 n0 st', forall ef ni n, e0 <= ef -> n0 <= ni -> N <= n -> slide_loop ef n ni st beta D (pot (BB st)) = Some (st', BRet true).
Proof.
  induction N as [|N IH]; intros st HP HR HK; [pose proof (Phi_nonneg (BB st) ltac:(apply HK)); lia|].
  destruct (slide_tour_total st HR HK) as [e1 [n1 [s1 [b1 E1]]]]. destruct (slide_tour_ok e1 n1 st s1 b1 _ HR HK (E1 _ _ (le_n _) (le_n _))) as [R1 [K1 [M1 [_ [_ F1]]]]].
  destruct (b1 || (D <=? beta)) eqn:EB.
  - exists e1, n1, s1. intros ef ni n He Hn HN. destruct n; [lia|]. cbn [BkzSlideModel.slide_loop]. rewrite E1 by auto. cbn [obind fst snd]. rewrite EB. reflexivity.
  - apply orb_false_elim in EB as EB'. destruct EB' as [-> _]. pose proof (Phi_less _ _ M1 (F1 eq_refl)) as PL.
    destruct (IH s1 ltac:(lia) R1 K1) as [e2 [n2 [s2 E2]]]. exists (Nat.max e1 e2), (Nat.max n1 n2), s2. intros ef ni n He Hn HN. destruct n; [lia|].
    cbn [BkzSlideModel.slide_loop]. rewrite E1 by lia. cbn [obind fst snd]. rewrite EB. apply E2; lia.
Qed.
(** ** GSO of the whole basis *)
Lemma update_gso_all : forall cnt i z s, FInv fo (p_e P) z s -> XP rnd si ze expo P z -> locked z = false -> en_g z = false -> i + cnt = gd z -> i <= nkr z ->
  (forall j, j < i -> j < vc s j) -> all_pos (gc z) (gb z) (gd z) ->
  exists z' s', update_gso lo cnt i z s = Some (z', s', true) /\ FInv fo (p_e P) z' s' /\ XP rnd si ze expo P z' /\ flags_eq z z' /\ locked z' = false /\ gb z' = gb z /\
    gd z <= nkr z' /\ (forall j, j < gd z -> j < vc s' j).
Proof.
  induction cnt as [|cnt IH]; intros i z s HF HXP HL HG Hc Hi HV HP.
  - exists z, s. cbn [update_gso]. rewrite Nat.add_0_r in Hc. split; auto. split; auto. split; auto. split; [repeat split|]. split; auto. split; auto. split; [lia|]. intros j Hj. apply HV. lia.
  - destruct (update_gso_x rnd si ze expo P (S cnt) i z s HF HXP HL Hc Hi HV) as [zx [sx [okx [mx [Ex [_ [_ [_ [_ [MX [_ [_ [_ NX]]]]]]]]]]]]].
    cbn [update_gso] in *.
    assert (HLU : flegal fo (z, s) (FUpdate i i)).
    { split; [lia|]. split; [lia|]. split; [intros X; cbn [legal]; split; [lia|]; rewrite HL; auto|]. split; [lia|].
      split; [|intros; apply HV; auto].
      pose proof (I_unl _ (F_inv _ _ _ _ HF) HL). rewrite HL. cbn [negb]. rewrite andb_true_r. destruct (Nat.eqb_spec i (nkr z)); lia. }
    destruct (update_gso_row_ok fo (p_e P) (qc_laws _) z s i i HF HLU) as [z2 [s2 [ok [E2 [F2 [Fl2 [B2 [V2 Q2]]]]]]]].
    destruct (update_gso_row_w fo z s i i) as [z2' [s2' [ok' [E2' [_ [_ [_ [_ [[Ka [Kb Kc]] [_ [_ [_ VV]]]]]]]]]]]]; auto; try lia; [apply HF|apply HF|rewrite HL; auto|rewrite HL; discriminate|].
    assert (z2' = z2 /\ s2' = s2 /\ ok' = ok) as [-> [-> ->]] by (rewrite E2 in E2'; injection E2'; auto).
    replace (update_gso_row (lf lo) z s i i) with (Some (z2, s2, ok)) in * by (symmetry; exact E2). cbn [obind] in *.
    assert (C2 : gc z2 = gc z) by apply Fl2. assert (GD : gd z2 = gd z) by (unfold gd; rewrite B2; auto).
    assert (X2 : XP rnd si ze expo P z2) by (eapply XP_flags; eauto). assert (G2 : en_g z2 = false) by (destruct Fl2 as [_ [G _]]; congruence).
    destruct ok.
    + specialize (V2 eq_refl).
      destruct (IH (S i) z2 s2) as [z' [s' [E' [F' [X' [Fl' [L' [B' [M1 M2]]]]]]]]]; auto; try lia.
      { congruence. }
      { intros j Hj. destruct (Nat.eq_dec j i) as [->|]; [exact V2|]. change (j < vc s2 j). rewrite VV by auto. apply HV. lia. }
      { rewrite C2, B2, GD. exact HP. }
      exists z', s'. split; [exact E'|]. split; auto. split; auto. rewrite GD in *. split; [|split; auto; split; [congruence|auto]].
      destruct Fl2 as [a1 [a2 [a3 [a4 a5]]]], Fl' as [b1 [b2 [b3 [b4 b5]]]]. repeat split; congruence.
    + exfalso. injection Ex as <- <- <-. destruct (NX eq_refl) as [k [K1 K2]]. specialize (HP k ltac:(lia)). rewrite K2 in HP. discriminate.
Qed.

(** ** the HKZ reductions at the end *)
Notation hkz ef := (hkz rnd si ze expo P fuel ef max_iter ne rec delta).
Notation sl_hkz ef := (sl_hkz rnd si ze expo P fuel ef max_iter ne rec delta).
Lemma sl_hkz_total : 3 <= beta -> D mod beta <> 2 -> 2 <= D -> forall cnt st j, j + cnt = p -> ready st -> LK (BB st) -> valid_to st (j * beta) ->
  exists e0 st', (forall ef, e0 <= ef -> sl_hkz ef beta D cnt st j = Some (st', BRet true)) /\ ready st' /\ LK (BB st').
Proof.
  intros Hb3 Hm2 HD2. induction cnt as [|cnt IH]; intros st j Hj HR HK HV; [exists 0, st; split; [reflexivity|auto]|].
  pose proof (proj1 (nb_lt j) ltac:(lia)) as Hk. set (e := Nat.min D (j * beta + 1 + beta - 1)).
  assert (He : j * beta < e <= D) by (unfold e; lia).
  assert (HC : exists e1 s1 b1, (forall ef, e1 <= ef -> blocks rnd si ze expo P fuel ef max_iter ne rec delta (fun kappa => e - kappa) (e - 1 - (j * beta + 1)) st (j * beta + 1) true = Some (s1, BRet b1)) /\
    ready s1 /\ LK (BB s1) /\ valid_to s1 (e - 1)).
  { destruct (Nat.eq_dec e (j * beta + 1)) as [EE|NE].
    - exists 0, st, true. replace (e - 1 - (j * beta + 1)) with 0 by lia. split; [reflexivity|]. replace (e - 1) with (j * beta) by lia. auto.
    - assert (N2 : e <> j * beta + 2).
      { intros E2. apply Hm2. assert (ED : D = 2 + j * beta) by (unfold e in E2; lia). rewrite ED. rewrite Nat.mod_add by lia. apply Nat.mod_small. lia. }
      destruct (blocks_tot rnd si ze expo P HX Heta Hthr Hdelta Hearly fuel max_iter ne rec delta Hfuel Hd0 c D Hpd1 Hmi Bs (fun kappa => e - kappa) (e - 1 - (j * beta + 1)) st (j * beta + 1) true HR HK)
        as [e1 [s1 [b1 [E1 [R1 [K1 V1]]]]]].
      { intros i Hi. lia. }
      { left. lia. }
      exists e1, s1, b1. split; auto. split; auto. split; auto. replace (e - 1) with (j * beta + 1 + (e - 1 - (j * beta + 1))) by lia. auto. }
  destruct HC as [e1 [s1 [b1 [E1 [R1 [K1 V1]]]]]].
  destruct (size_red_q rnd si ze expo P HX Heta fuel Hfuel c D s1 (e - 1) 1 (e - 2) R1 ltac:(lia) ltac:(lia) V1) as [s3 [E3 [R3 [S3 [V3 _]]]]].
  replace (e - 1 + 1) with e in * by lia. pose proof (S3 LK LKs K1) as K3.
  assert (VN : cnt = 0 \/ valid_to s3 (S j * beta)).
  { destruct cnt; [auto|right]. pose proof (proj1 (nb_lt (S j)) ltac:(lia)). replace (S j * beta) with e by (unfold e; cbn [Nat.mul] in *; lia). auto. }
  assert (HN : exists e2 s4, (forall ef, e2 <= ef -> sl_hkz ef beta D cnt s3 (S j) = Some (s4, BRet true)) /\ ready s4 /\ LK (BB s4)).
  { destruct VN as [->|VN]; [exists 0, s3; split; [reflexivity|auto]|]. apply IH; auto. lia. }
  destruct HN as [e2 [s4 [E4 [R4 K4]]]]. exists (Nat.max e1 e2), s4. split; auto. intros ef Hef. cbn [BkzSlideModel.sl_hkz]. fold e. unfold BkzExactModel.hkz. rewrite E1 by lia. cbn [obind fst snd].
  rewrite E3. cbn [obind fst snd]. apply E4. lia.
Qed.
End Loops.
End S.
