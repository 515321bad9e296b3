(** What the blocks of a tour achieve: the invariant of hkz, and tours that change nothing.
    Not part of the model (proofs for PropBkzExact.v). *)
From Coq Require Import List ZArith QArith Qcanon Lia Lqa Arith Bool.
From Verif Require Import Util QcUtil LatticeSpec MatrixModel MatrixProofs GsoModel GsoProofs GsoHistory GsoFModel GsoFSpec GsoFProofs GsoQ QGs
  LllModel LllQ LllExact LllDecide LllSpec LllSpecFacts GramDet LatPot LllTotal LllKeep
  EnumModel EnumExact EnumSpec EnumLink EvalModel EnumCall PropEnum BkzModel BkzProofs PropBkz BkzExactModel BkzSpec LatProj BkzExact.
Import ListNotations.
Local Open Scope nat_scope.

Section H.
Variable rnd : Qc -> Z -> Qc.
Variable si ze : Qc -> Z -> Z * nat.
Variable expo : Qc -> Z.
Notation lo := (lq_ops rnd si ze expo).
Notation fo := qc_ops.
Variable P : lpar lo.
Notation lst := (lst lo).
Notation half := (Q2Qc (1 # 2)).
Hypothesis HX : exact_rounding rnd si ze.
Hypothesis Heta : (half <= p_eta P)%Qc.
Hypothesis Hthr : p_thr P = (if p_siegel P then p_delta P - p_eta P * p_eta P else p_delta P)%Qc.
Hypothesis Hdelta : (p_eta P * p_eta P < p_delta P)%Qc.
Hypothesis Hearly : p_early P = false.
Variables (fuel efuel : nat) (max_iter : list (list Z) -> nat) (ne : list Qc -> Z) (rec : bool) (delta : Qc).
Hypothesis Hfuel : 2 <= fuel.
Hypothesis Hd0 : (0 <= delta)%Qc.
Variables (c D : nat).
Notation stable := (stable rnd si ze expo P c).
Notation lstable := (lstable rnd si ze expo P c).
Notation reds := (reds rnd si ze expo P c).
Notation ready := (ready rnd si ze expo P c D).
Notation valid_to := (valid_to rnd si ze expo).
Notation size_reduced_to := (size_reduced_to rnd si ze expo P c).
Notation bvlen := (bvlen c).
Notation put := (put c D).
Notation svp := (svp_reduction rnd si ze expo P fuel efuel max_iter ne rec delta).
Notation blocks := (blocks rnd si ze expo P fuel efuel max_iter ne rec delta).
Notation hkz := (hkz rnd si ze expo P fuel efuel max_iter ne rec delta).
Notation tour := (tour rnd si ze expo P fuel efuel max_iter ne rec delta).

(** ** the length of a lattice vector projected to a block *)
Lemma LB_block B k m v : k + m = D -> all_pos c B D -> LB c D B v ->
  exists y, length y = m /\ pl c B k (zv v) = bvlen B k m y /\ ((0 < pl c B k (zv v))%Qc -> nonzero y).
Proof.
  intros HD HA [X HX']. exists (map (fun i => X (k + i)) (seq 0 m)). rewrite map_length, seq_length. split; auto.
  assert (E : pl c B k (zv v) = bvlen B k m (map (fun i => X (k + i)) (seq 0 m))).
  { apply (pl_vlen c B k m X); [intros j Hj; apply HA; lia| |intros i Hi; apply (nth_map_seq (fun i => X (k + i))); auto].
    intros t Ht. unfold zv. rewrite HX' by auto. rewrite Qcz_zsum, HD. apply qsum_ext. intros a Ha. rewrite Qcz_mul. reflexivity. }
  split; auto. intros HP. apply (nonzero_lt m); [rewrite map_length, seq_length; auto|].
  destruct (existsb (fun i => negb (X (k + i)%nat =? 0)%Z) (seq 0 m)) eqn:EX.
  - apply existsb_exists in EX. destruct EX as [i [I1 I2]]. apply in_seq in I1. exists i. split; [lia|]. rewrite (nth_map_seq (fun i => X (k + i))) by lia.
    destruct (Z.eqb_spec (X (k + i)) 0); [discriminate|auto].
  - exfalso. rewrite E in HP. unfold BkzExact.bvlen in HP. rewrite (vlen_scal m _ _ _ [] 0%Z) in HP.
    + rewrite Z.mul_0_l, Qcz_0, Qcmult_0_l in HP. discriminate HP.
    + intros i Hi. rewrite (nth_map_seq (fun i => X (k + i))) by auto. rewrite Z.mul_0_l. destruct (Z.eqb_spec (X (k + i)) 0) as [Z0|Z0]; auto.
      exfalso. assert (existsb (fun i => negb (X (k + i)%nat =? 0)%Z) (seq 0 m) = true); [|congruence].
      apply existsb_exists. exists i. split; [apply in_seq; lia|]. destruct (Z.eqb_spec (X (k + i)) 0); auto.
Qed.

(** ** HKZ *)
Variable Bs : list (list Z).
Hypothesis Hd1 : (p_delta P < 1)%Qc.
Hypothesis Hdd : (p_delta P <= delta)%Qc.
Hypothesis Hdl : (delta <= 1)%Qc.
(** the first k Gram-Schmidt vectors are as short as they should be *)
Definition HK (k : nat) (B : list (list Z)) : Prop :=
  length B = D /\ (forall v, LB c D B v <-> LB c D Bs v) /\ all_pos c B D /\
  forall j v, j < k -> LB c D Bs v -> (0 < pl c B j (zv v))%Qc ->
    (delta * qR c B j j <= pl c B j (zv v))%Qc /\ (p_delta P * qR c B j j < pl c B j (zv v))%Qc.

Lemma HK_row k B B' kp : k <= D -> HK k B -> length B' = length B -> kp < length B -> row_changed c B B' kp -> HK k B'.
Proof.
  intros HkD [H1 [H2 [H3 H4]]] HL Hk HR. split; [congruence|]. split; [|split].
  - intros v. rewrite <- H2. apply (row_changed_LB c D B B' kp); auto; lia.
  - eapply row_changed_pos; eauto. lia.
  - intros j v Hj HB. pose proof (row_changed_S c B B' kp D HR ltac:(lia) H3) as HS.
    rewrite (pl_basis c B B' j) by (intros i Hi t Ht; apply HS; auto; lia). rewrite (proj2 (HS j ltac:(lia))). auto.
Qed.
Lemma HK_stable k : k <= D -> stable (HK k).
Proof. intros HkD B B' kp srs HJ Hk HL _ HR _. eapply HK_row; eauto. lia. Qed.
Lemma HK_same k B B' : k <= D -> HK k B -> length B' = D -> (forall v, LB c D B' v <-> LB c D B v) -> (forall a, a < k -> nth a B' [] = nth a B []) -> HK k B'.
Proof.
  intros HkD [H1 [H2 [H3 H4]]] HL HB HN. split; auto. split; [intros v; rewrite HB; auto|]. split; [eapply LB_pos; eauto|].
  intros j v Hj Hv. rewrite (pl_same c B B' j) by (intros a Ha; apply HN; lia). rewrite (qR_same c B B' j j) by (auto; intros a Ha; apply HN; lia). auto.
Qed.
Lemma HK_lstable k kend : k <= D -> lstable kend (HK k).
Proof.
  intros HkD B B' kp kp' HJ Hk HE HA [B1 [L1 [R1 [_ HC]]]].
  pose proof (HK_row k B B1 kp HkD HJ L1 ltac:(lia) R1) as HJ1. pose proof HJ as [HL _]. destruct HC as [[_ ->]|[i [Hi [_ [L2 [HI [_ HP]]]]]]]; auto.
  pose proof HJ1 as [G1 [G2 [G3 G4]]]. pose proof (inserted_LB c D B1 B' kp i G1 ltac:(lia) HI) as IB.
  destruct (Nat.lt_ge_cases i k) as [X|X].
  - exfalso. pose proof (LB_pos c D B1 B' IB G3 i ltac:(lia)) as PI. destruct HI as [I1 [I2 _]]. rewrite (qR_proj c B1 B' kp i I2 I1) in PI.
    destruct (G4 i (ent B1 kp) X) as [_ Q].
    + apply G2. apply LB_row. lia.
    + change (zv (ent B1 kp)) with (zq (nth kp B1 [])). rewrite pl_row by lia. auto.
    + change (zv (ent B1 kp)) with (zq (nth kp B1 [])) in Q. rewrite pl_row in Q by lia. apply (Qclt_not_le _ _ Q (HP i ltac:(lia))).
  - eapply HK_same; eauto; [congruence|]. destruct HI as [_ [I2 _]]. intros a Ha. apply I2. lia.
Qed.

Lemma HK_svp st st' k b : ready st -> S k < D -> HK k (gb (lz st)) -> svp st k (D - k) = Some (st', BRet b) ->
  HK (S k) (gb (lz st')) /\ ready st' /\ valid_to st' (S k) /\ size_reduced_to (gb (lz st')) (S k).
Proof.
  intros HR Hk HJ E.
  destruct (svp_gen rnd si ze expo P HX Heta Hthr Hdelta Hearly fuel efuel max_iter ne rec delta Hfuel Hd0 c D (HK k) st st' k (D - k) b)
    as [B0 [B1 [B2 [J0 [J1 [L1 [HC [RE [L2 [P2 [R' [V' [S' _]]]]]]]]]]]]]; auto; try lia.
  { intros B HB. apply HB. }
  { apply HK_stable. lia. }
  { apply HK_lstable. lia. }
  split; auto. apply RE; [apply HK_stable; lia|]. pose proof J1 as [_ [G2 [G3 G4]]].
  assert (HKk : HK k B2).
  { destruct HC as [[-> _]|[x [_ [_ [_ [_ [_ [U [LL _]]]]]]]]]; auto. eapply HK_same; eauto; [lia|]. intros a Ha. apply U; lia. }
  destruct HKk as [K1 [K2 [K3 K4]]]. split; auto. split; auto. split; auto.
  intros j v Hj Hv. destruct (Nat.eq_dec j k) as [->|N]; [|apply K4; auto; lia].
  assert (EP : pl c B2 k (zv v) = pl c B1 k (zv v)).
  { destruct HC as [[-> _]|[x [_ [_ [_ [_ [_ [U _]]]]]]]]; auto. apply pl_same. intros a Ha. apply U; lia. }
  destruct (LB_block B1 k (D - k) v ltac:(lia) G3 ltac:(apply G2; auto)) as [y [Y1 [Y2 Y3]]].
  rewrite EP. intros HP. specialize (Y3 HP). rewrite Y2 in *.
  destruct HC as [[-> HN]|[x [X1 [X2 [X3 [X4 X5]]]]]].
  - specialize (HN y Y1 Y3). pose proof (G3 k ltac:(lia)) as PK. set (a := bvlen B1 k (D - k) y) in *. set (r := qR c B1 k k) in *. clearbody a r. clear - HN PK Hdd. split; qcnra.
  - rewrite (put_R fuel Hfuel c D B1 B2 k (D - k) x) by (auto; lia). specialize (X4 y Y1 Y3).
    assert (PX : (0 < bvlen B1 k (D - k) x)%Qc) by (apply vlen_pos; auto; intros i Hi; unfold br; apply G3; lia).
    set (a := bvlen B1 k (D - k) y) in *. set (r := bvlen B1 k (D - k) x) in *. clearbody a r. clear - X4 PX Hd1 Hdl. split; qcnra.
Qed.

Lemma HK_blocks : forall cnt st k cl st' b, ready st -> k + cnt < D -> HK k (gb (lz st)) -> 0 < cnt ->
  blocks (fun kappa => D - kappa) cnt st k cl = Some (st', BRet b) ->
  HK (k + cnt) (gb (lz st')) /\ ready st' /\ valid_to st' (k + cnt) /\ size_reduced_to (gb (lz st')) (k + cnt).
Proof.
  induction cnt as [|cnt IH]; intros st k cl st' b HR Hk HJ Hc E; [lia|]. cbn [BkzExactModel.blocks] in E.
  destruct (svp st k (D - k)) as [[s1 [b1|]]|] eqn:E1; cbn [obind fst snd] in E; try discriminate.
  destruct (HK_svp st s1 k b1 HR ltac:(lia) HJ E1) as [A1 [A2 [A3 A4]]]. destruct cnt as [|cnt].
  - injection E as <- _. rewrite Nat.add_1_r. auto.
  - replace (k + S (S cnt)) with (S k + S cnt) by lia. eapply IH; eauto; lia.
Qed.

Lemma HK_last B : 0 < D -> HK (D - 1) B -> HK D B.
Proof.
  intros HD [H1 [H2 [H3 H4]]]. split; auto. split; auto. split; auto. intros j v Hj Hv. destruct (Nat.eq_dec j (D - 1)) as [->|N]; [|apply H4; auto; lia].
  destruct (LB_block B (D - 1) 1 v ltac:(lia) H3 ltac:(apply H2; auto)) as [y [Y1 [Y2 Y3]]]. intros HP. specialize (Y3 HP). rewrite Y2.
  assert (Q : (qR c B (D - 1) (D - 1) <= bvlen B (D - 1) 1 y)%Qc).
  { apply (nonzero_lt 1) in Y3; auto. destruct Y3 as [i [I1 I2]]. assert (i = 0) by lia. subst i.
    pose proof (vlen_last 1 (bmu c B (D - 1)) (br c B (D - 1)) y 0 ltac:(intros k Hk; unfold br; apply H3; lia) ltac:(lia) I2 ltac:(intros; lia)) as VL.
    unfold br at 1 in VL. rewrite Nat.add_0_r in VL. exact VL. }
  pose proof (H3 (D - 1) ltac:(lia)) as PR. set (a := bvlen B (D - 1) 1 y) in *. set (r := qR c B (D - 1) (D - 1)) in *. clearbody a r. clear - Q PR Hd1 Hdl. split; qcnra.
Qed.

Lemma HK_hkz st st' b : ready st -> 2 <= D -> HK 0 (gb (lz st)) -> hkz st 0 D = Some (st', BRet b) ->
  HK D (gb (lz st')) /\ ready st' /\ size_reduced_to (gb (lz st')) (D - 1) /\ (qabs (qM c (gb (lz st')) (D - 1) (D - 2)) <= p_eta P)%Qc.
Proof.
  intros HR HD HJ E. unfold BkzExactModel.hkz in E. rewrite Nat.sub_0_r in E.
  destruct (blocks (fun kappa => D - kappa) (D - 1) st 0 true) as [[s1 [b1|]]|] eqn:E1; cbn [obind fst snd] in E; try discriminate.
  destruct (HK_blocks (D - 1) st 0 true s1 b1 HR ltac:(lia) HJ ltac:(lia) E1) as [A1 [A2 [A3 A4]]]. rewrite Nat.add_0_l in *.
  destruct (size_red_q rnd si ze expo P HX Heta fuel Hfuel c D s1 (D - 1) 1 (D - 2) A2 ltac:(lia) ltac:(lia) A3) as [s2 [E2 [R2 [S2 [V2 [U2 M2]]]]]].
  replace (D - 1 + 1) with D in * by lia. rewrite E2 in E. cbn [obind fst snd] in E. injection E as <- _.
  split; [apply S2; [apply HK_stable; auto|apply HK_last; auto; lia]|]. split; auto. split; [|apply M2; lia].
  intros i j Hi Hj. rewrite (qM_same c (gb (lz s1)) (gb (lz s2)) i j); [apply A4; auto|lia|]. intros a Ha. apply U2; lia.
Qed.
End H.

(** ** tours that change nothing *)
Section T.
Variable rnd : Qc -> Z -> Qc.
Variable si ze : Qc -> Z -> Z * nat.
Variable expo : Qc -> Z.
Notation lo := (lq_ops rnd si ze expo).
Variable P : lpar lo.
Notation lst := (lst lo).
Notation half := (Q2Qc (1 # 2)).
Hypothesis HX : exact_rounding rnd si ze.
Hypothesis Heta : (half <= p_eta P)%Qc.
Hypothesis Hthr : p_thr P = (if p_siegel P then p_delta P - p_eta P * p_eta P else p_delta P)%Qc.
Hypothesis Hdelta : (p_eta P * p_eta P < p_delta P)%Qc.
Hypothesis Hearly : p_early P = false.
Variables (fuel efuel : nat) (max_iter : list (list Z) -> nat) (ne : list Qc -> Z) (rec : bool) (delta : Qc).
Hypothesis Hfuel : 2 <= fuel.
Hypothesis Hd0 : (0 <= delta)%Qc.
Hypothesis Hd1 : (delta < 1)%Qc.
Variables (c D : nat).
Notation stable := (stable rnd si ze expo P c).
Notation lstable := (lstable rnd si ze expo P c).
Notation ready := (ready rnd si ze expo P c D).
Notation valid_to := (valid_to rnd si ze expo).
Notation bvlen := (bvlen c).
Notation svp := (svp_reduction rnd si ze expo P fuel efuel max_iter ne rec delta).
Notation blocks := (blocks rnd si ze expo P fuel efuel max_iter ne rec delta).
Notation hkz := (hkz rnd si ze expo P fuel efuel max_iter ne rec delta).
Notation tour := (tour rnd si ze expo P fuel efuel max_iter ne rec delta).
Variable B0 : list (list Z).
Hypothesis HL0 : length B0 = D.
Hypothesis HA0 : all_pos c B0 D.
Hypothesis HM0 : forall i j, i < D -> j < i -> (qabs (qM c B0 i j) <= p_eta P)%Qc.
Hypothesis HP0 : forall i, 0 < i < D -> (p_thr P * qR c B0 (i - 1) (i - 1) <= qproj c B0 i (tidx lo P i))%Qc.

Lemma same_stable : stable (fun B => B = B0).
Proof. intros B B' k srs -> Hk _ _ _ H. apply H. intros j Hj. apply HM0; lia. Qed.
Lemma same_lstable kend : kend <= D -> lstable kend (fun B => B = B0).
Proof.
  intros HD B B' k k' -> Hk HE HA [B1 [L1 [R1 [HS HC]]]]. assert (B1 = B0) by (apply HS; intros j Hj; apply HM0; lia). subst B1.
  destruct HC as [[_ E]|[i [Hi [_ [_ [_ [HP _]]]]]]]; auto. exfalso. apply (Qclt_not_le _ _ HP). apply HP0. lia.
Qed.

Lemma same_svp st st' k m : ready st -> 0 < m -> k + m <= D -> gb (lz st) = B0 -> svp st k m = Some (st', BRet true) ->
  gb (lz st') = B0 /\ ready st' /\ valid_to st' (S k) /\ forall y, length y = m -> nonzero y -> (delta * qR c B0 k k <= bvlen B0 k m y)%Qc.
Proof.
  intros HR Hm Hk HB E.
  destruct (svp_gen rnd si ze expo P HX Heta Hthr Hdelta Hearly fuel efuel max_iter ne rec delta Hfuel Hd0 c D (fun B => B = B0) st st' k m true)
    as [Ba [B1 [B2 [-> [-> [L1 [HC [RE [L2 [P2 [R' [V' [S' F]]]]]]]]]]]]]; auto.
  { intros B ->. auto. }
  { apply same_stable. }
  { apply same_lstable. auto. }
  destruct HC as [[-> HN]|[x [X1 [X2 [X3 [X4 X5]]]]]].
  - split; [apply RE; auto; apply same_stable|]. split; auto. split; auto. intros y Ly Ny. apply Qclt_le_weak. auto.
  - exfalso. pose proof (put_R fuel Hfuel c D B0 B2 k m x HA0 Hm Hk X5) as E2.
    assert (E3 : qR c (gb (lz st')) k k = qR c B2 k k).
    { assert (Q : length (gb (lz st')) = D /\ all_pos c (gb (lz st')) D /\ qR c (gb (lz st')) k k = qR c B2 k k); [|apply Q].
      apply (RE (fun B => length B = D /\ all_pos c B D /\ qR c B k k = qR c B2 k k)); auto.
      intros B B' kp srs [G1 [G2 G3]] Hkp GL _ HRC _. split; [congruence|]. split; [eapply row_changed_pos; eauto; lia|].
      rewrite <- G3. apply (row_changed_S c B B' kp D HRC); auto; lia. }
    pose proof (proj1 F eq_refl) as FL. rewrite E3, E2 in FL. pose proof (HA0 k ltac:(lia)) as PK.
    set (r := qR c B0 k k) in *. set (a := bvlen B0 k m x) in *. clearbody r a. clear - FL PK X3 Hd1. qcnra.
Qed.

Lemma blocks_false size : forall cnt st k cl st', blocks size cnt st k cl = Some (st', BRet true) -> cl = false -> False.
Proof.
  induction cnt as [|cnt IH]; intros st k cl st' E ->; cbn [BkzExactModel.blocks] in E; [discriminate|].
  destruct (svp st k (size k)) as [[s1 [b1|]]|] eqn:E1; cbn [obind fst snd] in E; try discriminate. eapply IH; eauto.
Qed.
Lemma same_blocks size : forall cnt st k cl st', ready st -> (forall i, k <= i < k + cnt -> 0 < size i /\ i + size i <= D) -> gb (lz st) = B0 ->
  (0 < cnt \/ valid_to st k) ->
  blocks size cnt st k cl = Some (st', BRet true) ->
  cl = true /\ gb (lz st') = B0 /\ ready st' /\ valid_to st' (k + cnt) /\
  forall i y, k <= i < k + cnt -> length y = size i -> nonzero y -> (delta * qR c B0 i i <= bvlen B0 i (size i) y)%Qc.
Proof.
  induction cnt as [|cnt IH]; intros st k cl st' HR Hs HB HV E; cbn [BkzExactModel.blocks] in E.
  - injection E as <- ->. rewrite Nat.add_0_r. split; auto. split; auto. split; auto. split; [destruct HV; [lia|auto]|]. intros; lia.
  - destruct (svp st k (size k)) as [[s1 [b1|]]|] eqn:E1; cbn [obind fst snd] in E; try discriminate.
    destruct b1; [|destruct (blocks_false size cnt s1 (S k) (cl && false) st' E ltac:(apply andb_false_r))].
    destruct (Hs k ltac:(lia)) as [S1 S2]. destruct (same_svp st s1 k (size k) HR S1 S2 HB E1) as [A1 [A2 [A3 A4]]].
    destruct (IH s1 (S k) (cl && true) st' A2) as [C1 [C2 [C3 [C4 C5]]]]; auto.
    { intros i Hi. apply Hs. lia. }
    rewrite andb_true_r in C1. split; auto. split; auto. split; auto. split; [replace (k + S cnt) with (S k + cnt) by lia; auto|].
    intros i y Hi. destruct (Nat.eq_dec i k) as [->|N]; [apply A4|apply C5; lia].
Qed.
End T.
