(** LLL in exact arithmetic with exact rounding: size reduction of a row needs
    one pass, and the main loop of LLLReduction::lll stops within its limit.
    Not part of the model (proofs for PropLllTotal.v). *)
From Coq Require Import List ZArith QArith Qcanon Lia Lqa Arith Bool.
From Verif Require Import Util QcUtil LatticeSpec NumVectModel NumVectProofs MatrixModel MatrixProofs
  GsoModel GsoProofs GsoHistory RotateSpec GsoFModel GsoFSpec GsoFProofs GsoWeak GsoQ QGs LllModel LllProofs LllQ LllExact GramDet LatPot.
Import ListNotations.
Local Open Scope nat_scope.

(** ** adding a multiple of an earlier row *)
Section Row.
Variable c : nat.
Local Open Scope Qc_scope.

Lemma qS_same B B' : forall i, (forall a, (a <= i)%nat -> nth a B' [] = nth a B []) -> forall k, qS c B' i k = qS c B i k.
Proof.
  induction i as [i IH] using lt_wf_ind. intros H k. rewrite !qS_eq. rewrite H by lia. f_equal. apply qsum_ext. intros j Hj.
  rewrite (qM_same c B B' i j) by (auto; lia). rewrite (IH j) by (auto; intros; apply H; lia). auto.
Qed.

Lemma row_orth B j k : (j < k)%nat -> qdot c (zq (nth j B [])) (qS c B k) = 0.
Proof.
  intros H. rewrite qdot_comm.
  rewrite (qdot_ext c (qS c B k) (qS c B k) (zq (nth j B [])) (fun a => qS c B j a - (qsum j (fun l => (- qM c B j l) * qS c B l a)))); auto.
  - rewrite qdot_sub_r, qdot_sum_r, qS_orth by auto. rewrite qsum_0; [ring|]. intros l Hl. rewrite qS_orth by lia. ring.
  - intros a Ha. rewrite (qS_eq c B j a).
    replace (qsum j (fun l => - qM c B j l * qS c B l a)) with (- qsum j (fun l => qM c B j l * qS c B l a)); [ring|].
    replace (- qsum j (fun l => qM c B j l * qS c B l a)) with ((-(1)) * qsum j (fun l => qM c B j l * qS c B l a)) by ring.
    rewrite <- qsum_scal. apply qsum_ext. intros. ring.
Qed.

Lemma qM_rowadd B B' kappa j x : (j < kappa)%nat -> (forall a, (a < kappa)%nat -> nth a B' [] = nth a B []) ->
  (forall k, (k < c)%nat -> ent B' kappa k = (ent B kappa k + x * ent B j k)%Z) -> 0 < qR c B j j ->
  forall k, (k < kappa)%nat ->
  qM c B' kappa k = qM c B kappa k + Qcz x * (if (k <? j)%nat then qM c B j k else if (k =? j)%nat then 1 else 0).
Proof.
  intros Hj Hs Hr Hp k Hk. rewrite !qM_eq. rewrite (qR_same c B B' k k) by (auto; intros; apply Hs; lia).
  rewrite (qR_dot c B' kappa k), (qR_dot c B kappa k) by lia.
  assert (E : qdot c (zq (nth kappa B' [])) (qS c B' k) = qdot c (zq (nth kappa B [])) (qS c B k) + Qcz x * qdot c (zq (nth j B [])) (qS c B k)).
  { unfold qdot. rewrite <- qsum_scal, <- qsum_plus. apply qsum_ext. intros a Ha. rewrite (qS_same B B') by (intros; apply Hs; lia).
    unfold zq. change (nth a (nth kappa B' []) 0%Z) with (ent B' kappa a). rewrite Hr by auto. rewrite Qcz_add, Qcz_mul. unfold ent. ring. }
  rewrite E. assert (Hp' : qR c B j j <> 0). { intros X. rewrite X in Hp. discriminate Hp. }
  destruct (Nat.ltb_spec k j) as [H1|H1].
  - rewrite <- (qR_dot c B j k) by lia. rewrite (qR_M c B j k) by auto.
    unfold Qcdiv. rewrite qM_eq. unfold Qcdiv. rewrite (qR_M c B j k) by auto. rewrite qM_eq. unfold Qcdiv.
    destruct (Qc_eq_dec (qR c B k k) 0) as [Z|Z]; [rewrite Z; ring|]. field. auto.
  - destruct (Nat.eqb_spec k j) as [->|N].
    + rewrite <- (qR_dot c B j j) by lia. field. auto.
    + rewrite (row_orth B j k) by lia. unfold Qcdiv. ring.
Qed.
End Row.

Lemma nth_error_upd_eq {A} (l : list A) i x : i < length l -> nth_error (upd l i x) i = Some x.
Proof. intros H. rewrite nth_error_upd, Nat.eqb_refl. apply Nat.ltb_lt in H. rewrite H. reflexivity. Qed.
Lemma nth_error_upd_neq {A} (l : list A) i x j : j <> i -> nth_error (upd l i x) j = nth_error l j.
Proof. intros H. rewrite nth_error_upd. apply Nat.eqb_neq in H. rewrite H. reflexivity. Qed.
Lemma qabs_half (a : Qc) (h : Qc) : (a <= h)%Qc -> (- h <= a)%Qc -> (qabs a <= h)%Qc.
Proof.
  intros H1 H2. unfold qabs. destruct (qltb a 0); auto. apply Qcopp_le_compat in H2. rewrite Qcopp_involutive in H2. auto.
Qed.

(** value of the multiplier used by row_addmul_we *)
Definition we_mult (fl : bool) (lx : Z) (e : nat) (zx : Z) (e2 : nat) : Z :=
  if e =? 0 then lx else if fl then (lx * 2 ^ Z.of_nat e)%Z else (zx * 2 ^ Z.of_nat e2)%Z.

Lemma addmul_we_val z i j lx e zx e2 : Inv z -> legal_rowop z i j ->
  exists z' ef, row_addmul_we z i j lx e zx e2 = Some z' /\ step_ok z z' ef /\
    forall a k, ent (gb z') a k = (ent (gb z) a k + if (a =? i)%nat then we_mult (force_long z) lx e zx e2 * ent (gb z) j k else 0)%Z.
Proof.
  intros HI HL. unfold row_addmul_we, we_mult. destruct (e =? 0).
  - destruct (Z.eqb_spec lx 1) as [->|N1]. { destruct (row_add_ok z i j HI HL) as [z' [E S]]. exists z', (EAdd i j 1). split; auto. split; auto. apply S. }
    destruct (Z.eqb_spec lx (-1)) as [->|N2]. { destruct (row_sub_ok z i j HI HL) as [z' [E S]]. exists z', (EAdd i j (-1)). split; auto. split; auto. apply S. }
    destruct (Z.eqb_spec lx 0) as [->|N3]; cbn [negb].
    + exists z, ENone. split; auto. split; [apply step_ok_refl; auto|]. intros a k. destruct (a =? i)%nat; lia.
    + destruct (row_addmul_si_ok z i j lx HI HL) as [z' [E S]]. exists z', (EAdd i j lx). split; auto. split; auto. apply S.
  - destruct (force_long z).
    + destruct (row_addmul_si_2exp_ok z i j lx e HI HL) as [z' [E S]]. eexists; eexists. split; [exact E|]. split; [exact S|]. apply S.
    + destruct (row_addmul_2exp_ok z i j zx e2 HI HL) as [z' [E S]]. eexists; eexists. split; [exact E|]. split; [exact S|]. apply S.
Qed.

Section T.
Variable rnd : Qc -> Z -> Qc.
Variable si ze : Qc -> Z -> Z * nat.
Variable expo : Qc -> Z.
Notation lo := (lq_ops rnd si ze expo).
Notation fo := qc_ops.
Notation f0 := (f_ofZ fo 0).
Variable P : lpar lo.
Notation en_e := (p_e P).
Notation FI := (FInv fo (p_e P)).
Notation lst := (lst lo).
Notation Gr z := (gram_ref fo (p_e P) (en_g z) (gc z) (gb z)).
Notation XP := (XP rnd si ze expo P).
Notation sc := (sc rnd si ze expo P).
Notation RR z := (qR (gc z) (gb z)).
Notation MM z := (qM (gc z) (gb z)).
Notation PP z := (qproj (gc z) (gb z)).
Notation vc s j := (nth j (fvc s) 0).
Notation half := (Q2Qc (1 # 2)).

(** rounding to a nearest integer, conversions exact on integers *)
Definition exact_rounding : Prop :=
  (forall x e, exists X : Z, (rnd x e * pow2 e = Qcz X)%Qc /\ (x * pow2 e - Qcz X <= half)%Qc /\ (- half <= x * pow2 e - Qcz X)%Qc) /\
  (forall x e X, (x * pow2 e = Qcz X)%Qc ->
     (fst (si x e) * 2 ^ Z.of_nat (snd (si x e)) = X)%Z /\ (fst (ze x e) * 2 ^ Z.of_nat (snd (ze x e)) = X)%Z).
Hypothesis HX : exact_rounding.
Hypothesis Heta : (half <= p_eta P)%Qc.

Lemma we_mult_exact x e X fl : (x * pow2 e = Qcz X)%Qc ->
  we_mult fl (fst (si x e)) (snd (si x e)) (fst (ze x e)) (snd (ze x e)) = X.
Proof.
  intros H. destruct HX as [_ H2]. destruct (H2 x e X H) as [A1 A2]. unfold we_mult.
  destruct (Nat.eqb_spec (snd (si x e)) 0) as [E|E]; [rewrite E in A1; lia|]. destruct fl; auto.
Qed.

(** exponents of the rows as stored *)
Notation ee z i := (encexp fo (p_e P) (nth i (gb z) [])).

Lemma reduce_loop_t (s : fst_ fo) kappa srs c (B0 : list (list Z)) (eK : Z) (ex : nat -> Z) : forall cnt z (bm : list (Qc * Z)), Inv z -> gc z = c -> kappa < nkr z ->
  (cnt <> 0 -> srs + cnt <= nsr z) -> (cnt <> 0 -> srs + cnt <= kappa) -> length bm = cnt \/ cnt <= length bm ->
  (forall a, a < kappa -> nth a (gb z) [] = nth a B0 []) ->
  (forall j, j < srs + cnt -> (0 < qR c B0 j j)%Qc) ->
  (forall j k, k < j < srs + cnt -> mget (fmu s) j k = Some ((qM c B0 j k * pow2 (ex k - ex j)%Z)%Qc : F fo)) ->
  (forall k, k < cnt -> exists v, nth_error bm k = Some (v, (eK - ex (srs + k)%nat)%Z) /\ (v * pow2 (eK - ex (srs + k)%nat) = MM z kappa (srs + k)%nat)%Qc) ->
  exists z', reduce_loop lo z s kappa srs cnt bm = Some z' /\ row_changed c (gb z) (gb z') kappa /\ gd z' = gd z /\
    (forall k, k < cnt -> (qabs (MM z' kappa (srs + k)%nat) <= half)%Qc) /\
    (forall k, srs + cnt <= k < kappa -> MM z' kappa k = MM z kappa k) /\ gc z' = c.
Proof.
  induction cnt as [|cn IH]; intros z bm HI Hc Hk Hs Hka Hb Hrows Hpos Hmu Hbm; cbn [reduce_loop].
  { exists z. split; auto. split; [apply row_changed_refl|]. split; auto. split; [lia|]. split; auto. }
  specialize (Hs ltac:(discriminate)). specialize (Hka ltac:(discriminate)). assert (Hb' : S cn <= length bm) by lia. clear Hb.
  destruct (I_known _ HI) as [K1 [K2 K3]].
  destruct (Hbm cn ltac:(lia)) as [v [Ev Hv]].
  match goal with |- context [obind ?A _] => replace A with (Some (v, (eK - ex (srs + cn)%nat)%Z)) by (symmetry; exact Ev) end. cbn [obind fst snd]. cbv zeta.
  set (e := (eK - ex (srs + cn)%nat)%Z) in *. destruct HX as [H1 _]. destruct (H1 v e) as [X [HXe [HX1 HX2]]]. clear H1.
  cbn [l_zero l_rnd lq_ops]. rewrite Hv in HX1, HX2.
  assert (Hp : (0 < qR c B0 (srs + cn)%nat (srs + cn)%nat)%Qc) by (apply Hpos; lia).
  assert (ER : qR c (gb z) (srs + cn) (srs + cn) = qR c B0 (srs + cn)%nat (srs + cn)%nat) by (apply qR_same; auto; intros; apply Hrows; lia).
  destruct (Qc_eq_dec (rnd v e) 0) as [E0|E0].
  - assert (X = 0%Z). { apply Qcz_inj. rewrite <- HXe, E0. rewrite Qcmult_0_l. reflexivity. } subst X.
    destruct (IH z bm) as [z' [E [A1 [A2 [A3 [A4 A5]]]]]]; auto; try lia.
    { intros j Hj. apply Hpos. lia. }
    { intros j k Hj. apply Hmu. lia. }
    exists z'. split; [exact E|]. split; auto. split; auto. split; [|split; auto].
    + intros k Hk'. destruct (Nat.eq_dec k cn) as [->|N]; [|apply A3; lia]. rewrite A4 by lia.
      rewrite Qcz_0, qminus_0 in HX1, HX2. apply qabs_half; auto.
    + intros k Hk'. apply A4. lia.
  - set (f := fun k (bm : list (Qc * Z)) => q <- nth_error bm k;; m <- mget (fmu s) (srs + cn) (srs + k);;
                 Some (upd bm k (f_sub fo (fst q) (f_mul fo (rnd v e) m), snd q))).
    destruct (ofor_inv (fun n (b : list (Qc * Z)) => length b = length bm /\
       (forall k, n <= k -> nth_error b k = nth_error bm k) /\
       (forall k, k < n -> k < cn -> exists w, nth_error b k = Some (w, (eK - ex (srs + k)%nat)%Z) /\
           (w * pow2 (eK - ex (srs + k)%nat) = MM z kappa (srs + k)%nat - Qcz X * qM c B0 (srs + cn)%nat (srs + k)%nat)%Qc)) f cn 0 bm) as [bm' [Eb [Lb [_ Vb]]]].
    { split; auto. split; auto. intros k Hk' _. lia. }
    { intros k b Hk' [L [G1 G2]]. destruct (Hbm k ltac:(lia)) as [w [Ew Hw]]. unfold f. rewrite G1, Ew by lia. cbn [obind].
      rewrite Hmu by lia. cbn [obind fst snd]. eexists. split; [reflexivity|]. split; [rewrite upd_length; auto|]. split.
      - intros k' Hk''. rewrite nth_error_upd_neq by lia. apply G1. lia.
      - intros k' Hk'' Hc'. destruct (Nat.eq_dec k' k) as [->|N].
        + rewrite nth_error_upd_eq by lia. eexists. split; [reflexivity|]. cbn [f_sub f_mul qc_ops].
          replace ((w - rnd v e * (qM c B0 (srs + cn)%nat (srs + k)%nat * pow2 (ex (srs + k)%nat - ex (srs + cn)%nat))) * pow2 (eK - ex (srs + k)%nat))%Qc
            with (w * pow2 (eK - ex (srs + k)%nat) - (rnd v e * (pow2 (ex (srs + k)%nat - ex (srs + cn)%nat) * pow2 (eK - ex (srs + k)%nat))) * qM c B0 (srs + cn)%nat (srs + k)%nat)%Qc by ring.
          rewrite <- pow2_add. replace (ex (srs + k)%nat - ex (srs + cn)%nat + (eK - ex (srs + k)%nat))%Z with e by (unfold e; lia).
          rewrite HXe, Hw. auto.
        + rewrite nth_error_upd_neq by lia. apply G2; lia. }
    match goal with |- context [obind ?A _] => replace A with (Some bm') by (symmetry; exact Eb) end. cbn [obind].
    cbn [l_neg l_si l_ze lq_ops].
    assert (LR : legal_rowop z kappa (srs + cn)) by (split; [lia|split; lia]).
    set (nx := Qcopp (rnd v e)).
    assert (ENX : (nx * pow2 e = Qcz (- X))%Qc). { unfold nx. rewrite Qcz_opp, <- HXe. ring. }
    destruct (addmul_we_val z kappa (srs + cn) (fst (si nx e)) (snd (si nx e)) (fst (ze nx e)) (snd (ze nx e)) HI LR) as [z1 [ef [E1 [S1 V1]]]].
    rewrite (we_mult_exact nx e (- X)) in V1 by auto.
    match goal with |- context [obind ?A _] => replace A with (Some z1) by (symmetry; exact E1) end. cbn [obind].
    assert (LL : legal z (OAddmulWe kappa (srs + cn) (fst (si nx e)) (snd (si nx e)) (fst (ze nx e)) (snd (ze nx e)))) by (cbn [legal]; split; [lia|split; lia]).
    destruct (gstep_rows kappa (S kappa) z _ z1 HI LL ltac:(simpl; lia) E1) as [I1 [F1 [G1 R1]]].
    pose proof (gstep_known kappa (S kappa) z (OAddmulWe kappa (srs + cn) (fst (si nx e)) (snd (si nx e)) (fst (ze nx e)) (snd (ze nx e))) z1 ltac:(simpl; lia) E1) as K. pose proof K as [Q1 [Q2 [Q3 [Q4 Q5]]]].
    assert (Hc1 : gc z1 = c) by (destruct F1 as [-> _]; auto).
    assert (MZ : forall k, k < kappa -> MM z1 kappa k = (MM z kappa k + Qcz (- X) * (if (k <? srs + cn)%nat then MM z (srs + cn)%nat k else if (k =? srs + cn)%nat then 1 else 0))%Qc).
    { rewrite Hc1, Hc. apply (qM_rowadd c (gb z) (gb z1) kappa (srs + cn) (- X)); try lia.
      - intros a Ha. apply R1; lia.
      - intros k Hk'. rewrite V1, Nat.eqb_refl. auto.
      - rewrite ER. auto. }
    destruct (IH z1 bm') as [z' [E [A1 [A2 [A3 [A4 A5]]]]]]; auto; try lia.
    { intros a Ha. rewrite R1 by lia. auto. }
    { intros j Hj. apply Hpos. lia. }
    { intros j k Hj. apply Hmu. lia. }
    { intros k Hk'. destruct (Vb k ltac:(lia) ltac:(lia)) as [w [Ew Hw]]. exists w. split; auto. rewrite Hw, MZ by lia.
      destruct (Nat.ltb_spec (srs + k) (srs + cn)); [|lia]. rewrite Qcz_opp. rewrite <- (qM_same c B0 (gb z)) by (try lia; intros; apply Hrows; lia). rewrite Hc. ring. }
    exists z'. split; [exact E|]. split; [|split; [lia|split; [|split; auto]]].
    + apply (row_changed_trans c (gb z) (gb z1) (gb z') kappa); auto; [unfold gd in *; lia|].
      split. { intros a Ha Hl. apply R1; [unfold gd; lia|lia]. }
      exists (fun a => if a =? srs + cn then (- X)%Z else 0%Z). intros k Hk'. rewrite V1, Nat.eqb_refl. f_equal.
      rewrite (zsum_single kappa (srs + cn)); [rewrite Nat.eqb_refl; auto|lia|]. intros a _ N. destruct (Nat.eqb_spec a (srs + cn)); [contradiction|]. lia.
    + intros k Hk'. destruct (Nat.eq_dec k cn) as [->|N]; [|apply A3; lia]. rewrite A4, MZ by lia.
      rewrite Nat.ltb_irrefl, Nat.eqb_refl. rewrite Qcz_opp. replace (MM z kappa (srs + cn)%nat + - Qcz X * 1)%Qc with (MM z kappa (srs + cn)%nat - Qcz X)%Qc by ring.
      apply qabs_half; auto.
    + intros k Hk'. rewrite A4, MZ by lia. destruct (Nat.ltb_spec k (srs + cn)); [lia|]. destruct (Nat.eqb_spec k (srs + cn)); [lia|]. ring.
Qed.

(** ** one row *)
Lemma update_true z s kappa sre : FI z s -> XP z -> babai_pre z kappa sre -> (forall j, j < sre -> j < vc s j) ->
  (forall j, j < sre -> (0 < RR z j j)%Qc) ->
  exists z1 s1, update_gso_row fo z s kappa (sre - 1) = Some (z1, s1, true) /\ FI z1 s1 /\ flags_eq z z1 /\ gb z1 = gb z /\
    Steps z z1 /\ discovered z z1 kappa /\ sre <= vc s1 kappa /\ (forall j, j <> kappa -> vc s1 j = vc s j) /\ FDims fo z1 s1.
Proof.
  intros HF HXP [P1 [P2 [P3 [P4 P5]]]] HV HP. pose proof (F_inv _ _ _ _ HF) as HI. pose proof (F_dims _ _ _ _ HF) as HD.
  assert (HLU : flegal fo (z, s) (FUpdate kappa (sre - 1))).
  { split; auto. split; auto. split; [intros X; cbn [legal]; split; [lia|]; auto|]. split; [lia|]. split; [|intros; apply HV; lia].
    destruct (Nat.eqb_spec kappa (nkr z)).
    - destruct (locked z); cbn [andb negb]; [specialize (P5 eq_refl)|]; lia.
    - cbn [andb]. destruct (locked z) eqn:EL; [specialize (P5 eq_refl)|rewrite (I_unl _ HI EL)]; lia. }
  destruct (update_gso_row_w fo z s kappa (sre - 1)) as [z1 [s1 [ok [E1 [_ [D1 [S1 [B1 [K1 [O1 [_ [_ V1]]]]]]]]]]]]; auto; try lia.
  { intros X. specialize (P5 X). lia. }
  destruct (update_gso_row_ok fo en_e (qc_laws _) z s kappa (sre - 1) HF HLU) as [z1' [s1' [ok' [E1' [F1 [Fl1 [_ [_ N1]]]]]]]].
  assert (z1' = z1 /\ s1' = s1 /\ ok' = ok) as [-> [-> ->]] by (rewrite E1 in E1'; injection E1'; auto).
  destruct ok.
  - exists z1, s1. split; auto. split; auto. split; auto. split; auto. split; auto. split; auto. split; [specialize (O1 eq_refl); lia|]. split; auto.
  - exfalso. destruct (N1 eq_refl) as [k [Hk1 [Hk2 Hf]]]. clear N1 O1.
    pose proof (F_inv _ _ _ _ F1) as I1. assert (HX1 : XP z1) by (eapply XP_flags; eauto).
    destruct (Steps_inv _ _ HI S1) as [_ [_ G1]].
    destruct (ref_q rnd si ze expo P z1 k k I1 HX1) as [R1 _]; [lia|lia|].
    cbn [f_fin qc_ops] in Hf. destruct (Qc_eq_dec _ _) as [X|X]; [|discriminate]. rewrite R1 in X.
    specialize (HP k ltac:(lia)). rewrite <- B1 in HP. destruct Fl1 as [Fc _]. rewrite <- Fc in HP.
    pose proof (sc_pos rnd si ze expo P z1 k) as Hsc. change (F fo) with Qc in X. set (r := RR z1 k k) in *. set (t := sc z1 k) in *. clearbody r t.
    clear - HP Hsc X. apply Qcmult_integral in X. destruct X as [X|X]; [apply Qcmult_integral in X; destruct X as [X|X]|]; subst; discriminate.
Qed.

Lemma babai_done f iter maxe (st : lst) kappa sre srs : FI (lz st) (ls st) -> XP (lz st) -> babai_pre (lz st) kappa sre -> srs <= sre ->
  (forall j, j < sre -> j < vc (ls st) j) -> (forall j, j < sre -> (0 < RR (lz st) j j)%Qc) ->
  (forall j, srs <= j < sre -> (qabs (MM (lz st) kappa j) <= p_eta P)%Qc) ->
  exists st', babai_loop lo P (S f) iter maxe st kappa sre srs = Some (st', OTrue) /\ gb (lz st') = gb (lz st).
Proof.
  intros HF HXP HPre Hs HV HP HM. destruct (update_true _ _ _ _ HF HXP HPre HV HP) as [z1 [s1 [E1 [F1 [Fl1 [B1 [S1 [K1 [V1 _]]]]]]]]].
  destruct HPre as [P1 [P2 [P3 [P4 P5]]]].
  cbn [babai_loop]. change (lf lo) with fo. rewrite E1. cbn [obind negb].
  destruct K1 as [K1 _].
  destruct (need_loop_x rnd si ze expo P z1 s1 kappa srs sre F1 (XP_flags rnd si ze expo P _ _ Fl1 HXP) ltac:(lia) ltac:(lia) V1 (sre - srs)) as [need [En Hn]]; [lia|].
  assert (need = false) as ->.
  { apply Hn. intros j Hj. destruct Fl1 as [-> _]. rewrite B1. apply HM. lia. }
  match goal with |- context [obind ?A _] => replace A with (Some false) by (symmetry; exact En) end. cbn [obind negb].
  eexists. split; [reflexivity|]. exact B1.
Qed.

Lemma copy_mu_x z s kappa srs cnt : FI z s -> XP z -> kappa < nkr z -> srs + cnt <= kappa -> srs + cnt <= vc s kappa ->
  exists l, copy_mu lo P (z, s) kappa srs cnt = Some l /\ length l = cnt /\
   forall k, k < cnt -> nth_error l k = Some ((MM z kappa (srs + k)%nat * sc z kappa / sc z (srs + k)%nat)%Qc, (ee z kappa - ee z (srs + k)%nat)%Z).
Proof.
  intros HF HXP Hk H1 H2. unfold copy_mu. change (lf lo) with fo. destruct (I_known _ (F_inv _ _ _ _ HF)) as [K1 [K2 K3]].
  destruct (ofor_inv (fun j (l : list (Qc * Z)) => length l = j - srs /\ forall k, srs + k < j ->
     nth_error l k = Some ((MM z kappa (srs + k)%nat * sc z kappa / sc z (srs + k)%nat)%Qc, (ee z kappa - ee z (srs + k)%nat)%Z))
    (fun j l => p <- get_mu_exp fo en_e (z, s) kappa j;; Some (l ++ [p])) cnt srs []) as [l [E [L1 L2]]].
  - split; [cbn [length]; lia|]. lia.
  - intros j l Hj [L1 L2].
    destruct (coeff_reference fo en_e (qc_laws _) z s kappa j HF HXP) as [_ X]. { split; auto. cbn [fst snd]. split; lia. }
    rewrite X by lia. cbn [obind]. eexists. split; [reflexivity|]. split; [rewrite app_length; cbn [length]; lia|].
    intros k Hk'. destruct (Nat.eq_dec (srs + k) j) as [<-|N].
    + rewrite nth_error_app2 by lia. replace (k - length l) with 0 by lia. cbn [nth_error]. f_equal. f_equal.
      * apply (ref_q rnd si ze expo P z kappa (srs + k)%nat (F_inv _ _ _ _ HF) HXP); lia.
      * unfold encexp. destruct (p_e P); auto.
    + rewrite nth_error_app1 by lia. apply L2. lia.
  - exists l. split; [exact E|]. split; [etransitivity; [exact L1|lia]|]. intros k Hk'. apply L2. lia.
Qed.

Lemma babai_t fuel (st : lst) kappa sre srs : 2 <= fuel -> FI (lz st) (ls st) -> XP (lz st) -> babai_pre (lz st) kappa sre -> srs <= sre ->
  (forall j, j < sre -> j < vc (ls st) j) -> (forall j, j < sre -> (0 < RR (lz st) j j)%Qc) ->
  exists st', babai lo P fuel st kappa sre srs = Some (st', OTrue) /\ row_changed (gc (lz st)) (gb (lz st)) (gb (lz st')) kappa /\
    ((forall j, srs <= j < sre -> (qabs (MM (lz st) kappa j) <= p_eta P)%Qc) -> gb (lz st') = gb (lz st)).
Proof.
  intros Hf HF HXP HPre Hs HV HP. destruct fuel as [|[|f]]; [lia|lia|]. unfold babai.
  destruct (update_true _ _ _ _ HF HXP HPre HV HP) as [z1 [s1 [E1 [F1 [Fl1 [B1 [S1 [K1 [V1 [W1 D1]]]]]]]]]].
  pose proof HPre as [P1 [P2 [P3 [P4 P5]]]]. pose proof K1 as [K1a [K1b K1c]].
  pose proof (F_inv _ _ _ _ HF) as HI. destruct (Steps_inv _ _ HI S1) as [_ [_ G1]].
  pose proof (XP_flags rnd si ze expo P _ _ Fl1 HXP) as HX1.
  destruct (need_loop_x rnd si ze expo P z1 s1 kappa srs sre F1 HX1 ltac:(lia) ltac:(lia) V1 (sre - srs)) as [need [En Hn]]; [lia|].
  assert (EM : forall j k, MM z1 j k = MM (lz st) j k) by (destruct Fl1 as [-> _]; rewrite B1; auto).
  destruct need.
  2:{ destruct (babai_done (S f) 0 LONG_MAX st kappa sre srs) as [st' [E B]]; auto.
      { intros j Hj. rewrite <- EM. apply (proj1 Hn eq_refl). lia. }
      exists st'. split; auto. rewrite B. split; auto. apply row_changed_refl. }
  cbn [babai_loop]. change (lf lo) with fo. rewrite E1. cbn [obind negb].
  match goal with |- context [obind ?A _] => replace A with (Some true) by (symmetry; exact En) end. cbn [obind negb Nat.leb andb].
  cbn [obind snd fst negb].
  pose proof (F_inv _ _ _ _ F1) as I1. destruct (I_known _ I1) as [N1 [N2 N3]].
  assert (Hns : sre <= nsr z1).
  { rewrite K1b. destruct (locked (lz st)) eqn:EL.
    - rewrite orb_true_r. auto.
    - rewrite orb_false_r. destruct (Nat.ltb_spec kappa (nkr (lz st))); [|lia]. rewrite (I_unl _ HI EL). lia. }
  destruct (copy_mu_x z1 s1 kappa srs (sre - srs) F1 HX1) as [bm [Ebm [Lbm Hbm]]]; try lia.
  match goal with |- context [obind ?A _] => replace A with (Some bm) by (symmetry; exact Ebm) end. cbn [obind].
  assert (HP1 : forall j, j < sre -> (0 < RR z1 j j)%Qc) by (intros j Hj; destruct Fl1 as [-> _]; rewrite B1; auto).
  destruct (reduce_loop_t s1 kappa srs (gc z1) (gb z1) (ee z1 kappa) (fun j => ee z1 j) (sre - srs) z1 bm) as [z2 [E2 [RC [G2 [M2 [_ C2]]]]]]; auto; try lia.
  { intros j Hj. apply HP1. lia. }
  { intros j k Hj. destruct (F_co _ _ _ _ F1 j ltac:(lia)) as [_ C]. destruct (C k) as [_ C']. { rewrite W1 by lia. apply (Nat.lt_trans _ j); [lia|]. apply HV. lia. }
    rewrite (mget_some f0 (gd z1) (gd z1)) by (try apply D1; lia). rewrite C' by lia. f_equal.
    destruct (ref_q rnd si ze expo P z1 j k I1 HX1) as [_ R]; try lia. rewrite R. unfold LllExact.sc.
    rewrite pow2_sub, !pow2_opp. pose proof (pow2_nz (ee z1 j)). pose proof (pow2_nz (ee z1 k)). change (F fo) with Qc. field. repeat split; auto; discriminate. }
  { intros k Hk. eexists. split; [apply Hbm; auto|]. unfold LllExact.sc. rewrite pow2_sub, !pow2_opp.
    pose proof (pow2_nz (ee z1 kappa)). pose proof (pow2_nz (ee z1 (srs + k)%nat)). change (F fo) with Qc. field. repeat split; auto; discriminate. }
  match goal with |- context [obind ?A _] => replace A with (Some z2) by (symmetry; exact E2) end. cbn [obind].
  destruct (reduce_loop_w lo s1 kappa srs (sre - srs) z1 bm) as [z2' [E2' [S2 [K2' R2]]]]; auto; try lia.
  assert (EZ : Some z2' = Some z2) by (etransitivity; [symmetry; exact E2'|exact E2]). injection EZ as ->.
  destruct (Steps_inv _ _ I1 S2) as [I2 [F2 _]]. pose proof K2' as [Q1 [Q2 [Q3 [Q4 Q5]]]].
  destruct (row_op_end_w fo en_e z2 s1 kappa (kappa + 1) I2) as [s2 [E3 [D3 V3]]]; try lia.
  { apply (FDims_ext fo z1); auto. }
  destruct (row_op_end_ok fo en_e (qc_laws _) z1 z2 s1 kappa (kappa + 1) F1 I2 F2 K2' G2) as [s2' [E3' FF2]]; [lia| |].
  { intros a Ha Hne. apply R2; auto; lia. }
  assert (s2' = s2) as -> by congruence.
  match goal with |- context [obind ?A _] => replace A with (Some s2) by (symmetry; exact E3) end. cbn [obind].
  destruct (babai_done f 1 LONG_MAX (set_zs (set_zs st z1 s1) z2 s2) kappa sre srs) as [st' [E B]]; cbn [lz ls set_zs]; auto.
  - eapply XP_flags; eauto.
  - split; [lia|]. split; [lia|]. split; [intros; lia|]. split; [lia|]. rewrite Q4, Q2, K1c. auto.
  - intros j Hj. rewrite V3 by lia. rewrite W1 by lia. auto.
  - intros j Hj. destruct F2 as [-> _]. rewrite (qR_same (gc z1) (gb z1)) by (auto; intros a Ha; apply R2; lia). auto.
  - intros j Hj. rewrite C2 in *. replace j with (srs + (j - srs)) by lia. eapply Qcle_trans; [apply M2; lia|]. auto.
  - exists st'. split; [exact E|]. split.
    + rewrite B. cbn [lz set_zs]. destruct Fl1 as [Fc _]. rewrite <- B1, <- Fc. exact RC.
    + intros HM. exfalso. assert (X : true = false) by (apply Hn; intros j Hj; rewrite EM; apply HM; lia). discriminate X.
Qed.

(** ** early reduction *)
(** the lengths of the orthogonalisation and the potential are kept *)
Definition keeps (c : nat) (B B' : list (list Z)) : Prop :=
  forall d, d <= length B -> all_pos c B d -> all_pos c B' d /\ potential c B' d = potential c B d.
Lemma keeps_refl c B : keeps c B B. Proof. intros d Hd HA. auto. Qed.
Lemma keeps_trans c B B' B'' : length B' = length B -> keeps c B B' -> keeps c B' B'' -> keeps c B B''.
Proof. intros L H1 H2 d Hd HA. destruct (H1 d Hd HA) as [A1 A2]. destruct (H2 d ltac:(lia) A1) as [A3 A4]. split; auto. congruence. Qed.
Lemma keeps_row c B B' kappa : row_changed c B B' kappa -> keeps c B B'.
Proof. intros H d Hd HA. split; [eapply row_changed_pos; eauto|eapply row_changed_pot; eauto]. Qed.

Lemma eta_0 : (0 <= p_eta P)%Qc.
Proof. eapply Qcle_trans; [|exact Heta]. discriminate. Qed.

Lemma early_loop_t fuel start srs : 2 <= fuel -> srs <= start -> forall cnt (st : lst) i, FI (lz st) (ls st) -> XP (lz st) -> locked (lz st) = true -> en_g (lz st) = false ->
  1 <= start <= i -> start <= nsr (lz st) -> i <= nkr (lz st) -> i + cnt = gd (lz st) ->
  (forall j, j < start -> j < vc (ls st) j) -> (forall j, j < start -> (0 < RR (lz st) j j)%Qc) ->
  exists st', early_loop lo P fuel cnt st i start srs = Some (st', OTrue) /\ keeps (gc (lz st)) (gb (lz st)) (gb (lz st')) /\ lsw st' = lsw st.
Proof.
  intros Hf Hs0. induction cnt as [|cnt IH]; intros st i HF HXP HL HG Hs Hn Hk Hc HV HP; cbn [early_loop].
  - exists st. split; auto. split; auto. apply keeps_refl.
  - assert (HPre : babai_pre (lz st) i start).
    { split; [lia|]. split; [lia|]. split; [rewrite HG; intros; apply andb_false_r|]. split; [lia|auto]. }
    destruct (babai_x rnd si ze expo P fuel st i start srs HF HXP HPre HV) as [st1 [o [E [F1 [T1 [Fl1 [G1 [K1 [R1 [V1 [_ Z1]]]]]]]]]]].
    destruct (babai_t fuel st i start srs Hf HF HXP HPre Hs0 HV HP) as [st1' [E' [RC _]]].
    assert (EZ : Some (st1, o) = Some (st1', OTrue)) by (etransitivity; [symmetry; exact E|exact E']). injection EZ as -> ->.
    rewrite E'. cbn [obind fst snd].
    destruct (K1 eq_refl) as [[Ka [Kb Kc]] Kv]. rewrite HL, orb_true_r in Kb.
    destruct (IH st1' (S i)) as [st' [E2 [K2 W2]]]; auto; try lia.
    { eapply XP_flags; eauto. } { congruence. } { destruct Fl1 as [? [? ?]]. congruence. }
    { intros j Hj. rewrite V1 by lia. auto. }
    { intros j Hj. destruct Fl1 as [-> _]. rewrite (qR_same (gc (lz st)) (gb (lz st))) by (auto; intros a Ha; apply R1; lia). auto. }
    exists st'. split; [exact E2|]. split; [|destruct T1 as [? [? [? ?]]]; congruence]. eapply keeps_trans; [exact G1|eapply keeps_row; exact RC|]. destruct Fl1 as [<- _]. exact K2.
Qed.

Lemma early_reduction_t fuel (st : lst) start srs : 2 <= fuel -> srs <= start -> FI (lz st) (ls st) -> XP (lz st) -> locked (lz st) = false -> en_g (lz st) = false ->
  1 <= start -> start <= nkr (lz st) -> (forall j, j < start -> j < vc (ls st) j) -> (forall j, j < start -> (0 < RR (lz st) j j)%Qc) ->
  exists st', early_reduction lo P fuel st start srs = Some (st', OTrue) /\ keeps (gc (lz st)) (gb (lz st)) (gb (lz st')) /\ lsw st' = lsw st.
Proof.
  intros Hf Hs0 HF HXP HL HG Hs Hk HV HP. unfold early_reduction. cbv zeta.
  pose proof (F_inv _ _ _ _ HF) as HI. destruct (I_known _ HI) as [K1 [K2 K3]].
  pose proof (lock_FInv fo en_e (lz st) (ls st) HF HG) as FL.
  destruct (early_loop_t fuel start srs Hf Hs0 (gd (lz st) - start) (set_zs st (lock_cols (lz st)) (ls st)) start) as [st1 [E [K W]]]; auto; try lia.
  { cbn [lz set_zs lock_cols set_known nsr]. rewrite (I_unl _ HI HL). auto. }
  { cbn [lz set_zs]. change (gd (lock_cols (lz st))) with (gd (lz st)). lia. }
  rewrite E. cbn [obind fst snd]. cbn [lz ls set_zs] in *. eexists. split; [reflexivity|]. split; [exact K|exact W].
Qed.

(** ** one iteration *)
Hypothesis Hthr : p_thr P = (if p_siegel P then p_delta P - p_eta P * p_eta P else p_delta P)%Qc.
Hypothesis Hdelta : (p_eta P * p_eta P < p_delta P)%Qc.
Notation LI := (LI rnd si ze expo P).

(** the insertion index was passed over because the Lovasz condition fails there *)
Lemma ins_loop_t z s lt kappa kmin : FI z s -> XP z -> kappa < nkr z -> length lt = S kappa ->
  (forall i, i <= kappa -> nth_error lt i = Some (PP z kappa i * (sc z kappa * sc z kappa))%Qc) ->
  (forall j, j < kappa -> j < vc s j) ->
  forall k k', k < kappa -> ins_loop lo P s lt kappa kmin k = Some k' ->
    forall i, k' < i <= k -> (PP z kappa (tidx lo P i) <= p_thr P * RR z (i - 1) (i - 1))%Qc.
Proof.
  intros HF HXP Hka Hl Hlt HV. destruct (I_known _ (F_inv _ _ _ _ HF)) as [K1 [K2 K3]].
  induction k as [|k IH]; intros k' Hk E i Hi; cbn [ins_loop] in E.
  - lia.
  - destruct (Nat.leb_spec (S k) kmin). { injection E as <-. lia. }
    rewrite (scaled_r_x rnd si ze expo P z s (S k) kappa) in E by (auto; try lia; apply HV; lia). cbn [obind] in E.
    pose proof (tidx_le lo P (S k)). rewrite Hlt in E by lia. cbn [obind l_lt lq_ops] in E.
    destruct (qltb _ _) eqn:EB. { injection E as <-. lia. }
    destruct (Nat.eq_dec i (S k)) as [->|N]; [|apply (IH k'); auto; lia].
    apply qltb_ge in EB. eapply cancel_le; [|exact EB]. apply sc_pos.
Qed.

(** the failing condition bounds the projected row, also with Siegel's condition *)
Lemma fail_lovasz z kappa i : 1 <= i <= kappa -> (0 <= RR z (i - 1) (i - 1))%Qc -> (qabs (MM z kappa (i - 1)) <= p_eta P)%Qc ->
  (PP z kappa (tidx lo P i) <= p_thr P * RR z (i - 1) (i - 1))%Qc -> (PP z kappa (i - 1) <= p_delta P * RR z (i - 1) (i - 1))%Qc.
Proof.
  intros Hi HR HM HT. apply sq_bound in HM. unfold tidx in HT. rewrite Hthr in HT. destruct (p_siegel P); [|exact HT].
  pose proof (qproj_S (gc z) (gb z) kappa (i - 1) ltac:(lia)) as X. replace (S (i - 1)) with i in X by lia. rewrite X in HT. clear X.
  set (m := MM z kappa (i - 1)) in *. set (r := RR z (i - 1) (i - 1)) in *. set (p := PP z kappa (i - 1)) in *. set (e := p_eta P) in *. set (d := p_delta P) in *.
  clearbody m r p e d. clear - HR HM HT. set (mm := (m * m)%Qc) in *. set (ee := (e * e)%Qc) in *.
  replace (p - m * m * r)%Qc with (p - mm * r)%Qc in HT by (unfold mm; ring). clearbody mm ee. qcnra.
Qed.

Lemma inserted_of z z2 kappa k : k < kappa -> kappa < gd z -> gd z2 = gd z ->
  (forall a, a < gd z -> nth a (gb z2) [] = nth (rot_right_idx k kappa a) (gb z) []) -> inserted (gb z) (gb z2) kappa k.
Proof.
  intros Hk Hka G RM. unfold inserted. repeat split; intros; rewrite RM by (unfold gd in *; lia); unfold rot_right_idx; gs; f_equal; lia.
Qed.

(** the basis after one pass of the loop for row kappa: babai, then either the next row or an insertion *)
Definition iter_rel (c : nat) (B B' : list (list Z)) (kappa kappa' srs : nat) : Prop :=
  exists B1, length B1 = length B /\ row_changed c B B1 kappa /\
    ((forall j, srs <= j < kappa -> (qabs (qM c B kappa j) <= p_eta P)%Qc) -> B1 = B) /\
    ((kappa' = S kappa /\ B' = B1) \/
     (exists k, k < kappa /\ kappa' = S k /\ length B' = length B1 /\ inserted B1 B' kappa k /\
        (qproj c B1 kappa (tidx lo P kappa) < p_thr P * qR c B1 (kappa - 1) (kappa - 1))%Qc /\
        (forall i, k <= i < kappa -> (qproj c B1 kappa i <= p_delta P * qR c B1 i i)%Qc))).

Lemma lll_iter_t fuel (st : lst) kappa kmin kend srs : 2 <= fuel -> LI st kappa kmin srs kend -> srs <= kmin -> kappa < kend -> lzeros st = 0 ->
  all_pos (gc (lz st)) (gb (lz st)) kend ->
  exists st' kappa', lll_iter lo P fuel st kappa kmin kend srs = Some (st', OTrue, kappa') /\ lzeros st' = 0 /\
    all_pos (gc (lz st')) (gb (lz st')) kend /\
    iter_rel (gc (lz st)) (gb (lz st)) (gb (lz st')) kappa kappa' srs /\
    ((kappa' = S kappa /\ lsw st' = lsw st /\ potential (gc (lz st')) (gb (lz st')) kend = potential (gc (lz st)) (gb (lz st)) kend) \/
     (exists k, k < kappa /\ kappa' = S k /\ lsw st' = S (lsw st) /\
       (potential (gc (lz st')) (gb (lz st')) kend <= p_delta P ^ (kappa - k) * potential (gc (lz st)) (gb (lz st)) kend)%Qc)).
Proof.
  intros Hf HL Hsrs Hz Hz0 HA. destruct (L_k _ _ _ _ _ _ _ _ _ _ HL) as [Hm Hk]. pose proof (L_e _ _ _ _ _ _ _ _ _ _ HL) as He. pose proof (L_l _ _ _ _ _ _ _ _ _ _ HL) as HLk.
  pose proof (L_x _ _ _ _ _ _ _ _ _ _ HL) as HXP. pose proof (L_f _ _ _ _ _ _ _ _ _ _ HL) as HF. pose proof (L_v _ _ _ _ _ _ _ _ _ _ HL) as HV. pose proof (L_pos _ _ _ _ _ _ _ _ _ _ HL) as HPo.
  unfold lll_iter.
  assert (HPre : babai_pre (lz st) kappa kappa).
  { split; [lia|]. split; [lia|]. split; [rewrite HLk; auto|]. split; [lia|congruence]. }
  destruct (babai_x rnd si ze expo P fuel st kappa kappa srs HF HXP HPre HV) as [st1 [o [E [F1 [T1 [Fl1 [G1 [K1 [R1 [V1 [M1 Z1]]]]]]]]]]].
  destruct (babai_t fuel st kappa kappa srs Hf HF HXP HPre ltac:(lia) HV HPo) as [st1' [E' [RC BS]]].
  assert (EZ : Some (st1, o) = Some (st1', OTrue)) by (etransitivity; [symmetry; exact E|exact E']). injection EZ as -> ->. clear E. rename st1' into st1.
  rewrite E'. cbn [obind fst snd]. cbv zeta.
  destruct (K1 eq_refl) as [[Ka [Kb Kc]] Kv]. destruct T1 as [T1 [T2 [T3 T4]]]. specialize (M1 eq_refl).
  assert (HX1 : XP (lz st1)) by (eapply XP_flags; eauto).
  destruct (LI_rows rnd si ze expo P st kappa kappa kmin srs kend (lz st1) (ls st1) HL) as [A1 [A2 [A3 A4]]]; auto.
  { intros a Ha. apply R1; lia. }
  assert (HC1 : gc (lz st1) = gc (lz st)) by apply Fl1.
  assert (HA1 : all_pos (gc (lz st1)) (gb (lz st1)) kend). { rewrite HC1. eapply row_changed_pos; eauto. }
  assert (HP1 : potential (gc (lz st1)) (gb (lz st1)) kend = potential (gc (lz st)) (gb (lz st)) kend). { rewrite HC1. eapply row_changed_pot; eauto. }
  clear Z1 R1 V1.
  pose proof (F_inv _ _ _ _ F1) as I1. destruct (I_known _ I1) as [N1 [N2 N3]].
  assert (HL1 : locked (lz st1) = false) by congruence.
  assert (Hsr : nsr (lz st1) = nkr (lz st1)) by (apply I_unl; auto).
  destruct (lovasz_tests_x rnd si ze expo P (lz st1) (ls st1) kappa F1 HX1) as [lt [g' [El [F2 [Ll Hlt]]]]]; try lia; [exact Kv|].
  match goal with |- context [obind ?A _] => replace A with (Some (lt, set_gf fo (ls st1) g')) by (symmetry; exact El) end.
  cbn [obind]. set (s1 := set_gf fo (ls st1) g') in *.
  assert (Vs : forall j, vc s1 j = vc (ls st1) j) by reflexivity.
  pose proof (scaled_r_x rnd si ze expo P (lz st1) s1 kappa kappa F2 HX1 ltac:(lia) ltac:(lia) ltac:(apply A1; lia) ltac:(lia)) as Et.
  match goal with |- context [obind ?A _] => match type of Et with _ = ?r => replace A with r by (symmetry; exact Et) end end. cbn [obind].
  pose proof (tidx_le lo P kappa).
  match goal with |- context [obind ?A _] => replace A with (Some (PP (lz st1) kappa (tidx lo P kappa) * (sc (lz st1) kappa * sc (lz st1) kappa))%Qc) by (symmetry; apply Hlt; lia) end. cbn [obind].
  cbn [l_gt lq_ops].
  assert (C1 : vc s1 kappa = kappa \/ vc s1 kappa = S kappa).
  { destruct (F_co _ _ _ _ F2 kappa) as [X _]; [lia|]. rewrite Vs in *. lia. }
  destruct (qltb _ _) eqn:EB.
  - apply qltb_lt in EB. assert (HT : (PP (lz st1) kappa (tidx lo P kappa) <= p_thr P * RR (lz st1) (kappa - 1) (kappa - 1))%Qc).
    { apply Qclt_le_weak. eapply cancel_lt; [|exact EB]. apply sc_pos. }
    assert (HTs : (PP (lz st1) kappa (tidx lo P kappa) < p_thr P * RR (lz st1) (kappa - 1) (kappa - 1))%Qc).
    { eapply cancel_lt; [|exact EB]. apply sc_pos. }
    cbn [lz ls set_sw set_zs lsw lzeros].
    destruct (ins_loop_x rnd si ze expo P (lz st1) s1 lt kappa kmin F2 HX1) with (k := kappa - 1) as [k [Ek [Hk' Hins]]]; auto; try lia.
    pose proof (ins_loop_t (lz st1) s1 lt kappa kmin F2 HX1 ltac:(lia) Ll Hlt A1 (kappa - 1) k ltac:(lia) Ek) as HT2.
    match goal with |- context [obind ?A _] => replace A with (Some k) by (symmetry; exact Ek) end. cbn [obind].
    match goal with |- context [obind ?A _] => replace A with (Some (PP (lz st1) kappa k * (sc (lz st1) kappa * sc (lz st1) kappa))%Qc) by (symmetry; apply Hlt; lia) end. cbn [obind].
    cbn [l_pos lq_ops].
    assert (HPk : (0 < PP (lz st1) kappa k)%Qc).
    { apply Qclt_le_trans with (RR (lz st1) kappa kappa); [apply HA1; lia|]. rewrite <- qproj_diag. apply qproj_le; lia. }
    destruct (qltb _ _) eqn:EP.
    2:{ exfalso. apply qltb_ge in EP. apply (Qcle_not_lt (PP (lz st1) kappa k) 0); [|exact HPk].
        apply (cancel_le _ _ (sc (lz st1) kappa)); [apply sc_pos|]. replace (0 * (sc (lz st1) kappa * sc (lz st1) kappa))%Qc with 0%Qc by ring. exact EP. }
    assert (LM : legal (lz st1) (OMove kappa k)) by (cbn [legal]; split; auto; split; [lia|]; split; lia).
    destruct (fmove_ok fo en_e (qc_laws _) (lz st1) s1 kappa k F2 LM) as [z2 [s2 [E2 [F3 M2]]]].
    match goal with |- context [obind ?A _] => replace A with (Some (z2, s2)) by (symmetry; exact E2) end. cbn [obind fst snd].
    destruct (move_known _ _ _ _ M2) as [Fl2 Kn]. pose proof (move_rows _ _ _ _ I1 LM M2) as RM.
    destruct (fmove_vc fo en_e _ _ _ _ _ _ (F_dims _ _ _ _ F2) I1 LM E2) as [VM1 VM2].
    assert (Hn : nkr z2 = nkr (lz st1)). { rewrite Kn. destruct (Nat.ltb_spec kappa k); [lia|]. rewrite andb_false_r. auto. }
    assert (G2 : gd z2 = gd (lz st1)). { destruct (move_row_ok _ _ _ I1 LM) as [z3 [ef [X1 [_ [_ [_ [X2 _]]]]]]]. assert (z3 = z2) by congruence. subst z3. apply X2. }
    assert (L2 : locked z2 = false) by (rewrite (move_locked _ _ _ _ M2); auto).
    assert (Hs2 : nsr z2 = nkr z2) by (apply (I_unl _ (F_inv _ _ _ _ F3)); auto).
    assert (HX2 : XP z2) by (eapply XP_flags; eauto).
    rewrite (proj2 (Nat.ltb_lt k kappa)) in RM by lia.
    pose proof (inserted_of (lz st1) z2 kappa k ltac:(lia) ltac:(lia) G2 RM) as HIN.
    assert (RS : rows_same (lz st1) z2 k). { intros a Ha. rewrite RM by lia. unfold rot_right_idx. gs. }
    assert (RK : nth k (gb z2) [] = nth kappa (gb (lz st1)) []). { rewrite RM by lia. unfold rot_right_idx. gs. }
    assert (VK : vc s2 k = k) by (rewrite VM2 by lia; lia).
    assert (HRk : RR z2 k k = PP (lz st1) kappa k). { destruct Fl2 as [-> _]. apply qR_proj; auto. }
    destruct (set_r_x rnd si ze expo P z2 s2 k (PP (lz st1) kappa k * (sc (lz st1) kappa * sc (lz st1) kappa))%Qc F3) as [s3 [E3 [F4 [V3 V4]]]]; try lia.
    { destruct (ref_q rnd si ze expo P z2 k k (F_inv _ _ _ _ F3) HX2) as [X _]; try lia. rewrite X. rewrite HRk. unfold LllExact.sc. rewrite RK. change (F fo) with Qc. ring. }
    match goal with |- context [obind ?A _] => replace A with (Some s3) by (symmetry; exact E3) end. cbn [obind].
    eexists; eexists. split; [reflexivity|]. cbn [lz ls set_zs set_sw lzeros]. split; [congruence|].
    assert (HC2 : gc z2 = gc (lz st1)) by apply Fl2. rewrite HC2.
    split. { eapply inserted_pos; [exact HIN|lia|lia| |exact HA1]. unfold gd in *. lia. }
    assert (HFL : forall i, k < i <= kappa -> (PP (lz st1) kappa (i - 1) <= p_delta P * RR (lz st1) (i - 1) (i - 1))%Qc).
    { intros i Hi. apply fail_lovasz; [lia| | |].
      * apply Qclt_le_weak. apply A2. lia.
      * apply M1. lia.
      * destruct (Nat.eq_dec i kappa) as [->|N]; [exact HT|]. apply HT2. lia. }
    split.
    { exists (gb (lz st1)). split; [unfold gd in *; auto|]. split; [exact RC|]. split; [exact BS|]. right. exists k. split; [lia|]. split; auto.
      split; [unfold gd in *; auto|]. rewrite <- HC1. split; [exact HIN|]. split; [exact HTs|]. intros i Hi. specialize (HFL (S i) ltac:(lia)). replace (S i - 1) with i in HFL by lia. exact HFL. }
    right. exists k. split; [lia|]. split; auto. split; [cbn [lsw set_zs set_sw]; congruence|]. rewrite <- HP1.
    eapply inserted_pot; [|exact HIN|lia|lia| |exact HA1|exact HFL].
    + pose proof eta_0 as E0. clear - E0 Hdelta. set (e := p_eta P) in *. set (d := p_delta P) in *. clearbody e d. qcnra.
    + unfold gd in *. lia.
  - apply qltb_ge in EB. 
    match goal with |- context [obind ?A _] => replace A with (Some (PP (lz st1) kappa kappa * (sc (lz st1) kappa * sc (lz st1) kappa))%Qc) by (symmetry; apply Hlt; lia) end. cbn [obind].
    destruct (set_r_x rnd si ze expo P (lz st1) s1 kappa (PP (lz st1) kappa kappa * (sc (lz st1) kappa * sc (lz st1) kappa))%Qc F2) as [s3 [E3 [F4 [V3 V4]]]]; try lia.
    { destruct (ref_q rnd si ze expo P (lz st1) kappa kappa I1 HX1) as [X _]; try lia. rewrite X, qproj_diag. change (F fo) with Qc. ring. }
    match goal with |- context [obind ?A _] => replace A with (Some s3) by (symmetry; exact E3) end. cbn [obind].
    eexists; eexists. split; [reflexivity|]. cbn [lz ls set_zs lzeros]. split; [congruence|]. split; auto. split; auto.
    exists (gb (lz st1)). split; [unfold gd in *; auto|]. split; [exact RC|]. split; [exact BS|]. left. split; reflexivity.
Qed.

(** ** the main loop *)
Lemma lll_finish_t (st : lst) kappa kend : Inv (lz st) -> kend <= kappa + lzeros st ->
  exists st', lll_finish lo st kappa kend = Some (st', OTrue) /\ lzeros st' = lzeros st /\ lsw st' = lsw st /\ lstat st' = RED_SUCCESS.
Proof.
  intros HI Hk. unfold lll_finish.
  assert (exists z', (if en_g (lz st) then symmetrize_g (lz st) else Some (lz st)) = Some z') as [z' E1].
  { destruct (en_g (lz st)) eqn:EG; [|eauto]. destruct (symmetrize_ok (lz st) HI EG) as [z' [E1 _]]. eauto. }
  rewrite E1. cbn [obind]. cbv zeta. destruct (Nat.ltb_spec (kappa + lzeros st) kend); [lia|]. eexists. split; [reflexivity|]. repeat split.
Qed.

Lemma pow_pos (x : Qc) n : (0 < x)%Qc -> (0 < x ^ n)%Qc.
Proof. intros H. induction n as [|n IH]; cbn [Qcpower]; [reflexivity|]. set (a := (x ^ n)%Qc) in *. clearbody a. qcnra. Qed.
Lemma pow_le1 (x : Qc) n : (0 < x)%Qc -> (x <= 1)%Qc -> (x ^ n <= 1)%Qc.
Proof. intros H H1. induction n as [|n IH]; cbn [Qcpower]; [apply Qcle_refl|]. pose proof (pow_pos x n H). set (a := (x ^ n)%Qc) in *. clearbody a. qcnra. Qed.

(** a drop of the potential by a factor delta^t uses up t of the m available steps *)
Lemma drop_count (delta p p' : Qc) t m : (0 < delta)%Qc -> (delta < 1)%Qc -> (1 <= p')%Qc -> (p' <= delta ^ t * p)%Qc -> (p * delta ^ (S m) < 1)%Qc ->
  t <= m /\ (p' * delta ^ (S (m - t)) < 1)%Qc.
Proof.
  intros H0 H1 Hp Hd Hm. assert (Ht : t <= m).
  { destruct (Nat.le_gt_cases t m) as [|X]; auto. exfalso. replace t with ((t - S m) + S m) in Hd by lia. rewrite Qcpower_add in Hd.
    pose proof (pow_le1 delta (t - S m) H0 ltac:(apply Qclt_le_weak; auto)) as A. pose proof (pow_pos delta (t - S m) H0) as A2. pose proof (pow_pos delta (S m) H0) as A3.
    set (a := (delta ^ (t - S m))%Qc) in *. set (b := (delta ^ S m)%Qc) in *. clearbody a b.
    assert (B : (p' <= a * (p * b))%Qc) by (eapply Qcle_trans; [exact Hd|]; replace (a * b * p)%Qc with (a * (p * b))%Qc by ring; apply Qcle_refl).
    set (q := (p * b)%Qc) in *. clearbody q. clear Hd. assert (0 < a * q)%Qc by (eapply Qclt_le_trans; [|eapply Qcle_trans; [exact Hp|exact B]]; reflexivity). qcnra. }
  split; auto. eapply Qcle_lt_trans; [|exact Hm]. replace (S m) with (t + S (m - t)) by lia. rewrite Qcpower_add.
  pose proof (pow_pos delta (S (m - t)) H0) as A3. set (b := (delta ^ S (m - t))%Qc) in *. set (x := (delta ^ t)%Qc) in *. clearbody b x.
  replace (p * (x * b))%Qc with ((x * p) * b)%Qc by ring. set (y := (x * p)%Qc) in *. clearbody y. qcnra.
Qed.

Hypothesis Hd1 : (p_delta P < 1)%Qc.

Lemma delta_pos : (0 < p_delta P)%Qc.
Proof. pose proof eta_0 as E0. set (e := p_eta P) in *. set (d := p_delta P) in *. clearbody e d. qcnra. Qed.

Lemma lll_loop_t fuel kmin kend srs : 2 <= fuel -> srs <= kmin -> forall n m (st : lst) kappa kmax, LI st kappa kmin srs kend ->
  (p_early P = true -> en_g (lz st) = false) -> lzeros st = 0 -> all_pos (gc (lz st)) (gb (lz st)) kend ->
  (potential (gc (lz st)) (gb (lz st)) kend * p_delta P ^ (S m) < 1)%Qc -> (kend - kappa) + m <= n ->
  exists st', lll_loop lo P fuel n st kappa kmax kmin kend srs = Some (st', OTrue) /\ lzeros st' = 0 /\ lsw st' <= lsw st + m /\ lstat st' = RED_SUCCESS.
Proof.
  intros Hf Hsrs. induction n as [|n IH]; intros m st kappa kmax HL HE HZ HA HP Hn; cbn [lll_loop].
  - destruct (lll_finish_t st kappa kend) as [st' [E [Z [W S']]]]; [apply (L_f _ _ _ _ _ _ _ _ _ _ HL)|lia|]. exists st'. split; auto. split; [lia|]. split; [lia|auto].
  - destruct (Nat.ltb_spec (kappa + lzeros st) kend) as [HB|HB].
    2:{ destruct (lll_finish_t st kappa kend) as [st' [E [Z [W S']]]]; [apply (L_f _ _ _ _ _ _ _ _ _ _ HL)|lia|]. exists st'. split; auto. split; [lia|]. split; [lia|auto]. }
    match goal with |- context [obind ?A _] => assert (HEA : exists st1, A = Some (st1, OTrue) /\ LI st1 kappa kmin srs kend /\
      (p_early P = true -> en_g (lz st1) = false) /\ lzeros st1 = 0 /\ lsw st1 = lsw st /\ all_pos (gc (lz st1)) (gb (lz st1)) kend /\
      potential (gc (lz st1)) (gb (lz st1)) kend = potential (gc (lz st)) (gb (lz st)) kend) end.
    { destruct (_ && _) eqn:EE.
      - apply andb_prop in EE. destruct EE as [EE _]. apply andb_prop in EE. destruct EE as [EE _]. apply andb_prop in EE. destruct EE as [_ EE].
        destruct (L_k _ _ _ _ _ _ _ _ _ _ HL) as [Hm Hk]. pose proof (L_e _ _ _ _ _ _ _ _ _ _ HL) as He.
        destruct (early_reduction_x rnd si ze expo P eta_0 fuel st kappa srs (L_f _ _ _ _ _ _ _ _ _ _ HL) (L_x _ _ _ _ _ _ _ _ _ _ HL) (L_l _ _ _ _ _ _ _ _ _ _ HL) (HE EE)) as [st1 [o1 [E1 P1]]]; try lia.
        { apply (L_v _ _ _ _ _ _ _ _ _ _ HL). }
        destruct (early_reduction_t fuel st kappa srs Hf ltac:(lia) (L_f _ _ _ _ _ _ _ _ _ _ HL) (L_x _ _ _ _ _ _ _ _ _ _ HL) (L_l _ _ _ _ _ _ _ _ _ _ HL) (HE EE)) as [st1' [E1' [KP W1]]]; try lia.
        { apply (L_v _ _ _ _ _ _ _ _ _ _ HL). }
        { apply (L_pos _ _ _ _ _ _ _ _ _ _ HL). }
        assert (EZ : Some (st1, o1) = Some (st1', OTrue)) by (etransitivity; [symmetry; exact E1|exact E1']). injection EZ as -> ->. clear E1. rename st1' into st1.
        exists st1. split; auto. destruct (P1 eq_refl) as [F1 [Fl1 [G1 [Z1 [L1 [N1 [R1 [V1 ZZ]]]]]]]].
        assert (HC : gc (lz st1) = gc (lz st)) by apply Fl1. destruct (KP kend He HA) as [K1 K2].
        split; [|split; [|split; [congruence|split; [auto|rewrite HC; auto]]]].
        + destruct (LI_rows rnd si ze expo P st kappa kappa kmin srs kend (lz st1) (ls st1) HL) as [A1 [A2 [A3 A4]]]; auto.
          constructor; auto; try lia.
          eapply XP_flags; eauto. apply (L_x _ _ _ _ _ _ _ _ _ _ HL).
        + intros X. destruct Fl1 as [_ [FA _]]. rewrite FA. auto.
      - exists st. repeat (split; auto). }
    destruct HEA as [st1 [E1 [HL1 [HE1 [Z1 [W1 [HA1 HP1]]]]]]]. rewrite E1. cbn [obind fst snd].
    destruct (lll_iter_x rnd si ze expo P Hthr Hdelta fuel st1 kappa kmin kend srs HL1 Hsrs) as [st2 [o2 [kappa2 [E2 Q2]]]]; [lia|].
    destruct (lll_iter_t fuel st1 kappa kmin kend srs Hf HL1 Hsrs ltac:(lia) Z1 HA1) as [st2' [kappa2' [E2' [Z2 [HA2 [_ C]]]]]].
    assert (EZ : Some (st2, o2, kappa2) = Some (st2', OTrue, kappa2')) by (etransitivity; [symmetry; exact E2|exact E2']). injection EZ as -> -> ->. clear E2.
    rewrite E2'. cbn [obind]. destruct (Q2 eq_refl) as [HL2 [Fl2 G2]]. rename st2' into st2.
    assert (HE2 : p_early P = true -> en_g (lz st2) = false). { intros X. destruct Fl2 as [_ [FB _]]. rewrite FB. auto. }
    destruct C as [[-> [W2 HP2]]|[k [Hk [-> [W2 HP2]]]]].
    + destruct (IH m st2 (S kappa) (Nat.max kmax kappa)) as [st' [E [Z [W S']]]]; auto; [rewrite HP2, HP1; auto|lia|].
      exists st'. split; auto. split; auto. split; [lia|auto].
    + rewrite HP1 in HP2. destruct (drop_count (p_delta P) _ _ _ m delta_pos Hd1 (all_pos_ge1 _ _ _ HA2) HP2 HP) as [Ht HP3].
      destruct (IH (m - (kappa - k)) st2 (S k) (Nat.max kmax kappa)) as [st' [E [Z [W S']]]]; auto; [lia|].
      exists st'. split; auto. split; auto. split; [lia|auto].
Qed.

Lemma lll_t fuel max_iter m (st : lst) kend : 2 <= fuel -> FI (lz st) (ls st) -> XP (lz st) -> locked (lz st) = false ->
  0 < kend <= gd (lz st) -> (p_early P = true -> en_g (lz st) = false) -> all_pos (gc (lz st)) (gb (lz st)) kend ->
  (potential (gc (lz st)) (gb (lz st)) kend * p_delta P ^ (S m) < 1)%Qc -> kend - 1 + m <= max_iter (gb (lz st)) ->
  exists st', lll lo P fuel max_iter st 0 0 kend 0 = Some (st', OTrue) /\ lzeros st' = 0 /\ lsw st' <= m /\ lstat st' = RED_SUCCESS.
Proof.
  intros Hf HF HXP HL He HE HA HP Hm. unfold lll. cbv zeta. rewrite Nat.sub_0_r.
  assert (HR : (0 < RR (lz st) 0 0)%Qc) by (apply HA; lia).
  assert (E1 : zeros_loop lo P kend (set_fk (set_sw (set_zeros st 0) 0) 0) 0 kend = Some (set_fk (set_sw (set_zeros st 0) 0) 0)).
  { destruct kend as [|k]; [lia|]. cbn [zeros_loop lz set_fk set_sw set_zeros].
    rewrite (nth_error_nth' (gb (lz st)) []) by (unfold gd in He; lia). cbn [obind].
    destruct (nv_is_zero (nth 0 (gb (lz st)) []) 0) eqn:EZ; auto. exfalso.
    rewrite (zrow_R (gc (lz st)) (gb (lz st)) 0 0) in HR; [discriminate| |lia].
    intros k' _. apply (proj1 (nv_is_zero_spec _ 0) EZ). lia. }
  rewrite E1. cbn [obind]. set (st1 := set_fk (set_sw (set_zeros st 0) 0) 0) in *.
  change (lzeros st1) with 0. destruct (Nat.ltb_spec 0 kend) as [_|]; [|lia].
  change (0 <? 0) with false. cbv iota. cbn [obind fst snd]. change (lz st1) with (lz st). change (ls st1) with (ls st).
  pose proof (F_inv _ _ _ _ HF) as HI.
  assert (HLU : flegal fo (lz st, ls st) (FUpdate 0 0)).
  { split; [lia|]. split; [lia|]. split; [intros X; cbn [legal]; split; [lia|]; rewrite HL; auto|]. split; [lia|]. split; [|lia].
    pose proof (I_unl _ HI HL). rewrite HL. cbn [negb]. rewrite andb_true_r. destruct (Nat.eqb_spec 0 (nkr (lz st))); lia. }
  destruct (update_gso_row_ok fo en_e (qc_laws _) (lz st) (ls st) 0 0 HF HLU) as [z2 [s2 [ok [E2 [F2 [Fl2 [B2 [V2 _]]]]]]]].
  destruct (update_gso_row_w fo (lz st) (ls st) 0 0) as [z2' [s2' [ok' [E2' [_ [_ [_ [_ [[Ka [Kb Kc]] [_ [_ [O2 _]]]]]]]]]]]]; auto; try lia; [apply HF|rewrite HL; auto|rewrite HL; discriminate|].
  assert (z2' = z2 /\ s2' = s2 /\ ok' = ok) as [-> [-> ->]] by (rewrite E2 in E2'; injection E2'; auto).
  rewrite (O2 eq_refl) in *. clear O2. specialize (V2 eq_refl).
  match goal with |- context [obind ?A _] => replace A with (Some (z2, s2, true)) by (symmetry; exact E2) end. cbn [obind fst snd].
  assert (HC : gc z2 = gc (lz st)) by apply Fl2.
  assert (LI1 : LI (set_zs st1 z2 s2) 1 0 0 kend).
  { assert (GD : gd z2 = gd (lz st)) by (unfold gd; rewrite B2; auto).
    unfold st1. constructor; cbn [lz ls set_zs lzeros set_fk set_sw set_zeros]; auto; try lia.
    - eapply XP_flags; eauto.
    - congruence.
    - intros j Hj. replace j with 0 by lia. exact V2.
    - intros j Hj. replace j with 0 by lia. rewrite HC, B2. auto. }
  cbn [lz set_zs]. rewrite B2.
  destruct (lll_loop_t fuel 0 kend 0 Hf (le_n 0) (max_iter (gb (lz st))) m (set_zs st1 z2 s2) 1 0 LI1) as [st' [E [Z [W S']]]]; auto; cbn [lz ls set_zs lsw] in *.
  - intros X. destruct Fl2 as [_ [FB _]]. rewrite FB. auto.
  - rewrite HC, B2. auto.
  - rewrite HC, B2. auto.
  - exists st'. split; auto.
Qed.

End T.
