(** C70: LLL in exact arithmetic with exact rounding is totally correct: on
    linearly independent rows it never fails, makes a bounded number of swaps and
    does not reach the iteration limit of lll.cpp:79-80. *)
From Coq Require Import List ZArith QArith Qround Qcanon Qreals Reals Lia Lqa Lra Psatz Arith Bool.
From Verif Require Import Util QcUtil LatticeSpec NumVectModel NumVectProofs MatrixModel MatrixProofs
  GsoModel GsoProofs GsoHistory GsoFModel GsoFSpec GsoFProofs GsoQ GsoWeak PropGso PropGsoF LllModel LllProofs LllQ PropLll
  QGs LllExact LllSpec LllSpecFacts PropLllExact GramDet LatPot LllTotal LllLimitModel.
From Verif Require PropLllLimit DblModel.
From Flocq Require BinarySingleNaN Raux.
Import ListNotations.
Local Open Scope nat_scope.

(** ** rationals as reals *)
Definition qr (x : Qc) : R := Q2R (this x).
Lemma qr_mul x y : qr (x * y)%Qc = (qr x * qr y)%R.
Proof. unfold qr. rewrite <- Q2R_mult. apply Qeq_eqR. apply Qred_correct. Qed.
Lemma qr_z n : qr (Qcz n) = IZR n.
Proof. unfold qr. transitivity (Q2R (inject_Z n)); [apply Qeq_eqR; apply Qred_correct|]. unfold Q2R, inject_Z. cbn. field. Qed.
Lemma qr_lt x y : (qr x < qr y)%R <-> (x < y)%Qc.
Proof. split; [apply Rlt_Qlt|apply Qlt_Rlt]. Qed.
Lemma qr_le x y : (qr x <= qr y)%R <-> (x <= y)%Qc.
Proof. split; [apply Rle_Qle|apply Qle_Rle]. Qed.
Lemma qr_pow x n : qr (x ^ n)%Qc = (qr x ^ n)%R.
Proof. induction n as [|n IH]; cbn [Qcpower pow]; [apply (qr_z 1)|]. rewrite qr_mul, IH. reflexivity. Qed.

Section Total.
Variable rnd : Qc -> Z -> Qc.
Variable si ze : Qc -> Z -> Z * nat.
Variable expo : Qc -> Z.
Notation lo := (lq_ops rnd si ze expo).

(** Any history of the GSO object, any flags: on independent rows lll(0, 0,
    kappa_end) returns true with status RED_SUCCESS, without zero rows, after at
    most m insertions, and the rows are reduced, where m is the bound of the
    classical analysis: N^(d(d-1)/2) < (1/delta)^(m+1), N >= |b_i|^2. *)
Theorem lll_exact_total :
  forall en_e junk delta eta early siegel b c u ui ig fl h z s fuel max_iter kend m N,
    exact_rounding rnd si ze ->
    valid_input b c u ui -> (en_e = true -> ig = false) ->
    reach en_e junk b c u ui ig fl h z s -> locked z = false -> 0 < kend <= length (gb z) ->
    independent c (gb z) kend ->
    (Q2Qc (1 # 2) <= eta)%Qc -> (eta * eta < delta)%Qc -> (delta < 1)%Qc -> 2 <= fuel ->
    (forall i, i < kend -> (znorm2 c (nth i (gb z) []) <= N)%Qc) ->
    (N ^ (kend * (kend - 1) / 2) * delta ^ (m + 1) < 1)%Qc ->
    kend - 1 + m <= max_iter (gb z) ->
    exists st', lll lo (lll_par lo z en_e delta eta early siegel) fuel max_iter (@lst_new lo z s) 0 0 kend 0 = Some (st', OTrue) /\
      lstat st' = RED_SUCCESS /\ lzeros st' = 0 /\ lsw st' <= m /\
      (if siegel then siegel_reduced c (gb (lz st')) kend delta eta else lll_reduced c (gb (lz st')) kend delta eta).
Proof.
  intros en_e junk delta eta early siegel b c u ui ig fl h z s fuel max_iter kend m N HR HV HE HRe HL Hk HI Heta Hd Hd1 Hf HN HM Hm.
  destruct (reach_ok _ _ _ _ _ _ _ _ _ _ _ HV HRe) as [HF [EG EC]].
  set (P := lll_par lo z en_e delta eta early siegel) in *.
  assert (HA : all_pos c (gb z) kend) by (intros j Hj; apply (independent_pos c (gb z) kend); auto).
  assert (HX : XP rnd si ze expo P z). { intros X. rewrite EG. auto. }
  assert (HEa : p_early P = true -> en_g z = false).
  { unfold P, lll_par. cbn [p_early]. intros X. apply andb_prop in X. destruct (en_g z); auto. destruct X; discriminate. }
  assert (E0 : (0 <= eta)%Qc) by (eapply Qcle_trans; [|exact Heta]; discriminate).
  assert (D0 : (0 < delta)%Qc) by (clear - E0 Hd; qcnra).
  assert (N0 : (0 <= N)%Qc).
  { eapply Qcle_trans; [|apply (HN 0); lia]. unfold znorm2. rewrite <- Qcz_0. apply Qcz_le. unfold inner. apply zsum_nonneg. intros. nia. }
  assert (HP : (potential (gc z) (gb z) kend * p_delta P ^ S m < 1)%Qc).
  { rewrite EC. cbn [p_delta P lll_par]. eapply Qcle_lt_trans; [|exact HM].
    replace (kend * (kend - 1) / 2) with (tri kend) by (rewrite <- tri_eq, Nat.mul_comm; symmetry; apply Nat.div_mul; lia).
    replace (m + 1) with (S m) by lia. apply Qcmult_le_compat_r.
    - apply potential_bound; auto. intros i Hi. rewrite gq_z. apply (HN i Hi).
    - apply Qclt_le_weak. apply pow_pos. auto. }
  destruct (lll_t rnd si ze expo P HR Heta eq_refl Hd Hd1 fuel max_iter m (@lst_new lo z s) kend) as [st' [E [Z1 [W1 S1]]]]; auto.
  { cbn [lz lst_new]. rewrite EC. exact HA. }
  exists st'. split; [exact E|]. split; auto. split; auto. split; auto.
  destruct (lll_exact_reduced rnd si ze expo en_e junk delta eta early siegel b c u ui ig fl h z s fuel max_iter kend st' HV HE HRe HL Hk E0 Hd E) as [_ [H _]].
  rewrite Z1, Nat.sub_0_r in H. exact H.
Qed.

(** ** the limit of lll.cpp:79-80 *)
Lemma ln2_bound : (ln 2 <= 3 / 4)%R.
Proof.
  assert (H : (2 <= exp (3 / 4))%R).
  { replace (3 / 4)%R with (/ 8 + (/ 8 + (/ 8 + (/ 8 + (/ 8 + / 8)))))%R by field. rewrite !exp_plus.
    pose proof (exp_ineq1 (/ 8) ltac:(lra)) as E. set (x := exp (/ 8)) in *. assert (9 / 8 <= x)%R by lra. clear E.
    assert (81 / 64 <= x * x)%R by nra. assert (729 / 512 <= x * (x * x))%R by nra. replace (x * (x * (x * (x * (x * x)))))%R with ((x * (x * x)) * (x * (x * x)))%R by ring. nra. }
  rewrite <- (ln_exp (3 / 4)). destruct H as [H|H]; [left; apply ln_increasing; lra|right; rewrite <- H; reflexivity].
Qed.
Lemma ln_pow2 n : ln (2 ^ n) = (INR n * ln 2)%R. Proof. apply ln_pow. lra. Qed.

Lemma limit_suffices (d e M c : nat) (delta : R) : 1 <= d -> 1 <= e -> 1 <= c <= 2 ^ 16 -> (/ 4 < delta < 1)%R ->
  (9 / 10 * iter_limit (Z.of_nat d) (Z.of_nat e) delta - 1 <= INR M)%R ->
  d - 1 <= M /\ ((INR c * 4 ^ e) ^ (d * (d - 1) / 2) * delta ^ (M - (d - 1) + 1) < 1)%R.
Proof.
  intros Hd He Hc [D0 D1] HM. unfold iter_limit in HM.
  rewrite mult_IZR, mult_IZR, !plus_IZR, <- !INR_IZR_INZ in HM.
  assert (HL : (ln delta < 0)%R) by (rewrite <- ln_1; apply ln_increasing; lra).
  assert (HL2 : (- ln delta < 3)%R).
  { pose proof (PropLllLimit.ln_bounds delta ltac:(lra)) as [A _]. assert (/ delta < 4)%R; [|lra]. replace 4%R with (/ / 4)%R by field. apply Rinv_lt_contravar; [nra|lra]. }
  set (L := (- ln delta)%R) in *. assert (EL : ln delta = (- L)%R) by (unfold L; ring). rewrite EL in *.
  assert (HD : (1 <= INR d)%R) by (apply (le_INR 1); auto). assert (HE : (1 <= INR e)%R) by (apply (le_INR 1); auto).
  set (D := INR d) in *. set (E := INR e) in *.
  replace (D - 2 * D * (D + 1) * ((E + 3) / - L))%R with (D + 2 * D * (D + 1) * ((E + 3) / L))%R in HM by (field; lra).
  set (x := ((E + 3) / L)%R) in *. assert (Hx : (x * L = E + 3)%R) by (unfold x; field; lra).
  assert (X0 : (1 < x)%R) by (clear - Hx HL2 HE HL; nra).
  assert (L0 : (0 < L)%R) by lra. clearbody x L.
  assert (HM1 : (D - 1 <= INR M)%R) by nra.
  assert (HM2 : d - 1 <= M). { apply INR_le. rewrite minus_INR by auto. exact HM1. }
  split; auto.
  assert (HMR : (INR (M - (d - 1) + 1) = INR M - D + 2)%R). { rewrite plus_INR, minus_INR, minus_INR by lia. fold D. cbn. ring. }
  set (m1 := M - (d - 1) + 1) in *. clearbody m1.
  assert (HT : (2 * INR (d * (d - 1) / 2) = D * (D - 1))%R).
  { assert (X : 2 * (d * (d - 1) / 2) = d * (d - 1)) by (rewrite <- tri_eq, (Nat.mul_comm 2 (tri d)), Nat.div_mul by lia; lia).
    apply (f_equal INR) in X. rewrite !mult_INR, minus_INR in X by lia. exact X. }
  set (t := d * (d - 1) / 2) in *. clearbody t.
  assert (C1 : (1 <= INR c)%R) by (apply (le_INR 1); lia).
  assert (C0 : (0 < INR c * 4 ^ e)%R) by (apply Rmult_lt_0_compat; [lra|apply pow_lt; lra]).
  assert (LC : (ln (INR c * 4 ^ e) <= 12 + 3 / 2 * E)%R).
  { rewrite ln_mult by (try lra; apply pow_lt; lra). pose proof ln2_bound as L2. apply Rplus_le_compat.
    - apply Rle_trans with (ln (2 ^ 16)%R).
      + assert (INR c <= 2 ^ 16)%R. { replace (2 ^ 16)%R with (INR (2 ^ 16)). { apply le_INR. lia. } rewrite pow_INR. reflexivity. }
        destruct H as [H|H]; [left; apply ln_increasing; lra|right; rewrite H; reflexivity].
      + rewrite ln_pow2. replace (INR 16) with 16%R by (cbn; ring). lra.
    - replace 4%R with (2 ^ 2)%R by ring. rewrite <- pow_mult, ln_pow2, mult_INR. fold E. replace (INR 2) with 2%R by (cbn; ring). nra. }
  rewrite <- exp_0. rewrite <- (exp_ln ((INR c * 4 ^ e) ^ t * delta ^ m1)%R).
  2:{ apply Rmult_lt_0_compat; apply pow_lt; lra. }
  apply exp_increasing. rewrite ln_mult by (apply pow_lt; lra). rewrite !ln_pow by lra. rewrite EL, HMR.
  set (w := ln (INR c * 4 ^ e)) in *. clearbody w.
  assert (T0 : (0 <= INR t)%R) by apply pos_INR.
  assert (S1 : (INR t * w <= INR t * (12 + 3 / 2 * E))%R) by (apply Rmult_le_compat_l; lra).
  assert (S2 : (INR t * (12 + 3 / 2 * E) = D * (D - 1) * (6 + 3 / 4 * E))%R) by (rewrite <- HT; field).
  assert (S3 : ((INR M - D + 2) * L >= (1 - D / 10) * L + 9 / 5 * D * (D + 1) * (E + 3))%R).
  { rewrite <- Hx. assert (INR M - D + 2 >= 1 - D / 10 + 9 / 5 * D * (D + 1) * x)%R by lra. nra. }
  assert (S4 : ((1 - D / 10) * L >= - (3 / 10 * D))%R) by nra.
  assert (S5 : (D * (D + 1) * (9 / 5 * (E + 3) - (6 + 3 / 4 * E)) >= D * (D + 1) * (9 / 20))%R) by (apply Rle_ge, Rmult_le_compat_l; nra).
  nra.
Qed.

(** lll reaches its end before the limit is used up, if max_iter is within 10
    percent (minus one for truncation) of the value of lll.cpp:79-80.  At most
    2^16 columns. *)
Theorem lll_exact_within_limit :
  forall en_e junk delta eta early siegel b c u ui ig fl h z s fuel max_iter kend,
    exact_rounding rnd si ze ->
    valid_input b c u ui -> (en_e = true -> ig = false) ->
    reach en_e junk b c u ui ig fl h z s -> locked z = false -> 0 < kend <= length (gb z) ->
    independent c (gb z) kend -> c <= 2 ^ 16 ->
    (Q2Qc (1 # 2) <= eta)%Qc -> (eta * eta < delta)%Qc -> (delta < 1)%Qc -> 2 <= fuel ->
    (9 / 10 * iter_limit (Z.of_nat kend) (get_max_exp (gb z)) (qr delta) - 1 <= INR (max_iter (gb z)))%R ->
    exists st', lll lo (lll_par lo z en_e delta eta early siegel) fuel max_iter (@lst_new lo z s) 0 0 kend 0 = Some (st', OTrue) /\
      lstat st' = RED_SUCCESS /\ lzeros st' = 0 /\
      (if siegel then siegel_reduced c (gb (lz st')) kend delta eta else lll_reduced c (gb (lz st')) kend delta eta).
Proof.
  intros en_e junk delta eta early siegel b c u ui ig fl h z s fuel max_iter kend HR HV HE HRe HL Hk HI Hc Heta Hd Hd1 Hf HM.
  destruct (reach_ok _ _ _ _ _ _ _ _ _ _ _ HV HRe) as [HF [EG EC]].
  assert (HA : all_pos c (gb z) kend) by (intros j Hj; apply (independent_pos c (gb z) kend); auto).
  destruct (I_b _ (F_inv _ _ _ _ HF)) as [_ RB]. rewrite EC in RB. change (gd z) with (length (gb z)) in RB.
  set (B := gb z) in *. set (e := get_max_exp B) in *.
  (* a non-zero entry *)
  assert (E1 : (1 <= e)%Z /\ 1 <= c).
  { assert (H0 : (0 < qR c B 0 0)%Qc) by (apply HA; lia).
    destruct (existsb (fun x => negb (x =? 0)%Z) (nth 0 B [])) eqn:EX.
    - apply existsb_exists in EX. destruct EX as [x [Ix Nx]]. apply negb_true_iff, Z.eqb_neq in Nx.
      split; [apply (PropLllLimit.get_max_exp_pos B (nth 0 B []) x); auto; apply nth_In; lia|].
      destruct c; [|lia]. pose proof (RB 0 ltac:(lia)) as R0. destruct (nth 0 B []); [destruct Ix|discriminate].
    - exfalso. rewrite (zrow_R c B 0 0) in H0; [discriminate| |lia]. intros k Hkc.
      destruct (Z.eq_dec (nth k (nth 0 B []) 0%Z) 0) as [|N]; auto. exfalso.
      assert (X : existsb (fun x => negb (x =? 0)%Z) (nth 0 B []) = true); [|congruence].
      apply existsb_exists. exists (nth k (nth 0 B []) 0%Z). split; [apply nth_In; rewrite RB; lia|]. apply negb_true_iff, Z.eqb_neq. auto. }
  destruct E1 as [E1 C1].
  assert (D4 : (/ 4 < qr delta < 1)%R).
  { split.
    - replace (/ 4)%R with (qr (Q2Qc (1 # 4))) by (unfold qr; cbn; unfold Q2R; cbn; field). apply qr_lt. eapply Qcle_lt_trans; [|exact Hd].
      assert (X : (Q2Qc (1 # 2) * Q2Qc (1 # 2) <= eta * eta)%Qc).
      { set (hf := Q2Qc (1 # 2)) in *. assert (0 <= hf)%Qc by discriminate. clearbody hf. clear - Heta H. qcnra. }
      replace (Q2Qc (1 # 4)) with (Q2Qc (1 # 2) * Q2Qc (1 # 2))%Qc by reflexivity. exact X.
    - rewrite <- (qr_z 1). apply qr_lt. exact Hd1. }
  destruct (limit_suffices kend (Z.to_nat e) (max_iter B) c (qr delta)) as [M1 M2]; auto; try lia.
  { rewrite Z2Nat.id by lia. exact HM. }
  destruct (lll_exact_total en_e junk delta eta early siegel b c u ui ig fl h z s fuel max_iter kend (max_iter B - (kend - 1)) (Qcz (Z.of_nat c * 4 ^ e)))
    as [st' [E [S1 [Z1 [_ H]]]]]; auto.
  - intros i Hi. unfold znorm2. apply Qcz_le. unfold inner.
    assert (X : forall n, n <= c -> (zsum n (fun k => nth k (nth i B []) 0 * nth k (nth i B []) 0) <= Z.of_nat n * 4 ^ e)%Z).
    { induction n as [|n IHn]; intros Hn; [cbn; lia|]. cbn [zsum]. specialize (IHn ltac:(lia)).
      assert (Y : (Z.abs (nth n (nth i B []) 0%Z) < 2 ^ e)%Z). { apply (PropLllLimit.get_max_exp_bound B (nth i B [])); apply nth_In; [lia|]. rewrite RB; lia. }
      assert (Y2 : (nth n (nth i B []) 0 * nth n (nth i B []) 0 <= 4 ^ e)%Z).
      { change 4%Z with (2 * 2)%Z. rewrite Z.pow_mul_l. nia. }
      lia. }
    apply X. auto.
  - apply qr_lt. change 1%Qc with (Qcz 1). rewrite qr_mul, !qr_pow, !qr_z, mult_IZR, <- INR_IZR_INZ. replace (IZR (4 ^ e)) with (4 ^ Z.to_nat e)%R; [exact M2|].
    rewrite <- (Z2Nat.id e) at 2 by lia. rewrite <- pow_IZR. reflexivity.
  - fold B. lia.
  - exists st'. auto.
Qed.

(** The same with the limit as the machine computes it. *)
Theorem lll_exact_within_computed_limit :
  forall en_e junk delta eta early siegel b c u ui ig fl h z s fuel max_iter kend (lg : DblModel.dbl),
    exact_rounding rnd si ze ->
    valid_input b c u ui -> (en_e = true -> ig = false) ->
    reach en_e junk b c u ui ig fl h z s -> locked z = false -> 0 < kend <= length (gb z) ->
    independent c (gb z) kend -> c <= 2 ^ 16 ->
    (Q2Qc (1 # 2) <= eta)%Qc -> (eta * eta < delta)%Qc -> (delta < 1)%Qc -> 2 <= fuel ->
    (Z.of_nat kend < 32768)%Z -> (get_max_exp (gb z) <= 2 ^ 50)%Z ->
    BinarySingleNaN.is_finite lg = true ->
    (Rabs (BinarySingleNaN.B2R lg - ln (qr delta)) <= / 100 * - ln (qr delta))%R ->
    (iter_limit (Z.of_nat kend) (get_max_exp (gb z)) (qr delta) <= IZR (2 ^ 62))%R ->
    (forall n, iter_limit_dbl lg (Z.of_nat kend) (get_max_exp (gb z)) = Some n -> max_iter (gb z) = Z.to_nat n) ->
    exists st', lll lo (lll_par lo z en_e delta eta early siegel) fuel max_iter (@lst_new lo z s) 0 0 kend 0 = Some (st', OTrue) /\
      lstat st' = RED_SUCCESS /\ lzeros st' = 0 /\
      (if siegel then siegel_reduced c (gb (lz st')) kend delta eta else lll_reduced c (gb (lz st')) kend delta eta).
Proof.
  intros en_e junk delta eta early siegel b c u ui ig fl h z s fuel max_iter kend lg HR HV HE HRe HL Hk HI Hc Heta Hd Hd1 Hf Hk2 He Fl Hlg HU HM.
  apply (lll_exact_within_limit en_e junk delta eta early siegel b c u ui ig fl h z s); auto.
  assert (D8 : (/ 8 < qr delta < 1)%R).
  { split.
    - apply Rlt_trans with (/ 4)%R; [lra|]. replace (/ 4)%R with (qr (Q2Qc (1 # 4))) by (unfold qr; cbn; unfold Q2R; cbn; field). apply qr_lt. eapply Qcle_lt_trans; [|exact Hd].
      assert (X : (Q2Qc (1 # 2) * Q2Qc (1 # 2) <= eta * eta)%Qc).
      { set (hf := Q2Qc (1 # 2)) in *. assert (0 <= hf)%Qc by discriminate. clearbody hf. clear - Heta H. qcnra. }
      replace (Q2Qc (1 # 4)) with (Q2Qc (1 # 2) * Q2Qc (1 # 2))%Qc by reflexivity. exact X.
    - rewrite <- (qr_z 1). apply qr_lt. exact Hd1. }
  pose proof (PropLllLimit.get_max_exp_nonneg (gb z)) as E0.
  destruct (PropLllLimit.iter_limit_computed lg (Z.of_nat kend) (get_max_exp (gb z)) (qr delta)) as [n [En [Bn _]]]; auto; try lia.
  rewrite (HM n En).
  assert (HLP : (0 <= iter_limit (Z.of_nat kend) (get_max_exp (gb z)) (qr delta))%R).
  { unfold iter_limit. assert (HL0 : (ln (qr delta) < 0)%R) by (rewrite <- ln_1; apply ln_increasing; lra).
    assert (0 <= IZR (Z.of_nat kend))%R by (apply IZR_le; lia).
    assert (0 <= IZR (2 * Z.of_nat kend * (Z.of_nat kend + 1)))%R by (apply IZR_le; lia).
    assert (0 <= IZR (get_max_exp (gb z) + 3))%R by (apply IZR_le; lia).
    replace (IZR (get_max_exp (gb z) + 3) / ln (qr delta))%R with (- (IZR (get_max_exp (gb z) + 3) / - ln (qr delta)))%R by (field; lra).
    assert (0 <= IZR (get_max_exp (gb z) + 3) / - ln (qr delta))%R by (apply Rmult_le_pos; [auto|left; apply Rinv_0_lt_compat; lra]). nra. }
  destruct (Z.le_gt_cases 0 n) as [N0|N0].
  - rewrite INR_IZR_INZ, Z2Nat.id by auto. lra.
  - assert (IZR n <= -1)%R by (apply IZR_le; lia). replace (Z.to_nat n) with 0 by lia. cbn [INR]. lra.
Qed.
End Total.

(** ** Witnesses *)
Lemma Qcz_Q n : this (Qcz n) == inject_Z n.
Proof. apply Qred_correct. Qed.
Lemma qexact : exact_rounding qrnd qint qint.
Proof.
  split.
  - intros x e. exists (Qfloor (this (x * pow2 e)%Qc + (1 # 2))).
    split; [unfold qrnd; field; apply pow2_nz|].
    set (y := (x * pow2 e)%Qc). clearbody y.
    pose proof (Qfloor_le (this y + (1 # 2))) as A. pose proof (Qlt_floor (this y + (1 # 2))) as B.
    rewrite inject_Z_plus in B. pose proof (Qcz_Q (Qfloor (this y + (1 # 2)))) as C.
    change (inject_Z 1) with 1%Q in B. set (f := Qfloor (this y + (1 # 2))) in *. clearbody f.
    unfold Qcle, Qcminus, Qcopp, Qcplus. rewrite !this_Q2Qc.
    change (this (Q2Qc (- Q2Qc (1 # 2)))) with (- (1 # 2))%Q. change (this (Q2Qc (1 # 2))) with (1 # 2)%Q. split; Lqa.lra.
  - intros x e X H. unfold qint. cbn [fst snd Z.of_nat]. rewrite H.
    assert (E : Qfloor (this (Qcz X)) = X). { rewrite (Qfloor_comp _ _ (Qcz_Q X)). apply Qfloor_Z. }
    rewrite E, Z.mul_1_r. auto.
Qed.
Lemma exl_indep : independent 5 exl_b 4.
Proof.
  intros x Hx.
  pose proof (Hx 0 ltac:(lia)) as H0. pose proof (Hx 1 ltac:(lia)) as H1. pose proof (Hx 2 ltac:(lia)) as H2. pose proof (Hx 3 ltac:(lia)) as H3. clear Hx.
  cbn [qsum] in *. unfold qrow, ent, exl_b in *. cbn [nth] in *. rewrite Qcz_0, Qcz_1 in *.
  intros i Hi. destruct i as [|[|[|[|i]]]]; [rewrite <- H0|rewrite <- H1|rewrite <- H2|rewrite <- H3|lia]; ring.
Qed.
Lemma ex70_valid : valid_input exl_b 5 [] [].
Proof. constructor; auto; try lia. ex_rect. Qed.
(** the knapsack-type basis with delta = 3/4: at most 310 swaps, whatever the
    flags and the iteration limit above 313 *)
Example ex70_total : forall early siegel en_e (ig := negb en_e), forall mi, 313 <= mi ->
  exists z s st', fgso_new qc_ops en_e 0%Qc exl_b 5 [] [] ig false = Some (z, s) /\ gb z = exl_b /\
    lll lqx (lll_par lqx z en_e (q_of 3 4) (q_of 51 100) early siegel) 2 (fun _ => mi) (@lst_new lqx z s) 0 0 4 0 = Some (st', OTrue) /\
    lsw st' <= 310 /\
    (if siegel then siegel_reduced 5 (gb (lz st')) 4 (q_of 3 4) (q_of 51 100) else lll_reduced 5 (gb (lz st')) 4 (q_of 3 4) (q_of 51 100)).
Proof.
  intros early siegel en_e ig mi Hmi.
  destruct (fgso_new_ok qc_ops en_e 0%Qc exl_b 5 [] [] ig false (qc_laws _) ex70_valid) as [s [E0 HF]].
  exists (gso_new exl_b 5 [] [] ig false), s.
  destruct (lll_exact_total qrnd qint qint qexpo en_e 0%Qc (q_of 3 4) (q_of 51 100) early siegel exl_b 5 [] [] ig false []
     (gso_new exl_b 5 [] [] ig false) s 2 (fun _ => mi) 4 310 (Qcz 1809026)) as [st' [E [_ [_ [W H]]]]].
  - exact qexact.
  - exact ex70_valid.
  - unfold ig. intros ->. reflexivity.
  - exists (gso_new exl_b 5 [] [] ig false, s). split; auto. split; [exact I|reflexivity].
  - reflexivity.
  - cbn. lia.
  - exact exl_indep.
  - apply qltb_ge. reflexivity.
  - apply qltb_lt. reflexivity.
  - apply qltb_lt. reflexivity.
  - lia.
  - intros i Hi. destruct i as [|[|[|[|i]]]]; [apply Qcz_le; cbn; lia..|lia].
  - apply qltb_lt. vm_compute. reflexivity.
  - lia.
  - exists st'. split; [exact E0|]. split; [reflexivity|]. split; [exact E|]. split; [exact W|exact H].
Qed.

(** the machine's limit for the same basis with delta = 0.99 *)
Example ex70_machine : exists z s st', fgso_new qc_ops true 0%Qc exl_b 5 [] [] false false = Some (z, s) /\ gb z = exl_b /\
    lll lqx (lll_par lqx z true (q_of 99 100) (q_of 51 100) true false) 2
      (fun b => match iter_limit_dbl (DblModel.d_of (-41) (-12)) 4 (get_max_exp b) with Some n => Z.to_nat n | None => 0 end)
      (@lst_new lqx z s) 0 0 4 0 = Some (st', OTrue) /\
    lll_reduced 5 (gb (lz st')) 4 (q_of 99 100) (q_of 51 100).
Proof.
  destruct (fgso_new_ok qc_ops true 0%Qc exl_b 5 [] [] false false (qc_laws _) ex70_valid) as [s [E0 HF]].
  exists (gso_new exl_b 5 [] [] false false), s.
  set (mi := fun b => match iter_limit_dbl (DblModel.d_of (-41) (-12)) 4 (get_max_exp b) with Some n => Z.to_nat n | None => 0 end).
  assert (QD : qr (q_of 99 100) = (99 / 100)%R) by (unfold qr; cbn; unfold Q2R; cbn; field).
  destruct PropLllLimit.ex70_lg as [Fl Vl].
  destruct (lll_exact_within_computed_limit qrnd qint qint qexpo true 0%Qc (q_of 99 100) (q_of 51 100) true false exl_b 5 [] [] false false []
     (gso_new exl_b 5 [] [] false false) s 2 mi 4 (DblModel.d_of (-41) (-12))) as [st' [E [_ [_ H]]]].
  - exact qexact.
  - exact ex70_valid.
  - auto.
  - exists (gso_new exl_b 5 [] [] false false, s). split; auto. split; [exact I|reflexivity].
  - reflexivity.
  - cbn. lia.
  - exact exl_indep.
  - apply Nat.le_trans with (2 ^ 3); [cbn; lia|apply Nat.pow_le_mono_r; lia].
  - apply qltb_ge. reflexivity.
  - apply qltb_lt. reflexivity.
  - apply qltb_lt. reflexivity.
  - lia.
  - lia.
  - vm_compute. discriminate.
  - exact Fl.
  - rewrite Vl, QD. exact PropLllLimit.ex70_log.
  - rewrite QD. unfold iter_limit. change (get_max_exp (gb (gso_new exl_b 5 [] [] false false))) with 11%Z.
    pose proof (PropLllLimit.ln_bounds (99 / 100) ltac:(lra)) as B. set (l := ln (99 / 100)) in *.
    change (Z.of_nat 4) with 4%Z. change (2 * 4 * (4 + 1))%Z with 40%Z. change (11 + 3)%Z with 14%Z.
    replace (4 - 40 * (14 / l))%R with (4 + 40 * (14 / - l))%R by (field; lra).
    assert (14 / - l <= 1400)%R. { apply Rmult_le_reg_r with (- l)%R; [lra|]. unfold Rdiv. rewrite Rmult_assoc, Rinv_l by lra. lra. }
    apply Rle_trans with (IZR 100000); [lra|apply IZR_le; lia].
  - intros n En. unfold mi. change (Z.of_nat 4) with 4%Z in En. rewrite En. reflexivity.
  - exists st'. split; [exact E0|]. split; [reflexivity|]. split; [exact E|exact H].
Qed.

(** A limit of 0 (or the negative value an x86 machine returns for the undefined
    conversion of PropLllLimit.iter_limit_overflow_refuted): even the rows of the
    identity matrix are reported as a failure. *)
Theorem lll_no_iterations_refuted :
  exists z s st', fgso_new qc_ops false 0%Qc [[1;0];[0;1]]%Z 2 [] [] false false = Some (z, s) /\
    lll_reduced 2 (gb z) 2 (q_of 99 100) (q_of 51 100) /\
    lll lqx (lll_par lqx z false (q_of 99 100) (q_of 51 100) false false) 50 (fun _ => 0) (@lst_new lqx z s) 0 0 2 0 = Some (st', OFalse) /\
    lstat st' = RED_LLL_FAILURE.
Proof.
  assert (HV : valid_input [[1;0];[0;1]]%Z 2 [] []) by (constructor; auto; ex_rect).
  destruct (fgso_new_ok qc_ops false 0%Qc [[1;0];[0;1]]%Z 2 [] [] false false (qc_laws _) HV) as [s [E0 HF]].
  assert (X : match fgso_new qc_ops false 0%Qc [[1;0];[0;1]]%Z 2 [] [] false false with
     | Some (z, s) => match lll lqx (lll_par lqx z false (q_of 99 100) (q_of 51 100) false false) 50 (fun _ => 0) (@lst_new lqx z s) 0 0 2 0 with
         | Some (st', o) => Some (lstat st', o) | None => None end
     | None => None end = Some (RED_LLL_FAILURE, OFalse)) by (vm_compute; reflexivity).
  rewrite E0 in X.
  match type of X with match ?l with Some _ => _ | None => _ end = _ => destruct l as [[st' o]|] eqn:EL; [|discriminate] end.
  injection X as X1 X2. subst o.
  exists (gso_new [[1;0];[0;1]]%Z 2 [] [] false false), s, st'. split; [exact E0|]. split; [|split; [exact EL|exact X1]].
  change (gb (gso_new [[1;0];[0;1]]%Z 2 [] [] false false)) with [[1;0];[0;1]]%Z.
  apply (ex12_apply [[1;0];[0;1]]%Z 2 false false false false 2 _ 0 0); [ex_rect|lia|auto|cbn; lia|vm_compute; reflexivity].
Qed.

Print Assumptions lll_exact_total.
Print Assumptions lll_exact_within_limit.
Print Assumptions lll_exact_within_computed_limit.
Print Assumptions lll_no_iterations_refuted.
