(** C70 (first part): the iteration limit of LLLReduction::lll as computed in
    machine arithmetic. *)
From Coq Require Import List ZArith Lia Bool Reals Lra Psatz.
From Flocq Require Import Core Relative BinarySingleNaN.
From Verif Require Import DblModel DblProofs LllLimitModel.
Import ListNotations.
Local Open Scope R_scope.

(** ** exponents *)
Lemma mpz_exponent_nonneg x : (0 <= mpz_exponent x)%Z.
Proof. unfold mpz_exponent. destruct (Z.eqb_spec x 0); [lia|]. pose proof (Z.log2_nonneg (Z.abs x)). lia. Qed.
Lemma mpz_exponent_bound x : (Z.abs x < 2 ^ mpz_exponent x)%Z.
Proof.
  unfold mpz_exponent. destruct (Z.eqb_spec x 0) as [->|N]; [reflexivity|].
  destruct (Z.log2_spec (Z.abs x)) as [_ H]; [lia|]. exact H.
Qed.
Lemma mpz_exponent_pos x : x <> 0%Z -> (1 <= mpz_exponent x)%Z.
Proof. intros H. unfold mpz_exponent. destruct (Z.eqb_spec x 0); [lia|]. pose proof (Z.log2_nonneg (Z.abs x)). lia. Qed.

Lemma fold_row_ge row : forall m x, (m <= fold_left (fun m x => Z.max m (mpz_exponent x)) row m)%Z /\
  (In x row -> (mpz_exponent x <= fold_left (fun m x => Z.max m (mpz_exponent x)) row m)%Z).
Proof.
  induction row as [|y row IH]; intros m x; cbn [fold_left]; [split; [lia|intros []]|].
  destruct (IH (Z.max m (mpz_exponent y)) x) as [A B]. split; [lia|]. intros [->|H]; [lia|auto].
Qed.
Lemma fold_mat_ge b : forall m row x, (m <= fold_left (fun m row => fold_left (fun m x => Z.max m (mpz_exponent x)) row m) b m)%Z /\
  (In row b -> In x row -> (mpz_exponent x <= fold_left (fun m row => fold_left (fun m x => Z.max m (mpz_exponent x)) row m) b m)%Z).
Proof.
  induction b as [|r b IH]; intros m row x; cbn [fold_left]; [split; [lia|intros []]|].
  destruct (IH (fold_left (fun m x => Z.max m (mpz_exponent x)) r m) row x) as [A B]. pose proof (fold_row_ge r m x) as [C D].
  split; [lia|]. intros [->|H] Hx; [specialize (D Hx); lia|auto].
Qed.
(** get_max_exp bounds every entry *)
Lemma get_max_exp_bound b row x : In row b -> In x row -> (Z.abs x < 2 ^ get_max_exp b)%Z.
Proof.
  intros H1 H2. pose proof (mpz_exponent_bound x) as A. destruct (fold_mat_ge b 0 row x) as [_ B]. specialize (B H1 H2).
  eapply Z.lt_le_trans; [exact A|]. apply Z.pow_le_mono_r; [lia|exact B].
Qed.
Lemma get_max_exp_pos b row x : In row b -> In x row -> x <> 0%Z -> (1 <= get_max_exp b)%Z.
Proof. intros H1 H2 H3. destruct (fold_mat_ge b 0 row x) as [_ B]. specialize (B H1 H2). pose proof (mpz_exponent_pos x H3). unfold get_max_exp. lia. Qed.
Lemma get_max_exp_nonneg b : (0 <= get_max_exp b)%Z.
Proof. destruct (fold_mat_ge b 0 [] 0%Z) as [A _]. exact A. Qed.

(** ** rounding errors, coarsely *)
Lemma RNx_coarse x : 0 < x -> 999 / 1000 * x <= RNx x <= 1001 / 1000 * x.
Proof.
  intros H. pose proof (RNx_err x) as E.
  assert (P : 0 <= RNx x). { apply round_ge_generic; [typeclasses eauto|typeclasses eauto|apply generic_format_0|lra]. }
  rewrite (Rabs_pos_eq (RNx x)) in E by exact P.
  assert (B : bp (-53) <= / 2000). { change (bp (-53)) with (/ IZR (2 ^ 53)). apply Rinv_le_contravar; [lra|]. apply IZR_le. lia. }
  assert (0 < bp (-53)) by apply bp_pos. apply Rabs_le_inv in E. set (u := bp (-53)) in *. clearbody u. split; nra.
Qed.
Lemma RNx_opp x : RNx (- x) = - RNx x.
Proof. unfold RNx. apply round_NE_opp. Qed.

Lemma int_dbl n : (Z.abs n <= 2 ^ 53)%Z -> is_finite (d_of n 0) = true /\ B2R (d_of n 0) = IZR n.
Proof.
  intros H. destruct (d_of_val n 0) as [F V]; [apply fe_mant; lia| |split; [exact F|rewrite V; change (bp 0) with 1; ring]].
  change (bp 0) with 1. rewrite Rmult_1_r, <- abs_IZR. apply Rle_lt_trans with (IZR (2 ^ 53)); [apply IZR_le; lia|]. change (IZR (2 ^ 53)) with (bp 53). apply bpow_lt. lia.
Qed.

(** the operations on normal operands with results far from overflow *)
Lemma round_normal x : bp (-1000) <= x <= bp 1000 -> round radix2 (SpecFloat.fexp 53 1024) ZnearestE x = RNx x /\ Rabs (RNx x) < bp 1024 /\ 0 < RNx x.
Proof.
  intros [L U]. assert (0 < bp (-1000)) by apply bp_pos. rewrite fexp_eq.
  split; [apply RNx_fe; rewrite Rabs_pos_eq by lra; eapply Rle_trans; [|exact L]; apply bpow_le; lia|].
  pose proof (RNx_coarse x ltac:(lra)) as C. split; [|lra]. rewrite Rabs_pos_eq by lra.
  apply Rle_lt_trans with (2 * bp 1000); [lra|]. change 2 with (bp 1). rewrite <- bp_plus. apply bpow_lt. lia.
Qed.
Lemma div_neg (a l : dbl) : is_finite a = true -> is_finite l = true -> B2R l < 0 -> bp (-1000) <= B2R a / - B2R l <= bp 1000 ->
  is_finite (d_div a l) = true /\ B2R (d_div a l) = - RNx (B2R a / - B2R l).
Proof.
  intros Fa Fl Hl Hq. destruct (round_normal _ Hq) as [A [B _]].
  pose proof (Bdiv_correct 53 1024 _ _ mode_NE a l ltac:(lra)) as H. change (round_mode mode_NE) with ZnearestE in H.
  replace (B2R a / B2R l) with (- (B2R a / - B2R l)) in H by (field; lra).
  assert (E : round radix2 (SpecFloat.fexp 53 1024) ZnearestE (- (B2R a / - B2R l)) = - RNx (B2R a / - B2R l)).
  { rewrite fexp_eq, round_NE_opp. f_equal. exact A. }
  rewrite E, Rabs_Ropp, Rlt_bool_true in H by exact B. destruct H as (V & F & _). split; [unfold d_div; rewrite F; exact Fa|exact V].
Qed.
Lemma mul_neg (a q : dbl) : is_finite a = true -> is_finite q = true -> bp (-1000) <= B2R a * - B2R q <= bp 1000 ->
  is_finite (d_mul a q) = true /\ B2R (d_mul a q) = - RNx (B2R a * - B2R q).
Proof.
  intros Fa Fq Hq. destruct (round_normal _ Hq) as [A [B _]].
  pose proof (Bmult_correct 53 1024 _ _ mode_NE a q) as H. change (round_mode mode_NE) with ZnearestE in H.
  replace (B2R a * B2R q) with (- (B2R a * - B2R q)) in H by ring.
  assert (E : round radix2 (SpecFloat.fexp 53 1024) ZnearestE (- (B2R a * - B2R q)) = - RNx (B2R a * - B2R q)).
  { rewrite fexp_eq, round_NE_opp. f_equal. exact A. }
  rewrite E, Rabs_Ropp, Rlt_bool_true in H by exact B. destruct H as (V & F & _). rewrite Fa, Fq in F. split; [exact F|exact V].
Qed.
Lemma sub_neg (a p : dbl) : is_finite a = true -> is_finite p = true -> bp (-1000) <= B2R a + - B2R p <= bp 1000 ->
  is_finite (d_sub a p) = true /\ B2R (d_sub a p) = RNx (B2R a + - B2R p).
Proof.
  intros Fa Fp Hq. destruct (round_normal _ Hq) as [A [B _]].
  pose proof (Bminus_correct 53 1024 _ _ mode_NE a p Fa Fp) as H. change (round_mode mode_NE) with ZnearestE in H.
  change (B2R a - B2R p) with (B2R a + - B2R p) in H. rewrite A, Rlt_bool_true in H by exact B. destruct H as (V & F & _). split; [exact F|exact V].
Qed.

(** If the result of std::log is within one percent of log(delta) and the limit is
    below 2^62, the machine computes it up to two percent and truncation. *)
Theorem iter_limit_computed : forall (lg : dbl) d e delta,
  (1 <= d < 32768)%Z -> (0 <= e <= 2 ^ 50)%Z -> / 8 < delta < 1 ->
  is_finite lg = true -> Rabs (B2R lg - ln delta) <= / 100 * - ln delta ->
  iter_limit d e delta <= bp 62 ->
  exists n, iter_limit_dbl lg d e = Some n /\ 98 / 100 * iter_limit d e delta - 1 <= IZR n <= 102 / 100 * iter_limit d e delta.
Proof.
  intros lg d e delta Hd He [Hl0 Hl1] Fl Hlog HU. unfold iter_limit_dbl.
  set (n := (2 * d * (d + 1))%Z) in *. assert (Hn : (4 <= n < 2 ^ 31)%Z) by (unfold n; nia).
  rewrite i32_in by lia. cbn [bind]. rewrite i32_in by lia. cbn [bind]. fold n. rewrite i32_in by lia. cbn [bind]. rewrite i64_in by lia. cbn [bind].
  assert (HL : ln delta < 0). { rewrite <- ln_1. apply ln_increasing; lra. }
  unfold iter_limit in *. fold n in HU |- *. set (L := - ln delta) in *. replace (ln delta) with (- L) in * by (unfold L; ring).
  assert (HL2 : L < 3).
  { assert (- 3 < - L); [|lra]. unfold L. rewrite Ropp_involutive. replace (-3) with (ln (exp (-3))) by apply ln_exp. apply ln_increasing; [apply exp_pos|].
    apply Rlt_trans with (/ 8); [|lra]. replace (-3) with (- (3)) by ring. rewrite exp_Ropp. apply Rinv_lt_contravar; [apply Rmult_lt_0_compat; [lra|apply exp_pos]|].
    replace 3 with (1 + (1 + 1)) by ring. rewrite !exp_plus. assert (2 < exp 1) by (pose proof (exp_ineq1 1 ltac:(lra)); lra). nra. }
  assert (L0 : 0 < L) by lra. clearbody L. clear HL Hl0 Hl1 delta.
  apply Rabs_le_inv in Hlog.
  destruct (int_dbl d) as [Fd Vd]; [lia|]. destruct (int_dbl n) as [Fn Vn]; [lia|]. destruct (int_dbl (e + 3)) as [Fs Vs]; [lia|].
  set (s := (e + 3)%Z) in *. assert (Hs : 3 <= IZR s <= bp 51). { split; [apply IZR_le; unfold s; lia|]. change (bp 51) with (IZR (2 ^ 51)). apply IZR_le. unfold s. lia. }
  assert (HN : 4 <= IZR n <= bp 31). { split; [apply IZR_le; lia|]. change (bp 31) with (IZR (2 ^ 31)). apply IZR_le. lia. }
  assert (HD : 1 <= IZR d) by (apply IZR_le; lia).
  set (w := - B2R lg). assert (Hw : 99 / 100 * L <= w <= 101 / 100 * L) by (unfold w; lra). assert (W0 : 0 < w) by nra.
  replace (IZR d - IZR n * (IZR s / - L)) with (IZR d + IZR n * (IZR s / L)) in * by (field; lra).
  set (x := IZR s / L) in *. assert (X0 : 1 < x). { unfold x. apply Rmult_lt_reg_r with L; [lra|]. unfold Rdiv. rewrite Rmult_assoc, Rinv_l by lra. lra. }
  set (q := IZR s / w).
  assert (Hq : 990 / 1000 * x <= q <= 1011 / 1000 * x).
  { unfold q, x. assert (EQ : IZR s / w = IZR s / L * (L / w)) by (field; lra). rewrite EQ. fold x.
    assert (990 / 1000 <= L / w <= 1011 / 1000).
    { split; apply Rmult_le_reg_r with w; auto; unfold Rdiv; rewrite !Rmult_assoc, ?Rinv_l by lra; lra. }
    split; nra. }
  assert (Xub : IZR n * x <= bp 62) by lra.
  assert (B0 : bp (-1000) <= / 2). { change (/ 2) with (bp (-1)). apply bpow_le. lia. }
  assert (B1 : 8 * bp 62 <= bp 1000). { change 8 with (bp 3). rewrite <- bp_plus. apply bpow_le. lia. }
  destruct (div_neg (d_of s 0) lg Fs Fl) as [Fq Vq]; [unfold w in *; lra|rewrite Vs; fold w; fold q; split; nra|]. rewrite Vs in Vq. fold w in Vq. fold q in Vq.
  pose proof (RNx_coarse q ltac:(lra)) as Cq. set (q' := RNx q) in *.
  assert (Hq' : 989 / 1000 * x <= q' <= 1013 / 1000 * x) by lra.
  assert (Hnx : 989 / 1000 * (IZR n * x) <= IZR n * q' <= 1013 / 1000 * (IZR n * x)) by (split; nra).
  destruct (mul_neg (d_of n 0) (d_div (d_of s 0) lg) Fn Fq) as [Fp Vp].
  { rewrite Vn, Vq, Ropp_involutive. split; [|lra]. nra. }
  rewrite Vn, Vq, Ropp_involutive in Vp.
  assert (NX0 : 0 < IZR n * q') by nra. pose proof (RNx_coarse (IZR n * q') NX0) as Cp. set (p := RNx (IZR n * q')) in *.
  destruct (sub_neg (d_of d 0) (d_mul (d_of n 0) (d_div (d_of s 0) lg)) Fd Fp) as [Fv Vv].
  { rewrite Vd, Vp, Ropp_involutive. split; lra. }
  rewrite Vd, Vp, Ropp_involutive in Vv.
  assert (V0 : 0 < IZR d + p) by lra. pose proof (RNx_coarse (IZR d + p) V0) as Cv. set (v := RNx (IZR d + p)) in *.
  set (lim := IZR d + IZR n * x) in *. assert (Hv : 98 / 100 * lim <= v <= 102 / 100 * lim) by (unfold lim; lra).
  assert (V1 : 0 <= v) by lra.
  destruct (to_long_val (d_sub (d_of d 0) (d_mul (d_of n 0) (d_div (d_of s 0) lg))) Fv) as [E _].
  { rewrite Vv, Rabs_pos_eq by lra. change (bp 63) with (IZR (2 * 2 ^ 62)). rewrite mult_IZR. change (IZR (2 ^ 62)) with (bp 62). lra. }
  exists (Ztrunc v). rewrite E, Vv. split; auto. rewrite Ztrunc_floor by lra. pose proof (Zfloor_lb v). pose proof (Zfloor_ub v). lra.
Qed.

(** the usual bounds of the logarithm *)
Lemma ln_bounds x : 0 < x -> 1 - / x <= ln x <= x - 1.
Proof.
  assert (U : forall y, 0 < y -> ln y <= y - 1).
  { intros y Hy. destruct (Req_dec (ln y) 0) as [E|E].
    - rewrite E. assert (y = 1). { rewrite <- (exp_ln y Hy), E. apply exp_0. } lra.
    - pose proof (exp_ineq1 (ln y) E) as H. rewrite exp_ln in H by auto. lra. }
  intros Hx. split; [|auto]. pose proof (U (/ x) ltac:(apply Rinv_0_lt_compat; auto)) as H. rewrite ln_Rinv in H by auto. lra.
Qed.

(** delta = 99/100, d = 100, entries below 2^100: about 2 * 10^8 iterations *)
Example ex70_log : Rabs (-41 / 4096 - ln (99 / 100)) <= / 100 * - ln (99 / 100).
Proof. pose proof (ln_bounds (99 / 100) ltac:(lra)) as H. replace (1 - / (99 / 100)) with (- (1) / 99) in H by field. apply Rabs_le. lra. Qed.
Lemma ex70_lg : is_finite (d_of (-41) (-12)) = true /\ B2R (d_of (-41) (-12)) = -41 / 4096.
Proof.
  destruct (d_of_val (-41) (-12)) as [F V]; [apply fe_mant; lia| |split; [exact F|rewrite V; change (bp (-12)) with (/ 4096); lra]].
  change (bp (-12)) with (/ 4096). rewrite Rabs_left1 by lra. apply Rlt_trans with (bp 0); [cbn; lra|apply bpow_lt; lia].
Qed.
Example ex70_limit : exists n, iter_limit_dbl (d_of (-41) (-12)) 100 100 = Some n /\
  98 / 100 * iter_limit 100 100 (99 / 100) - 1 <= IZR n <= 102 / 100 * iter_limit 100 100 (99 / 100).
Proof.
  destruct ex70_lg as [F V]. apply iter_limit_computed; try lia; try lra; auto; [rewrite V; exact ex70_log|].
  unfold iter_limit. pose proof (ln_bounds (99 / 100) ltac:(lra)) as H. set (l := ln (99 / 100)) in *.
  replace (IZR 100 - IZR (2 * 100 * (100 + 1)) * (IZR (100 + 3) / l)) with (100 + 20200 * (103 / - l)).
  2:{ change (2 * 100 * (100 + 1))%Z with 20200%Z. change (100 + 3)%Z with 103%Z. field. lra. }
  assert (103 / - l <= 10300). { apply Rmult_le_reg_r with (- l); [lra|]. unfold Rdiv. rewrite Rmult_assoc, Rinv_l by lra. lra. }
  change (bp 62) with (IZR (2 ^ 62)). apply Rle_trans with (IZR 1000000000); [lra|apply IZR_le; lia].
Qed.
Example ex70_value : iter_limit_dbl (d_of (-41) (-12)) 100 100 = Some 207857114%Z.
Proof. vm_compute. reflexivity. Qed.

(** For delta just below 1 (here the largest double below 1, whose logarithm is
    -2^-53 up to rounding) the limit does not fit in a long long: the conversion is
    undefined behaviour, although delta < 1 and the input is tiny. *)
Theorem iter_limit_overflow_refuted :
  exists (lg dd : dbl) d e, (1 <= d < 32768)%Z /\ (0 <= e <= 2 ^ 50)%Z /\
    is_finite dd = true /\ / 8 < B2R dd < 1 /\
    is_finite lg = true /\ Rabs (B2R lg - ln (B2R dd)) <= bp (-52) * - ln (B2R dd) /\
    iter_limit_dbl lg d e = None.
Proof.
  exists (d_of (-1) (-53)), (d_of (2 ^ 53 - 1) (-53)), 8%Z, 8%Z. split; [lia|]. split; [lia|].
  destruct (d_of_val (2 ^ 53 - 1) (-53)) as [F V]; [apply fe_mant; lia| |].
  { rewrite Rabs_pos_eq by (apply Rmult_le_pos; [apply IZR_le; lia|apply bpow_ge_0]). apply Rlt_trans with (bp 0); [|apply bpow_lt; lia].
    change (bp 0) with 1. rewrite minus_IZR. change (IZR (2 ^ 53)) with (bp 53). rewrite Rmult_minus_distr_r. rewrite <- bp_plus. cbn. lra. }
  destruct (d_of_val (-1) (-53)) as [F2 V2]; [apply fe_mant; lia| |].
  { rewrite Rabs_left1 by (cbn; lra). apply Rlt_trans with (bp 0); [cbn; lra|apply bpow_lt; lia]. }
  set (u := bp (-53)) in *. assert (Hu : 0 < u) by apply bp_pos. assert (Hu2 : u < / 1000).
  { unfold u. change (bp (-53)) with (/ IZR (2 ^ 53)). apply Rinv_lt_contravar; [apply Rmult_lt_0_compat; [lra|apply IZR_lt; lia]|apply IZR_lt; lia]. }
  assert (E : IZR (2 ^ 53 - 1) * u = 1 - u). { rewrite minus_IZR. change (IZR (2 ^ 53)) with (bp 53). unfold u. rewrite Rmult_minus_distr_r, <- bp_plus. cbn. lra. }
  rewrite V, V2, E. split; auto. split; [lra|]. split; auto. split.
  - pose proof (ln_bounds (1 - u) ltac:(lra)) as H.
    assert (EU : bp (-52) = 2 * u). { unfold u. change 2 with (bp 1). rewrite <- bp_plus. reflexivity. }
    rewrite EU.
    assert (HI : / (1 - u) <= 1 + u + 2 * u * u).
    { apply Rmult_le_reg_r with (1 - u); [lra|]. rewrite Rinv_l by lra. nra. }
    set (l := ln (1 - u)) in *. clearbody l. apply Rabs_le. split; nra.
  - vm_compute. reflexivity.
Qed.

(** 2 * d * (d + 1) is computed in int: undefined behaviour from d = 32768 on. *)
Theorem iter_limit_int_refuted : forall lg e, iter_limit_dbl lg 32768 e = None.
Proof. intros lg e. reflexivity. Qed.

(** delta = 1: log(1) is +0, the limit is minus infinity, and its conversion undefined. *)
Theorem iter_limit_delta_one_refuted : forall d e, (1 <= d < 32768)%Z -> (0 <= e <= 2 ^ 50)%Z -> iter_limit_dbl d_zero d e = None.
Proof.
  intros d e Hd He. unfold iter_limit_dbl. assert (Hn : (4 <= 2 * d * (d + 1) < 2 ^ 31)%Z) by nia.
  rewrite i32_in by lia. cbn [bind]. rewrite i32_in by lia. cbn [bind]. rewrite i32_in by lia. cbn [bind]. rewrite i64_in by lia. cbn [bind].
  assert (SH : forall n, (1 <= n <= 2 ^ 53)%Z -> exists m x B, d_of n 0 = B754_finite false m x B).
  { intros n H. destruct (int_dbl n) as [F V]; [lia|]. assert (0 < B2R (d_of n 0)) by (rewrite V; apply IZR_lt; lia).
    destruct (d_of n 0) as [s|s| |s m x B]; try discriminate; [cbn in *; lra|]. destruct s; [|eauto].
    exfalso. cbn in H0. assert (F2R (Float radix2 (Z.neg m) x) < 0) by (apply F2R_lt_0; reflexivity). lra. }
  destruct (SH (e + 3)%Z ltac:(lia)) as (m1 & x1 & B1 & ->). destruct (SH (2 * d * (d + 1))%Z ltac:(lia)) as (m2 & x2 & B2 & ->).
  destruct (SH d ltac:(lia)) as (m3 & x3 & B3 & ->). reflexivity.
Qed.
Example ex70_one : iter_limit_dbl d_zero 2 10 = None. Proof. apply iter_limit_delta_one_refuted; lia. Qed.

Print Assumptions iter_limit_computed.
Print Assumptions iter_limit_overflow_refuted.
Print Assumptions iter_limit_int_refuted.
Print Assumptions iter_limit_delta_one_refuted.
