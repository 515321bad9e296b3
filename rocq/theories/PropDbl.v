(** C43, C44: conversion of doubles to integers with exponent, and dpe arithmetic.

    The specification speaks of real numbers only: [B2R] (Flocq) is the real value of
    a finite double, [val x] = mantissa * 2^exponent that of a dpe number, [RNx] is
    rounding to nearest (ties to even) to 53 bits with unbounded exponents. *)
From Coq Require Import List ZArith Lia Bool Reals Lra.
From Flocq Require Import Core BinarySingleNaN.
From Verif Require Import DblModel DblProofs.
Import ListNotations.
Local Open Scope R_scope.

(** closed computations *)
Ltac vmc := match goal with |- _ /\ _ => split; [vmc|vmc] | _ => vm_compute; reflexivity end.

(** ** C43 *)

(** get_si_exp_we: for every finite double y and -2^31 <= expo_add <= 2^62 the call is
    defined; with v = y * 2^expo_add the result si fits a long, si * 2^expo differs
    from v by less than 2^expo, equals v when v is an integer and whenever |v| >= 2^63,
    and expo is 0 exactly when |v| < 2^63, in which case si is v truncated. *)
Theorem get_si_exp_we_faithful : forall ilogb0 ilogbnan (y : dbl) ea, is_finite y = true -> (- 2 ^ 31 <= ea <= 2 ^ 62)%Z ->
  exists si expo, d_get_si_exp_we ilogb0 ilogbnan y ea = Some (si, expo) /\
    (- 2 ^ 63 <= si < 2 ^ 63)%Z /\ (0 <= expo)%Z /\
    Rabs (IZR si * bp expo - B2R y * bp ea) < bp expo /\
    (forall n, B2R y * bp ea = IZR n -> IZR si * bp expo = B2R y * bp ea) /\
    (bp 63 <= Rabs (B2R y * bp ea) -> IZR si * bp expo = B2R y * bp ea /\ (0 <= expo)%Z) /\
    (Rabs (B2R y * bp ea) < bp 63 -> expo = 0%Z /\ si = Ztrunc (B2R y * bp ea)).
Proof.
  intros i0 inan y ea F E. destruct (get_si_exp_we_ok i0 inan y ea F E) as (si & expo & Q & R & P & H0 & H1).
  exists si, expo. split; [exact Q|]. split; [lia|]. split; [exact P|].
  destruct (Z.eq_dec expo 0) as [-> |NE].
  - specialize (H0 eq_refl). change (bp 0) with 1. rewrite Rmult_1_r.
    assert (X : forall n, B2R y * bp ea = IZR n -> IZR si = B2R y * bp ea).
    { intros n N. rewrite H0, N, Ztrunc_IZR. reflexivity. }
    split; [rewrite H0; apply trunc_err|]. split; [exact X|]. split; [|auto].
    intros B. split; [|lia]. destruct (big_int (B2R y * bp ea)) as [k K]; [apply fmtx_scale, fmtx|eapply Rle_trans; [|exact B]; apply bpow_le; lia|].
    apply (X k K).
  - destruct (H1 ltac:(lia)) as [V B]. rewrite V. split; [rewrite Rminus_diag_eq by reflexivity; rewrite Rabs_R0; apply bp_pos|].
    split; [reflexivity|]. split; [auto|]. intros C. lra.
Qed.

(** -1.5 * 2^70 and 1.5 * 2^-1, both through the theorem's hypotheses *)
Example get_si_exp_we_ex : d_get_si_exp_we 0 0 (d_of (-3) 0) 69 = Some (-6917529027641081856, 8)%Z /\
  d_get_si_exp_we 0 0 (d_of (-7) (-1)) 0 = Some (-3, 0)%Z /\
  d_get_si_exp_we 0 0 (d_of 7 (-1)) (-1) = Some (1, 0)%Z /\ d_get_si_exp_we 0 0 (d_of 1 (-1074)) 1200 = Some (2 ^ 62, 64)%Z /\
  is_finite (d_of (-3) 0) = true.
Proof. vmc. Qed.

(** the restriction on expo_add is necessary: ldexp takes an int, and the long
    expo_add - expo is converted to it modulo 2^32.  5.0 scaled by 2^-2^32 is below 1
    and the call returns 5. *)
Theorem get_si_exp_we_narrowing_refuted : exists (y : dbl) ea, is_finite y = true /\ (- 2 ^ 63 <= ea < 2 ^ 63)%Z /\
  forall i0 inan, exists si expo, d_get_si_exp_we i0 inan y ea = Some (si, expo) /\
    bp expo < Rabs (IZR si * bp expo - B2R y * bp ea).
Proof.
  exists (d_of 5 0), (- 2 ^ 32)%Z. split; [vm_compute; reflexivity|]. split; [lia|]. intros i0 inan. exists 5%Z, 0%Z. split; [vm_compute; reflexivity|].
  destruct (d_of_val 5 0) as [_ V]; [apply fe_mant; lia| |].
  - change (bp 0) with 1. rewrite Rabs_pos_eq by lra. apply Rlt_trans with (bp 3); [simpl; lra|apply bpow_lt; lia].
  - rewrite V. change (bp 0) with 1. assert (B : bp (- 2 ^ 32) < bp (-3)) by (apply bpow_lt; lia).
    change (bp (-3)) with (/ 8) in B. pose proof (bp_pos (- 2 ^ 32)). rewrite Rabs_pos_eq; lra.
Qed.

(** rnd_we: for every finite y and -2^31 < expo_add <= 2^62, if the rounded value is in
    the range of doubles the result times 2^expo_add is the integer nearest to
    y * 2^expo_add, ties to even.  (FP_ILOGB0 is INT_MIN or -INT_MAX.) *)
Theorem rnd_we_nearest : forall ilogb0 ilogbnan (y : dbl) ea, ilogb0 = (- 2 ^ 31)%Z \/ ilogb0 = (- (2 ^ 31 - 1))%Z ->
  is_finite y = true -> (- 2 ^ 31 < ea <= 2 ^ 62)%Z ->
  Rabs (IZR (ZnearestE (B2R y * bp ea)) * bp (- ea)) < bp 1024 ->
  exists r, d_rnd_we ilogb0 ilogbnan y ea = Some r /\ is_finite r = true /\
    B2R r * bp ea = IZR (ZnearestE (B2R y * bp ea)).
Proof.
  intros i0 inan y ea I F E NO. destruct (rnd_we_ok i0 inan y ea) as (r & Q & Fr & V); try assumption; [lia|].
  exists r. split; [exact Q|]. split; [exact Fr|]. rewrite V, Rmult_assoc, (Rmult_comm (bp (- ea))), bp_inv. ring.
Qed.

(** 2.5 rounds to 2 and 3.5 to 4; 7 * 2^-3 with expo_add 2 is 3.5 -> 4 -> 1 *)
Example rnd_we_ex : option_map B2SF (d_rnd_we (- 2 ^ 31) 0 (d_of 5 (-1)) 0) = Some (B2SF (d_of 2 0)) /\
  option_map B2SF (d_rnd_we (- 2 ^ 31) 0 (d_of 7 (-3)) 2) = Some (B2SF (d_of 1 0)) /\
  option_map B2SF (d_rnd_we (- 2 ^ 31) 0 d_zero 100) = Some (B2SF d_zero) /\
  option_map B2SF (d_rnd_we (- 2 ^ 31) 0 (d_of 1 1000) 100) = Some (B2SF (d_of 1 1000)).
Proof. vmc. Qed.

(** without the range condition: 1.5 * 2^1023 with expo_add = -1023 becomes infinite,
    although the scaled value 1.5 and the nearest integer 2 are small *)
Theorem rnd_we_overflow_refuted : exists (y : dbl) ea, is_finite y = true /\ (- 2 ^ 31 < ea <= 2 ^ 62)%Z /\
  B2R y * bp ea = 3 / 2 /\ forall inan, option_map B2SF (d_rnd_we (- 2 ^ 31) inan y ea) = Some (SpecFloat.S754_infinity false).
Proof.
  exists (d_of 3 1022), (-1023)%Z. split; [vm_compute; reflexivity|]. split; [lia|]. split; [|intros; vm_compute; reflexivity].
  destruct (d_of_val 3 1022) as [_ V]; [apply fe_mant; lia| |].
  - rewrite abs_bp, Rabs_pos_eq by lra. apply Rlt_le_trans with (bp 2 * bp 1022); [apply Rmult_lt_compat_r; [apply bp_pos|simpl; lra]|].
    rewrite <- bp_plus. apply bpow_le. lia.
  - rewrite V, Rmult_assoc, <- bp_plus. change (bp (1022 + -1023)) with (/2). field.
Qed.

(** ** C44 *)

(** normalised (dpe.h:147): zero with the smallest exponent, or a mantissa in [1/2, 1) *)
Definition normalised (x : dpe) : Prop := is_finite (dm x) = true /\
  (B2R (dm x) = 0 /\ de x = INT_MIN \/ /2 <= Rabs (B2R (dm x)) < 1).
(** the same, with an exponent in the range of the statements below (or zero) *)
Definition in_range (x : dpe) : Prop := normalised x /\ (B2R (dm x) = 0 \/ (Z.abs (de x) <= 2 ^ 30 - 1200)%Z).

Lemma normalised_cases x : normalised x <-> nz x \/ zr x.
Proof. unfold normalised, nz, zr. tauto. Qed.
Lemma in_range_cases x : in_range x -> nzb x \/ zr x.
Proof.
  unfold in_range, normalised, nzb, nz, zr. intros [[F [[Z E]|B]] R]; [tauto|]. left. destruct R as [Z|R]; [rewrite Z, Rabs_R0 in B; lra|auto].
Qed.
Lemma in_range_nz x : in_range x -> val x <> 0 -> nzb x.
Proof. intros I N. destruct (in_range_cases x I) as [?|Z]; [assumption|]. elim N. apply zr_val, Z. Qed.

(** dpe_cmp decides the order of the reals, for all normalised numbers *)
Theorem dpe_cmp_order : forall x y, normalised x -> normalised y ->
  ((dpe_cmp x y < 0)%Z <-> val x < val y) /\ (dpe_cmp x y = 0%Z <-> val x = val y) /\ ((0 < dpe_cmp x y)%Z <-> val y < val x).
Proof.
  intros x y Nx Ny. apply normalised_cases in Nx. apply normalised_cases in Ny.
  destruct (cmp_ok x y Nx Ny) as [[C V]|[[C V]|[C V]]]; rewrite ?C; repeat split; intros; try lia; try lra.
Qed.

(** products, quotients and square roots are correctly rounded and normalised *)
Theorem dpe_mul_rounded : forall y z, in_range y -> in_range z -> val y <> 0 -> val z <> 0 ->
  exists r, dpe_mul y z = Some r /\ normalised r /\ val r = RNx (val y * val z).
Proof.
  intros y z Iy Iz Ny Nz. destruct (mul_ok y z (in_range_nz _ Iy Ny) (in_range_nz _ Iz Nz)) as (r & E & N & V).
  exists r. rewrite normalised_cases. auto.
Qed.
Theorem dpe_div_rounded : forall y z, in_range y -> in_range z -> val y <> 0 -> val z <> 0 ->
  exists r, dpe_div y z = Some r /\ normalised r /\ val r = RNx (val y / val z).
Proof.
  intros y z Iy Iz Ny Nz. destruct (div_ok y z (in_range_nz _ Iy Ny) (in_range_nz _ Iz Nz)) as (r & E & N & V).
  exists r. rewrite normalised_cases. auto.
Qed.
Theorem dpe_sqrt_rounded : forall y, in_range y -> 0 < val y ->
  exists r, dpe_sqrt y = Some r /\ normalised r /\ val r = RNx (sqrt (val y)).
Proof.
  intros y Iy P. destruct (in_range_nz _ Iy ltac:(lra)) as [N B]. destruct (sqrt_ok y N P) as (r & E & Nr & V); [lia|].
  exists r. rewrite normalised_cases. auto.
Qed.

(** sums and differences, zero operands included, are normalised and differ from the
    exact value by at most 2^-53 of the result; they are correctly rounded whenever
    the exponents differ by at most 53 *)
Theorem dpe_add_error : forall y z, in_range y -> in_range z ->
  exists r, dpe_add y z = Some r /\ normalised r /\
    Rabs (val r - (val y + val z)) <= bp (-53) * Rabs (val r) /\
    ((Z.abs (de y - de z) <= 53)%Z -> val r = RNx (val y + val z)).
Proof.
  intros y z Iy Iz. destruct (addsub_ok true y z (in_range_cases _ Iy) (in_range_cases _ Iz)) as (r & E & N & V & W).
  exists r. rewrite normalised_cases. auto.
Qed.
Theorem dpe_sub_error : forall y z, in_range y -> in_range z ->
  exists r, dpe_sub y z = Some r /\ normalised r /\
    Rabs (val r - (val y - val z)) <= bp (-53) * Rabs (val r) /\
    ((Z.abs (de y - de z) <= 53)%Z -> val r = RNx (val y - val z)).
Proof.
  intros y z Iy Iz. destruct (addsub_ok false y z (in_range_cases _ Iy) (in_range_cases _ Iz)) as (r & E & N & V & W).
  exists r. rewrite normalised_cases. auto.
Qed.

(** conversions: doubles that are zero or normal are represented exactly; integers are
    truncated to 53 bits; dpe_round is the nearest integer, ties away from zero;
    extraction to long or mpz with exponent loses at most the part below the unit *)
Theorem dpe_set_d_exact : forall d : dbl, is_finite d = true -> (B2R d = 0 \/ bp (-1022) <= Rabs (B2R d)) ->
  exists r, dpe_set_d d = Some r /\ normalised r /\ val r = B2R d.
Proof. intros d F H. destruct (set_d_ok d F H) as (r & E & N & V). exists r. rewrite normalised_cases. auto. Qed.
Theorem dpe_set_z_truncated : forall z, z <> 0%Z -> (Z.log2 (Z.abs z) < 2 ^ 31 - 1)%Z ->
  normalised (dpe_set_z z) /\ Rabs (val (dpe_set_z z) - IZR z) <= bp (-52) * Rabs (IZR z) /\
  Rabs (val (dpe_set_z z)) <= Rabs (IZR z) /\ ((Z.abs z < 2 ^ 53)%Z -> val (dpe_set_z z) = IZR z).
Proof.
  intros z N B. rewrite normalised_cases. destruct (set_z_ok z N B) as (A & R). auto.
Qed.
Theorem dpe_round_nearest : forall y, normalised y -> exists r, dpe_round y = Some r /\ normalised r /\ val r = IZR (ZnearestA (val y)).
Proof. intros y N. apply normalised_cases in N. destruct (round_ok y N) as (r & E & Nr & V). exists r. rewrite normalised_cases. auto. Qed.
Theorem dpe_get_si_exp_faithful : forall y, in_range y -> val y <> 0 ->
  exists si expo, dpe_get_si_exp y = Some (si, expo) /\ (- 2 ^ 63 <= si < 2 ^ 63)%Z /\ (0 <= expo)%Z /\
    (Rabs (val y) < bp 63 -> expo = 0%Z /\ si = Ztrunc (val y)) /\ (bp 63 <= Rabs (val y) -> IZR si * bp expo = val y).
Proof.
  intros y I N. destruct (in_range_nz _ I N) as [Ny B]. destruct (get_si_exp_ok y Ny) as (si & expo & E & R & P & H0 & H1); [lia|].
  exists si, expo. split; [exact E|]. split; [lia|]. split; [exact P|]. destruct (Z.eq_dec expo 0) as [-> |NE].
  - split; [auto|]. intros L. change (bp 0) with 1. rewrite Rmult_1_r, (H0 eq_refl).
    destruct (big_int (val y)) as [k K]; [unfold val; apply fmtx_scale, fmtx|eapply Rle_trans; [|exact L]; apply bpow_le; lia|]. rewrite K, Ztrunc_IZR. reflexivity.
  - destruct (H1 ltac:(lia)) as [V L]. split; [lra|auto].
Qed.
Theorem dpe_get_z_exp_faithful : forall y, in_range y -> val y <> 0 ->
  exists z expo, dpe_get_z_exp y = Some (z, expo) /\ (0 <= expo)%Z /\
    (Rabs (val y) < bp 53 -> expo = 0%Z /\ z = Ztrunc (val y)) /\ (bp 53 <= Rabs (val y) -> IZR z * bp expo = val y).
Proof.
  intros y I N. destruct (in_range_nz _ I N) as [Ny B]. destruct (get_z_exp_ok y Ny) as (z & expo & E & P & H0 & H1); [lia|].
  exists z, expo. split; [exact E|]. split; [exact P|]. destruct (Z.eq_dec expo 0) as [-> |NE].
  - split; [auto|]. intros L. change (bp 0) with 1. rewrite Rmult_1_r, (H0 eq_refl).
    destruct (big_int (val y)) as [k K]; [unfold val; apply fmtx_scale, fmtx|eapply Rle_trans; [|exact L]; apply bpow_le; lia|]. rewrite K, Ztrunc_IZR. reflexivity.
  - destruct (H1 ltac:(lia)) as [V L]. split; [lra|auto].
Qed.

(** concrete dpe numbers: 3 = 0.75 * 2^2, -2^100, and what the functions return *)
Definition three : dpe := mkdpe (d_of 3 (-2)) 2.
(** -2^100 *) Definition big : dpe := mkdpe (d_of (-1) (-1)) 101.
(** 1 *) Definition one : dpe := mkdpe (d_of 1 (-1)) 1.
(** the normalised zero *) Definition zero : dpe := mkdpe d_zero INT_MIN.
(** printable form *) Definition show (o : option dpe) := option_map (fun r => (B2SF (dm r), de r)) o.

Lemma three_in_range : in_range three.
Proof.
  destruct (d_of_val 3 (-2)) as [F V]; [apply fe_mant; lia| |].
  - change (bp (-2)) with (/4). rewrite Rabs_pos_eq by lra. apply Rlt_trans with 1; [lra|change 1 with (bp 0); apply bpow_lt; lia].
  - change (bp (-2)) with (/4) in V. split; [split; [exact F|right]|right; vm_compute; discriminate]. cbn [dm three]. rewrite V, Rabs_pos_eq by lra. lra.
Qed.
Lemma big_in_range : in_range big.
Proof.
  destruct (d_of_val (-1) (-1)) as [F V]; [apply fe_mant; lia| |].
  - change (bp (-1)) with (/2). rewrite Rabs_left by lra. apply Rlt_trans with 1; [lra|change 1 with (bp 0); apply bpow_lt; lia].
  - change (bp (-1)) with (/2) in V. split; [split; [exact F|right]|right; vm_compute; discriminate]. cbn [dm big]. rewrite V, Rabs_left by lra. lra.
Qed.
Lemma zero_in_range : in_range zero.
Proof. split; [split; [reflexivity|left; split; reflexivity]|left; reflexivity]. Qed.

Example dpe_ex : in_range three /\ in_range big /\ in_range zero /\
  dpe_cmp big three = (-2)%Z /\ dpe_cmp three zero = 1%Z /\ dpe_cmp zero zero = 0%Z /\
  show (dpe_mul three three) = show (Some (mkdpe (d_of 9 (-4)) 4)) /\
  show (dpe_div three big) = show (Some (mkdpe (d_of (-3) (-2)) (-98))) /\
  show (dpe_add three zero) = show (Some three) /\ show (dpe_sub three three) = show (Some zero) /\
  show (dpe_add three big) = show (Some big) /\ show (dpe_sqrt (mkdpe (d_of 9 (-4)) 4)) = show (Some three) /\
  dpe_get_si_exp big = Some (- 2 ^ 62, 38)%Z /\ dpe_get_z_exp big = Some (- 2 ^ 52, 48)%Z /\
  show (dpe_round (mkdpe (d_of 5 (-3)) 2)) = show (Some three) /\ show (Some (dpe_set_z 3)) = show (Some three).
Proof. split; [exact three_in_range|]. split; [exact big_in_range|]. split; [exact zero_in_range|]. vmc. Qed.

(** *** where the claims stop *)

(** addition is not correctly rounded when the exponents differ by more than 53, though
    the comment of dpe.h:313 says so: for y = 1 and z = -(1 - 2^-53) * 2^-53 (exponents 1
    and -53) the result is 1, and 1 - 2^-53, a 53-bit number, is closer to y + z *)
Theorem dpe_add_rounded_refuted : exists y z r c, in_range y /\ in_range z /\ dpe_add y z = Some r /\
  generic_format radix2 (FLX_exp 53) c /\ Rabs (c - (val y + val z)) < Rabs (val r - (val y + val z)).
Proof.
  set (z := mkdpe (d_of (- (2 ^ 53 - 1)) (-53)) (-53)).
  destruct (d_of_val (- (2 ^ 53 - 1)) (-53)) as [F V]; [apply fe_mant; lia| |].
  { rewrite abs_bp, <- abs_IZR. apply Rlt_trans with (bp 53 * bp (-53)); [apply Rmult_lt_compat_r; [apply bp_pos|]|rewrite <- bp_plus; apply bpow_lt; lia].
    change (bp 53) with (IZR (2 ^ 53)). apply IZR_lt. lia. }
  assert (V' : B2R (dm z) = - (1 - bp (-53))).
  { cbn [dm z]. rewrite V, opp_IZR, minus_IZR. change (IZR (2 ^ 53)) with (bp 53).
    transitivity (- (bp 53 * bp (-53) - bp (-53))); [ring|]. rewrite (bp_inv 53 : bp 53 * bp (-53) = 1). ring. }
  assert (U : 0 < bp (-53) < /4) by (split; [apply bp_pos|change (/4) with (bp (-2)); apply bpow_lt; lia]).
  destruct (d_of_val 1 (-1)) as [F1 V1]; [apply fe_mant; lia| |].
  { change (bp (-1)) with (/2). rewrite Rabs_pos_eq by lra. apply Rlt_trans with 1; [lra|change 1 with (bp 0); apply bpow_lt; lia]. }
  change (bp (-1)) with (/2) in V1.
  exists one, z, one, (1 - bp (-53)). split; [|split; [|split; [unfold dpe_add; cbn [de one z]; rewrite i32_in by lia; reflexivity|split]]].
  - split; [split; [exact F1|right]|right; vm_compute; discriminate]. cbn [dm one]. rewrite V1, Rabs_pos_eq by lra. lra.
  - split; [split; [exact F|right]|right; vm_compute; discriminate]. rewrite V', Rabs_Ropp, Rabs_pos_eq by lra. lra.
  - replace (1 - bp (-53)) with (IZR (2 ^ 53 - 1) * bp (-53)).
    + apply generic_format_FLX. exists (Float radix2 (2 ^ 53 - 1) (-53)); reflexivity.
    + rewrite minus_IZR. change (IZR (2 ^ 53)) with (bp 53). transitivity (bp 53 * bp (-53) - bp (-53)); [ring|]. rewrite (bp_inv 53 : bp 53 * bp (-53) = 1). ring.
  - assert (W1 : val one = 1) by (unfold val; cbn [dm de one]; rewrite V1; change (bp 1) with 2; field).
    assert (W2 : val z = - (1 - bp (-53)) * bp (-53)) by (unfold val; rewrite V'; reflexivity).
    rewrite W1, W2. set (u := bp (-53)) in *.
    replace (1 - u - (1 + - (1 - u) * u)) with (- (u * u)) by ring. replace (1 - (1 + - (1 - u) * u)) with (u - u * u) by ring.
    rewrite Rabs_Ropp, !Rabs_pos_eq by nra. nra.
Qed.

(** subnormal doubles are not converted faithfully: their fraction field has no hidden
    bit, but dpe_normalize adds one.  2^-1074 becomes a number above 2^-1023. *)
(** 2^-1074 *) Definition tiny : dbl := @B754_finite 53 1024 false 1 (-1074) eq_refl.
Theorem dpe_set_d_subnormal_refuted : exists (d : dbl) r, is_finite d = true /\ 0 < B2R d /\ dpe_set_d d = Some r /\ 2 * B2R d < val r.
Proof.
  exists tiny.
  assert (V : B2R tiny = bp (-1074)) by (unfold tiny, B2R, F2R; cbn [Fnum Fexp cond_Zopp]; ring).
  destruct (d_of_val (2 ^ 52 + 1) (-53)) as [F2 V2]; [apply fe_mant; lia| |].
  { rewrite abs_bp, <- abs_IZR. apply Rlt_trans with (bp 53 * bp (-53)); [apply Rmult_lt_compat_r; [apply bp_pos|]|rewrite <- bp_plus; apply bpow_lt; lia].
    change (bp 53) with (IZR (2 ^ 53)). apply IZR_lt. lia. }
  exists (mkdpe (d_of (2 ^ 52 + 1) (-53)) (-1022)). split; [reflexivity|]. rewrite V. split; [apply bp_pos|]. split; [reflexivity|].
  unfold val. cbn [dm de]. rewrite V2. change 2 with (bp 1). rewrite Rmult_assoc, <- !bp_plus.
  apply Rlt_trans with (bp 52 * bp (-53 + -1022)); [rewrite <- bp_plus; apply bpow_lt; lia|]. apply Rmult_lt_compat_r; [apply bp_pos|]. change (bp 52) with (IZR (2 ^ 52)). apply IZR_lt. lia.
Qed.

(** a zero factor, dividend or divisor makes the exponent computation overflow int
    (undefined): 0 * 0, 0 * 2^-2, 0 / 2, 3 / 0; extraction of zero too *)
Theorem dpe_zero_overflow_refuted : in_range zero /\ dpe_mul zero zero = None /\
  (exists q, in_range q /\ val q <> 0 /\ dpe_mul zero q = None) /\ dpe_div zero three = None /\ dpe_div three zero = None /\
  dpe_get_si_exp zero = None /\ dpe_get_z_exp zero = None.
Proof.
  split; [exact zero_in_range|]. split; [reflexivity|]. split; [|vmc].
  exists (mkdpe (d_of 1 (-1)) (-1)). destruct (d_of_bp (-1)) as [F V]; [lia|]. change (bp (-1)) with (/2) in V.
  split; [|split; [|vm_compute; reflexivity]].
  - split; [split; [exact F|right]|right; vm_compute; discriminate]. cbn [dm]. rewrite V, Rabs_pos_eq by lra. lra.
  - unfold val. cbn [dm de]. rewrite V. change (bp (-1)) with (/2). lra.
Qed.

(** the square root of zero is a zero with exponent INT_MIN / 2: not normalised, and
    dpe_cmp and sgn() call it negative *)
Theorem dpe_sqrt_zero_refuted : exists r, dpe_sqrt zero = Some r /\ val r = 0 /\ ~ normalised r /\
  dpe_cmp r zero = (-1)%Z /\ dpe_sgn r = Some (-1)%Z.
Proof.
  exists (mkdpe d_zero (- 2 ^ 30)). split; [vm_compute; reflexivity|]. split; [unfold val; change (B2R _) with 0; ring|].
  split; [|vmc]. intros [_ [[_ E]|[B _]]]; [discriminate E|]. change (B2R _) with 0 in B. rewrite Rabs_R0 in B. lra.
Qed.

(** conversion of the integer 0 gives exponent 0 instead of INT_MIN: the result is
    negative for sgn(), and adding 2^-60 to it gives 0 *)
Theorem dpe_set_z_zero_refuted : val (dpe_set_z 0) = 0 /\ ~ normalised (dpe_set_z 0) /\
  dpe_sgn (dpe_set_z 0) = Some (-1)%Z /\
  exists q r, in_range q /\ 0 < val q /\ dpe_add (dpe_set_z 0) q = Some r /\ val r = 0.
Proof.
  split; [unfold val; change (B2R _) with 0; ring|]. split.
  { intros [_ [[_ E]|[B _]]]; [discriminate E|]. change (B2R _) with 0 in B. rewrite Rabs_R0 in B. lra. }
  split; [vm_compute; reflexivity|]. exists (mkdpe (d_of 1 (-1)) (-59)), (mkdpe d_zero 0).
  destruct (d_of_bp (-1)) as [F V]; [lia|]. change (bp (-1)) with (/2) in V.
  split; [|split; [|split; [unfold dpe_add; cbn [de]; rewrite i32_in by lia; reflexivity|unfold val; change (B2R _) with 0; ring]]].
  - split; [split; [exact F|right]|right; vm_compute; discriminate]. cbn [dm]. rewrite V, Rabs_pos_eq by lra. lra.
  - unfold val. cbn [dm de]. rewrite V. pose proof (bp_pos (-59)). lra.
Qed.

(** hypot: with a zero second operand the division overflows int; of two zeros it is NaN *)
Theorem dpe_hypot_zero_refuted : in_range three /\ dpe_hypot three zero = None /\
  exists r, dpe_hypot zero zero = Some r /\ is_nan (dm r) = true.
Proof.
  split; [exact three_in_range|]. split; [vm_compute; reflexivity|].
  eexists. split; [vm_compute; reflexivity|]. reflexivity.
Qed.

Print Assumptions get_si_exp_we_faithful.
Print Assumptions rnd_we_nearest.
Print Assumptions dpe_cmp_order.
Print Assumptions dpe_add_error.
Print Assumptions dpe_sqrt_rounded.
Print Assumptions dpe_add_rounded_refuted.
