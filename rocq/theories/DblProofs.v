(** Facts about the doubles and dpe numbers of DblModel.v, in terms of the reals they denote. *)
From Coq Require Import List ZArith Lia Bool Reals Lra.
From Flocq Require Import Core Relative BinarySingleNaN.
From Verif Require Import DblModel.
Import ListNotations.
Local Open Scope R_scope.

Notation bp := (bpow radix2).
(** format of doubles *) Notation fe := (FLT_exp (-1074) 53).
(** rounding to 53 bits with unbounded exponents *)
Definition RNx (x : R) : R := round radix2 (FLX_exp 53) ZnearestE x.


Lemma fexp_eq : SpecFloat.fexp 53 1024 = fe. Proof. reflexivity. Qed.

Lemma fmt (x : dbl) : generic_format radix2 fe (B2R x).
Proof. exact (generic_format_B2R 53 1024 x). Qed.
Lemma fmtx (x : dbl) : generic_format radix2 (FLX_exp 53) (B2R x).
Proof. apply (generic_format_FLX_FLT radix2 (-1074)), fmt. Qed.

Lemma bp_pos e : 0 < bp e. Proof. apply bpow_gt_0. Qed.
Lemma bp_nz e : bp e <> 0. Proof. apply Rgt_not_eq, bpow_gt_0. Qed.
Lemma bp_plus a b : bp (a + b) = bp a * bp b. Proof. apply bpow_plus. Qed.
Lemma bp_inv e : bp e * bp (- e) = 1.
Proof. rewrite <- bpow_plus, Z.add_opp_diag_r. reflexivity. Qed.
Lemma abs_bp x e : Rabs (x * bp e) = Rabs x * bp e.
Proof. rewrite Rabs_mult, (Rabs_pos_eq (bp e)); [reflexivity|apply bpow_ge_0]. Qed.

(** scaling by a power of two commutes with rounding to 53 bits *)
Lemma cexp_FLX_scale x e : x <> 0 -> cexp radix2 (FLX_exp 53) (x * bp e) = (cexp radix2 (FLX_exp 53) x + e)%Z.
Proof. intros H. unfold cexp. rewrite mag_mult_bpow by exact H. unfold FLX_exp. lia. Qed.
Lemma RNx_scale x e : RNx (x * bp e) = RNx x * bp e.
Proof.
  destruct (Req_dec x 0) as [-> |H].
  - rewrite Rmult_0_l. unfold RNx. rewrite round_0 by typeclasses eauto. ring.
  - unfold RNx, round, scaled_mantissa, F2R. cbn [Fnum Fexp]. rewrite cexp_FLX_scale by exact H.
    rewrite bp_plus. rewrite Z.opp_add_distr.
    replace (x * bp e * bp (- cexp radix2 (FLX_exp 53) x + - e)) with (x * bp (- cexp radix2 (FLX_exp 53) x)).
    + ring.
    + rewrite bp_plus. transitivity (x * bp (- cexp radix2 (FLX_exp 53) x) * (bp e * bp (- e))); [rewrite bp_inv; ring|ring].
Qed.
Lemma fmtx_scale x e : generic_format radix2 (FLX_exp 53) x -> generic_format radix2 (FLX_exp 53) (x * bp e).
Proof.
  intros H. assert (E : RNx (x * bp e) = x * bp e).
  { rewrite RNx_scale. f_equal. apply round_generic; [typeclasses eauto|exact H]. }
  rewrite <- E. apply generic_format_round; typeclasses eauto.
Qed.
Lemma fe_of_fx x : generic_format radix2 (FLX_exp 53) x -> bp (-1022) <= Rabs x -> generic_format radix2 fe x.
Proof. intros H B. apply generic_format_FLT_FLX; [exact B|exact H]. Qed.
Lemma fe_bp e : (-1074 <= e)%Z -> generic_format radix2 fe (bp e).
Proof. intros H. apply generic_format_bpow. unfold FLT_exp. lia. Qed.

(** ldexp: exact unless the result is subnormal or too large *)
Lemma ldexp_exact (y : dbl) k : is_finite y = true -> bp (-1022) <= Rabs (B2R y * bp k) -> Rabs (B2R y * bp k) < bp 1024 ->
  is_finite (d_ldexp y k) = true /\ B2R (d_ldexp y k) = B2R y * bp k.
Proof.
  intros F L U. pose proof (Bldexp_correct 53 1024 _ _ mode_NE y k) as H.
  rewrite fexp_eq, round_generic in H; [|typeclasses eauto|apply fe_of_fx; [apply fmtx_scale, fmtx|exact L]].
  rewrite Rlt_bool_true in H by exact U. destruct H as (H1 & H2 & _).
  unfold d_ldexp. split; [rewrite H2; exact F|exact H1].
Qed.
Lemma ldexp_exact' (y : dbl) k : is_finite y = true -> generic_format radix2 fe (B2R y * bp k) -> Rabs (B2R y * bp k) < bp 1024 ->
  is_finite (d_ldexp y k) = true /\ B2R (d_ldexp y k) = B2R y * bp k.
Proof.
  intros F L U. pose proof (Bldexp_correct 53 1024 _ _ mode_NE y k) as H.
  rewrite fexp_eq, round_generic in H; [|typeclasses eauto|exact L].
  rewrite Rlt_bool_true in H by exact U. destruct H as (H1 & H2 & _).
  unfold d_ldexp. split; [rewrite H2; exact F|exact H1].
Qed.
Lemma ldexp_tiny (y : dbl) k : is_finite y = true -> Rabs (B2R y * bp k) <= bp (-1022) ->
  is_finite (d_ldexp y k) = true /\ Rabs (B2R (d_ldexp y k)) <= bp (-1022).
Proof.
  intros F U. pose proof (Bldexp_correct 53 1024 _ _ mode_NE y k) as H.
  assert (B : Rabs (round radix2 fe (round_mode mode_NE) (B2R y * bp k)) <= bp (-1022)).
  { apply abs_round_le_generic; [typeclasses eauto|typeclasses eauto|apply fe_bp; lia|exact U]. }
  rewrite fexp_eq in H. rewrite Rlt_bool_true in H.
  2:{ eapply Rle_lt_trans; [exact B|]. apply bpow_lt. lia. }
  destruct H as (H1 & H2 & _). unfold d_ldexp. split; [rewrite H2; exact F|]. rewrite H1. exact B.
Qed.

(** the integer functions *)
Lemma round_FIX0 rnd x : Valid_rnd rnd -> round radix2 (FIX_exp 0) rnd x = IZR (rnd x).
Proof.
  intros V. unfold round, scaled_mantissa, F2R, cexp, FIX_exp. cbn [Fnum Fexp]. change (bp (- 0)) with 1. change (bp 0) with 1.
  rewrite !Rmult_1_r. reflexivity.
Qed.
Lemma trunc_val (x : dbl) : Btrunc x = Ztrunc (B2R x).
Proof.
  apply eq_IZR. rewrite (Btrunc_correct 53 1024 _ x). apply round_FIX0. typeclasses eauto.
Qed.
Lemma rint_val (x : dbl) : B2R (d_rint x) = IZR (ZnearestE (B2R x)) /\ is_finite (d_rint x) = is_finite x.
Proof.
  destruct (Bnearbyint_correct 53 1024 _ mode_NE x) as (H & F & _). split; [|exact F].
  unfold d_rint. rewrite H. apply round_FIX0. typeclasses eauto.
Qed.
Lemma round_val (x : dbl) : B2R (d_round x) = IZR (ZnearestA (B2R x)) /\ is_finite (d_round x) = is_finite x.
Proof.
  destruct (Bnearbyint_correct 53 1024 _ mode_NA x) as (H & F & _). split; [|exact F].
  unfold d_round. rewrite H. apply round_FIX0. typeclasses eauto.
Qed.
Lemma Ztrunc_small x : Rabs x < 1 -> Ztrunc x = 0%Z.
Proof.
  intros H. apply Rabs_def2 in H. destruct (Rle_lt_dec 0 x).
  - rewrite Ztrunc_floor by assumption. apply Zfloor_imp. simpl. lra.
  - rewrite Ztrunc_ceil by lra. apply Zceil_imp. simpl. lra.
Qed.
Lemma Znearest_small c x : Rabs x < /2 -> Znearest c x = 0%Z.
Proof. intros H. apply Znearest_imp. rewrite Rminus_0_r. exact H. Qed.

(** ilogb *)
Lemma ilogb_spec i0 inan (x : dbl) : is_finite x = true -> B2R x <> 0 ->
  bp (ilogb i0 inan x) <= Rabs (B2R x) < bp (ilogb i0 inan x + 1) /\ (-1074 <= ilogb i0 inan x < 1024)%Z.
Proof.
  intros F N. destruct x as [s|s| |s m e B]; try discriminate; [now elim N|].
  assert (A : Rabs (B2R (B754_finite s m e B : dbl)) = IZR (Zpos m) * bp e).
  { unfold B2R, F2R. cbn [Fnum Fexp]. rewrite abs_bp, <- abs_IZR, abs_cond_Zopp. reflexivity. }
  pose proof (Z.log2_spec (Zpos m) eq_refl) as [L1 L2]. pose proof (Z.log2_nonneg (Zpos m)) as L0.
  assert (E : bp (Z.log2 (Zpos m)) <= IZR (Zpos m) < bp (Z.log2 (Zpos m) + 1)).
  { rewrite <- (IZR_Zpower radix2 (Z.log2 (Zpos m))) by lia. rewrite <- (IZR_Zpower radix2 (Z.log2 (Zpos m) + 1)) by lia.
    split; [apply IZR_le; exact L1|apply IZR_lt; exact L2]. }
  assert (P : bp (ilogb i0 inan (B754_finite s m e B : dbl)) <= Rabs (B2R (B754_finite s m e B : dbl)) < bp (ilogb i0 inan (B754_finite s m e B : dbl) + 1)).
  { rewrite A. cbn [ilogb]. replace (Z.log2 (Z.pos m) + e + 1)%Z with (Z.log2 (Z.pos m) + 1 + e)%Z by ring.
    rewrite !bp_plus with (b := e). pose proof (bp_pos e). split.
    - apply Rmult_le_compat_r; lra. - apply Rmult_lt_compat_r; lra. }
  split; [exact P|]. split.
  - assert (bp (-1074) < bp (ilogb i0 inan (B754_finite s m e B : dbl) + 1)).
    { eapply Rle_lt_trans; [|apply P]. rewrite A.
      clear - B. pose proof (proj2 (andb_prop _ _ B)) as B2. pose proof (proj1 (andb_prop _ _ B)) as B1.
      assert (Ee : (-1074 <= e)%Z).
      { unfold SpecFloat.canonical_mantissa in B1. apply Zeq_bool_eq in B1. rewrite fexp_eq in B1. unfold FLT_exp in B1. lia. }
      apply Rle_trans with (1 * bp e); [rewrite Rmult_1_l; apply bpow_le, Ee|].
      apply Rmult_le_compat_r; [apply bpow_ge_0|apply IZR_le; lia]. }
    apply lt_bpow in H. lia.
  - assert (bp (ilogb i0 inan (B754_finite s m e B : dbl)) < bp 1024).
    { eapply Rle_lt_trans; [apply P|]. apply abs_B2R_lt_emax. }
    apply lt_bpow in H. lia.
Qed.

(** constants *)
Lemma d_of_val m e : generic_format radix2 fe (IZR m * bp e) -> Rabs (IZR m * bp e) < bp 1024 ->
  is_finite (d_of m e) = true /\ B2R (d_of m e) = IZR m * bp e.
Proof.
  intros L U. pose proof (binary_normalize_correct 53 1024 _ _ mode_NE m e false) as H. cbv zeta in H.
  unfold F2R in H. cbn [Fnum Fexp] in H. rewrite fexp_eq, round_generic in H; [|typeclasses eauto|exact L].
  rewrite Rlt_bool_true in H by exact U. destruct H as (H1 & H2 & _). split; [exact H2|exact H1].
Qed.
Lemma fe_mant m e : (Z.abs m <= 2 ^ 53)%Z -> (-1074 <= e)%Z -> generic_format radix2 fe (IZR m * bp e).
Proof.
  intros M E. destruct (Z.eq_dec (Z.abs m) (2 ^ 53)) as [Q|Q].
  - assert (m = 2 ^ 53 \/ m = - 2 ^ 53)%Z as [-> | ->] by lia.
    + change (IZR (2 ^ 53)) with (bp 53). rewrite <- bp_plus. apply fe_bp. lia.
    + change (- 2 ^ 53)%Z with (Z.opp (2 ^ 53)). rewrite opp_IZR, Ropp_mult_distr_l_reverse. apply generic_format_opp.
      change (IZR (2 ^ 53)) with (bp 53). rewrite <- bp_plus. apply fe_bp. lia.
  - apply generic_format_FLT. exists (Float radix2 m e); [reflexivity|simpl; lia|simpl; lia].
Qed.
Lemma d_of_bp e : (-1074 <= e < 1024)%Z -> is_finite (d_of 1 e) = true /\ B2R (d_of 1 e) = bp e.
Proof.
  intros E. destruct (d_of_val 1 e) as [F V].
  - apply fe_mant; lia.
  - rewrite Rmult_1_l, Rabs_pos_eq by apply bpow_ge_0. apply bpow_lt. lia.
  - split; [exact F|]. rewrite V. ring.
Qed.

(** machine integers *)
Lemma i32_in x : (- 2 ^ 31 <= x < 2 ^ 31)%Z -> i32 x = Some x.
Proof. intros [H1 H2]. unfold i32, INT_MIN. apply Z.leb_le in H1. apply Z.ltb_lt in H2. rewrite H1, H2. reflexivity. Qed.
Lemma i64_in x : (- 2 ^ 63 <= x < 2 ^ 63)%Z -> i64 x = Some x.
Proof. intros [H1 H2]. unfold i64. apply Z.leb_le in H1. apply Z.ltb_lt in H2. rewrite H1, H2. reflexivity. Qed.
Lemma to_int_id x : (- 2 ^ 31 <= x < 2 ^ 31)%Z -> to_int x = x.
Proof. intros H. unfold to_int. rewrite Z.mod_small; lia. Qed.

Lemma d_is0_spec (y : dbl) : is_finite y = true -> if d_is0 y then B2R y = 0 else B2R y <> 0.
Proof.
  destruct y as [s|s| |s m e B]; intros F; try discriminate; cbn [d_is0]; [reflexivity|].
  unfold B2R. intros Q. apply eq_0_F2R in Q. destruct s; discriminate.
Qed.

Lemma d_ldexp_zero (y : dbl) k : B2R y = 0 -> is_finite y = true -> B2R (d_ldexp y k) = 0 /\ is_finite (d_ldexp y k) = true.
Proof.
  intros Z F. destruct (ldexp_exact' y k F) as [F' V].
  - rewrite Z, Rmult_0_l. apply generic_format_0.
  - rewrite Z, Rmult_0_l, Rabs_R0. apply bp_pos.
  - split; [rewrite V, Z; ring|exact F'].
Qed.

Lemma to_long_val (x : dbl) : is_finite x = true -> Rabs (B2R x) < bp 63 ->
  d_to_long x = Some (Ztrunc (B2R x)) /\ (- 2 ^ 63 < Ztrunc (B2R x) < 2 ^ 63)%Z.
Proof.
  intros F B.
  assert (R : (- 2 ^ 63 < Ztrunc (B2R x) < 2 ^ 63)%Z).
  { assert (A : Rabs (IZR (Ztrunc (B2R x))) < IZR (2 ^ 63)).
    { eapply Rle_lt_trans; [|exact B]. rewrite <- abs_IZR, <- Ztrunc_abs.
      rewrite Ztrunc_floor by apply Rabs_pos. apply Zfloor_lb. }
    rewrite <- abs_IZR in A. apply lt_IZR in A. lia. }
  split; [|exact R]. unfold d_to_long. rewrite F, trunc_val. apply i64_in. lia.
Qed.

Lemma trunc_err x : Rabs (IZR (Ztrunc x) - x) < 1.
Proof.
  destruct (Rle_lt_dec 0 x) as [H|H].
  - rewrite Ztrunc_floor by exact H. pose proof (Zfloor_lb x). pose proof (Zfloor_ub x).
    apply Rabs_def1; lra.
  - rewrite Ztrunc_ceil by lra. pose proof (Zceil_ub x). pose proof (Zceil_lb x).
    apply Rabs_def1; lra.
Qed.

Lemma ldexp_trunc (y : dbl) k : is_finite y = true -> Rabs (B2R y * bp k) < bp 63 ->
  is_finite (d_ldexp y k) = true /\ Ztrunc (B2R (d_ldexp y k)) = Ztrunc (B2R y * bp k) /\ Rabs (B2R (d_ldexp y k)) < bp 63.
Proof.
  intros F U. destruct (Rle_lt_dec (bp (-1022)) (Rabs (B2R y * bp k))) as [L|L].
  - destruct (ldexp_exact y k F L) as [F' V].
    + eapply Rlt_trans; [exact U|]. apply bpow_lt. lia.
    + rewrite V. auto.
  - destruct (ldexp_tiny y k F) as [F' V]; [lra|].
    assert (S1 : bp (-1022) < 1) by (change 1 with (bp 0); apply bpow_lt; lia).
    assert (S2 : bp (-1022) < bp 63) by (apply bpow_lt; lia).
    split; [exact F'|]. split; [rewrite !Ztrunc_small by lra; reflexivity|lra].
Qed.

(** a 53-bit number of at least 2^52 is an integer *)
Lemma big_int x : generic_format radix2 (FLX_exp 53) x -> bp 52 <= Rabs x -> exists k, x = IZR k.
Proof.
  intros FX L. red in FX. unfold F2R in FX. cbn [Fnum Fexp] in FX.
  set (c := cexp radix2 (FLX_exp 53) x) in *.
  assert (C0 : (0 <= c)%Z).
  { unfold c, cexp, FLX_exp. assert (52 < mag radix2 x)%Z; [|lia]. apply mag_gt_bpow. exact L. }
  rewrite <- (IZR_Zpower radix2 c) in FX by exact C0. rewrite <- mult_IZR in FX. eexists; exact FX.
Qed.

(** *** get_si_exp_we *)
Lemma get_si_exp_we_ok i0 inan (y : dbl) ea : is_finite y = true -> (- 2 ^ 31 <= ea <= 2 ^ 62)%Z ->
  exists si expo, d_get_si_exp_we i0 inan y ea = Some (si, expo) /\
    (- 2 ^ 63 < si < 2 ^ 63)%Z /\ (0 <= expo)%Z /\
    (expo = 0%Z -> si = Ztrunc (B2R y * bp ea)) /\
    ((0 < expo)%Z -> IZR si * bp expo = B2R y * bp ea /\ bp 63 <= Rabs (B2R y * bp ea)).
Proof.
  intros F E. unfold d_get_si_exp_we. pose proof (d_is0_spec y F) as Z0. destruct (d_is0 y).
  - cbn [bind]. rewrite i64_in by lia. cbn [bind]. rewrite Z.sub_0_r.
    destruct (d_ldexp_zero y (to_int ea) Z0 F) as [V F'].
    destruct (to_long_val _ F') as [T R]; [rewrite V, Rabs_R0; apply bp_pos|].
    rewrite T. cbn [bind]. exists (Ztrunc 0), 0%Z. rewrite V, Z0, Rmult_0_l in *. repeat split; try lia.
    all: try (intros; exfalso; lia). all: rewrite Ztrunc_IZR; lia.
  - destruct (ilogb_spec i0 inan y F Z0) as [[L U] R]. unfold d_exponent. rewrite i32_in by lia. cbn [bind].
    set (l := ilogb i0 inan y) in *. rewrite i64_in by lia. cbn [bind]. rewrite i64_in by lia. cbn [bind].
    set (expo := Z.max (l + 1 + ea - 63) 0). rewrite i64_in by (unfold expo; lia). cbn [bind].
    destruct (Z.max_spec (l + 1 + ea - 63) 0) as [[C Q]|[C Q]].
    + fold expo in Q. rewrite Q. rewrite Z.sub_0_r, to_int_id by lia.
      assert (B : Rabs (B2R y * bp ea) < bp 63).
      { rewrite abs_bp. apply Rlt_le_trans with (bp (l + 1) * bp ea).
        - apply Rmult_lt_compat_r; [apply bp_pos|exact U]. - rewrite <- bp_plus. apply bpow_le. lia. }
      destruct (ldexp_trunc y ea F B) as (F' & T & B').
      destruct (to_long_val _ F' B') as [TL RR]. rewrite TL. cbn [bind]. rewrite T in *.
      eexists _, _. split; [reflexivity|]. repeat split; try lia.
    + fold expo in Q. rewrite Q.
      destruct (Z.eq_dec (l + 1 + ea - 63) 0) as [Z1|Z1].
      { rewrite Z1. rewrite Z.sub_0_r, to_int_id by lia.
        assert (B : Rabs (B2R y * bp ea) < bp 63).
        { rewrite abs_bp. apply Rlt_le_trans with (bp (l + 1) * bp ea).
          - apply Rmult_lt_compat_r; [apply bp_pos|exact U]. - rewrite <- bp_plus. apply bpow_le. lia. }
        destruct (ldexp_trunc y ea F B) as (F' & T & B').
        destruct (to_long_val _ F' B') as [TL RR]. rewrite TL. cbn [bind]. rewrite T in *.
        eexists _, _. split; [reflexivity|]. repeat split; try lia. }
      replace (ea - (l + 1 + ea - 63))%Z with (62 - l)%Z by ring. rewrite to_int_id by lia.
      assert (B1 : bp 62 <= Rabs (B2R y * bp (62 - l))).
      { rewrite abs_bp. apply Rle_trans with (bp l * bp (62 - l)); [rewrite <- bp_plus; apply bpow_le; lia|].
        apply Rmult_le_compat_r; [apply bpow_ge_0|exact L]. }
      assert (B2 : Rabs (B2R y * bp (62 - l)) < bp 63).
      { rewrite abs_bp. apply Rlt_le_trans with (bp (l + 1) * bp (62 - l)).
        - apply Rmult_lt_compat_r; [apply bp_pos|exact U]. - rewrite <- bp_plus. apply bpow_le. lia. }
      destruct (ldexp_exact y (62 - l) F) as [F' V].
      { eapply Rle_trans; [|exact B1]. apply bpow_le. lia. }
      { eapply Rlt_trans; [exact B2|]. apply bpow_lt. lia. }
      destruct (to_long_val _ F') as [TL RR]; [rewrite V; exact B2|]. rewrite TL. cbn [bind].
      assert (I : IZR (Ztrunc (B2R (d_ldexp y (62 - l)))) = B2R (d_ldexp y (62 - l))).
      { destruct (big_int _ (fmtx (d_ldexp y (62 - l)))) as [k K].
        - rewrite V. eapply Rle_trans; [|exact B1]. apply bpow_le. lia.
        - rewrite K, Ztrunc_IZR. reflexivity. }
      eexists _, _. split; [reflexivity|]. split; [exact RR|]. split; [lia|]. split; [lia|].
      intros _. rewrite I, V. split.
      * rewrite Rmult_assoc, <- bp_plus. f_equal. f_equal. ring.
      * rewrite abs_bp. apply Rle_trans with (bp l * bp ea).
        -- rewrite <- bp_plus. apply bpow_le. lia. -- apply Rmult_le_compat_r; [apply bpow_ge_0|exact L].
Qed.

(** *** rnd_we *)
Lemma rnd_we_ok i0 inan (y : dbl) ea : (- 2 ^ 31 <= i0 <= - 2 ^ 31 + 1)%Z ->
  is_finite y = true -> (- 2 ^ 31 < ea <= 2 ^ 62)%Z ->
  Rabs (IZR (ZnearestE (B2R y * bp ea)) * bp (- ea)) < bp 1024 ->
  exists r, d_rnd_we i0 inan y ea = Some r /\ is_finite r = true /\
    B2R r = IZR (ZnearestE (B2R y * bp ea)) * bp (- ea).
Proof.
  intros I0 F E NO. unfold d_rnd_we. pose proof (d_is0_spec y F) as Z0.
  destruct (Req_dec (B2R y) 0) as [Q|N].
  - assert (ZZ : ZnearestE (B2R y * bp ea) = 0%Z).
    { rewrite Q, Rmult_0_l. apply (Znearest_imp _ 0 0). rewrite Rminus_0_r, Rabs_R0. lra. }
    rewrite ZZ, Rmult_0_l. unfold d_exponent. assert (G : ilogb i0 inan y = i0).
    { destruct y as [s|s| |s m e B]; try discriminate; [reflexivity|]. cbn [d_is0] in Z0. contradiction. }
    rewrite G, i32_in by lia. cbn [bind]. rewrite i64_in by lia. cbn [bind]. destruct (53 <=? i0 + 1 + ea)%Z eqn:C.
    + exists y. auto.
    + rewrite i64_in by lia. cbn [bind]. eexists. split; [reflexivity|].
      destruct (d_ldexp_zero y (to_int ea) Q F) as [V F']. destruct (rint_val (d_ldexp y (to_int ea))) as [V2 F2].
      destruct (d_ldexp_zero (d_rint (d_ldexp y (to_int ea))) (to_int (- ea))) as [V3 F3].
      * rewrite V2, V. f_equal. apply (Znearest_imp _ 0 0). rewrite Rminus_0_r, Rabs_R0. lra.
      * rewrite F2. exact F'.
      * auto.
  - destruct (ilogb_spec i0 inan y F N) as [[L U] R]. unfold d_exponent. rewrite i32_in by lia. cbn [bind].
    set (l := ilogb i0 inan y) in *. rewrite i64_in by lia. cbn [bind].
    (* the value is an integer or has bits below the unit *)
    assert (FX : generic_format radix2 (FLX_exp 53) (B2R y * bp ea)) by apply fmtx_scale, fmtx.
    assert (FI : forall k, (ZnearestE (IZR k) = k)) by (intros k; apply Znearest_imp; rewrite Rminus_diag_eq by reflexivity; rewrite Rabs_R0; lra).
    assert (LE : bp (l + ea) <= Rabs (B2R y * bp ea) < bp (l + 1 + ea)).
    { rewrite abs_bp, !bp_plus. split; [apply Rmult_le_compat_r; [apply bpow_ge_0|exact L]|].
      rewrite <- bp_plus. apply Rmult_lt_compat_r; [apply bp_pos|exact U]. }
    destruct (53 <=? l + 1 + ea)%Z eqn:C.
    + apply Z.leb_le in C. exists y. split; [reflexivity|]. split; [exact F|].
      assert (I : exists k, B2R y * bp ea = IZR k).
      { apply big_int; [exact FX|]. eapply Rle_trans; [|apply LE]. apply bpow_le. lia. }
      destruct I as [k K]. rewrite K, FI, <- K. rewrite Rmult_assoc, bp_inv. ring.
    + apply Z.leb_gt in C. rewrite i64_in by lia. cbn [bind]. eexists. split; [reflexivity|].
      rewrite !to_int_id by lia.
      assert (B53 : Rabs (B2R y * bp ea) < bp 53).
      { eapply Rlt_le_trans; [apply LE|]. apply bpow_le. lia. }
      assert (RR : is_finite (d_rint (d_ldexp y ea)) = true /\ B2R (d_rint (d_ldexp y ea)) = IZR (ZnearestE (B2R y * bp ea))).
      { destruct (rint_val (d_ldexp y ea)) as [V2 F2]. destruct (Rle_lt_dec (bp (-1022)) (Rabs (B2R y * bp ea))) as [LL|LL].
        - destruct (ldexp_exact y ea F LL) as [F' V]; [eapply Rlt_trans; [exact B53|apply bpow_lt; lia]|].
          rewrite F2, V2, V. auto.
        - destruct (ldexp_tiny y ea F) as [F' V]; [lra|]. rewrite F2, V2. split; [exact F'|]. f_equal.
          assert (bp (-1022) < /2) by (change (/2) with (bp (-1)); apply bpow_lt; lia).
          rewrite !Znearest_small by lra. reflexivity. }
      destruct RR as [FR VR]. set (n := ZnearestE (B2R y * bp ea)) in *.
      destruct (ldexp_exact' (d_rint (d_ldexp y ea)) (- ea) FR) as [F3 V3].
      * rewrite VR.
        (* n <= 2^53, and either ea <= 1074 or the value was an integer *)
        destruct (Z_le_gt_dec ea 1074) as [S|S].
        -- apply fe_mant; [|lia]. assert (A : Rabs (IZR n) <= bp 53).
           { unfold n. rewrite <- (round_FIX0 ZnearestE) by typeclasses eauto.
             apply abs_round_le_generic; [typeclasses eauto|typeclasses eauto| |lra].
             apply generic_format_bpow. unfold FIX_exp. lia. }
           rewrite <- abs_IZR in A. apply (le_IZR _ (2 ^ 53)) in A. exact A.
        -- assert (I : exists k, B2R y * bp ea = IZR k).
           { pose proof (fmt y) as G. red in G. unfold F2R in G. cbn [Fnum Fexp] in G.
             set (c := cexp radix2 fe (B2R y)) in *. assert (C0 : (-1074 <= c)%Z) by (unfold c, cexp, FLT_exp; lia).
             rewrite G, Rmult_assoc, <- bp_plus. rewrite <- (IZR_Zpower radix2 (c + ea)) by lia. rewrite <- mult_IZR. eexists; reflexivity. }
           destruct I as [k K]. unfold n. rewrite K, FI, <- K, Rmult_assoc, bp_inv, Rmult_1_r. apply fmt.
      * rewrite VR. exact NO.
      * split; [exact F3|]. rewrite V3, VR. reflexivity.
Qed.

(** ** dpe *)
(** the real number denoted by a dpe *)
Definition val (x : dpe) : R := B2R (dm x) * bp (de x).
(** non-zero and normalised *)
Definition nz (x : dpe) : Prop := is_finite (dm x) = true /\ /2 <= Rabs (B2R (dm x)) < 1.
(** the normalised zero *)
Definition zr (x : dpe) : Prop := is_finite (dm x) = true /\ B2R (dm x) = 0 /\ de x = INT_MIN.
(** non-zero, normalised, with an exponent far from the limits of int *)
Definition nzb (x : dpe) : Prop := nz x /\ (Z.abs (de x) <= 2 ^ 30 - 1200)%Z.

Lemma nz_val x : nz x -> bp (de x - 1) <= Rabs (val x) < bp (de x).
Proof.
  intros [_ [L U]]. unfold val. rewrite abs_bp. replace (de x - 1)%Z with (-1 + de x)%Z by ring.
  rewrite bp_plus. change (bp (-1)) with (/2). pose proof (bp_pos (de x)). split; [apply Rmult_le_compat_r; lra|].
  rewrite <- (Rmult_1_l (bp (de x))) at 2. apply Rmult_lt_compat_r; lra.
Qed.
Lemma zr_val x : zr x -> val x = 0.
Proof. intros (_ & Z & _). unfold val. rewrite Z. ring. Qed.

Lemma finite_mant s m e (B : SpecFloat.bounded 53 1024 m e = true) :
  (Zpos m < 2 ^ 53)%Z /\ (-1074 <= e <= 971)%Z /\
  (bp (-1022) <= Rabs (B2R (B754_finite s m e B : dbl)) -> (2 ^ 52 <= Zpos m)%Z).
Proof.
  pose proof (proj2 (andb_prop _ _ B)) as B2. pose proof (proj1 (andb_prop _ _ B)) as B1.
  unfold SpecFloat.canonical_mantissa in B1. apply Zeq_bool_eq in B1. rewrite fexp_eq in B1. unfold FLT_exp in B1.
  apply Z.leb_le in B2. rewrite Zpos_digits2_pos in B1.
  pose proof (Zdigits_correct radix2 (Zpos m)) as [D1 D2]. rewrite Z.abs_eq in D1, D2 by lia.
  change (Zpower radix2) with (Z.pow 2) in *.
  assert (P : (2 ^ Zdigits radix2 (Z.pos m) <= 2 ^ 53)%Z) by (apply Z.pow_le_mono_r; lia).
  split; [change (Zpower radix2 (Zdigits radix2 (Z.pos m))) with (2 ^ Zdigits radix2 (Z.pos m))%Z in D2; lia|].
  split; [lia|]. intros L. destruct (Z_le_gt_dec (2 ^ 52) (Zpos m)) as [?|G]; [assumption|exfalso].
  assert (DD : (Zdigits radix2 (Zpos m) - 1 < 52)%Z).
  { apply (Z.pow_lt_mono_r_iff 2); [lia|lia|]. change (Zpower radix2 (Zdigits radix2 (Z.pos m) - 1)) with (2 ^ (Zdigits radix2 (Z.pos m) - 1))%Z in D1. lia. }
  assert (EE : e = (-1074)%Z) by lia. subst e.
  unfold B2R, F2R in L. cbn [Fnum Fexp] in L. rewrite abs_bp, <- abs_IZR, abs_cond_Zopp in L.
  replace (-1022)%Z with (52 + -1074)%Z in L by ring. rewrite bp_plus in L. apply Rmult_le_reg_r in L; [|apply bp_pos].
  change (bp 52) with (IZR (2 ^ 52)) in L. apply le_IZR in L. cbn [Z.abs] in L. lia.
Qed.

Lemma normalize_ok x : is_finite (dm x) = true -> bp (-1022) <= Rabs (B2R (dm x)) ->
  (- 2 ^ 31 + 1100 <= de x < 2 ^ 31 - 1100)%Z ->
  exists r, dpe_normalize x = Some r /\ nz r /\ val r = val x.
Proof.
  destruct x as [d ex]. cbn [dm de]. intros F L R. unfold dpe_normalize. cbn [dm de].
  destruct d as [s|s| |s m e B]; try discriminate.
  { exfalso. cbn [B2R] in L. rewrite Rabs_R0 in L. pose proof (bp_pos (-1022)). lra. }
  destruct (finite_mant s m e B) as (M1 & E1 & M2). specialize (M2 L).
  replace (2 ^ 52 <=? Zpos m)%Z with true by (symmetry; apply Z.leb_le; exact M2).
  rewrite i32_in by lia. cbn [bind].
  replace (2 ^ 52 + (Zpos m - 2 ^ 52))%Z with (Zpos m) by ring.
  set (q := if s then (- Zpos m)%Z else Zpos m).
  assert (Q : Z.abs q = Zpos m) by (unfold q; destruct s; lia).
  destruct (d_of_val q (-53)) as [FF V].
  { apply fe_mant; lia. }
  { rewrite abs_bp, <- abs_IZR, Q. apply Rlt_trans with (bp 53 * bp (-53)).
    - apply Rmult_lt_compat_r; [apply bp_pos|]. change (bp 53) with (IZR (2 ^ 53)). apply IZR_lt. lia.
    - rewrite <- bp_plus. apply bpow_lt. lia. }
  eexists. split; [reflexivity|]. split.
  - split; cbn [dm]; [exact FF|]. rewrite V, abs_bp, <- abs_IZR, Q. split.
    + change (/2) with (bp (52 + -53)). rewrite bp_plus. apply Rmult_le_compat_r; [apply bpow_ge_0|].
      change (bp 52) with (IZR (2 ^ 52)). apply IZR_le. lia.
    + change 1 with (bp (53 + -53)). rewrite bp_plus. apply Rmult_lt_compat_r; [apply bp_pos|].
      change (bp 53) with (IZR (2 ^ 53)). apply IZR_lt. lia.
  - unfold val. cbn [dm de]. rewrite V. unfold B2R, F2R. cbn [Fnum Fexp].
    replace (ex + (e + 1075 - 1022))%Z with (ex + e + 53)%Z by ring.
    rewrite !bp_plus. replace (cond_Zopp s (Zpos m)) with q by (unfold q; destruct s; reflexivity).
    transitivity (IZR q * bp e * bp ex * (bp 53 * bp (-53))); [ring|].
    change (-53)%Z with (- (53))%Z. rewrite bp_inv. ring.
Qed.

Lemma normalize_zero x : is_finite (dm x) = true -> B2R (dm x) = 0 -> exists r, dpe_normalize x = Some r /\ zr r.
Proof.
  destruct x as [d ex]. cbn [dm de]. intros F Z. pose proof (d_is0_spec d F) as D. unfold dpe_normalize. cbn [dm].
  destruct d as [s|s| |s m e B]; try discriminate.
  - eexists. split; [reflexivity|]. repeat split.
  - cbn [d_is0] in D. contradiction.
Qed.

Lemma RNx_abs_le x y : generic_format radix2 (FLX_exp 53) y -> Rabs x <= y -> Rabs (RNx x) <= y.
Proof. intros G H. apply abs_round_le_generic; [typeclasses eauto|typeclasses eauto|exact G|exact H]. Qed.
Lemma RNx_abs_ge x y : generic_format radix2 (FLX_exp 53) y -> y <= Rabs x -> y <= Rabs (RNx x).
Proof. intros G H. apply abs_round_ge_generic; [typeclasses eauto|typeclasses eauto|exact G|exact H]. Qed.
Lemma fx_bp e : generic_format radix2 (FLX_exp 53) (bp e).
Proof. apply generic_format_bpow. unfold FLX_exp. lia. Qed.
Lemma RNx_fe x : bp (-1022) <= Rabs x -> round radix2 fe ZnearestE x = RNx x.
Proof. intros H. apply round_FLT_FLX. exact H. Qed.

(** *** multiplication and division *)
Lemma mul_ok y z : nzb y -> nzb z -> exists r, dpe_mul y z = Some r /\ nz r /\ val r = RNx (val y * val z).
Proof.
  intros [[Fy [Ly Uy]] By] [[Fz [Lz Uz]] Bz]. unfold dpe_mul. rewrite i32_in by lia. cbn [bind].
  set (p := B2R (dm y) * B2R (dm z)).
  assert (P : bp (-2) <= Rabs p <= bp 0).
  { unfold p. rewrite Rabs_mult. change (bp 0) with 1. change (bp (-2)) with (/ (2 * 2)). split; nra. }
  assert (PP : bp (-2) <= Rabs (RNx p) <= bp 0).
  { split; [apply RNx_abs_ge; [apply fx_bp|apply P]|apply RNx_abs_le; [apply fx_bp|apply P]]. }
  pose proof (Bmult_correct 53 1024 _ _ mode_NE (dm y) (dm z)) as H. fold p in H. rewrite fexp_eq in H.
  change (round_mode mode_NE) with ZnearestE in H.
  rewrite RNx_fe in H by (eapply Rle_trans; [|apply P]; apply bpow_le; lia).
  rewrite Rlt_bool_true in H by (eapply Rle_lt_trans; [apply PP|]; apply bpow_lt; lia).
  destruct H as (V & F & _). rewrite Fy, Fz in F. cbn in F.
  destruct (normalize_ok (mkdpe (d_mul (dm y) (dm z)) (de y + de z))) as (r & E & N & W); cbn [dm de].
  - exact F.
  - unfold d_mul. rewrite V. eapply Rle_trans; [|apply PP]. apply bpow_le. lia.
  - lia.
  - exists r. split; [exact E|]. split; [exact N|]. rewrite W. unfold val at 1. cbn [dm de]. unfold d_mul. rewrite V.
    rewrite <- RNx_scale. f_equal. unfold p, val. rewrite bp_plus. ring.
Qed.
Lemma div_ok y z : nzb y -> nzb z -> exists r, dpe_div y z = Some r /\ nz r /\ val r = RNx (val y / val z).
Proof.
  intros [[Fy [Ly Uy]] By] [[Fz [Lz Uz]] Bz]. unfold dpe_div. rewrite i32_in by lia. cbn [bind].
  set (p := B2R (dm y) / B2R (dm z)).
  assert (NZ : B2R (dm z) <> 0) by (intros Q; rewrite Q, Rabs_R0 in Lz; lra).
  assert (P : bp (-1) <= Rabs p <= bp 1).
  { unfold p, Rdiv. rewrite Rabs_mult, Rabs_inv. change (bp 1) with 2. change (bp (-1)) with (/ 2).
    assert (IZ : 1 <= / Rabs (B2R (dm z)) <= 2).
    { split.
      - rewrite <- Rinv_1 at 1. apply Rinv_le_contravar; lra.
      - replace 2 with (/ / 2) by (apply Rinv_inv). apply Rinv_le_contravar; lra. }
    split; nra. }
  assert (PP : bp (-1) <= Rabs (RNx p) <= bp 1).
  { split; [apply RNx_abs_ge; [apply fx_bp|apply P]|apply RNx_abs_le; [apply fx_bp|apply P]]. }
  pose proof (Bdiv_correct 53 1024 _ _ mode_NE (dm y) (dm z) NZ) as H. fold p in H. rewrite fexp_eq in H.
  change (round_mode mode_NE) with ZnearestE in H.
  rewrite RNx_fe in H by (eapply Rle_trans; [|apply P]; apply bpow_le; lia).
  rewrite Rlt_bool_true in H by (eapply Rle_lt_trans; [apply PP|]; apply bpow_lt; lia).
  destruct H as (V & F & _). rewrite Fy in F.
  destruct (normalize_ok (mkdpe (d_div (dm y) (dm z)) (de y - de z))) as (r & E & N & W); cbn [dm de].
  - exact F.
  - unfold d_div. rewrite V. eapply Rle_trans; [|apply PP]. apply bpow_le. lia.
  - lia.
  - exists r. split; [exact E|]. split; [exact N|]. rewrite W. unfold val at 1. cbn [dm de]. unfold d_div. rewrite V.
    rewrite <- RNx_scale. f_equal. unfold p, val. unfold Z.sub. rewrite bp_plus, bpow_opp.
    pose proof (bp_nz (de z)). field. auto.
Qed.

(** *** addition *)
Lemma scale_ok (d : dbl) k : is_finite d = true -> /2 <= Rabs (B2R d) < 1 -> (0 <= k <= 53)%Z ->
  is_finite (dpe_scale d (- k)) = true /\ B2R (dpe_scale d (- k)) = B2R d * bp (- k).
Proof.
  intros F [L U] K. unfold dpe_scale. destruct (d_of_bp (- k)) as [F1 V1]; [lia|].
  pose proof (Bmult_correct 53 1024 _ _ mode_NE d (d_of 1 (- k))) as H. rewrite V1, fexp_eq in H.
  assert (A : bp (-1022) <= Rabs (B2R d * bp (- k))).
  { rewrite abs_bp. apply Rle_trans with (bp (-1) * bp (- k)); [rewrite <- bp_plus; apply bpow_le; lia|].
    apply Rmult_le_compat_r; [apply bpow_ge_0|exact L]. }
  rewrite round_generic in H; [|typeclasses eauto|apply fe_of_fx; [apply fmtx_scale, fmtx|exact A]].
  rewrite Rlt_bool_true in H.
  - destruct H as (V & FF & _). rewrite F, F1 in FF. split; [exact FF|exact V].
  - rewrite abs_bp. apply Rlt_le_trans with (1 * bp (- k)); [apply Rmult_lt_compat_r; [apply bp_pos|exact U]|].
    rewrite Rmult_1_l. apply bpow_le. lia.
Qed.

(** the sum of a mantissa and a shifted mantissa is a multiple of 2^-106 *)
Lemma mant_mult (d : dbl) : /2 <= Rabs (B2R d) -> exists k, B2R d = IZR k * bp (-53).
Proof.
  intros L. pose proof (fmtx d) as G. red in G. unfold F2R in G. cbn [Fnum Fexp] in G.
  set (c := cexp radix2 (FLX_exp 53) (B2R d)) in *.
  assert (C0 : (-53 <= c)%Z).
  { unfold c, cexp, FLX_exp. assert (-1 < mag radix2 (B2R d))%Z; [|lia]. apply mag_gt_bpow. exact L. }
  exists (Ztrunc (scaled_mantissa radix2 (FLX_exp 53) (B2R d)) * 2 ^ (c + 53))%Z.
  rewrite mult_IZR. change (2 ^ (c + 53))%Z with (Zpower radix2 (c + 53)). rewrite IZR_Zpower by lia.
  rewrite Rmult_assoc, <- bp_plus. replace (c + 53 + -53)%Z with c by ring. exact G.
Qed.

Lemma plus_ok (a b : dbl) (op : bool) : is_finite a = true -> is_finite b = true ->
  (exists k, B2R a = IZR k * bp (-106)) -> (exists k, B2R b = IZR k * bp (-106)) ->
  Rabs (B2R a) <= 1 -> Rabs (B2R b) <= 1 ->
  let s := if op then B2R a + B2R b else B2R a - B2R b in
  let r := if op then d_add a b else d_sub a b in
  is_finite r = true /\ B2R r = RNx s /\ (s = 0 \/ bp (-106) <= Rabs s).
Proof.
  intros Fa Fb [k K] [l L] Ua Ub s r.
  assert (S0 : s = 0 \/ bp (-106) <= Rabs s).
  { assert (Q : exists q, s = IZR q * bp (-106)).
    { unfold s. destruct op; [exists (k + l)%Z; rewrite plus_IZR|exists (k - l)%Z; rewrite minus_IZR]; rewrite K, L; ring. }
    destruct Q as [q Q]. destruct (Z.eq_dec q 0) as [-> |N]; [left; rewrite Q; ring|right].
    rewrite Q, abs_bp, <- abs_IZR. rewrite <- (Rmult_1_l (bp (-106))) at 1. apply Rmult_le_compat_r; [apply bpow_ge_0|].
    apply IZR_le. lia. }
  assert (SU : Rabs s <= bp 1).
  { change (bp 1) with 2. unfold s. destruct op.
    - eapply Rle_trans; [apply Rabs_triang|]. lra.
    - unfold Rminus. eapply Rle_trans; [apply Rabs_triang|]. rewrite Rabs_Ropp. lra. }
  assert (R : round radix2 fe ZnearestE s = RNx s).
  { destruct S0 as [Z|Z]; [rewrite Z; unfold RNx; rewrite !round_0 by typeclasses eauto; reflexivity|].
    apply RNx_fe. eapply Rle_trans; [|exact Z]. apply bpow_le. lia. }
  assert (NO : Rabs (RNx s) < bp 1024).
  { eapply Rle_lt_trans; [apply (RNx_abs_le _ (bp 1)); [apply fx_bp|exact SU]|]. apply bpow_lt. lia. }
  unfold r. destruct op.
  - pose proof (Bplus_correct 53 1024 _ _ mode_NE a b Fa Fb) as H. rewrite fexp_eq in H. change (round_mode mode_NE) with ZnearestE in H.
    fold s in H. rewrite R, Rlt_bool_true in H by exact NO. destruct H as (V & F & _). auto.
  - pose proof (Bminus_correct 53 1024 _ _ mode_NE a b Fa Fb) as H. rewrite fexp_eq in H. change (round_mode mode_NE) with ZnearestE in H.
    fold s in H. rewrite R, Rlt_bool_true in H by exact NO. destruct H as (V & F & _). auto.
Qed.

Lemma mult106 x k : (exists q, x = IZR q * bp (-53)) -> (0 <= k <= 53)%Z -> exists q, x * bp (- k) = IZR q * bp (-106).
Proof.
  intros [q Q] K. exists (q * 2 ^ (53 - k))%Z. rewrite Q, mult_IZR. change (2 ^ (53 - k))%Z with (Zpower radix2 (53 - k)).
  rewrite IZR_Zpower by lia. rewrite !Rmult_assoc, <- !bp_plus. f_equal. f_equal. ring.
Qed.

Lemma core_ok (r : dbl) s e : is_finite r = true -> B2R r = RNx s -> (s = 0 \/ bp (-106) <= Rabs s) ->
  (Z.abs e <= 2 ^ 30)%Z ->
  exists x, dpe_normalize (mkdpe r e) = Some x /\ (nz x \/ zr x) /\ val x = RNx (s * bp e).
Proof.
  intros F V [Z|L] E.
  - destruct (normalize_zero (mkdpe r e)) as (x & Q & N); cbn [dm]; [exact F| |].
    + rewrite V, Z. unfold RNx. apply round_0; typeclasses eauto.
    + exists x. split; [exact Q|]. split; [auto|]. rewrite (zr_val _ N), Z, Rmult_0_l. unfold RNx. rewrite round_0 by typeclasses eauto. reflexivity.
  - destruct (normalize_ok (mkdpe r e)) as (x & Q & N & W); cbn [dm de]; [exact F| |lia|].
    + rewrite V. apply RNx_abs_ge; [apply fx_bp|]. eapply Rle_trans; [|exact L]. apply bpow_le. lia.
    + exists x. split; [exact Q|]. split; [auto|]. rewrite W. unfold val. cbn [dm de]. rewrite V. symmetry. apply RNx_scale.
Qed.

Lemma RNx_err x : Rabs (RNx x - x) <= bp (-53) * Rabs (RNx x).
Proof.
  pose proof (relative_error_N_FLX_round radix2 53 eq_refl (fun t => negb (Z.even t)) x) as H.
  replace (/ 2 * bp (- (53) + 1)) with (bp (-53)) in H; [exact H|].
  change (/2) with (bp (-1)). rewrite <- bp_plus. reflexivity.
Qed.

Lemma far_err y z : nz y -> Rabs (val z) <= bp (de y - 54) -> Rabs (val z) <= bp (-53) * Rabs (val y).
Proof.
  intros N L. destruct (nz_val y N) as [A _]. eapply Rle_trans; [exact L|].
  replace (de y - 54)%Z with (-53 + (de y - 1))%Z by ring. rewrite bp_plus.
  apply Rmult_le_compat_l; [apply bpow_ge_0|exact A].
Qed.

(** sum (op = true) and difference *)
Definition addsub (op : bool) : dpe -> dpe -> option dpe := if op then dpe_add else dpe_sub.
Definition rsum (op : bool) (y z : dpe) : R := if op then val y + val z else val y - val z.

Lemma val_neg z : val (dpe_neg z) = - val z.
Proof. unfold val, dpe_neg. cbn [dm de]. rewrite B2R_Bopp. ring. Qed.
Lemma nz_neg z : nz z -> nz (dpe_neg z).
Proof. intros [F B]. unfold nz, dpe_neg. cbn [dm]. rewrite is_finite_Bopp, B2R_Bopp, Rabs_Ropp. auto. Qed.
Lemma zr_neg z : zr z -> zr (dpe_neg z).
Proof. intros (F & B & E). unfold zr, dpe_neg. cbn [dm de]. rewrite is_finite_Bopp, B2R_Bopp, B, Ropp_0. auto. Qed.

Lemma addsub_ok op y z : (nzb y \/ zr y) -> (nzb z \/ zr z) ->
  exists r, addsub op y z = Some r /\ (nz r \/ zr r) /\
    Rabs (val r - rsum op y z) <= bp (-53) * Rabs (val r) /\
    ((Z.abs (de y - de z) <= 53)%Z -> val r = RNx (rsum op y z)).
Proof.
  intros Ny Nz.
  assert (Ry : (- 2 ^ 31 <= de y <= 2 ^ 30 - 1200)%Z) by (destruct Ny as [[_ B]|(_ & _ & ->)]; unfold INT_MIN; lia).
  assert (Rz : (- 2 ^ 31 <= de z <= 2 ^ 30 - 1200)%Z) by (destruct Nz as [[_ B]|(_ & _ & ->)]; unfold INT_MIN; lia).
  assert (Wy : nz y \/ zr y) by (destruct Ny as [[? _]|?]; auto).
  assert (Wz : nz z \/ zr z) by (destruct Nz as [[? _]|?]; auto).
  assert (D : exists r, addsub op y z = Some r /\
      ((de z + 53 < de y)%Z /\ r = y \/ (de y + 53 < de z)%Z /\ r = (if op then z else dpe_neg z) \/
       (0 <= de y - de z <= 53)%Z /\ dpe_normalize (mkdpe ((if op then d_add else d_sub) (dm y) (dpe_scale (dm z) (- (de y - de z)))) (de y)) = Some r \/
       (0 < de z - de y <= 53)%Z /\ dpe_normalize (mkdpe (if op then d_add (dm z) (dpe_scale (dm y) (- (de z - de y))) else d_sub (dpe_scale (dm y) (- (de z - de y))) (dm z)) (de z)) = Some r)
     \/ addsub op y z = None /\ (0 <= de y - de z <= 53 /\ dpe_normalize (mkdpe ((if op then d_add else d_sub) (dm y) (dpe_scale (dm z) (- (de y - de z)))) (de y)) = None
       \/ 0 < de z - de y <= 53 /\ dpe_normalize (mkdpe (if op then d_add (dm z) (dpe_scale (dm y) (- (de z - de y))) else d_sub (dpe_scale (dm y) (- (de z - de y))) (dm z)) (de z)) = None)%Z).
  { unfold addsub. destruct op; unfold dpe_add, dpe_sub; (rewrite i32_in by lia; cbn [bind];
    destruct (Z.ltb_spec (de z + 53) (de y)); [eexists; left; split; [reflexivity|left; split; [lia|reflexivity]]|];
    rewrite i32_in by lia; cbn [bind];
    destruct (Z.ltb_spec (de y + 53) (de z)); [eexists; left; split; [reflexivity|right; left; split; [lia|reflexivity]]|];
    rewrite i32_in by lia; cbn [bind]; destruct (Z.leb_spec 0 (de y - de z));
    [|replace (de y - de z)%Z with (- (de z - de y))%Z by ring]).
    all: match goal with |- context [?a = Some _] => destruct a as [r|] eqn:E end.
    all: try (exists r; left; split; [reflexivity|]; right; right; first [left; split; [lia|]; first [exact E|reflexivity]|right; split; [lia|]; first [exact E|reflexivity]]).
    all: exists y; right; split; [reflexivity|]; first [left; split; [lia|]; first [exact E|reflexivity]|right; split; [lia|]; first [exact E|reflexivity]]. }
  assert (Z0 : forall x, zr x -> val x = 0) by exact zr_val.
  assert (SUMS : forall r, (nz r \/ zr r) -> val r = RNx (rsum op y z) ->
     (nz r \/ zr r) /\ Rabs (val r - rsum op y z) <= bp (-53) * Rabs (val r) /\
     ((Z.abs (de y - de z) <= 53)%Z -> val r = RNx (rsum op y z))).
  { intros r N V. split; [exact N|]. split; [rewrite V; apply RNx_err|auto]. }
  (* nearby exponents *)
  assert (NEAR1 : (0 <= de y - de z <= 53)%Z -> exists r,
     dpe_normalize (mkdpe ((if op then d_add else d_sub) (dm y) (dpe_scale (dm z) (- (de y - de z)))) (de y)) = Some r /\
     (nz r \/ zr r) /\ val r = RNx (rsum op y z)).
  { intros K. destruct Ny as [[[Fy By] Ey]|(Fy & Vy & Ey)], Nz as [[[Fz Bz] Ez]|(Fz & Vz & Ez)]; try (unfold INT_MIN in *; lia).
    - destruct (scale_ok (dm z) (de y - de z) Fz Bz K) as [Fs Vs].
      destruct (plus_ok (dm y) (dpe_scale (dm z) (- (de y - de z))) op Fy Fs) as (F & V & S).
      + destruct (mult106 (B2R (dm y)) 0 (mant_mult _ (proj1 By))) as [q Q]; [lia|]. exists q. rewrite <- Q. change (bp (- 0)) with 1. ring.
      + rewrite Vs. apply mult106; [apply mant_mult, Bz|exact K].
      + lra.
      + rewrite Vs, abs_bp. apply Rle_trans with (1 * 1); [|lra]. apply Rmult_le_compat; [apply Rabs_pos|apply bpow_ge_0|lra|].
        change 1 with (bp 0). apply bpow_le. lia.
      + replace ((if op then d_add else d_sub) (dm y) (dpe_scale (dm z) (- (de y - de z)))) with (if op then d_add (dm y) (dpe_scale (dm z) (- (de y - de z))) else d_sub (dm y) (dpe_scale (dm z) (- (de y - de z)))) by (destruct op; reflexivity).
        destruct (core_ok _ _ (de y) F V S) as (x & Q & N & W); [lia|]. exists x. split; [exact Q|]. split; [exact N|]. rewrite W. f_equal.
        rewrite Vs. unfold rsum, val.
        assert (X : bp (de y) * bp (- (de y - de z)) = bp (de z)) by (rewrite <- bp_plus; f_equal; ring).
        destruct op; rewrite <- X; ring.
    - rewrite Ey, Ez. cbn [Z.sub Z.opp Z.add]. replace (INT_MIN - INT_MIN)%Z with 0%Z by ring.
      assert (Fs : is_finite (dpe_scale (dm z) (- 0)) = true /\ B2R (dpe_scale (dm z) (- 0)) = 0).
      { unfold dpe_scale. destruct (d_of_bp (- 0)) as [F1 V1]; [lia|].
        pose proof (Bmult_correct 53 1024 _ _ mode_NE (dm z) (d_of 1 (- 0))) as H. rewrite Vz, Rmult_0_l, round_0, Rabs_R0 in H by typeclasses eauto.
        rewrite Rlt_bool_true in H by apply bp_pos. destruct H as (V & FF & _). rewrite Fz, F1 in FF. split; [exact FF|exact V]. }
      destruct Fs as [Fs Vs].
      destruct (plus_ok (dm y) (dpe_scale (dm z) (- 0)) op Fy Fs) as (F & V & S).
      + exists 0%Z. rewrite Vy. ring. + exists 0%Z. rewrite Vs. ring.
      + rewrite Vy, Rabs_R0. lra. + rewrite Vs, Rabs_R0. lra.
      + destruct (normalize_zero (mkdpe ((if op then d_add else d_sub) (dm y) (dpe_scale (dm z) (- 0))) INT_MIN)) as (x & Q & N); cbn [dm].
        * destruct op; exact F.
        * replace ((if op then d_add else d_sub) (dm y) (dpe_scale (dm z) (- 0))) with (if op then d_add (dm y) (dpe_scale (dm z) (- 0)) else d_sub (dm y) (dpe_scale (dm z) (- 0))) by (destruct op; reflexivity).
          rewrite V, Vy, Vs. unfold RNx. destruct op; [rewrite Rplus_0_r|rewrite Rminus_0_r]; apply round_0; typeclasses eauto.
        * exists x. split; [exact Q|]. split; [auto|]. rewrite (zr_val x N). unfold rsum, val. rewrite Vy, Vz, !Rmult_0_l.
          unfold RNx. destruct op; [rewrite Rplus_0_r|rewrite Rminus_0_r]; symmetry; apply round_0; typeclasses eauto. }
  assert (NEAR2 : (0 < de z - de y <= 53)%Z -> exists r,
     dpe_normalize (mkdpe (if op then d_add (dm z) (dpe_scale (dm y) (- (de z - de y))) else d_sub (dpe_scale (dm y) (- (de z - de y))) (dm z)) (de z)) = Some r /\
     (nz r \/ zr r) /\ val r = RNx (rsum op y z)).
  { intros K. destruct Ny as [[[Fy By] Ey]|(Fy & Vy & Ey)], Nz as [[[Fz Bz] Ez]|(Fz & Vz & Ez)]; try (unfold INT_MIN in *; lia).
    assert (K' : (0 <= de z - de y <= 53)%Z) by lia.
    destruct (scale_ok (dm y) (de z - de y) Fy By K') as [Fs Vs].
    assert (M1 : exists k, B2R (dm z) = IZR k * bp (-106)).
    { destruct (mult106 (B2R (dm z)) 0 (mant_mult _ (proj1 Bz))) as [q Q]; [lia|]. exists q. rewrite <- Q. change (bp (- 0)) with 1. ring. }
    assert (M2 : exists k, B2R (dpe_scale (dm y) (- (de z - de y))) = IZR k * bp (-106)).
    { rewrite Vs. apply mult106; [apply mant_mult, By|exact K']. }
    assert (U1 : Rabs (B2R (dm z)) <= 1) by lra.
    assert (U2 : Rabs (B2R (dpe_scale (dm y) (- (de z - de y)))) <= 1).
    { rewrite Vs, abs_bp. apply Rle_trans with (1 * 1); [|lra]. apply Rmult_le_compat; [apply Rabs_pos|apply bpow_ge_0|lra|].
      change 1 with (bp 0). apply bpow_le. lia. }
    assert (X : bp (de z) * bp (- (de z - de y)) = bp (de y)) by (rewrite <- bp_plus; f_equal; ring).
    destruct op.
    - destruct (plus_ok (dm z) (dpe_scale (dm y) (- (de z - de y))) true Fz Fs M1 M2 U1 U2) as (F & V & S).
      destruct (core_ok _ _ (de z) F V S) as (x & Q & N & W); [lia|]. exists x. split; [exact Q|]. split; [exact N|]. rewrite W. f_equal.
      cbv iota. rewrite Vs. unfold rsum, val. rewrite <- X. ring.
    - destruct (plus_ok (dpe_scale (dm y) (- (de z - de y))) (dm z) false Fs Fz M2 M1 U2 U1) as (F & V & S).
      destruct (core_ok _ _ (de z) F V S) as (x & Q & N & W); [lia|]. exists x. split; [exact Q|]. split; [exact N|]. rewrite W. f_equal.
      cbv iota. rewrite Vs. unfold rsum, val. rewrite <- X. ring. }
  destruct D as [r [[E C]|[E C]]].
  - exists r. split; [exact E|]. destruct C as [[K ->]|[[K ->]|[[K Q]|[K Q]]]].
    + (* y dominates *)
      split; [exact Wy|]. split; [|intros; lia].
      assert (L : Rabs (val z) <= bp (-53) * Rabs (val y)).
      { destruct Wy as [Ny'|Zy]; [|destruct Zy as (_ & _ & Q); rewrite Q in *; unfold INT_MIN in *; lia].
        apply far_err; [exact Ny'|]. destruct Wz as [Nz'|Zz].
        - apply Rlt_le. eapply Rlt_le_trans; [apply nz_val, Nz'|]. apply bpow_le. lia.
        - rewrite (Z0 _ Zz), Rabs_R0. apply bpow_ge_0. }
      unfold rsum. destruct op.
      * replace (val y - (val y + val z)) with (- val z) by ring. rewrite Rabs_Ropp. exact L.
      * replace (val y - (val y - val z)) with (val z) by ring. exact L.
    + split; [destruct op; [exact Wz|destruct Wz; [left; apply nz_neg|right; apply zr_neg]; assumption]|]. split; [|intros; lia].
      assert (L : Rabs (val y) <= bp (-53) * Rabs (val z)).
      { destruct Wz as [Nz'|Zz]; [|destruct Zz as (_ & _ & Q); rewrite Q in *; unfold INT_MIN in *; lia].
        apply far_err; [exact Nz'|]. destruct Wy as [Ny'|Zy].
        - apply Rlt_le. eapply Rlt_le_trans; [apply nz_val, Ny'|]. apply bpow_le. lia.
        - rewrite (Z0 _ Zy), Rabs_R0. apply bpow_ge_0. }
      unfold rsum. destruct op.
      * replace (val z - (val y + val z)) with (- val y) by ring. rewrite Rabs_Ropp. exact L.
      * rewrite val_neg. replace (- val z - (val y - val z)) with (- val y) by ring. rewrite !Rabs_Ropp. exact L.
    + destruct (NEAR1 K) as (r' & Q' & N & V). rewrite Q in Q'. injection Q' as <-. apply SUMS; assumption.
    + destruct (NEAR2 K) as (r' & Q' & N & V). rewrite Q in Q'. injection Q' as <-. apply SUMS; assumption.
  - exfalso. destruct C as [[K Q]|[K Q]].
    + destruct (NEAR1 K) as (r' & Q' & _). congruence.
    + destruct (NEAR2 K) as (r' & Q' & _). congruence.
Qed.

(** *** comparison *)
Lemma sign_ok x : is_finite (dm x) = true ->
  dpe_sign x = (-1)%Z /\ B2R (dm x) < 0 \/ dpe_sign x = 0%Z /\ B2R (dm x) = 0 \/ dpe_sign x = 1%Z /\ 0 < B2R (dm x).
Proof.
  intros F. unfold dpe_sign, d_lt, d_zero. rewrite !Bltb_correct by (exact F || reflexivity).
  change (B2R (B754_zero false : dbl)) with 0. destruct (Rlt_bool_spec (B2R (dm x)) 0); [auto|].
  destruct (Rlt_bool_spec 0 (B2R (dm x))); [auto|]. right. left. split; [reflexivity|lra].
Qed.
Lemma val_neg_iff x : B2R (dm x) < 0 -> val x < 0.
Proof. intros H. unfold val. pose proof (bp_pos (de x)). nra. Qed.
Lemma val_pos_iff x : 0 < B2R (dm x) -> 0 < val x.
Proof. intros H. unfold val. pose proof (bp_pos (de x)). nra. Qed.

Lemma nz_far x y : nz x -> nz y -> (de x < de y)%Z -> Rabs (val x) < Rabs (val y).
Proof.
  intros Nx Ny H. eapply Rlt_le_trans; [apply nz_val, Nx|]. eapply Rle_trans; [|apply nz_val, Ny]. apply bpow_le. lia.
Qed.

Lemma cmp_ok x y : (nz x \/ zr x) -> (nz y \/ zr y) ->
  ((dpe_cmp x y < 0)%Z /\ val x < val y) \/ (dpe_cmp x y = 0%Z /\ val x = val y) \/ ((0 < dpe_cmp x y)%Z /\ val y < val x).
Proof.
  intros Nx Ny.
  assert (Fx : is_finite (dm x) = true) by (destruct Nx as [[F _]|[F _]]; exact F).
  assert (Fy : is_finite (dm y) = true) by (destruct Ny as [[F _]|[F _]]; exact F).
  unfold dpe_cmp. destruct (sign_ok x Fx) as [[Sx Vx]|[[Sx Vx]|[Sx Vx]]], (sign_ok y Fy) as [[Sy Vy]|[[Sy Vy]|[Sy Vy]]];
    rewrite Sx, Sy; cbn [Z.sub Z.opp Z.add Z.eqb negb Z.pos_sub Pos.add Z.ltb Z.compare].
  (* different signs *)
  2: left; split; [reflexivity|]; pose proof (val_neg_iff x Vx); unfold val in *; rewrite Vy; lra.
  2: left; split; [reflexivity|]; pose proof (val_neg_iff x Vx); pose proof (val_pos_iff y Vy); lra.
  2: right; right; split; [reflexivity|]; pose proof (val_neg_iff y Vy); unfold val in *; rewrite Vx; lra.
  3: left; split; [reflexivity|]; pose proof (val_pos_iff y Vy); unfold val in *; rewrite Vx; lra.
  3: right; right; split; [reflexivity|]; pose proof (val_neg_iff y Vy); pose proof (val_pos_iff x Vx); lra.
  3: right; right; split; [reflexivity|]; pose proof (val_pos_iff x Vx); unfold val in *; rewrite Vy; lra.
  - (* both negative *)
    assert (Nx' : nz x) by (destruct Nx as [?|(_ & Q & _)]; [assumption|lra]).
    assert (Ny' : nz y) by (destruct Ny as [?|(_ & Q & _)]; [assumption|lra]).
    pose proof (val_neg_iff x Vx) as Wx. pose proof (val_neg_iff y Vy) as Wy.
    destruct (Z.ltb_spec (de y) (de x)) as [C|C].
    { left. split; [reflexivity|]. pose proof (nz_far y x Ny' Nx' C) as A. rewrite !Rabs_left in A by assumption. lra. }
    destruct (Z.ltb_spec (de x) (de y)) as [C'|C'].
    { right; right. split; [reflexivity|]. pose proof (nz_far x y Nx' Ny' C') as A. rewrite !Rabs_left in A by assumption. lra. }
    assert (E : de x = de y) by lia. unfold d_lt. rewrite !Bltb_correct by assumption. unfold val. rewrite E. pose proof (bp_pos (de y)).
    destruct (Rlt_bool_spec (B2R (dm x)) (B2R (dm y))); [left; split; [reflexivity|nra]|].
    destruct (Rlt_bool_spec (B2R (dm y)) (B2R (dm x))); [right; right; split; [reflexivity|nra]|].
    right; left. split; [reflexivity|]. f_equal. lra.
  - (* both zero *)
    assert (Ex : de x = INT_MIN) by (destruct Nx as [[_ [Q _]]|(_ & _ & Q)]; [rewrite Vx, Rabs_R0 in Q; lra|exact Q]).
    assert (Ey : de y = INT_MIN) by (destruct Ny as [[_ [Q _]]|(_ & _ & Q)]; [rewrite Vy, Rabs_R0 in Q; lra|exact Q]).
    rewrite Ex, Ey, Z.ltb_irrefl. unfold d_lt. rewrite !Bltb_correct by assumption. rewrite Vx, Vy, Rlt_bool_false by lra.
    right; left. split; [reflexivity|]. unfold val. rewrite Vx, Vy. ring.
  - (* both positive *)
    assert (Nx' : nz x) by (destruct Nx as [?|(_ & Q & _)]; [assumption|lra]).
    assert (Ny' : nz y) by (destruct Ny as [?|(_ & Q & _)]; [assumption|lra]).
    pose proof (val_pos_iff x Vx) as Wx. pose proof (val_pos_iff y Vy) as Wy.
    destruct (Z.ltb_spec (de y) (de x)) as [C|C].
    { right; right. split; [reflexivity|]. pose proof (nz_far y x Ny' Nx' C) as A. rewrite !Rabs_pos_eq in A by lra. lra. }
    destruct (Z.ltb_spec (de x) (de y)) as [C'|C'].
    { left. split; [reflexivity|]. pose proof (nz_far x y Nx' Ny' C') as A. rewrite !Rabs_pos_eq in A by lra. lra. }
    assert (E : de x = de y) by lia. unfold d_lt. rewrite !Bltb_correct by assumption. unfold val. rewrite E. pose proof (bp_pos (de y)).
    destruct (Rlt_bool_spec (B2R (dm x)) (B2R (dm y))); [left; split; [reflexivity|nra]|].
    destruct (Rlt_bool_spec (B2R (dm y)) (B2R (dm x))); [right; right; split; [reflexivity|nra]|].
    right; left. split; [reflexivity|]. f_equal. lra.
Qed.

(** *** square root *)
Lemma mant_lt1 (d : dbl) : Rabs (B2R d) < 1 -> Rabs (B2R d) <= 1 - bp (-53).
Proof.
  intros H. destruct (Rle_lt_dec (/2) (Rabs (B2R d))) as [L|L].
  - destruct (mant_mult d L) as [k K]. rewrite K in *. rewrite abs_bp, <- abs_IZR in *.
    assert (Q : IZR (Z.abs k) < IZR (2 ^ 53)).
    { apply Rmult_lt_reg_r with (bp (-53)); [apply bp_pos|]. change (IZR (2 ^ 53)) with (bp 53). rewrite <- bp_plus. exact H. }
    apply lt_IZR in Q. apply Rle_trans with (IZR (2 ^ 53 - 1) * bp (-53)).
    + apply Rmult_le_compat_r; [apply bpow_ge_0|]. apply IZR_le. lia.
    + rewrite minus_IZR. change (IZR (2 ^ 53)) with (bp 53). apply Req_le. rewrite Rmult_minus_distr_r, <- bp_plus. change (bp (53 + -53)) with 1. ring.
  - assert (bp (-53) <= /2) by (change (/2) with (bp (-1)); apply bpow_le; lia). lra.
Qed.

Lemma sqrt_round w : /4 <= w <= 1 - bp (-53) -> /2 <= RNx (sqrt w) < 1.
Proof.
  intros [L U]. assert (S0 : 0 <= sqrt w) by apply sqrt_pos.
  assert (LL : /2 <= sqrt w).
  { rewrite <- (sqrt_Rsqr (/2)) by lra. apply sqrt_le_1_alt. unfold Rsqr. lra. }
  split.
  - assert (bp (-1) <= Rabs (RNx (sqrt w))) as A.
    { apply RNx_abs_ge; [apply fx_bp|]. change (bp (-1)) with (/2). rewrite Rabs_pos_eq by exact S0. exact LL. }
    change (bp (-1)) with (/2) in A. rewrite Rabs_pos_eq in A; [exact A|].
    unfold RNx. apply round_ge_generic; [typeclasses eauto|typeclasses eauto|apply generic_format_0|exact S0].
  - assert (H : RNx (sqrt w) <= 1 - bp (-53)).
    { unfold RNx. apply round_N_le_midp; [typeclasses eauto| |].
      - replace (1 - bp (-53)) with (IZR (2 ^ 53 - 1) * bp (-53)).
        + apply generic_format_FLX. exists (Float radix2 (2 ^ 53 - 1) (-53)); [reflexivity|reflexivity].
        + rewrite minus_IZR. change (IZR (2 ^ 53)) with (bp 53). rewrite Rmult_minus_distr_r, <- bp_plus. change (bp (53 + -53)) with 1. ring.
      - assert (SU : succ radix2 (FLX_exp 53) (1 - bp (-53)) = 1).
        { assert (P53 : bp (-53) <= /2) by (change (/2) with (bp (-1)); apply bpow_le; lia). pose proof (bp_pos (-53)).
          rewrite succ_eq_pos by lra. replace (ulp radix2 (FLX_exp 53) (1 - bp (-53))) with (bp (-53)); [ring|].
          rewrite ulp_neq_0 by lra. f_equal. unfold cexp, FLX_exp.
          rewrite (mag_unique_pos radix2 _ 0); [reflexivity|]. change (bp (0 - 1)) with (/2). change (bp 0) with 1. lra. }
        rewrite SU. apply Rle_lt_trans with (sqrt (1 - bp (-53))); [apply sqrt_le_1_alt; exact U|].
        assert (P53 : bp (-53) <= /2) by (change (/2) with (bp (-1)); apply bpow_le; lia). pose proof (bp_pos (-53)).
        rewrite <- (sqrt_Rsqr ((1 - bp (-53) + 1) / 2)) by lra. apply sqrt_lt_1_alt. unfold Rsqr. split; [lra|nra]. }
    pose proof (bp_pos (-53)). lra.
Qed.

Lemma sqrt_bp x k : 0 <= x -> sqrt (x * bp (2 * k)) = sqrt x * bp k.
Proof.
  intros H. rewrite sqrt_mult_alt by exact H. f_equal. replace (2 * k)%Z with (k + k)%Z by ring. rewrite bp_plus. apply sqrt_square. apply bpow_ge_0.
Qed.

Lemma sqrt_dbl (d : dbl) : is_finite d = true -> /4 <= B2R d <= 1 - bp (-53) ->
  is_finite (d_sqrt d) = true /\ B2R (d_sqrt d) = RNx (sqrt (B2R d)) /\ /2 <= RNx (sqrt (B2R d)) < 1.
Proof.
  intros F B. pose proof (sqrt_round _ B) as S. destruct (Bsqrt_correct 53 1024 _ _ mode_NE d) as (V & FF & _).
  rewrite fexp_eq in V. change (round_mode mode_NE) with ZnearestE in V. rewrite RNx_fe in V.
  - split; [|split; [exact V|exact S]]. unfold d_sqrt. rewrite FF. destruct d as [s|s| |s m e Bd]; try discriminate; [reflexivity|].
    destruct s; [|reflexivity]. exfalso. assert (B2R (B754_finite true m e Bd : dbl) <= 0); [|lra].
    unfold B2R. apply F2R_le_0. simpl. lia.
  - rewrite Rabs_pos_eq by apply sqrt_pos. apply Rle_trans with (/2); [change (/2) with (bp (-1)); apply bpow_le; lia|].
    rewrite <- (sqrt_Rsqr (/2)) by lra. apply sqrt_le_1_alt. unfold Rsqr. lra.
Qed.

Lemma sqrt_ok y : nz y -> 0 < val y -> (- 2 ^ 31 <= de y < 2 ^ 31 - 1)%Z ->
  exists r, dpe_sqrt y = Some r /\ nz r /\ val r = RNx (sqrt (val y)).
Proof.
  intros [F [L U]] P E. assert (M : 0 < B2R (dm y)).
  { unfold val in P. pose proof (bp_pos (de y)). destruct (Rle_lt_dec (B2R (dm y)) 0); [nra|assumption]. }
  pose proof (mant_lt1 _ U) as U'. rewrite Rabs_pos_eq in L, U, U' by lra. unfold dpe_sqrt.
  destruct (Z.eqb_spec (Z.rem (de y) 2) 0) as [Ev|Od].
  - pose proof (Z.quot_rem' (de y) 2) as Q. rewrite Ev, Z.add_0_r in Q.
    destruct (sqrt_dbl (dm y) F) as (F' & V & S); [lra|].
    eexists. split; [reflexivity|]. split; [split; cbn [dm]; [exact F'|rewrite V, Rabs_pos_eq by lra; exact S]|].
    unfold val. cbn [dm de]. rewrite V, <- RNx_scale. f_equal. rewrite Q at 2. rewrite sqrt_bp by lra. reflexivity.
  - rewrite i32_in by lia. cbn [bind].
    assert (Q : (de y + 1 = 2 * Z.quot (de y + 1) 2)%Z).
    { pose proof (Z.quot_rem' (de y) 2) as Q1. pose proof (Z.quot_rem' (de y + 1) 2) as Q2.
      pose proof (Z.rem_bound_abs (de y) 2 ltac:(lia)). pose proof (Z.rem_bound_abs (de y + 1) 2 ltac:(lia)). lia. }
    destruct (d_of_bp (-1)) as [F1 V1]; [lia|].
    pose proof (Bmult_correct 53 1024 _ _ mode_NE (d_of 1 (-1)) (dm y)) as H. rewrite V1, fexp_eq in H.
    assert (A : bp (-1022) <= Rabs (bp (-1) * B2R (dm y))).
    { rewrite Rmult_comm, abs_bp, Rabs_pos_eq by lra. change (bp (-1)) with (/2).
      apply Rle_trans with (/4); [change (/4) with (bp (-2)); apply bpow_le; lia|lra]. }
    rewrite round_generic in H; [|typeclasses eauto|].
    2:{ apply fe_of_fx; [rewrite Rmult_comm; apply fmtx_scale, fmtx|exact A]. }
    rewrite Rlt_bool_true in H.
    2:{ rewrite Rmult_comm, abs_bp, Rabs_pos_eq by lra. change (bp (-1)) with (/2). apply Rlt_trans with 1; [lra|]. change 1 with (bp 0). apply bpow_lt. lia. }
    destruct H as (V & FF & _). rewrite F, F1 in FF. change (Bmult mode_NE) with d_mul in V, FF. cbn in FF.
    destruct (sqrt_dbl (d_mul (d_of 1 (-1)) (dm y)) FF) as (F' & V' & S).
    { rewrite V. change (bp (-1)) with (/2). pose proof (bp_pos (-53)). assert (bp (-53) <= /2) by (change (/2) with (bp (-1)); apply bpow_le; lia). lra. }
    eexists. split; [reflexivity|]. split; [split; cbn [dm]; [exact F'|rewrite V', Rabs_pos_eq by lra; exact S]|].
    unfold val. cbn [dm de]. rewrite V', <- RNx_scale. f_equal. rewrite <- sqrt_bp.
    + f_equal. rewrite <- Q, V, bp_plus. change (bp (-1)) with (/2). change (bp 1) with 2. field.
    + rewrite V. change (bp (-1)) with (/2). lra.
Qed.

(** *** conversions *)
Lemma set_d_ok (d : dbl) : is_finite d = true -> (B2R d = 0 \/ bp (-1022) <= Rabs (B2R d)) ->
  exists r, dpe_set_d d = Some r /\ (nz r \/ zr r) /\ val r = B2R d.
Proof.
  intros F [Z|L]; unfold dpe_set_d.
  - destruct (normalize_zero (mkdpe d 0) F Z) as (r & E & N). exists r. split; [exact E|]. split; [auto|]. rewrite (zr_val _ N). auto.
  - destruct (normalize_ok (mkdpe d 0) F L) as (r & E & N & V); [cbn [de]; lia|]. exists r. split; [exact E|]. split; [auto|].
    rewrite V. unfold val. cbn [dm de]. change (bp 0) with 1. ring.
Qed.

Lemma set_z_ok z : z <> 0%Z -> (Z.log2 (Z.abs z) < 2 ^ 31 - 1)%Z ->
  nz (dpe_set_z z) /\ Rabs (val (dpe_set_z z) - IZR z) <= bp (-52) * Rabs (IZR z) /\
  Rabs (val (dpe_set_z z)) <= Rabs (IZR z) /\ ((Z.abs z < 2 ^ 53)%Z -> val (dpe_set_z z) = IZR z).
Proof.
  intros N B. unfold dpe_set_z. replace (z =? 0)%Z with false by (symmetry; apply Z.eqb_neq; exact N).
  pose proof (Z.log2_spec (Z.abs z) ltac:(lia)) as [L1 L2]. pose proof (Z.log2_nonneg (Z.abs z)) as L0.
  set (l := Z.log2 (Z.abs z)) in *. cbv zeta. rewrite to_int_id by lia.
  set (m := if (l + 1 <=? 53)%Z then (z * 2 ^ (53 - (l + 1)))%Z else Z.quot z (2 ^ (l + 1 - 53))).
  assert (M : (2 ^ 52 <= Z.abs m < 2 ^ 53)%Z /\
     (l + 1 <= 53 /\ m = z * 2 ^ (53 - (l + 1)) \/ 53 < l + 1 /\ Z.abs m * 2 ^ (l + 1 - 53) <= Z.abs z < (Z.abs m + 1) * 2 ^ (l + 1 - 53) /\ Z.sgn m = Z.sgn z)%Z).
  { unfold m. destruct (Z.leb_spec (l + 1) 53) as [C|C].
    - split; [|left; split; [lia|reflexivity]]. rewrite Z.abs_mul. rewrite (Z.abs_eq (2 ^ _)) by (apply Z.pow_nonneg; lia).
      assert (P52 : (2 ^ 52 = 2 ^ l * 2 ^ (53 - (l + 1)))%Z) by (rewrite <- Z.pow_add_r by lia; f_equal; lia).
      assert (P53 : (2 ^ 53 = 2 ^ (Z.succ l) * 2 ^ (53 - (l + 1)))%Z) by (rewrite <- Z.pow_add_r by lia; f_equal; lia).
      assert (0 < 2 ^ (53 - (l + 1)))%Z by (apply Z.pow_pos_nonneg; lia). rewrite P52, P53. nia.
    - set (p := (2 ^ (l + 1 - 53))%Z). assert (PP : (0 < p)%Z) by (apply Z.pow_pos_nonneg; lia).
      assert (P52 : (2 ^ l = 2 ^ 52 * p)%Z) by (unfold p; rewrite <- Z.pow_add_r by lia; f_equal; lia).
      assert (P53 : (2 ^ (Z.succ l) = 2 ^ 53 * p)%Z) by (unfold p; rewrite <- Z.pow_add_r by lia; f_equal; lia).
      assert (A : Z.abs (Z.quot z p) = (Z.abs z / p)%Z).
      { rewrite <- Z.quot_div_nonneg by lia. rewrite <- Z.quot_abs by lia. rewrite (Z.abs_eq p) by lia. reflexivity. }
      assert (D1 : (p * (Z.abs z / p) <= Z.abs z)%Z) by (apply Z.mul_div_le; lia).
      assert (D2 : (Z.abs z < p * Z.succ (Z.abs z / p))%Z) by (apply Z.mul_succ_div_gt; lia).
      rewrite A. rewrite P52 in L1. rewrite P53 in L2.
      assert (R : (2 ^ 52 <= Z.abs z / p < 2 ^ 53)%Z).
      { split; [apply Z.div_le_lower_bound; lia|apply Z.div_lt_upper_bound; lia]. }
      split; [exact R|]. right. split; [lia|]. split; [split; lia|].
      assert (S : Z.quot z p <> 0%Z) by lia. pose proof (Z.quot_rem' z p) as Q.
      pose proof (Z.rem_bound_abs z p ltac:(lia)) as RB.
      assert (SS : (0 <= Z.quot z p * z)%Z).
      { destruct (Z_le_gt_dec 0 z).
        - apply Z.mul_nonneg_nonneg; [apply Z.quot_pos; lia|lia].
        - apply Z.mul_nonpos_nonpos; [|lia]. rewrite <- (Z.opp_involutive z), Z.quot_opp_l by lia.
          pose proof (Z.quot_pos (- z) p ltac:(lia) ltac:(lia)). lia. }
      destruct (Z.sgn_spec (Z.quot z p)) as [[? ->]|[[? ->]|[? ->]]]; [| |]; try lia;
      destruct (Z.sgn_spec z) as [[? ->]|[[? ->]|[? ->]]]; nia. }
  destruct M as [MB MC].
  destruct (d_of_val m (-53)) as [F V].
  { apply fe_mant; lia. }
  { rewrite abs_bp, <- abs_IZR. apply Rlt_trans with (bp 53 * bp (-53)).
    - apply Rmult_lt_compat_r; [apply bp_pos|]. change (bp 53) with (IZR (2 ^ 53)). apply IZR_lt. lia.
    - rewrite <- bp_plus. apply bpow_lt. lia. }
  assert (NN : nz (mkdpe (d_of m (-53)) (l + 1))).
  { split; cbn [dm]; [exact F|]. rewrite V, abs_bp, <- abs_IZR. split.
    - change (/2) with (bp (52 + -53)). rewrite bp_plus. apply Rmult_le_compat_r; [apply bpow_ge_0|].
      change (bp 52) with (IZR (2 ^ 52)). apply IZR_le. lia.
    - change 1 with (bp (53 + -53)). rewrite bp_plus. apply Rmult_lt_compat_r; [apply bp_pos|].
      change (bp 53) with (IZR (2 ^ 53)). apply IZR_lt. lia. }
  split; [exact NN|].
  assert (VV : val (mkdpe (d_of m (-53)) (l + 1)) = IZR m * bp (l + 1 - 53)).
  { unfold val. cbn [dm de]. rewrite V, Rmult_assoc, <- bp_plus. f_equal. f_equal. ring. }
  rewrite VV. destruct MC as [[C E]|(C & [E1 E2] & E3)].
  - assert (X : IZR m * bp (l + 1 - 53) = IZR z).
    { rewrite E, mult_IZR. change (2 ^ (53 - (l + 1)))%Z with (Zpower radix2 (53 - (l + 1))). rewrite IZR_Zpower by lia.
      rewrite Rmult_assoc, <- bp_plus. replace (53 - (l + 1) + (l + 1 - 53))%Z with 0%Z by ring. change (bp 0) with 1. ring. }
    rewrite X. split; [|split; [lra|reflexivity]]. rewrite Rminus_diag_eq by reflexivity. rewrite Rabs_R0.
    apply Rmult_le_pos; [apply bpow_ge_0|apply Rabs_pos].
  - change (2 ^ (l + 1 - 53))%Z with (Zpower radix2 (l + 1 - 53)) in *. set (p := Zpower radix2 (l + 1 - 53)) in *.
    assert (PB : bp (l + 1 - 53) = IZR p) by (unfold p; rewrite IZR_Zpower by lia; reflexivity).
    rewrite PB, <- mult_IZR, <- minus_IZR, <- !abs_IZR.
    assert (PP : (0 < p)%Z) by (change (0 < 2 ^ (l + 1 - 53))%Z; apply Z.pow_pos_nonneg; lia).
    assert (AB : Z.abs (m * p) = (Z.abs m * p)%Z) by (rewrite Z.abs_mul; lia).
    assert (DD : (Z.abs (m * p - z) < p)%Z).
    { destruct (Z_lt_ge_dec 0 m) as [G|G].
      - assert (0 < z)%Z by (rewrite (Z.sgn_pos m G) in E3; apply Z.sgn_pos_iff; auto). rewrite !Z.abs_eq in E1, E2 by lia. lia.
      - assert (G' : (m < 0)%Z) by lia. assert (z < 0)%Z by (rewrite (Z.sgn_neg m G') in E3; apply Z.sgn_neg_iff; auto).
        rewrite !Z.abs_neq in E1, E2 by lia. lia. }
    split; [|split; [apply IZR_le; lia|intros Q]].
    + apply Rle_trans with (IZR p); [apply IZR_le; lia|]. rewrite <- PB.
      replace (l + 1 - 53)%Z with (-52 + l)%Z by ring. rewrite bp_plus. apply Rmult_le_compat_l; [apply bpow_ge_0|].
      rewrite <- (IZR_Zpower radix2) by lia. apply IZR_le. exact L1.
    + exfalso. assert (2 ^ 53 <= 2 ^ l)%Z by (apply Z.pow_le_mono_r; lia). lia.
Qed.

Lemma nz_ldexp y k : nz y -> (-1021 <= k <= 1024)%Z -> is_finite (d_ldexp (dm y) k) = true /\ B2R (d_ldexp (dm y) k) = B2R (dm y) * bp k.
Proof.
  intros [F [L U]] K. apply ldexp_exact; [exact F| |].
  - rewrite abs_bp. replace (-1022)%Z with (-1 + -1021)%Z by ring. rewrite bp_plus. apply Rmult_le_compat; [apply bpow_ge_0|apply bpow_ge_0|exact L|apply bpow_le; lia].
  - rewrite abs_bp. apply Rlt_le_trans with (1 * bp k); [apply Rmult_lt_compat_r; [apply bp_pos|exact U]|]. rewrite Rmult_1_l. apply bpow_le. lia.
Qed.

Lemma ZnearestA_IZR k : ZnearestA (IZR k) = k.
Proof. apply Znearest_imp. rewrite Rminus_diag_eq by reflexivity. rewrite Rabs_R0. lra. Qed.

Lemma round_ok y : (nz y \/ zr y) -> exists r, dpe_round y = Some r /\ (nz r \/ zr r) /\ val r = IZR (ZnearestA (val y)).
Proof.
  intros N. unfold dpe_round. destruct (Z.ltb_spec (de y) 0) as [C|C].
  - destruct (set_d_ok d_zero) as (r & E & Nr & V); [reflexivity|left; reflexivity|]. exists r. split; [exact E|]. split; [exact Nr|].
    rewrite V. change (B2R d_zero) with 0. f_equal. symmetry. apply Znearest_small. destruct N as [N|Z].
    + eapply Rlt_le_trans; [apply nz_val, N|]. change (/2) with (bp (-1)). apply bpow_le. lia.
    + rewrite (zr_val _ Z), Rabs_R0. lra.
  - destruct N as [N|(_ & _ & Q)]; [|rewrite Q in C; unfold INT_MIN in C; lia].
    destruct (Z.leb_spec 53 (de y)) as [C'|C'].
    + exists y. split; [reflexivity|]. split; [auto|]. destruct (big_int (val y)) as [k K].
      * unfold val. apply fmtx_scale, fmtx. * eapply Rle_trans; [|apply nz_val, N]. apply bpow_le. lia.
      * rewrite K, ZnearestA_IZR. reflexivity.
    + destruct (nz_ldexp y (de y) N) as [F V]; [lia|]. fold (val y) in V.
      destruct (round_val (d_ldexp (dm y) (de y))) as [V2 F2]. rewrite F in F2. rewrite V in V2.
      destruct (set_d_ok (d_round (d_ldexp (dm y) (de y))) F2) as (r & E & Nr & VR).
      * rewrite V2. destruct (Z.eq_dec (ZnearestA (val y)) 0) as [-> |NZ]; [left; reflexivity|right].
        apply Rle_trans with 1; [change 1 with (bp 0); apply bpow_le; lia|]. rewrite <- abs_IZR. apply IZR_le. lia.
      * exists r. split; [exact E|]. split; [exact Nr|]. rewrite VR. exact V2.
Qed.

Lemma get_si_exp_ok y : nz y -> (- 2 ^ 31 + 63 <= de y < 2 ^ 31)%Z ->
  exists si expo, dpe_get_si_exp y = Some (si, expo) /\ (- 2 ^ 63 < si < 2 ^ 63)%Z /\ (0 <= expo)%Z /\
    (expo = 0%Z -> si = Ztrunc (val y)) /\ ((0 < expo)%Z -> IZR si * bp expo = val y /\ bp 63 <= Rabs (val y)).
Proof.
  intros N E. pose proof N as [F [L U]]. unfold dpe_get_si_exp.
  destruct (d_of_bp 63) as [F1 V1]; [lia|].
  pose proof (Bmult_correct 53 1024 _ _ mode_NE (dm y) (d_of 1 63)) as H. rewrite V1, fexp_eq in H.
  assert (B1 : bp 62 <= Rabs (B2R (dm y) * bp 63)).
  { rewrite abs_bp. change (bp 62) with (bp (-1 + 63)). rewrite bp_plus. apply Rmult_le_compat_r; [apply bpow_ge_0|exact L]. }
  assert (B2 : Rabs (B2R (dm y) * bp 63) < bp 63).
  { rewrite abs_bp. rewrite <- (Rmult_1_l (bp 63)) at 2. apply Rmult_lt_compat_r; [apply bp_pos|exact U]. }
  rewrite round_generic in H; [|typeclasses eauto|apply fe_of_fx; [apply fmtx_scale, fmtx|eapply Rle_trans; [|exact B1]; apply bpow_le; lia]].
  rewrite Rlt_bool_true in H by (eapply Rlt_trans; [exact B2|]; apply bpow_lt; lia).
  destruct H as (V & FF & _). rewrite F, F1 in FF. change (Bmult mode_NE) with d_mul in V, FF. cbn [andb] in FF.
  destruct (to_long_val _ FF) as [TL RR]; [rewrite V; exact B2|]. rewrite TL. cbn [bind]. rewrite i32_in by lia. cbn [bind].
  destruct (big_int _ (fmtx (d_mul (dm y) (d_of 1 63)))) as [k K].
  { rewrite V. eapply Rle_trans; [|exact B1]. apply bpow_le. lia. }
  rewrite K, Ztrunc_IZR in *.
  pose proof (d_is0_spec (dm y) F) as Z0. destruct (d_is0 (dm y)); [rewrite Z0, Rabs_R0 in L; lra|].
  destruct (Z.ltb_spec (de y - 63) 0) as [C|C].
  - destruct (d_of_val k 0) as [Fk Vk].
    { change (bp 0) with 1. rewrite Rmult_1_r, <- K. apply fmt. }
    { change (bp 0) with 1. rewrite Rmult_1_r, V. eapply Rlt_trans; [exact B2|]. apply bpow_lt; lia. }
    change (bp 0) with 1 in Vk. rewrite Rmult_1_r in Vk.
    assert (VV : B2R (d_of k 0) * bp (de y - 63) = val y).
    { rewrite Vk, V. unfold val. rewrite Rmult_assoc, <- bp_plus. f_equal. f_equal. ring. }
    assert (VB : Rabs (val y) < bp 63) by (eapply Rlt_le_trans; [apply nz_val, N|apply bpow_le; lia]).
    destruct (ldexp_trunc (d_of k 0) (de y - 63) Fk) as (F3 & T3 & B3); [rewrite VV; exact VB|].
    destruct (to_long_val _ F3 B3) as [TL3 RR3]. rewrite TL3. cbn [bind]. rewrite T3, VV in *.
    eexists _, _. split; [reflexivity|]. split; [exact RR3|]. split; [lia|]. split; [reflexivity|lia].
  - assert (VV : IZR k * bp (de y - 63) = val y).
    { rewrite V. unfold val. rewrite Rmult_assoc, <- bp_plus. f_equal. f_equal. ring. }
    eexists _, _. split; [reflexivity|]. split; [exact RR|]. split; [lia|]. split.
    + intros Z1. rewrite Z1 in VV. change (bp 0) with 1 in VV. rewrite Rmult_1_r in VV. rewrite <- VV, Ztrunc_IZR. reflexivity.
    + intros P. split; [exact VV|]. eapply Rle_trans; [|apply nz_val, N]. apply bpow_le. lia.
Qed.

Lemma get_z_exp_ok y : nz y -> (- 2 ^ 31 + 53 <= de y < 2 ^ 31)%Z ->
  exists z expo, dpe_get_z_exp y = Some (z, expo) /\ (0 <= expo)%Z /\
    (expo = 0%Z -> z = Ztrunc (val y)) /\ ((0 < expo)%Z -> IZR z * bp expo = val y /\ bp 53 <= Rabs (val y)).
Proof.
  intros N E. unfold dpe_get_z_exp. rewrite i32_in by lia. cbn [bind]. destruct (Z.max_spec (de y - 53) 0) as [[C Q]|[C Q]]; rewrite Q.
  - rewrite Z.sub_0_r, i32_in by lia. cbn [bind].
    destruct (ldexp_trunc (dm y) (de y) (proj1 N)) as (F & T & _).
    { fold (val y). eapply Rlt_le_trans; [apply nz_val, N|apply bpow_le; lia]. }
    rewrite F, trunc_val, T. eexists _, _. split; [reflexivity|]. split; [lia|]. split; [reflexivity|lia].
  - rewrite i32_in by lia. cbn [bind]. replace (de y - (de y - 53))%Z with 53%Z by ring.
    destruct (nz_ldexp y 53 N) as [F V]; [lia|]. rewrite F, trunc_val.
    destruct (big_int _ (fmtx (d_ldexp (dm y) 53))) as [k K].
    { rewrite V. rewrite abs_bp. change (bp 52) with (bp (-1 + 53)). rewrite bp_plus. apply Rmult_le_compat_r; [apply bpow_ge_0|apply N]. }
    rewrite K, Ztrunc_IZR.
    assert (VV : IZR k * bp (de y - 53) = val y).
    { rewrite <- K, V. unfold val. rewrite Rmult_assoc, <- bp_plus. f_equal. f_equal. ring. }
    eexists _, _. split; [reflexivity|]. split; [lia|]. split.
    + intros Z1. rewrite Z1 in VV. change (bp 0) with 1 in VV. rewrite Rmult_1_r in VV. rewrite <- VV, Ztrunc_IZR. reflexivity.
    + intros P. split; [exact VV|]. eapply Rle_trans; [|apply nz_val, N]. apply bpow_le. lia.
Qed.

(** *** the scale table: |c - 2^-i| < 2^-(i+54), half of the spacing of
    doubles under 2^-i, for each decimal constant c = a * 10^b *)
Definition tab_entry (i : nat) (c : Z * Z) : bool :=
  let '(a, b) := c in
  let n := Z.of_nat i in
  (Z.abs (a * 2 ^ (n + 54) - 2 ^ 54 * 10 ^ (- b)) <? 10 ^ (- b))%Z.
Lemma dpe_scale_tab_exact : length dpe_scale_tab = 54%nat /\
  forall i c, nth_error dpe_scale_tab i = Some c -> (snd c <= 0)%Z /\
    Rabs (IZR (fst c) / IZR (10 ^ (- snd c)) - bp (- Z.of_nat i)) < bp (- Z.of_nat i - 54).
Proof.
  split; [reflexivity|].
  assert (ALL : forallb (fun p => tab_entry (fst p) (snd p) && (snd (snd p) <=? 0)%Z) (combine (seq 0 54) dpe_scale_tab) = true) by (vm_compute; reflexivity).
  rewrite forallb_forall in ALL. intros i c H.
  assert (IN : In (i, c) (combine (seq 0 54) dpe_scale_tab)).
  { assert (LT : (i < 54)%nat) by (change 54%nat with (length dpe_scale_tab); apply nth_error_Some; congruence).
    apply (nth_error_In _ i).
    assert (G : forall (A B : Type) (l1 : list A) (l2 : list B) i a b, nth_error l1 i = Some a -> nth_error l2 i = Some b -> nth_error (combine l1 l2) i = Some (a, b)).
    { clear. intros A B l1. induction l1 as [|x l1 IH]; intros l2 [|i] a b E1 E2; try discriminate; destruct l2; try discriminate; cbn in *; [congruence|auto]. }
    apply G; [|exact H]. rewrite (nth_error_nth' _ 0%nat) by (rewrite seq_length; exact LT). rewrite seq_nth by exact LT. reflexivity. }
  specialize (ALL _ IN). apply andb_prop in ALL. destruct ALL as [T B]. cbn [fst snd] in *. apply Z.leb_le in B. split; [exact B|].
  destruct c as [a b]. unfold tab_entry in T. apply Z.ltb_lt in T. cbn [fst snd] in *.
  set (n := Z.of_nat i) in *. set (q := (10 ^ (- b))%Z) in *. assert (QP : (0 < q)%Z) by (apply Z.pow_pos_nonneg; lia).
  assert (QR : 0 < IZR q) by (apply IZR_lt; exact QP). assert (n0 : (0 <= n)%Z) by (unfold n; lia).
  apply Rmult_lt_reg_r with (IZR q * bp (n + 54)); [apply Rmult_lt_0_compat; [exact QR|apply bp_pos]|].
  rewrite <- (Rabs_pos_eq (IZR q * bp (n + 54))) at 1 by (apply Rlt_le, Rmult_lt_0_compat; [exact QR|apply bp_pos]).
  rewrite <- Rabs_mult.
  replace ((IZR a / IZR q - bp (- n)) * (IZR q * bp (n + 54))) with (IZR (a * 2 ^ (n + 54) - 2 ^ 54 * q)).
  - replace (bp (- n - 54) * (IZR q * bp (n + 54))) with (IZR q).
    + rewrite <- abs_IZR. apply IZR_lt. exact T.
    + transitivity (IZR q * (bp (n + 54) * bp (- (n + 54)))); [rewrite bp_inv; ring|]. replace (- (n + 54))%Z with (- n - 54)%Z by ring. ring.
  - rewrite minus_IZR, !mult_IZR. change (2 ^ (n + 54))%Z with (Zpower radix2 (n + 54)). change (2 ^ 54)%Z with (Zpower radix2 54).
    rewrite !IZR_Zpower by lia. assert (X : bp (- n) * bp (n + 54) = bp 54) by (rewrite <- bp_plus; f_equal; ring). rewrite <- X. field. lra.
Qed.
