(** C89: integers become floating-point numbers. *)
From Coq Require Import ZArith Lia Bool.
From Verif Require Import SetZModel.
Local Open Scope Z_scope.

(** ** Specification *)
(** y is a number with at most p binary digits *)
Definition Fits (p y : Z) : Prop := exists m e, 0 <= e /\ Z.abs m < 2 ^ p /\ y = m * 2 ^ e.
(** r is the number with p digits nearest to 0 and still as near to z as possible: z truncated *)
Definition Truncated (p z r : Z) : Prop :=
  Fits p r /\ 0 <= r * z /\ Z.abs r <= Z.abs z /\ forall y, Fits p y -> Z.abs y <= Z.abs z -> Z.abs y <= Z.abs r.
(** r is a number with p digits nearest to z *)
Definition Nearest (p z r : Z) : Prop := Fits p r /\ forall y, Fits p y -> Z.abs (z - r) <= Z.abs (z - y).
(** what QD requires of a dd_real: the first double is nearest to the sum *)
Definition Normal (x : Z * Z) : Prop := Fits 53 (snd x) /\ Nearest 53 (fst x + snd x) (fst x).

(** ** Digits *)
Lemma digits_spec z : z <> 0 -> 1 <= digits z /\ 2 ^ (digits z - 1) <= Z.abs z < 2 ^ digits z.
Proof.
  intros H. unfold digits. destruct (Z.eqb_spec z 0); [contradiction|].
  pose proof (Z.log2_nonneg (Z.abs z)). pose proof (Z.log2_spec (Z.abs z) ltac:(lia)) as [A B].
  replace (Z.log2 (Z.abs z) + 1 - 1) with (Z.log2 (Z.abs z)) by lia.
  replace (Z.log2 (Z.abs z) + 1) with (Z.succ (Z.log2 (Z.abs z))) by lia. lia.
Qed.
Lemma digits_0 : digits 0 = 0. Proof. reflexivity. Qed.
Lemma digits_le z n : 0 <= n -> Z.abs z < 2 ^ n -> digits z <= n.
Proof.
  intros Hn H. destruct (Z.eq_dec z 0) as [->|N]; [rewrite digits_0; lia|]. destruct (digits_spec z N) as (A & B & _).
  assert (digits z - 1 < n); [|lia]. apply (Z.pow_lt_mono_r_iff 2); lia.
Qed.
Lemma unit_pos p z : 0 < unit_at p z. Proof. unfold unit_at. apply Z.pow_pos_nonneg; lia. Qed.

(** every number with p digits is at most the first p digits of |z|, or at least one unit more *)
Lemma gap p z y : 1 <= p -> Fits p y ->
  let u := unit_at p z in Z.abs y <= Z.abs z / u * u \/ (Z.abs z / u + 1) * u <= Z.abs y.
Proof.
  intros Hp (m & e & He & Hm & Hy) u. pose proof (unit_pos p z) as Pu. fold u in Pu.
  pose proof (Z.div_mod (Z.abs z) u ltac:(lia)) as DM. pose proof (Z.mod_pos_bound (Z.abs z) u Pu) as MB.
  assert (Mult : forall k, Z.abs y = k * u -> Z.abs y <= Z.abs z / u * u \/ (Z.abs z / u + 1) * u <= Z.abs y).
  { intros k Hk. rewrite Hk. destruct (Z.le_gt_cases k (Z.abs z / u)); [left|right]; apply Z.mul_le_mono_nonneg_r; lia. }
  destruct (Z.le_gt_cases (digits z) p) as [S|S].
  - apply (Mult (Z.abs y)). unfold u, unit_at. rewrite Z.max_l by lia. rewrite Z.pow_0_r. lia.
  - assert (Eu : u = 2 ^ (digits z - p)) by (unfold u, unit_at; now rewrite Z.max_r by lia).
    assert (Ay : Z.abs y = Z.abs m * 2 ^ e) by (rewrite Hy, Z.abs_mul, (Z.abs_eq (2 ^ e)); auto; apply Z.pow_nonneg; lia).
    destruct (Z.le_gt_cases (digits z - p) e) as [L|L].
    + apply (Mult (Z.abs m * 2 ^ (e - (digits z - p)))). rewrite Ay, Eu, <- Z.mul_assoc, <- Z.pow_add_r by lia. do 2 f_equal. lia.
    + left. assert (NZ : z <> 0) by (intros ->; rewrite digits_0 in S; lia).
      destruct (digits_spec z NZ) as (D1 & D2 & D3).
      assert (E2 : 2 ^ (digits z - 1) = 2 ^ (p - 1) * u) by (rewrite Eu, <- Z.pow_add_r by lia; f_equal; lia).
      assert (Y : Z.abs y <= 2 ^ (digits z - 1)).
      { rewrite Ay. transitivity (2 ^ p * 2 ^ (digits z - 1 - p)).
        - apply Z.mul_le_mono_nonneg; try lia. apply Z.pow_le_mono_r; lia.
        - rewrite <- Z.pow_add_r by lia. apply Z.pow_le_mono_r; lia. }
      assert (2 ^ (p - 1) <= Z.abs z / u) by (apply Z.div_le_lower_bound; lia).
      transitivity (2 ^ (p - 1) * u); [lia|]. apply Z.mul_le_mono_nonneg_r; lia.
Qed.

(** the quotient has p digits *)
Lemma quot_small p z : 1 <= p -> 0 <= Z.abs z / unit_at p z < 2 ^ p.
Proof.
  intros Hp. pose proof (unit_pos p z) as Pu. split; [apply Z.div_pos; lia|]. apply Z.div_lt_upper_bound; auto.
  destruct (Z.eq_dec z 0) as [->|N].
  { change (Z.abs 0) with 0. apply Z.mul_pos_pos; auto. apply Z.pow_pos_nonneg; lia. }
  destruct (digits_spec z N) as (D1 & D2 & D3). unfold unit_at. rewrite <- Z.pow_add_r by lia.
  apply Z.lt_le_trans with (1 := D3). apply Z.pow_le_mono_r; lia.
Qed.
Lemma unit_exp p z : exists e, 0 <= e /\ unit_at p z = 2 ^ e. Proof. exists (Z.max 0 (digits z - p)). split; [lia|reflexivity]. Qed.
Lemma fits_unit p z k : 1 <= p -> Z.abs k <= 2 ^ p -> Fits p (k * unit_at p z).
Proof.
  intros Hp Hk. destruct (unit_exp p z) as (e & He & ->). destruct (Z.lt_trichotomy (Z.abs k) (2 ^ p)) as [L|[E|G]]; [|clear Hk|lia].
  - exists k, e. auto.
  - exists (Z.sgn k * 2 ^ (p - 1)), (e + 1). split; [lia|]. assert (P : 2 ^ p = 2 ^ (p - 1) * 2).
    { replace p with (p - 1 + 1) at 1 by lia. rewrite Z.pow_add_r by lia. reflexivity. }
    assert (0 < 2 ^ (p - 1)) by (apply Z.pow_pos_nonneg; lia). split.
    + rewrite Z.abs_mul, (Z.abs_eq (2 ^ (p - 1))) by lia. clear E. destruct k; cbn [Z.sgn Z.abs]; lia.
    + rewrite Z.pow_add_r by lia. change (2 ^ 1) with 2. rewrite <- (Z.abs_sgn k) at 1. rewrite E, P. ring.
Qed.

Lemma abs_sgn_mul z a : 0 <= a -> (z = 0 -> a = 0) -> Z.abs (Z.sgn z * a) = a.
Proof. intros H0 H. destruct z; cbn [Z.sgn]; [rewrite H by reflexivity; reflexivity| |]; lia. Qed.
Lemma div_0 p z : z = 0 -> Z.abs z / unit_at p z * unit_at p z = 0. Proof. intros ->. reflexivity. Qed.
Lemma abs_cut p z : Z.abs (cut p z) = Z.abs z / unit_at p z * unit_at p z.
Proof.
  unfold cut. apply abs_sgn_mul; [|apply div_0]. apply Z.mul_nonneg_nonneg; [apply Z.div_pos; [lia|apply unit_pos]|pose proof (unit_pos p z); lia].
Qed.
Lemma sgn_fits p z a : Fits p a -> Fits p (Z.sgn z * a).
Proof.
  intros (m & e & He & Hm & ->). exists (Z.sgn z * m), e. split; auto. split; [|ring]. rewrite Z.abs_mul. destruct z; cbn [Z.sgn Z.abs] in *; lia.
Qed.

Lemma cut_truncated p z : 1 <= p -> Truncated p z (cut p z).
Proof.
  intros Hp. pose proof (unit_pos p z) as Pu. pose proof (quot_small p z Hp) as Q.
  pose proof (Z.div_mod (Z.abs z) (unit_at p z) ltac:(lia)) as DM. pose proof (Z.mod_pos_bound (Z.abs z) (unit_at p z) Pu) as MB.
  split; [unfold cut; apply sgn_fits, fits_unit; lia|]. split.
  { unfold cut. assert (0 <= Z.abs z / unit_at p z * unit_at p z) by (apply Z.mul_nonneg_nonneg; lia). destruct z; cbn [Z.sgn] in *; lia. }
  rewrite abs_cut. split; [lia|]. intros y Fy Hy. destruct (gap p z y Hp Fy) as [G|G]; [exact G|lia].
Qed.
(** |z - cut| is the remainder *)
Lemma cut_error p z : Z.abs (z - cut p z) = Z.abs z mod unit_at p z.
Proof.
  pose proof (unit_pos p z) as Pu. pose proof (Z.div_mod (Z.abs z) (unit_at p z) ltac:(lia)) as DM.
  pose proof (Z.mod_pos_bound (Z.abs z) (unit_at p z) Pu) as MB. unfold cut.
  set (u := unit_at p z) in *. clearbody u. destruct z; cbn [Z.sgn Z.abs] in *; [rewrite Z.mod_0_l by lia; reflexivity| |]; lia.
Qed.
Lemma cut_rel p z : 1 <= p -> z <> 0 -> Z.abs (z - cut p z) * 2 ^ (p - 1) < Z.abs z.
Proof.
  intros Hp N. rewrite cut_error. pose proof (unit_pos p z) as Pu. pose proof (Z.mod_pos_bound (Z.abs z) (unit_at p z) Pu) as MB.
  destruct (digits_spec z N) as (D1 & D2 & D3). assert (P2 : 0 < 2 ^ (p - 1)) by (apply Z.pow_pos_nonneg; lia).
  destruct (Z.le_gt_cases (digits z) p) as [S|S].
  - unfold unit_at. rewrite Z.max_l by lia. rewrite Z.pow_0_r, Z.mod_1_r. lia.
  - apply Z.lt_le_trans with (2 ^ (digits z - 1)); auto.
    replace (2 ^ (digits z - 1)) with (unit_at p z * 2 ^ (p - 1)) by (unfold unit_at; rewrite Z.max_r by lia; rewrite <- Z.pow_add_r by lia; f_equal; lia).
    apply Z.mul_lt_mono_pos_r; lia.
Qed.

Lemma near_nearest p z : 1 <= p -> Nearest p z (near p z).
Proof.
  intros Hp. pose proof (unit_pos p z) as Pu. pose proof (quot_small p z Hp) as Q.
  pose proof (Z.div_mod (Z.abs z) (unit_at p z) ltac:(lia)) as DM. pose proof (Z.mod_pos_bound (Z.abs z) (unit_at p z) Pu) as MB.
  unfold near. cbv zeta. set (u := unit_at p z) in *. set (q := Z.abs z / u) in *. set (r := Z.abs z mod u) in *.
  set (k := if (u <? 2 * r) || (u =? 2 * r) && Z.odd q then q + 1 else q).
  assert (K : (k = q /\ 2 * r <= u) \/ (k = q + 1 /\ u <= 2 * r)).
  { unfold k. destruct (Z.ltb_spec u (2 * r)); cbn [orb]; [right; lia|]. destruct (Z.eqb_spec u (2 * r)); cbn [andb]; [|left; lia].
    destruct (Z.odd q); [right|left]; lia. }
  split; [apply sgn_fits, fits_unit; lia|]. intros y Fy.
  assert (E : Z.abs (z - Z.sgn z * (k * u)) = Z.min r (u - r)).
  { assert (R0 : z = 0 -> r = 0 /\ q = 0) by (intros Z0; assert (A0 : Z.abs z = 0) by lia; unfold r, q; rewrite A0, Z.mod_0_l, Z.div_0_l by lia; auto).
    destruct (Z.eq_dec z 0) as [Z0|Z0].
    - destruct (R0 Z0) as [R1 R2]. rewrite Z0. cbn [Z.sgn]. rewrite Z.mul_0_l, R1. cbn. lia.
    - destruct K as [[-> K]|[-> K]]; destruct z; cbn [Z.sgn Z.abs] in *; try congruence; nia. }
  rewrite E. destruct (gap p z y Hp Fy) as [G|G]; fold u in G; fold q in G; destruct z; cbn [Z.sgn Z.abs] in *; nia.
Qed.

(** * Conversion of large integers to double, long double and mpfr: truncated in double, nearest in the others *)
Theorem set_z_truncates_or_rounds : forall z,
  (Z.abs z < 2 ^ 1024 -> exists d, d_of_mpz z = Some d /\ Truncated 53 z d /\ (z <> 0 -> Z.abs (z - d) * 2 ^ 52 < Z.abs z)) /\
  (Z.abs z < 2 ^ 16383 -> exists d, ld_of_mpz z = Some d /\ Nearest 64 z d) /\
  (forall p, 1 <= p -> Nearest p z (mpfr_of_mpz p z)) /\
  Nearest 53 z (d_of_long z) /\ (- 2 ^ 63 < z < 2 ^ 63 -> ld_of_long z = z).
Proof.
  intros z. split; [|split; [|split; [|split]]].
  - intros H. exists (cut 53 z). unfold d_of_mpz, z_get_d. rewrite (proj2 (Z.ltb_lt _ _) H). split; auto.
    split; [apply cut_truncated; lia|]. intros N. apply (cut_rel 53 z); [lia|auto].
  - intros H. exists (near 64 z). unfold ld_of_mpz. cbv zeta.
    pose proof (near_nearest 64 z ltac:(lia)) as NR. split; auto.
    assert (B : Z.abs (near 64 z) <= 2 * Z.abs z).
    { destruct NR as [_ N]. specialize (N 0). assert (F : Fits 64 0) by (exists 0, 0; cbn; lia). specialize (N F). lia. }
    assert (L : Z.abs (near 64 z) < 2 ^ 16384); [|now rewrite (proj2 (Z.ltb_lt _ _) L)].
    replace (2 ^ 16384) with (2 * 2 ^ 16383) by (rewrite <- Z.pow_succ_r by lia; f_equal). lia.
  - intros p Hp. now apply near_nearest.
  - apply near_nearest. lia.
  - intros H. destruct (near_nearest 64 z ltac:(lia)) as [_ N]. specialize (N z). unfold ld_of_long.
    assert (F : Fits 64 z) by (exists z, 0; split; [lia|]; split; [|lia]; apply Z.lt_trans with (2 ^ 63); [lia|reflexivity]).
    specialize (N F). lia.
Qed.

(** * A dd_real holds 106 digits of a large integer *)
Theorem dd_set_z_right : forall z, Z.abs z < 2 ^ 1024 ->
  exists hi lo, dd_of_mpz z = Some (hi, lo) /\ Fits 53 hi /\ Fits 53 lo /\
    (z <> 0 -> Z.abs (z - (hi + lo)) * 2 ^ 105 < Z.abs z) /\ (Z.abs z < 2 ^ 106 -> hi + lo = z).
Proof.
  intros z H. set (hi := cut 53 z). pose proof (cut_error 53 z) as CE. fold hi in CE.
  pose proof (Z.mod_pos_bound (Z.abs z) (unit_at 53 z) (unit_pos 53 z)) as MB.
  pose proof (Z.mod_le (Z.abs z) (unit_at 53 z) ltac:(lia) (unit_pos 53 z)) as ML.
  set (lo := cut 53 (z - hi)). exists hi, lo. unfold dd_of_mpz, z_get_d. rewrite (proj2 (Z.ltb_lt _ _) H). fold hi.
  assert (H2 : Z.abs (z - hi) < 2 ^ 1024) by lia. rewrite (proj2 (Z.ltb_lt _ _) H2). fold lo.
  split; auto. split; [apply cut_truncated; lia|]. split; [apply cut_truncated; lia|].
  assert (E : Z.abs (z - (hi + lo)) = Z.abs (z - hi) mod unit_at 53 (z - hi)).
  { rewrite <- cut_error. fold lo. f_equal. lia. }
  assert (D : z <> 0 -> digits (z - hi) <= Z.max 0 (digits z - 53)).
  { intros N. apply digits_le; [lia|]. rewrite CE. apply MB. }
  assert (Small : digits (z - hi) <= 53 -> z - (hi + lo) = 0).
  { intros S. rewrite Z.abs_0_iff || apply Z.abs_0_iff. rewrite E. unfold unit_at. rewrite Z.max_l by lia. rewrite Z.pow_0_r. apply Z.mod_1_r. }
  split.
  - intros N. specialize (D N). destruct (digits_spec z N) as (D1 & D2 & D3).
    destruct (Z.le_gt_cases (digits (z - hi)) 53) as [S|S]; [rewrite (Small S); change (Z.abs 0) with 0; lia|].
    apply Z.lt_le_trans with (2 ^ (digits z - 1)); auto.
    apply Z.lt_le_trans with (unit_at 53 (z - hi) * 2 ^ 105).
    + apply Z.mul_lt_mono_pos_r; [reflexivity|]. rewrite E. apply Z.mod_pos_bound, unit_pos.
    + unfold unit_at. rewrite Z.max_r by lia. rewrite <- Z.pow_add_r by lia. apply Z.pow_le_mono_r; lia.
  - intros L. destruct (Z.eq_dec z 0) as [->|N]; [reflexivity|]. specialize (D N).
    pose proof (digits_le z 106 ltac:(lia) L). specialize (Small ltac:(lia)). lia.
Qed.

(** * but it need not be normalised, as QD requires, so that comparisons go wrong: two dd_real for
    the same integer, the one from set_z and the normalised one, compare as different *)
Theorem dd_set_z_normal_refuted : exists z x y, dd_of_mpz z = Some x /\ ~ Normal x /\
  fst x + snd x = z /\ Normal y /\ fst y + snd y = z /\ dd_lt x y = true.
Proof.
  exists (2 ^ 55 - 1), (2 ^ 55 - 4, 3), (2 ^ 55, - 1). split; [vm_compute; reflexivity|].
  assert (F55 : Fits 53 (2 ^ 55)) by (exists 1, 55; vm_compute; split; [discriminate|split; reflexivity]). split.
  - intros [_ [_ N]]. specialize (N _ F55). vm_compute in N. now apply N.
  - split; [reflexivity|]. split; [|split; reflexivity]. split; [exists (-1), 0; vm_compute; split; [discriminate|split; reflexivity]|].
    replace (fst (2 ^ 55, -1)) with (near 53 (fst (2 ^ 55, -1) + snd (2 ^ 55, -1))) at 2 by (vm_compute; reflexivity).
    apply near_nearest. lia.
Qed.

(** * "A qd_real holds at least what a dd_real holds" is false: set_z gives it 53 digits *)
Theorem qd_set_z_refuted : exists z hi lo q, dd_of_mpz z = Some (hi, lo) /\ hi + lo = z /\ qd_of_mpz z = Some q /\ q <> z.
Proof. exists (2 ^ 53 + 1), (2 ^ 53), 1, (2 ^ 53). repeat split; try (vm_compute; reflexivity). vm_compute. discriminate. Qed.
Theorem qd_set_z_is_double : forall z, qd_of_mpz z = d_of_mpz z /\ qd_of_long z = d_of_long z.
Proof. split; reflexivity. Qed.
(** * and from a long a dd_real and a qd_real get 53 digits, from the same mpz_t a dd_real gets all *)
Theorem dd_of_long_refuted : exists a, - 2 ^ 63 <= a < 2 ^ 63 /\ dd_of_mpz a = Some (a - 1, 1) /\ fst (dd_of_long a) + snd (dd_of_long a) <> a /\ qd_of_long a <> a.
Proof. exists (2 ^ 53 + 1). split; [split; [vm_compute; discriminate|reflexivity]|]. split; [vm_compute; reflexivity|]. split; vm_compute; discriminate. Qed.

(** * Back: get_z_exp of dd_real and qd_real gives the first double, exactly *)
Theorem dd_get_z_exp_right : forall hi a expo, Fits 53 hi -> Z.abs hi < 2 ^ 1024 -> x_get_z_exp hi = (a, expo) ->
  a * 2 ^ expo = hi /\ Z.abs a < 2 ^ 53 /\ 0 <= expo /\ (Z.abs hi < 2 ^ 53 -> expo = 0).
Proof.
  intros hi a expo F H E. unfold x_get_z_exp in E. injection E as Ea Ee.
  destruct (Z.eq_dec hi 0) as [->|N]; [vm_compute in Ea, Ee; subst; cbn; lia|].
  unfold x_exponent in *. destruct (Z.eqb_spec hi 0); [contradiction|]. destruct (digits_spec hi N) as (D1 & D2 & D3).
  assert (Hu : 2 ^ expo = unit_at 53 hi) by (unfold unit_at; f_equal; lia).
  assert (C : Z.abs hi = Z.abs hi / unit_at 53 hi * unit_at 53 hi).
  { pose proof (unit_pos 53 hi) as Pu. pose proof (Z.div_mod (Z.abs hi) (unit_at 53 hi) ltac:(lia)) as DM.
    pose proof (Z.mod_pos_bound (Z.abs hi) (unit_at 53 hi) Pu). destruct (gap 53 hi hi ltac:(lia) F); lia. }
  assert (A : Z.abs a = Z.abs hi / unit_at 53 hi).
  { rewrite <- Ea, Ee, Hu. pose proof (unit_pos 53 hi). rewrite <- Z.quot_abs by lia. rewrite (Z.abs_eq (unit_at 53 hi)) by lia.
    apply Z.quot_div_nonneg; lia. }
  split; [|split; [rewrite A; apply quot_small; lia|split; [lia|]]].
  - rewrite Hu. pose proof (unit_pos 53 hi) as Pu.
    assert (X : hi = Z.sgn hi * (Z.abs hi / unit_at 53 hi) * unit_at 53 hi) by (rewrite <- Z.mul_assoc, <- C, Z.mul_comm; symmetry; apply Z.abs_sgn).
    rewrite <- Ea, Ee, Hu. rewrite X at 1. rewrite Z.quot_mul by lia. symmetry. exact X.
  - intros L. pose proof (digits_le hi 53 ltac:(lia) L). lia.
Qed.
(** "get_z_exp gives back what set_z stored exactly" is false for dd_real *)
Theorem dd_round_trip_refuted : exists z hi lo, dd_of_mpz z = Some (hi, lo) /\ hi + lo = z /\
  fst (x_get_z_exp hi) * 2 ^ snd (x_get_z_exp hi) <> z.
Proof. exists (2 ^ 53 + 1), (2 ^ 53), 1. repeat split; try (vm_compute; reflexivity). vm_compute. discriminate. Qed.
(** "get_z_exp of dd_real to a long is defined whenever that of double is" is false: it goes through an int *)
Theorem dd_get_long_refuted : exists x, d_get_z_exp_long x = Some (x, 0) /\ x_get_z_exp_long x = None.
Proof. exists (2 ^ 31). split; reflexivity. Qed.

(** instances: a number of 120 digits in all types *)
Example big_ex : let z := - (2 ^ 119 + 2 ^ 66 + 2 ^ 65 + 2 ^ 13 + 1) in
  Z.abs z < 2 ^ 1024 /\ d_of_mpz z = Some (- 2 ^ 119) /\ ld_of_mpz z = Some (- (2 ^ 119 + 2 ^ 66 + 2 ^ 65)) /\
  dd_of_mpz z = Some (- 2 ^ 119, - (2 ^ 66 + 2 ^ 65)) /\ qd_of_mpz z = Some (- 2 ^ 119) /\
  x_get_z_exp (- 2 ^ 119) = (- 2 ^ 52, 67).
Proof. vm_compute. repeat split. Qed.

Print Assumptions set_z_truncates_or_rounds.
Print Assumptions dd_set_z_right.
Print Assumptions dd_set_z_normal_refuted.
Print Assumptions qd_set_z_refuted.
Print Assumptions dd_get_z_exp_right.
