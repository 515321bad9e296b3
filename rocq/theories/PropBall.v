(** C86: the table of volumes of the unit balls of the pruner. *)
From Coq Require Import List ZArith Arith Lia Bool Reals Lra Factorial.
From Flocq Require Import Core Relative.
From Verif Require Import BallTable BallModel.
Import ListNotations.

(** *** Specification *)
(** the volume of the unit ball of dimension n: pi^k / k! for n = 2k, 2^n k! pi^k / n! for
    n = 2k + 1 *)
Definition ball_volume (n : nat) : R :=
  let k := (n / 2)%nat in
  if Nat.even n then (PI ^ k / INR (fact k))%R else (2 ^ n * INR (fact k) * PI ^ k / INR (fact n))%R.

Lemma even_case k : ball_volume (2 * k) = (PI ^ k / INR (fact k))%R.
Proof. unfold ball_volume. cbv zeta. replace (2 * k / 2)%nat with k by (rewrite Nat.mul_comm, Nat.div_mul; lia). replace (Nat.even (2 * k)) with true; [reflexivity|]. symmetry. rewrite Nat.even_mul. reflexivity. Qed.
Lemma odd_case k : ball_volume (2 * k + 1) = (2 ^ (2 * k + 1) * INR (fact k) * PI ^ k / INR (fact (2 * k + 1)))%R.
Proof.
  unfold ball_volume. cbv zeta. replace ((2 * k + 1) / 2)%nat with k.
  - replace (Nat.even (2 * k + 1)) with false; [reflexivity|]. symmetry. rewrite Nat.add_comm. cbn [plus]. rewrite Nat.even_succ, <- Nat.negb_even, Nat.even_mul. reflexivity.
  - apply Nat.div_unique with 1%nat; lia.
Qed.
Lemma fact_pos n : (0 < INR (fact n))%R.
Proof. apply lt_0_INR, lt_O_fact. Qed.
Lemma ball_step n : (INR (n + 2) * ball_volume (n + 2) = 2 * PI * ball_volume n)%R.
Proof.
  destruct (Nat.Even_or_Odd n) as [[k ->]|[k ->]].
  - replace (2 * k + 2)%nat with (2 * S k)%nat by lia. rewrite !even_case. change (fact (S k)) with (S k * fact k)%nat. rewrite !mult_INR. cbn [pow]. pose proof (fact_pos k).
    assert (0 < INR (S k))%R by (apply lt_0_INR; lia). change (INR 2) with 2%R. field. split; lra.
  - replace (2 * k + 1 + 2)%nat with (2 * S k + 1)%nat by lia. rewrite !odd_case. replace (2 * S k + 1)%nat with (S (S (2 * k + 1))) by lia.
    change (fact (S (S (2 * k + 1)))) with (S (S (2 * k + 1)) * (S (2 * k + 1) * fact (2 * k + 1)))%nat. change (fact (S k)) with (S k * fact k)%nat. rewrite !mult_INR.
    cbn [pow]. pose proof (fact_pos k). pose proof (fact_pos (2 * k + 1)). assert (0 < INR (S k))%R by (apply lt_0_INR; lia).
    replace (S (2 * k + 1)) with (2 * S k)%nat by lia. rewrite mult_INR. change (INR 2) with 2%R. assert (0 < INR (S (2 * S k)))%R by (apply lt_0_INR; lia). field. repeat split; lra.
Qed.
Lemma ball_0 : ball_volume 0 = 1%R.
Proof. unfold ball_volume. cbn. lra. Qed.
Lemma ball_1 : ball_volume 1 = 2%R.
Proof. unfold ball_volume. cbn. lra. Qed.
Lemma ball_pos n : (0 < ball_volume n)%R.
Proof.
  pose proof PI_RGT_0. unfold ball_volume. cbv zeta. pose proof (fact_pos (n / 2)). pose proof (fact_pos n). assert (0 < PI ^ (n / 2))%R by (apply pow_lt; lra). assert (0 < 2 ^ n)%R by (apply pow_lt; lra).
  destruct (Nat.even n); apply Rdiv_lt_0_compat; try assumption. repeat apply Rmult_lt_0_compat; assumption.
Qed.

(** *** Forty digits of pi *)
Local Open Scope Z_scope.
Definition sc : Z := 10 ^ 46.
Definition tlo (n : nat) : Z := let q := 2 * Z.of_nat n + 1 in 2 * sc / (q * 3 ^ q) + sc / (q * 7 ^ q).
Fixpoint sums (n : nat) : Z * Z :=
  match n with
  | O => (tlo 0, tlo 0 + 2)
  | S m => let '(lo, hi) := sums m in
           if Nat.even n then (lo + tlo n, hi + tlo n + 2) else (lo - tlo n - 2, hi - tlo n)
  end.
Lemma div_between a b : 0 < b -> (IZR (a / b) <= IZR a / IZR b <= IZR (a / b) + 1)%R.
Proof.
  intros Hb. assert (B : (0 < IZR b)%R) by now apply IZR_lt. pose proof (Z.mul_div_le a b Hb) as L. pose proof (Z.mul_succ_div_gt a b Hb) as U.
  apply IZR_le in L. apply IZR_lt in U. rewrite mult_IZR in L, U. rewrite succ_IZR in U. split.
  - apply Rmult_le_reg_r with (1 := B). unfold Rdiv. rewrite Rmult_assoc, Rinv_l by lra. lra.
  - apply Rmult_le_reg_r with (1 := B). unfold Rdiv. rewrite Rmult_assoc, Rinv_l by lra. lra.
Qed.
Lemma term_bounds n : (IZR (tlo n) <= IZR sc * PI_2_3_7_tg n <= IZR (tlo n + 2))%R.
Proof.
  unfold tlo. cbv zeta. set (q := 2 * Z.of_nat n + 1). set (s := sc).
  assert (Q : 0 < q) by lia. assert (P3 : 0 < 3 ^ q) by (apply Z.pow_pos_nonneg; lia). assert (P7 : 0 < 7 ^ q) by (apply Z.pow_pos_nonneg; lia).
  pose proof (div_between (2 * s) (q * 3 ^ q) ltac:(nia)) as A. pose proof (div_between s (q * 7 ^ q) ltac:(nia)) as B.
  assert (E : (IZR s * PI_2_3_7_tg n = IZR (2 * s) / IZR (q * 3 ^ q) + IZR s / IZR (q * 7 ^ q))%R).
  { unfold PI_2_3_7_tg, Ratan_seq. rewrite !mult_IZR. replace q with (Z.of_nat (2 * n + 1)) by lia. rewrite <- !pow_IZR, <- INR_IZR_INZ. rewrite !pow_inv.
    assert (0 < INR (2 * n + 1))%R by (apply lt_0_INR; lia). assert (0 < 3 ^ (2 * n + 1))%R by (apply pow_lt; lra). assert (0 < 7 ^ (2 * n + 1))%R by (apply pow_lt; lra).
    field. repeat split; lra. }
  rewrite E, !plus_IZR. lra.
Qed.
Lemma sums_bounds n : (IZR (fst (sums n)) <= IZR sc * sum_f_R0 (tg_alt PI_2_3_7_tg) n <= IZR (snd (sums n)))%R.
Proof.
  induction n as [|n IH].
  - cbn [sums fst snd sum_f_R0]. unfold tg_alt. cbn [pow]. rewrite Rmult_1_l. apply term_bounds.
  - cbn [sum_f_R0]. change (sums (S n)) with (let '(lo, hi) := sums n in if Nat.even (S n) then (lo + tlo (S n), hi + tlo (S n) + 2) else (lo - tlo (S n) - 2, hi - tlo (S n))).
    destruct (sums n) as [lo hi]. cbn [fst snd] in IH. pose proof (term_bounds (S n)) as T. change (tg_alt PI_2_3_7_tg (S n)) with ((-1) ^ S n * PI_2_3_7_tg (S n))%R. rewrite plus_IZR in T.
    destruct (Nat.Even_or_Odd (S n)) as [[k Hk]|[k Hk]].
    + assert (E : ((-1) ^ S n = 1)%R) by (rewrite Hk; apply pow_1_even). rewrite E, Rmult_1_l, Rmult_plus_distr_l. replace (Nat.even (S n)) with true by (rewrite Hk; symmetry; rewrite Nat.even_mul; reflexivity). cbn [fst snd]. rewrite !plus_IZR. lra.
    + replace (Nat.even (S n)) with false. 2: { rewrite Hk. symmetry. rewrite Nat.add_comm. cbn [plus]. rewrite Nat.even_succ, <- Nat.negb_even, Nat.even_mul. reflexivity. }
      assert (E : ((-1) ^ S n = -1)%R) by (rewrite Hk; replace (2 * k + 1)%nat with (S (2 * k)) by lia; apply pow_1_odd). rewrite E, Rmult_plus_distr_l. replace (IZR sc * (-1 * PI_2_3_7_tg (S n)))%R with (- (IZR sc * PI_2_3_7_tg (S n)))%R by ring. cbn [fst snd]. rewrite !minus_IZR. lra.
Qed.
(** 2 pi to 40 digits *)
Definition p40 : Z := 62831853071795864769252867665590057683943.
Lemma sums_check : p40 * 10 ^ 6 <= 8 * fst (sums 91) /\ 8 * snd (sums 90) <= (p40 + 1) * 10 ^ 6.
Proof. split; apply Z.leb_le; vm_compute; reflexivity. Qed.
Lemma pi_bounds : (IZR p40 <= 2 * PI * 10 ^ 40 <= IZR p40 + 1)%R.
Proof.
  destruct sums_check as [L U]. pose proof (PI_2_3_7_ineq 45) as [H1 H2]. change (S (2 * 45)) with 91%nat in H1. change (2 * 45)%nat with 90%nat in H2.
  destruct (sums_bounds 91) as [B1 _]. destruct (sums_bounds 90) as [_ B2]. apply IZR_le in L, U. rewrite !mult_IZR in L, U. rewrite plus_IZR in U.
  assert (S0 : IZR sc = (10 ^ 40 * IZR (10 ^ 6))%R). { unfold sc. rewrite (pow_IZR 10 40), <- mult_IZR. f_equal. }
  set (t := (10 ^ 40)%R) in *. assert (T : (0 < t)%R) by (apply pow_lt; lra). rewrite S0 in B1, B2. change (IZR (10 ^ 6)) with 1000000%R in *.
  set (s1 := sum_f_R0 _ 91) in *. set (s2 := sum_f_R0 _ 90) in *. set (l := IZR (fst (sums 91))) in *. set (u := IZR (snd (sums 90))) in *. set (pp := IZR p40) in *. clearbody s1 s2 l u pp t.
  assert (t * 1000000 * s1 <= t * 1000000 * (PI / 4))%R by (apply Rmult_le_compat_l; lra). assert (t * 1000000 * (PI / 4) <= t * 1000000 * s2)%R by (apply Rmult_le_compat_l; lra). lra.
Qed.

(** *** The table *)
(** neighbours at distance 2 have the quotient 2 pi / i *)
Definition step_ok (t40 t51 t56 i : Z) (a c : Z * Z) : bool :=
  let '(m0, k0) := a in
  let '(m2, k2) := c in
  if (k2 <=? k0) && (t51 <=? m2) then Z.abs (i * t40 * m2 - p40 * (10 ^ (k0 - k2) * m0)) <=? i * t56 else false.
Fixpoint steps_ok (t40 t51 t56 i : Z) (a b : Z * Z) (l : list (Z * Z)) : bool :=
  match l with
  | [] => true
  | c :: r => if step_ok t40 t51 t56 i a c then steps_ok t40 t51 t56 (i + 1) b c r else false
  end.
Local Open Scope R_scope.
Definition near (i : nat) (x : Z * Z) : Prop := Rabs (entry_val x - ball_volume i) <= 3 * INR i * / 10 ^ 35 * ball_volume i.
Lemma step_sound : forall i a c, (i <= 2048)%nat -> near i a -> step_ok (10 ^ 40) (10 ^ 51) (10 ^ 56) (Z.of_nat (i + 2)) a c = true -> near (i + 2) c.
Proof.
  intros i [m0 k0] [m2 k2] Hi HA H. unfold step_ok in H. destruct (_ && _)%bool eqn:C in H; [|discriminate H]. apply andb_prop in C. destruct C as [C1 C2].
  apply Z.leb_le in C1, C2, H. unfold near in *. pose proof (ball_step i) as S. pose proof (ball_pos i) as V0. pose proof (ball_pos (i + 2)) as V2. pose proof pi_bounds as [P1 P2].
  set (y := ball_volume (i + 2)) in *. set (v := ball_volume i) in *. unfold entry_val in *. cbn [fst snd] in *.
  set (w := powerRZ 10 k2). assert (W : 0 < w) by (apply powerRZ_lt; lra).
  assert (K : powerRZ 10 k0 = w * IZR (10 ^ (k0 - k2))).
  { unfold w. replace k0 with (k2 + (k0 - k2))%Z at 1 by lia. rewrite powerRZ_add by lra. f_equal. rewrite <- (Z2Nat.id (k0 - k2)) by lia. rewrite <- pow_powerRZ, <- pow_IZR. reflexivity. }
  rewrite K in HA. apply IZR_le in H, C2. rewrite abs_IZR, minus_IZR, !mult_IZR in H. rewrite <- !INR_IZR_INZ in H.
  set (n := INR (i + 2)) in *. set (g := IZR (10 ^ (k0 - k2))) in *.
  assert (N0 : 2 <= n) by (unfold n; rewrite plus_INR; change (INR 2) with 2; pose proof (pos_INR i); lra). assert (N1 : n = INR i + 2) by (unfold n; rewrite plus_INR; reflexivity).
  assert (I1 : INR i <= 2048) by (replace 2048 with (INR 2048) by (rewrite INR_IZR_INZ; reflexivity); apply le_INR; exact Hi). pose proof (pos_INR i) as I0.
  set (e := / 10 ^ 35) in *. set (f := / 10 ^ 40) in *.
  assert (E1 : IZR (10 ^ 40) = / f) by (unfold f; rewrite Rinv_inv, (pow_IZR 10 40); reflexivity).
  assert (E2 : e = 100000 * f). { unfold e, f. assert (0 < 10 ^ 35) by (apply pow_lt; lra). replace (10 ^ 40) with (10 ^ 35 * 100000) by ring. field; lra. }
  assert (F0 : 0 < f) by (apply Rinv_0_lt_compat, pow_lt; lra).
  assert (F1 : f <= / 1000000000000). { unfold f. apply Rinv_le_contravar; [lra|]. replace (10 ^ 40) with (1000000000000 * 10 ^ 28) by ring. assert (1 <= 10 ^ 28) by (apply pow_R1_Rle; lra). lra. }
  assert (E3 : IZR (10 ^ 56) * f = e * IZR (10 ^ 51)).
  { rewrite E2. replace (IZR (10 ^ 56)) with (100000 * IZR (10 ^ 51)) by (rewrite <- mult_IZR; f_equal). ring. }
  replace (10 ^ 40) with (/ f) in P1, P2 by (unfold f; apply Rinv_inv).
  set (m := IZR m2) in *. set (a := IZR m0) in *. set (t51 := IZR (10 ^ 51)) in *. set (t56 := IZR (10 ^ 56)) in *. set (pp := IZR p40) in *. rewrite E1 in H.
  assert (P0 : 0 <= pp) by (apply IZR_le; vm_compute; discriminate).
  clearbody y v w n g f m a t51 t56 pp e. clear K C1 E1.
  (* |n x - f pp u| <= e n x for x = m w, u = a g w *)
  assert (H1 : Rabs (n * (m * w) - f * pp * (a * (w * g))) <= e * (n * (m * w))).
  { replace (n * (m * w) - f * pp * (a * (w * g))) with ((f * w) * (n * / f * m - pp * (g * a))) by (field; lra).
    rewrite Rabs_mult, (Rabs_pos_eq (f * w)) by (apply Rmult_le_pos; lra). apply Rle_trans with (f * w * (n * t56)).
    - apply Rmult_le_compat_l; [apply Rmult_le_pos; lra|exact H].
    - replace (f * w * (n * t56)) with (w * n * (t56 * f)) by ring. rewrite E3. replace (e * (n * (m * w))) with (w * n * (e * m)) by ring.
      apply Rmult_le_compat_l; [apply Rmult_le_pos; lra|]. apply Rmult_le_compat_l; lra. }
  set (x := m * w) in *. set (u := a * (w * g)) in *. clearbody x u. clear H E3 C2.
  (* f pp between 2 pi - f and 2 pi *)
  assert (Q1 : f * pp <= 2 * PI). { apply Rmult_le_reg_r with (/ f); [now apply Rinv_0_lt_compat|]. replace (f * pp * / f) with pp by (field; lra). exact P1. }
  assert (Q2 : 2 * PI - f <= f * pp). { apply Rmult_le_reg_r with (/ f); [now apply Rinv_0_lt_compat|]. replace ((2 * PI - f) * / f) with (2 * PI * / f - 1) by (field; lra). replace (f * pp * / f) with pp by (field; lra). lra. }
  set (q := f * pp) in *. assert (Q0 : 0 <= q) by (apply Rmult_le_pos; lra). clearbody q. clear P1 P2 P0 pp.
  pose proof PI_RGT_0 as HP. pose proof PI_4 as HP4.
  assert (PIge : 2 <= PI). { pose proof PI2_1. lra. }
  set (B := 3 * INR i * e) in *.
  assert (A1 : Rabs (q * u - q * v) <= B * (n * y)).
  { replace (q * u - q * v) with (q * (u - v)) by ring. rewrite Rabs_mult, (Rabs_pos_eq q) by exact Q0. rewrite S.
    apply Rle_trans with (q * (B * v)); [apply Rmult_le_compat_l; assumption|]. replace (B * (2 * PI * v)) with (2 * PI * (B * v)) by ring. apply Rmult_le_compat_r; [|exact Q1].
    apply Rle_trans with (2 := HA). apply Rabs_pos. }
  assert (A2 : Rabs (q * v - n * y) <= f * (n * y)).
  { rewrite S. replace (q * v - 2 * PI * v) with (- ((2 * PI - q) * v)) by ring. rewrite Rabs_Ropp, Rabs_pos_eq by (apply Rmult_le_pos; lra).
    apply Rle_trans with (f * v); [apply Rmult_le_compat_r; lra|]. apply Rmult_le_compat_l; [lra|]. assert (4 * v <= 2 * PI * v) by (apply Rmult_le_compat_r; lra). lra. }
  assert (A3 : Rabs (n * x - n * y) <= e * (n * x) + B * (n * y) + f * (n * y)).
  { replace (n * x - n * y) with ((n * x - q * u) + ((q * u - q * v) + (q * v - n * y))) by ring.
    eapply Rle_trans; [apply Rabs_triang|]. pose proof (Rabs_triang (q * u - q * v) (q * v - n * y)). lra. }
  assert (A4 : Rabs (x - y) <= e * x + (B + f) * y).
  { replace (n * x - n * y) with (n * (x - y)) in A3 by ring. rewrite Rabs_mult, (Rabs_pos_eq n) in A3 by lra. apply Rmult_le_reg_l with n; [lra|].
    eapply Rle_trans; [exact A3|]. right. ring. }
  assert (B0 : 0 <= B) by (unfold B; repeat apply Rmult_le_pos; lra).
  assert (E0 : e <= / 10000000) by lra.
  assert (B1 : B <= / 1000). { unfold B. apply Rle_trans with (3 * 2048 * e); [apply Rmult_le_compat_r; lra|]. lra. }
  assert (X2 : x <= 2 * y).
  { pose proof (Rle_abs (x - y)). destruct (Rle_lt_dec x 0); [lra|]. assert (e * x <= / 10000000 * x) by (apply Rmult_le_compat_r; lra).
    assert ((B + f) * y <= / 100 * y) by (apply Rmult_le_compat_r; lra). lra. }
  eapply Rle_trans; [exact A4|]. rewrite N1. assert (e * x <= e * (2 * y)) by (apply Rmult_le_compat_l; lra).
  replace (3 * (INR i + 2) * e * y) with (B * y + 6 * e * y) by (unfold B; ring). assert (f * y <= e * y) by (apply Rmult_le_compat_r; lra). assert (0 <= e * y) by (apply Rmult_le_pos; lra). clearbody B. lra.
Qed.
Lemma steps_sound : forall l j a b, (j + length l <= 2046)%nat -> near j a -> near (j + 1) b -> steps_ok (10 ^ 40) (10 ^ 51) (10 ^ 56) (Z.of_nat (j + 2)) a b l = true ->
  forall k x, nth_error l k = Some x -> near (j + 2 + k) x.
Proof.
  induction l as [|c l IH]; intros j a b Hj Ha Hb H k x Hk; [destruct k; discriminate Hk|]. cbn [steps_ok] in H. destruct (step_ok _ _ _ _ _ _) eqn:SE in H; [|discriminate H].
  cbn [length] in Hj. pose proof (step_sound j a c ltac:(lia) Ha SE) as Hc. destruct k as [|k].
  - injection Hk as <-. now rewrite Nat.add_0_r.
  - cbn [nth_error] in Hk. replace (j + 2 + S k)%nat with (j + 1 + 2 + k)%nat by lia. apply (IH (j + 1)%nat b c); [lia|exact Hb| |rewrite <- H; f_equal; lia|exact Hk].
    replace (j + 1 + 1)%nat with (j + 2)%nat by lia. exact Hc.
Qed.
Lemma steps_check : match pre_ball_vol with a :: b :: l => steps_ok (10 ^ 40) (10 ^ 51) (10 ^ 56) 2 a b l = true | _ => False end.
Proof. vm_compute. reflexivity. Qed.
Definition pair_dec (a b : Z * Z) : {a = b} + {a <> b}.
Proof. decide equality; apply Z.eq_dec. Defined.
Lemma first_entries : exists a b l, pre_ball_vol = a :: b :: l /\ entry_val a = 1 /\ entry_val b = 2 /\ length l = 2046%nat.
Proof.
  assert (H : match pre_ball_vol with a :: b :: l => (if pair_dec a (10 ^ 56, -56)%Z then true else false) && (if pair_dec b (2 * 10 ^ 56, -56)%Z then true else false) && (length l =? 2046)%nat | _ => false end = true)
    by (vm_compute; reflexivity).
  destruct pre_ball_vol as [|a [|b l]]; try discriminate H. exists a, b, l. split; [reflexivity|]. destruct (pair_dec a _) as [->|]; [|discriminate H]. destruct (pair_dec b _) as [->|]; [|discriminate H].
  apply Nat.eqb_eq in H. assert (X : 0 < 10 ^ 56) by (apply pow_lt; lra).
  assert (P : powerRZ 10 (-56) = / 10 ^ 56) by reflexivity. unfold entry_val. cbn [fst snd]. rewrite P, mult_IZR. replace (IZR (10 ^ 56)) with (10 ^ 56) by (rewrite (pow_IZR 10 56); reflexivity).
  split; [apply Rinv_r; lra|]. split; [|exact H]. rewrite Rmult_assoc, Rinv_r by lra. ring.
Qed.
(** C86: entry i of ballvol.const is the volume of the unit ball of dimension i, up to a relative
    error of 10^-31 *)
Theorem ball_table_right : length pre_ball_vol = 2048%nat /\
  forall i x, nth_error pre_ball_vol i = Some x -> Rabs (entry_val x - ball_volume i) <= / 10 ^ 31 * ball_volume i.
Proof.
  pose proof steps_check as C. destruct first_entries as [a [b [l [E [Ha [Hb Hl]]]]]]. rewrite E in *. split; [cbn [length]; now rewrite Hl|]. intros i x Hx.
  assert (Na : near 0 a) by (unfold near; rewrite Ha, ball_0; cbn [INR]; rewrite Rminus_diag_eq, Rabs_R0 by reflexivity; lra).
  assert (Nb : near (0 + 1) b).
  { unfold near. cbn [plus]. rewrite Hb, ball_1, Rminus_diag_eq, Rabs_R0 by reflexivity. assert (0 < / 10 ^ 35) by (apply Rinv_0_lt_compat, pow_lt; lra). cbn [INR]. lra. }
  assert (N : near i x /\ (i < 2048)%nat).
  { split. 2: { assert (i < length (a :: b :: l))%nat by (apply nth_error_Some; congruence). cbn [length] in H. lia. }
    destruct i as [|[|i]]; [injection Hx as <-; exact Na|injection Hx as <-; exact Nb|]. exact (steps_sound l 0 a b ltac:(lia) Na Nb C i x Hx). }
  destruct N as [N Hi]. eapply Rle_trans; [exact N|]. pose proof (ball_pos i). apply Rmult_le_compat_r; [lra|].
  assert (INR i <= 2048) by (replace 2048 with (INR 2048) by (rewrite INR_IZR_INZ; reflexivity); apply le_INR; lia).
  assert (T : / 10 ^ 31 = 10000 * / 10 ^ 35). { assert (0 < 10 ^ 31) by (apply pow_lt; lra). replace (10 ^ 35) with (10 ^ 31 * 10000) by ring. field; lra. }
  rewrite T. assert (0 < / 10 ^ 35) by (apply Rinv_0_lt_compat, pow_lt; lra). apply Rmult_le_compat_r; lra.
Qed.

(** *** The table in double arithmetic *)
Definition above (e : Z) (x : Z * Z) : bool := let '(m, k) := x in (k <? 0)%Z && (if (-350 <=? k)%Z then (10 ^ 51 <=? m)%Z else (10 ^ (- k) <=? m * 2 ^ e)%Z).
Definition below (x : Z * Z) : bool := let '(m, k) := x in (k <? 0)%Z && (0 <=? m)%Z && (if (k <=? -382)%Z then (m <? 10 ^ 57)%Z else (m * 2 ^ 1075 <? 10 ^ (- k))%Z).
Lemma normal_entries : forallb (above 1022) (firstn 436 pre_ball_vol) = true.
Proof. vm_compute. reflexivity. Qed.
Lemma positive_entries : forallb (above 1074) (firstn 453 pre_ball_vol) = true.
Proof. vm_compute. reflexivity. Qed.
Lemma zero_entries : forallb below (skipn 453 pre_ball_vol) = true.
Proof. vm_compute. reflexivity. Qed.
Lemma val_neg m k : (k < 0)%Z -> entry_val (m, k) = IZR m / IZR (10 ^ (- k)) /\ 0 < IZR (10 ^ (- k)).
Proof.
  intros Hk. unfold entry_val. cbn [fst snd]. assert (0 < 10 ^ (- k))%Z by (apply Z.pow_pos_nonneg; lia). split; [|now apply IZR_lt].
  unfold Rdiv. f_equal. rewrite <- (Z2Nat.id (- k)) by lia. rewrite <- pow_IZR, pow_powerRZ, Z2Nat.id by lia. replace k with (- (- k))%Z at 1 by lia. apply powerRZ_neg'.
Qed.
Lemma above_sound e x : (e = 1022 \/ e = 1074)%Z -> above e x = true -> bpow radix2 (- e) <= entry_val x.
Proof.
  intros He H. destruct x as [m k]. unfold above in H. apply andb_prop in H. destruct H as [K H]. apply Z.ltb_lt in K. destruct (val_neg m k K) as [-> P].
  assert (Q : (0 < 2 ^ e)%Z) by (apply Z.pow_pos_nonneg; lia).
  assert (G : (10 ^ (- k) <= m * 2 ^ e)%Z).
  { destruct (Z.leb_spec (-350) k) as [L|L]; apply Z.leb_le in H; [|exact H]. apply Z.le_trans with (10 ^ 350)%Z; [apply Z.pow_le_mono_r; lia|].
    apply Z.le_trans with (10 ^ 51 * 2 ^ 1022)%Z; [apply Z.leb_le; vm_compute; reflexivity|]. assert (2 ^ 1022 <= 2 ^ e)%Z by (apply Z.pow_le_mono_r; lia).
    apply Z.mul_le_mono_nonneg; [apply Z.pow_nonneg; lia|exact H|apply Z.pow_nonneg; lia|exact H0]. }
  apply IZR_le in G. rewrite mult_IZR in G. rewrite bpow_opp. rewrite <- IZR_Zpower by lia. change (Zpower radix2 e) with (2 ^ e)%Z. apply IZR_lt in Q.
  apply Rmult_le_reg_r with (IZR (2 ^ e)); [exact Q|]. rewrite Rinv_l by lra. apply Rmult_le_reg_r with (1 := P).
  replace (IZR m / IZR (10 ^ (- k)) * IZR (2 ^ e) * IZR (10 ^ (- k))) with (IZR m * IZR (2 ^ e)) by (field; lra). lra.
Qed.
Lemma below_sound x : below x = true -> 0 <= entry_val x < bpow radix2 (- 1075).
Proof.
  intros H. destruct x as [m k]. unfold below in H. apply andb_prop in H. destruct H as [H L]. apply andb_prop in H. destruct H as [K M]. apply Z.ltb_lt in K. apply Z.leb_le in M.
  destruct (val_neg m k K) as [-> P]. assert (G : (m * 2 ^ 1075 < 10 ^ (- k))%Z).
  { destruct (Z.leb_spec k (-382)) as [T|T]; apply Z.ltb_lt in L; [|exact L]. apply Z.lt_le_trans with (10 ^ 382)%Z; [|apply Z.pow_le_mono_r; lia].
    apply Z.le_lt_trans with (10 ^ 57 * 2 ^ 1075)%Z; [apply Z.mul_le_mono_nonneg_r; [apply Z.pow_nonneg; lia|lia]|]. apply Z.ltb_lt. vm_compute. reflexivity. }
  assert (Q : (0 < 2 ^ 1075)%Z) by (apply Z.pow_pos_nonneg; lia). apply IZR_lt in G, Q. apply IZR_le in M. rewrite mult_IZR in G. split.
  - unfold Rdiv. apply Rmult_le_pos; [exact M|]. left. now apply Rinv_0_lt_compat.
  - change (bpow radix2 (-1075)) with (bpow radix2 (- (1075))). rewrite (bpow_opp radix2 1075), <- IZR_Zpower by lia. change (Zpower radix2 1075) with (2 ^ 1075)%Z. set (g := IZR (2 ^ 1075)) in *. clearbody g. apply Rmult_lt_reg_r with (1 := Q). rewrite Rinv_l by lra. apply Rmult_lt_reg_r with (1 := P).
    replace (IZR m / IZR (10 ^ (- k)) * g * IZR (10 ^ (- k))) with (IZR m * g) by (field; lra). lra.
Qed.
Lemma in_first : forall A (l : list A) i k x, nth_error l i = Some x -> (i < k)%nat -> In x (firstn k l).
Proof.
  induction l as [|y l IH]; intros [|i] [|k] x H L; cbn in *; try discriminate H; try lia; [injection H as <-; auto|]. right. apply (IH i); [exact H|lia].
Qed.
Lemma in_rest : forall A (l : list A) i k x, nth_error l i = Some x -> (k <= i)%nat -> In x (skipn k l).
Proof.
  induction l as [|y l IH]; intros i [|k] x H L; cbn [skipn].
  - now apply nth_error_In in H.
  - destruct i; discriminate H.
  - now apply nth_error_In in H.
  - destruct i as [|i]; [lia|]. cbn in H. apply (IH i); [exact H|lia].
Qed.
(** C86: as doubles the volumes are correct to 52 bits up to dimension 435, positive exactly up to
    dimension 452, and 0 after that *)
Theorem ball_double : forall i, (i < 2047)%nat -> exists x, tabulated_ball_vol i = Some x /\
  ((i <= 435)%nat -> Rabs (x - ball_volume i) <= bpow radix2 (-52) * ball_volume i) /\
  ((i <= 452)%nat -> 0 < x) /\ ((453 <= i)%nat -> x = 0).
Proof.
  intros i Hi. unfold tabulated_ball_vol. destruct (Nat.ltb_spec i 2047); [|lia]. destruct ball_table_right as [HL HT].
  destruct (nth_error pre_ball_vol i) as [c|] eqn:E; [|apply nth_error_None in E; lia]. exists (entry_double c). split; [reflexivity|]. specialize (HT i c E). unfold entry_double.
  assert (VE : Valid_exp (FLT_exp (-1074) 53)) by (apply FLT_exp_valid; reflexivity). split; [|split]; intros Hs.
  - assert (N : bpow radix2 (-1022) <= entry_val c). { apply (above_sound 1022); [auto|]. apply (proj1 (forallb_forall _ _) normal_entries). apply in_first with i; [exact E|lia]. }
    pose proof (bpow_gt_0 radix2 (-1022)) as B0. pose proof (relative_error_N_FLT radix2 (-1074) 53 ltac:(lia) (fun z => negb (Z.even z)) (entry_val c)) as R.
    rewrite (Rabs_pos_eq (entry_val c)) in R by lra. specialize (R N). set (r := round _ _ _ _) in *. set (v := entry_val c) in *. set (V := ball_volume i) in *. clearbody r v V.
    pose proof (Rabs_pos (v - V)) as Z0. assert (D : / 10 ^ 31 <= / 1024 * bpow radix2 (-52)).
    { change (bpow radix2 (-52)) with (bpow radix2 (- (52))). rewrite (bpow_opp radix2 52), <- IZR_Zpower by lia. rewrite <- Rinv_mult. apply Rinv_le_contravar; [change (Zpower radix2 52) with 4503599627370496%Z; lra|]. change (Zpower radix2 52) with 4503599627370496%Z. rewrite (pow_IZR 10 31), <- mult_IZR. apply IZR_le. vm_compute. discriminate. }
    assert (Bh : / 2 * bpow radix2 (- (53) + 1) = / 2 * bpow radix2 (-52)) by reflexivity. rewrite Bh in R. pose proof (bpow_gt_0 radix2 (-52)) as B1.
    assert (B2 : bpow radix2 (-52) <= 1) by (change 1 with (bpow radix2 0); apply bpow_le; lia). set (b := bpow radix2 (-52)) in *. clearbody b.
    assert (V0 : 0 <= V). { destruct (Rle_lt_dec 0 V); [assumption|]. assert (0 < / 10 ^ 31) by (apply Rinv_0_lt_compat, pow_lt; lra). assert (/ 10 ^ 31 * V < 0) by (rewrite <- (Rmult_0_r (/ 10 ^ 31)); apply Rmult_lt_compat_l; lra). lra. }
    assert (T1 : Rabs (v - V) <= / 1024 * b * V) by (eapply Rle_trans; [exact HT|]; apply Rmult_le_compat_r; lra).
    assert (T2 : v <= 2 * V). { pose proof (Rle_abs (v - V)). assert (/ 1024 * b * V <= 1 * V) by (apply Rmult_le_compat_r; lra). lra. }
    assert (T3 : v <= V + / 1024 * V). { pose proof (Rle_abs (v - V)). assert (/ 1024 * b * V <= / 1024 * V) by (apply Rmult_le_compat_r; lra). lra. }
    replace (r - V) with ((r - v) + (v - V)) by ring. eapply Rle_trans; [apply Rabs_triang|].
    assert (/ 2 * b * v <= / 2 * b * (V + / 1024 * V)) by (apply Rmult_le_compat_l; lra). assert (0 <= b * V) by (apply Rmult_le_pos; lra). lra.
  - assert (N : bpow radix2 (-1074) <= entry_val c). { apply (above_sound 1074); [auto|]. apply (proj1 (forallb_forall _ _) positive_entries). apply in_first with i; [exact E|lia]. }
    apply Rlt_le_trans with (bpow radix2 (-1074)); [apply bpow_gt_0|]. apply round_ge_generic; [exact VE|apply valid_rnd_N| |exact N]. apply generic_format_bpow. vm_compute. discriminate.
  - assert (N : 0 <= entry_val c < bpow radix2 (-1075)). { apply below_sound. apply (proj1 (forallb_forall _ _) zero_entries). apply in_rest with i; [exact E|lia]. }
    destruct N as [N1 N2]. destruct (Req_dec (entry_val c) 0) as [Z|Z]; [rewrite Z; apply round_0; apply valid_rnd_N|].
    apply round_N_small with (ex := mag radix2 (entry_val c)).
    + split; [now apply bpow_mag_le|apply bpow_mag_gt].
    + assert (mag radix2 (entry_val c) <= -1075)%Z by (apply mag_le_bpow; [exact Z|rewrite Rabs_pos_eq; lra]). unfold FLT_exp. lia.
Qed.

(** *** Instances *)
Example ball_case : ball_volume 4 = PI ^ 2 / 2 /\ nth_error pre_ball_vol 4 = Some (493480220054467930941724549993807556765684970362039531320, -56)%Z.
Proof. split; [unfold ball_volume; cbn; lra|reflexivity]. Qed.
(** the check refuses an entry with a changed 35th digit *)
Example digit_case : steps_ok (10 ^ 40) (10 ^ 51) (10 ^ 56) 4 (314159265358979323846264338327950288419716939937510582097, -56)%Z (418879020478639098461685784437267051226289253250014109463, -56)%Z
  [(493480220054467930941724549993807556765684970362039531320, -56)%Z] = true /\
  steps_ok (10 ^ 40) (10 ^ 51) (10 ^ 56) 4 (314159265358979323846264338327950288419716939937510582097, -56)%Z (418879020478639098461685784437267051226289253250014109463, -56)%Z
  [(493480220054467930941724549993807566765684970362039531320, -56)%Z] = false.
Proof. split; vm_compute; reflexivity. Qed.

Print Assumptions ball_table_right.
Print Assumptions ball_double.
