(** C73: the integer types Z_NR<long>, Z_NR<mpz_t>, Z_NR<double> against their common interface (nr/nr_Z.inl). *)
From Coq Require Import List ZArith Lia Bool Ascii Reals Lra Znumtheory.
From Flocq Require Import Core Relative BinarySingleNaN.
From Verif Require Import DblModel DblProofs ZnrModel.
From Verif Require IoModel IoProofs.
Import ListNotations.
Local Open Scope Z_scope.

(** ** Specification (nr_Z.inl:73-75, 101-104, 149-209, 228-231) *)
(** representable in a long *)
Definition in_long (z : Z) : Prop := - 2 ^ 63 <= z < 2 ^ 63.
(** value of an operation; 2^b with b negative divides, rounding down *)
Definition doc_value (o : zop) : Z :=
  match o with
  | ZAdd a b | ZAddUi a b => a + b
  | ZSub a b | ZSubUi a b => a - b
  | ZNeg a => - a
  | ZAbs a => Z.abs a
  | ZMul a b | ZMulSi a b | ZMulUi a b => a * b
  | ZAddmul v a b | ZAddmulSi v a b | ZAddmulUi v a b => v + a * b
  | ZSubmul v a b | ZSubmulUi v a b => v - a * b
  | ZMul2si a b => if 0 <=? b then a * 2 ^ b else a / 2 ^ (- b)
  | ZDiv2si a b => if 0 <=? b then a / 2 ^ b else a * 2 ^ (- b)
  end.
(** the arguments have the C types of the interface: objects in P, int-typed arguments as declared *)
Definition args (P : Z -> Prop) (o : zop) : Prop :=
  match o with
  | ZAdd a b | ZSub a b | ZMul a b => P a /\ P b
  | ZAddUi a b | ZSubUi a b => P a /\ 0 <= b < 2 ^ 32
  | ZNeg a | ZAbs a => P a
  | ZMulSi a b | ZMul2si a b | ZDiv2si a b => P a /\ in_long b
  | ZMulUi a b => P a /\ 0 <= b < 2 ^ 64
  | ZAddmul v a b | ZSubmul v a b => P v /\ P a /\ P b
  | ZAddmulSi v a b => P v /\ P a /\ in_long b
  | ZAddmulUi v a b | ZSubmulUi v a b => P v /\ P a /\ 0 <= b < 2 ^ 64
  end.
(** what makes an operation on long safe beside a representable result *)
Definition safe (o : zop) : Prop :=
  match o with
  | ZAddmul v a b | ZAddmulSi v a b | ZSubmul v a b => in_long (a * b)
  | ZMul2si a b => - 64 < b < 64 /\ (0 <= b -> 0 <= a)
  | ZDiv2si a b => - 64 < b < 64 /\ (b < 0 -> 0 <= a)
  | _ => True
  end.
(** smallest non-negative e with |n| < 2^e *)
Definition is_exponent (n e : Z) : Prop := 0 <= e /\ Z.abs n < 2 ^ e /\ forall e', 0 <= e' -> Z.abs n < 2 ^ e' -> e <= e'.
(** smallest prime above n *)
Definition next_prime (n p : Z) : Prop := prime p /\ n < p /\ forall q, prime q -> n < q -> p <= q.

(** ** Arithmetic *)
Lemma i64_some x v : i64 x = Some v -> v = x /\ in_long x.
Proof.
  unfold i64, in_long. destruct (- 2 ^ 63 <=? x) eqn:A; [|discriminate]. destruct (x <? 2 ^ 63) eqn:B; [|discriminate].
  apply Z.leb_le in A. apply Z.ltb_lt in B. intros [= <-]. auto.
Qed.
Lemma to_long_mod x : in_long (to_long x) /\ (to_long x - x) mod 2 ^ 64 = 0.
Proof.
  unfold to_long, in_long. pose proof (Z.mod_pos_bound (x + 2 ^ 63) (2 ^ 64) ltac:(lia)) as B. split; [lia|].
  apply Zdivide_mod. exists (- ((x + 2 ^ 63) / 2 ^ 64)). pose proof (Z.div_mod (x + 2 ^ 63) (2 ^ 64) ltac:(lia)). lia.
Qed.
Lemma mod_divide x : x mod 2 ^ 64 = 0 -> (2 ^ 64 | x). Proof. apply Zmod_divide. lia. Qed.
Lemma mod64_div x : (2 ^ 64 | x mod 2 ^ 64 - x).
Proof. exists (- (x / 2 ^ 64)). pose proof (Z.div_mod x (2 ^ 64) ltac:(lia)). lia. Qed.
Lemma unique_long u v : in_long u -> in_long v -> (2 ^ 64 | u - v) -> u = v.
Proof. unfold in_long. intros A B [k K]. assert (k = 0) by lia. lia. Qed.
Lemma shr_val a b : 0 <= b -> Z.shiftr a b = a / 2 ^ b. Proof. apply Z.shiftr_div_pow2. Qed.
Lemma shr_long a b : 0 <= b -> in_long a -> in_long (a / 2 ^ b).
Proof.
  unfold in_long. intros Hb [A B]. assert (P : 1 <= 2 ^ b) by (pose proof (Z.pow_pos_nonneg 2 b); lia). split.
  - apply Z.div_le_lower_bound; nia.
  - apply Z.div_lt_upper_bound; nia.
Qed.

(** Z_NR<long>: an operation that is defined gives a value that fits in a long and is congruent to the documented one modulo 2^64;
    in particular it gives the documented value whenever that fits. *)
Theorem long_value o v : args in_long o -> l_run o = Some v -> in_long v /\ (2 ^ 64 | v - doc_value o).
Proof.
  assert (TL : forall x, in_long (to_long x) /\ (2 ^ 64 | to_long x - x)).
  { intros x. destruct (to_long_mod x) as [A B]. split; auto. now apply mod_divide. }
  assert (OK : forall x v, i64 x = Some v -> in_long v /\ (2 ^ 64 | v - x)).
  { intros x w H. apply i64_some in H as [-> H]. split; auto. exists 0. lia. }
  assert (SL : forall a b v, l_shl a b = Some v -> in_long v /\ (2 ^ 64 | v - a * 2 ^ b)).
  { unfold l_shl. intros a b w. destruct (_ && _); [|discriminate]. intros [= <-]. apply TL. }
  assert (SR : forall a b v, in_long a -> l_shr a b = Some v -> 0 <= b /\ in_long v /\ (2 ^ 64 | v - a / 2 ^ b)).
  { unfold l_shr. intros a b w Ha. destruct ((0 <=? b) && (b <? 64)) eqn:E; [|discriminate]. apply andb_prop in E as [E _]. apply Z.leb_le in E.
    intros [= <-]. rewrite shr_val by lia. split; auto. split; [now apply shr_long|]. exists 0. lia. }
  destruct o; cbn [args l_run doc_value]; intros H R; unfold l_add, l_sub, l_neg, l_abs, l_mul in *; try (apply OK, R).
  - unfold l_mul_ui in R. assert (V : to_long (((a mod 2 ^ 64) * b) mod 2 ^ 64) = v) by congruence. subst v. destruct (TL (((a mod 2 ^ 64) * b) mod 2 ^ 64)) as [A B]. split; auto.
    destruct B as [k K]. destruct (mod64_div ((a mod 2 ^ 64) * b)) as [l L]. destruct (mod64_div a) as [m M]. exists (k + l + m * b).
    assert (M' : a mod 2 ^ 64 = a + m * 2 ^ 64) by lia. rewrite M' in K, L. rewrite M'. clear M M'. cbn [args] in H. revert K L. generalize (to_long (((a + m * 2 ^ 64) * b) mod 2 ^ 64)) (((a + m * 2 ^ 64) * b) mod 2 ^ 64). clear. intros. nia.
  - unfold l_addmul in R. destruct (i64 (a * b)) as [p|] eqn:E; [|discriminate]. apply i64_some in E as [-> _]. apply OK, R.
  - unfold l_addmul in R. destruct (i64 (a * b)) as [p|] eqn:E; [|discriminate]. apply i64_some in E as [-> _]. apply OK, R.
  - unfold l_addmul_ui in R. assert (V : to_long ((v0 mod 2 ^ 64 + (a mod 2 ^ 64) * b) mod 2 ^ 64) = v) by congruence. subst v. match goal with |- in_long (to_long ?x) /\ _ => destruct (TL x) as [A B] end. split; auto.
    destruct B as [k K].
    destruct (mod64_div (v0 mod 2 ^ 64 + (a mod 2 ^ 64) * b)) as [l L]. destruct (mod64_div a) as [m M]. destruct (mod64_div v0) as [n N]. exists (k + l + m * b + n).
    assert (M' : a mod 2 ^ 64 = a + m * 2 ^ 64) by lia. assert (N' : v0 mod 2 ^ 64 = v0 + n * 2 ^ 64) by lia. rewrite M', N' in K, L. rewrite M', N'. clear M M' N N'.
    revert K L. generalize (to_long ((v0 + n * 2 ^ 64 + (a + m * 2 ^ 64) * b) mod 2 ^ 64)) ((v0 + n * 2 ^ 64 + (a + m * 2 ^ 64) * b) mod 2 ^ 64). clear. intros. nia.
  - unfold l_submul in R. destruct (i64 (a * b)) as [p|] eqn:E; [|discriminate]. apply i64_some in E as [-> _]. apply OK, R.
  - unfold l_submul_ui in R. assert (V : to_long ((v0 mod 2 ^ 64 - (a mod 2 ^ 64) * b) mod 2 ^ 64) = v) by congruence. subst v. match goal with |- in_long (to_long ?x) /\ _ => destruct (TL x) as [A B] end. split; auto.
    destruct B as [k K].
    destruct (mod64_div (v0 mod 2 ^ 64 - (a mod 2 ^ 64) * b)) as [l L]. destruct (mod64_div a) as [m M]. destruct (mod64_div v0) as [n N]. exists (k + l - m * b + n).
    assert (M' : a mod 2 ^ 64 = a + m * 2 ^ 64) by lia. assert (N' : v0 mod 2 ^ 64 = v0 + n * 2 ^ 64) by lia. rewrite M', N' in K, L. rewrite M', N'. clear M M' N N'.
    revert K L. generalize (to_long ((v0 + n * 2 ^ 64 - (a + m * 2 ^ 64) * b) mod 2 ^ 64)) ((v0 + n * 2 ^ 64 - (a + m * 2 ^ 64) * b) mod 2 ^ 64). clear. intros. nia.
  - unfold l_mul_2si in R. destruct (0 <=? b) eqn:E; [apply SL, R|]. destruct (i64 (- b)) as [nb|] eqn:F; [|discriminate]. apply i64_some in F as [-> _].
    cbn [bind] in R. apply SR in R; tauto.
  - unfold l_div_2si in R. destruct (0 <=? b) eqn:E; [apply SR in R; tauto|]. destruct (i64 (- b)) as [nb|] eqn:F; [|discriminate]. apply i64_some in F as [-> _].
    cbn [bind] in R. apply SL, R.
Qed.
Theorem long_exact o : args in_long o -> in_long (doc_value o) -> safe o -> l_run o = Some (doc_value o).
Proof.
  intros A D S. assert (DEF : exists v, l_run o = Some v).
  { assert (OK : forall x, in_long x -> exists v, i64 x = Some v) by (intros x Hx; eexists; apply i64_in, Hx).
    assert (SL : forall a b, 0 <= b < 64 -> 0 <= a -> in_long (a * 2 ^ b) -> exists v, l_shl a b = Some v).
    { intros a b Hb Ha I. unfold l_shl. unfold in_long in I.
      replace (0 <=? b) with true by (symmetry; apply Z.leb_le; lia). replace (b <? 64) with true by (symmetry; apply Z.ltb_lt; lia).
      replace (0 <=? a) with true by (symmetry; apply Z.leb_le; lia). replace (a * 2 ^ b <? 2 ^ 64) with true by (symmetry; apply Z.ltb_lt; lia).
      eexists. reflexivity. }
    assert (SR : forall a b, 0 <= b < 64 -> exists v, l_shr a b = Some v).
    { intros a b Hb. unfold l_shr. replace (0 <=? b) with true by (symmetry; apply Z.leb_le; lia). replace (b <? 64) with true by (symmetry; apply Z.ltb_lt; lia). eexists. reflexivity. }
    destruct o; cbn [args doc_value safe l_run] in *; unfold l_add, l_sub, l_neg, l_abs, l_mul; try (apply OK, D); try (eexists; reflexivity).
    - unfold l_addmul. rewrite i64_in by exact S. apply OK, D.
    - unfold l_addmul. rewrite i64_in by exact S. apply OK, D.
    - unfold l_submul. rewrite i64_in by exact S. apply OK, D.
    - unfold l_mul_2si. destruct (0 <=? b) eqn:E.
      + apply Z.leb_le in E. apply SL; [lia|tauto|exact D].
      + apply Z.leb_gt in E. rewrite i64_in by lia. apply SR. lia.
    - unfold l_div_2si. destruct (0 <=? b) eqn:E.
      + apply Z.leb_le in E. apply SR. lia.
      + apply Z.leb_gt in E. rewrite i64_in by lia. apply SL; [lia|tauto|exact D]. }
  destruct DEF as [v V]. rewrite V. f_equal. destruct (long_value o v A V) as [B C]. now apply unique_long.
Qed.

(** Z_NR<mpz_t>: the documented value, except when -b is computed for b = LONG_MIN *)
Theorem mpz_exact o : args (fun _ => True) o ->
  match o with ZAddmulSi _ _ b | ZMul2si _ b | ZDiv2si _ b => b <> - 2 ^ 63 | _ => True end ->
  m_run o = Some (doc_value o).
Proof.
  assert (NEG : forall b, in_long b -> b <> - 2 ^ 63 -> (0 <=? b) = false -> i64 (- b) = Some (- b)).
  { intros b Hb N E. apply Z.leb_gt in E. unfold in_long in Hb. apply i64_in. lia. }
  destruct o; cbn [args m_run doc_value]; intros H N; auto.
  - unfold m_addmul_si. destruct (0 <=? b) eqn:E; auto. rewrite NEG by tauto. cbn [bind]. f_equal. lia.
  - unfold m_mul_2si. destruct (0 <=? b) eqn:E; auto. rewrite NEG by tauto. cbn [bind]. f_equal. apply shr_val. apply Z.leb_gt in E. lia.
  - unfold m_div_2si. destruct (0 <=? b) eqn:E; [f_equal; apply shr_val; apply Z.leb_le in E; lia|]. rewrite NEG by tauto. reflexivity.
Qed.

(** Three expectations that fail: value + a b may be representable while a b is not; a negative value is not shifted to the left; addmul_si of
    an mpz_t by LONG_MIN negates LONG_MIN. *)
Theorem long_addmul_refuted : exists v a b, args in_long (ZAddmul v a b) /\ in_long (doc_value (ZAddmul v a b)) /\ l_run (ZAddmul v a b) = None /\ l_run (ZAddmulUi v a b) = Some (doc_value (ZAddmul v a b)).
Proof. exists (-1), (2 ^ 62), 2. unfold in_long. cbn. repeat split; try lia; reflexivity. Qed.
Theorem long_shift_refuted : exists a b, args in_long (ZMul2si a b) /\ -64 < b < 64 /\ in_long (doc_value (ZMul2si a b)) /\ l_run (ZMul2si a b) = None.
Proof. exists (-3), 4. unfold in_long. cbn. repeat split; try lia; reflexivity. Qed.
Theorem mpz_addmul_refuted : exists v a b, args (fun _ => True) (ZAddmulSi v a b) /\ m_run (ZAddmulSi v a b) = None.
Proof. exists 0, 1, (- 2 ^ 63). unfold in_long. cbn. repeat split; try lia; reflexivity. Qed.

(** mod: the two types agree for a non-negative dividend, not for a negative one *)
Theorem mod_agree a b : in_long a -> in_long b -> 0 <= a -> b <> 0 -> l_mod a b = m_mod a b /\ m_mod a b = Some (a mod Z.abs b).
Proof.
  intros Ha Hb P N. unfold l_mod, m_mod, lmin. replace (b =? 0) with false by (symmetry; now apply Z.eqb_neq).
  replace (a =? - 2 ^ 63) with false by (symmetry; apply Z.eqb_neq; lia). cbn [andb]. split; auto. f_equal.
  destruct (Z_le_dec 0 b).
  - rewrite Z.abs_eq by lia. apply Z.rem_mod_nonneg; lia.
  - rewrite Z.abs_neq by lia. rewrite <- (Z.rem_opp_r a b) by lia. apply Z.rem_mod_nonneg; lia.
Qed.
Theorem mod_refuted : exists a b, in_long a /\ in_long b /\ l_mod a b = Some (-1) /\ m_mod a b = Some 2 /\ x_mod (l_get_d a) (l_get_d b) = l_get_d (-1).
Proof. exists (-7), 3. unfold in_long. split; [lia|]. split; [lia|]. split; [reflexivity|]. split; [reflexivity|]. apply B2SF_inj. vm_compute. reflexivity. Qed.

(** ** exponent *)
Lemma is_exponent_0 : is_exponent 0 0. Proof. split; [lia|]. split; [reflexivity|]. intros; assumption. Qed.
Lemma is_exponent_bits n : is_exponent n (m_exponent n).
Proof.
  unfold m_exponent. destruct (n =? 0) eqn:E; [apply Z.eqb_eq in E as ->; exact is_exponent_0|]. unfold is_exponent. apply Z.eqb_neq in E.
  pose proof (Z.log2_nonneg (Z.abs n)) as P. pose proof (Z.log2_spec (Z.abs n) ltac:(lia)) as [L U]. split; [lia|]. split; [rewrite Z.add_1_r; exact U|].
  intros e' He H. destruct (Z_le_dec (Z.log2 (Z.abs n) + 1) e'); auto. exfalso.
  pose proof (Z.pow_le_mono_r 2 e' (Z.log2 (Z.abs n)) ltac:(lia) ltac:(lia)). lia.
Qed.
Lemma is_exponent_unique n e e' : is_exponent n e -> is_exponent n e' -> e = e'.
Proof. intros (A & B & C) (A' & B' & C'). pose proof (C e' A' B'). pose proof (C' e A B). lia. Qed.
Theorem mpz_exponent_ok n : is_exponent n (m_exponent n). Proof. exact (is_exponent_bits n). Qed.

Lemma bits_loop_ok : forall fuel y e, 0 <= y < 2 ^ Z.of_nat fuel -> bits_loop fuel y e = e + m_exponent y.
Proof.
  induction fuel as [|n IH]; intros y e H.
  - cbn in H. assert (y = 0) as -> by lia. cbn. lia.
  - cbn [bits_loop]. destruct (y =? 0) eqn:E; [apply Z.eqb_eq in E as ->; cbn; lia|]. apply Z.eqb_neq in E.
    rewrite Nat2Z.inj_succ, Z.pow_succ_r in H by lia. rewrite IH.
    2: { split; [apply Z.div_pos; lia|apply Z.div_lt_upper_bound; lia]. }
    unfold m_exponent. replace (y =? 0) with false by (symmetry; now apply Z.eqb_neq).
    destruct (y / 2 =? 0) eqn:F.
    + apply Z.eqb_eq in F. assert (y = 1) as -> by (pose proof (Z.div_mod y 2 ltac:(lia)); pose proof (Z.mod_pos_bound y 2 ltac:(lia)); lia). change (Z.log2 (Z.abs 1)) with 0. lia.
    + apply Z.eqb_neq in F. rewrite !Z.abs_eq by (try apply Z.div_pos; lia).
      replace (Z.log2 y) with (Z.log2 (y / 2) + 1); [lia|].
      pose proof (Z.div_mod y 2 ltac:(lia)) as D. pose proof (Z.mod_pos_bound y 2 ltac:(lia)) as M. pose proof (Z.div_pos y 2 ltac:(lia) ltac:(lia)).
      destruct (Z.eq_dec (y mod 2) 0) as [M0|M0].
      * rewrite D at 2. rewrite M0, Z.add_0_r. rewrite Z.log2_double by lia. lia.
      * rewrite D at 2. replace (y mod 2) with 1 by lia. rewrite Z.log2_succ_double by lia. lia.
Qed.

Lemma frexp_exp (x : dbl) : is_finite x = true -> B2R x <> 0%R ->
  (bp (snd (d_frexp x) - 1) <= Rabs (B2R x) < bp (snd (d_frexp x)))%R.
Proof.
  intros F N. destruct (ilogb_spec 0 0 x F N) as [P _]. destruct x as [s|s| |s m e B]; try discriminate F; [exfalso; apply N; reflexivity|].
  cbn [ilogb d_frexp snd] in *. replace (Z.log2 (Z.pos m) + 1 + e - 1) with (Z.log2 (Z.pos m) + e) by lia. replace (Z.log2 (Z.pos m) + 1 + e) with (Z.log2 (Z.pos m) + e + 1) by lia. exact P.
Qed.
Lemma get_d_val a : in_long a -> is_finite (l_get_d a) = true /\ B2R (l_get_d a) = round radix2 fe ZnearestE (IZR a).
Proof.
  intros H. unfold l_get_d, d_of. pose proof (binary_normalize_correct 53 1024 _ _ mode_NE a 0 false) as C. cbv zeta in C.
  unfold F2R in C. cbn [Fnum Fexp] in C. change (bp 0) with 1%R in C. rewrite Rmult_1_r in C. rewrite fexp_eq in C. cbn [round_mode] in C.
  rewrite Rlt_bool_true in C; [tauto|]. apply Rle_lt_trans with (bp 63).
  - apply abs_round_le_generic; [typeclasses eauto|typeclasses eauto|apply fe_bp; lia|].
    rewrite <- abs_IZR. change (bp 63) with (IZR (2 ^ 63)). apply IZR_le. unfold in_long in H. lia.
  - apply bpow_lt. lia.
Qed.
Lemma get_d_exact a : Z.abs a <= 2 ^ 53 -> is_finite (l_get_d a) = true /\ B2R (l_get_d a) = IZR a.
Proof.
  intros H. destruct (get_d_val a) as [F V]; [unfold in_long; lia|]. split; auto. rewrite V. apply round_generic; [typeclasses eauto|].
  replace (IZR a) with (IZR a * bp 0)%R by (change (bp 0) with 1%R; ring). apply fe_mant; lia.
Qed.
Lemma exp_of_real (x : R) n e : (bp (e - 1) <= Rabs x < bp e)%R -> x = IZR n -> n <> 0 -> is_exponent n e.
Proof.
  intros [L U] -> N. rewrite <- abs_IZR in L, U.
  assert (E0 : 0 < e). { apply (lt_bpow radix2). change (bp 0) with 1%R. eapply Rle_lt_trans; [|exact U]. apply IZR_le. lia. }
  rewrite <- IZR_Zpower in L, U by lia. apply le_IZR in L. apply lt_IZR in U. split; [lia|]. split; [exact U|].
  intros e' He H. destruct (Z_le_dec e e'); auto. exfalso. pose proof (Z.pow_le_mono_r 2 e' (e - 1) ltac:(lia) ltac:(lia)). change (Zpower radix2 (e - 1)) with (2 ^ (e - 1)) in L. lia.
Qed.

(** Z_NR<double>: a finite datum that is the integer n *)
Theorem dbl_exponent_ok (x : dbl) n : is_finite x = true -> B2R x = IZR n -> is_exponent n (x_exponent x).
Proof.
  intros F V. destruct (Z.eq_dec n 0) as [->|N].
  - destruct x as [s|s| |s m e B]; try discriminate F; [exact is_exponent_0|].
    exfalso. unfold B2R in V. apply eq_0_F2R in V. destruct s; discriminate.
  - apply (exp_of_real (B2R x)); auto. apply frexp_exp; auto. rewrite V. intros C. apply N. now apply eq_IZR.
Qed.

Lemma frexp_half (x : dbl) k : is_finite x = true -> B2R x = bp k -> -1000 <= k <= 1000 ->
  snd (d_frexp x) = k + 1 /\ is_finite (fst (d_frexp x)) = true /\ B2R (fst (d_frexp x)) = (/2)%R.
Proof.
  intros F V K. assert (N : B2R x <> 0%R) by (rewrite V; apply Rgt_not_eq, bpow_gt_0).
  pose proof (frexp_exp x F N) as [L U]. rewrite V, Rabs_pos_eq in L, U by apply bpow_ge_0. apply le_bpow in L. apply lt_bpow in U.
  assert (E : snd (d_frexp x) = k + 1) by lia. split; auto.
  destruct x as [s|s| |s m e B]; try discriminate F; [exfalso; apply N; reflexivity|]. cbn [d_frexp fst snd] in *. rewrite E.
  assert (P : (B2R (B754_finite s m e B : dbl) * bp (- (k + 1)) = /2)%R).
  { rewrite V, <- bpow_plus. replace (k + - (k + 1)) with (-1) by lia. reflexivity. }
  destruct (ldexp_exact (B754_finite s m e B : dbl) (- (k + 1)) F) as [A B'].
  - rewrite P. change (/2)%R with (bp (-1)). rewrite Rabs_pos_eq by apply bpow_ge_0. apply bpow_le. lia.
  - rewrite P. change (/2)%R with (bp (-1)). rewrite Rabs_pos_eq by apply bpow_ge_0. apply bpow_lt. lia.
  - rewrite <- P. tauto.
Qed.

(** Z_NR<long>: all non-negative values, and all values up to 2^53 *)
Theorem long_exponent_ok a : in_long a -> 0 <= a \/ Z.abs a <= 2 ^ 53 -> exists e, l_exponent a = Some e /\ is_exponent a e.
Proof.
  intros Ha H. destruct (get_d_val a Ha) as [F V].
  assert (CLE : 0 <= a -> compute_long_exponent a = Some (m_exponent a)).
  { intros P. unfold compute_long_exponent. rewrite i64_in by (unfold in_long in Ha; lia). cbn [bind]. rewrite bits_loop_ok; [|unfold in_long in Ha; lia].
    f_equal. rewrite Z.abs_eq by lia. lia. }
  destruct (Z.eq_dec a 0) as [->|N]; [exists 0; split; [reflexivity|exact is_exponent_0]|].
  unfold l_exponent. cbv zeta. destruct (d_lt (d_of 1 53) (l_get_d a) && _) eqn:G.
  - apply andb_prop in G as [G1 G2]. assert (P : 0 <= a).
    { destruct H as [H|H]; auto. exfalso. destruct (get_d_exact a H) as [_ X]. unfold d_lt in G1.
      rewrite Bltb_correct in G1; [|apply d_of_bp; lia|exact F]. destruct (d_of_bp 53 ltac:(lia)) as [_ Y]. rewrite X, Y in G1.
      change (bp 53) with (IZR (2 ^ 53)) in G1. destruct (Rlt_bool_spec (IZR (2 ^ 53)) (IZR a)) as [L|L]; [|discriminate]. apply lt_IZR in L. lia. }
    rewrite CLE by exact P. eexists. split; [reflexivity|apply is_exponent_bits].
  - eexists. split; [reflexivity|]. destruct (Z_le_dec (Z.abs a) (2 ^ 53)) as [S|S].
    + apply dbl_exponent_ok; auto. apply get_d_exact. exact S.
    + assert (P : 0 <= a) by lia. pose proof (is_exponent_bits a) as E. set (k := m_exponent a) in *.
      pose proof E as (K0 & KU & KM). rewrite Z.abs_eq in KU by lia.
      assert (KL : 2 ^ (k - 1) <= a).
      { destruct (Z_le_dec (2 ^ (k - 1)) a); auto. exfalso. assert (1 <= k) by (destruct (Z.eq_dec k 0) as [Z|]; [rewrite Z in KU; cbn in KU; lia|lia]).
        specialize (KM (k - 1) ltac:(lia) ltac:(lia)). lia. }
      assert (K53 : 53 < k). { destruct (Z_le_dec k 53); [|lia]. pose proof (Z.pow_le_mono_r 2 k 53 ltac:(lia) ltac:(lia)). lia. }
      assert (K63 : k <= 63). { apply KM; [lia|]. unfold in_long in Ha. lia. }
      assert (RL : (bp (k - 1) <= B2R (l_get_d a) <= bp k)%R).
      { rewrite V. split.
        - apply round_ge_generic; [typeclasses eauto|typeclasses eauto|apply fe_bp; lia|]. rewrite <- IZR_Zpower by lia. apply IZR_le. exact KL.
        - apply round_le_generic; [typeclasses eauto|typeclasses eauto|apply fe_bp; lia|]. rewrite <- IZR_Zpower by lia. apply IZR_le. change (Zpower radix2 k) with (2 ^ k). lia. }
      assert (P0 : (0 < B2R (l_get_d a))%R) by (eapply Rlt_le_trans; [apply (bpow_gt_0 radix2 (k - 1))|apply RL]).
      assert (LT : (B2R (l_get_d a) < bp k)%R).
      { destruct (proj2 RL) as [L|EQ]; auto. exfalso. destruct (frexp_half (l_get_d a) k F EQ ltac:(lia)) as (_ & F2 & H2).
        enough (true = false) by discriminate. rewrite <- G. symmetry. apply andb_true_intro. split.
        - unfold d_lt. destruct (d_of_bp 53 ltac:(lia)) as [Y0 Y]. rewrite Bltb_correct by auto. rewrite Y, EQ. apply Rlt_bool_true. apply bpow_lt. lia.
        - destruct (d_of_bp (-1) ltac:(lia)) as [Y0 Y]. rewrite Bcompare_correct; [|now rewrite is_finite_Babs|exact Y0].
          rewrite B2R_Babs, H2, Y. rewrite Rabs_pos_eq by lra. change (bp (-1)) with (/2)%R. rewrite Rcompare_Eq by reflexivity. reflexivity. }
      assert (X : snd (d_frexp (l_get_d a)) = k).
      { pose proof (frexp_exp (l_get_d a) F ltac:(lra)) as [L U]. rewrite Rabs_pos_eq in L, U by lra.
        assert (bp (snd (d_frexp (l_get_d a)) - 1) < bp k)%R by (eapply Rle_lt_trans; [exact L|exact LT]).
        assert (bp (k - 1) < bp (snd (d_frexp (l_get_d a))))%R by (eapply Rle_lt_trans; [apply RL|exact U]).
        apply lt_bpow in H0. apply lt_bpow in H1. lia. }
      rewrite X. exact E.
Qed.
(** for a negative value the correction of nr_Z_l.inl:44 is not made: -(2^54 - 1) *)
Theorem long_exponent_refuted : exists a e, in_long a /\ l_exponent a = Some e /\ ~ is_exponent a e /\ l_exponent (- a) = Some (e - 1) /\ is_exponent a (e - 1).
Proof.
  exists (- (2 ^ 54 - 1)), 55. split; [unfold in_long; lia|]. split; [vm_compute; reflexivity|]. split.
  - intros (_ & _ & C). specialize (C 54 ltac:(lia) ltac:(lia)). lia.
  - split; [vm_compute; reflexivity|]. exact (is_exponent_bits (- (2 ^ 54 - 1))).
Qed.

(** ** set_str on the decimal numerals (IoProofs.v: [Decimal]) *)
Inductive numeral : list ascii -> Z -> Prop :=
| num_pos t n : IoProofs.Decimal t n -> numeral t n
| num_neg t n : IoProofs.Decimal t n -> numeral ("-"%char :: t) (- n).

Lemma digits_run t : Forall (fun c => IoModel.is_digit c = true) t -> run_digits t = t.
Proof. induction 1 as [|c t H _ IH]; cbn; [reflexivity|]. now rewrite H, IH. Qed.
Lemma digits_filter t : Forall (fun c => IoModel.is_digit c = true) t ->
  filter IoModel.is_digit t = t /\ forallb (fun c => IoModel.is_digit c || IoModel.is_blank c) t = true.
Proof. induction 1 as [|c t H _ [IH1 IH2]]; cbn; [auto|]. now rewrite H, IH1, IH2. Qed.
Lemma digit_not_sign c : IoModel.is_digit c = true -> c <> "-"%char /\ c <> "+"%char.
Proof. intros H. split; intros ->; discriminate H. Qed.
Lemma skip_digit c t : IoModel.is_digit c = true -> skip_blanks (c :: t) = c :: t.
Proof. intros H. cbn. now rewrite IoProofs.digit_not_blank. Qed.
Lemma strtol_num s n : numeral s n -> strtol_value s = n.
Proof.
  destruct 1 as [t n D|t n D]; apply IoProofs.Decimal_digits in D as (N & F & ->).
  - destruct t as [|c t]; [congruence|]. pose proof (Forall_inv F) as C. pose proof (digits_run _ F) as R. destruct (digit_not_sign c C) as [S1 S2].
    unfold strtol_value. rewrite (skip_digit c t C). clear F. destruct c as [[] [] [] [] [] [] [] []]; try congruence; exact (f_equal IoModel.dec_val R).
  - unfold strtol_value. cbn [skip_blanks]. change (IoModel.is_blank "-") with false. cbv iota. now rewrite digits_run.
Qed.
(** Z_NR<long>: the number, and failure when it does not fit; LONG_MIN and LONG_MAX only if errno is clear *)
Theorem long_set_str_ok stale s n : numeral s n ->
  (in_long n -> stale = false \/ n <> - 2 ^ 63 /\ n <> 2 ^ 63 - 1 -> l_set_str stale s = (n, true)) /\
  (~ in_long n -> snd (l_set_str stale s) = false).
Proof.
  intros H. unfold l_set_str. rewrite (strtol_num s n H). unfold in_long, lmin, lmax. cbv zeta. split.
  - intros L C. replace (n <? - 2 ^ 63) with false by (symmetry; apply Z.ltb_ge; lia). replace (2 ^ 63 - 1 <? n) with false by (symmetry; apply Z.ltb_ge; lia).
    cbn [orb]. f_equal. destruct C as [-> |[C1 C2]]; [now rewrite andb_false_r|].
    replace (n =? 2 ^ 63 - 1) with false by (symmetry; now apply Z.eqb_neq). replace (n =? - 2 ^ 63) with false by (symmetry; now apply Z.eqb_neq). reflexivity.
  - intros L. cbn [snd]. destruct (n <? - 2 ^ 63) eqn:A; [reflexivity|]. apply Z.ltb_ge in A.
    replace (2 ^ 63 - 1 <? n) with true by (symmetry; apply Z.ltb_lt; lia). reflexivity.
Qed.
(** text after the numeral is ignored: the digits up to the first other character count *)
Theorem long_set_str_prefix stale t n x rest : IoProofs.Decimal t n -> IoModel.is_digit x = false -> n < 2 ^ 63 - 1 ->
  l_set_str stale (t ++ x :: rest) = (n, true) /\ forall old, IoModel.is_blank x = false -> m_set_str old (t ++ x :: rest) = (old, false).
Proof.
  intros D X H. apply IoProofs.Decimal_digits in D as (N & F & ->).
  assert (NN : 0 <= IoModel.dec_val t).
  { clear - F. induction t as [|c t IH] using rev_ind; [cbn; lia|]. apply Forall_app in F as [F1 F2]. rewrite IoProofs.dec_val_snoc. specialize (IH F1).
    apply Forall_inv in F2. apply IoProofs.is_digit_spec in F2 as (k & _ & ->). lia. }
  assert (R : run_digits (t ++ x :: rest) = t). { clear - F X. induction F as [|c t C _ IH]; cbn; [now rewrite X|]. now rewrite C, IH. }
  assert (FA : forallb (fun c => IoModel.is_digit c || IoModel.is_blank c) (t ++ x :: rest) = IoModel.is_blank x && forallb (fun c => IoModel.is_digit c || IoModel.is_blank c) rest).
  { clear - F X. induction F as [|c t C _ IH]; cbn; [now rewrite X|]. now rewrite C, IH. }
  destruct t as [|c t]; [congruence|]. pose proof (Forall_inv F) as C. destruct (digit_not_sign c C) as [S1 S2]. clear F N. split.
  - assert (V : strtol_value ((c :: t) ++ x :: rest) = IoModel.dec_val (c :: t)).
    { unfold strtol_value. cbn [app] in *. rewrite (skip_digit c _ C). clear NN H. destruct c as [[] [] [] [] [] [] [] []]; try congruence; exact (f_equal IoModel.dec_val R). }
    unfold l_set_str. rewrite V. unfold lmin, lmax. cbv zeta. replace (IoModel.dec_val (c :: t) <? - 2 ^ 63) with false by (symmetry; apply Z.ltb_ge; lia).
    replace (2 ^ 63 - 1 <? IoModel.dec_val (c :: t)) with false by (symmetry; apply Z.ltb_ge; lia).
    replace (IoModel.dec_val (c :: t) =? 2 ^ 63 - 1) with false by (symmetry; apply Z.eqb_neq; lia).
    replace (IoModel.dec_val (c :: t) =? - 2 ^ 63) with false by (symmetry; apply Z.eqb_neq; lia). reflexivity.
  - intros old Bx. rewrite Bx in FA. cbn [andb] in FA. unfold m_set_str. replace (mpz_set_str ((c :: t) ++ x :: rest)) with (@None Z); [reflexivity|].
    unfold mpz_set_str. cbn [app] in *. rewrite (skip_digit c _ C). symmetry.
    assert (B : (if IoModel.is_digit c && forallb (fun c => IoModel.is_digit c || IoModel.is_blank c) (c :: t ++ x :: rest)
      then Some (IoModel.dec_val (filter IoModel.is_digit (c :: t ++ x :: rest))) else None) = None) by now rewrite FA, andb_false_r.
    clear R FA NN H. destruct c as [[] [] [] [] [] [] [] []]; try congruence; exact B.
Qed.
Example long_set_str_prefix_case : l_set_str false ["1"; "2"; "."; "9"]%char = (12, true) /\ m_set_str 5 ["1"; "2"; "."; "9"]%char = (5, false).
Proof. split; reflexivity. Qed.
Theorem mpz_set_str_ok old s n : numeral s n -> m_set_str old s = (n, true).
Proof.
  intros H. unfold m_set_str. enough (E : mpz_set_str s = Some n) by now rewrite E.
  destruct H as [t n D|t n D]; apply IoProofs.Decimal_digits in D as (N & F & ->); (destruct t as [|c t]; [congruence|]);
    pose proof (Forall_inv F) as C; destruct (digits_filter _ F) as [FI FO]; unfold mpz_set_str.
  - rewrite (skip_digit c t C). destruct (digit_not_sign c C) as [S1 S2]. assert (B : (if IoModel.is_digit c && forallb (fun c => IoModel.is_digit c || IoModel.is_blank c) (c :: t)
      then Some (IoModel.dec_val (filter IoModel.is_digit (c :: t))) else None) = Some (IoModel.dec_val (c :: t))) by now rewrite FI, FO, C.
    clear F FI FO. destruct c as [[] [] [] [] [] [] [] []]; try congruence; exact B.
  - cbn [skip_blanks]. change (IoModel.is_blank "-") with false. cbv iota. now rewrite FI, FO, C.
Qed.
(** the text "abc" is read as 0 by Z_NR<long> and refused by Z_NR<mpz_t>; LONG_MAX is refused when an earlier call left ERANGE in errno *)
Theorem long_set_str_refuted :
  (exists s, l_set_str false s = (0, true) /\ (forall n, ~ numeral s n) /\ forall old, m_set_str old s = (old, false)) /\
  (exists s n, numeral s n /\ in_long n /\ l_set_str false s = (n, true) /\ snd (l_set_str true s) = false).
Proof.
  split.
  - exists ["a"; "b"; "c"]%char. split; [reflexivity|]. split; [|reflexivity]. intros n H.
    pose proof (mpz_set_str_ok 0 _ n H) as E1. pose proof (mpz_set_str_ok 1 _ n H) as E2. cbn in E1. discriminate.
  - exists (IoModel.show_z (2 ^ 63 - 1)), (2 ^ 63 - 1). split.
    + apply num_pos. assert (F : Forall (fun c => IoModel.is_digit c = true) (IoModel.show_z (2 ^ 63 - 1))).
      { apply Forall_forall. apply (proj1 (forallb_forall IoModel.is_digit (IoModel.show_z (2 ^ 63 - 1)))). vm_compute. reflexivity. }
      replace (2 ^ 63 - 1) with (IoModel.dec_val (IoModel.show_z (2 ^ 63 - 1))) at 2 by (vm_compute; reflexivity).
      apply IoProofs.digits_Decimal; [vm_compute; discriminate|exact F].
    + split; [unfold in_long; lia|]. split; vm_compute; reflexivity.
Qed.
(** Z_NR<double>: atof is overwritten by strtof: 16777217 is read as 16777216 although it is a double; 2^128 is refused although it is one *)
Theorem dbl_set_str_refuted :
  (x_set_str_int 16777217 = (l_get_d 16777216, true) /\ B2R (l_get_d 16777217) = 16777217%R /\ B2R (l_get_d 16777216) = 16777216%R) /\
  (snd (x_set_str_int (2 ^ 128)) = false /\ B2R (d_of (2 ^ 128) 0) = IZR (2 ^ 128)).
Proof.
  split.
  - split; [unfold x_set_str_int; apply (f_equal2 pair); [apply B2SF_inj|]; vm_compute; reflexivity|]. split; apply get_d_exact; lia.
  - split; [vm_compute; reflexivity|]. destruct (d_of_val (2 ^ 128) 0) as [_ V].
    + change (bp 0) with 1%R. rewrite Rmult_1_r. change (IZR (2 ^ 128)) with (bp 128). apply fe_bp. lia.
    + change (bp 0) with 1%R. rewrite Rmult_1_r. change (IZR (2 ^ 128)) with (bp 128). rewrite Rabs_pos_eq by apply bpow_ge_0. apply bpow_lt. lia.
    + rewrite V. change (bp 0) with 1%R. apply Rmult_1_r.
Qed.

(** ** Arithmetic of Z_NR<double> on integers of at most 53 bits *)
(** the datum is the integer n *)
Definition holds (x : dbl) (n : Z) : Prop := is_finite x = true /\ B2R x = IZR n.
Definition small (n : Z) : Prop := Z.abs n <= 2 ^ 53.
Lemma round_small n : small n -> round radix2 fe ZnearestE (IZR n) = IZR n /\ (Rabs (round radix2 fe ZnearestE (IZR n)) < bp 1024)%R.
Proof.
  intros H. assert (E : round radix2 fe ZnearestE (IZR n) = IZR n).
  { apply round_generic; [typeclasses eauto|]. replace (IZR n) with (IZR n * bp 0)%R by (change (bp 0) with 1%R; ring). apply fe_mant; [exact H|lia]. }
  split; auto. rewrite E, <- abs_IZR. apply Rle_lt_trans with (bp 53); [|apply bpow_lt; lia]. change (bp 53) with (IZR (2 ^ 53)). apply IZR_le. exact H.
Qed.
Lemma holds_add x y a b : holds x a -> holds y b -> small (a + b) -> holds (d_add x y) (a + b).
Proof.
  intros [FX VX] [FY VY] S. pose proof (Bplus_correct 53 1024 _ _ mode_NE x y FX FY) as C. rewrite VX, VY, fexp_eq, <- plus_IZR in C.
  cbn [round_mode] in C. destruct (round_small (a + b) S) as [E L]. rewrite Rlt_bool_true in C by exact L. split; [apply C|]. unfold d_add. rewrite (proj1 C). exact E.
Qed.
Lemma holds_sub x y a b : holds x a -> holds y b -> small (a - b) -> holds (d_sub x y) (a - b).
Proof.
  intros [FX VX] [FY VY] S. pose proof (Bminus_correct 53 1024 _ _ mode_NE x y FX FY) as C. rewrite VX, VY, fexp_eq, <- minus_IZR in C.
  cbn [round_mode] in C. destruct (round_small (a - b) S) as [E L]. rewrite Rlt_bool_true in C by exact L. split; [apply C|]. unfold d_sub. rewrite (proj1 C). exact E.
Qed.
Lemma holds_mul x y a b : holds x a -> holds y b -> small (a * b) -> holds (d_mul x y) (a * b).
Proof.
  intros [FX VX] [FY VY] S. pose proof (Bmult_correct 53 1024 _ _ mode_NE x y) as C. rewrite VX, VY, fexp_eq, <- mult_IZR in C.
  cbn [round_mode] in C. destruct (round_small (a * b) S) as [E L]. rewrite Rlt_bool_true in C by exact L. destruct C as (V & F & _).
  split; [unfold d_mul; rewrite F, FX, FY; reflexivity|]. unfold d_mul. rewrite V. exact E.
Qed.
(** exact as long as the result, and the product of addmul and submul, have at most 53 bits *)
Theorem dbl_exact v x y c a b : holds v c -> holds x a -> holds y b ->
  (small (a + b) -> holds (d_add x y) (a + b)) /\ (small (a - b) -> holds (d_sub x y) (a - b)) /\
  (small (a * b) -> holds (d_mul x y) (a * b)) /\
  (small (a * b) -> small (c + a * b) -> holds (x_addmul v x y) (c + a * b)) /\
  (small (a * b) -> small (c - a * b) -> holds (x_submul v x y) (c - a * b)) /\
  (small b -> small (a * b) -> small (c + a * b) -> holds (x_addmul_si v x b) (c + a * b)).
Proof.
  intros HV HX HY. repeat match goal with |- _ /\ _ => split end.
  - intros. now apply holds_add.
  - intros. now apply holds_sub.
  - intros. now apply holds_mul.
  - intros. apply holds_add; auto. now apply holds_mul.
  - intros. apply holds_sub; auto. now apply holds_mul.
  - intros. apply holds_add; auto. apply holds_mul; auto. apply get_d_exact. assumption.
Qed.
Example dbl_exact_case : holds (l_get_d 94906265) 94906265 /\ small (94906265 * 94906265) /\ holds (d_mul (l_get_d 94906265) (l_get_d 94906265)) 9007199136250225.
Proof. assert (H : holds (l_get_d 94906265) 94906265) by (apply get_d_exact; lia). split; auto. split; [unfold small; lia|]. apply (holds_mul _ _ 94906265 94906265); auto. unfold small. lia. Qed.
(** 2^53 + 1 is lost; an exact sum is lost when the product does not fit; div_2si leaves 5/2 in an integer type *)
Theorem dbl_arith_refuted :
  (d_add (l_get_d (2 ^ 53)) (l_get_d 1) = l_get_d (2 ^ 53)) /\
  (exists v a b : Z, v + a * b = -1 /\ in_long (a * b) /\ x_addmul (l_get_d v) (l_get_d a) (l_get_d b) = l_get_d 0) /\
  (exists x, x_div_2si (l_get_d 5) 1 = Some x /\ B2R x = (5 / 2)%R /\ forall n, ~ holds x n).
Proof.
  split; [apply B2SF_inj; vm_compute; reflexivity|]. split.
  - exists (- 2 ^ 54), (2 ^ 27 - 1), (2 ^ 27 + 1). split; [reflexivity|]. split; [unfold in_long; lia|]. apply B2SF_inj. vm_compute. reflexivity.
  - destruct (get_d_exact 5 ltac:(lia)) as [F5 V5]. eexists. split; [unfold x_div_2si; rewrite i64_in by lia; reflexivity|].
    change (to_int (- (1))) with (-1). assert (P : (B2R (l_get_d 5) * bp (-1) = 5 / 2)%R) by (rewrite V5; change (bp (-1)) with (/2)%R; lra).
    assert (H : B2R (d_ldexp (l_get_d 5) (-1)) = (5 / 2)%R).
    { rewrite <- P. apply ldexp_exact; [exact F5| |]; rewrite P, Rabs_pos_eq by lra.
      - apply Rle_trans with (bp 0); [apply bpow_le; lia|change (bp 0) with 1%R; lra].
      - apply Rlt_trans with (bp 2); [change (bp 2) with 4%R; lra|apply bpow_lt; lia]. }
    split; [exact H|]. intros n [_ V]. rewrite H in V. assert (IZR 5 = IZR (2 * n)) by (rewrite mult_IZR; lra). apply eq_IZR in H0. lia.
Qed.

(** ** nextprime *)
Lemma prime_factor : forall n, 2 <= n -> exists p, prime p /\ (p | n).
Proof.
  intros n H. assert (G : forall k : nat, forall m, 2 <= m <= Z.of_nat k -> exists p, prime p /\ (p | m)).
  { induction k as [|k IH]; intros m Hm; [lia|]. destruct (prime_dec m) as [P|P]; [exists m; split; auto; apply Z.divide_refl|].
    destruct (not_prime_divide m ltac:(lia) P) as (q & Q & D). destruct (IH q ltac:(lia)) as (p & Pp & Dp). exists p. split; auto. now apply Z.divide_trans with q. }
  apply (G (Z.to_nat n)). lia.
Qed.
Fixpoint fac (n : nat) : Z := match n with O => 1 | S k => Z.of_nat (S k) * fac k end.
Lemma fac_pos n : 1 <= fac n. Proof. induction n; [cbn; lia|]. cbn [fac]. nia. Qed.
Lemma fac_div n : forall k, 1 <= k <= Z.of_nat n -> (k | fac n).
Proof.
  induction n as [|n IH]; intros k H; [lia|]. cbn [fac]. destruct (Z.eq_dec k (Z.of_nat (S n))) as [->|N]; [apply Z.divide_factor_l|].
  apply Z.divide_mul_r. apply IH. lia.
Qed.
Lemma prime_above n : exists p, prime p /\ n < p.
Proof.
  set (m := Z.to_nat n). destruct (prime_factor (fac m + 1)) as (p & P & D); [pose proof (fac_pos m); lia|]. exists p. split; auto.
  pose proof (prime_ge_2 p P). destruct (Z_le_dec p n) as [L|]; [|lia]. exfalso.
  assert (D2 : (p | fac m)) by (apply fac_div; lia). assert (D3 : (p | 1)) by (replace 1 with ((fac m + 1) - fac m) by lia; now apply Z.divide_sub_r).
  apply Z.divide_1_r_nonneg in D3; lia.
Qed.
(** every integer has a next prime, so [np] below exists *)
Lemma next_prime_exists n : exists p, next_prime n p.
Proof.
  destruct (prime_above n) as (p & P & L). assert (G : forall k : nat, forall p, prime p -> n < p <= n + Z.of_nat k -> exists p, next_prime n p).
  { induction k as [|k IH]; intros q Q Hq; [lia|].
    destruct (List.existsb (fun i => if prime_dec (n + 1 + Z.of_nat i) then n + 1 + Z.of_nat i <? q else false) (seq 0 (S k))) eqn:E.
    - apply existsb_exists in E as (i & Hi & E). destruct (prime_dec _) as [Pi|]; [|discriminate]. apply Z.ltb_lt in E. apply (IH _ Pi). lia.
    - exists q. split; [exact Q|]. split; [lia|]. intros r R Hr. destruct (Z_le_dec q r); auto. exfalso.
      rewrite <- not_true_iff_false in E. apply E. apply existsb_exists. exists (Z.to_nat (r - n - 1)). split; [apply in_seq; lia|].
      replace (n + 1 + Z.of_nat (Z.to_nat (r - n - 1))) with r by lia. destruct (prime_dec r); [apply Z.ltb_lt; lia|contradiction]. }
  apply (G (Z.to_nat (p - n)) p P). lia.
Qed.
(** Z_NR<long>: the next prime of a non-negative number, when it fits *)
Theorem long_nextprime_ok np a : 0 <= a < 2 ^ 63 -> next_prime a (np a) -> in_long (np a) -> next_prime a (l_nextprime np a).
Proof.
  intros H N L. pose proof (prime_ge_2 _ (proj1 N)). unfold l_nextprime. rewrite (Z.mod_small a) by lia. unfold in_long in L.
  rewrite (Z.mod_small (np a)) by lia. replace (to_long (np a)) with (np a); auto. unfold to_long. rewrite Z.mod_small by lia. lia.
Qed.
(** never the next prime of a negative number, which is 2: the number is taken as unsigned *)
Theorem long_nextprime_refuted np a : - 2 ^ 63 <= a < 0 -> next_prime (a mod 2 ^ 64) (np (a mod 2 ^ 64)) ->
  next_prime a 2 /\ ~ next_prime a (l_nextprime np a).
Proof.
  intros H (P & L & _). assert (A : a mod 2 ^ 64 = a + 2 ^ 64). { symmetry. apply Z.mod_unique with (-1); lia. }
  assert (N2 : next_prime a 2). { split; [exact prime_2|]. split; [lia|]. intros q Q _. now apply prime_ge_2. }
  split; auto. intros (P' & L' & M'). pose proof (M' 2 prime_2 ltac:(lia)) as U. pose proof (prime_ge_2 _ P') as V.
  unfold l_nextprime in U, V. rewrite A in *. set (q := np (a + 2 ^ 64)) in *.
  destruct (to_long_mod (q mod 2 ^ 64)) as [_ D]. apply mod_divide in D. pose proof (mod64_div q) as D2. assert (T : to_long (q mod 2 ^ 64) = 2) by lia. rewrite T in D.
  assert (E : (2 | q)). { destruct D as [k K]. destruct D2 as [j J]. exists (1 - (k + j) * 2 ^ 63). lia. }
  pose proof (prime_divisors q P 2 E). lia.
Qed.
Example long_nextprime_case : next_prime 7 11 /\ l_nextprime (fun _ => 11) 7 = 11.
Proof.
  split; [|reflexivity]. assert (P11 : prime 11) by (destruct (prime_dec 11) as [P|P]; auto; exfalso; destruct (not_prime_divide 11 ltac:(lia) P) as (q & Q & [k K]);
    assert (k = 1 \/ k = 2 \/ k = 3 \/ k = 4 \/ k = 5) by nia; lia).
  split; auto. split; [lia|]. intros q Q H. destruct (Z_le_dec 11 q); auto. exfalso.
  assert (C : q = 8 \/ q = 9 \/ q = 10) by lia. destruct C as [-> |[-> | ->]].
  - pose proof (prime_divisors 8 Q 2 ltac:(now exists 4)). lia.
  - pose proof (prime_divisors 9 Q 3 ltac:(now exists 3)). lia.
  - pose proof (prime_divisors 10 Q 2 ltac:(now exists 5)). lia.
Qed.

(** ** random numbers *)
(** Z_NR<long>: in the requested range, and the number drawn when that has at most 63 bits *)
Theorem long_randb_range bits x : 0 <= bits -> 0 <= x < 2 ^ bits ->
  0 <= l_randb x < 2 ^ bits /\ in_long (l_randb x) /\ (bits <= 63 -> l_randb x = x).
Proof.
  intros B H. unfold l_randb, mpz_get_si, lmin, lmax, in_long. destruct ((- 2 ^ 63 <=? x) && (x <=? 2 ^ 63 - 1)) eqn:E.
  - apply andb_prop in E as [_ E]. apply Z.leb_le in E. split; [lia|]. split; [lia|auto].
  - assert (2 ^ 63 <= x).
    { apply andb_false_iff in E as [E|E]; apply Z.leb_gt in E; lia. }
    rewrite Z.sgn_pos, Z.abs_eq, Z.mul_1_l by lia. pose proof (Z.mod_pos_bound x (2 ^ 63) ltac:(lia)). pose proof (Z.mod_le x (2 ^ 63) ltac:(lia) ltac:(lia)).
    split; [lia|]. split; [lia|]. intros L. pose proof (Z.pow_le_mono_r 2 bits 63 ltac:(lia) L). lia.
Qed.
Example long_randb_case : l_randb (2 ^ 70 + 5) = 5 /\ l_randb (2 ^ 62 + 1) = 2 ^ 62 + 1. Proof. split; reflexivity. Qed.
(** Z_NR<mpz_t>: after a number of more than 32 bits all later numbers depend only on 63 bits of that number, whatever the state before *)
Theorem mpz_randb_later {St} (draw : St -> Z -> Z * St) (seed : Z -> St) b bits st : 32 < b ->
  exists x, m_randbs draw seed (b :: bits) st = x :: m_randbs draw seed bits (seed (reseed_value x)).
Proof.
  intros H. cbn [m_randbs]. unfold m_randb. destruct (draw st b) as [x st']. replace (32 <? b) with true by (symmetry; now apply Z.ltb_lt). now exists x.
Qed.
(** a number of more than 32 bits that is a multiple of 2^32 seeds with 0: all such numbers are followed by the same sequence,
    whatever the seed given by the user *)
Lemma reseed_0 x : reseed_value (x * 2 ^ 32) = 0.
Proof.
  unfold reseed_value. set (t := Z.land _ _). assert (T : (2 ^ 32 | t)).
  { apply Z.mod_divide; [lia|]. unfold t. rewrite <- Z.land_ones by lia. rewrite <- Z.land_assoc, (Z.land_comm (Z.ldiff _ _)), Z.land_assoc, Z.land_ones by lia.
    replace ((Z.abs (x * 2 ^ 32) mod 2 ^ 64) mod 2 ^ 32) with 0; [apply Z.land_0_l|]. symmetry. change (2 ^ 64) with (2 ^ 32 * 2 ^ 32).
    rewrite Z.abs_mul, (Z.abs_eq (2 ^ 32)) by lia. rewrite Zmult_mod_distr_r. apply Z.mod_mul. lia. }
  destruct T as [k ->]. replace (k * 2 ^ 32 * (k * 2 ^ 32)) with (k * k * 2 ^ 64) by lia. apply Z.mod_mul. lia.
Qed.
Theorem mpz_randb_refuted {St} (draw : St -> Z -> Z * St) (seed : Z -> St) b b' bits st st' x x' :
  32 < b -> 32 < b' -> fst (draw st b) = x * 2 ^ 32 -> fst (draw st' b') = x' * 2 ^ 32 ->
  tl (m_randbs draw seed (b :: bits) st) = tl (m_randbs draw seed (b' :: bits) st').
Proof.
  intros H H' E E'. cbn [m_randbs]. unfold m_randb. destruct (draw st b) as [y s1]. destruct (draw st' b') as [y' s1']. cbn [fst] in *. subst.
  replace (32 <? b) with true by (symmetry; now apply Z.ltb_lt). replace (32 <? b') with true by (symmetry; now apply Z.ltb_lt). cbn [tl]. now rewrite !reseed_0.
Qed.
(** a generator (the state itself, then a linear step) with two seeds *)
Example mpz_randb_case :
  let draw st b := (st mod 2 ^ b, st * 5 + 3) in
  m_randbs draw (fun s => s + 7) [40; 8; 8] (3 * 2 ^ 32) = [3 * 2 ^ 32; 7; 38] /\
  m_randbs draw (fun s => s + 7) [40; 8; 8] (9 * 2 ^ 32) = [9 * 2 ^ 32; 7; 38] /\
  m_randbs draw (fun s => s + 7) [30; 8; 8] 9 = [9; 48; 243].
Proof. repeat split; vm_compute; reflexivity. Qed.

(** cases *)
Example long_exact_case :
  let o := ZAddmulUi (2 ^ 63 - 1) (- 2 ^ 62) 3 in args in_long o /\ in_long (doc_value o) /\ safe o /\ ~ in_long (- 2 ^ 62 * 3) /\ l_run o = Some (- 2 ^ 62 - 1).
Proof. cbn. unfold in_long. repeat split; try lia; vm_compute; reflexivity. Qed.
Example mpz_exact_case : m_run (ZDiv2si (- 5) 1) = Some (- 3) /\ l_run (ZDiv2si (- 5) 1) = Some (- 3) /\ m_run (ZAddmulSi 1 (2 ^ 70) (- 3)) = Some (1 - 3 * 2 ^ 70).
Proof. repeat split; reflexivity. Qed.
Example mod_agree_case : l_mod 17 (- 5) = Some 2 /\ m_mod 17 (- 5) = Some 2. Proof. split; reflexivity. Qed.
Example long_exponent_case : l_exponent (2 ^ 62 - 1) = Some 62 /\ l_exponent (2 ^ 62) = Some 63 /\ l_exponent (- 2 ^ 53) = Some 54 /\ l_exponent (2 ^ 63 - 1) = Some 63 /\ m_exponent (- (2 ^ 54 - 1)) = 54.
Proof. repeat split; vm_compute; reflexivity. Qed.
Example dbl_exponent_case : holds (l_get_d (- 12)) (- 12) /\ x_exponent (l_get_d (- 12)) = 4.
Proof. split; [apply get_d_exact; lia|vm_compute; reflexivity]. Qed.
Example set_str_case : numeral ["-"; "1"; "2"]%char (- 12) /\ l_set_str true ["-"; "1"; "2"]%char = (- 12, true) /\
  snd (l_set_str false (IoModel.show_z (2 ^ 63))) = false /\ m_set_str 5 (IoModel.show_z (2 ^ 63)) = (2 ^ 63, true).
Proof.
  split; [|repeat split; vm_compute; reflexivity]. apply (num_neg _ 12). apply (IoProofs.dec_snoc ["1"%char] 1 "2"%char 2).
  - constructor. exists 1%nat. auto.
  - exists 2%nat. auto.
Qed.

Print Assumptions long_value.
Print Assumptions long_exact.
Print Assumptions mpz_exact.
Print Assumptions long_addmul_refuted.
Print Assumptions mod_refuted.
Print Assumptions mpz_exponent_ok.
Print Assumptions dbl_exponent_ok.
Print Assumptions long_exponent_ok.
Print Assumptions long_exponent_refuted.
Print Assumptions long_set_str_ok.
Print Assumptions mpz_set_str_ok.
Print Assumptions long_set_str_refuted.
Print Assumptions dbl_set_str_refuted.
Print Assumptions dbl_exact.
Print Assumptions dbl_arith_refuted.
Print Assumptions long_nextprime_ok.
Print Assumptions long_nextprime_refuted.
Print Assumptions long_randb_range.
Print Assumptions mpz_randb_later.
Print Assumptions mpz_randb_refuted.
