(** C77: the precision asked for by the proved algorithms. *)
From Coq Require Import Reals ZArith Bool Lia Lra Psatz.
From Flocq Require Import Core Sterbenz.
From Verif Require Import ErrModel PropErr PrecModel.
Local Open Scope R_scope.

(** ** Specification *)
(** roundings upwards and downwards; a positive number is not rounded down to 0 (no underflow) *)
Definition r_up (f : R -> R) : Prop := forall x, x <= f x.
Definition r_dn (f : R -> R) : Prop := forall x, f x <= x /\ (0 < x -> 0 < f x).
(** the documented bound in multiplicative form: 2^n >= 2^C d^2 rho^d / epsilon (util.cpp:79-80) *)
Definition enough (C n : Z) (d : Z) (rho e : R) : Prop := bpow radix2 C * (IZR d * IZR d) * rho ^ (Z.to_nat d) / e <= bpow radix2 n.

Lemma ln2_pos : 0 < ln 2.
Proof. rewrite <- ln_1. apply ln_increasing; lra. Qed.
Lemma ln_nonneg x : 1 <= x -> 0 <= ln x.
Proof. intros H. destruct (Rle_lt_or_eq_dec _ _ H) as [L|<-]; [|rewrite ln_1; lra]. rewrite <- ln_1. left. apply ln_increasing; lra. Qed.
Lemma ln_le0 x : 0 < x <= 1 -> ln x <= 0.
Proof. intros [H0 H]. destruct (Rle_lt_or_eq_dec _ _ H) as [L| ->]; [|rewrite ln_1; lra]. rewrite <- ln_1. left. apply ln_increasing; lra. Qed.
Lemma ln_powr x n : 0 < x -> ln (x ^ n) = INR n * ln x.
Proof. intros H. induction n as [|n IH]; [cbn; rewrite ln_1; lra|]. rewrite S_INR. cbn [pow]. rewrite ln_mult; [rewrite IH; lra|exact H|apply pow_lt, H]. Qed.
Lemma ln_bpow n : ln (bpow radix2 n) = IZR n * ln 2.
Proof.
  assert (P : forall k : nat, ln (bpow radix2 (Z.of_nat k)) = INR k * ln 2).
  { induction k as [|k IH]; [cbn; rewrite ln_1; lra|]. rewrite Nat2Z.inj_succ, <- Z.add_1_r, bpow_plus, ln_mult, IH, S_INR by apply bpow_gt_0. cbn. lra. }
  destruct (Z.le_gt_cases 0 n) as [H|H].
  - rewrite <- (Z2Nat.id n H), P, INR_IZR_INZ. reflexivity.
  - assert (E : bpow radix2 n = / bpow radix2 (Z.of_nat (Z.to_nat (- n)))) by (rewrite <- bpow_opp; f_equal; lia).
    rewrite E, ln_Rinv, P, INR_IZR_INZ by apply bpow_gt_0. rewrite Z2Nat.id by lia. rewrite opp_IZR. lra.
Qed.
Lemma ln_le_inv x y : 0 < x -> 0 < y -> ln x <= ln y -> x <= y.
Proof. intros Hx Hy H. destruct (Rle_or_lt x y); auto. assert (ln y < ln x) by (apply ln_increasing; auto). lra. Qed.
Lemma ln_le_mono x y : 0 < x -> x <= y -> ln x <= ln y.
Proof. intros Hx [H| ->]; [left; apply ln_increasing; auto|lra]. Qed.
Lemma div_le_both a a' b b' : 0 <= a' -> a' <= a -> 0 < b -> b <= b' -> a' / b' <= a / b.
Proof.
  intros H0 H1 H2 H3. unfold Rdiv. assert (0 < / b') by (apply Rinv_0_lt_compat; lra). assert (/ b' <= / b) by (apply Rinv_le; lra). nra.
Qed.
(** the logarithm of the bound *)
Lemma enough_ln C n d rho e : (0 < d)%Z -> 0 < rho -> 0 < e ->
  (enough C n d rho e <-> IZR C * ln 2 + 2 * ln (IZR d) - ln e + IZR d * ln rho <= IZR n * ln 2).
Proof.
  intros Hd Hr He. assert (Hd' : 0 < IZR d) by (apply IZR_lt; exact Hd). unfold enough.
  assert (P : 0 < bpow radix2 C * (IZR d * IZR d) * rho ^ Z.to_nat d / e).
  { apply Rmult_lt_0_compat; [|now apply Rinv_0_lt_compat]. apply Rmult_lt_0_compat; [|now apply pow_lt]. apply Rmult_lt_0_compat; [apply bpow_gt_0|nra]. }
  assert (E : ln (bpow radix2 C * (IZR d * IZR d) * rho ^ Z.to_nat d / e) = IZR C * ln 2 + 2 * ln (IZR d) - ln e + IZR d * ln rho).
  { unfold Rdiv. pose proof (bpow_gt_0 radix2 C). pose proof (pow_lt _ (Z.to_nat d) Hr). assert (0 < IZR d * IZR d) by nra. assert (0 < / e) by now apply Rinv_0_lt_compat.
    rewrite !ln_mult, ln_bpow, ln_powr, ln_Rinv by (repeat apply Rmult_lt_0_compat; auto). rewrite INR_IZR_INZ, Z2Nat.id by lia. lra. }
  rewrite <- E, <- ln_bpow. split; intros H.
  - now apply ln_le_mono.
  - apply ln_le_inv; auto. apply bpow_gt_0.
Qed.

Section Prec.
Variables (up dn fl : R -> R).
Hypothesis UP : r_up up.
Hypothesis DN : r_dn dn.

(** rho is at least the documented quotient *)
Lemma rho_num_ok eta e : -1 <= eta -> (1 + eta) * (1 + eta) + e <= rho_num up eta e.
Proof.
  intros H. unfold rho_num. pose proof (UP (eta + 1)). set (t := up (eta + 1)) in *. pose proof (UP (t * t)). set (t2 := up (t * t)) in *. pose proof (UP (t2 + e)).
  assert ((1 + eta) * (1 + eta) <= t * t) by nra. lra.
Qed.
Lemma rho_den_ok delta eta : rho_den up dn delta eta <= delta - eta * eta.
Proof. unfold rho_den. pose proof (UP (eta * eta)). pose proof (DN (delta - up (eta * eta))) as [H1 _]. lra. Qed.
Theorem rho_ok l2 d delta eta epsilon rho n : -1 <= eta -> compute_min_prec up dn fl l2 d delta eta epsilon = POk (rho, n) ->
  let e := if l2 then clip_eps dn fl delta eta epsilon else epsilon in
  0 < e /\ 0 < delta - eta * eta /\ ((1 + eta) * (1 + eta) + e) / (delta - eta * eta) <= rho.
Proof.
  intros H. unfold compute_min_prec. set (e := if l2 then _ else _). destruct (Rlt_dec _ _) as [Hd|]; [|discriminate]. destruct (Rle_dec e 0) as [|He]; [discriminate|].
  apply Rnot_le_lt in He. destruct (d <=? 0)%Z; [discriminate|]. destruct (to_int_ceil _); try discriminate. intros E. injection E as <- _. cbn zeta.
  split; [exact He|]. pose proof (rho_den_ok delta eta). split; [lra|]. eapply Rle_trans; [|apply UP]. apply div_le_both; auto; [nra|now apply rho_num_ok].
Qed.

Lemma min_prec_val_ok C d e rho : 1 <= d -> 0 < e <= 1 -> 1 <= rho -> (C * ln 2 + 2 * ln d - ln e + d * ln rho) <= min_prec_val up dn C d e rho * ln 2.
Proof.
  intros Hd He Hr. unfold min_prec_val. pose proof (ln_nonneg d Hd) as L1. pose proof (ln_nonneg rho Hr) as L2. pose proof (ln_le0 e He) as L3. pose proof ln2_pos as L4.
  pose proof (UP (ln d)) as U1. set (t1 := up (ln d)) in *. pose proof (DN (ln e)) as [U2 _]. set (t2 := dn (ln e)) in *.
  pose proof (UP (2 * t1 - t2)) as U3. set (t3 := up (2 * t1 - t2)) in *. pose proof (UP (ln rho)) as U4. set (t4 := up (ln rho)) in *.
  pose proof (UP (d * t4)) as U5. set (t5 := up (d * t4)) in *. pose proof (UP (t3 + t5)) as U6. set (t6 := up (t3 + t5)) in *.
  pose proof (DN (ln 2)) as [U7 U7']. specialize (U7' L4). set (l := dn (ln 2)) in *. pose proof (UP (t6 / l)) as U8. set (t8 := up (t6 / l)) in *.
  pose proof (UP (t8 + C)) as U9. set (v := up (t8 + C)) in *.
  assert (A : 2 * ln d - ln e + d * ln rho <= t6) by nra. assert (A0 : 0 <= 2 * ln d - ln e + d * ln rho) by nra.
  assert (B : (2 * ln d - ln e + d * ln rho) / ln 2 <= t8) by (eapply Rle_trans; [|exact U8]; now apply div_le_both).
  assert (B' : 2 * ln d - ln e + d * ln rho <= t8 * ln 2).
  { apply (Rmult_le_compat_r (ln 2)) in B; [|lra]. unfold Rdiv in B. rewrite Rmult_assoc, Rinv_l, Rmult_1_r in B by lra. exact B. }
  nra.
Qed.
Lemma to_int_ceil_ok x n : to_int_ceil x = POk n -> n = Zceil x /\ (- 2 ^ 31 <= n < 2 ^ 31)%Z.
Proof. unfold to_int_ceil. destruct ((_ <=? _) && (_ <? _))%Z eqn:E; [|discriminate]. intros H. injection H as <-. apply andb_true_iff in E as [E1 E2]. split; [reflexivity|lia]. Qed.

(** ** The precision is at least the documented one, for any rounding *)
Theorem gso_min_prec_ok d delta eta epsilon rho n : 0 <= eta -> delta <= 1 -> epsilon <= 1 -> gso_min_prec up dn fl d delta eta epsilon = POk (rho, n) ->
  ((1 + eta) * (1 + eta) + epsilon) / (delta - eta * eta) <= rho /\ enough 5 n d rho epsilon.
Proof.
  intros H0 H1 H2 H. assert (Hm : -1 <= eta) by lra. pose proof (rho_ok _ _ _ _ _ _ _ Hm H) as (He & Hq & Hr). cbn zeta in *. split; [exact Hr|].
  assert (R1 : 1 <= rho). { eapply Rle_trans; [|exact Hr]. apply (Rmult_le_reg_r (delta - eta * eta)); [lra|]. unfold Rdiv. rewrite Rmult_assoc, Rinv_l by lra. nra. }
  unfold gso_min_prec, compute_min_prec in H. destruct (Rlt_dec _ _); [|discriminate]. destruct (Rle_dec epsilon 0); [discriminate|]. destruct (Z.leb_spec d 0); [discriminate|].
  destruct (to_int_ceil _) as [m| |] eqn:E; try discriminate. injection H as Er <-. rewrite Er in E. apply to_int_ceil_ok in E as [-> _].
  apply enough_ln; auto; [lra|]. eapply Rle_trans; [apply min_prec_val_ok; try lra; apply IZR_le; lia|]. apply Rmult_le_compat_r; [pose proof ln2_pos; lra|]. apply Zceil_ub.
Qed.
(** for L2 with an epsilon that is at most each of epsilon, eta - 1/2, 1 - delta *)
Theorem l2_min_prec_ok d delta eta epsilon n : / 2 <= eta -> fl (eta - / 2) <= eta - / 2 -> epsilon <= 1 -> l2_min_prec up dn fl d delta eta epsilon = POk n ->
  exists e rho, 0 < e /\ e <= epsilon /\ e <= eta - / 2 /\ e <= 1 - delta /\ ((1 + eta) * (1 + eta) + e) / (delta - eta * eta) <= rho /\ enough 10 n d rho e.
Proof.
  intros H0 HF H2 H. unfold l2_min_prec in H. destruct (compute_min_prec up dn fl true d delta eta epsilon) as [[rho m]| |] eqn:EC; try discriminate. injection H as <-.
  assert (Hm : -1 <= eta) by lra. pose proof (rho_ok _ _ _ _ _ _ _ Hm EC) as (He & Hq & Hr). cbn zeta in *. set (e := clip_eps dn fl delta eta epsilon) in *.
  assert (B : e <= epsilon /\ e <= eta - / 2 /\ e <= 1 - delta).
  { unfold e, clip_eps. pose proof (DN (1 - delta)) as [D _]. destruct (Rlt_dec (fl (eta - / 2)) epsilon); destruct (Rlt_dec (dn (1 - delta)) _); lra. }
  destruct B as (B1 & B2 & B3). exists e, rho. repeat (split; [assumption|]).
  assert (R1 : 1 <= rho). { eapply Rle_trans; [|exact Hr]. apply (Rmult_le_reg_r (delta - eta * eta)); [lra|]. unfold Rdiv. rewrite Rmult_assoc, Rinv_l by lra. nra. }
  unfold compute_min_prec in EC. fold e in EC. destruct (Rlt_dec _ _); [|discriminate]. destruct (Rle_dec e 0); [discriminate|]. destruct (Z.leb_spec d 0); [discriminate|].
  destruct (to_int_ceil _) as [k| |] eqn:E; try discriminate. injection EC as Er <-. rewrite Er in E. apply to_int_ceil_ok in E as [-> _].
  apply enough_ln; auto; [lra|]. eapply Rle_trans; [apply min_prec_val_ok; try lra; apply IZR_le; lia|]. apply Rmult_le_compat_r; [pose proof ln2_pos; lra|]. apply Zceil_ub.
Qed.
(** ** With at least that precision, the documented relative error on r stays below epsilon / (8 d), that on mu below epsilon / (2 d) *)
Theorem gso_prec_error d delta eta epsilon rho n prec j : 0 <= eta -> delta <= 1 -> epsilon <= 1 -> gso_min_prec up dn fl d delta eta epsilon = POk (rho, n) ->
  (n <= prec)%Z -> (Z.of_nat j < d)%Z ->
  IZR d * rho ^ (j + 1) * bpow radix2 (2 - prec) <= epsilon / (8 * IZR d) /\ IZR d * rho ^ (j + 1) * bpow radix2 (4 - prec) <= epsilon / (2 * IZR d).
Proof.
  intros H0 H1 H2 H HP Hj. assert (Hm : -1 <= eta) by lra. pose proof (rho_ok _ _ _ _ _ _ _ Hm H) as (He & Hq & _). cbn zeta in *. pose proof (gso_min_prec_ok _ _ _ _ _ _ H0 H1 H2 H) as [Hr HE].
  assert (R1 : 1 <= rho). { eapply Rle_trans; [|exact Hr]. apply (Rmult_le_reg_r (delta - eta * eta)); [lra|]. unfold Rdiv. rewrite Rmult_assoc, Rinv_l by lra. nra. }
  assert (D : 1 <= IZR d) by (apply IZR_le; lia). unfold enough in HE.
  assert (HE' : bpow radix2 5 * (IZR d * IZR d) * rho ^ Z.to_nat d <= epsilon * bpow radix2 prec).
  { apply (Rle_trans _ (epsilon * bpow radix2 n)); [|apply Rmult_le_compat_l; [lra|now apply bpow_le]].
    apply (Rmult_le_compat_l epsilon) in HE; [|lra]. unfold Rdiv in HE. rewrite <- Rmult_assoc, (Rmult_comm epsilon), Rmult_assoc, (Rmult_comm epsilon) in HE.
    rewrite Rmult_assoc, (Rmult_comm epsilon), Rinv_l, Rmult_1_r in HE by lra. rewrite (Rmult_comm epsilon (bpow _ _)). exact HE. }
  assert (PW : rho ^ (j + 1) <= rho ^ Z.to_nat d) by (apply Rle_pow; [exact R1|lia]).
  assert (PW0 : 0 < rho ^ (j + 1)) by (apply pow_lt; lra).
  assert (G : forall k, bpow radix2 (k - prec) = bpow radix2 k * / bpow radix2 prec) by (intros k; unfold Z.sub; now rewrite bpow_plus, bpow_opp).
  pose proof (bpow_gt_0 radix2 prec) as BP. rewrite !G.
  change (bpow radix2 5) with 32 in HE'. change (bpow radix2 2) with 4. change (bpow radix2 4) with 16.
  set (P := bpow radix2 prec) in *. set (X := rho ^ (j + 1)) in *. set (Y := rho ^ Z.to_nat d) in *. set (dd := IZR d) in *. clearbody P X Y dd. clear - HE' PW PW0 BP D He.
  assert (K : 32 * (dd * dd) * X <= epsilon * P) by nra.
  assert (IP : 0 < / P) by now apply Rinv_0_lt_compat.
  assert (K2 : dd * X * / P <= epsilon / (32 * dd)).
  { apply (Rmult_le_reg_r (P * (32 * dd))); [nra|]. replace (dd * X * / P * (P * (32 * dd))) with (32 * (dd * dd) * X) by (field; lra).
    replace (epsilon / (32 * dd) * (P * (32 * dd))) with (epsilon * P) by (field; lra). exact K. }
  replace (epsilon / (8 * dd)) with (4 * (epsilon / (32 * dd))) by (field; lra). replace (epsilon / (2 * dd)) with (16 * (epsilon / (32 * dd))) by (field; lra). lra.
Qed.
End Prec.

(** ** With exact operations it is the least such precision *)
Definition same (x : R) : R := x.
Lemma same_up : r_up same. Proof. intros x. unfold same. lra. Qed.
Lemma same_dn : r_dn same. Proof. intros x. unfold same. lra. Qed.
Theorem gso_min_prec_least d delta eta epsilon rho n : gso_min_prec same same same d delta eta epsilon = POk (rho, n) ->
  rho = ((1 + eta) * (1 + eta) + epsilon) / (delta - eta * eta) /\ enough 5 n d rho epsilon /\ ~ enough 5 (n - 1) d rho epsilon.
Proof.
  intros H. unfold gso_min_prec, compute_min_prec in H. destruct (Rlt_dec _ _) as [Hd|]; [|discriminate]. destruct (Rle_dec epsilon 0) as [|He]; [discriminate|]. destruct (Z.leb_spec d 0); [discriminate|].
  destruct (to_int_ceil _) as [m| |] eqn:E; try discriminate. injection H as Er <-. apply to_int_ceil_ok in E as [Em _]. apply Rnot_le_lt in He.
  assert (ER : rho = ((1 + eta) * (1 + eta) + epsilon) / (delta - eta * eta)). { rewrite <- Er. unfold same, rho_num, rho_den. f_equal. ring. }
  split; [exact ER|]. unfold rho_den, same in Hd.
  assert (Hr : 0 < rho) by (rewrite ER; unfold Rdiv; apply Rmult_lt_0_compat; [pose proof (Rle_0_sqr (1 + eta)) as SQ; unfold Rsqr in SQ; lra|apply Rinv_0_lt_compat; lra]). pose proof ln2_pos as L2.
  set (V := 2 * ln (IZR d) - ln epsilon + IZR d * ln rho).
  assert (EV : min_prec_val same same 5 (IZR d) epsilon rho * ln 2 = 5 * ln 2 + V). { unfold min_prec_val, same, V. field. lra. }
  rewrite Er in Em. rewrite !enough_ln by auto. rewrite minus_IZR. split.
  - pose proof (Zceil_ub (min_prec_val same same 5 (IZR d) epsilon rho)) as ZU. rewrite <- Em in ZU. apply (Rmult_le_compat_r (ln 2)) in ZU; [|lra]. rewrite EV in ZU. unfold V in ZU. lra.
  - intros HN. assert (HL : min_prec_val same same 5 (IZR d) epsilon rho <= IZR (m - 1)). { apply (Rmult_le_reg_r (ln 2)); [exact L2|]. rewrite EV, minus_IZR. unfold V. lra. }
    apply Zceil_glb in HL. lia.
Qed.
(** parameters with a result: rho = 4, 5 + 2 + 2 + 4 = 13 bits *)
Example gso_min_prec_13 : gso_min_prec same same same 2 (7 / 8) (/ 2) (/ 4) = POk (4, 13%Z).
Proof.
  assert (Ed : rho_den same same (7 / 8) (/ 2) = 5 / 8) by (unfold rho_den, same; lra). assert (En : same (rho_num same (/ 2) (/ 4) / (5 / 8)) = 4) by (unfold same, rho_num; field).
  unfold gso_min_prec, compute_min_prec. rewrite Ed, En. destruct (Rlt_dec 0 (5 / 8)) as [_|H]; [|exfalso; apply H; lra]. destruct (Rle_dec (/ 4) 0); [lra|]. cbn [Z.leb Z.compare].
  pose proof ln2_pos. assert (L4 : ln 4 = 2 * ln 2) by (replace 4 with (2 * 2) by lra; rewrite ln_mult by lra; lra).
  assert (V : min_prec_val same same 5 (IZR 2) (/ 4) 4 = IZR 13). { unfold min_prec_val, same. rewrite ln_Rinv, L4 by lra. field. lra. }
  rewrite V. unfold to_int_ceil. rewrite Zceil_IZR. reflexivity.
Qed.
(** epsilon is cut to 1 - delta = 1/8; rho = 10.2, 10 + 2 + 3 + 6.7 = 21.7 bits *)
Example l2_min_prec_22 : l2_min_prec same same same 2 (7 / 8) (3 / 4) (1 / 4) = POk 22%Z.
Proof.
  assert (Ec : clip_eps same same (7 / 8) (3 / 4) (1 / 4) = / 8). { unfold clip_eps, same. destruct (Rlt_dec (3 / 4 - / 2) (1 / 4)); destruct (Rlt_dec (1 - 7 / 8) _); lra. }
  assert (Ed : rho_den same same (7 / 8) (3 / 4) = 5 / 16) by (unfold rho_den, same; lra). assert (En : same (rho_num same (3 / 4) (/ 8) / (5 / 16)) = 51 / 5) by (unfold same, rho_num; field).
  unfold l2_min_prec, compute_min_prec. rewrite Ec, Ed, En. destruct (Rlt_dec 0 (5 / 16)) as [_|H]; [|exfalso; apply H; lra]. destruct (Rle_dec (/ 8) 0); [lra|]. cbn [Z.leb Z.compare].
  pose proof ln2_pos as L2. set (v := min_prec_val same same 10 (IZR 2) (/ 8) (51 / 5)).
  assert (L8 : ln 8 = 3 * ln 2) by (replace 8 with (2 * 2 * 2) by lra; rewrite !ln_mult by lra; lra).
  assert (V : v * ln 2 = 15 * ln 2 + 2 * ln (51 / 5)). { unfold v, min_prec_val, same. rewrite ln_Rinv, L8 by lra. field. lra. }
  assert (U1 : 6 * ln 2 < 2 * ln (51 / 5)). { assert (E : ln 8 < ln (51 / 5)) by (apply ln_increasing; lra). lra. }
  assert (U2 : 2 * ln (51 / 5) <= 7 * ln 2). { assert (E : ln (51 / 5 * (51 / 5)) <= ln (8 * 8 * 2)) by (apply ln_le_mono; lra). rewrite !ln_mult in E by lra. lra. }
  assert (Z : Zceil v = 22%Z). { apply Zceil_imp. split; apply Rnot_lt_le || apply Rnot_le_lt; intros N; [apply (Rmult_le_compat_r (ln 2)) in N|apply (Rmult_lt_compat_r (ln 2)) in N]; cbn in N; lra. }
  unfold to_int_ceil. rewrite Z. reflexivity.
Qed.
(** roundings of 53 bits meet the hypotheses *)
Theorem up53 : r_up RU53.
Proof. exact mpfr53_up. Qed.
Theorem dn53 : r_dn RD53.
Proof.
  intros x. assert (P53 : Prec_gt_0 53) by reflexivity. split; [apply mpfr53_down|]. intros H.
  assert (B : bpow radix2 (mag radix2 x - 1) <= RD53 x).
  { unfold RD53. apply round_ge_generic; [typeclasses eauto|typeclasses eauto| |]; [apply generic_format_bpow; unfold FLX_exp; lia|]. pose proof (bpow_mag_le radix2 x) as B. rewrite (Rabs_pos_eq x) in B by lra. apply B. lra. }
  eapply Rlt_le_trans; [apply bpow_gt_0|exact B].
Qed.
(** eta - 0.5 is exact in double precision (util.cpp:57) *)
Theorem eta_half_exact eta : generic_format radix2 (FLX_exp 53) eta -> / 4 <= eta <= 1 -> RN53 (eta - / 2) = eta - / 2.
Proof.
  intros F H. assert (P53 : Prec_gt_0 53) by reflexivity. unfold RN53. apply round_generic; [typeclasses eauto|].
  apply (sterbenz radix2 (FLX_exp 53)); auto; [|lra]. change (/ 2) with (bpow radix2 (-1)). apply generic_format_bpow. unfold FLX_exp. lia.
Qed.

(** ** delta = 1 or eta = 1/2, both accepted as LLL parameters, leave no precision: an infinity is converted to int *)
Theorem l2_delta_one_refuted : exists d delta eta epsilon, (0 < d)%Z /\ / 4 < delta <= 1 /\ / 2 <= eta /\ eta * eta < delta /\ 0 < epsilon /\ l2_min_prec same same same d delta eta epsilon = PUB.
Proof.
  exists 5%Z, 1, (51 / 100), (1 / 100). do 5 (split; [lia || lra|]). unfold l2_min_prec, compute_min_prec, clip_eps, rho_den, same.
  destruct (Rlt_dec 0 _) as [_|H]; [|exfalso; apply H; lra]. destruct (Rlt_dec (51 / 100 - / 2) (1 / 100)); destruct (Rlt_dec (1 - 1) _); destruct (Rle_dec _ 0); try lra; reflexivity.
Qed.
Theorem l2_eta_half_refuted : exists d delta eta epsilon, (0 < d)%Z /\ / 4 < delta <= 1 /\ / 2 <= eta /\ eta * eta < delta /\ 0 < epsilon /\ delta < 1 /\ l2_min_prec same same same d delta eta epsilon = PUB.
Proof.
  exists 5%Z, (99 / 100), (/ 2), (1 / 100). do 6 (split; [lia || lra|]). unfold l2_min_prec, compute_min_prec, clip_eps, rho_den, same.
  destruct (Rlt_dec 0 _) as [_|H]; [|exfalso; apply H; lra]. destruct (Rlt_dec (/ 2 - / 2) (1 / 100)); destruct (Rlt_dec (1 - 99 / 100) _); destruct (Rle_dec _ 0); try lra; reflexivity.
Qed.
(** likewise a matrix without rows (wrapper.cpp:56, 593: called before the test for empty matrices) *)
Theorem l2_empty_refuted : l2_min_prec same same same 0 (99 / 100) (51 / 100) (1 / 100) = PUB.
Proof.
  unfold l2_min_prec, compute_min_prec, clip_eps, rho_den, same. destruct (Rlt_dec 0 _) as [_|H]; [|exfalso; apply H; lra].
  destruct (Rle_dec _ 0); reflexivity.
Qed.
(** apart from these, every call gives a result or aborts, as long as it fits an int: here for the parameters abort exactly when eta^2 >= delta *)
Theorem l2_min_prec_total d delta eta epsilon : (0 < d)%Z -> / 2 < eta -> delta < 1 -> 0 < epsilon ->
  (delta <= eta * eta -> l2_min_prec same same same d delta eta epsilon = PAbort) /\
  (eta * eta < delta -> exists x, l2_min_prec same same same d delta eta epsilon = match to_int_ceil x with POk n => POk n | _ => PUB end).
Proof.
  intros Hd He Hl Hp. unfold l2_min_prec, compute_min_prec. unfold rho_den. split; intros H.
  - destruct (Rlt_dec 0 _) as [H'|_]; [unfold same in H'; lra|reflexivity].
  - destruct (Rlt_dec 0 _) as [_|H']; [|exfalso; apply H'; unfold same; lra].
    destruct (Rle_dec (clip_eps same same delta eta epsilon) 0) as [L|_].
    { exfalso. unfold clip_eps, same in L. destruct (Rlt_dec (eta - / 2) epsilon); destruct (Rlt_dec (1 - delta) _); lra. }
    destruct (Z.leb_spec d 0); [lia|]. match goal with |- context [to_int_ceil ?v] => exists v end. unfold to_int_ceil. destruct (_ && _); reflexivity.
Qed.

(** ** hlll_min_prec *)
(** the parameters of the analysis: 1/4 <= delta < 1, theta > 0, 1/2 + theta < eta < sqrt delta, non-empty matrix *)
Definition hlll_params (di ni : nat) (delta eta theta : R) : Prop := (0 < di)%nat /\ (0 < ni)%nat /\ / 4 <= delta < 1 /\ 0 < theta /\ / 2 < eta - theta /\ eta * eta < delta.
Lemma hlll_alpha_pos di ni delta eta theta : hlll_params di ni delta eta theta -> 0 < h_disc delta eta theta /\ 0 < h_alpha delta eta theta.
Proof.
  intros (Hd & Hn & Hl & Ht & He & Hq). assert (D : 0 < h_disc delta eta theta) by (unfold h_disc; nra). split; [exact D|]. unfold h_alpha.
  apply Rmult_lt_0_compat; [|apply Rinv_0_lt_compat; lra]. pose proof (sqrt_lt_R0 _ D). nra.
Qed.
Lemma hlll_phi_pos di ni delta eta theta : hlll_params di ni delta eta theta -> 0 < h_phi (INR di) (INR ni) delta eta theta di.
Proof.
  intros HP. pose proof (hlll_alpha_pos _ _ _ _ _ HP) as [D A]. destruct HP as (Hd & Hn & Hl & Ht & He & Hq). apply lt_INR in Hd, Hn. cbn in Hd, Hn.
  assert (C0 : 0 < h_c0 (INR di) (INR ni) delta eta theta).
  { unfold h_c0. set (a := _ / ((eta + theta) * _)). set (b := 4 * _ / _ * _).
    assert (B : 0 < b). { unfold b. apply Rmult_lt_0_compat; [apply Rmult_lt_0_compat; [pose proof (sqrt_lt_R0 6); lra|apply Rinv_0_lt_compat; lra]|]. apply sqrt_lt_R0. nra. }
    assert (M : 0 < if Rle_dec a b then b else a) by (destruct (Rle_dec a b); lra). pose proof (sqrt_lt_R0 _ Hd). apply Rmult_lt_0_compat; [apply Rmult_lt_0_compat|]; auto. }
  unfold h_phi. apply Rmult_lt_0_compat; [apply Rmult_lt_0_compat|].
  - unfold h_c1. apply Rmult_lt_0_compat; [|exact C0]. apply Rmult_lt_0_compat; lra.
  - assert (0 < 1 / theta) by (unfold Rdiv; rewrite Rmult_1_l; now apply Rinv_0_lt_compat). lra.
  - apply pow_lt. unfold h_rho. apply Rmult_lt_0_compat; lra.
Qed.
(** alpha bounds the ratio of consecutive diagonal entries x, 1 of a reduced basis: delta x^2 <= 1 + (eta x + theta)^2, with equality for the largest x *)
Definition is_alpha (delta eta theta a : R) : Prop := 0 < a /\ delta * (a * a) = 1 + (eta * a + theta) * (eta * a + theta).
Lemma is_alpha_max delta eta theta a : eta * eta < delta -> 0 <= eta -> 0 < theta -> is_alpha delta eta theta a ->
  forall x, 0 <= x -> (delta * (x * x) <= 1 + (eta * x + theta) * (eta * x + theta) <-> x <= a).
Proof.
  intros Hq He Ht [Ha E] x Hx. set (k := delta - eta * eta). assert (K : 0 < k) by (unfold k; lra).
  assert (E' : k * (a * a) = 2 * theta * eta * a + (1 + theta * theta)) by (unfold k; lra).
  assert (I : delta * (x * x) - (1 + (eta * x + theta) * (eta * x + theta)) = (x - a) * (k * (x + a) - 2 * theta * eta)).
  { transitivity (k * (x * x) - 2 * theta * eta * x - k * (a * a) + 2 * theta * eta * a); [rewrite E'|]; unfold k; ring. }
  assert (TE : 0 <= theta * eta) by (apply Rmult_le_pos; lra).
  assert (F : 0 < k * (x + a) - 2 * theta * eta).
  { assert (F0 : 0 < (k * a - 2 * theta * eta) * a) by nra. assert (F1 : 0 < k * a - 2 * theta * eta) by (destruct (Rlt_or_le 0 (k * a - 2 * theta * eta)); nra). nra. }
  split; intros H; [destruct (Rle_or_lt x a); auto; assert (0 < (x - a) * (k * (x + a) - 2 * theta * eta)) by (apply Rmult_lt_0_compat; lra); lra|].
  assert ((x - a) * (k * (x + a) - 2 * theta * eta) <= 0) by nra. lra.
Qed.
Theorem h_alpha_root di ni delta eta theta : hlll_params di ni delta eta theta -> is_alpha delta eta theta (h_alpha delta eta theta).
Proof.
  intros HP. pose proof (hlll_alpha_pos _ _ _ _ _ HP) as [D A]. destruct HP as (Hd & Hn & Hl & Ht & He & Hq). split; [exact A|].
  pose proof (sqrt_sqrt (h_disc delta eta theta) ltac:(lra)) as S. unfold h_alpha in *. set (s := sqrt (h_disc delta eta theta)) in *. set (k := delta - eta * eta) in *.
  assert (K : k <> 0) by (unfold k; lra). assert (ED : delta = k + eta * eta) by (unfold k; ring). unfold h_disc in S.
  apply (Rmult_eq_reg_r (k * k)); [|apply Rmult_integral_contrapositive_currified; exact K].
  transitivity (delta * ((theta * eta + s) * (theta * eta + s))); [field; exact K|].
  transitivity (k * k + (eta * (theta * eta + s) + theta * k) * (eta * (theta * eta + s) + theta * k)); [|field; exact K].
  rewrite ED. assert (S' : s * s = (1 + theta * theta) * (k + eta * eta) - eta * eta) by (rewrite S, ED; reflexivity).
  transitivity (k * (theta * eta * (theta * eta) + 2 * (theta * eta) * s + s * s) + eta * (theta * eta + s) * (eta * (theta * eta + s))); [ring|]. rewrite S'. ring.
Qed.
(** the documented constants (util.cpp:129-176), for the given alpha *)
Definition c0_spec (d n eta theta a : R) : R := Rmax ((1 + Rabs (1 - eta - theta) * a) / ((eta + theta) * (sqrt (3 / 2) - 1))) (4 * sqrt 6 / (1 + eta) * sqrt (1 + d * (eta * eta))) * n * sqrt d.
Definition phi_spec (d n eta theta a : R) (k : nat) : R := 8 * d * (n + 9) * c0_spec d n eta theta a * (1 + / theta) * ((1 + eta + theta) * a) ^ S k.
Lemma h_phi_spec d n delta eta theta k : h_phi d n delta eta theta k = phi_spec d n eta theta (h_alpha delta eta theta) k.
Proof.
  unfold h_phi, phi_spec, h_c1, h_rho. rewrite Nat.add_1_r. replace (1 / theta) with (/ theta) by (unfold Rdiv; ring).
  replace (h_c0 d n delta eta theta) with (c0_spec d n eta theta (h_alpha delta eta theta)); [reflexivity|]. unfold c0_spec, h_c0. cbn zeta.
  replace (-1 + sqrt (3 / 2)) with (sqrt (3 / 2) - 1) by ring. replace (1 + d * eta * eta) with (1 + d * (eta * eta)) by ring. unfold Rmax. reflexivity.
Qed.
(** the least precision with 2^p (1 - delta) (eta - theta - 1/2) theta >= 2^(17 + c d / 2) d^3 phi(d) alpha^d *)
Definition h_enough (di ni : nat) (delta eta theta c a : R) (p : Z) : Prop :=
  Rpower 2 (17 + c * INR di / 2) * (INR di ^ 3 * phi_spec (INR di) (INR ni) eta theta a di * a ^ di) <= bpow radix2 p * ((1 - delta) * (eta - theta - / 2) * theta).
Theorem hlll_min_prec_ok di ni delta eta theta c a : hlll_params di ni delta eta theta -> is_alpha delta eta theta a ->
  match hlll_min_prec di ni delta eta theta c with
  | POk p => h_enough di ni delta eta theta c a p /\ ~ h_enough di ni delta eta theta c a (p - 1)
  | PAbort => False
  | PUB => forall p, h_enough di ni delta eta theta c a p -> (2 ^ 31 <= p)%Z \/ h_enough di ni delta eta theta c a (- 2 ^ 31 - 1)
  end.
Proof.
  intros HP HA. assert (EA : a = h_alpha delta eta theta).
  { pose proof (h_alpha_root _ _ _ _ _ HP) as HA'. pose proof HP as (_ & _ & _ & Ht & He & Hq). assert (He' : 0 <= eta) by lra. destruct HA as [Ha Ea], HA' as [Hb Eb].
    pose proof (proj1 (is_alpha_max _ _ _ _ Hq He' Ht (conj Hb Eb) a ltac:(lra)) ltac:(lra)). pose proof (proj1 (is_alpha_max _ _ _ _ Hq He' Ht (conj Ha Ea) (h_alpha delta eta theta) ltac:(lra)) ltac:(lra)). lra. }
  subst a. pose proof (hlll_alpha_pos _ _ _ _ _ HP) as [D A]. pose proof (hlll_phi_pos _ _ _ _ _ HP) as P. pose proof HP as (Hd & Hn & Hl & Ht & He & Hq). apply lt_INR in Hd, Hn. cbn in Hd, Hn.
  set (N := INR di ^ 3 * h_phi (INR di) (INR ni) delta eta theta di * h_alpha delta eta theta ^ di).
  assert (PN : 0 < N) by (unfold N; apply Rmult_lt_0_compat; [apply Rmult_lt_0_compat; [now apply pow_lt|exact P]|now apply pow_lt]).
  assert (EN : INR di * INR di * INR di * h_phi (INR di) (INR ni) delta eta theta di * h_alpha delta eta theta ^ di / theta = N / theta) by (unfold N; cbn [pow]; field; lra).
  pose proof ln2_pos as L2.
  assert (EL : forall p, h_enough di ni delta eta theta c (h_alpha delta eta theta) p <-> h_p (INR di) (INR ni) delta eta theta c di <= IZR p).
  { intros p. unfold h_enough. rewrite <- h_phi_spec. fold N.
    assert (EV : h_p (INR di) (INR ni) delta eta theta c di * ln 2 = ln (Rpower 2 (17 + c * INR di / 2) * N) - ln ((1 - delta) * (eta - theta - / 2) * theta)).
    { assert (IT : 0 < / theta) by now apply Rinv_0_lt_compat. assert (PR : 0 < (1 - delta) * (eta - theta - / 2)) by (apply Rmult_lt_0_compat; lra).
      assert (E1 : ln (N / theta) = ln N - ln theta) by (unfold Rdiv; rewrite ln_mult, ln_Rinv by auto; lra).
      assert (E2 : ln (Rpower 2 (17 + c * INR di / 2) * N) = (17 + c * INR di / 2) * ln 2 + ln N) by (rewrite ln_mult by (auto; apply exp_pos); unfold Rpower; rewrite ln_exp; reflexivity).
      assert (E3 : ln ((1 - delta) * (eta - theta - / 2) * theta) = ln (1 - delta) + ln (eta - theta - / 2) + ln theta) by (rewrite !ln_mult by (auto; lra); lra).
      unfold h_p, h_p0. rewrite EN, E1, E2, E3. field. lra. }
    assert (Q : 0 < (1 - delta) * (eta - theta - / 2) * theta) by (apply Rmult_lt_0_compat; [apply Rmult_lt_0_compat; lra|lra]).
    assert (W : 0 < Rpower 2 (17 + c * INR di / 2) * N) by (apply Rmult_lt_0_compat; [apply exp_pos|exact PN]).
    pose proof (bpow_gt_0 radix2 p) as BP. split; intros H.
    - apply ln_le_mono in H; [|exact W]. rewrite (ln_mult (bpow radix2 p)), ln_bpow in H by auto. apply (Rmult_le_reg_r (ln 2)); [exact L2|]. lra.
    - apply ln_le_inv; [exact W|now apply Rmult_lt_0_compat|]. rewrite (ln_mult (bpow radix2 p)), ln_bpow by auto. apply (Rmult_le_compat_r (ln 2)) in H; lra. }
  unfold hlll_min_prec. destruct (Rlt_dec delta 1); [|lra]. destruct (Rle_dec (/ 4) delta); [|lra]. destruct (Rle_dec 0 theta); [|lra]. destruct (Rle_dec (/ 2) eta); [|lra]. destruct (Rlt_dec (/ 2) (eta - theta)); [|lra].
  destruct (Rlt_dec (h_disc delta eta theta) 0); [lra|]. destruct (Req_EM_T (delta - eta * eta) 0); [lra|]. destruct (Req_EM_T theta 0); [lra|].
  cbn zeta. rewrite EN. destruct (Rle_dec (N / theta) 0) as [L|_]; [assert (0 < N / theta) by (apply Rmult_lt_0_compat; [exact PN|now apply Rinv_0_lt_compat]); lra|].
  unfold to_int_ceil. destruct ((- 2 ^ 31 <=? Zceil (h_p (INR di) (INR ni) delta eta theta c di)) && (Zceil (h_p (INR di) (INR ni) delta eta theta c di) <? 2 ^ 31))%Z eqn:EB.
  - rewrite !EL. split; [apply Zceil_ub|]. intros H. apply Zceil_glb in H. lia.
  - intros p H. rewrite EL in H. apply Zceil_glb in H. apply andb_false_iff in EB as [EB|EB]; [|left; lia].
    right. rewrite EL. eapply Rle_trans; [apply Zceil_ub|]. apply IZR_le. lia.
Qed.
Example hlll_params_ex : hlll_params 10 12 (99 / 100) (51 / 100) (1 / 1000).
Proof. repeat split; try lia; lra. Qed.
(** ** The checks at its start do not exclude undefined results: theta = 0, and eta^2 > (1 + theta^2) delta *)
Theorem hlll_checks_refuted : hlll_min_prec 10 12 (99 / 100) (51 / 100) 0 1 = PUB /\ hlll_min_prec 10 12 (/ 4) (6 / 10) (1 / 1000) 1 = PUB /\
  hlll_min_prec 0 12 (99 / 100) (51 / 100) (1 / 1000) 1 = PUB.
Proof.
  unfold hlll_min_prec. split; [|split].
  - destruct (Rlt_dec (99 / 100) 1); [|lra]. destruct (Rle_dec (/ 4) (99 / 100)); [|lra]. destruct (Rle_dec 0 0); [|lra]. destruct (Rle_dec (/ 2) (51 / 100)); [|lra]. destruct (Rlt_dec (/ 2) (51 / 100 - 0)); [|lra].
    cbn zeta. destruct (Rlt_dec _ 0); [reflexivity|]. destruct (Req_EM_T _ 0); [reflexivity|]. destruct (Req_EM_T 0 0); [reflexivity|lra].
  - destruct (Rlt_dec (/ 4) 1); [|lra]. destruct (Rle_dec (/ 4) (/ 4)); [|lra]. destruct (Rle_dec 0 (1 / 1000)); [|lra]. destruct (Rle_dec (/ 2) (6 / 10)); [|lra]. destruct (Rlt_dec (/ 2) (6 / 10 - 1 / 1000)); [|lra].
    cbn zeta. destruct (Rlt_dec _ 0) as [_|H]; [reflexivity|]. exfalso. apply H. unfold h_disc. lra.
  - destruct (Rlt_dec (99 / 100) 1); [|lra]. destruct (Rle_dec (/ 4) (99 / 100)); [|lra]. destruct (Rle_dec 0 (1 / 1000)); [|lra]. destruct (Rle_dec (/ 2) (51 / 100)); [|lra]. destruct (Rlt_dec (/ 2) (51 / 100 - 1 / 1000)); [|lra].
    cbn zeta. destruct (Rlt_dec _ 0); [reflexivity|]. destruct (Req_EM_T _ 0); [reflexivity|]. destruct (Req_EM_T (1 / 1000) 0); [reflexivity|]. destruct (Rle_dec _ 0) as [_|H]; [reflexivity|]. exfalso. apply H. cbn. lra.
Qed.

Print Assumptions gso_min_prec_ok.
Print Assumptions l2_min_prec_ok.
Print Assumptions gso_prec_error.
Print Assumptions hlll_min_prec_ok.
