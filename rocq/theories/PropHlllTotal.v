(** C80: HLLL (hlll.cpp:26-173) in exact real arithmetic is totally correct on
    linearly independent rows: it ends, no size-reduction or norm failure is
    reported, and the basis returned is reduced with eta = 1/2 and theta = 0. *)
From Coq Require Import List ZArith Reals Lra Lia Arith Bool.
From Flocq Require Import Core.
From Verif Require Import Util LatticeSpec NumVectModel MatrixModel MatrixProofs GsoModel GsoFModel GsoProofs
  PropGso HouseModel HouseProofs HouseReal HouseRun HlllRun HlllSpec HlllSpecFacts PropHlll PropHlllExact
  LatPot HlllBridge HlllTotal MpfrModel.
Import ListNotations.
Local Open Scope R_scope.

(** number of iterations of the main loop that is enough: d times one more than
    the sum of the Gram determinants of the first 0, 1, ..., d rows *)
Definition hlll_bound (c : nat) (b : list (list Z)) : nat :=
  (S (Z.to_nat (zsum (S (length b)) (gram_det c b))) * length b)%nat.

(** Two passes of the loop of size_reduction are always enough; for 1/2 <= delta <= 1
    and theta >= 0 the run succeeds within the bound, whatever eta is, whatever
    uninitialised memory holds, with or without row exponents. *)
Theorem hlll_exact_total :
  forall dz (row_expo : bool) (P : hpar (r_hops dz)) junk b c u ui force_long fuel srfuel,
    valid_input b c u ui -> (2 <= length b <= c)%nat -> rows_independent c b ->
    / 2 <= p_delta _ P <= 1 -> 0 <= p_theta _ P ->
    (hlll_bound c b <= fuel)%nat -> (2 <= srfuel)%nat ->
    exists x r,
      hlll (r_hops dz) row_expo P fuel srfuel junk (house_new (r_hops dz) junk b c u ui force_long) = Some (x, HSuccess) /\
      length (out_b x) = length b /\ same_lattice c b (out_b x) /\
      r_factor c (out_b x) r /\ (forall i, (i < length b)%nat -> 0 < r i i) /\
      hlll_reduced (p_delta _ P) (/ 2) 0 (length b) r.
Proof.
  intros dz ee P junk b c u ui fl fuel srfuel HV HD HI Hde Hth HF HS.
  set (zi := gso_new b c u ui false fl). set (s0 := house_new (r_hops dz) junk b c u ui fl).
  assert (K0 : HOK (r_hops dz) (length b) c 0 zi s0).
  { apply house_new_K; try lia; [apply valid_input_inv; auto|apply HV]. }
  destruct (init_total dz ee (length b) c (proj2 HD) zi P junk s0) as [x0 [v0 [E0 [H0 [B0 V0]]]]]; auto; try lia.
  { intros i. unfold et, s0, house_new. cbn [hre]. destruct (le_lt_dec (length b) i).
    - apply nth_overflow. rewrite repeat_length. auto.
    - apply nth_repeat_lt. auto. }
  { apply rows_independent_pos. auto. }
  set (p := Z.to_nat (zsum (S (length b)) (gram_det c b))).
  destruct (loop_total dz ee (length b) c (proj2 HD) zi P Hde Hth srfuel HS p (length b - 1) x0 v0) with (fuel := fuel) as [x [E H]]; auto.
  { pose proof (pot_nonneg dz ee (length b) c (proj2 HD) zi P x0 v0 H0) as PN. unfold pot in *. rewrite B0 in *. change (gb (hz (r_hops dz) s0)) with b in *. unfold p. lia. }
  { lia. }
  { unfold hlll_bound in HF. fold p in HF. nia. }
  assert (ER : hlll (r_hops dz) ee P fuel srfuel junk s0 = Some (x, HSuccess)).
  { unfold hlll. rewrite E0. cbn [obind fst snd]. auto. }
  destruct (hlll_K (r_hops dz) ee P fuel srfuel junk b c u ui fl HD) as [x1 [o1 [E1 [D [K _ _]]]]].
  { apply valid_input_inv; auto. } { apply HV. }
  assert (x1 = x) by (fold s0 in E1; rewrite ER in E1; injection E1; auto). subst x1. clear E1 o1.
  destruct K as [_ _ _ St]. destruct (zsteps_lattice _ _ St) as [L1 [_ SL]].
  assert (LB : length (out_b x) = length b) by exact L1.
  assert (I1 : rows_independent c (out_b x)) by (apply (zsteps_independent _ _ St); exact HI).
  apply (loop_real dz ee (length b) c (proj2 HD) zi) in E; [|destruct H0; auto].
  assert (RF : r_factor c (out_b x) (rfac dz (lm _ x))).
  { apply (rfac_r_factor dz (length b) c); [apply HD|exact L1|]. intros i Hi. destruct (E i Hi) as [A [B _]]. auto. }
  exists x, (rfac dz (lm _ x)). split; auto. split; auto. split; [exact SL|]. split; auto. split.
  { intros i Hi. apply (r_factor_positive c (out_b x)); auto. lia. }
  split.
  - intros i j Hij. specialize (H i j Hij). unfold PropHlllExact.rfac, HlllSpecFacts.tri. rewrite !Nat.leb_refl, (proj2 (Nat.leb_le j i)) by lia.
    unfold rho in H. lra.
  - intros i Hi. destruct (E (S i) Hi) as [_ [_ [_ A]]]. specialize (A i eq_refl).
    unfold PropHlllExact.rfac, HlllSpecFacts.tri. rewrite !Nat.leb_refl, (proj2 (Nat.leb_le i (S i))) by lia. exact A.
Qed.

(** instance: the rows (3, 0), (7, 3) of PropHlllExact.v with the default
    parameters delta = 0.99, eta = 0.51, theta = 0.001 *)
Example exh_total : forall dz, exists x r,
  hlll (r_hops dz) true (exh_P dz) (hlll_bound 2 exh_b) 2 0 (house_new (r_hops dz) 0 exh_b 2 [] [] false) = Some (x, HSuccess) /\
  r_factor 2 (out_b x) r /\ hlll_reduced (99 / 100) (/ 2) 0 2 r.
Proof.
  intros dz. destruct exh_input as [H1 [H2 H3]].
  destruct (hlll_exact_total dz true (exh_P dz) 0 exh_b 2 [] [] false (hlll_bound 2 exh_b) 2) as [x [r [A [_ [_ [B [_ C]]]]]]]; auto.
  - cbn. lra.
  - cbn. lra.
  - exists x, r. auto.
Qed.

(** delta below 1/2 is not covered: verify_size_reduction compares with
    delta R(i,i) (hlll.h:155-159), so that a size-reduced row can be refused.
    With delta = 3/8, eta = 9/16 < sqrt delta, theta = 1/1024 and 53-bit mpfr
    numbers (all operations of this run are exact) hlll reports
    RED_HLLL_SR_FAILURE on a basis that is reduced with just these parameters. *)
Definition small_P : hpar (mpfr_hops 53) := mkhpar (mpfr_hops 53) (3, -3)%Z (9, -4)%Z (1, -10)%Z.
Definition small_b : list (list Z) := [[2; 0]; [1; 2]]%Z.
Definition small_r (i j : nat) : R :=
  match i, j with 0%nat, 0%nat => 2 | 1%nat, 0%nat => 1 | 1%nat, 1%nat => 2 | _, _ => 0 end.
Theorem hlll_small_delta_refuted :
  exists b r R, valid_input b 2 [] [] /\ rows_independent 2 b /\ r_factor 2 b r /\
    hlll_reduced (3 / 8) (9 / 16) (1 / 1024) 2 r /\
    h2_run 53 small_P b = Some (HSrFailure, b, R).
Proof.
  exists small_b, small_r.
  match goal with |- exists R, _ /\ _ /\ _ /\ _ /\ ?t = _ => let v := eval vm_compute in t in
    match v with Some (_, _, ?R) => exists R end end.
  split; [|split; [|split; [|split]]].
  - constructor; auto. intros i Hi. cbn in Hi. destruct i as [|[|i]]; auto; lia.
  - intros a Ha. pose proof (Ha 0%nat ltac:(lia)) as H0. pose proof (Ha 1%nat ltac:(lia)) as H1.
    cbn in H0, H1. intros i Hi. cbn in Hi. destruct i as [|[|i]]; [lra|lra|lia].
  - constructor.
    + intros [|[|i]] [|[|j]] H; cbn; auto; lia.
    + intros [|[|i]] H; cbn in *; try lra; lia.
    + intros i j Hi Hj. cbn in Hi, Hj. destruct i as [|[|i]]; [| |lia]; destruct j as [|[|j]]; try lia; unfold rsum; cbn; lra.
  - split.
    + intros i j H. assert (i = 1%nat /\ j = 0%nat) as [-> ->] by lia. cbn. rewrite Rabs_pos_eq by lra. lra.
    + intros i H. assert (i = 0%nat) as -> by lia. cbn. lra.
  - vm_compute. reflexivity.
Qed.

Print Assumptions hlll_exact_total.
Print Assumptions hlll_small_delta_refuted.
