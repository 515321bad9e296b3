(** C63: HLLL (hlll.cpp:26-173) in exact real arithmetic.  On success the basis
    is HLLL-reduced in the sense of HlllSpec.v, with delta in the place of eta. *)
From Coq Require Import List ZArith Reals Lra Lia Arith Bool.
From Flocq Require Import Core.
From Verif Require Import Util LatticeSpec NumVectModel MatrixModel MatrixProofs GsoModel GsoFModel GsoProofs
  PropGso HouseModel HouseProofs HouseReal HouseRun HlllRun HlllSpec HlllSpecFacts PropHlll.
Import ListNotations.
Local Open Scope R_scope.

(** the R-factor an object holds *)
Definition rfac (dz : R -> R) (s : hst (r_hops dz)) : nat -> nat -> R := tri (Rt dz s) (et dz s).

Lemma rfac_r_factor dz d n s : (d <= n)%nat -> length (gb (hz (r_hops dz) s)) = d ->
  (forall i, (i < d)%nat -> row_ok dz n s i /\ done_ok dz n s i) -> r_factor n (gb (hz (r_hops dz) s)) (rfac dz s).
Proof.
  intros Hdn L H. apply (tri_r_factor d n _ (vt dz s) (st dz s) (bt dz s)); auto.
  - intros i l Hi Hl. destruct (H i Hi) as [[B _] _]. apply B. auto.
  - intros i Hi. destruct (H i Hi) as [_ [D _]]. exact D.
  - intros i l Hi Hl. destruct (H i Hi) as [_ [_ D]]. apply D. auto.
Qed.

Lemma zsteps_independent z z' : zsteps z z' -> rows_independent (gc z) (gb z) -> rows_independent (gc z) (gb z').
Proof.
  intros H. induction H as [z' E1 _ _ _|z1 z2 H1 IH [e [F [EO [EM _]]]]|z1 z2 H1 IH E1 _ _ _]; intros HI.
  - rewrite E1. auto.
  - eapply eff_independent; eauto.
  - rewrite E1. auto.
Qed.

(** A successful run returns a basis with an R-factor that is reduced with the
    parameters (delta, delta, theta), whatever x / 0 is, whatever the memory held
    before and with or without row exponents. *)
Theorem hlll_success_reduced :
  forall dz (row_expo : bool) (P : hpar (r_hops dz)) fuel srfuel junk b c u ui force_long x,
    valid_input b c u ui -> (2 <= length b <= c)%nat ->
    hlll (r_hops dz) row_expo P fuel srfuel junk (house_new (r_hops dz) junk b c u ui force_long) = Some (x, HSuccess) ->
    exists r, r_factor c (out_b x) r /\
      hlll_reduced (p_delta _ P) (p_delta _ P) (p_theta _ P) (length b) r.
Proof.
  intros dz ee P fuel srfuel junk b c u ui fl x HV HD E.
  destruct (hlll_K (r_hops dz) ee P fuel srfuel junk b c u ui fl HD) as [x0 [o0 [E0 [D [K _ _]]]]].
  { apply valid_input_inv; auto. } { apply HV. }
  assert (x0 = x) by (rewrite E in E0; injection E0; auto). subst x0. clear E0 o0.
  destruct K as [_ _ _ St]. destruct (zsteps_lattice _ _ St) as [L1 _].
  unfold hlll in E.
  destruct (init_real dz ee (length b) c (proj2 HD) (gso_new b c u ui false fl) P junk (house_new (r_hops dz) junk b c u ui fl))
    as [x0 [v0 [E0 H0]]]; try lia.
  { apply house_new_K; try lia; [apply valid_input_inv; auto|apply HV]. }
  { reflexivity. }
  { intros i. unfold et, house_new. cbn [hre]. destruct (le_lt_dec (length b) i).
    - apply nth_overflow. rewrite repeat_length. auto.
    - apply nth_repeat_lt. auto. }
  rewrite E0 in E. cbn [obind fst snd] in E.
  apply (loop_real dz ee (length b) c (proj2 HD) (gso_new b c u ui false fl)) in E; auto.
  exists (rfac dz (lm _ x)). split.
  - apply (rfac_r_factor dz (length b) c); [apply HD| |].
    + exact L1.
    + intros i Hi. destruct (E i Hi) as [A [B _]]. auto.
  - split.
    + intros i j Hij. destruct (E i) as [_ [_ [A _]]]; [lia|]. specialize (A j ltac:(lia)).
      unfold rfac, tri. rewrite !Nat.leb_refl, (proj2 (Nat.leb_le j i)) by lia. exact A.
    + intros i Hi. destruct (E (S i) Hi) as [_ [_ [_ A]]]. specialize (A i eq_refl).
      unfold rfac, tri. rewrite !Nat.leb_refl, (proj2 (Nat.leb_le i (S i))) by lia. exact A.
Qed.

(** For independent rows the basis returned has exactly one R-factor; so every
    R-factor of it is reduced. *)
Theorem hlll_success_reduced_independent :
  forall dz (row_expo : bool) (P : hpar (r_hops dz)) fuel srfuel junk b c u ui force_long x r,
    valid_input b c u ui -> (2 <= length b <= c)%nat -> rows_independent c b ->
    hlll (r_hops dz) row_expo P fuel srfuel junk (house_new (r_hops dz) junk b c u ui force_long) = Some (x, HSuccess) ->
    r_factor c (out_b x) r ->
    (forall i, (i < length b)%nat -> 0 < r i i) /\
    hlll_reduced (p_delta _ P) (p_delta _ P) (p_theta _ P) (length b) r.
Proof.
  intros dz ee P fuel srfuel junk b c u ui fl x r HV HD HI E F.
  destruct (hlll_K (r_hops dz) ee P fuel srfuel junk b c u ui fl HD) as [x0 [o0 [E0 [D [K _ _]]]]].
  { apply valid_input_inv; auto. } { apply HV. }
  assert (x0 = x) by (rewrite E in E0; injection E0; auto). subst x0. clear E0 o0.
  destruct K as [_ _ _ St]. destruct (zsteps_lattice _ _ St) as [L1 _].
  assert (LB : length (out_b x) = length b) by exact L1.
  assert (I1 : rows_independent c (out_b x)) by (apply (zsteps_independent _ _ St); exact HI).
  pose proof (r_factor_positive c (out_b x) r I1 F) as PR. rewrite LB in PR. split; auto.
  destruct (hlll_success_reduced dz ee P fuel srfuel junk b c u ui fl x HV HD E) as [r0 [F0 [H1 H2]]].
  assert (U : forall i j, (i < length b)%nat -> r0 i j = r i j).
  { intros i j Hi. apply (r_factor_unique c (out_b x)); auto; rewrite ?LB; auto. }
  split.
  - intros i j Hij. rewrite <- !U by lia. apply H1. auto.
  - intros i Hi. rewrite <- !U by lia. apply H2. auto.
Qed.

(** ** instance: the rows (3, 0), (7, 3) are reduced to (3, 0), (1, 3); evaluated
    with exact real numbers *)
Section E.
Variable dz : R -> R.
Notation ho := (r_hops dz).
Definition exh_P : hpar ho := mkhpar ho (99 / 100) (51 / 100) (1 / 1000).
Definition exh_b : list (list Z) := [[3; 0]; [7; 3]]%Z.

(** evaluation of one call; comparisons of numbers are decided one by one *)
Ltac num := rewrite ?p2_0; try (rewrite Rabs_pos_eq by lra); lra.
Ltac dec1 X := match type of X with
  | context[rlt ?a ?b] => first [rewrite (proj2 (rlt_true a b)) in X by num | rewrite (proj2 (rlt_false a b)) in X by num]
  | context[req ?a ?b] => first [rewrite (proj2 (req_true a b)) in X by num | rewrite (proj2 (req_false a b)) in X by num]
  | context[sqrt ?a] => replace (sqrt a) with 3 in X by (symmetry; apply sqrt_lem_1; num)
  | context[Znearest ?f ?a] => rewrite (Znearest_imp f a 2) in X by (apply Rabs_def1; num)
  | context[Znearest ?f ?a] => rewrite (Znearest_imp f a 0) in X by (apply Rabs_def1; num)
  | context[Ztrunc ?a] => replace (Ztrunc a) with (-2)%Z in X by (rewrite <- (Ztrunc_IZR (-2)); f_equal; num)
  end.
Ltac call c :=
  let t := eval cbv -[Rplus Rmult Ropp Rminus Rdiv Rinv sqrt Rabs rlt req IZR p2 Znearest Ztrunc] in c in
  let X := fresh in assert (X : c = t) by reflexivity;
  repeat (dec1 X; cbv beta iota in X); rewrite X; clear X; cbn [obind fst snd lm negb].

Example exh_run : exists x,
  hlll ho false exh_P 3 3 0 (house_new ho 0 exh_b 2 [] [] false) = Some (x, HSuccess) /\
  out_b x = [[3; 0]; [1; 3]]%Z.
Proof.
  unfold hlll, hlll_init.
  match goal with |- context[refresh_R_bf ho false ?s 0] => call (refresh_R_bf ho false s 0) end.
  match goal with |- context[update_R_last ho ?s 0] => call (update_R_last ho s 0) end.
  match goal with |- context[compute_dR ho exh_P ?s 0] => call (compute_dR ho exh_P s 0) end.
  match goal with |- context[compute_eR ho exh_P ?s 0] => call (compute_eR ho exh_P s 0) end.
  match goal with |- context[refresh_R_bf ho false ?s 1] => call (refresh_R_bf ho false s 1) end.
  cbn [hlll_loop l_setm]. unfold hlll_iter at 1. unfold size_reduction. cbn [lm vk].
  match goal with |- context[update_R ho ?s 1 false] => call (update_R ho s 1 false) end.
  cbn [size_reduction_loop].
  match goal with |- context[size_reduce ho ?s 1 1 0] => call (size_reduce ho s 1 1 0) end.
  cbn [nth_error obind hnb hnbe negb].
  match goal with |- context[refresh_R_bf ho false ?s 1] => call (refresh_R_bf ho false s 1) end.
  cbn [nth_error obind hnb hnbe negb].
  match goal with |- context[update_R ho ?s 1 false] => call (update_R ho s 1 false) end.
  cbn [orb].
  match goal with |- context[size_reduce ho ?s 1 1 0] => call (size_reduce ho s 1 1 0) end.
  match goal with |- context[verify_size_reduction ho false exh_P ?s 1] => call (verify_size_reduction ho false exh_P s 1) end.
  match goal with |- context[lovasz_test ho false ?s 1] => call (lovasz_test ho false s 1) end.
  unfold hlll_advance. cbn [vk lm l_setm].
  match goal with |- context[update_R_last ho ?s 1] => call (update_R_last ho s 1) end.
  match goal with |- context[compute_dR ho exh_P ?s 1] => call (compute_dR ho exh_P s 1) end.
  match goal with |- context[compute_eR ho exh_P ?s 1] => call (compute_eR ho exh_P s 1) end.
  cbv -[Rplus Rmult Ropp Rminus Rdiv Rinv sqrt Rabs rlt req IZR p2 Znearest Ztrunc].
  eexists. split; reflexivity.
Qed.

Example exh_input : valid_input exh_b 2 [] [] /\ (2 <= length exh_b <= 2)%nat /\ rows_independent 2 exh_b.
Proof.
  split; [|split; [cbn; lia|]].
  - constructor; auto. intros i Hi. cbn in Hi. destruct i as [|[|i]]; auto; lia.
  - intros a Ha. pose proof (Ha 0%nat ltac:(lia)) as H0. pose proof (Ha 1%nat ltac:(lia)) as H1.
    cbn in H0, H1. intros i Hi. cbn in Hi. destruct i as [|[|i]]; [lra|lra|lia].
Qed.

(** the R-factor of the result; |1| <= 0.99 * 3 + 0.001 * 3 and 0.99 * 9 <= 1 + 9 *)
Definition exh_r (i j : nat) : R :=
  match i, j with 0%nat, 0%nat => 3 | 1%nat, 0%nat => 1 | 1%nat, 1%nat => 3 | _, _ => 0 end.
Example exh_r_factor : r_factor 2 [[3; 0]; [1; 3]]%Z exh_r /\ hlll_reduced (99 / 100) (99 / 100) (1 / 1000) 2 exh_r.
Proof.
  split; [constructor|split].
  - intros [|[|i]] [|[|j]] H; cbn; auto; lia.
  - intros [|[|i]] H; cbn in *; try lra; lia.
  - intros i j Hi Hj. cbn in Hi, Hj. destruct i as [|[|i]]; [| |lia]; destruct j as [|[|j]]; try lia; unfold rsum; cbn; lra.
  - intros i j H. assert (i = 1%nat /\ j = 0%nat) as [-> ->] by lia. cbn. rewrite Rabs_pos_eq by lra. lra.
  - intros i H. assert (i = 0%nat) as -> by lia. cbn. lra.
Qed.
End E.

Print Assumptions hlll_success_reduced.
Print Assumptions hlll_success_reduced_independent.
Print Assumptions r_factor_unique.
