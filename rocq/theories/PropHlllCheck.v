(** C64: is_hlll_reduced (hlll.cpp:506-586). *)
From Coq Require Import List ZArith Reals Lra Lia Arith Bool.
From Verif Require Import Util LatticeSpec NumVectModel MatrixModel MatrixProofs GsoModel GsoFModel GsoProofs PropGso
  HouseModel HouseProofs HouseReal HouseRun HlllRun HlllSpec HlllSpecFacts HlllCheckModel NaiveReal PropHlll PropHlllExact MpfrModel.
Import ListNotations.
Local Open Scope R_scope.

(** Without row exponents, in exact arithmetic: the answer is whether the
    R-factor is reduced, with the given eta. *)
Theorem is_hlll_reduced_exact :
  forall dz (P : hpar (r_hops dz)) junk b c, rect c b -> (length b <= c)%nat ->
    exists r ok, r_factor c b r /\ is_hlll_reduced (r_hops dz) false P junk b c = Some ok /\
      (ok = true <-> hlll_reduced (p_delta _ P) (p_eta _ P) (p_theta _ P) (length b) r).
Proof.
  intros dz P junk b c HB HD.
  destruct (is_hlll_reduced_real dz false b c HD HB P junk) as [r [ok [F [E Q]]]].
  exists r, ok. split; auto. split; auto. rewrite Q. unfold hlll_reduced. apply and_iff_compat_l.
  unfold lovasz_expo, r_lovasz, ebit. cbn [Z.sub Z.opp Z.add Z.mul]. rewrite p2_0.
  split; intros H i Hi; specialize (H i Hi); lra.
Qed.

Lemma hlll_reduced_ext delta eta theta d r r' : (forall i j, (i < d)%nat -> r i j = r' i j) ->
  hlll_reduced delta eta theta d r -> hlll_reduced delta eta theta d r'.
Proof.
  intros H [A B]. split.
  - intros i j Hij. rewrite <- !H by lia. apply A. auto.
  - intros i Hi. rewrite <- !H by lia. apply B. auto.
Qed.

(** For independent rows this is reducedness of the basis: it holds for the
    R-factor exactly if it holds for any. *)
Theorem is_hlll_reduced_exact_independent :
  forall dz (P : hpar (r_hops dz)) junk b c, rect c b -> (length b <= c)%nat -> rows_independent c b ->
    exists ok, is_hlll_reduced (r_hops dz) false P junk b c = Some ok /\
      forall r, r_factor c b r ->
        (ok = true <-> hlll_reduced (p_delta _ P) (p_eta _ P) (p_theta _ P) (length b) r).
Proof.
  intros dz P junk b c HB HD HI.
  destruct (is_hlll_reduced_exact dz P junk b c HB HD) as [r0 [ok [F0 [E Q]]]]. exists ok. split; auto.
  intros r F.
  assert (U : forall i j, (i < length b)%nat -> r0 i j = r i j).
  { intros i j Hi. apply (r_factor_unique c b); auto. apply r_factor_positive with c; auto. }
  rewrite Q. split; apply hlll_reduced_ext; auto. intros; symmetry; auto.
Qed.

(** so a basis returned by a successful run of hlll is accepted when the check
    is given delta in the place of eta *)
Theorem is_hlll_reduced_after_hlll :
  forall dz (row_expo : bool) delta eta theta fuel srfuel junk junk' b c u ui force_long x,
    valid_input b c u ui -> (2 <= length b <= c)%nat -> rows_independent c b ->
    hlll (r_hops dz) row_expo (mkhpar (r_hops dz) delta eta theta) fuel srfuel junk
      (house_new (r_hops dz) junk b c u ui force_long) = Some (x, HSuccess) ->
    is_hlll_reduced (r_hops dz) false (mkhpar (r_hops dz) delta delta theta) junk' (out_b x) c = Some true.
Proof.
  intros dz ee delta eta theta fuel srfuel junk junk' b c u ui fl x HV HD HI E.
  destruct (hlll_preserves_lattice (r_hops dz) ee (mkhpar (r_hops dz) delta eta theta) fuel srfuel junk b c u ui fl HV HD)
    as [x0 [o [E0 [L [RC _]]]]].
  assert (x0 = x) by (rewrite E in E0; injection E0; auto). subst x0.
  destruct (is_hlll_reduced_exact dz (mkhpar (r_hops dz) delta delta theta) junk' (out_b x) c RC) as [r [ok [F [E1 Q]]]]; [lia|].
  rewrite E1. f_equal. apply Q. rewrite L.
  apply (hlll_success_reduced_independent dz ee (mkhpar (r_hops dz) delta eta theta) fuel srfuel junk b c u ui fl x r); auto.
Qed.

(** ** with row exponents *)

(** number of bits of the largest entry of a row *)
Definition row_bits (v : list Z) : Z :=
  fold_right Z.max 0%Z (map (fun z => if (z =? 0)%Z then 0 else Z.log2 (Z.abs z) + 1)%Z v).

Lemma max_expo_bits v : max_expo (map bits v) = row_bits v.
Proof.
  assert (G : forall l m, (0 <= m)%Z -> fold_left Z.max (map bits l) m = Z.max m (row_bits l)).
  { induction l as [|z l IH]; intros m Hm; cbn [map fold_left].
    - unfold row_bits. cbn. lia.
    - rewrite IH by lia. unfold row_bits. cbn [map fold_right]. fold (bits z).
      change (fun z0 : Z => if (z0 =? 0)%Z then 0%Z else (Z.log2 (Z.abs z0) + 1)%Z) with bits. lia. }
  destruct v as [|z v]; [reflexivity|]. cbn [map max_expo].
  assert (B : (0 <= bits z)%Z) by (unfold bits; destruct (z =? 0)%Z; [lia|pose proof (Z.log2_nonneg (Z.abs z)); lia]).
  rewrite G by auto. unfold row_bits. cbn [map fold_right]. reflexivity.
Qed.

(** The size-reduction test is right; the Lovasz test multiplies r_{i+1,i}^2 by
    4^(e_i - e_{i+1}), where e_i is the number of bits of row i. *)
Theorem is_hlll_reduced_row_expo :
  forall dz (P : hpar (r_hops dz)) junk b c, rect c b -> (length b <= c)%nat ->
    exists r ok, r_factor c b r /\ is_hlll_reduced (r_hops dz) true P junk b c = Some ok /\
      (ok = true <->
       weakly_size_reduced (p_eta _ P) (p_theta _ P) (length b) r /\
       forall i, (S i < length b)%nat ->
         p_delta _ P * (r i i * r i i) <=
         r (S i) i * r (S i) i * powerRZ 2 (2 * (row_bits (nth i b []) - row_bits (nth (S i) b []))) +
         r (S i) (S i) * r (S i) (S i)).
Proof.
  intros dz P junk b c HB HD.
  destruct (is_hlll_reduced_real dz true b c HD HB P junk) as [r [ok [F [E Q]]]].
  exists r, ok. split; auto. split; auto. rewrite Q. apply and_iff_compat_l.
  unfold lovasz_expo, ebit, p2. split; intros H i Hi; specialize (H i Hi); rewrite !max_expo_bits in *; exact H.
Qed.

(** it is right when consecutive rows have the same number of bits *)
Theorem is_hlll_reduced_row_expo_same_bits :
  forall dz (P : hpar (r_hops dz)) junk b c, rect c b -> (length b <= c)%nat ->
    (forall i, (S i < length b)%nat -> row_bits (nth i b []) = row_bits (nth (S i) b [])) ->
    exists r ok, r_factor c b r /\ is_hlll_reduced (r_hops dz) true P junk b c = Some ok /\
      (ok = true <-> hlll_reduced (p_delta _ P) (p_eta _ P) (p_theta _ P) (length b) r).
Proof.
  intros dz P junk b c HB HD HS.
  destruct (is_hlll_reduced_row_expo dz P junk b c HB HD) as [r [ok [F [E Q]]]].
  exists r, ok. split; auto. split; auto. rewrite Q. unfold hlll_reduced. apply and_iff_compat_l.
  split; intros H i Hi; specialize (H i Hi); rewrite (HS i Hi), Z.sub_diag in *; cbn [Z.mul powerRZ] in *; lra.
Qed.

(** An accepted basis that violates the Lovasz condition: |b_1|^2 = 52 < 0.99 * 64 *)
Theorem is_hlll_reduced_row_expo_accepts_refuted :
  exists b, rect 2 b /\ length b = 2%nat /\
    is_hlll_reduced (mpfr_hops 53) true (mpfr_default 53) (0, 0)%Z b 2 = Some true /\
    forall r, r_factor 2 b r -> ~ hlll_reduced (99 / 100) (51 / 100) (1 / 1000) 2 r.
Proof.
  exists [[8; 0]; [4; 6]]%Z. split; [|split; [reflexivity|split; [vm_compute; reflexivity|]]].
  - intros i Hi. cbn in Hi. destruct i as [|[|i]]; auto; lia.
  - intros r [L _ G] [_ H]. specialize (H 0%nat ltac:(lia)).
    pose proof (G 0%nat 0%nat ltac:(cbn; lia) ltac:(cbn; lia)) as G0.
    pose proof (G 1%nat 1%nat ltac:(cbn; lia) ltac:(cbn; lia)) as G1.
    unfold rsum in G0, G1. cbn in G0, G1. rewrite (L 0%nat 1%nat) in G0 by lia. lra.
Qed.

(** A reduced basis that is rejected *)
Theorem is_hlll_reduced_row_expo_rejects_refuted :
  exists b, rect 4 b /\ length b = 2%nat /\
    is_hlll_reduced (mpfr_hops 53) true (mpfr_default 53) (0, 0)%Z b 4 = Some false /\
    forall r, r_factor 4 b r -> hlll_reduced (99 / 100) (51 / 100) (1 / 1000) 2 r.
Proof.
  exists [[7; 7; 7; 7]; [14; 0; 0; 0]]%Z. split; [|split; [reflexivity|split; [vm_compute; reflexivity|]]].
  - intros i Hi. cbn in Hi. destruct i as [|[|i]]; auto; lia.
  - intros r [L P G].
    pose proof (G 0%nat 0%nat ltac:(cbn; lia) ltac:(cbn; lia)) as G0.
    pose proof (G 1%nat 0%nat ltac:(cbn; lia) ltac:(cbn; lia)) as G1.
    pose proof (G 1%nat 1%nat ltac:(cbn; lia) ltac:(cbn; lia)) as G2.
    unfold rsum in G0, G1, G2. cbn in G0, G1, G2. rewrite (L 0%nat 1%nat) in G0, G1 by lia.
    pose proof (P 0%nat ltac:(cbn; lia)) as P0. pose proof (P 1%nat ltac:(cbn; lia)) as P1.
    assert (R0 : r 0%nat 0%nat = 14) by nra. rewrite R0 in *.
    assert (R1 : r 1%nat 0%nat = 7) by lra. rewrite R1 in *.
    split.
    + intros i j Hij. assert (i = 1%nat /\ j = 0%nat) as [-> ->] by lia. rewrite R0, R1, Rabs_pos_eq by lra. nra.
    + intros i Hi. assert (i = 0%nat) as -> by lia. rewrite R0, R1. lra.
Qed.

(** the same two bases without row exponents *)
Example ex64_accepts : is_hlll_reduced (mpfr_hops 53) false (mpfr_default 53) (0, 0)%Z [[8; 0]; [4; 6]]%Z 2 = Some false.
Proof. vm_compute; reflexivity. Qed.
Example ex64_rejects : is_hlll_reduced (mpfr_hops 53) false (mpfr_default 53) (0, 0)%Z [[7; 7; 7; 7]; [14; 0; 0; 0]]%Z 4 = Some true.
Proof. vm_compute; reflexivity. Qed.

(** instances: a run that ends with success, followed by the check; a basis
    rejected; rows with the same number of bits *)
Example ex64_run dz : exists x : hl (r_hops dz),
  out_b x = [[3; 0]; [1; 3]]%Z /\
  is_hlll_reduced (r_hops dz) false (mkhpar (r_hops dz) (99 / 100) (99 / 100) (1 / 1000)) 0 (out_b x) 2 = Some true.
Proof.
  destruct (exh_run dz) as [x [E B]]. exists x. split; auto. destruct exh_input as [V [D I]].
  eapply (is_hlll_reduced_after_hlll dz false (99 / 100) (51 / 100) (1 / 1000)); eauto.
Qed.
Example ex64_reject dz : is_hlll_reduced (r_hops dz) false (mkhpar (r_hops dz) (99 / 100) (51 / 100) (1 / 1000)) 0 exh_b 2 = Some false.
Proof.
  destruct exh_input as [V [D I]].
  destruct (is_hlll_reduced_exact_independent dz (mkhpar (r_hops dz) (99 / 100) (51 / 100) (1 / 1000)) 0 exh_b 2) as [ok [E Q]]; auto; try lia.
  { apply V. }
  rewrite E. f_equal. destruct ok; auto. exfalso.
  set (r := fun i j : nat => match i, j with 0%nat, 0%nat => 3 | 1%nat, 0%nat => 7 | 1%nat, 1%nat => 3 | _, _ => 0 end).
  assert (F : r_factor 2 exh_b r).
  { constructor.
    - intros [|[|i]] [|[|j]] H; cbn; auto; lia.
    - intros [|[|i]] H; cbn in *; try lra; lia.
    - intros i j Hi Hj. cbn in Hi, Hj. destruct i as [|[|i]]; [| |lia]; destruct j as [|[|j]]; try lia; unfold rsum; cbn; lra. }
  apply Q in F. destruct (proj1 F eq_refl) as [S _]. specialize (S 1%nat 0%nat ltac:(cbn; lia)). cbn in S.
  rewrite Rabs_pos_eq in S by lra. lra.
Qed.
Example ex64_bits : row_bits [7; -3]%Z = row_bits [0; 4]%Z /\ row_bits [8; 0]%Z = 4%Z /\ row_bits [4; 6]%Z = 3%Z.
Proof. vm_compute. auto. Qed.

Print Assumptions is_hlll_reduced_after_hlll.
Print Assumptions is_hlll_reduced_row_expo_same_bits.
Print Assumptions is_hlll_reduced_row_expo_accepts_refuted.
