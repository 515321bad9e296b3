(** C49: the relative volume of a bounding profile is a probability and
    monotone.  C60: so is the success probability derived from it. *)
From Coq Require Import List Reals Arith Bool Lia Lra.
From Coquelicot Require Import Coquelicot.
From Verif Require Import Util MatrixModel MatrixProofs PrunerModel PruneVolModel PruneVolProofs.
From Verif Require PropPruner.
Import ListNotations.
Local Open Scope R_scope.

(** ** Spec *)

(** entry [i] *)
Definition en (b : list R) (i : nat) : R := nth i b 0.

(** the first [d] entries are positive and non-decreasing *)
Definition profile (d : nat) (b : list R) : Prop :=
  (d <= length b)%nat /\
  (forall i, (i < d)%nat -> 0 < en b i) /\
  (forall i, (S i < d)%nat -> en b i <= en b (S i)).

(** [b'] allows at least what [b] allows *)
Definition relaxed (d : nat) (b b' : list R) : Prop := forall i, (i < d)%nat -> en b i <= en b' i.

(** the volume of all (y_0,...,y_(d-1)) with 0 <= y_0 <= ... <= y_(d-1) and
    y_i <= b_i / b_(d-1), relative to the volume without the second condition
    (1/d!) is [INR (fact d) * simplex_vol (ratios d b) 0] *)

(** ** Facts *)
Lemma div_le_1 x y : 0 < y -> x <= y -> x / y <= 1.
Proof.
  intros H H1. apply Rmult_le_reg_r with y; auto. unfold Rdiv. rewrite Rmult_assoc, Rinv_l by lra. lra.
Qed.

Lemma profile_le d b : profile d b -> forall i k, (i <= k < d)%nat -> en b i <= en b k.
Proof.
  intros (L & P & M) i k. revert i. induction k as [|k IH]; intros i H.
  - replace i with 0%nat by lia. lra.
  - destruct (Nat.eq_dec i (S k)) as [->|N]; [lra|]. specialize (IH i ltac:(lia)). specialize (M k ltac:(lia)). lra.
Qed.

Lemma above_of (l : list R) : forall x,
  (forall i, (i < length l)%nat -> x <= nth i l 0) ->
  (forall i, (S i < length l)%nat -> nth i l 0 <= nth (S i) l 0) -> above x l.
Proof.
  induction l as [|a l IH]; intros x H M; cbn; auto. split.
  - apply (H 0%nat). simpl. lia.
  - assert (C : forall i, (i < length l)%nat -> a <= nth i l 0).
    { induction i as [|i IHi]; intros Hi.
      - apply (M 0%nat). simpl. lia.
      - specialize (IHi ltac:(lia)). specialize (M (S i)). cbn [length nth] in M. specialize (M ltac:(lia)). lra. }
    apply IH; auto. intros i Hi. apply (M (S i)). simpl. lia.
Qed.

Lemma ratios_length d b : (d <= length b)%nat -> length (ratios d b) = d.
Proof. intros H. unfold ratios. rewrite map_length, firstn_length. lia. Qed.

Lemma nth_map0 (f : R -> R) (l : list R) i : (i < length l)%nat -> nth i (map f l) 0 = f (nth i l 0).
Proof. intros H. rewrite (nth_indep _ 0 (f 0)) by (rewrite map_length; auto). apply map_nth. Qed.

Lemma ratios_nth d b i : (i < d)%nat -> (d <= length b)%nat -> nth i (ratios d b) 0 = en b i / en b (d - 1).
Proof.
  intros Hi L. unfold ratios. rewrite nth_map0 by (rewrite firstn_length; lia).
  rewrite nth_firstn_ltR by lia. reflexivity.
Qed.

Lemma ratios_range d b i : profile d b -> (i < d)%nat -> 0 < nth i (ratios d b) 0 <= 1.
Proof.
  intros Pb Hi. pose proof Pb as (L & P & M). rewrite ratios_nth by auto.
  pose proof (profile_le d b Pb i (d - 1) ltac:(lia)). pose proof (P i Hi). pose proof (P (d - 1)%nat ltac:(lia)).
  split; [apply Rdiv_lt_0_compat; auto|]. apply div_le_1; assumption.
Qed.

Lemma ratios_above d b x : profile d b -> x <= 0 -> above x (ratios d b).
Proof.
  intros Pb Hx. pose proof Pb as (L & P & M). apply above_of; rewrite ratios_length by auto; intros i Hi.
  - pose proof (ratios_range d b i Pb Hi). lra.
  - rewrite !ratios_nth by (auto; lia). pose proof (P (d - 1)%nat ltac:(lia)).
    apply Rmult_le_compat_r; [|apply M; auto]. left. apply Rinv_0_lt_compat. auto.
Qed.

Lemma Forall2_of (l1 l2 : list R) : length l1 = length l2 ->
  (forall i, (i < length l1)%nat -> nth i l1 0 <= nth i l2 0) -> le_all l1 l2.
Proof.
  revert l2. induction l1 as [|a l1 IH]; intros [|b l2] L H; try discriminate; constructor.
  - apply (H 0%nat). simpl. lia.
  - apply IH; [simpl in L; lia|]. intros i Hi. apply (H (S i)). simpl. lia.
Qed.

Lemma nth_ones i d : (i < d)%nat -> nth i (repeat 1 d) 0 = 1.
Proof. revert i. induction d as [|d IH]; intros [|i] H; try lia; cbn; auto. apply IH. lia. Qed.

Lemma ones_above d x : x <= 1 -> above x (repeat 1 d).
Proof. revert x. induction d as [|d IH]; intros x H; cbn; auto. split; auto. apply IH. lra. Qed.

Lemma ratios_le_ones d b : profile d b -> le_all (ratios d b) (repeat 1 d).
Proof.
  intros Pb. pose proof Pb as (L & _). apply Forall2_of; rewrite ratios_length by auto; [now rewrite repeat_length|].
  intros i Hi. rewrite nth_ones by auto. apply (ratios_range d b i Pb Hi).
Qed.

Lemma fact_pos d : 0 < INR (fact d).
Proof. apply INR_fact_lt_0. Qed.

Lemma vol_ones0 d : INR (fact d) * simplex_vol (repeat 1 d) 0 = 1.
Proof. rewrite vol_ones, Rminus_0_r, pow1. pose proof (fact_pos d). field. lra. Qed.

Lemma vol_le_1 d ts : length ts = d -> above 0 ts -> (forall t, In t ts -> t <= 1) ->
  INR (fact d) * simplex_vol ts 0 <= 1.
Proof.
  intros L A H. rewrite <- (vol_ones0 d). apply Rmult_le_compat_l; [left; apply fact_pos|].
  apply vol_mono; auto; [|apply ones_above; lra]. apply Forall2_of; [now rewrite repeat_length|].
  intros i Hi. rewrite nth_ones by lia. apply H. apply nth_In. auto.
Qed.

(** ** C49: relative_volume computes the relative volume, an iterated integral;
    for every profile it is positive and at most one *)
Theorem relative_volume_probability P0 d b :
  length P0 = S d -> profile d b ->
  exists v, relative_volume P0 d b = Some v /\
    v = INR (fact d) * simplex_vol (ratios d b) 0 /\ 0 < v <= 1.
Proof.
  intros L0 Pb. pose proof Pb as (L & _). eexists. split; [apply relative_volume_is; auto|]. split; [reflexivity|].
  split.
  - apply Rmult_lt_0_compat; [apply fact_pos|]. apply vol_pos; [|apply ratios_above; auto; lra].
    intros t Ht. apply (In_nth _ _ 0) in Ht. destruct Ht as (i & Hi & <-). rewrite ratios_length in Hi by auto.
    apply (ratios_range d b i Pb Hi).
  - apply vol_le_1; [apply ratios_length; auto|apply ratios_above; auto; lra|].
    intros t Ht. apply (In_nth _ _ 0) in Ht. destruct Ht as (i & Hi & <-). rewrite ratios_length in Hi by auto.
    apply (ratios_range d b i Pb Hi).
Qed.

(** ** C49: exactly one for constant profiles, in particular all ones *)
Theorem relative_volume_ones P0 d c :
  length P0 = S d -> 0 < c -> relative_volume P0 d (repeat c d) = Some 1.
Proof.
  intros L0 Hc. rewrite relative_volume_is by (auto; rewrite repeat_length; lia). f_equal.
  replace (ratios d (repeat c d)) with (repeat 1 d); [apply vol_ones0|].
  apply (nth_ext _ _ 0 0).
  - rewrite ratios_length; rewrite !repeat_length; auto.
  - intros i Hi. rewrite repeat_length in Hi. rewrite ratios_nth by (auto; rewrite repeat_length; auto).
    assert (E : forall k, (k < d)%nat -> en (repeat c d) k = c).
    { intros k Hk. unfold en. rewrite (nth_indep _ 0 c) by (rewrite repeat_length; auto). apply nth_repeat. }
    rewrite !E, nth_ones by lia. field. lra.
Qed.

(** ** C49: relaxing bounds does not decrease the relative volume as long as the
    last bound (the radius the others are relative to) stays *)
Theorem relative_volume_monotone P0 d b b' v v' :
  length P0 = S d -> profile d b -> profile d b' -> relaxed d b b' -> en b (d - 1) = en b' (d - 1) ->
  relative_volume P0 d b = Some v -> relative_volume P0 d b' = Some v' -> v <= v'.
Proof.
  intros L0 Pb Pb' R E E1 E2. pose proof Pb as (L & P & _). pose proof Pb' as (L' & _).
  rewrite relative_volume_is in E1, E2 by auto. injection E1 as <-. injection E2 as <-.
  apply Rmult_le_compat_l; [left; apply fact_pos|].
  apply vol_mono; try (apply ratios_above; auto; lra).
  apply Forall2_of; rewrite !ratios_length by auto; auto.
  intros i Hi. rewrite !ratios_nth by auto. rewrite E. apply Rmult_le_compat_r; [|apply R; auto].
  left. apply Rinv_0_lt_compat. rewrite <- E. apply P. lia.
Qed.

(** profiles by enumeration, for the cases below *)
Ltac prof := split; [simpl; lia|]; split; intros i Hi;
  repeat (destruct i as [|i]; [cbn; lra|]); exfalso; simpl in Hi; lia.

Lemma vol2 x y : simplex_vol [x; y] 0 = x * y - x * x / 2.
Proof. rewrite simplex_vol_poly. cbn. field. Qed.

Lemma vol3 x y z : simplex_vol [x; y; z] 0 = x * (y * z - y * y / 2) - x * x * z / 2 + x * x * x / 6.
Proof. rewrite simplex_vol_poly. cbn. field. Qed.

(** a non-trivial profile *)
Example relative_volume_case :
  profile 3 [1/4; 1/2; 1] /\ relative_volume [0;0;0;0] 3 [1/4; 1/2; 1] = Some (25/64).
Proof.
  split; [prof|]. rewrite relative_volume_is by (simpl; lia). f_equal. unfold ratios. cbn [firstn map nth Nat.sub].
  rewrite vol3. simpl fact. simpl INR. field.
Qed.

(** C49: without that condition relaxing a bound can decrease the relative
    volume *)
Theorem relative_volume_monotone_refuted :
  exists P0 d b b' v v', length P0 = S d /\ profile d b /\ profile d b' /\ relaxed d b b' /\
    relative_volume P0 d b = Some v /\ relative_volume P0 d b' = Some v' /\ v' < v.
Proof.
  exists [0;0;0], 2%nat, [1/2; 1/2], [1/2; 1], 1, (3/4).
  split; [reflexivity|]. split; [prof|]. split; [prof|]. split.
  { intros i Hi. destruct i as [|[|i]]; cbn; try lra; lia. }
  rewrite !relative_volume_is by (simpl; lia). unfold ratios. cbn [firstn map nth Nat.sub].
  rewrite !vol2. simpl fact. simpl INR. split; [f_equal; field|]. split; [f_equal; field|lra].
Qed.

(** C49: a profile that is not non-decreasing can give a negative "volume" *)
Theorem relative_volume_decreasing_refuted :
  exists P0 d b v, length P0 = S d /\ (d <= length b)%nat /\ (forall i, (i < d)%nat -> 0 < en b i) /\
    relative_volume P0 d b = Some v /\ v < 0.
Proof.
  exists [0;0;0], 2%nat, [1; 1/4], (-8).
  split; [reflexivity|]. split; [simpl; lia|]. split.
  { intros i Hi. destruct i as [|[|i]]; cbn; try lra; lia. }
  rewrite !relative_volume_is by (simpl; lia). unfold ratios. cbn [firstn map nth Nat.sub].
  rewrite !vol2. simpl fact. simpl INR. split; [f_equal; field|lra].
Qed.

(** ** C60: the success probability *)
Section Prob.
  Variable dx : R.
  Hypothesis dx_ok : 0 < dx < 1.
  Variable fresh : nat -> list R.
  Hypothesis fresh_ok : forall d, length (fresh d) = S d.
  Notation evec := (svp_probability_evec dx fresh).
  Notation prob := (svp_probability dx fresh).

  Let s := dx * dx.

  Lemma s_ok : 0 < s < 1.
  Proof. unfold s. nra. Qed.

  Lemma dxn d : dx ^ (2 * d) = s ^ d.
  Proof. rewrite pow_mult. unfold s. f_equal. simpl. ring. Qed.

  Lemma sd_lt d : (0 < d)%nat -> 0 < s ^ d < 1.
  Proof.
    intros H. pose proof s_ok. split; [apply pow_lt; lra|].
    replace 1 with (1 ^ d) by apply pow1. clear - H H0. destruct d as [|d]; [lia|]. clear H.
    induction d as [|d IH]; [simpl; lra|]. change (s ^ S (S d)) with (s * s ^ S d). change (1 ^ S (S d)) with (1 * 1 ^ S d).
    assert (0 < s ^ S d) by (apply pow_lt; lra). apply Rmult_gt_0_lt_compat; auto; lra.
  Qed.

  (** the ratio that the shell has with respect to the last bound *)
  Definition rel (L : R) : R := Rmin (s / L) 1.

  Lemma rel_ok L : 0 < L <= 1 -> s <= rel L <= 1.
  Proof.
    intros H. pose proof s_ok. unfold rel. split; [|apply Rmin_r]. apply Rmin_glb; [|lra].
    apply Rmult_le_reg_r with L; [lra|]. unfold Rdiv. rewrite Rmult_assoc, Rinv_l by lra. nra.
  Qed.

  Lemma evec_value d b :
    (0 < d)%nat -> length b = d -> profile d b -> (forall i, (i < d)%nat -> en b i <= 1) ->
    let r := rel (en b (d - 1)) in
    evec d b = Some (INR (fact d) * (simplex_vol (ratios d b) 0
                       - s ^ d * simplex_vol (map (fun t => Rmin (t / r) 1) (ratios d b)) 0) / (1 - s ^ d)).
  Proof.
    intros Hd Lb Pb H1 r. pose proof Pb as (L & P & M). unfold svp_probability_evec.
    rewrite firstn_all2 by lia. rewrite relative_volume_is by auto. cbn [obind].
    assert (Lm : length (shrink_shell dx b) = d) by (unfold shrink_shell; rewrite map_length; auto).
    rewrite relative_volume_is by (auto; lia). cbn [obind]. rewrite dxn.
    pose proof (sd_lt d Hd) as S1. destruct (Req_EM_T (s ^ d - 1) 0) as [E|_]; [lra|]. f_equal.
    assert (ER : ratios d (shrink_shell dx b) = map (fun t => Rmin (t / r) 1) (ratios d b)).
    { apply (nth_ext _ _ 0 0); [rewrite map_length, !ratios_length; lia|].
      intros i Hi. rewrite ratios_length in Hi by lia.
      rewrite nth_map0 by (rewrite ratios_length; lia). rewrite !ratios_nth by lia.
      assert (SH : forall k, (k < d)%nat -> en (shrink_shell dx b) k = Rmin (en b k / s) 1).
      { intros k Hk. unfold en, shrink_shell. rewrite nth_map0 by lia. cbn zeta. fold s.
        destruct (Rlt_dec 1 (nth k b 0 / s)); [rewrite Rmin_right by lra|rewrite Rmin_left by lra]; auto. }
      rewrite !SH by lia. set (B := en b (d - 1)). pose proof s_ok as S0.
      pose proof (P i Hi) as P1. pose proof (P (d - 1)%nat ltac:(lia)) as P2. fold B in P2.
      pose proof (H1 (d - 1)%nat ltac:(lia)) as H2. fold B in H2.
      pose proof (profile_le d b Pb i (d - 1) ltac:(lia)) as H3. fold B in H3.
      unfold r, rel. fold B. set (x := en b i) in *.
      destruct (Rle_lt_dec s B) as [C|C].
      - assert (C1 : s / B <= 1) by (apply div_le_1; auto).
        assert (C2 : 1 <= B / s) by (apply Rmult_le_reg_r with s; [lra|]; unfold Rdiv; rewrite Rmult_assoc, Rinv_l by lra; lra).
        rewrite (Rmin_left (s / B)) by auto. rewrite (Rmin_right (B / s)) by auto.
        replace (x / B / (s / B)) with (x / s) by (field; lra). field.
      - assert (C1 : 1 <= s / B) by (apply Rmult_le_reg_r with B; [lra|]; unfold Rdiv; rewrite Rmult_assoc, Rinv_l by lra; lra).
        assert (C2 : B / s <= 1) by (apply div_le_1; lra).
        assert (C3 : x / s <= 1) by (apply div_le_1; lra).
        assert (C4 : x / B <= 1) by (apply div_le_1; lra).
        rewrite (Rmin_right (s / B)) by auto. rewrite (Rmin_left (B / s)) by auto. rewrite (Rmin_left (x / s)) by auto.
        rewrite Rdiv_1. rewrite Rmin_left by auto. field. lra. }
    rewrite ER. field. lra.
  Qed.

  Lemma shell_scale d b r : profile d b -> 0 < r ->
    r ^ d * simplex_vol (map (fun t => Rmin (t / r) 1) (ratios d b)) 0 = simplex_vol (map (Rmin r) (ratios d b)) 0.
  Proof.
    intros (L & _) Hr. rewrite <- (ratios_length d b L) at 1.
    rewrite <- (map_length (fun t => Rmin (t / r) 1) (ratios d b)). rewrite <- vol_scale.
    rewrite Rmult_0_r, map_map. f_equal. apply map_ext. intros t.
    unfold Rmin. destruct (Rle_dec (t / r) 1) as [C|C], (Rle_dec r t) as [D|D].
    - assert (t <= r). { apply Rmult_le_reg_r with (/ r); [apply Rinv_0_lt_compat; auto|]. rewrite Rinv_r by lra. exact C. }
      field_simplify; lra.
    - field. lra.
    - ring.
    - exfalso. apply C. apply div_le_1; lra.
  Qed.

  (** ** C60: the success probability of a half vector is between 0 and 1, and
      never more than the relative volume *)
  Theorem svp_probability_evec_range d b :
    (0 < d)%nat -> length b = d -> profile d b -> (forall i, (i < d)%nat -> en b i <= 1) ->
    exists p, evec d b = Some p /\ 0 <= p <= INR (fact d) * simplex_vol (ratios d b) 0 /\ p <= 1.
  Proof.
    intros Hd Lb Pb H1. pose proof Pb as (L & P & M). eexists. split; [apply evec_value; auto|].
    set (r := rel (en b (d - 1))).
    assert (R : s <= r <= 1) by (apply rel_ok; split; [apply P; lia|apply H1; lia]).
    pose proof s_ok as S0. pose proof (sd_lt d Hd) as S1. pose proof (fact_pos d) as F.
    set (V := simplex_vol (ratios d b) 0). set (W := simplex_vol (map (fun t => Rmin (t / r) 1) (ratios d b)) 0).
    assert (A0 : above 0 (ratios d b)) by (apply ratios_above; auto; lra).
    assert (E : r ^ d * W = simplex_vol (map (Rmin r) (ratios d b)) 0) by (apply shell_scale; auto; lra).
    assert (SN : 0 <= shell r (ratios d b) 0) by (apply shell_nonneg; auto; lra).
    unfold shell in SN. fold V in SN. rewrite <- E in SN.
    assert (G : forall t, In t (ratios d b) -> 0 < t <= 1).
    { intros t Ht. apply (In_nth _ _ 0) in Ht. destruct Ht as (i & Hi & <-). rewrite ratios_length in Hi by auto.
      apply (ratios_range d b i Pb Hi). }
    assert (GR : forall t, 0 < t <= 1 -> t <= Rmin (t / r) 1).
    { intros t Ht. apply Rmin_glb; [|lra]. apply Rmult_le_reg_r with r; [lra|].
      unfold Rdiv. rewrite Rmult_assoc, Rinv_l by lra. nra. }
    assert (AW : above 0 (map (fun t => Rmin (t / r) 1) (ratios d b))).
    { apply above_of; rewrite map_length, ratios_length by auto; intros i Hi.
      - rewrite nth_map0 by (rewrite ratios_length; auto). pose proof (ratios_range d b i Pb Hi) as Q.
        pose proof (GR _ Q). lra.
      - rewrite !nth_map0 by (rewrite ratios_length; auto; lia). apply Rle_min_compat_r.
        apply Rmult_le_compat_r; [left; apply Rinv_0_lt_compat; lra|].
        rewrite !ratios_nth by (auto; lia). apply Rmult_le_compat_r; [|apply M; auto].
        left. apply Rinv_0_lt_compat. apply P. lia. }
    assert (VW : V <= W).
    { apply vol_mono; auto. apply Forall2_of; [now rewrite map_length|]. intros i Hi.
      rewrite nth_map0 by auto. apply GR. apply G. apply nth_In. auto. }
    assert (V0 : 0 <= V) by (apply vol_nonneg; auto).
    assert (V1 : INR (fact d) * V <= 1).
    { apply vol_le_1; auto; [apply ratios_length; auto|]. intros t Ht. apply G. auto. }
    assert (SR : s ^ d <= r ^ d) by (apply pow_incr; lra).
    assert (LO : 0 <= V - s ^ d * W) by nra.
    assert (UP : V - s ^ d * W <= V * (1 - s ^ d)) by nra.
    assert (Q : INR (fact d) * (V - s ^ d * W) / (1 - s ^ d) <= INR (fact d) * V).
    { apply Rmult_le_reg_r with (1 - s ^ d); [lra|]. unfold Rdiv. rewrite Rmult_assoc, Rinv_l by lra. nra. }
    split; [|lra]. split; auto.
    apply Rmult_le_pos; [apply Rmult_le_pos; lra|]. left. apply Rinv_0_lt_compat. lra.
  Qed.

  Lemma evec_one d b :
    (0 < d)%nat -> length b = d -> profile d b -> en b (d - 1) = 1 ->
    evec d b = Some (INR (fact d) * shell s (ratios d b) 0 / (1 - s ^ d)).
  Proof.
    intros Hd Lb Pb E1. pose proof Pb as (L & P & M).
    rewrite evec_value; auto.
    2:{ intros i Hi. rewrite <- E1. apply (profile_le d b Pb). lia. }
    assert (R : rel (en b (d - 1)) = s).
    { unfold rel. rewrite E1. pose proof s_ok. rewrite Rdiv_1. apply Rmin_left. lra. }
    rewrite R. rewrite shell_scale; auto. apply s_ok.
  Qed.

  (** ** C60: one for the all-ones profile (no pruning) *)
  Theorem svp_probability_evec_ones d : (0 < d)%nat -> evec d (repeat 1 d) = Some 1.
  Proof.
    intros Hd. assert (O : forall i, (i < d)%nat -> en (repeat 1 d) i = 1) by (intros; apply nth_ones; auto).
    assert (Pb : profile d (repeat 1 d)).
    { split; [rewrite repeat_length; auto|]. split; intros i Hi; rewrite !O by lia; lra. }
    rewrite evec_one; auto; [|apply repeat_length|apply O; lia]. f_equal.
    pose proof (sd_lt d Hd). pose proof s_ok as S0. pose proof (fact_pos d).
    replace (ratios d (repeat 1 d)) with (repeat 1 d).
    2:{ apply (nth_ext _ _ 0 0); [rewrite ratios_length; rewrite repeat_length; auto|].
        intros i Hi. rewrite repeat_length in Hi. rewrite ratios_nth by (auto; rewrite repeat_length; auto).
        rewrite !O, nth_ones by lia. field. }
    unfold shell. replace (map (Rmin s) (repeat 1 d)) with (map (Rmult s) (repeat 1 d)).
    2:{ clear - S0. induction d as [|d IH]; cbn; auto. rewrite IH. f_equal. rewrite Rmin_left by lra. ring. }
    rewrite <- (Rmult_0_r s) at 2. rewrite vol_scale, repeat_length, vol_ones, Rminus_0_r, pow1. field. lra.
  Qed.

  (** ** C60: relaxing bounds does not decrease the success probability (last
      bound one) *)
  Theorem svp_probability_evec_monotone d b b' p p' :
    (0 < d)%nat -> length b = d -> length b' = d -> profile d b -> profile d b' ->
    relaxed d b b' -> en b (d - 1) = 1 -> en b' (d - 1) = 1 ->
    evec d b = Some p -> evec d b' = Some p' -> p <= p'.
  Proof.
    intros Hd Lb Lb' Pb Pb' R E E' V V'. rewrite evec_one in V, V' by auto. injection V as <-. injection V' as <-.
    pose proof (sd_lt d Hd). pose proof s_ok.
    apply Rmult_le_compat_r; [left; apply Rinv_0_lt_compat; lra|].
    apply Rmult_le_compat_l; [left; apply fact_pos|].
    apply shell_mono; try (apply ratios_above; auto; lra); [|lra].
    apply Forall2_of; rewrite !ratios_length by lia; auto.
    intros i Hi. rewrite !ratios_nth by lia. rewrite E, E', !Rdiv_1. apply R. auto.
  Qed.

  Lemma every_second_spec d o b : (o <= 1)%nat -> (2 * d <= length b)%nat ->
    exists v, every_second d o b = Some v /\ length v = d /\ forall i, (i < d)%nat -> en v i = en b (2 * i + o).
  Proof.
    intros Ho L. unfold every_second.
    destruct (ofor_inv (fun k (v : list R) => length v = d /\ forall i, (i < k)%nat -> en v i = en b (2 * i + o))
      (fun i v => x <- nth_error b (2 * i + o);; vset v i x) d 0 (repeat 0 d)) as (v & E & Lv & P).
    - split; [apply repeat_length|]. intros i Hi. lia.
    - intros k v Hk (Lv & P). rewrite nth_error_atR by lia. cbn [obind]. rewrite PropPruner.vset_at by lia.
      eexists. split; [reflexivity|]. split; [now rewrite upd_length|]. intros i Hi. unfold en in *.
      destruct (Nat.eq_dec i k) as [->|N]; [apply nth_upd_eq; lia|]. rewrite nth_upd_neq by auto. apply P. lia.
    - exists v. auto.
  Qed.

  Lemma half_profile d o b v : (o <= 1)%nat -> length v = d -> profile (2 * d) b ->
    (forall i, (i < d)%nat -> en v i = en b (2 * i + o)) -> profile d v.
  Proof.
    intros Ho Lv Pb Ev. pose proof Pb as (L & P & M). split; [lia|]. split; intros i Hi; rewrite !Ev by lia.
    - apply P. lia.
    - apply (profile_le _ _ Pb). lia.
  Qed.

  (** ** C60: svp_probability of half and full vectors is between 0 and 1 *)
  Theorem svp_probability_range d b :
    (0 < d)%nat -> length b = d \/ (2 * d <= length b)%nat -> profile (length b) b ->
    (forall i, (i < length b)%nat -> en b i <= 1) ->
    exists p, prob d b = Some p /\ 0 <= p <= 1.
  Proof.
    intros Hd L Pb H1. unfold svp_probability. destruct (length b =? d)%nat eqn:El.
    - apply Nat.eqb_eq in El. rewrite El in *. destruct (svp_probability_evec_range d b) as (p & E & R & R1); auto.
      exists p. split; auto. lra.
    - apply Nat.eqb_neq in El. destruct L as [L|L]; [lia|].
      assert (P2 : profile (2 * d) b).
      { destruct Pb as (_ & P & M). split; auto. split; intros i Hi; [apply P|apply M]; lia. }
      unfold svp_probability_lower, svp_probability_upper.
      destruct (every_second_spec d 0 b) as (v & Ev & Lv & V); auto.
      destruct (every_second_spec d 1 b) as (w & Ew & Lw & W); auto.
      rewrite Ev, Ew. cbn [obind].
      destruct (svp_probability_evec_range d v) as (p & E & R & R1); auto.
      { apply (half_profile d 0 b); auto. } { intros i Hi. rewrite V by auto. apply H1. lia. }
      destruct (svp_probability_evec_range d w) as (p' & E' & R' & R1'); auto.
      { apply (half_profile d 1 b); auto. } { intros i Hi. rewrite W by auto. apply H1. lia. }
      rewrite E, E'. cbn [obind]. exists ((p + p') / 2). split; auto. lra.
  Qed.

  (** ** C60: lower <= average <= upper for full vectors whose last two used
      entries are one *)
  Theorem svp_probability_bracket d b pl pu p :
    (0 < d)%nat -> (2 * d <= length b)%nat -> profile (2 * d) b ->
    en b (2 * d - 2) = 1 -> en b (2 * d - 1) = 1 ->
    svp_probability_lower dx fresh d b = Some pl -> svp_probability_upper dx fresh d b = Some pu ->
    prob d b = Some p -> pl <= p <= pu.
  Proof.
    intros Hd L Pb E1 E2 El Eu E. unfold svp_probability in E.
    replace (length b =? d)%nat with false in E by (symmetry; apply Nat.eqb_neq; lia).
    rewrite El, Eu in E. cbn [obind] in E. injection E as <-.
    assert (pl <= pu); [|lra].
    unfold svp_probability_lower in El. unfold svp_probability_upper in Eu.
    destruct (every_second_spec d 0 b) as (v & Ev & Lv & V); auto.
    destruct (every_second_spec d 1 b) as (w & Ew & Lw & W); auto.
    rewrite Ev in El. rewrite Ew in Eu. cbn [obind] in El, Eu.
    apply (svp_probability_evec_monotone d v w); auto.
    - apply (half_profile d 0 b); auto.
    - apply (half_profile d 1 b); auto.
    - intros i Hi. rewrite V, W by auto. apply (profile_le _ _ Pb). lia.
    - rewrite V by lia. rewrite <- E1. f_equal. lia.
    - rewrite W by lia. rewrite <- E2. f_equal. lia.
  Qed.

  (** C60: in general the "lower bound" can exceed the upper bound: the lower
      profile is taken relative to its own last entry *)
  Theorem svp_probability_lower_refuted :
    exists d b pl pu, profile (2 * d) b /\ length b = (2 * d)%nat /\ (forall i, (i < 2 * d)%nat -> en b i <= 1) /\
      en b (2 * d - 1) = 1 /\
      svp_probability_lower dx fresh d b = Some pl /\ svp_probability_upper dx fresh d b = Some pu /\ pu < pl.
  Proof.
    assert (PW : profile 2 [1/2; 1]) by prof. assert (PV : profile 2 [1/2; 1/2]) by prof.
    assert (BW : forall i, (i < 2)%nat -> en [1/2; 1] i <= 1) by (intros [|[|i]] Hi; cbn; try lra; lia).
    assert (BV : forall i, (i < 2)%nat -> en [1/2; 1/2] i <= 1) by (intros [|[|i]] Hi; cbn; try lra; lia).
    destruct (svp_probability_evec_range 2 [1/2; 1] ltac:(lia) eq_refl PW BW) as (pu & Eu & Ru & _).
    assert (Hu : INR (fact 2) * simplex_vol (ratios 2 [1/2; 1]) 0 = 3/4).
    { unfold ratios. cbn [firstn map nth Nat.sub]. rewrite vol2. simpl fact. simpl INR. field. }
    exists 2%nat, [1/2; 1/2; 1/2; 1], 1, pu.
    split; [prof|]. split; [reflexivity|]. split; [intros [|[|[|[|i]]]] Hi; cbn; try lra; simpl in Hi; lia|].
    split; [reflexivity|].
    split; [|split; [exact Eu|lra]].
    change (evec 2 [1/2; 1/2] = Some 1). rewrite evec_value by (auto; lia). f_equal.
    pose proof (sd_lt 2 ltac:(lia)) as S1.
    set (r := rel (en [1/2; 1/2] (2 - 1))). assert (R : s <= r <= 1) by (apply rel_ok; cbn; lra).
    pose proof s_ok as S0.
    replace (ratios 2 [1/2; 1/2]) with [1; 1] by (unfold ratios; cbn; repeat f_equal; field).
    cbn [map]. assert (1 <= 1 / r) by (apply Rmult_le_reg_r with r; [lra|]; unfold Rdiv; rewrite Rmult_assoc, Rinv_l by lra; lra).
    rewrite Rmin_right by auto. rewrite vol2. simpl fact. simpl INR. field. lra.
  Qed.

  (** C60: in dimension 1 (d = 0) svp_probability divides zero by zero and throws *)
  Theorem svp_probability_dim1_refuted : exists b, length b = 1%nat /\ profile 1 b /\ prob 0 b = None.
  Proof.
    exists [1]. split; [reflexivity|]. split; [prof|].
    unfold svp_probability, svp_probability_lower, every_second. cbn [length Nat.eqb seq ofor obind repeat].
    unfold svp_probability_evec. rewrite !relative_volume_is by (auto; simpl; lia). cbn [obind].
    destruct (Req_EM_T (dx ^ (2 * 0) - 1) 0) as [_|N]; [reflexivity|]. exfalso. apply N. simpl. ring.
  Qed.

  (** a non-trivial half vector meeting the hypotheses *)
  Example svp_probability_case : exists p, evec 2 [1/2; 1] = Some p /\ 0 < p <= 3/4.
  Proof.
    assert (PW : profile 2 [1/2; 1]) by prof.
    assert (BW : forall i, (i < 2)%nat -> en [1/2; 1] i <= 1) by (intros [|[|i]] Hi; cbn; try lra; lia).
    destruct (svp_probability_evec_range 2 [1/2; 1] ltac:(lia) eq_refl PW BW) as (pu & Eu & Ru & _).
    assert (Hu : INR (fact 2) * simplex_vol (ratios 2 [1/2; 1]) 0 = 3/4).
    { unfold ratios. cbn [firstn map nth Nat.sub]. rewrite vol2. simpl fact. simpl INR. field. }
    exists pu. split; auto. split; [|lra].
    rewrite evec_one in Eu by (auto; lia). injection Eu as <-.
    pose proof (sd_lt 2 ltac:(lia)) as S1. pose proof s_ok as S0.
    simpl in S1. apply Rmult_lt_0_compat; [|apply Rinv_0_lt_compat; lra]. apply Rmult_lt_0_compat; [lra|].
    unfold shell, ratios. cbn [firstn map nth Nat.sub]. rewrite !vol2. rewrite !Rdiv_1, (Rmin_left s 1) by lra.
    unfold Rmin. destruct (Rle_dec s (1/2)); nra.
  Qed.
End Prob.

Print Assumptions relative_volume_probability.
Print Assumptions svp_probability_range.
