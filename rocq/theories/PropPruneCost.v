(** Estimated cost of a pruned enumeration (property C61). *)
From Coq Require Import List Reals Arith Bool Lia Lra.
From Coquelicot Require Import Coquelicot.
From Verif Require Import Util MatrixModel MatrixProofs PrunerModel PruneVolModel PruneVolProofs PropPruneVol
  PruneCostModel.
From Verif Require PropPruner.
Import ListNotations.
Local Open Scope R_scope.

(** ** What the estimate should be *)

(** volume of the (0 <= y_0 <= ... <= y_(k-1), y_i <= b_i), relative to 1/k!:
    the part of the unit ball of dimension 2k that the bounds leave *)
Definition part (k : nat) (b : list R) : R := INR (fact k) * simplex_vol (firstn k b) 0.

(** sum of the first [m] entries *)
Definition rsum (m : nat) (v : list R) : R := fold_right Rplus 0 (firstn m v).

Lemma rresize_len m v : length (rresize m v) = m.
Proof. unfold rresize. rewrite app_length, firstn_length, repeat_length. lia. Qed.

Fixpoint upto (f : nat -> R) (k : nat) : R := match k with O => 0 | S k => upto f k + f k end.

Lemma sum_rev (f : nat -> R) m : forall v, (m <= length v)%nat ->
  (forall i, (i < m)%nat -> en v (m - S i) = f i) -> rsum m v = upto f m.
Proof.
  induction m as [|m IH]; intros v L H; [reflexivity|]. destruct v as [|a v]; [simpl in L; lia|].
  simpl in L. unfold rsum in *. cbn [firstn fold_right upto]. rewrite (IH v).
  - specialize (H m ltac:(lia)). replace (S m - S m)%nat with O in H by lia. unfold en in H. simpl in H. lra.
  - lia.
  - intros i Hi. specialize (H i ltac:(lia)). replace (S m - S i)%nat with (S (m - S i)) in H by lia. exact H.
Qed.

Lemma upto_le f g m : (forall i, (i < m)%nat -> f i <= g i) -> upto f m <= upto g m.
Proof.
  induction m as [|m IH]; intros H; cbn [upto]; [lra|]. pose proof (H m ltac:(lia)).
  assert (upto f m <= upto g m) by (apply IH; intros; apply H; lia). lra.
Qed.

Lemma upto_pos f m : (0 < m)%nat -> (forall i, (i < m)%nat -> 0 < f i) -> 0 < upto f m.
Proof.
  intros Hm H. destruct m as [|m]; [lia|]. cbn [upto]. pose proof (H m ltac:(lia)).
  assert (0 <= upto f m); [|lra]. assert (Z : upto (fun _ => 0) m = 0) by (clear; induction m; simpl; lra).
  rewrite <- Z. apply upto_le. intros i Hi. left. apply H. lia.
Qed.

Lemma en_upd v i x k : (i < length v)%nat -> en (upd v i x) k = if (k =? i)%nat then x else en v k.
Proof. intros H. unfold en. rewrite nth_upd. apply Nat.ltb_lt in H. rewrite H, andb_true_r. auto. Qed.


Section Levels.
  Variable fresh : nat -> list R.
  Hypothesis fresh_len : forall k, length (fresh k) = S k.

  Definition rel (k : nat) (b : list R) : R := INR (fact k) * simplex_vol (ratios k b) 0.

  Lemma profile_lt d k b : (k <= d)%nat -> profile d b -> profile k b.
  Proof. intros H (L & P & M). split; [lia|]. split; intros i Hi; [apply P|apply M]; lia. Qed.

  Lemma rel_range k b : profile k b -> 0 < rel k b <= 1.
  Proof.
    intros Pb. destruct (relative_volume_probability (fresh k) k b) as (v & _ & E & Rg); auto.
    unfold rel. rewrite <- E. exact Rg.
  Qed.

  Lemma scale_back k b : (0 < k)%nat -> profile k b -> en b (k - 1) ^ k * rel k b = part k b.
  Proof.
    intros Hk Pb. pose proof Pb as (L & P & M). unfold rel, part.
    pose proof (vol_scale (en b (k - 1)) (ratios k b) 0) as V. rewrite Rmult_0_r, ratios_length in V by auto.
    replace (map (Rmult (en b (k - 1))) (ratios k b)) with (firstn k b) in V; [rewrite V; ring|].
    unfold ratios. rewrite map_map. rewrite <- (map_id (firstn k b)) at 1. apply map_ext. intros x.
    fold (en b (k - 1)). pose proof (P (k - 1)%nat ltac:(lia)). field. lra.
  Qed.

  Lemma part_pos k b : (0 < k)%nat -> profile k b -> 0 < part k b.
  Proof.
    intros Hk Pb. rewrite <- scale_back by auto. pose proof Pb as (_ & P & _).
    apply Rmult_lt_0_compat; [apply pow_lt, P; lia|apply rel_range; auto].
  Qed.

  Lemma level_volumes_spec n d b : (0 < d)%nat -> (2 * d <= n)%nat -> (d <= length b)%nat ->
    exists rv, level_volumes fresh n d b = Some rv /\ length rv = n /\ en rv 0 = 1 /\
      (forall i, (i < d)%nat -> en rv (2 * i + 1) = rel (S i) b) /\
      (forall i, (0 < i < d)%nat -> en rv (2 * i) = sqrt (rel i b * rel (S i) b)).
  Proof.
    intros Hd Hn Hb. unfold level_volumes.
    destruct (ofor_inv (fun k (rv : list R) => length rv = n /\ forall i, (i < k)%nat -> en rv (2 * i + 1) = rel (S i) b)
      (fun i rv => v <- relative_volume (fresh (S i)) (S i) b;; vset rv (2 * i + 1) v) d 0 (repeat 0 n))
      as (rv & E & L & P).
    - split; [apply repeat_length|]. intros i Hi. lia.
    - intros k rv Hk (L & P). rewrite relative_volume_is by (auto; lia). cbn [obind].
      rewrite PropPruner.vset_at by lia. eexists. split; [reflexivity|]. split; [rewrite upd_length; auto|].
      intros i Hi. rewrite en_upd by lia. destruct (2 * i + 1 =? 2 * k + 1)%nat eqn:Ei.
      + apply Nat.eqb_eq in Ei. replace i with k by lia. reflexivity.
      + apply Nat.eqb_neq in Ei. apply P. lia.
    - rewrite E. cbn [obind]. clear E. rewrite PropPruner.vset_at by lia. cbn [obind].
      destruct (ofor_inv (fun k (w : list R) => length w = n /\ en w 0 = 1 /\
          (forall i, (i < d)%nat -> en w (2 * i + 1) = rel (S i) b) /\
          (forall i, (0 < i < k)%nat -> en w (2 * i) = sqrt (rel i b * rel (S i) b)))
        (fun i rv => x <- nth_error rv (2 * i - 1);; y <- nth_error rv (2 * i + 1);; vset rv (2 * i) (sqrt (x * y)))
        (d - 1) 1 (upd rv 0 1)) as (w & E & Lw & W0 & W1 & W2).
      + split; [rewrite upd_length; auto|]. split; [rewrite en_upd by lia; reflexivity|]. split.
        * intros i Hi. rewrite en_upd by lia. destruct (2 * i + 1 =? 0)%nat eqn:Ei; [apply Nat.eqb_eq in Ei; lia|].
          apply P. lia.
        * intros i Hi. lia.
      + intros k w Hk (Lw & W0 & W1 & W2). rewrite !nth_error_atR by lia. cbn [obind].
        rewrite PropPruner.vset_at by lia. eexists. split; [reflexivity|]. split; [rewrite upd_length; auto|].
        split; [rewrite en_upd by lia; destruct (0 =? 2 * k)%nat eqn:E0; [apply Nat.eqb_eq in E0; lia|auto]|].
        split.
        * intros i Hi. rewrite en_upd by lia.
          destruct (2 * i + 1 =? 2 * k)%nat eqn:Ei; [apply Nat.eqb_eq in Ei; lia|auto].
        * intros i Hi. rewrite en_upd by lia. destruct (2 * i =? 2 * k)%nat eqn:Ei.
          -- apply Nat.eqb_eq in Ei. replace i with k by lia. fold (en w (2 * k - 1)) (en w (2 * k + 1)).
             rewrite (W1 k) by lia. replace (2 * k - 1)%nat with (2 * (k - 1) + 1)%nat by lia.
             rewrite (W1 (k - 1)%nat) by lia. replace (S (k - 1)) with k by lia. reflexivity.
          -- apply Nat.eqb_neq in Ei. apply W2. lia.
      + rewrite E. exists w. split; [reflexivity|]. split; [exact Lw|]. split; [exact W0|]. split; [exact W1|].
        intros i Hi. apply W2. lia.
  Qed.

  Lemma part_mono k b b' : profile k b -> profile k b' -> relaxed k b b' -> part k b <= part k b'.
  Proof.
    intros Pb Pb' R. pose proof Pb as (L & P & M). pose proof Pb' as (L' & P' & M'). unfold part.
    apply Rmult_le_compat_l; [left; apply fact_pos|].
    assert (A : forall b, profile k b -> above 0 (firstn k b)).
    { intros c (Lc & Pc & Mc). apply above_of; rewrite firstn_length_le by auto; intros i Hi;
        rewrite !nth_firstn_ltR by lia; [left; apply Pc; lia|apply Mc; lia]. }
    apply vol_mono; auto. apply Forall2_of; [rewrite !firstn_length_le; auto|].
    rewrite firstn_length_le by auto. intros i Hi. rewrite !nth_firstn_ltR by lia. apply R; auto.
  Qed.

  (** the factor of level [i] (dimension i + 1) that depends on the bounds *)
  Definition width (b : list R) (i : nat) : R :=
    let k := (i / 2)%nat in
    if Nat.odd i then part (S k) b
    else if (i =? 0)%nat then sqrt (en b 0)
    else sqrt (part k b * part (S k) b * (en b k / en b (k - 1)) ^ k).

  Lemma sqrt_pow_even x k : 0 <= x -> sqrt (x ^ (k + k)) = x ^ k.
  Proof. intros H. rewrite pow_add. apply sqrt_square. apply pow_le; auto. Qed.

  Lemma width_spec n d b rv i : (0 < d)%nat -> (i < 2 * d)%nat -> profile d b ->
    length rv = n -> en rv 0 = 1 ->
    (forall i, (i < d)%nat -> en rv (2 * i + 1) = rel (S i) b) ->
    (forall i, (0 < i < d)%nat -> en rv (2 * i) = sqrt (rel i b * rel (S i) b)) ->
    en rv i * sqrt (en b (i / 2) ^ (1 + i)) = width b i.
  Proof.
    intros Hd Hi Pb L R0 R1 R2. pose proof Pb as (Lb & P & M). unfold width.
    destruct (Nat.odd i) eqn:O.
    - apply Nat.odd_spec in O. destruct O as (k & ->).
      replace ((2 * k + 1) / 2)%nat with k by (rewrite Nat.mul_comm, Nat.div_add_l by lia; simpl; lia).
      rewrite R1 by lia. replace (1 + (2 * k + 1))%nat with (S k + S k)%nat by lia.
      rewrite sqrt_pow_even by (left; apply P; lia). rewrite <- (scale_back (S k) b); [|lia|apply (profile_lt d); [lia|auto]].
      replace (S k - 1)%nat with k by lia. ring.
    - apply (f_equal negb) in O. rewrite Nat.negb_odd in O. apply Nat.even_spec in O. destruct O as (k & ->).
      replace ((2 * k) / 2)%nat with k by (rewrite Nat.mul_comm, Nat.div_mul by lia; auto).
      destruct (Nat.eq_dec k 0) as [-> |N].
      + simpl. rewrite R0. rewrite Rmult_1_r. ring.
      + destruct (2 * k =? 0)%nat eqn:E0; [apply Nat.eqb_eq in E0; lia|].
        rewrite R2 by lia.
        assert (Pk : profile k b) by (apply (profile_lt d); [lia|auto]).
        assert (Pk1 : profile (S k) b) by (apply (profile_lt d); [lia|auto]).
        pose proof (rel_range k b Pk) as (Ra & _). pose proof (rel_range (S k) b Pk1) as (Rb & _).
        rewrite <- sqrt_mult_alt by (left; apply Rmult_lt_0_compat; auto).
        f_equal. rewrite <- (scale_back k b), <- (scale_back (S k) b) by (auto; lia).
        replace (S k - 1)%nat with k by lia. unfold Rdiv. rewrite Rpow_mult_distr.
        replace (1 + 2 * k)%nat with (S k + k)%nat by lia. rewrite pow_add.
        assert (X : en b (k - 1) ^ k * (/ en b (k - 1)) ^ k = 1).
        { rewrite <- Rpow_mult_distr, Rinv_r, pow1; auto. pose proof (P (k - 1)%nat ltac:(lia)). lra. }
        transitivity (rel k b * rel (S k) b * (en b k ^ S k * en b k ^ k) * 1); [ring|]. rewrite <- X. ring.
  Qed.

  Lemma sqrt_le_1 x : 0 <= x <= 1 -> 0 <= sqrt x <= 1.
  Proof. intros H. split; [apply sqrt_pos|]. rewrite <- sqrt_1. apply sqrt_le_1_alt. lra. Qed.

  Lemma prod_le_1 x y : 0 <= x <= 1 -> 0 <= y <= 1 -> 0 <= x * y <= 1.
  Proof. intros H1 H2. split; [apply Rmult_le_pos; lra|]. replace 1 with (1 * 1) by ring. apply Rmult_le_compat; lra. Qed.

  Lemma pow_le_1 x k : 0 <= x <= 1 -> 0 <= x ^ k <= 1.
  Proof. intros H. induction k as [|k IH]; simpl; [lra|]. apply prod_le_1; auto. Qed.

  Lemma width_le_1 d b i : (i < 2 * d)%nat -> profile d b -> (forall i, (i < d)%nat -> en b i <= 1) ->
    0 <= width b i <= 1.
  Proof.
    intros Hi Pb B. pose proof Pb as (Lb & P & M).
    destruct (level_volumes_spec (2 * d) d b) as (rv & E & L & R0 & R1 & R2); auto; [lia|].
    rewrite <- (width_spec (2 * d) d b rv i) by (auto; lia).
    assert (i / 2 < d)%nat by (apply Nat.div_lt_upper_bound; lia).
    apply prod_le_1.
    - destruct (Nat.Even_or_Odd i) as [(k & ->)|(k & ->)].
      + destruct (Nat.eq_dec k 0) as [-> |N]; [simpl; rewrite R0; lra|]. rewrite R2 by lia.
        pose proof (rel_range k b (profile_lt d k b ltac:(lia) Pb)).
        pose proof (rel_range (S k) b (profile_lt d (S k) b ltac:(lia) Pb)).
        apply sqrt_le_1, prod_le_1; lra.
      + rewrite R1 by lia. pose proof (rel_range (S k) b (profile_lt d (S k) b ltac:(lia) Pb)). lra.
    - apply sqrt_le_1, pow_le_1. split; [left; apply P; lia|apply B; lia].
  Qed.

  Lemma width_pos d b i : (i < 2 * d)%nat -> profile d b -> 0 < width b i.
  Proof.
    intros Hi Pb. pose proof Pb as (Lb & P & M).
    destruct (level_volumes_spec (2 * d) d b) as (rv & E & L & R0 & R1 & R2); auto; [lia|].
    rewrite <- (width_spec (2 * d) d b rv i) by (auto; lia).
    assert (i / 2 < d)%nat by (apply Nat.div_lt_upper_bound; lia).
    apply Rmult_lt_0_compat.
    - destruct (Nat.Even_or_Odd i) as [(k & ->)|(k & ->)].
      + destruct (Nat.eq_dec k 0) as [-> |N]; [simpl; rewrite R0; lra|]. rewrite R2 by lia.
        pose proof (rel_range k b (profile_lt d k b ltac:(lia) Pb)).
        pose proof (rel_range (S k) b (profile_lt d (S k) b ltac:(lia) Pb)).
        apply sqrt_lt_R0, Rmult_lt_0_compat; lra.
      + rewrite R1 by lia. pose proof (rel_range (S k) b (profile_lt d (S k) b ltac:(lia) Pb)). lra.
    - apply sqrt_lt_R0, pow_lt, P. lia.
  Qed.

  Lemma ones_profile d : profile d (repeat 1 d).
  Proof.
    assert (O : forall i, (i < d)%nat -> en (repeat 1 d) i = 1) by (intros; apply nth_ones; auto).
    split; [rewrite repeat_length; auto|]. split; intros i Hi; rewrite !O by lia; lra.
  Qed.

  Lemma width_ones d i : (i < 2 * d)%nat -> width (repeat 1 d) i = 1.
  Proof.
    intros Hi. assert (O : forall i, (i < d)%nat -> en (repeat 1 d) i = 1) by (intros; apply nth_ones; auto).
    assert (PK : forall k, (k <= d)%nat -> part k (repeat 1 d) = 1).
    { intros k Hk. unfold part. replace (firstn k (repeat 1 d)) with (repeat 1 k); [apply vol_ones0|].
      clear -Hk. revert k Hk. induction d as [|m IH]; intros [|k] Hk; simpl; auto; [lia|]. f_equal. apply IH. lia. }
    unfold width. assert (i / 2 < d)%nat by (apply Nat.div_lt_upper_bound; lia).
    rewrite !PK by lia. destruct (Nat.odd i); auto. destruct (i =? 0)%nat eqn:E0; [rewrite O by lia; apply sqrt_1|].
    apply Nat.eqb_neq in E0. rewrite !O by lia. unfold Rdiv. rewrite Rinv_1, !Rmult_1_l, pow1. apply sqrt_1.
  Qed.
End Levels.

Section Cost.
  Variable fresh : nat -> list R.
  Hypothesis fresh_len : forall k, length (fresh k) = S k.
  Variable ball : list R.
  Variable sym : R.
  Variables n d : nat.
  Variable sh : shape.
  (** tables and shape are large enough (pruner.h:609, pruner_util.cpp:31) *)
  Hypothesis sizes : (0 < d)%nat /\ (2 * d <= n)%nat /\ (2 * d < length ball)%nat /\ length (sh_ipv sh) = n.

  Notation cost := (single_enum_cost_evec fresh ball sym n d sh).

  (** what level [i] (dimension i + 1) costs without pruning: the ball of the
      radius over the volume of the projected lattice *)
  Definition full_level (i : nat) : R := sym * en ball (S i) * en (sh_ipv sh) i * sh_nr sh ^ S i.

  Lemma cost_spec b det : profile d b ->
    exists total det', cost b det = Some (total, det') /\ length det' = n /\
      (forall i, (i < 2 * d)%nat -> en det' (2 * d - S i) = full_level i * width b i) /\
      total = upto (fun i => full_level i * width b i) (2 * d).
  Proof.
    intros Pb. destruct sizes as (Hd & Hn & Hball & Hipv). pose proof Pb as (Lb & P & M).
    unfold single_enum_cost_evec.
    destruct (level_volumes_spec fresh fresh_len n d b) as (rv & E & L & R0 & R1 & R2); auto.
    rewrite E. cbn [obind].
    destruct (ofor_inv (fun k (s : R * R * list R) =>
        let '(total, rp, det) := s in
        length det = n /\ rp = sh_nr sh ^ S k /\
        (forall i, (i < k)%nat -> en det (2 * d - S i) = full_level i * width b i) /\
        total = upto (fun i => full_level i * width b i) k)
      (cost_step ball sym d sh b rv) (2 * d) 0 (0, sh_nr sh, rresize n det))
      as (((total & rp) & det') & E2 & I).
    - split; [apply rresize_len|]. split; [simpl; ring|]. split; [intros i Hi; lia|reflexivity].
    - intros k [[total rp] dt] Hk (Ld & Hrp & Hdt & Ht). unfold cost_step.
      assert (k / 2 < d)%nat by (apply Nat.div_lt_upper_bound; lia).
      rewrite !nth_error_atR by lia. cbn [obind].
      rewrite PropPruner.osub_le by lia. cbn [obind]. rewrite PropPruner.vset_at by lia. cbn [obind].
      assert (V : rp * nth k rv 0 * nth (k + 1) ball 0 * sqrt (nth (k / 2) b 0 ^ (1 + k)) * nth k (sh_ipv sh) 0 * sym
                  = full_level k * width b k).
      { rewrite <- (width_spec fresh fresh_len n d b rv k) by (auto; lia). unfold full_level, en. rewrite Hrp.
        replace (k + 1)%nat with (S k) by lia. change (1 + k)%nat with (S k). ring. }
      rewrite V. eexists. split; [reflexivity|]. split; [rewrite upd_length; auto|].
      split; [rewrite Hrp; simpl; ring|]. split.
      + intros i Hi. rewrite en_upd by lia. destruct (2 * d - S i =? 2 * d - (k + 1))%nat eqn:Ei.
        * apply Nat.eqb_eq in Ei. replace i with k by lia. reflexivity.
        * apply Nat.eqb_neq in Ei. apply Hdt. lia.
      + cbn [upto]. rewrite Ht. reflexivity.
    - rewrite E2. cbn [obind]. destruct I as (Ld & _ & Hdt & Ht).
      exists total, det'. split; [reflexivity|]. split; [exact Ld|]. split; [exact Hdt|exact Ht].
  Qed.

  (** *** Level by level: detailed_cost, indexed like the enumeration tree, holds
      at place 2d - m the estimate for the m-dimensional projected block *)
  Theorem enum_cost_levels b det : profile d b ->
    exists total det', cost b det = Some (total, det') /\ length det' = n /\
      (forall k, (1 <= k <= d)%nat -> en det' (2 * d - 2 * k) =
         sym * en ball (2 * k) * en (sh_ipv sh) (2 * k - 1) * sh_nr sh ^ (2 * k) * part k b) /\
      en det' (2 * d - 1) = sym * en ball 1 * en (sh_ipv sh) 0 * sh_nr sh * sqrt (en b 0) /\
      (forall k, (1 <= k < d)%nat -> en det' (2 * d - (2 * k + 1)) =
         sym * en ball (2 * k + 1) * en (sh_ipv sh) (2 * k) * sh_nr sh ^ (2 * k + 1) *
         sqrt (part k b * part (k + 1) b * (en b k / en b (k - 1)) ^ k)) /\
      total = rsum (2 * d) det'.
  Proof.
    intros Pb. destruct (cost_spec b det Pb) as (total & det' & E & L & D & T).
    destruct sizes as (Hd & Hn & Hball & Hipv).
    exists total, det'. split; [exact E|]. split; [exact L|]. split; [|split; [|split]].
    - intros k Hk. specialize (D (2 * k - 1)%nat ltac:(lia)). replace (S (2 * k - 1)) with (2 * k)%nat in D by lia.
      rewrite D. unfold full_level, width. replace (S (2 * k - 1)) with (2 * k)%nat by lia.
      replace (Nat.odd (2 * k - 1)) with true
        by (symmetry; replace (2 * k - 1)%nat with (1 + 2 * (k - 1))%nat by lia; rewrite Nat.odd_add_mul_2; reflexivity).
      replace ((2 * k - 1) / 2)%nat with (k - 1)%nat; [replace (S (k - 1)) with k by lia; reflexivity|].
      replace (2 * k - 1)%nat with ((k - 1) * 2 + 1)%nat by lia. rewrite Nat.div_add_l by lia. simpl. lia.
    - rewrite (D 0%nat) by lia. unfold full_level, width. cbn. rewrite Rmult_1_r. reflexivity.
    - intros k Hk. specialize (D (2 * k)%nat ltac:(lia)). replace (S (2 * k)) with (2 * k + 1)%nat in D by lia.
      rewrite D. unfold full_level, width. replace (S (2 * k)) with (2 * k + 1)%nat by lia.
      replace (Nat.odd (2 * k)) with false by (symmetry; replace (2 * k)%nat with (0 + 2 * k)%nat by lia;
        rewrite Nat.odd_add_mul_2; reflexivity).
      destruct (2 * k =? 0)%nat eqn:E0; [apply Nat.eqb_eq in E0; lia|].
      replace (2 * k / 2)%nat with k by (rewrite Nat.mul_comm, Nat.div_mul by lia; auto).
      replace (k + 1)%nat with (S k) by lia. reflexivity.
    - rewrite T. symmetry. apply sum_rev; [lia|]. exact D.
  Qed.

  (** radius, ball volumes, inverse partial volumes and symmetry factor are positive *)
  Hypothesis positive : 0 < sym /\ 0 < sh_nr sh /\
    (forall i, (i <= 2 * d)%nat -> 0 < en ball i) /\ (forall i, (i < 2 * d)%nat -> 0 < en (sh_ipv sh) i).

  Lemma full_level_pos i : (i < 2 * d)%nat -> 0 < full_level i.
  Proof.
    intros H. destruct positive as (Hs & Hr & Hb & Hi). unfold full_level.
    repeat apply Rmult_lt_0_compat; auto. apply pow_lt; auto.
  Qed.

  (** *** The estimate is positive, and bounds of at most one never raise it above
      the cost of the full enumeration, level by level; that cost is reached
      without pruning *)
  Theorem enum_cost_range b det : profile d b -> (forall i, (i < d)%nat -> en b i <= 1) ->
    exists total det' full detf,
      cost b det = Some (total, det') /\ cost (repeat 1 d) det = Some (full, detf) /\
      (forall i, (i < 2 * d)%nat -> 0 < en det' i <= en detf i) /\ 0 < total <= full /\
      (forall i, (i < 2 * d)%nat ->
         en detf (2 * d - S i) = sym * en ball (S i) * en (sh_ipv sh) i * sh_nr sh ^ S i).
  Proof.
    intros Pb B. destruct (cost_spec b det Pb) as (total & det' & E & L & D & T).
    destruct (cost_spec (repeat 1 d) det (ones_profile d)) as (full & detf & Ef & Lf & Df & Tf).
    destruct sizes as (Hd & Hn & Hball & Hipv).
    exists total, det', full, detf. split; [exact E|]. split; [exact Ef|].
    assert (W : forall i, (i < 2 * d)%nat -> 0 < full_level i * width b i <= full_level i * width (repeat 1 d) i).
    { intros i Hi. rewrite width_ones by auto. pose proof (full_level_pos i Hi).
      pose proof (width_pos fresh fresh_len d b i Hi Pb). pose proof (width_le_1 fresh fresh_len d b i Hi Pb B).
      split; [apply Rmult_lt_0_compat; auto|]. apply Rmult_le_compat_l; lra. }
    split; [|split].
    - intros i Hi. replace i with (2 * d - S (2 * d - S i))%nat by lia. rewrite D, Df by lia. apply W. lia.
    - rewrite T, Tf. split; [apply upto_pos; [lia|]|apply upto_le]; intros i Hi; apply W; auto.
    - intros i Hi. rewrite Df by auto. rewrite width_ones by auto. rewrite Rmult_1_r. reflexivity.
  Qed.

  (** *** Levels of even dimension never get cheaper when bounds are relaxed *)
  Theorem enum_cost_even_monotone b b' det total total' det1 det2 :
    profile d b -> profile d b' -> relaxed d b b' ->
    cost b det = Some (total, det1) -> cost b' det = Some (total', det2) ->
    forall k, (1 <= k <= d)%nat -> en det1 (2 * d - 2 * k) <= en det2 (2 * d - 2 * k).
  Proof.
    intros Pb Pb' R E E' k Hk.
    destruct (enum_cost_levels b det Pb) as (t & dt & E1 & _ & D & _). rewrite E in E1. injection E1 as -> ->.
    destruct (enum_cost_levels b' det Pb') as (t' & dt' & E1 & _ & D' & _). rewrite E' in E1. injection E1 as -> ->.
    rewrite D, D' by auto. destruct positive as (Hs & Hr & Hb & Hi). destruct sizes as (Hd & _).
    apply Rmult_le_compat_l.
    - left. repeat apply Rmult_lt_0_compat; auto; [apply Hb; lia|apply Hi; lia|apply pow_lt; auto].
    - apply part_mono; [apply (profile_lt d); [lia|auto]..|]. intros i Hi'. apply R. lia.
  Qed.
End Cost.
