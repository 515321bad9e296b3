(** C67: slope, determinants, slide potential and Gaussian heuristic of a basis. *)
From Coq Require Import List ZArith Reals Lia Lra Psatz.
From Verif Require Import ShapeModel.
Import ListNotations.
Local Open Scope R_scope.

(** ** Specification *)

(** f 0 + ... + f (n-1) and f 0 * ... * f (n-1) *)
Fixpoint rsum (n : nat) (f : nat -> R) : R := match n with O => 0 | S n => rsum n f + f n end.
Fixpoint rprod (n : nat) (f : nat -> R) : R := match n with O => 1 | S n => rprod n f * f n end.
(** the squared error of the line a + b k at x_0, ..., x_(n-1) *)
Definition sq_error (n : nat) (x : nat -> R) (a b : R) : R := rsum n (fun k => (x k - (a + b * INR k)) ^ 2).
(** volume of the unit ball of dimension n *)
Fixpoint ball (n : nat) : R * R :=
  match n with O => (1, 2) | S n => let (v, w) := ball n in (w, 2 * PI / INR (n + 2) * v) end.
Definition ball_volume (n : nat) : R := fst (ball n).
(** Gamma(n/2 + 1) *)
Fixpoint gam (n : nat) : R * R :=
  match n with O => (1, sqrt PI / 2) | S n => let (v, w) := gam n in (w, (INR n / 2 + 1) * v) end.
Definition half_gamma (n : nat) : R := fst (gam n).
(** lgamma is the logarithm of Gamma at the arguments that occur *)
Definition lgamma_ok (lgamma : R -> R) : Prop := forall n, (1 <= n)%nat -> lgamma (INR n / 2 + 1) = ln (half_gamma n).
(** all r_i are positive *)
Definition pos (rexp : nat -> R * Z) : Prop := forall i, 0 < fst (rexp i).

(** ** Sums *)
Lemma rsum_ext n f g : (forall k, (k < n)%nat -> f k = g k) -> rsum n f = rsum n g.
Proof. induction n as [|n IH]; intros H; cbn [rsum]; [reflexivity|]. rewrite IH by (intros; apply H; lia). rewrite H by lia. reflexivity. Qed.
Lemma rsum_add n f g : rsum n (fun k => f k + g k) = rsum n f + rsum n g.
Proof. induction n as [|n IH]; cbn [rsum]; [lra|]. rewrite IH. ring. Qed.
Lemma rsum_scal n c f : rsum n (fun k => c * f k) = c * rsum n f.
Proof. induction n as [|n IH]; cbn [rsum]; [lra|]. rewrite IH. ring. Qed.
Lemma rsum_const n c : rsum n (fun _ => c) = INR n * c.
Proof. induction n as [|n IH]; [cbn; lra|]. rewrite S_INR. cbn [rsum]. rewrite IH. ring. Qed.
Lemma rsum_shift n f : rsum (S n) f = f 0%nat + rsum n (fun k => f (S k)).
Proof. induction n as [|n IH]; [cbn; ring|]. cbn [rsum] in *. rewrite IH. ring. Qed.
Lemma rsum_rev n f : rsum n (fun k => f (n - 1 - k)%nat) = rsum n f.
Proof.
  induction n as [|n IH]; [reflexivity|]. rewrite rsum_shift. replace (S n - 1 - 0)%nat with n by lia.
  rewrite (rsum_ext n _ (fun k => f (n - 1 - k)%nat)) by (intros; f_equal; lia). rewrite IH. cbn [rsum]. ring.
Qed.
Lemma rsum_split n m f : rsum (n + m) f = rsum n f + rsum m (fun k => f (n + k)%nat).
Proof. induction m as [|m IH]; [rewrite Nat.add_0_r; cbn; ring|]. rewrite Nat.add_succ_r. cbn [rsum]. rewrite IH. ring. Qed.
Lemma fold_rsum (f : nat -> R) n : forall s a, fold_left (fun a i => a + f i) (seq s n) a = a + rsum n (fun k => f (s + k)%nat).
Proof.
  induction n as [|n IH]; intros s a; [cbn; ring|]. cbn [seq fold_left]. rewrite IH, rsum_shift, Nat.add_0_r.
  rewrite (rsum_ext n _ (fun k => f (s + S k)%nat)) by (intros; f_equal; lia). ring.
Qed.
Lemma rprod_pos n f : (forall k, (k < n)%nat -> 0 < f k) -> 0 < rprod n f.
Proof. induction n as [|n IH]; intros H; cbn [rprod]; [lra|]. apply Rmult_lt_0_compat; [apply IH; intros; apply H; lia|apply H; lia]. Qed.
Lemma ln_rprod n f : (forall k, (k < n)%nat -> 0 < f k) -> ln (rprod n f) = rsum n (fun k => ln (f k)).
Proof.
  induction n as [|n IH]; intros H; cbn [rprod rsum]; [apply ln_1|].
  rewrite ln_mult; [|apply rprod_pos; intros; apply H; lia|apply H; lia]. rewrite IH by (intros; apply H; lia). reflexivity.
Qed.

(** ** Slope *)
Section Slope.
Variable n : nat.
Definition w (k : nat) : R := (1 - INR n) / 2 + INR k.
Lemma w_sum_gen c m : rsum m (fun k => c + INR k) = INR m * c + INR m * (INR m - 1) / 2.
Proof. induction m as [|m IH]; [cbn; lra|]. cbn [rsum]. rewrite IH, S_INR. field. Qed.
Lemma w_sq_gen c m : rsum m (fun k => (c + INR k) ^ 2) = INR m * c ^ 2 + c * INR m * (INR m - 1) + INR m * (INR m - 1) * (2 * INR m - 1) / 6.
Proof. induction m as [|m IH]; [cbn; lra|]. cbn [rsum]. rewrite IH, S_INR. field. Qed.
Lemma w_sum : rsum n w = 0.
Proof. unfold w. rewrite w_sum_gen. field. Qed.
Lemma w_sq : rsum n (fun k => w k ^ 2) = (INR n + 1) * INR n * (INR n - 1) / 12.
Proof. unfold w. rewrite w_sq_gen. field. Qed.
Lemma error_centered x a b : sq_error n x a b =
  rsum n (fun k => x k ^ 2) - 2 * (a + b * ((INR n - 1) / 2)) * rsum n x - 2 * b * rsum n (fun k => w k * x k)
    + INR n * (a + b * ((INR n - 1) / 2)) ^ 2 + b ^ 2 * ((INR n + 1) * INR n * (INR n - 1) / 12).
Proof.
  rewrite <- w_sq. set (A := a + b * ((INR n - 1) / 2)).
  assert (E : sq_error n x a b = rsum n (fun k => x k ^ 2 + (- 2 * A) * x k + (- 2 * b) * (w k * x k) + A ^ 2 + b ^ 2 * w k ^ 2 + (2 * A * b) * w k)).
  { unfold sq_error. apply rsum_ext. intros k _. unfold A, w. field. }
  rewrite E, !rsum_add, !rsum_scal, rsum_const, w_sum. ring.
Qed.
End Slope.

Definition lns (rexp : nat -> R * Z) (start k : nat) : R := ln (get_r rexp (start + k)).
Lemma powerRZ_2_pos e : 0 < powerRZ 2 e.
Proof. apply powerRZ_lt. lra. Qed.
Lemma ln_powerRZ e : ln (powerRZ 2 e) = IZR e * ln 2.
Proof. rewrite powerRZ_Rpower by lra. unfold Rpower. rewrite ln_exp. reflexivity. Qed.
Lemma lns_eq rexp start k : pos rexp -> lns rexp start k = ln (fst (rexp (start + k)%nat)) + IZR (snd (rexp (start + k)%nat)) * ln 2.
Proof. intros P. unfold lns, get_r. rewrite ln_mult; [|apply P|apply powerRZ_2_pos]. rewrite ln_powerRZ. reflexivity. Qed.
Lemma get_r_pos rexp i : pos rexp -> 0 < get_r rexp i.
Proof. intros P. apply Rmult_lt_0_compat; [apply P|apply powerRZ_2_pos]. Qed.

Lemma slope_fold rexp : pos rexp -> forall m start v1 wt,
  fold_left (slope_step rexp) (seq start m) (v1, wt) = (v1 + rsum m (fun k => (wt + INR k) * lns rexp start k), wt + INR m).
Proof.
  intros P. induction m as [|m IH]; intros start v1 wt; [cbn; f_equal; ring|]. cbn [seq fold_left]. unfold slope_step at 2. cbn [fst snd].
  rewrite IH, rsum_shift, (S_INR m). f_equal; [|ring].
  rewrite (rsum_ext m _ (fun k => (wt + INR (S k)) * lns rexp start (S k))).
  - cbn [INR]. rewrite (lns_eq rexp start 0 P), Nat.add_0_r. ring.
  - intros k _. rewrite S_INR. unfold lns. replace (S start + k)%nat with (start + S k)%nat by lia. ring.
Qed.
Lemma v2_pos n : (2 <= n)%nat -> 0 < (INR n + 1) * INR n * (INR n - 1) / 12.
Proof. intros H. apply le_INR in H. cbn in H. apply Rmult_lt_0_compat; [|lra]. apply Rmult_lt_0_compat; [|lra]. apply Rmult_lt_0_compat; lra. Qed.
Lemma slope_value rexp start n : pos rexp -> (2 <= n)%nat ->
  get_current_slope rexp start (start + n) = Some (rsum n (fun k => w n k * lns rexp start k) / ((INR n + 1) * INR n * (INR n - 1) / 12)).
Proof.
  intros P H. unfold get_current_slope. cbv zeta. replace (Z.of_nat (start + n) - Z.of_nat start)%Z with (Z.of_nat n) by lia.
  replace (start + n - start)%nat with n by lia. rewrite (slope_fold rexp P). cbn [fst]. rewrite plus_IZR, minus_IZR, <- INR_IZR_INZ.
  unfold fdiv. pose proof (v2_pos n H). destruct (Req_EM_T _ _) as [E|_]; [lra|]. rewrite Rplus_0_l. reflexivity.
Qed.

(** get_current_slope is the slope of the line of least squares through the logarithms of
    r_i (squared lengths): no other line fits as well *)
Theorem slope_least_squares : forall rexp start n, pos rexp -> (2 <= n)%nat ->
  exists s a, get_current_slope rexp start (start + n) = Some s /\
    forall a' b', sq_error n (lns rexp start) a s <= sq_error n (lns rexp start) a' b' /\
      (sq_error n (lns rexp start) a s = sq_error n (lns rexp start) a' b' -> a' = a /\ b' = s).
Proof.
  intros rexp start n P H. rewrite (slope_value rexp start n P H). pose proof (v2_pos n H) as V. set (v2 := (INR n + 1) * INR n * (INR n - 1) / 12) in *.
  set (v1 := rsum n (fun k => w n k * lns rexp start k)). set (sx := rsum n (lns rexp start)). set (c := (INR n - 1) / 2).
  assert (NP : 0 < INR n) by (apply lt_0_INR; lia).
  exists (v1 / v2), (sx / INR n - v1 / v2 * c). split; [reflexivity|]. intros a' b'. rewrite !error_centered. fold v1 sx v2 c.
  set (A := a' + b' * c).
  assert (E : rsum n (fun k => lns rexp start k ^ 2) - 2 * A * sx - 2 * b' * v1 + INR n * A ^ 2 + b' ^ 2 * v2
    - (rsum n (fun k => lns rexp start k ^ 2) - 2 * (sx / INR n - v1 / v2 * c + v1 / v2 * c) * sx - 2 * (v1 / v2) * v1
       + INR n * (sx / INR n - v1 / v2 * c + v1 / v2 * c) ^ 2 + (v1 / v2) ^ 2 * v2)
    = INR n * (A - sx / INR n) ^ 2 + v2 * (b' - v1 / v2) ^ 2) by (field; lra).
  pose proof (Rmult_le_pos _ _ (Rlt_le _ _ NP) (pow2_ge_0 (A - sx / INR n))) as Q1.
  pose proof (Rmult_le_pos _ _ (Rlt_le _ _ V) (pow2_ge_0 (b' - v1 / v2))) as Q2.
  split; [lra|]. intros EQ.
  assert (Z2 : v2 * (b' - v1 / v2) ^ 2 = 0) by lra. assert (Z1 : INR n * (A - sx / INR n) ^ 2 = 0) by lra.
  assert (B : b' = v1 / v2).
  { apply Rmult_integral in Z2. destruct Z2 as [Z2|Z2]; [lra|]. cbn in Z2. apply Rmult_integral in Z2. lra. }
  split; [|exact B].
  apply Rmult_integral in Z1. destruct Z1 as [Z1|Z1]; [lra|]. assert (Z1' : A - sx / INR n = 0) by (cbn in Z1; apply Rmult_integral in Z1; lra).
  unfold A in Z1'. rewrite B in Z1'. lra.
Qed.

(** a geometric series r_i = c q^i has slope ln q *)
Theorem slope_geometric : forall rexp start n c q, pos rexp -> (2 <= n)%nat -> 0 < c -> 0 < q ->
  (forall k, (k < n)%nat -> get_r rexp (start + k) = c * q ^ k) -> get_current_slope rexp start (start + n) = Some (ln q).
Proof.
  intros rexp start n c q P H C Q G. destruct (slope_least_squares rexp start n P H) as (s & a & E & L).
  destruct (L (ln c) (ln q)) as [L1 L2].
  assert (Z : sq_error n (lns rexp start) (ln c) (ln q) = 0).
  { unfold sq_error. rewrite (rsum_ext n _ (fun _ => 0)).
    - rewrite rsum_const. ring.
    - intros k K. unfold lns. rewrite G by exact K. rewrite ln_mult by (try apply pow_lt; assumption). rewrite ln_pow by assumption. ring. }
  assert (NN : 0 <= sq_error n (lns rexp start) a s).
  { unfold sq_error. clear. induction n as [|n IH]; cbn [rsum]; [lra|]. pose proof (pow2_ge_0 (lns rexp start n - (a + s * INR n))). lra. }
  rewrite E. f_equal. symmetry. apply L2. lra.
Qed.

(** scaling the basis does not change the slope *)
Theorem slope_scaled : forall rexp rexp' start n c, pos rexp -> pos rexp' -> (2 <= n)%nat -> 0 < c ->
  (forall k, (k < n)%nat -> get_r rexp' (start + k) = c * get_r rexp (start + k)) ->
  get_current_slope rexp' start (start + n) = get_current_slope rexp start (start + n).
Proof.
  intros rexp rexp' start n c P P' H C G. rewrite !slope_value by assumption. do 2 f_equal.
  rewrite (rsum_ext n _ (fun k => w n k * lns rexp start k + ln c * w n k)).
  - rewrite rsum_add, rsum_scal, w_sum. ring.
  - intros k K. unfold lns. rewrite G by exact K. rewrite ln_mult by (try apply get_r_pos; assumption). ring.
Qed.

(** the reversed dual basis has the same slope *)
Theorem slope_dual : forall rexp rexp' start n, pos rexp -> pos rexp' -> (2 <= n)%nat ->
  (forall k, (k < n)%nat -> get_r rexp' (start + k) = / get_r rexp (start + (n - 1 - k))) ->
  get_current_slope rexp' start (start + n) = get_current_slope rexp start (start + n).
Proof.
  intros rexp rexp' start n P P' H G. rewrite !slope_value by assumption. do 2 f_equal.
  rewrite <- (rsum_rev n (fun k => w n k * lns rexp start k)). apply rsum_ext. intros k K.
  unfold lns. rewrite G by exact K. rewrite ln_Rinv by (apply get_r_pos; exact P).
  assert (W : w n (n - 1 - k) = - w n k) by (unfold w; rewrite !minus_INR by lia; cbn [INR]; field). rewrite W. ring.
Qed.

(** one row: no slope (0/0) *)
Theorem slope_one_row_refuted : exists rexp start stop, pos rexp /\ (start < stop)%nat /\ get_current_slope rexp start stop = None.
Proof.
  exists (fun _ => (1, 0%Z)), 0%nat, 1%nat. split; [intros i; cbn; lra|]. split; [lia|]. unfold get_current_slope, fdiv.
  destruct (Req_EM_T _ _) as [_|N]; [reflexivity|]. exfalso. apply N. cbn. lra.
Qed.

(** ** Determinants *)
Lemma log_det_value rexp d s e : pos rexp -> (0 <= s <= e)%Z -> (e <= d)%Z ->
  get_log_det rexp d s e = rsum (Z.to_nat (e - s)) (fun k => ln (get_r rexp (Z.to_nat s + k))).
Proof.
  intros P H1 H2. unfold get_log_det. cbv zeta. rewrite Z.max_r, Z.min_r by lia. rewrite fold_rsum, Rplus_0_l.
  replace (Z.to_nat e - Z.to_nat s)%nat with (Z.to_nat (e - s)) by lia. reflexivity.
Qed.
(** get_log_det is the logarithm of the squared volume of rows start..end-1 of the basis,
    ranges beyond the basis are cut *)
Theorem log_det_volume : forall rexp d s e, pos rexp -> (0 <= d)%Z -> (Z.max 0 s <= Z.min d e)%Z ->
  exp (get_log_det rexp d s e) = rprod (Z.to_nat (Z.min d e - Z.max 0 s)) (fun k => get_r rexp (Z.to_nat (Z.max 0 s) + k)).
Proof.
  intros rexp d s e P D H. replace (get_log_det rexp d s e) with (get_log_det rexp d (Z.max 0 s) (Z.min d e)).
  - rewrite log_det_value by (try exact P; lia). rewrite <- (ln_rprod _ (fun k => get_r rexp (Z.to_nat (Z.max 0 s) + k))).
    + apply exp_ln, rprod_pos. intros. apply get_r_pos, P.
    + intros. apply get_r_pos, P.
  - unfold get_log_det. cbv zeta. do 3 f_equal; lia.
Qed.
Lemma exp_pow x n : exp x ^ n = exp (INR n * x).
Proof. induction n as [|n IH]; [cbn; rewrite Rmult_0_l, exp_0; reflexivity|]. rewrite S_INR. cbn [pow]. rewrite IH, <- exp_plus. f_equal. ring. Qed.
(** get_root_det is the geometric mean of r_start..r_(end-1) *)
Theorem root_det_mean : forall rexp d s e, pos rexp -> (0 <= s < e)%Z -> (e <= d)%Z ->
  exists x, get_root_det rexp d s e = Some x /\ 0 < x /\
    x ^ Z.to_nat (e - s) = rprod (Z.to_nat (e - s)) (fun k => get_r rexp (Z.to_nat s + k)).
Proof.
  intros rexp d s e P H1 H2. unfold get_root_det. cbv zeta. rewrite Z.max_r, Z.min_r by lia. unfold fdiv.
  assert (N : IZR (e - s) <> 0) by (apply not_0_IZR; lia). destruct (Req_EM_T _ _) as [E|_]; [contradiction|].
  eexists. split; [reflexivity|]. split; [apply exp_pos|]. rewrite exp_pow, INR_IZR_INZ, Z2Nat.id by lia.
  replace (IZR (e - s) * (get_log_det rexp d s e / IZR (e - s))) with (get_log_det rexp d s e) by (field; exact N).
  rewrite log_det_volume by (try exact P; lia). rewrite Z.max_r, Z.min_r by lia. reflexivity.
Qed.
(** an empty range has no root determinant (0/0) *)
Theorem root_det_empty_refuted : exists rexp d s e, pos rexp /\ (0 <= s <= e)%Z /\ (e <= d)%Z /\ get_root_det rexp d s e = None.
Proof.
  exists (fun _ => (1, 0%Z)), 1%Z, 1%Z, 1%Z. split; [intros i; cbn; lra|]. split; [lia|]. split; [lia|].
  unfold get_root_det, fdiv. destruct (Req_EM_T _ _) as [_|N]; [reflexivity|]. exfalso. apply N. reflexivity.
Qed.

(** ** Slide potential *)
Lemma rsum_seq0 n f : fold_left (fun a i => a + f i) (seq 0 n) 0 = rsum n f.
Proof. rewrite fold_rsum, Rplus_0_l. reflexivity. Qed.
(** weighting block i with p - i is summing over all prefixes of blocks *)
Lemma prefix_sums (g : nat -> R) bs : forall p,
  rsum p (fun i => (INR p - INR i) * rsum bs (fun k => g (i * bs + k)%nat)) = rsum p (fun j => rsum (S j * bs) g).
Proof.
  assert (B : forall p, rsum p (fun i => rsum bs (fun k => g (i * bs + k)%nat)) = rsum (p * bs) g).
  { induction p as [|p IH]; [reflexivity|]. cbn [rsum]. rewrite IH. replace (S p * bs)%nat with (p * bs + bs)%nat by lia. rewrite rsum_split. reflexivity. }
  induction p as [|p IH]; [reflexivity|]. cbn [rsum].
  rewrite (rsum_ext p _ (fun i => (INR p - INR i) * rsum bs (fun k => g (i * bs + k)%nat) + rsum bs (fun k => g (i * bs + k)%nat))).
  - rewrite rsum_add, IH, B. replace (S p * bs)%nat with (p * bs + bs)%nat by lia. rewrite rsum_split, S_INR. ring.
  - intros i _. rewrite S_INR. ring.
Qed.
(** with start_row = 0: the sum over j = 1, 2, ... of the logarithms of the squared volumes of
    the first j * block_size rows, for all j with j * block_size < end_row *)
Theorem slide_potential_prefixes : forall rexp d e bs, pos rexp -> (1 <= bs)%Z -> (1 <= e <= d)%Z ->
  exists p, (forall j, (1 <= j)%nat -> ((Z.of_nat j * bs < e)%Z <-> (j <= p)%nat)) /\
    get_slide_potential rexp d 0 e bs = Some (rsum p (fun j => get_log_det rexp d 0 (Z.of_nat (S j) * bs))).
Proof.
  intros rexp d e bs P B E. unfold get_slide_potential. destruct (Z.eq_dec bs 0) as [Z0|_]; [lia|]. cbv zeta. rewrite Z.sub_0_r.
  rewrite Z.quot_div_nonneg, Z.rem_mod_nonneg by lia.
  set (p := if Z.eq_dec (e mod bs) 0 then (e / bs - 1)%Z else (e / bs)%Z).
  assert (HP : (0 <= p)%Z /\ (p * bs < e)%Z /\ (e <= (p + 1) * bs)%Z).
  { pose proof (Z_div_mod_eq_full e bs) as DM. pose proof (Z.mod_pos_bound e bs ltac:(lia)) as MB. unfold p. destruct (Z.eq_dec (e mod bs) 0) as [M|M].
    - rewrite M in DM. split; [nia|]. split; nia.
    - split; [apply Z.div_pos; lia|]. split; nia. }
  clearbody p. exists (Z.to_nat p). split; [intros j J; split; intros K; nia|]. f_equal. rewrite rsum_seq0.
  set (g := fun i => ln (get_r rexp i)).
  assert (L : forall a b, (0 <= a <= b)%Z -> (b <= d)%Z -> get_log_det rexp d a b = rsum (Z.to_nat (b - a)) (fun k => g (Z.to_nat a + k)%nat)) by (intros; apply log_det_value; assumption).
  rewrite (rsum_ext _ _ (fun i => (INR (Z.to_nat p) - INR i) * rsum (Z.to_nat bs) (fun k => g (i * Z.to_nat bs + k)%nat))).
  - rewrite prefix_sums. apply rsum_ext. intros j J. rewrite L by nia. replace (Z.to_nat (Z.of_nat (S j) * bs - 0)) with (S j * Z.to_nat bs)%nat by nia. reflexivity.
  - intros i I. rewrite minus_IZR, !INR_IZR_INZ, Z2Nat.id by lia. f_equal. rewrite L by nia.
    replace (Z.to_nat ((Z.of_nat i + 1) * bs - Z.of_nat i * bs)) with (Z.to_nat bs) by nia. apply rsum_ext. intros k K. f_equal. nia.
Qed.
(** start_row only enters the number of blocks: with start_row = 2 the rows 0, 1 are used and
    rows 2, 3 are not *)
Theorem slide_potential_start_refuted : exists rexp rexp' d s e bs, pos rexp /\ pos rexp' /\ (0 < s < e)%Z /\ (e <= d)%Z /\ (1 <= bs)%Z /\
  (forall i, (Z.to_nat s <= i)%nat -> rexp i = rexp' i) /\ get_slide_potential rexp d s e bs <> get_slide_potential rexp' d s e bs.
Proof.
  exists (fun _ => (1, 0%Z)), (fun i => if (i <? 2)%nat then (2, 0%Z) else (1, 0%Z)), 6%Z, 2%Z, 6%Z, 2%Z.
  split; [intros i; cbn; lra|]. split; [intros i; destruct (i <? 2)%nat; cbn; lra|]. split; [lia|]. split; [lia|]. split; [lia|].
  split; [intros i I; destruct (Nat.ltb_spec i 2); [lia|reflexivity]|].
  unfold get_slide_potential. destruct (Z.eq_dec 2 0) as [Z0|_]; [discriminate|]. change (Z.quot (6 - 2) 2) with 2%Z. change (Z.rem (6 - 2) 2) with 0%Z. cbv zeta.
  destruct (Z.eq_dec 0 0) as [_|N]; [|congruence]. change (Z.to_nat (2 - 1)) with 1%nat. cbn [seq fold_left].
  assert (L1 : get_log_det (fun _ => (1, 0%Z)) 6 (Z.of_nat 0 * 2) ((Z.of_nat 0 + 1) * 2) = 0).
  { rewrite log_det_value; [|intros i; cbn; lra|lia|lia]. change (Z.to_nat _) with 2%nat at 1. cbn [rsum]. unfold get_r. cbn [fst snd powerRZ]. rewrite Rmult_1_r, ln_1. ring. }
  assert (L2 : get_log_det (fun i => if (i <? 2)%nat then (2, 0%Z) else (1, 0%Z)) 6 (Z.of_nat 0 * 2) ((Z.of_nat 0 + 1) * 2) = ln 2 + ln 2).
  { rewrite log_det_value; [|intros i; destruct (i <? 2)%nat; cbn; lra|lia|lia]. change (Z.to_nat _) with 2%nat at 1. cbn [rsum]. unfold get_r. change (snd _) with 0%Z. change (fst _) with 2. cbn [powerRZ]. rewrite Rmult_1_r. ring. }
  rewrite L1, L2. intros E. injection E as E. assert (0 < ln 2) by (rewrite <- ln_1; apply ln_increasing; lra). change (IZR (2 - 1 - Z.of_nat 0)) with 1 in E. lra.
Qed.

(** ** Gaussian heuristic *)

(** the squared radius of the ball whose volume is that of rows with r_0, ..., r_(n-1) *)
Definition gh_radius2 (n : nat) (r : nat -> R) (x : R) : Prop := 0 < x /\ ball_volume n * sqrt x ^ n = sqrt (rprod n r).

Lemma ball_gam n : fst (ball n) * fst (gam n) = sqrt PI ^ n /\ snd (ball n) * snd (gam n) = sqrt PI ^ S n.
Proof.
  assert (PP := PI_RGT_0). assert (S2 : sqrt PI * sqrt PI = PI) by (apply sqrt_sqrt; lra).
  induction n as [|n [IH1 IH2]]; [cbn; split; lra|]. cbn [ball gam]. destruct (ball n) as [v x], (gam n) as [g h]. cbn [fst snd] in *.
  split; [exact IH2|]. replace (sqrt PI ^ S (S n)) with (PI * sqrt PI ^ n) by (cbn [pow]; rewrite <- S2 at 1; ring). rewrite <- IH1.
  rewrite plus_INR. cbn [INR]. assert (0 <= INR n) by apply pos_INR. field. lra.
Qed.
Lemma half_gamma_pos n : 0 < half_gamma n.
Proof.
  unfold half_gamma. enough (0 < fst (gam n) /\ 0 < snd (gam n)) by tauto. induction n as [|n IH].
  - cbn. split; [lra|]. pose proof (sqrt_lt_R0 PI PI_RGT_0). lra.
  - cbn [gam]. destruct (gam n) as [g h]. cbn [fst snd] in *. split; [apply IH|]. apply Rmult_lt_0_compat; [|apply IH]. pose proof (pos_INR n). lra.
Qed.
(** the constant of the code *)
Definition gh_const (lgamma : R -> R) (n : nat) : R := exp (lgamma (INR n / 2 + 1) * 2 / INR n) / PI.
Lemma gh_const_pos lgamma n : 0 < gh_const lgamma n.
Proof. apply Rmult_lt_0_compat; [apply exp_pos|apply Rinv_0_lt_compat, PI_RGT_0]. Qed.
Lemma gh_const_pow lgamma n : lgamma_ok lgamma -> (1 <= n)%nat -> gh_const lgamma n ^ n * PI ^ n = half_gamma n ^ 2.
Proof.
  intros L N. unfold gh_const. rewrite <- Rpow_mult_distr. replace (exp _ / PI * PI) with (exp (lgamma (INR n / 2 + 1) * 2 / INR n)) by (field; apply PI_neq0).
  rewrite exp_pow, L by exact N. assert (INR n <> 0) by (apply not_0_INR; lia).
  replace (INR n * (ln (half_gamma n) * 2 / INR n)) with (ln (half_gamma n) + ln (half_gamma n)) by (field; assumption).
  rewrite exp_plus, exp_ln by apply half_gamma_pos. ring.
Qed.
Lemma sqrt_pow_comm x n : 0 <= x -> sqrt x ^ n = sqrt (x ^ n).
Proof.
  intros H. induction n as [|n IH]; [cbn; symmetry; apply sqrt_1|]. cbn [pow]. rewrite IH, sqrt_mult; [reflexivity|exact H|apply pow_le; exact H].
Qed.
(** the code's constant times the root determinant is the square of the Gaussian heuristic *)
Theorem gh_is_gaussian_heuristic : forall lgamma rexp d s n, lgamma_ok lgamma -> pos rexp -> (1 <= n)%nat -> (Z.of_nat s + Z.of_nat n <= d)%Z ->
  exists x, get_root_det rexp d (Z.of_nat s) (Z.of_nat s + Z.of_nat n) = Some x /\ 0 < x /\
    gh_radius2 n (fun k => get_r rexp (s + k)) (gh_const lgamma n * x).
Proof.
  intros lgamma rexp d s n L P N D. destruct (root_det_mean rexp d (Z.of_nat s) (Z.of_nat s + Z.of_nat n) P) as (x & E & X & V); [lia|lia|].
  exists x. split; [exact E|]. split; [exact X|]. replace (Z.of_nat s + Z.of_nat n - Z.of_nat s)%Z with (Z.of_nat n) in V by lia. rewrite !Nat2Z.id in V.
  pose proof (gh_const_pos lgamma n) as C. split; [apply Rmult_lt_0_compat; assumption|].
  rewrite sqrt_pow_comm by (apply Rlt_le, Rmult_lt_0_compat; assumption). rewrite Rpow_mult_distr, V.
  assert (GP := half_gamma_pos n). assert (QP : 0 < sqrt PI ^ n) by (apply pow_lt, sqrt_lt_R0, PI_RGT_0).
  assert (CN : gh_const lgamma n ^ n = (half_gamma n / sqrt PI ^ n) ^ 2).
  { pose proof (gh_const_pow lgamma n L N) as G. assert (PN : PI ^ n = sqrt PI ^ n * sqrt PI ^ n) by (rewrite <- Rpow_mult_distr, sqrt_sqrt by (pose proof PI_RGT_0; lra); reflexivity).
    rewrite PN in G. apply Rmult_eq_reg_r with (sqrt PI ^ n * sqrt PI ^ n); [|apply Rmult_integral_contrapositive_currified; lra]. rewrite G. field. lra. }
  rewrite CN, sqrt_mult; [|apply pow2_ge_0|apply Rlt_le, rprod_pos; intros; apply get_r_pos, P].
  rewrite sqrt_pow2 by (apply Rlt_le, Rdiv_lt_0_compat; assumption).
  destruct (ball_gam n) as [B _]. fold (ball_volume n) in B. fold (half_gamma n) in B.
  replace (ball_volume n * (half_gamma n / sqrt PI ^ n * sqrt (rprod n (fun k => get_r rexp (s + k))))) with ((ball_volume n * half_gamma n) / sqrt PI ^ n * sqrt (rprod n (fun k => get_r rexp (s + k)))) by (field; lra).
  rewrite B. field. lra.
Qed.

(** adjust_radius_to_gh_bound takes the minimum of the radius and factor times the square of
    the Gaussian heuristic, whatever the exponent *)
Lemma powerRZ_inv_2 e : powerRZ 2 (- e) * powerRZ 2 e = 1.
Proof. rewrite <- powerRZ_add by lra. replace (- e + e)%Z with 0%Z by lia. reflexivity. Qed.
Theorem adjust_radius_min : forall lgamma max_dist expo n root_det factor, 
  adjust_radius lgamma max_dist expo (Z.of_nat n) root_det factor * powerRZ 2 expo
  = Rmin (max_dist * powerRZ 2 expo) (gh_const lgamma n * root_det * factor).
Proof.
  intros lgamma max_dist expo n root_det factor. unfold adjust_radius. cbv zeta. rewrite <- INR_IZR_INZ. fold (gh_const lgamma n).
  pose proof (powerRZ_2_pos expo) as PE. set (g := gh_const lgamma n * root_det).
  assert (E : g * powerRZ 2 (- expo) * factor * powerRZ 2 expo = g * factor).
  { replace (g * powerRZ 2 (- expo) * factor * powerRZ 2 expo) with (g * factor * (powerRZ 2 (- expo) * powerRZ 2 expo)) by ring. rewrite powerRZ_inv_2. ring. }
  destruct (Rlt_dec _ _) as [L|L].
  - rewrite E. rewrite Rmin_right; [reflexivity|]. rewrite <- E. apply Rmult_le_compat_r; lra.
  - rewrite Rmin_left; [reflexivity|]. rewrite <- E. apply Rmult_le_compat_r; lra.
Qed.

Section Bkz.
Variables (lgamma : R -> R) (rexp : nat -> R * Z) (d : Z).
Hypothesis P : pos rexp.
Variables kappa n : nat.
Hypothesis N : (1 <= n)%nat.
Hypothesis D : (Z.of_nat kappa + Z.of_nat n <= d)%Z.

Lemma root_det_some : exists x, get_root_det rexp d (Z.of_nat kappa) (Z.of_nat kappa + Z.of_nat n) = Some x /\ 0 < x.
Proof. destruct (root_det_mean rexp d (Z.of_nat kappa) (Z.of_nat kappa + Z.of_nat n) P) as (x & E & X & _); [lia|lia|]. eauto. Qed.
End Bkz.

(** the quotient by which BKZ looks up pruning parameters is max(1, r_kappa / GH^2): blocks
    whose first vector is shorter than the Gaussian heuristic are treated as if it were equal *)
Theorem pruning_quotient : forall lgamma rexp d kappa n x, pos rexp -> (1 <= n)%nat -> (Z.of_nat kappa + Z.of_nat n <= d)%Z ->
  get_root_det rexp d (Z.of_nat kappa) (Z.of_nat kappa + Z.of_nat n) = Some x ->
  exists radius gh, pruning_args rexp d lgamma kappa n = Some (radius, gh) /\
    radius = get_r rexp kappa /\ radius / gh = Rmax 1 (get_r rexp kappa / (gh_const lgamma n * x)).
Proof.
  intros lgamma rexp d kappa n x P N D E. unfold pruning_args. pose proof (P kappa) as PK.
  assert (X : 0 < x) by (destruct (root_det_some rexp d P kappa n N D) as (y & Ey & Y); congruence).
  destruct (rexp kappa) as [m e] eqn:ER. cbn [fst] in PK. rewrite E. eexists _, _. split; [reflexivity|].
  assert (G : get_r rexp kappa = m * powerRZ 2 e) by (unfold get_r; rewrite ER; reflexivity). split; [symmetry; exact G|].
  rewrite adjust_radius_min, Rmult_1_r, G. pose proof (powerRZ_2_pos e) as PE. assert (A : 0 < m * powerRZ 2 e) by (apply Rmult_lt_0_compat; assumption).
  set (r := m * powerRZ 2 e) in *. assert (B : 0 < gh_const lgamma n * x) by (apply Rmult_lt_0_compat; [apply gh_const_pos|exact X]). set (g := gh_const lgamma n * x) in *.
  destruct (Rle_dec r g) as [C|C].
  - rewrite Rmin_left by exact C. rewrite Rmax_left; [field; lra|]. apply Rmult_le_reg_r with g; [exact B|]. unfold Rdiv. rewrite Rmult_assoc, Rinv_l by lra. lra.
  - rewrite Rmin_right by lra. rewrite Rmax_right; [reflexivity|]. apply Rmult_le_reg_r with g; [exact B|]. unfold Rdiv. rewrite Rmult_assoc, Rinv_l by lra. lra.
Qed.

(** the enumeration radius of a primal block: delta r_kappa, and if the block has more than 30
    rows and BKZ_GH_BND is set at most gh_factor GH^2 *)
Theorem enum_radius_primal : forall lgamma rexp d kappa n gh_bnd delta factor x, pos rexp -> (1 <= n)%nat -> (Z.of_nat kappa + Z.of_nat n <= d)%Z ->
  get_root_det rexp d (Z.of_nat kappa) (Z.of_nat kappa + Z.of_nat n) = Some x ->
  exists m e, enum_radius rexp d lgamma kappa n false gh_bnd delta factor = Some (m, e) /\
    m * powerRZ 2 e = if (gh_bnd && (30 <? n)%nat)%bool then Rmin (delta * get_r rexp kappa) (factor * (gh_const lgamma n * x)) else delta * get_r rexp kappa.
Proof.
  intros lgamma rexp d kappa n gh_bnd delta factor x P N D E. unfold enum_radius.
  assert (G : get_r rexp kappa = fst (rexp kappa) * powerRZ 2 (snd (rexp kappa))) by reflexivity.
  destruct (rexp kappa) as [m e] eqn:ER. cbn [fst snd] in G.
  destruct (gh_bnd && (30 <? n)%nat)%bool.
  - rewrite E. eexists _, _. split; [reflexivity|]. rewrite adjust_radius_min, G. f_equal; ring.
  - eexists _, _. split; [reflexivity|]. rewrite G. ring.
Qed.
(** the enumeration radius of a dual block: delta / r_last, and at most gh_factor times the
    squared Gaussian heuristic of the block itself, not of its dual *)
Theorem enum_radius_dual : forall lgamma rexp d kappa n gh_bnd delta factor x, pos rexp -> (1 <= n)%nat -> (Z.of_nat kappa + Z.of_nat n <= d)%Z ->
  get_root_det rexp d (Z.of_nat kappa) (Z.of_nat kappa + Z.of_nat n) = Some x ->
  exists m e, enum_radius rexp d lgamma kappa n true gh_bnd delta factor = Some (m, e) /\
    m * powerRZ 2 e = if (gh_bnd && (30 <? n)%nat)%bool then Rmin (delta / get_r rexp (kappa + n - 1)) (factor * (gh_const lgamma n * x)) else delta / get_r rexp (kappa + n - 1).
Proof.
  intros lgamma rexp d kappa n gh_bnd delta factor x P N D E. unfold enum_radius. pose proof (P (kappa + n - 1)%nat) as PL.
  assert (G : get_r rexp (kappa + n - 1) = fst (rexp (kappa + n - 1)%nat) * powerRZ 2 (snd (rexp (kappa + n - 1)%nat))) by reflexivity.
  destruct (rexp (kappa + n - 1)%nat) as [m e] eqn:ER. cbn [fst snd] in G, PL. pose proof (powerRZ_2_pos e) as PE.
  assert (I : / m * delta * powerRZ 2 (e * -1) = delta / get_r rexp (kappa + n - 1)).
  { rewrite G. replace (e * -1)%Z with (- e)%Z by lia. pose proof (powerRZ_inv_2 e) as Q.
    assert (Q' : powerRZ 2 (- e) = / powerRZ 2 e) by (apply Rmult_eq_reg_r with (powerRZ 2 e); [rewrite Q; field; lra|lra]). rewrite Q'. field. lra. }
  destruct (gh_bnd && (30 <? n)%nat)%bool.
  - rewrite E. eexists _, _. split; [reflexivity|]. rewrite adjust_radius_min, I. f_equal. ring.
  - eexists _, _. split; [reflexivity|]. exact I.
Qed.

(** a function that is ln Gamma at the half-integers *)
Definition ex_lgamma (t : R) : R := ln (half_gamma (Z.to_nat (up (2 * t - 2) - 1))).
Lemma ex_lgamma_ok : lgamma_ok ex_lgamma.
Proof.
  intros n _. unfold ex_lgamma. do 2 f_equal. replace (2 * (INR n / 2 + 1) - 2) with (IZR (Z.of_nat n)) by (rewrite <- INR_IZR_INZ; field).
  replace (up (IZR (Z.of_nat n))) with (Z.of_nat n + 1)%Z; [lia|]. apply tech_up; rewrite plus_IZR; lra.
Qed.

(** ** What fails *)
Lemma gam_bound n : (n <= 32)%nat -> fst (gam n) <= 17 ^ n /\ snd (gam n) <= 17 ^ S n.
Proof.
  induction n as [|n IH]; intros H.
  - cbn. split; [lra|]. assert (sqrt PI <= 2) by (rewrite <- (sqrt_pow2 2) by lra; apply sqrt_le_1; pose proof PI_RGT_0; pose proof PI_4; cbn; lra). lra.
  - pose proof (half_gamma_pos n) as HP. unfold half_gamma in HP. cbn [gam]. destruct (gam n) as [g h]. cbn [fst snd] in *. destruct (IH ltac:(lia)) as [I1 I2]. split; [exact I2|].
    assert (HN : INR n <= 32) by (replace 32 with (INR 32) by (cbn; lra); apply le_INR; lia). pose proof (pos_INR n).
    change (17 ^ S (S n)) with (17 * (17 * 17 ^ n)). assert (0 < 17 ^ n) by (apply pow_lt; lra). nra.
Qed.
Lemma gam_lower n : / 2 <= half_gamma n.
Proof.
  unfold half_gamma. enough (/ 2 <= fst (gam n) /\ / 2 <= snd (gam n)) by tauto. induction n as [|n IH].
  - cbn. split; [lra|]. assert (1 <= sqrt PI) by (rewrite <- sqrt_1 at 1; apply sqrt_le_1; pose proof PI2_1; lra). lra.
  - cbn [gam]. destruct (gam n) as [g h]. cbn [fst snd] in *. split; [apply IH|]. pose proof (pos_INR n). nra.
Qed.
Lemma rprod_shift n f : rprod (S n) f = f 0%nat * rprod n (fun k => f (S k)).
Proof. induction n as [|n IH]; [cbn; ring|]. cbn [rprod] in *. rewrite IH. ring. Qed.
Lemma rprod_ext n f g : (forall k, (k < n)%nat -> f k = g k) -> rprod n f = rprod n g.
Proof. induction n as [|n IH]; intros H; cbn [rprod]; [reflexivity|]. rewrite IH by (intros; apply H; lia). rewrite H by lia. reflexivity. Qed.
Lemma rprod_inv_rev n f : (forall k, f k <> 0) -> rprod n (fun k => / f (n - 1 - k)%nat) = / rprod n f.
Proof.
  intros F. induction n as [|n IH]; [cbn; field|]. rewrite rprod_shift. replace (S n - 1 - 0)%nat with n by lia.
  rewrite (rprod_ext n _ (fun k => / f (n - 1 - k)%nat)) by (intros; do 2 f_equal; lia). rewrite IH. cbn [rprod]. rewrite Rinv_mult. ring.
Qed.
Lemma pow_inj x y n : (1 <= n)%nat -> 0 < x -> 0 < y -> x ^ n = y ^ n -> x = y.
Proof.
  intros N X Y E. apply ln_inv; [exact X|exact Y|]. apply (f_equal ln) in E. rewrite !ln_pow in E by assumption.
  apply Rmult_eq_reg_l with (INR n); [exact E|apply not_0_INR; lia].
Qed.
Lemma powerRZ_pow c n : powerRZ 2 c ^ n = powerRZ 2 (c * Z.of_nat n).
Proof.
  induction n as [|n IH]; [rewrite Z.mul_0_r; reflexivity|]. cbn [pow]. rewrite IH, <- powerRZ_add by lra. f_equal. lia.
Qed.
(** all rows with r = 2^a, but row j with r = 2^b *)
Definition step_basis (j : nat) (a b : Z) (i : nat) : R * Z := if (i =? j)%nat then (1, b) else (1, a).
Lemma step_pos j a b : pos (step_basis j a b).
Proof. intros i. unfold step_basis. destruct (i =? j)%nat; cbn; lra. Qed.
Lemma step_prod j a b n : forall m, (m <= n)%nat -> (j < n)%nat ->
  rprod m (fun k => get_r (step_basis j a b) (0 + k)) = powerRZ 2 (a * (Z.of_nat m - if (j <? m)%nat then 1 else 0) + b * (if (j <? m)%nat then 1 else 0)).
Proof.
  induction m as [|m IH]; intros M J; [cbn; rewrite Z.mul_0_r, Z.mul_0_r; reflexivity|]. cbn [rprod]. rewrite IH by lia.
  unfold get_r, step_basis. rewrite Nat.add_0_l. destruct (Nat.eqb_spec m j) as [-> |NE].
  - destruct (Nat.ltb_spec j j); [lia|]. destruct (Nat.ltb_spec j (S j)); [|lia]. cbn [fst snd]. rewrite Rmult_1_l, <- powerRZ_add by lra. f_equal. lia.
  - cbn [fst snd]. rewrite Rmult_1_l, <- powerRZ_add by lra. f_equal. destruct (Nat.ltb_spec j m), (Nat.ltb_spec j (S m)); lia.
Qed.
Lemma step_root j a b n c : (j < n)%nat -> (a * (Z.of_nat n - 1) + b = c * Z.of_nat n)%Z ->
  get_root_det (step_basis j a b) (Z.of_nat n) (Z.of_nat 0) (Z.of_nat 0 + Z.of_nat n) = Some (powerRZ 2 c).
Proof.
  intros J E. destruct (root_det_mean (step_basis j a b) (Z.of_nat n) (Z.of_nat 0) (Z.of_nat 0 + Z.of_nat n) (step_pos j a b)) as (x & G & X & V); [lia|lia|].
  rewrite G. f_equal. replace (Z.of_nat 0 + Z.of_nat n - Z.of_nat 0)%Z with (Z.of_nat n) in V by lia. rewrite !Nat2Z.id in V.
  apply (pow_inj _ _ n); [lia|exact X|apply powerRZ_2_pos|]. rewrite V, (step_prod j a b n n) by lia. destruct (Nat.ltb_spec j n); [|lia].
  rewrite powerRZ_pow. f_equal. lia.
Qed.

(** the constant for 32 rows is moderate *)
Lemma gh_const_32 lgamma : lgamma_ok lgamma -> gh_const lgamma 32 <= 289.
Proof.
  intros L. pose proof (gh_const_pow lgamma 32 L ltac:(lia)) as E. pose proof (gh_const_pos lgamma 32) as C. destruct (gam_bound 32 ltac:(lia)) as [G _]. fold (half_gamma 32) in G.
  pose proof (half_gamma_pos 32) as GP. rewrite <- Rpow_mult_distr in E.
  apply Rnot_lt_le. intros H. assert (PI1 : 1 <= PI) by (pose proof PI2_1; lra).
  assert (A : 289 < gh_const lgamma 32 * PI) by nra.
  assert (B : 289 ^ 32 <= (gh_const lgamma 32 * PI) ^ 32) by (apply pow_incr; lra).
  rewrite E in B. assert (B2 : half_gamma 32 ^ 2 <= (17 ^ 32) ^ 2) by (apply pow_incr; lra).
  replace ((17 ^ 32) ^ 2) with (289 ^ 32) in B2 by (rewrite <- pow_mult; replace 289 with (17 ^ 2) by lra; rewrite <- pow_mult; reflexivity).
  assert (EQ : 289 ^ 32 = (gh_const lgamma 32 * PI) ^ 32) by (rewrite E; lra).
  apply pow_inj in EQ; [lra|lia|lra|lra].
Qed.

(** a short first vector: the quotient of the lookup is 1, not r_kappa / GH^2 *)
Theorem pruning_quotient_short_refuted : exists rexp d kappa n x, pos rexp /\ (1 <= n)%nat /\ (Z.of_nat kappa + Z.of_nat n <= d)%Z /\
  get_root_det rexp d (Z.of_nat kappa) (Z.of_nat kappa + Z.of_nat n) = Some x /\
  forall lgamma, lgamma_ok lgamma -> exists radius gh, pruning_args rexp d lgamma kappa n = Some (radius, gh) /\
    radius / gh = 1 /\ get_r rexp kappa / (gh_const lgamma n * x) < / 2.
Proof.
  exists (step_basis 1 0 20), (Z.of_nat 2), 0%nat, 2%nat, (powerRZ 2 10).
  split; [apply step_pos|]. split; [lia|]. split; [lia|]. split; [apply step_root; lia|]. intros lgamma L.
  destruct (pruning_quotient lgamma (step_basis 1 0 20) (Z.of_nat 2) 0 2 (powerRZ 2 10) (step_pos _ _ _)) as (radius & gh & E & _ & Q); [lia|lia|apply step_root; lia|].
  exists radius, gh. split; [exact E|]. rewrite Q. clear E Q.
  assert (C : gh_const lgamma 2 = / PI).
  { unfold gh_const. rewrite (L 2%nat) by lia. replace (half_gamma 2) with 1 by (cbn; lra). rewrite ln_1. replace (0 * 2 / INR 2) with 0 by (cbn; lra). rewrite exp_0. field. apply PI_neq0. }
  assert (V : get_r (step_basis 1 0 20) 0 = 1) by (unfold get_r; cbn; lra).
  assert (T : powerRZ 2 10 = 1024) by (change (powerRZ 2 10) with (2 ^ 10); lra). rewrite V, C, T. pose proof PI_RGT_0. pose proof PI_4.
  assert (S : 1 / (/ PI * 1024) < / 2). { replace (1 / (/ PI * 1024)) with (PI / 1024) by (field; lra). lra. }
  split; [apply Rmax_left; lra|exact S].
Qed.

(** a long first vector and the bound on the radius: the enumeration radius is at most GH^2,
    the pruning parameters are those for a radius more than 2^20 times as large *)
Theorem pruning_for_other_radius_refuted : exists rexp d kappa n, pos rexp /\ (30 < n)%nat /\ (Z.of_nat kappa + Z.of_nat n <= d)%Z /\
  forall lgamma, lgamma_ok lgamma -> exists m e radius gh,
    enum_radius rexp d lgamma kappa n false true 1 1 = Some (m, e) /\ pruning_args rexp d lgamma kappa n = Some (radius, gh) /\
    m * powerRZ 2 e <= gh /\ 2 ^ 20 < radius / gh.
Proof.
  exists (step_basis 0 0 32), (Z.of_nat 32), 0%nat, 32%nat. split; [apply step_pos|]. split; [lia|]. split; [lia|]. intros lgamma L.
  assert (RD : get_root_det (step_basis 0 0 32) (Z.of_nat 32) (Z.of_nat 0) (Z.of_nat 0 + Z.of_nat 32) = Some (powerRZ 2 1)) by (apply step_root; lia).
  destruct (enum_radius_primal lgamma (step_basis 0 0 32) (Z.of_nat 32) 0 32 true 1 1 _ (step_pos _ _ _) ltac:(lia) ltac:(lia) RD) as (m & e & E1 & V1).
  destruct (pruning_quotient lgamma (step_basis 0 0 32) (Z.of_nat 32) 0 32 _ (step_pos _ _ _) ltac:(lia) ltac:(lia) RD) as (radius & gh & E2 & VR & V2).
  exists m, e, radius, gh. split; [exact E1|]. split; [exact E2|]. pose proof (gh_const_32 lgamma L) as C1. pose proof (gh_const_pos lgamma 32) as C0.
  set (c := gh_const lgamma 32) in *. assert (V : get_r (step_basis 0 0 32) 0 = 2 ^ 32) by (change (get_r (step_basis 0 0 32) 0) with (1 * 2 ^ 32); lra). rewrite V in *.
  change (true && (30 <? 32)%nat)%bool with true in V1. cbn match in V1.
  assert (T : powerRZ 2 1 = 2) by (change (powerRZ 2 1) with (2 ^ 1); lra). rewrite T in *.
  assert (Q : 2 ^ 32 / (c * 2) > 2 ^ 20).
  { apply Rmult_lt_reg_r with (c * 2); [lra|]. unfold Rdiv. rewrite Rmult_assoc, Rinv_l by lra. nra. }
  rewrite Rmax_right in V2 by lra. split; [|rewrite V2; exact Q].
  assert (GH : gh = c * 2).
  { assert (GN : gh <> 0). { intros Z0. rewrite Z0 in V2. unfold Rdiv in V2. rewrite Rinv_0 in V2. lra. }
    apply Rmult_eq_reg_l with (2 ^ 32 / (c * 2)); [|lra]. rewrite <- V2 at 1. rewrite VR. field. lra. }
  rewrite V1, GH. apply Rle_trans with (1 := Rmin_r _ _). lra.
Qed.

(** the bound on the radius of a dual block is not the Gaussian heuristic of the dual: here
    the squared radius is 1 and that heuristic is below 2^-10 *)
Theorem dual_radius_bound_refuted : exists rexp d kappa n, pos rexp /\ (30 < n)%nat /\ (Z.of_nat kappa + Z.of_nat n <= d)%Z /\
  forall lgamma, lgamma_ok lgamma -> exists m e, enum_radius rexp d lgamma kappa n true true 1 1 = Some (m, e) /\
    forall g, gh_radius2 n (fun k => / get_r rexp (kappa + (n - 1 - k))) g -> 2 ^ 10 * g < m * powerRZ 2 e.
Proof.
  exists (step_basis 31 32 0), (Z.of_nat 32), 0%nat, 32%nat. split; [apply step_pos|]. split; [lia|]. split; [lia|]. intros lgamma L.
  assert (RD : get_root_det (step_basis 31 32 0) (Z.of_nat 32) (Z.of_nat 0) (Z.of_nat 0 + Z.of_nat 32) = Some (powerRZ 2 31)) by (apply step_root; lia).
  destruct (enum_radius_dual lgamma (step_basis 31 32 0) (Z.of_nat 32) 0 32 true 1 1 _ (step_pos _ _ _) ltac:(lia) ltac:(lia) RD) as (m & e & E1 & V1).
  exists m, e. split; [exact E1|]. intros g [G0 G]. change (true && (30 <? 32)%nat)%bool with true in V1. cbn match in V1.
  assert (V : get_r (step_basis 31 32 0) (0 + 32 - 1) = 1) by (unfold get_r; cbn; lra). rewrite V in V1.
  assert (GH : / 2 <= half_gamma 32 <= 2 ^ 160).
  { split; [apply gam_lower|]. destruct (gam_bound 32 ltac:(lia)) as [B _]. apply Rle_trans with (1 := B). apply Rle_trans with (32 ^ 32); [apply pow_incr; lra|].
    replace 32 with (2 ^ 5) at 1 by lra. rewrite <- pow_mult. apply Rle_refl. }
  pose proof (gh_const_pos lgamma 32) as C. pose proof PI_RGT_0 as P0. pose proof PI_4 as P4. assert (P1 : 1 <= PI) by (pose proof PI2_1; lra).
  assert (GC : / 16 <= gh_const lgamma 32).
  { apply Rnot_lt_le. intros H. pose proof (gh_const_pow lgamma 32 L ltac:(lia)) as E. rewrite <- Rpow_mult_distr in E.
    assert (A : gh_const lgamma 32 * PI <= / 4) by nra.
    assert (B : (gh_const lgamma 32 * PI) ^ 32 <= (/ 4) ^ 32) by (apply pow_incr; split; [apply Rlt_le, Rmult_lt_0_compat; assumption|exact A]).
    rewrite E in B. assert (B2 : (/ 4) ^ 32 <= (/ 4) ^ 2).
    { replace ((/ 4) ^ 32) with ((/ 4) ^ 2 * (/ 4) ^ 30) by (rewrite <- pow_add; reflexivity). assert ((/ 4) ^ 30 <= 1) by (rewrite <- (pow1 30); apply pow_incr; lra).
      assert (0 <= (/ 4) ^ 2) by (apply pow_le; lra). nra. }
    assert (B3 : (/ 2) ^ 2 <= half_gamma 32 ^ 2) by (apply pow_incr; lra). lra. }
  assert (VM : m * powerRZ 2 e = 1).
  { rewrite V1, Rmin_left; [field|]. change (powerRZ 2 31) with (2 ^ 31). assert (16 <= 2 ^ 31) by (change 31%nat with (4 + 27)%nat; rewrite pow_add; assert (1 <= 2 ^ 27) by (apply pow_R1_Rle; lra); lra). nra. }
  rewrite VM. clear V1 VM E1 RD. apply Rnot_le_lt. intros H.
  assert (PR : rprod 32 (fun k => / get_r (step_basis 31 32 0) (0 + (32 - 1 - k))) = / powerRZ 2 992).
  { rewrite (rprod_inv_rev 32 (fun k => get_r (step_basis 31 32 0) (0 + k))) by (intros; apply Rgt_not_eq, get_r_pos, step_pos). f_equal.
    rewrite (step_prod 31 32 0 32 32) by lia. reflexivity. }
  rewrite PR in G. clear PR.
  destruct (ball_gam 32) as [B _]. fold (ball_volume 32) in B. fold (half_gamma 32) in B.
  assert (Q1 : 1 <= sqrt PI ^ 32) by (apply pow_R1_Rle; rewrite <- sqrt_1; apply sqrt_le_1; lra). rewrite <- B in Q1.
  assert (T160 : 0 < 2 ^ 160) by (apply pow_lt; lra).
  assert (BV : / 2 ^ 160 <= ball_volume 32).
  { apply Rmult_le_reg_r with (2 ^ 160); [exact T160|]. rewrite Rinv_l by lra. apply Rle_trans with (1 := Q1). apply Rmult_le_compat_l; [|lra].
    apply Rnot_lt_le. intros NB. assert (ball_volume 32 * half_gamma 32 < 0) by (apply Ropp_lt_cancel; rewrite Ropp_0, <- Ropp_mult_distr_l_reverse; apply Rmult_lt_0_compat; lra). lra. }
  assert (SG : sqrt g ^ 32 = g ^ 16) by (change 32%nat with (2 * 16)%nat; rewrite pow_mult, pow2_sqrt by lra; reflexivity).
  assert (T10 : 0 < 2 ^ 10) by (apply pow_lt; lra).
  assert (G1 : / 2 ^ 10 <= g) by (apply Rmult_le_reg_l with (2 ^ 10); [exact T10|]; rewrite Rinv_r by lra; exact H).
  assert (G16 : / 2 ^ 160 <= g ^ 16).
  { apply Rle_trans with ((/ 2 ^ 10) ^ 16); [rewrite pow_inv, <- pow_mult; apply Rle_refl|]. apply pow_incr. split; [apply Rlt_le, Rinv_0_lt_compat, T10|exact G1]. }
  assert (I160 : 0 < / 2 ^ 160) by (apply Rinv_0_lt_compat; exact T160).
  assert (LOW : / 2 ^ 160 * / 2 ^ 160 <= ball_volume 32 * g ^ 16) by (apply Rmult_le_compat; lra).
  rewrite SG in G. rewrite G in LOW. clear G.
  assert (SQ : sqrt (/ powerRZ 2 992) = / 2 ^ 496).
  { replace (/ powerRZ 2 992) with ((/ 2 ^ 496) ^ 2); [apply sqrt_pow2, Rlt_le, Rinv_0_lt_compat, pow_lt; lra|].
    rewrite pow_inv, <- pow_mult. f_equal. }
  rewrite SQ in LOW. assert (D : / 2 ^ 496 < / 2 ^ 160 * / 2 ^ 160).
  { rewrite <- Rinv_mult, <- pow_add. apply Rinv_lt_contravar; [apply Rmult_lt_0_compat; apply pow_lt; lra|]. apply Rlt_pow; [lra|lia]. }
  lra.
Qed.

(** ** Cases *)
(** r = 1/2, 1/4, 1/8, ...: slope ln (1/2); the hypotheses of the slope theorems *)
Example ex_slope : pos (fun i => (1, (- Z.of_nat (S i))%Z)) /\ get_current_slope (fun i => (1, (- Z.of_nat (S i))%Z)) 2 (2 + 5) = Some (ln (/ 2)).
Proof.
  assert (P : pos (fun i => (1, (- Z.of_nat (S i))%Z))) by (intros i; cbn [fst]; lra). split; [exact P|].
  apply slope_geometric with (c := / 8); [exact P|lia|lra|lra|]. intros k _. unfold get_r. cbn [fst snd]. rewrite Rmult_1_l.
  rewrite pow_inv. replace (- Z.of_nat (S (2 + k)))%Z with (-3 + - Z.of_nat k)%Z by lia. rewrite powerRZ_add by lra.
  replace (powerRZ 2 (-3)) with (/ 8) by (change (powerRZ 2 (-3)) with (/ 2 ^ 3); f_equal; lra). f_equal.
  pose proof (powerRZ_inv_2 (Z.of_nat k)) as I. rewrite <- pow_powerRZ in I. assert (0 < 2 ^ k) by (apply pow_lt; lra).
  apply Rmult_eq_reg_r with (2 ^ k); [rewrite I; field; lra|lra].
Qed.
(** the potential of six rows with blocks of two rows: two prefixes *)
Example ex_potential : get_slide_potential (fun _ => (2, 0%Z)) 6 0 6 2 = Some (6 * ln 2).
Proof.
  destruct (slide_potential_prefixes (fun _ => (2, 0%Z)) 6 6 2) as (p & Hp & E); [intros i; cbn; lra|lia|lia|]. rewrite E.
  assert (P2 : p = 2%nat). { pose proof (Hp 2%nat ltac:(lia)). pose proof (Hp 3%nat ltac:(lia)). lia. }
  rewrite P2. cbn [rsum]. f_equal. rewrite !log_det_value by (try (intros i; cbn; lra); lia).
  change (Z.to_nat (Z.of_nat 1 * 2 - 0)) with 2%nat. change (Z.to_nat (Z.of_nat 2 * 2 - 0)) with 4%nat. unfold get_r. cbn [rsum fst snd powerRZ]. rewrite Rmult_1_r. ring.
Qed.
(** the hypotheses of the theorems on the Gaussian heuristic; in dimension 2 the ball with
    squared radius 2^10 / PI has the volume 2^10 *)
Example ex_gh : lgamma_ok ex_lgamma /\ gh_radius2 2 (fun k => get_r (step_basis 1 0 20) (0 + k)) (gh_const ex_lgamma 2 * powerRZ 2 10).
Proof.
  split; [apply ex_lgamma_ok|].
  destruct (gh_is_gaussian_heuristic ex_lgamma (step_basis 1 0 20) (Z.of_nat 2) 0 2 ex_lgamma_ok (step_pos _ _ _)) as (x & E & _ & G); [lia|lia|].
  rewrite (step_root 1 0 20 2 10) in E by lia. injection E as <-. exact G.
Qed.

Print Assumptions slope_least_squares.
Print Assumptions slope_geometric.
Print Assumptions slope_scaled.
Print Assumptions slope_dual.
Print Assumptions slope_one_row_refuted.
Print Assumptions log_det_volume.
Print Assumptions root_det_mean.
Print Assumptions root_det_empty_refuted.
Print Assumptions slide_potential_prefixes.
Print Assumptions slide_potential_start_refuted.
Print Assumptions gh_is_gaussian_heuristic.
Print Assumptions adjust_radius_min.
Print Assumptions pruning_quotient.
Print Assumptions enum_radius_primal.
Print Assumptions enum_radius_dual.
Print Assumptions pruning_quotient_short_refuted.
Print Assumptions pruning_for_other_radius_refuted.
Print Assumptions dual_radius_bound_refuted.
