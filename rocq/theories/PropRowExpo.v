(** C94: a row of integers as floating-point numbers with one exponent
    (gso.cpp:24-48, gso_interface.h:86-91) *)
From Coq Require Import List ZArith Bool Lia.
From Verif Require Import SetZModel PropSetZ PropMul RowExpoModel.
Import ListNotations.
Local Open Scope Z_scope.

(** ** Specification *)
(** r is what the type can keep of the integer z *)
Definition Kept (f : form) (z r : Z) : Prop :=
  match f with FMpz => Truncated 53 z r | FLong => Nearest 53 z r | FLd => Nearest 64 z r end.

Lemma conv_kept f z : Kept f z (conv f z).
Proof. destruct f; cbn; [apply cut_truncated | apply near_nearest | apply near_nearest]; lia. Qed.
Lemma conv_fits f z : Fits (prec f) (conv f z).
Proof. destruct f; cbn; [apply cut_truncated | apply near_nearest | apply near_nearest]; lia. Qed.
Lemma prec_low f : 1 <= prec f /\ prec f < low f. Proof. destruct f; cbn; lia. Qed.
Lemma digits_nonneg z : 0 <= digits z.
Proof. destruct (Z.eq_dec z 0) as [->|N]; [cbn; lia|]. pose proof (digits_spec z N). lia. Qed.

(** the number in [1/2, 1) is exact, and a multiple of 2^-prec *)
Lemma get_f_exp_right f z v e : get_f_exp f z = (v, e) ->
  e = digits (conv f z) /\ v * 2 ^ e = conv f z * 2 ^ low f /\ exists w, v = w * 2 ^ (low f - prec f).
Proof.
  unfold get_f_exp. intros [= <- <-]. split; [reflexivity|]. destruct (prec_low f) as [P1 P2].
  pose proof (conv_fits f z) as F. set (c := conv f z) in *. clearbody c. set (p := prec f) in *. set (L := low f) in *. clearbody p L.
  pose proof (digits_nonneg c) as DN. assert (PD : 0 < 2 ^ digits c) by (apply Z.pow_pos_nonneg; lia).
  destruct (Z.eq_dec c 0) as [->|N]; [rewrite Z.mul_0_l, Z.quot_0_l by lia; split; [reflexivity | exists 0; reflexivity]|].
  destruct (quot_unit p c P1 F N) as [Q _]. set (k := Z.quot c (unit_at p c)) in *. unfold unit_at in Q.
  set (m := Z.max 0 (digits c - p)) in *.
  assert (E : c * 2 ^ L = (k * 2 ^ (m - digits c + p) * 2 ^ (L - p)) * 2 ^ digits c).
  { rewrite <- !Z.mul_assoc, <- !Z.pow_add_r by lia. rewrite <- Q at 1. rewrite <- Z.mul_assoc, <- Z.pow_add_r by lia. f_equal. f_equal. lia. }
  rewrite E, Z.quot_mul by lia. split; [reflexivity | exists (k * 2 ^ (m - digits c + p)); reflexivity].
Qed.
Lemma get_f_exp_size f z v e : get_f_exp f z = (v, e) -> Z.abs v < 2 ^ low f /\ (conv f z <> 0 -> 2 ^ low f <= 2 * Z.abs v).
Proof.
  intros G. destruct (get_f_exp_right f z v e G) as (-> & E & _). pose proof (prec_low f) as [P1 P2].
  set (c := conv f z) in *. clearbody c. set (L := low f) in *. clearbody L.
  assert (PL : 0 < 2 ^ L) by (apply Z.pow_pos_nonneg; lia).
  pose proof (digits_nonneg c) as DN. assert (PD : 0 < 2 ^ digits c) by (apply Z.pow_pos_nonneg; lia).
  assert (EA : Z.abs v * 2 ^ digits c = Z.abs c * 2 ^ L) by (rewrite <- (Z.abs_eq (2 ^ digits c)), <- (Z.abs_eq (2 ^ L)), <- !Z.abs_mul by lia; f_equal; exact E).
  destruct (Z.eq_dec c 0) as [->|N].
  - cbn in EA. split; [lia | congruence].
  - destruct (digits_spec c N) as (D1 & D2 & D3).
    assert (PP : 2 ^ digits c = 2 * 2 ^ (digits c - 1)) by (rewrite <- Z.pow_succ_r by lia; f_equal; lia).
    split; [|intros _]; rewrite PP in *; set (d := 2 ^ (digits c - 1)) in *; set (l := 2 ^ L) in *; clearbody d l; nia.
Qed.
Lemma mul_2si_exact w a k : 0 <= k <= a -> mul_2si (w * 2 ^ a) (- k) * 2 ^ k = w * 2 ^ a.
Proof.
  intros H. unfold mul_2si. assert (PK : 0 < 2 ^ k) by (apply Z.pow_pos_nonneg; lia).
  destruct (Z.leb_spec 0 (- k)) as [Z0|Z0].
  - replace k with 0 by lia. cbn. lia.
  - rewrite Z.opp_involutive. cbv zeta.
    assert (A : Z.abs (w * 2 ^ a) = Z.abs w * 2 ^ (a - k) * 2 ^ k).
    { rewrite Z.abs_mul, (Z.abs_eq (2 ^ a)) by (apply Z.pow_nonneg; lia). rewrite <- Z.mul_assoc, <- Z.pow_add_r by lia. f_equal. f_equal. lia. }
    assert (M : Z.abs (w * 2 ^ a) mod 2 ^ k = 0) by (rewrite A; apply Z.mod_mul; lia).
    rewrite M. destruct (Z.ltb_spec (2 ^ k) (2 * 0)); [lia|]. destruct (Z.eqb_spec (2 ^ k) (2 * 0)); [lia|]. cbn [orb andb].
    rewrite A, Z.div_mul by lia. rewrite <- Z.mul_assoc, <- A, Z.mul_comm. apply Z.abs_sgn.
Qed.
(** the result without its sign *)
Lemma mul_2si_abs v k : 0 < k -> Z.abs (mul_2si v (- k)) = Z.abs v / 2 ^ k \/
  (Z.abs (mul_2si v (- k)) = Z.abs v / 2 ^ k + 1 /\ 2 ^ k <= 2 * (Z.abs v mod 2 ^ k)).
Proof.
  intros H. unfold mul_2si. assert (PK : 0 < 2 ^ k) by (apply Z.pow_pos_nonneg; lia).
  destruct (Z.leb_spec 0 (- k)); [lia|]. rewrite Z.opp_involutive. cbv zeta.
  pose proof (Z.div_pos (Z.abs v) (2 ^ k) ltac:(lia) PK) as Q0.
  destruct (Z.eq_dec v 0) as [->|N]; [left; cbn [Z.sgn Z.abs]; rewrite Z.div_0_l by lia; reflexivity|].
  assert (S : forall x, 0 <= x -> Z.abs (Z.sgn v * x) = x) by (intros x Hx; apply abs_sgn_mul; [exact Hx | intros; contradiction]).
  set (q := Z.abs v / 2 ^ k) in *. set (r := Z.abs v mod 2 ^ k) in *. set (u := 2 ^ k) in *.
  destruct (Z.ltb_spec u (2 * r)); cbn [orb]; [right; split; [apply S; lia | lia]|].
  destruct (Z.eqb_spec u (2 * r)); cbn [andb]; [|left; apply S; lia].
  destruct (Z.odd q); [right; split; [apply S; lia | lia] | left; apply S; lia].
Qed.
Lemma fold_max l a : (fold_left Z.max l a = a \/ In (fold_left Z.max l a) l) /\ a <= fold_left Z.max l a /\ forall x, In x l -> x <= fold_left Z.max l a.
Proof.
  revert a. induction l as [|y l IH]; intros a; cbn [fold_left]; [split; [left; reflexivity|]; split; [lia | intros x []]|].
  destruct (IH (Z.max a y)) as (I1 & I2 & I3). split; [|split].
  - destruct I1 as [E|I]; [|right; right; exact I]. rewrite E. destruct (Z.max_spec a y) as [[_ M]|[_ M]]; rewrite M; [right; left; reflexivity | left; reflexivity].
  - lia.
  - intros x [<-|I]; [lia | apply I3; exact I].
Qed.

(** ** Theorems *)
(** The exponent of a row is the largest number of digits, and the row keeps its length. *)
Theorem row_expo_is_max f zs bs e : zs <> [] -> update_bf_row f zs = (bs, e) ->
  length bs = length zs /\
  (exists z r, In z zs /\ Kept f z r /\ e = digits r) /\
  (forall j z, nth_error zs j = Some z -> exists r, Kept f z r /\ digits r <= e).
Proof.
  intros NE. unfold update_bf_row. intros [= <- <-]. split; [rewrite !map_length; reflexivity|].
  rewrite map_map. set (l := map (fun x => snd (get_f_exp f x)) zs). destruct (fold_max l (- 2 ^ 63)) as (F1 & F2 & F3).
  split.
  - destruct F1 as [E|I].
    + assert (exists z, In z zs) as [z Iz] by (destruct zs as [|z zs']; [congruence | exists z; left; reflexivity]).
      pose proof (F3 (digits (conv f z)) (in_map (fun x => snd (get_f_exp f x)) zs z Iz)) as C.
      pose proof (digits_nonneg (conv f z)). lia.
    + apply in_map_iff in I. destruct I as (z & E & Iz). exists z, (conv f z). split; [exact Iz|]. split; [apply conv_kept | symmetry; exact E].
  - intros j z Hz. exists (conv f z). split; [apply conv_kept|]. apply F3. apply in_map_iff. exists z. split; [reflexivity | eapply nth_error_In; exact Hz].
Qed.
Lemma row_nth f zs bs e j z v : update_bf_row f zs = (bs, e) -> nth_error zs j = Some z -> nth_error bs j = Some v ->
  v = mul_2si (fst (get_f_exp f z)) (- (e - digits (conv f z))) /\ digits (conv f z) <= e.
Proof.
  unfold update_bf_row. intros [= <- <-] Hz. rewrite map_map. rewrite (map_nth_error _ j zs Hz). intros [= <-].
  split; [f_equal; cbn [get_f_exp snd]; lia|]. apply fold_max. rewrite map_map. apply in_map_iff. exists z. split; [reflexivity | eapply nth_error_In; exact Hz].
Qed.
(** A number times 2^row_expo is what the type can keep of the integer, as long as the
    integer has not over low - prec (1021, 16381) digits less than the longest of the row.
    For dd_real and qd_real that is no more than for double. *)
Theorem row_exact f zs bs e j z v : update_bf_row f zs = (bs, e) -> nth_error zs j = Some z -> nth_error bs j = Some v ->
  exists r, Kept f z r /\ (e - digits r <= low f - prec f -> v * 2 ^ e = r * 2 ^ low f) /\ (low f < e - digits r -> v = 0).
Proof.
  intros U Hz Hv. destruct (row_nth f zs bs e j z v U Hz Hv) as [-> Le]. exists (conv f z). split; [apply conv_kept|].
  destruct (get_f_exp f z) as [w d] eqn:G. destruct (get_f_exp_right f z w d G) as (-> & E & w' & Ew). destruct (get_f_exp_size f z w _ G) as [S _]. cbn [fst].
  pose proof (digits_nonneg (conv f z)) as DN. split; intros H.
  - set (D := digits (conv f z)) in *. replace e with (e - D + D) at 2 by lia. rewrite Z.pow_add_r, Z.mul_assoc by lia.
    rewrite Ew, mul_2si_exact, <- Ew by lia. exact E.
  - pose proof (prec_low f). assert (K : 2 ^ (low f + 1) <= 2 ^ (e - digits (conv f z))) by (apply Z.pow_le_mono_r; lia).
    rewrite Z.pow_add_r in K by lia. change (2 ^ 1) with 2 in K.
    pose proof (Z.div_small (Z.abs w) (2 ^ (e - digits (conv f z))) ltac:(lia)) as Q.
    pose proof (Z.mod_small (Z.abs w) (2 ^ (e - digits (conv f z))) ltac:(lia)) as M.
    destruct (mul_2si_abs w (e - digits (conv f z)) ltac:(lia)) as [A|[A B]]; [lia|]. rewrite M in B. lia.
Qed.
(** In all cases the error against what the type can keep is at most half of the smallest
    positive value. *)
Theorem row_error f zs bs e j z v : update_bf_row f zs = (bs, e) -> nth_error zs j = Some z -> nth_error bs j = Some v ->
  exists r, Kept f z r /\ 2 * Z.abs (v * 2 ^ e - r * 2 ^ low f) <= 2 ^ e.
Proof.
  intros U Hz Hv. destruct (row_nth f zs bs e j z v U Hz Hv) as [-> Le]. exists (conv f z). split; [apply conv_kept|].
  destruct (get_f_exp f z) as [w d] eqn:G. destruct (get_f_exp_right f z w d G) as (-> & E & _). cbn [fst].
  pose proof (digits_nonneg (conv f z)) as DN. set (D := digits (conv f z)) in *. set (k := e - D).
  assert (PD : 0 < 2 ^ D) by (apply Z.pow_pos_nonneg; lia). assert (PK : 0 < 2 ^ k) by (apply Z.pow_pos_nonneg; lia).
  assert (EE : 2 ^ e = 2 ^ k * 2 ^ D) by (rewrite <- Z.pow_add_r by lia; f_equal; lia).
  assert (N : 2 * Z.abs (mul_2si w (- k) * 2 ^ k - w) <= 2 ^ k).
  { unfold mul_2si. destruct (Z.leb_spec 0 (- k)) as [K|K].
    - replace k with 0 by lia. change (2 ^ (- 0)) with 1. change (2 ^ 0) with 1. replace (w * 1 * 1 - w) with 0 by lia. cbn. lia.
    - rewrite Z.opp_involutive. cbv zeta. pose proof (Z.div_mod (Z.abs w) (2 ^ k) ltac:(lia)) as DM.
      pose proof (Z.mod_pos_bound (Z.abs w) (2 ^ k) PK) as MB.
      set (u := 2 ^ k) in *. set (q := Z.abs w / u) in *. set (r := Z.abs w mod u) in *.
      set (t := if (u <? 2 * r) || (u =? 2 * r) && Z.odd q then q + 1 else q).
      assert (T : 2 * Z.abs (t * u - Z.abs w) <= u).
      { unfold t. destruct (Z.ltb_spec u (2 * r)); cbn [orb]; [lia|]. destruct (Z.eqb_spec u (2 * r)); cbn [andb]; [destruct (Z.odd q); lia | lia]. }
      clearbody t. clear DM MB. destruct w as [|w|w]; cbn [Z.sgn Z.abs] in *; [lia | |]; lia. }
  rewrite <- E, EE. set (x := mul_2si w (- k)) in *. clearbody x.
  replace (x * (2 ^ k * 2 ^ D) - w * 2 ^ D) with ((x * 2 ^ k - w) * 2 ^ D) by ring.
  rewrite Z.abs_mul, (Z.abs_eq (2 ^ D)), Z.mul_assoc by lia. apply Z.mul_le_mono_nonneg_r; lia.
Qed.
(** However large the integers are: all numbers are below 1, and one is at least 1/2
    unless nothing of the row is kept. *)
Theorem row_below_one f zs bs e : update_bf_row f zs = (bs, e) -> forall v, In v bs -> Z.abs v < 2 ^ low f.
Proof.
  intros U v Iv. apply In_nth_error in Iv. destruct Iv as [j Hv].
  assert (exists z, nth_error zs j = Some z) as [z Hz].
  { destruct (nth_error zs j) as [z|] eqn:Ez; [exists z; reflexivity|]. exfalso. apply nth_error_None in Ez.
    assert (length bs = length zs) by (unfold update_bf_row in U; injection U as <- <-; rewrite !map_length; reflexivity).
    assert (nth_error bs j <> None) by congruence. apply nth_error_Some in H0. lia. }
  destruct (row_nth f zs bs e j z v U Hz Hv) as [-> Le]. destruct (get_f_exp f z) as [w d] eqn:G. destruct (get_f_exp_size f z w d G) as [S _]. cbn [fst].
  set (k := e - digits (conv f z)) in *. destruct (Z.eq_dec k 0) as [->|N]; [unfold mul_2si; cbn [Z.opp Z.leb Z.compare]; change (2 ^ 0) with 1; lia|].
  assert (PK : 2 <= 2 ^ k) by (change 2 with (2 ^ 1) at 1; apply Z.pow_le_mono_r; lia).
  pose proof (Z.div_mod (Z.abs w) (2 ^ k) ltac:(lia)) as DM. pose proof (Z.mod_pos_bound (Z.abs w) (2 ^ k) ltac:(lia)) as MB.
  pose proof (Z.div_pos (Z.abs w) (2 ^ k) ltac:(lia) ltac:(lia)) as Q0. pose proof (prec_low f) as [P1 P2].
  assert (L4 : 4 <= 2 ^ low f) by (change 4 with (2 ^ 2); apply Z.pow_le_mono_r; lia).
  destruct (mul_2si_abs w k ltac:(lia)) as [A|[A B]]; rewrite A; set (l := 2 ^ low f) in *; set (u := 2 ^ k) in *; set (q := Z.abs w / u) in *; clearbody l u q; nia.
Qed.
Theorem row_has_half f zs bs e : update_bf_row f zs = (bs, e) ->
  (exists z, In z zs /\ z <> 0) -> exists v, In v bs /\ 2 ^ low f <= 2 * Z.abs v.
Proof.
  intros U (z0 & I0 & N0).
  assert (C0 : forall z, z <> 0 -> conv f z <> 0).
  { intros z Nz C. assert (F1 : forall p, 1 <= p -> Fits p (Z.sgn z)).
    { intros p Hp. exists (Z.sgn z), 0. split; [lia|]. split; [|change (2 ^ 0) with 1; lia].
      pose proof (Z.pow_le_mono_r 2 1 p ltac:(lia) Hp). change (2 ^ 1) with 2 in *. lia. }
    pose proof (conv_kept f z) as K. rewrite C in K. destruct f; cbn in K.
    - destruct K as (_ & _ & _ & K). specialize (K (Z.sgn z) (F1 53 ltac:(lia)) ltac:(lia)). lia.
    - destruct K as (_ & K). specialize (K (Z.sgn z) (F1 53 ltac:(lia))). lia.
    - destruct K as (_ & K). specialize (K (Z.sgn z) (F1 64 ltac:(lia))). lia. }
  assert (Eb : fst (update_bf_row f zs) = bs) by (rewrite U; reflexivity). assert (Ee : snd (update_bf_row f zs) = e) by (rewrite U; reflexivity).
  unfold update_bf_row in Eb, Ee. cbv zeta in Eb, Ee. cbn [fst snd] in Eb, Ee. rewrite map_map in Ee.
  destruct (fold_max (map (fun x => snd (get_f_exp f x)) zs) (- 2 ^ 63)) as (F1 & F2 & F3). rewrite Ee in F1, F2, F3.
  assert (M0 : 1 <= e).
  { specialize (F3 (digits (conv f z0)) (in_map (fun x => snd (get_f_exp f x)) zs z0 I0)). pose proof (digits_spec _ (C0 z0 N0)). lia. }
  destruct F1 as [E|I]; [lia|]. apply in_map_iff in I. destruct I as (z & E & Iz). cbn [get_f_exp snd] in E.
  apply In_nth_error in Iz. destruct Iz as [j Hz].
  assert (exists v, nth_error bs j = Some v) as [v Hv] by (rewrite <- Eb, map_map; eexists; apply (map_nth_error _ j zs Hz)).
  exists v. split; [eapply nth_error_In; exact Hv|]. destruct (row_nth f zs bs e j z v U Hz Hv) as [-> _].
  destruct (get_f_exp f z) as [w d] eqn:G. destruct (get_f_exp_size f z w d G) as [_ S]. cbn [fst].
  rewrite E, Z.sub_diag. unfold mul_2si. cbn [Z.opp Z.leb Z.compare]. change (2 ^ 0) with 1. rewrite Z.mul_1_r. apply S.
  intros C. rewrite C in E. change (digits 0) with 0 in E. lia.
Qed.

(** Refuted: an integer other than 0 stays other than 0. *)
Theorem row_nonzero_refuted : exists zs bs e, update_bf_row FMpz zs = (bs, e) /\ nth_error zs 1 = Some 1 /\ nth_error bs 1 = Some 0.
Proof. exists [2 ^ 1100; 1], (fst (update_bf_row FMpz [2 ^ 1100; 1])), (snd (update_bf_row FMpz [2 ^ 1100; 1])). vm_compute. repeat split. Qed.
(** Refuted: with an exponent for the row dd_real holds what it holds without (nr_FP_misc.inl:116-128). *)
Theorem row_dd_refuted : exists z hi lo v e, dd_of_mpz z = Some (hi, lo) /\ hi + lo = z /\
  update_bf_row FMpz [z] = ([v], e) /\ v * 2 ^ e <> z * 2 ^ low FMpz.
Proof.
  exists (2 ^ 60 + 1), (2 ^ 60), 1, (2 ^ 1073), 61. split; [reflexivity|]. split; [reflexivity|]. split; [vm_compute; reflexivity | vm_compute; discriminate].
Qed.

(** ** Examples *)
Example ex94_row : update_bf_row FMpz [12; -1; 0; 3] = ([12 * 2 ^ 1070; - 2 ^ 1070; 0; 3 * 2 ^ 1070], 4) /\
  update_bf_row FLong [2 ^ 54 - 1] = ([2 ^ 1073], 55) /\ update_bf_row FMpz [2 ^ 54 - 1] = ([2 ^ 1074 - 2 ^ 1021], 54) /\
  update_bf_row FMpz [0; 0] = ([0; 0], 0) /\ update_bf_row FMpz [] = ([], - 2 ^ 63).
Proof. vm_compute. repeat split. Qed.
Example ex94_edge : fst (update_bf_row FMpz [2 ^ 1074; 1]) = [2 ^ 1073; 0] /\ fst (update_bf_row FMpz [2 ^ 1074; 3]) = [2 ^ 1073; 2] /\
  fst (update_bf_row FMpz [2 ^ 1073; -1]) = [2 ^ 1073; -1] /\ nth 1 (fst (update_bf_row FLd [2 ^ 1100; 1])) 0 <> 0 /\
  fst (update_bf_row FLd [2 ^ 63 + 1]) = [(2 ^ 63 + 1) * 2 ^ 16381].
Proof. vm_compute. repeat split. discriminate. Qed.

Print Assumptions row_expo_is_max.
Print Assumptions row_exact.
Print Assumptions row_error.
Print Assumptions row_below_one.
Print Assumptions row_has_half.
Print Assumptions row_nonzero_refuted.
Print Assumptions row_dd_refuted.
