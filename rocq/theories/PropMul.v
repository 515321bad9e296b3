(** C93: the multiplier of a row operation in dd_real and qd_real
    (gso_interface.h:322-331, gso.cpp:236-262) *)
From Coq Require Import List ZArith Bool Lia.
From Verif Require Import SetZModel PropSetZ MulModel.
Import ListNotations.
Local Open Scope Z_scope.

(** the number that a list of doubles stands for *)
Definition value (x : list Z) : Z := fold_right Z.add 0 x.
(** a double that is an integer *)
Definition Double (h : Z) : Prop := Fits 53 h /\ Z.abs h < 2 ^ 1024.

Lemma fits_more h p q : p <= q -> Fits p h -> Fits q h.
Proof.
  intros L (m & e & H1 & H2 & H3). exists m, e. split; [exact H1|]. split; [|exact H3].
  destruct (Z_lt_le_dec p 0) as [N|N]; [rewrite (Z.pow_neg_r 2 p N) in H2; lia|].
  pose proof (Z.pow_le_mono_r 2 p q ltac:(lia) L). lia.
Qed.
(** an integer with at most p digits that count is a multiple of its unit *)
Lemma fits_multiple p h : 1 <= p -> Fits p h -> h <> 0 -> Z.abs h = Z.abs h / unit_at p h * unit_at p h.
Proof.
  intros Hp F N. pose proof (unit_pos p h) as Pu. pose proof (Z.div_mod (Z.abs h) (unit_at p h) ltac:(lia)) as DM.
  pose proof (Z.mod_pos_bound (Z.abs h) (unit_at p h) Pu). destruct (gap p h h ltac:(lia) F); lia.
Qed.
Lemma quot_unit p h : 1 <= p -> Fits p h -> h <> 0 -> Z.quot h (unit_at p h) * unit_at p h = h /\ Z.abs (Z.quot h (unit_at p h)) < 2 ^ p.
Proof.
  intros Hp F N. pose proof (fits_multiple p h Hp F N) as C. pose proof (unit_pos p h) as Pu.
  assert (X : h = Z.sgn h * (Z.abs h / unit_at p h) * unit_at p h) by (rewrite <- Z.mul_assoc, <- C, Z.mul_comm; symmetry; apply Z.abs_sgn).
  split.
  - rewrite X at 1. rewrite Z.quot_mul by lia. symmetry. exact X.
  - rewrite <- Z.quot_abs by lia. rewrite (Z.abs_eq (unit_at p h)) by lia. rewrite Z.quot_div_nonneg by lia. apply quot_small; lia.
Qed.
Lemma si_exp_right x lx expo : Double (first x) -> si_exp x = Some (lx, expo) ->
  lx * 2 ^ expo = first x /\ 0 <= expo /\ (expo = 0 <-> Z.abs (first x) < 2 ^ 63).
Proof.
  intros [F B]. unfold si_exp. set (h := first x) in *. clearbody h.
  destruct (Z.eqb_spec h 0) as [->|N].
  - change (Z.quot 0 (2 ^ 0)) with 0. cbn. intros [= <- <-]. cbn. split; [reflexivity|]. split; [lia|]. split; intros; [reflexivity | lia].
  - unfold x_exponent. destruct (Z.eqb_spec h 0) as [E|_]; [contradiction|].
    set (expo' := Z.max (digits h - 63) 0).
    destruct ((- 2 ^ 63 <=? Z.quot h (2 ^ expo')) && (Z.quot h (2 ^ expo') <? 2 ^ 63)); [|discriminate].
    intros [= <- <-].
    assert (Hu : 2 ^ expo' = unit_at 63 h) by (unfold unit_at, expo'; f_equal; lia).
    split; [rewrite Hu; apply (quot_unit 63 h); [lia | apply (fits_more h 53 63); [lia | exact F] | exact N]|].
    split; [unfold expo'; lia|]. destruct (digits_spec h N) as (D1 & D2 & D3). unfold expo'. split.
    + intros E0. assert (digits h <= 63) by lia. pose proof (Z.pow_le_mono_r 2 (digits h) 63 ltac:(lia) ltac:(lia)). lia.
    + intros L. pose proof (digits_le h 63 ltac:(lia) L). lia.
Qed.
Lemma si_exp_defined x : Double (first x) -> exists lx expo, si_exp x = Some (lx, expo).
Proof.
  intros [F B]. unfold si_exp. set (h := first x) in *. clearbody h.
  destruct (Z.eqb_spec h 0) as [->|N]; [exists 0, 0; reflexivity|].
  unfold x_exponent. destruct (Z.eqb_spec h 0) as [E|_]; [contradiction|].
  set (expo' := Z.max (digits h - 63) 0).
  assert (Hu : 2 ^ expo' = unit_at 63 h) by (unfold unit_at, expo'; f_equal; lia).
  destruct (quot_unit 63 h) as [_ Q]; [lia | apply (fits_more h 53 63); [lia | exact F] | exact N |].
  rewrite Hu. set (q := Z.quot h (unit_at 63 h)) in *. clearbody q.
  rewrite (proj2 (Z.leb_le _ _)), (proj2 (Z.ltb_lt _ _)) by lia. exists q, expo'. reflexivity.
Qed.
Lemma small_cases lx : (if lx =? 1 then 1 else if lx =? -1 then -1 else if negb (lx =? 0) then lx else 0) = lx.
Proof. destruct (Z.eqb_spec lx 1); [lia|]. destruct (Z.eqb_spec lx (-1)); [lia|]. destruct (Z.eqb_spec lx 0); cbn; lia. Qed.

(** The conversion to long is always defined and the multiplier is the first double,
    whether row_op_force_long is set or not. *)
Theorem multiplier_is_first force_long x : Double (first x) -> multiplier force_long x = Some (first x).
Proof.
  intros D. destruct (si_exp_defined x D) as (lx & expo & E). pose proof (si_exp_right x lx expo D E) as (R1 & R2 & _).
  unfold multiplier. rewrite E, small_cases. destruct (Z.eqb_spec expo 0) as [E0|E0].
  - subst expo. f_equal. rewrite <- R1. change (2 ^ 0) with 1. lia.
  - destruct force_long; [f_equal; exact R1|].
    destruct (x_get_z_exp (first x)) as [a e] eqn:EX. cbn [fst snd]. f_equal.
    destruct D as [F B]. apply (dd_get_z_exp_right _ _ _ F B EX).
Qed.
(** Over longs: the same below 2^63; above, defined with row_op_force_long only. *)
Theorem multiplier_long_is_first force_long x : Double (first x) ->
  (Z.abs (first x) < 2 ^ 63 -> multiplier_long force_long x = Some (first x)) /\
  (2 ^ 63 <= Z.abs (first x) -> multiplier_long true x = Some (first x) /\ multiplier_long false x = None).
Proof.
  intros D. destruct (si_exp_defined x D) as (lx & expo & E). pose proof (si_exp_right x lx expo D E) as (R1 & R2 & R3).
  unfold multiplier_long. rewrite E, small_cases. split; intros L.
  - destruct (Z.eqb_spec expo 0) as [E0|E0]; [|elim E0; apply R3; exact L].
    subst expo. f_equal. rewrite <- R1. change (2 ^ 0) with 1. lia.
  - destruct (Z.eqb_spec expo 0) as [E0|E0]; [apply R3 in E0; lia|]. split; [f_equal; exact R1|].
    unfold x_get_z_exp_long. set (h := first x) in *. clearbody h.
    destruct (Z.leb_spec (- 2 ^ 31) h), (Z.ltb_spec h (2 ^ 31)); cbn [andb]; try reflexivity.
    change (2 ^ 63) with 9223372036854775808 in L. change (2 ^ 31) with 2147483648 in *. lia.
Qed.
(** The error of one operation is the rest of the number; for a dd_real it is at most
    2^-53 of the first double. *)
Theorem multiplier_error force_long h l c : Double h -> Normal (h, l) -> multiplier force_long [h; l] = Some c ->
  value [h; l] - c = l /\ 2 ^ 53 * Z.abs l <= Z.abs h.
Proof.
  intros D [_ [_ NR]] E. rewrite (multiplier_is_first force_long [h; l] D) in E. injection E as <-. cbn [value fold_right first].
  split; [lia|]. cbn [fst snd] in NR. destruct D as [F B].
  destruct (Z.eq_dec h 0) as [->|N].
  - (* the number is l, and its double is nearest to it *)
    assert (FL : forall y, Fits 53 y -> Z.abs l <= Z.abs (l - y)) by (intros y Hy; specialize (NR y Hy); lia).
    destruct (Z.eq_dec l 0) as [->|NL]; [cbn; lia|]. exfalso.
    pose proof (FL (Z.sgn l) (ex_intro _ (Z.sgn l) (ex_intro _ 0 (conj (Z.le_refl 0)
      (conj (Z.le_lt_trans (Z.abs (Z.sgn l)) 1 (2 ^ 53) ltac:(lia) ltac:(lia)) (eq_sym (Z.mul_1_r (Z.sgn l)))))))) as G.
    lia.
  - pose proof (unit_pos 53 h) as Pu. destruct (quot_unit 53 h ltac:(lia) F N) as [Q1 Q2].
    set (u := unit_at 53 h) in *. set (k := Z.quot h u) in *.
    assert (A : 2 * Z.abs l <= u).
    { pose proof (NR ((k + 1) * u) (fits_unit 53 h (k + 1) ltac:(lia) ltac:(lia))) as G1.
      pose proof (NR ((k - 1) * u) (fits_unit 53 h (k - 1) ltac:(lia) ltac:(lia))) as G2.
      replace (h + l - h) with l in * by lia.
      replace (h + l - (k + 1) * u) with (l - u) in G1 by lia. replace (h + l - (k - 1) * u) with (l + u) in G2 by lia. lia. }
    destruct (digits_spec h N) as (D1 & D2 & D3). unfold u, unit_at in *.
    destruct (Z_le_gt_dec (digits h) 53) as [S|S].
    + rewrite Z.max_l in A by lia. change (2 ^ 0) with 1 in A. assert (l = 0) as -> by lia. cbn. lia.
    + rewrite Z.max_r in A by lia.
      assert (P : 2 ^ (digits h - 1) = 2 ^ 52 * 2 ^ (digits h - 53)) by (rewrite <- Z.pow_add_r by lia; f_equal; lia).
      change (2 ^ 53) with (2 * 2 ^ 52). set (w := 2 ^ (digits h - 53)) in *. 
      assert (H1 : 2 ^ 52 * w <= Z.abs h) by lia. clearbody w. change (2 ^ 52) with 4503599627370496 in *. nia.
Qed.
(** With one operation for each double, each on what the ones before left, the sum of
    the multipliers is the number. *)
Fixpoint passes (force_long : bool) (x : list Z) : option Z :=
  match x with
  | [] => Some 0
  | _ :: x' => match multiplier force_long x, passes force_long x' with Some a, Some b => Some (a + b) | _, _ => None end
  end.
Theorem passes_exact force_long x : Forall Double x -> passes force_long x = Some (value x).
Proof.
  induction 1 as [|h x Hh Hx IH]; [reflexivity|]. cbn [passes]. rewrite (multiplier_is_first force_long (h :: x) Hh), IH. reflexivity.
Qed.

Lemma normal_one e : 54 <= e < 100 -> Normal (2 ^ e, 1).
Proof.
  intros He. split; [exists 1, 0; cbn; lia|]. cbn [fst snd]. split; [exists 1, e; split; [lia|]; split; [reflexivity | lia]|].
  intros y Hy. replace (2 ^ e + 1 - 2 ^ e) with 1 by lia. destruct (Z.eq_dec y (2 ^ e + 1)) as [->|Ny]; [|lia].
  exfalso. destruct Hy as (m & f & H1 & H2 & H3).
  assert (E2 : 2 ^ 54 <= 2 ^ e) by (apply Z.pow_le_mono_r; lia).
  assert (O : 2 ^ e = 2 * 2 ^ (e - 1)) by (rewrite <- Z.pow_succ_r by lia; f_equal; lia).
  destruct (Z.eq_dec f 0) as [->|Nf].
  - change (2 ^ 0) with 1 in H3. change (2 ^ 53) with 9007199254740992 in H2. change (2 ^ 54) with 18014398509481984 in E2. lia.
  - assert (P : 2 ^ f = 2 * 2 ^ (f - 1)) by (rewrite <- Z.pow_succ_r by lia; f_equal; lia).
    rewrite O, P in H3. assert (2 * (m * 2 ^ (f - 1) - 2 ^ (e - 1)) = 1) by lia. lia.
Qed.

(** Refuted: without row_op_force_long, row_addmul adds x * b[j] for an integer x
    (gso_interface.h:322-331); neither below LONG_MAX nor above. *)
Theorem row_addmul_exact_refuted : exists x y : Z * Z,
  Normal x /\ Normal y /\ Z.abs (fst x + snd x) < 2 ^ 63 /\ 2 ^ 63 < Z.abs (fst y + snd y) /\
  multiplier false [fst x; snd x] <> Some (fst x + snd x) /\ multiplier false [fst y; snd y] <> Some (fst y + snd y).
Proof.
  exists (2 ^ 60, 1), (2 ^ 80, 1). split; [apply normal_one; lia|]. split; [apply normal_one; lia|].
  split; [vm_compute; reflexivity|]. split; [vm_compute; reflexivity|]. split; vm_compute; discriminate.
Qed.

(** ** Examples *)

Example ex93_double : Double (2 ^ 60) /\ Double (- (2 ^ 53 - 1)) /\ Double (5 * 2 ^ 200).
Proof.
  split; [split; [exists 1, 60; cbn; lia | vm_compute; reflexivity]|].
  split; [split; [exists (- (2 ^ 53 - 1)), 0; cbn; lia | vm_compute; reflexivity]|].
  split; [exists 5, 200; split; [lia|]; split; [cbn; lia | reflexivity] | vm_compute; reflexivity].
Qed.
Example ex93_mult : multiplier false [2 ^ 60; - 77] = Some (2 ^ 60) /\ multiplier false [5 * 2 ^ 200; 3] = Some (5 * 2 ^ 200) /\
  multiplier true [5 * 2 ^ 200; 3] = Some (5 * 2 ^ 200) /\ multiplier_long false [2 ^ 63; 0] = None /\
  multiplier_long true [2 ^ 63; 0] = Some (2 ^ 63) /\ multiplier false [-1; 0] = Some (-1) /\
  passes false [2 ^ 60; - 77] = Some (2 ^ 60 - 77).
Proof. vm_compute. repeat split. Qed.
Example ex93_error : Double (2 ^ 60) /\ Normal (2 ^ 60, 1) /\ multiplier false [2 ^ 60; 1] = Some (2 ^ 60).
Proof. split; [apply ex93_double|]. split; [apply normal_one; lia | reflexivity]. Qed.
Example ex93_passes : Forall Double [5 * 2 ^ 200; 2 ^ 60; - (2 ^ 53 - 1)].
Proof. repeat constructor; apply ex93_double. Qed.
Example ex93_normal : Normal (2 ^ 53, 0) /\ Double 0.
Proof.
  split; [|split; [exists 0, 0; cbn; lia | vm_compute; reflexivity]].
  split; [exists 0, 0; cbn; lia|]. split; [exists 1, 53; cbn; lia|]. intros y _. cbn [fst snd]. lia.
Qed.

Print Assumptions multiplier_is_first.
Print Assumptions multiplier_long_is_first.
Print Assumptions multiplier_error.
Print Assumptions passes_exact.
Print Assumptions row_addmul_exact_refuted.
