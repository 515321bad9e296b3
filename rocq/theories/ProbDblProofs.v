(** Proofs about the binary64 model of incr_prob and decr_prob: numbers. *)
From Coq Require Import List ZArith Reals Lra Lia Arith Bool.
From Flocq Require Import Core BinarySingleNaN.
From Verif Require Import Util PrunerModel OptModel OptProofs DblModel DblProofs ProbDblModel.
Import ListNotations.
Local Open Scope R_scope.

(** not a NaN and no minus sign *)
Definition nneg (x : dbl) : Prop := is_nan x = false /\ Bsign x = false.
(** not too small: at least 2^-1000, perhaps infinite *)
Definition sizable (x : dbl) : Prop := d_le (d_of 1 (-1000)) x = true.
(** above zero, at most one *)
Definition unit_dbl (x : dbl) : Prop := d_lt d_zero x = true /\ d_le x d_one = true.

Lemma one_val : is_finite d_one = true /\ B2R d_one = 1.
Proof. destruct (d_of_bp 0) as (F & V); [lia|]. split; auto. Qed.
Lemma tiny_val : is_finite (d_of 1 (-1000)) = true /\ B2R (d_of 1 (-1000)) = bpow radix2 (-1000).
Proof. apply d_of_bp. lia. Qed.
Lemma le_finite (x y : dbl) : is_finite x = true -> is_finite y = true -> (d_le x y = true <-> B2R x <= B2R y).
Proof. intros Fx Fy. unfold d_le. rewrite Bleb_correct by auto. case Rle_bool_spec; split; intros; auto; try discriminate; lra. Qed.
Lemma lt_finite (x y : dbl) : is_finite x = true -> is_finite y = true -> (d_lt x y = true <-> B2R x < B2R y).
Proof. intros Fx Fy. unfold d_lt. rewrite Bltb_correct by auto. case Rlt_bool_spec; split; intros; auto; try discriminate; lra. Qed.
Lemma lt_finite_f (x y : dbl) : is_finite x = true -> is_finite y = true -> (d_lt x y = false <-> B2R y <= B2R x).
Proof. intros Fx Fy. unfold d_lt. rewrite Bltb_correct by auto. case Rlt_bool_spec; split; intros; auto; try discriminate; lra. Qed.
Lemma le_finite_f (x y : dbl) : is_finite x = true -> is_finite y = true -> (d_le x y = false <-> B2R y < B2R x).
Proof. intros Fx Fy. unfold d_le. rewrite Bleb_correct by auto. case Rle_bool_spec; split; intros; auto; try discriminate; lra. Qed.

Lemma minstep_val : is_finite d_minstep = true /\ Bsign d_minstep = false /\ 0 < B2R d_minstep < 1.
Proof.
  assert (F : is_finite d_minstep = true) by (vm_compute; reflexivity).
  destruct one_val as (F1 & V1).
  assert (H : d_lt d_zero d_minstep = true) by (vm_compute; reflexivity). apply lt_finite in H; auto. cbn in H.
  assert (G : d_lt d_minstep d_one = true) by (vm_compute; reflexivity). apply lt_finite in G; auto. rewrite V1 in G.
  split; [auto|split; [vm_compute; reflexivity|split; auto]].
Qed.

Lemma unit_val (x : dbl) : unit_dbl x <-> is_finite x = true /\ 0 < B2R x <= 1.
Proof.
  destruct one_val as (F1 & V1). split.
  - intros (H1 & H2).
    assert (F : is_finite x = true) by (destruct x as [s|[]| |s m e B]; auto; discriminate).
    split; auto. apply lt_finite in H1; auto. apply le_finite in H2; auto. rewrite V1 in H2. cbn in H1. lra.
  - intros (F & H). split; [apply lt_finite; auto; cbn; lra|apply le_finite; auto; lra].
Qed.
Lemma unit_one : unit_dbl d_one.
Proof. apply unit_val. destruct one_val as (F & V). rewrite V. split; auto. lra. Qed.
Lemma pos_shape (x : dbl) : is_finite x = true -> 0 < B2R x -> exists m e B, x = B754_finite false m e B.
Proof.
  destruct x as [s|s| |s m e B]; cbn; intros F H; try lra; try discriminate.
  destruct s; [|eauto]. exfalso. apply (Rlt_irrefl 0), (Rlt_trans _ _ _ H). apply F2R_lt_0. cbn. lia.
Qed.
Lemma nneg_val (x : dbl) : nneg x -> is_finite x = true -> 0 <= B2R x.
Proof.
  destruct x as [s|s| |s m e B]; intros (N & S) F; cbn in *; try lra; try discriminate. subst s.
  apply F2R_ge_0. cbn. lia.
Qed.
Lemma val_nneg (x : dbl) : is_finite x = true -> 0 < B2R x -> nneg x.
Proof. intros F H. destruct (pos_shape x F H) as (m & e & B & ->). split; auto. Qed.

(** two different doubles compare unequal *)
Lemma le_antisym x y : unit_dbl x -> d_le x y = true -> d_le y x = true -> x = y.
Proof.
  intros U H1 H2. apply unit_val in U. destruct U as (F & P).
  assert (Fy : is_finite y = true).
  { destruct (pos_shape x F (proj1 P)) as (m & e & B & ->). destruct y as [s|[]| |s m' e' B']; auto; discriminate. }
  apply le_finite in H1; auto. apply le_finite in H2; auto.
  destruct (pos_shape x F) as (m & e & B & ->); [lra|].
  destruct (pos_shape y Fy) as (m' & e' & B' & ->); [lra|].
  apply B2R_inj; auto. lra.
Qed.

Lemma big_finite (x : dbl) : is_finite x = true -> sizable x <-> bpow radix2 (-1000) <= B2R x.
Proof. intros F. destruct tiny_val as (Ft & Vt). unfold sizable. rewrite le_finite by auto. now rewrite Vt. Qed.
Lemma sizable_cases x : sizable x -> x = B754_infinity false \/ (is_finite x = true /\ bpow radix2 (-1000) <= B2R x).
Proof.
  intros H. destruct x as [s|s| |s m e B].
  - right. split; auto. now apply big_finite in H.
  - left. destruct s; auto. exfalso. revert H. unfold sizable, d_le. destruct tiny_val as (Ft & _).
    destruct (d_of 1 (-1000)) as [|[]| |[]]; cbn; discriminate.
  - exfalso. revert H. unfold sizable, d_le, Bleb, SpecFloat.SFleb. destruct (d_of 1 (-1000)) as [|[]| |[]]; cbn; discriminate.
  - right. split; auto. now apply big_finite in H.
Qed.
Lemma sizable_nneg x : sizable x -> nneg x.
Proof.
  intros H. destruct (sizable_cases x H) as [-> |(F & G)]; [split; auto|].
  apply val_nneg; auto. generalize (bpow_gt_0 radix2 (-1000)). lra.
Qed.
Lemma inf_sizable : sizable (B754_infinity false).
Proof. vm_compute. reflexivity. Qed.

(** ** Rounded operations on numbers without a minus sign *)
Lemma round_ge (x : dbl) y : is_finite x = true -> B2R x <= y -> B2R x <= round radix2 (SpecFloat.fexp 53 1024) ZnearestE y.
Proof. intros F H. apply round_ge_generic; [apply (fexp_correct 53 1024 _)|apply valid_rnd_N|apply generic_format_B2R|auto]. Qed.
Lemma round_le (x : dbl) y : is_finite x = true -> y <= B2R x -> round radix2 (SpecFloat.fexp 53 1024) ZnearestE y <= B2R x.
Proof. intros F H. apply round_le_generic; [apply (fexp_correct 53 1024 _)|apply valid_rnd_N|apply generic_format_B2R|auto]. Qed.

(** a sum is infinite or finite and at least each summand *)
Lemma add_cases x y : nneg x -> nneg y ->
  d_add x y = B754_infinity false \/
  (is_finite x = true /\ is_finite y = true /\ is_finite (d_add x y) = true /\ nneg (d_add x y) /\
   B2R x <= B2R (d_add x y) /\ B2R y <= B2R (d_add x y)).
Proof.
  intros Nx Ny.
  destruct (is_finite x) eqn:Fx; [destruct (is_finite y) eqn:Fy|].
  - pose proof (nneg_val x Nx Fx) as Vx. pose proof (nneg_val y Ny Fy) as Vy.
    pose proof (Bplus_correct 53 1024 _ _ mode_NE x y Fx Fy) as H. fold (d_add x y) in H.
    destruct (Rlt_bool _ _) in H.
    + destruct H as (V & F & S). right. cbn [round_mode] in V. repeat (split; auto).
      * destruct (d_add x y); auto; discriminate.
      * rewrite S. destruct Nx as (_ & Sx). case Rcompare_spec; intros; auto; [lra|now rewrite Sx].
      * rewrite V. apply round_ge; auto. lra.
      * rewrite V. apply round_ge; auto. lra.
    + destruct H as (V & S). left. apply B2SF_inj. rewrite V. destruct Nx as (_ & ->). reflexivity.
  - left. destruct y as [|sy| |]; try discriminate; destruct Ny as (Ny & Sy); try discriminate. cbn in Sy. subst sy.
    destruct x; try discriminate; reflexivity.
  - left. destruct x as [|sx| |]; try discriminate; destruct Nx as (Nx & Sx); try discriminate. cbn in Sx. subst sx.
    destruct y as [|sy| |]; destruct Ny as (Ny & Sy); try discriminate; try reflexivity. cbn in Sy. now subst sy.
Qed.
Lemma add_nneg x y : nneg x -> nneg y -> nneg (d_add x y).
Proof. intros Hx Hy. destruct (add_cases x y Hx Hy) as [-> |H]; [split; auto|tauto]. Qed.
Lemma add_sizable_l x y : sizable x -> nneg y -> sizable (d_add x y).
Proof.
  intros Hx Hy. destruct (add_cases x y (sizable_nneg x Hx) Hy) as [-> |(Fx & Fy & F & N & L1 & L2)]; [apply inf_sizable|].
  apply big_finite; auto. apply big_finite in Hx; auto. lra.
Qed.
Lemma add_sizable_r x y : nneg x -> sizable y -> sizable (d_add x y).
Proof.
  intros Hx Hy. destruct (add_cases x y Hx (sizable_nneg y Hy)) as [-> |(Fx & Fy & F & N & L1 & L2)]; [apply inf_sizable|].
  apply big_finite; auto. apply big_finite in Hy; auto. lra.
Qed.
Lemma add_inf x : nneg x -> d_add x (B754_infinity false) = B754_infinity false.
Proof. destruct x as [s|s| |s m e B]; intros (N & S); try discriminate; try reflexivity. cbn in S. now subst s. Qed.

(** the quotient of a positive number and a positive or infinite one is not a NaN *)
Lemma div_nneg x y : is_finite x = true -> 0 < B2R x -> nneg y -> nneg (d_div x y).
Proof.
  intros F P (N & S). destruct (pos_shape x F P) as (m & e & B & ->).
  destruct y as [s|s| |s m' e' B']; try discriminate; cbn in S; subst s; try (split; reflexivity).
  set (x := B754_finite false m e B) in *. set (y := B754_finite false m' e' B').
  assert (Ny : B2R y <> 0). { apply Rgt_not_eq, Rlt_gt. cbn. apply F2R_gt_0. cbn. lia. }
  pose proof (Bdiv_correct 53 1024 _ _ mode_NE x y Ny) as H. fold (d_div x y) in H.
  destruct (Rlt_bool _ _) in H.
  - destruct H as (_ & Fd & Sd). rewrite F in Fd. assert (Nd : is_nan (d_div x y) = false) by (destruct (d_div x y); auto; discriminate).
    split; auto.
  - assert (E : d_div x y = B754_infinity false) by (apply B2SF_inj; rewrite H; reflexivity). rewrite E. split; auto.
Qed.

(** one divided by a sizable number, at least the minimal step *)
Definition damp (s : dbl) : dbl := let w := d_div d_one s in if d_lt w d_minstep then d_minstep else w.
Lemma damp_sizable s : sizable s -> is_finite (damp s) = true /\ 0 < B2R (damp s).
Proof.
  intros H. destruct minstep_val as (Fm & _ & Pm). unfold damp.
  assert (G : is_finite (d_div d_one s) = true).
  { destruct (sizable_cases s H) as [-> |(F & L)]; [vm_compute; reflexivity|].
    pose proof (bpow_gt_0 radix2 (-1000)) as P0.
    pose proof (Bdiv_correct 53 1024 _ _ mode_NE d_one s) as D. fold (d_div d_one s) in D.
    destruct one_val as (F1 & V1).
    rewrite Rlt_bool_true in D.
    - destruct D as (_ & -> & _); auto. lra.
    - rewrite V1. apply Rle_lt_trans with (bpow radix2 1000); [|apply bpow_lt; lia].
      apply abs_round_le_generic; [apply (fexp_correct 53 1024 _)|apply valid_rnd_N| |].
      + apply generic_format_bpow. vm_compute. discriminate.
      + rewrite Rabs_pos_eq.
        * change 1000%Z with (- - 1000)%Z. rewrite bpow_opp. unfold Rdiv. rewrite Rmult_1_l. apply Rinv_le; auto.
        * apply Rlt_le. apply Rdiv_lt_0_compat; lra. }
  cbv zeta. destruct (d_lt (d_div d_one s) d_minstep) eqn:E; [split; auto; lra|].
  split; auto. apply lt_finite_f in E; auto. lra.
Qed.
Lemma damp_zero : damp d_zero = B754_infinity false.
Proof. apply B2SF_inj. vm_compute. reflexivity. Qed.

(** adding zero and subtracting zero *)
Lemma add_zero_r x : unit_dbl x -> d_add x d_zero = x.
Proof. intros U. apply unit_val in U. destruct U as (F & P). destruct (pos_shape x F (proj1 P)) as (m & e & B & ->). reflexivity. Qed.
Lemma sub_zero_r x : unit_dbl x -> d_sub x d_zero = x.
Proof. intros U. apply unit_val in U. destruct U as (F & P). destruct (pos_shape x F (proj1 P)) as (m & e & B & ->). reflexivity. Qed.
Lemma div_inf x : is_finite x = true -> 0 < B2R x -> d_div x (B754_infinity false) = d_zero.
Proof. intros F P. destruct (pos_shape x F P) as (m & e & B & ->). reflexivity. Qed.
Lemma lt_irrefl x : d_lt x x = false.
Proof.
  destruct (is_finite x) eqn:F; [apply lt_finite_f; auto; lra|].
  destruct x as [|[]| |]; try discriminate; reflexivity.
Qed.
Lemma lt_le_false x y : d_le x y = true -> d_lt y x = false.
Proof.
  unfold d_le, d_lt, Bleb, Bltb, SpecFloat.SFleb, SpecFloat.SFltb. intros H.
  change (SpecFloat.SFcompare (B2SF x) (B2SF y)) with (Bcompare x y) in H. change (SpecFloat.SFcompare (B2SF y) (B2SF x)) with (Bcompare y x).
  rewrite (Bcompare_swap _ _ x y). destruct (Bcompare x y) as [[]|]; auto; discriminate.
Qed.

(** ** The moves *)
Lemma dup_unit x w : unit_dbl x -> nneg w -> unit_dbl (dup x w) /\ B2R x <= B2R (dup x w).
Proof.
  intros U N. apply unit_val in U. destruct U as (F & P). destruct one_val as (F1 & V1). unfold dup. cbv zeta.
  destruct (d_le d_one (d_add x w)) eqn:E.
  - split; [apply unit_one|]. rewrite V1. lra.
  - destruct (add_cases x w (val_nneg x F (proj1 P)) N) as [Z|(_ & Fw & G & _ & L1 & L2)].
    + rewrite Z in E. exfalso. revert E. vm_compute. discriminate.
    + apply le_finite_f in E; auto. split; [|auto]. apply unit_val. split; auto. lra.
Qed.
Lemma ddown_unit x w : unit_dbl x -> nneg w -> unit_dbl (ddown x w).
Proof.
  intros U N. apply unit_val in U. destruct U as (F & P). destruct minstep_val as (Fm & _ & Pm).
  unfold ddown. cbv zeta. destruct (d_lt (d_sub x w) d_minstep) eqn:E; [apply unit_val; split; auto; lra|].
  assert (G : is_finite w = true).
  { destruct N as (N & S). destruct w as [|[]| |]; auto; try discriminate. exfalso. revert E.
    destruct (pos_shape x F (proj1 P)) as (m & e & B & ->). vm_compute. discriminate. }
  pose proof (nneg_val w N G) as Vw.
  pose proof (Bminus_correct 53 1024 _ _ mode_NE x w F G) as D. fold (d_sub x w) in D.
  assert (Hi : round radix2 (SpecFloat.fexp 53 1024) ZnearestE (B2R x - B2R w) <= B2R x) by (apply round_le; auto; lra).
  destruct (Rlt_bool _ _) in D.
  - destruct D as (V & Fd & _). cbn [round_mode] in V. apply lt_finite_f in E; auto.
    apply unit_val. split; auto. lra.
  - destruct D as (V & S). exfalso.
    assert (Z : d_sub x w = B754_infinity true \/ d_sub x w = B754_infinity false).
    { destruct (Bsign x); [left|right]; apply B2SF_inj; rewrite V; reflexivity. }
    destruct (pos_shape x F (proj1 P)) as (m & e & B & Ex). rewrite Ex in S. cbn [Bsign] in S.
    destruct N as (_ & N). rewrite N in S. discriminate.
Qed.
Lemma nan_cmp x : d_ne B754_nan x = false.
Proof. unfold d_ne, d_cmp, d_lt. destruct x as [|[]| |[]]; reflexivity. Qed.
