(** C75: the error bounds of the error-bounded evaluators. *)
From Coq Require Import Reals ZArith List Arith Lia Lra Psatz.
From Flocq Require Import Core Relative.
From Verif Require Import ErrModel.
Import ListNotations.
Local Open Scope R_scope.

(** ** Specification: squared norms of projections, exact and as computed in double precision
    (enumerate_base.cpp:195-196, 230-231); [x] the coordinates, levels d - 1, ..., d - n *)
Section Norms.
Variables (d : nat) (x : nat -> Z).
(** the exact centre: minus the sum of x_j mu_(j,i) over j = d - 1, ..., d - m *)
Fixpoint exact_center (MU : nat -> nat -> R) (i m : nat) : R :=
  match m with O => 0 | S p => exact_center MU i p - IZR (x (d - S p)%nat) * MU (d - S p)%nat i end.
Fixpoint exact_dist (MU : nat -> nat -> R) (RR : nat -> R) (n : nat) : R :=
  match n with
  | O => 0
  | S p => let i := (d - S p)%nat in let y := IZR (x i) - exact_center MU i p in exact_dist MU RR p + y * y * RR i
  end.
(** every operation is rounded by [fl] *)
Variable fl : R -> R.
Fixpoint fp_center (MU : nat -> nat -> R) (i m : nat) : R :=
  match m with O => 0 | S p => fl (fp_center MU i p - fl (IZR (x (d - S p)%nat) * MU (d - S p)%nat i)) end.
Fixpoint fp_dist (MU : nat -> nat -> R) (RR : nat -> R) (n : nat) : R :=
  match n with
  | O => 0
  | S p => let i := (d - S p)%nat in let y := fl (IZR (x i) - fp_center MU i p) in fl (fp_dist MU RR p + fl (fl (y * y) * RR i))
  end.
End Norms.
(** rounding of double precision without underflow: relative error at most 2^-53 *)
Record dbl_rounding (fl : R -> R) : Prop := {
  fl_rel : forall a, Rabs (fl a - a) <= half_ulp * Rabs a;
  fl_rel' : forall a, Rabs (fl a - a) <= half_ulp * Rabs (fl a);
  fl_mono : forall a b, a <= b -> fl a <= fl b;
  fl_idem : forall a, fl (fl a) = fl a }.
(** upwards; downwards, not crossing an integer of at most 53 bits; to nearest, losing a factor of at most lam *)
Definition rounds_up (up : R -> R) : Prop := forall a, a <= up a.
Definition rounds_down (dn : R -> R) : Prop := forall a, dn a <= a /\ forall z : Z, (Z.abs z <= 2 ^ 53)%Z -> IZR z <= a -> IZR z <= dn a.
Definition loses (lam : R) (nr : R -> R) : Prop := forall a, 0 <= a -> lam * a <= nr a.

Lemma hu_pos : 0 < half_ulp. Proof. apply bpow_gt_0. Qed.
Lemma hu_lt : half_ulp < 1. Proof. unfold half_ulp. change 1 with (bpow radix2 0). apply bpow_lt. reflexivity. Qed.

Lemma hu_half : bpow radix2 (-53) = / 2 * bpow radix2 (- (53) + 1).
Proof. change (-53)%Z with (-1 + (- (53) + 1))%Z. rewrite bpow_plus. f_equal. Qed.
(** double precision is such a rounding *)
Lemma flx_dbl : dbl_rounding (round radix2 (FLX_exp 53) ZnearestE).
Proof.
  assert (P53 : Prec_gt_0 53) by reflexivity. assert (V : Valid_exp (FLX_exp 53)) by (apply FLX_exp_valid; reflexivity).
  constructor.
  - intros a. pose proof (relative_error_N_FLX radix2 53 ltac:(reflexivity) (fun n => negb (Z.even n)) a) as H. unfold half_ulp. 
    rewrite hu_half. exact H.
  - intros a. pose proof (error_le_half_ulp_round radix2 (FLX_exp 53) (fun n => negb (Z.even n)) a) as H. eapply Rle_trans; [exact H|].
    change ZnearestE with (Znearest (fun n => negb (Z.even n))). set (f := round _ _ _ a). pose proof (ulp_FLX_le radix2 53 f) as U. unfold half_ulp. 
    rewrite hu_half. change (- (53) + 1)%Z with (1 - 53)%Z. lra.
  - intros a b H. apply round_le; auto. typeclasses eauto.
  - intros a. apply round_generic; [typeclasses eauto|]. apply generic_format_round; [auto|typeclasses eauto].
Qed.

(** ** The bounds *)
Section Bound.
Variables (up dn nr dbl fl : R -> R) (lam : R) (d : nat) (mu : nat -> nat -> R) (r dr dm : nat -> R) (MU : nat -> nat -> R) (RR : nat -> R).
Hypothesis Hup : rounds_up up.
Hypothesis Hdn : rounds_down dn.
Hypothesis Hlam : 0 < lam <= 1.
Hypothesis Hnr : loses lam nr.
Hypothesis Hfl : dbl_rounding fl.
Hypothesis Hdm : forall i, 0 <= dm i.
Hypothesis Hmu : forall i j, (i < j < d)%nat -> Rabs (MU j i - mu j i) <= dm i /\ Rabs (MU j i - dbl (mu j i)) <= dm i.
Hypothesis Hr : forall i, (i < d)%nat -> Rabs (RR i - r i) <= dr i /\ Rabs (RR i - dbl (r i)) <= dr i /\ 0 < RR i /\ 0 < dbl (r i).

Notation K := (KK up).
Notation cb := (center_bounds up nr dbl d mu dm).
Notation yb := (y_bounds up dn dbl r dr).
Notation ds := (de_step up nr dbl r dr).
Notation lev := (err_levels up dn nr dbl d mu r dr dm).
Notation hu := half_ulp.

Lemma K_ge : 1 + hu <= K. Proof. apply Hup. Qed.
Lemma up_le : forall a b, a <= b -> a <= up b. Proof. intros a b H. eapply Rle_trans; [exact H|apply Hup]. Qed.
Lemma fl0 : fl 0 = 0.
Proof. pose proof (fl_rel _ Hfl 0) as H. rewrite Rabs_R0, Rmult_0_r, Rminus_0_r in H. pose proof (Rabs_pos (fl 0)). destruct (Req_dec (fl 0) 0); auto. apply Rabs_pos_lt in H1. lra. Qed.
Lemma fl_pos : forall a, 0 <= a -> 0 <= fl a. Proof. intros a H. rewrite <- fl0. apply (fl_mono _ Hfl). exact H. Qed.
Lemma powl_le : forall n, 0 < lam ^ n <= 1.
Proof. induction n; simpl; [lra|]. split; nra. Qed.
Lemma powl_mono : forall m n, (m <= n)%nat -> lam ^ n <= lam ^ m.
Proof. induction 1; [lra|]. simpl. pose proof (powl_le m0). nra. Qed.
Lemma sc_le : forall a b, 0 < a <= 1 -> 0 <= b -> a * b <= b. Proof. intros; nra. Qed.
Lemma Rmul_le : forall a b c e, 0 <= a -> 0 <= c -> a <= b -> c <= e -> a * c <= b * e.
Proof. intros; apply Rmult_le_compat; auto. Qed.

Section OnX.
Variable x : nat -> Z.
Hypothesis Hx : forall i, (Z.abs (x i) <= 2 ^ 53)%Z.
Notation C := (exact_center d x MU).
Notation Ct := (fp_center d x fl (fun j i => dbl (mu j i))).
Notation E := (exact_dist d x MU RR).
Notation Et := (fp_dist d x fl (fun j i => dbl (mu j i)) (fun i => dbl (r i))).

Lemma center_ok : forall i X m, (m < d)%nat -> i = (d - S m)%nat -> (forall j, (i < j < d)%nat -> Rabs (IZR (x j)) <= X j) ->
  forall p, (p <= m)%nat ->
    Rabs (C i p) <= m_c (cb i X p) /\ Rabs (Ct i p) <= m_ct (cb i X p) /\ lam ^ p * Rabs (C i p - Ct i p) <= m_dc (cb i X p).
Proof.
  intros i X m Hm Ei HX. induction p as [|p IH]; intros Hp.
  - cbn. rewrite Rminus_0_r, Rabs_R0. lra.
  - destruct IH as [IC [IT ID]]; [lia|]. cbn [exact_center fp_center center_bounds]. set (s := cb i X p) in *. set (j := (d - S p)%nat).
    assert (Hj : (i < j < d)%nat) by lia. pose proof (HX j Hj) as XJ. destruct (Hmu i j Hj) as [M1 M2]. pose proof (Hdm i) as DM.
    pose proof (Rabs_pos (IZR (x j))) as XP. set (ax := Rabs (IZR (x j))) in *.
    set (a := IZR (x j) * MU j i). set (q := IZR (x j) * dbl (mu j i)).
    cbv beta.
    pose proof (fl_rel _ Hfl q) as F1. pose proof (fl_rel _ Hfl (Ct i p - fl q)) as F2. pose proof hu_pos as HU. pose proof K_ge as HK.
    set (mm := up (Rabs (mu j i) + dm i)). assert (MM : Rabs (MU j i) <= mm).
    { apply up_le. replace (MU j i) with ((MU j i - mu j i) + mu j i) by ring. eapply Rle_trans; [apply Rabs_triang|]. lra. }
    assert (A1 : Rabs a <= mm * X j).
    { unfold a. rewrite Rabs_mult, Rmult_comm. apply Rmul_le; auto; apply Rabs_pos. }
    set (mtx := up (Rabs (dbl (mu j i)) * X j)). assert (A2 : Rabs q <= mtx).
    { apply up_le. unfold q. rewrite Rabs_mult, Rmult_comm. apply Rmul_le; auto; try apply Rabs_pos; lra. }
    pose proof (Rabs_pos q) as QP.
    assert (A3 : Rabs (fl q) <= mtx * (1 + hu)).
    { replace (fl q) with ((fl q - q) + q) by ring. eapply Rle_trans; [apply Rabs_triang|]. nra. }
    set (mtx' := up (mtx * K)). assert (A4 : mtx * K <= mtx') by apply Hup.
    assert (A5 : Rabs (fl q) <= mtx') by nra.
    assert (MT : 0 <= mtx') by (pose proof (Rabs_pos (fl q)); lra).
    set (ct1 := up (m_ct s + mtx' * K)). assert (A6 : m_ct s + mtx' * K <= ct1) by apply Hup.
    assert (A7 : Rabs (Ct i p - fl q) <= ct1). { unfold Rminus. eapply Rle_trans; [apply Rabs_triang|]. rewrite Rabs_Ropp. nra. }
    pose proof (Rabs_pos (Ct i p - fl q)) as TP.
    assert (A8 : Rabs (fl (Ct i p - fl q)) <= up (ct1 * K)).
    { apply up_le. replace (fl (Ct i p - fl q)) with ((fl (Ct i p - fl q) - (Ct i p - fl q)) + (Ct i p - fl q)) by ring.
      eapply Rle_trans; [apply Rabs_triang|]. nra. }
    set (dc1 := nr (m_dc s + dm i * X j)).
    pose proof (powl_le p) as LP. pose proof (powl_le (S p)) as LSP.
    assert (DCP : 0 <= m_dc s). { eapply Rle_trans; [|exact ID]. apply Rmult_le_pos; [lra|apply Rabs_pos]. }
    assert (A9 : lam * (m_dc s + dm i * X j) <= dc1). { apply Hnr. assert (0 <= dm i * X j) by (apply Rmult_le_pos; lra). lra. }
    set (dc2 := up (dc1 + mtx * hu)). assert (A10 : dc1 + mtx * hu <= dc2) by apply Hup.
    split; [|split].
    + cbn [center_step m_c]. apply up_le. unfold Rminus. eapply Rle_trans; [apply Rabs_triang|]. rewrite Rabs_Ropp. fold a mm. lra.
    + exact A8.
    + cbn [center_step m_dc]. fold mtx mtx' ct1 dc1 dc2. apply up_le.
      assert (T1 : Rabs (C i p - a - fl (Ct i p - fl q)) <= Rabs (C i p - Ct i p) + dm i * ax + hu * mtx + hu * ct1).
      { replace (C i p - a - fl (Ct i p - fl q)) with ((C i p - Ct i p) + (q - a) + (fl q - q) + - (fl (Ct i p - fl q) - (Ct i p - fl q))) by ring.
        assert (B1 : Rabs (q - a) <= dm i * ax).
        { unfold q, a. replace (IZR (x j) * dbl (mu j i) - IZR (x j) * MU j i) with (- ((MU j i - dbl (mu j i)) * IZR (x j))) by ring.
          rewrite Rabs_Ropp, Rabs_mult. apply Rmult_le_compat_r; auto. }
        eapply Rle_trans; [apply Rabs_triang|]. rewrite Rabs_Ropp.
        assert (B2 : Rabs (fl (Ct i p - fl q) - (Ct i p - fl q)) <= hu * ct1) by nra.
        assert (B3 : Rabs (fl q - q) <= hu * mtx) by nra.
        pose proof (Rabs_triang (C i p - Ct i p + (q - a)) (fl q - q)). pose proof (Rabs_triang (C i p - Ct i p) (q - a)). lra. }
      assert (T2 : lam ^ S p * (Rabs (C i p - Ct i p) + dm i * ax) <= dc1).
      { eapply Rle_trans; [|exact A9]. simpl. rewrite Rmult_assoc. apply Rmult_le_compat_l; [lra|]. rewrite Rmult_plus_distr_l.
        apply Rplus_le_compat; [exact ID|]. pose proof (Rmult_le_compat_l (dm i) _ _ DM XJ). assert (0 <= dm i * ax) by (apply Rmult_le_pos; lra). nra. }
      assert (T3 : lam ^ S p * (hu * mtx) <= hu * mtx). { assert (0 <= hu * mtx) by (apply Rmult_le_pos; lra). nra. }
      assert (T4 : lam ^ S p * (hu * ct1) <= hu * ct1). { assert (0 <= hu * ct1) by (apply Rmult_le_pos; lra). nra. }
      eapply Rle_trans; [apply Rmult_le_compat_l; [lra|exact T1]|]. rewrite !Rmult_plus_distr_l in *. lra.
Qed.

Lemma dist_step_nonneg : forall n, (n < d)%nat -> E n <= E (S n).
Proof. intros n Hn. cbn. destruct (Hr (d - S n)) as [_ [_ [P _]]]; [lia|]. set (y := IZR _ - _). assert (0 <= y * y) by nra. nra. Qed.
Lemma exact_dist_mono : forall n m, (n <= m <= d)%nat -> E n <= E m.
Proof. intros n m [H Hd]. induction H; [lra|]. eapply Rle_trans; [apply IHle; lia|]. apply dist_step_nonneg. lia. Qed.
Lemma v_pos : forall y rr, 0 <= rr -> 0 <= fl (fl (y * y) * rr).
Proof. intros y rr H. apply fl_pos. apply Rmult_le_pos; [|exact H]. apply fl_pos. nra. Qed.
Lemma fp_dist_nonneg : forall n, (n <= d)%nat -> 0 <= Et n.
Proof.
  induction n as [|n IH]; intros Hn; [cbn; lra|]. cbn. apply fl_pos. specialize (IH ltac:(lia)). destruct (Hr (d - S n)) as [_ [_ [_ P]]]; [lia|].
  apply Rplus_le_le_0_compat; [exact IH|]. apply v_pos. lra.
Qed.
(** the rounded sum of a rounded number and a nonnegative one is at least the former *)
Lemma fl_add_ge : forall a b, fl a = a -> 0 <= b -> a <= fl (a + b).
Proof. intros a b Ea Hb. rewrite <- Ea at 1. apply (fl_mono _ Hfl). lra. Qed.
Lemma fp_dist_fix : forall n, fl (Et n) = Et n.
Proof. destruct n; [apply fl0|]. cbn. apply (fl_idem _ Hfl). Qed.
Lemma fp_dist_mono : forall n m, (n <= m <= d)%nat -> Et n <= Et m.
Proof.
  intros n m [H Hd]. induction H; [lra|]. eapply Rle_trans; [apply IHle; lia|]. cbn. apply fl_add_ge; [apply fp_dist_fix|].
  destruct (Hr (d - S m)) as [_ [_ [_ P]]]; [lia|]. apply v_pos. lra.
Qed.

(** the integer |x| is below the floor of the rounding downwards of a bound *)
Lemma floor_dn_ge : forall i b, Rabs (IZR (x i)) <= b -> Rabs (IZR (x i)) <= IZR (Zfloor (dn b)).
Proof.
  intros i b H. rewrite <- abs_IZR in *. apply IZR_le. apply Zfloor_lub. apply Hdn; [|exact H]. rewrite Z.abs_eq; [apply Hx|apply Z.abs_nonneg].
Qed.

(** bounds of y, y~ and x at one level *)
Definition y_ok (i p : nat) (yt dy xx t : R) : Prop :=
  let y := IZR (x i) - C i p in
  let yf := fl (IZR (x i) - Ct i p) in
  lam ^ p * Rabs yf <= yt /\ lam ^ p * Rabs (y - yf) <= dy /\ Rabs (IZR (x i)) <= xx /\
  (Rabs y <= t \/ Rabs yf <= t).
Lemma le_div : forall a b c, 0 < c -> a * c <= b -> a <= b / c.
Proof. intros a b c Hc H. apply (Rmult_le_reg_r c); [exact Hc|]. replace (b / c * c) with b by (field; lra). exact H. Qed.
Lemma sqrt_up : forall a b, 0 <= b -> a * a <= b -> Rabs a <= up (sqrt b).
Proof. intros a b Hb H. apply up_le. rewrite <- sqrt_Rsqr_abs. apply sqrt_le_1_alt. exact H. Qed.
Lemma y_bounds_ok : forall D (exact : bool) i p X yt dy xx t, (p < d)%nat -> i = (d - S p)%nat ->
  (forall j, (i < j < d)%nat -> Rabs (IZR (x j)) <= X j) ->
  (if exact then E (S p) <= D else Et (S p) <= D) ->
  yb D exact i (cb i X p) = Some (yt, dy, xx, t) -> y_ok i p yt dy xx t.
Proof.
  intros D exact i p X yt dy xx t Hp Ei HX HD HY. destruct (center_ok i X p Hp Ei HX p (le_n p)) as [BC [BT BD]].
  destruct (Hr i) as [R1 [R2 [RP TP]]]; [lia|]. unfold y_ok. set (y := IZR (x i) - C i p). set (yf := fl (IZR (x i) - Ct i p)).
  set (s := cb i X p) in *. pose proof (powl_le p) as LP. pose proof hu_pos as HU. pose proof K_ge as HK. pose proof hu_lt as HU1.
  pose proof (Rabs_pos y) as YP. pose proof (Rabs_pos yf) as YFP. pose proof (Rabs_pos (C i p - Ct i p)) as DP.
  assert (DCP : 0 <= m_dc s). { eapply Rle_trans; [|exact BD]. apply Rmult_le_pos; lra. }
  pose proof (fl_rel _ Hfl (IZR (x i) - Ct i p)) as F1. pose proof (fl_rel' _ Hfl (IZR (x i) - Ct i p)) as F2. fold yf in F1, F2.
  unfold y_bounds in HY. destruct exact.
  - destruct (Rle_dec (dn (r i - dr i)) 0) as [|Hm]; [discriminate|]. injection HY as <- <- <- <-. set (mr := dn (r i - dr i)) in *.
    assert (MR : mr <= RR i). { destruct (Hdn (r i - dr i)) as [Q _]. fold mr in Q. apply Rabs_le_inv in R1. lra. }
    apply Rnot_le_lt in Hm. set (tt := up (D / mr)). 
    assert (EP : 0 <= E p). { change 0 with (E 0). apply exact_dist_mono. lia. }
    assert (YD : y * y * RR i <= D). { cbn in HD. rewrite <- Ei in HD. fold y in HD. lra. }
    assert (YT : y * y <= tt). { apply up_le. apply le_div; [exact Hm|]. assert (0 <= y * y) by nra. nra. }
    assert (TT0 : 0 <= tt) by nra. pose proof (sqrt_up y tt TT0 YT) as Y1. set (my := up (sqrt tt)) in *.
    set (dy1 := up (my * hu)). assert (D1 : my * hu <= dy1) by apply Hup. set (dy2 := up (dy1 + m_dc s * K)). assert (D2 : dy1 + m_dc s * K <= dy2) by apply Hup.
    assert (A1 : Rabs (IZR (x i) - Ct i p) <= Rabs y + Rabs (C i p - Ct i p)). { replace (IZR (x i) - Ct i p) with (y + (C i p - Ct i p)) by (unfold y; ring). apply Rabs_triang. }
    assert (A2 : Rabs (y - yf) <= hu * Rabs y + (1 + hu) * Rabs (C i p - Ct i p)).
    { replace (y - yf) with (- (C i p - Ct i p) + - (yf - (IZR (x i) - Ct i p))) by (unfold y; ring). eapply Rle_trans; [apply Rabs_triang|]. rewrite !Rabs_Ropp. nra. }
    assert (A3 : lam ^ p * Rabs (y - yf) <= dy2).
    { eapply Rle_trans; [apply Rmult_le_compat_l; [lra|exact A2]|]. eapply Rle_trans; [|exact D2].
      assert (lam ^ p * (hu * Rabs y) <= dy1). { eapply Rle_trans; [|exact D1]. rewrite (Rmult_comm my). assert (hu * Rabs y <= hu * my) by nra. assert (0 <= hu * Rabs y) by nra. nra. }
      assert (lam ^ p * ((1 + hu) * Rabs (C i p - Ct i p)) <= m_dc s * K).
      { replace (lam ^ p * ((1 + hu) * Rabs (C i p - Ct i p))) with ((lam ^ p * Rabs (C i p - Ct i p)) * (1 + hu)) by ring. apply Rmul_le; auto; try lra. apply Rmult_le_pos; lra. }
      lra. }
    split; [|split; [|split]].
    + apply up_le. replace yf with (y + - (y - yf)) by ring. assert (Q : Rabs (y + - (y - yf)) <= Rabs y + Rabs (y - yf)) by (eapply Rle_trans; [apply Rabs_triang|]; rewrite Rabs_Ropp; lra).
      eapply Rle_trans; [apply Rmult_le_compat_l; [lra|exact Q]|]. nra.
    + exact A3.
    + apply floor_dn_ge. replace (IZR (x i)) with (y + C i p) by (unfold y; ring). eapply Rle_trans; [apply Rabs_triang|]. lra.
    + left. exact Y1.
  - injection HY as <- <- <- <-. set (t1 := up (D * K)). set (t2 := up (t1 / dbl (r i))). set (t3 := up (t2 * K)). set (rf := dbl (r i)) in *. set (w := fl (yf * yf)).
    assert (WP : 0 <= w) by (apply fl_pos; nra). assert (VP : 0 <= fl (w * rf)) by (apply fl_pos; nra).
    assert (DW : fl (w * rf) <= D).
    { cbn in HD. rewrite <- Ei in HD. fold yf in HD. fold rf in HD. fold w in HD. rewrite Rplus_comm in HD. eapply Rle_trans; [|exact HD]. apply fl_add_ge; [apply (fl_idem _ Hfl)|]. apply fp_dist_nonneg. lia. }
    assert (D0 : 0 <= D) by lra.
    assert (W1 : w * rf <= t1).
    { apply up_le. pose proof (fl_rel' _ Hfl (w * rf)) as F. rewrite (Rabs_right (fl (w * rf))) in F by lra. apply Rabs_le_inv in F. nra. }
    assert (W2 : w <= t2). { apply up_le. apply le_div; [exact TP|]. lra. }
    assert (W3 : yf * yf <= t3). { apply up_le. pose proof (fl_rel' _ Hfl (yf * yf)) as F. fold w in F. rewrite (Rabs_right w) in F by lra. apply Rabs_le_inv in F. nra. }
    assert (T30 : 0 <= t3) by nra. pose proof (sqrt_up yf t3 T30 W3) as Y1. set (my := up (sqrt t3)) in *.
    set (dy1 := up (my * hu)). assert (D1 : my * hu <= dy1) by apply Hup.
    split; [|split; [|split]].
    + nra.
    + apply up_le. assert (A2 : Rabs (y - yf) <= Rabs (C i p - Ct i p) + hu * Rabs yf).
      { replace (y - yf) with (- (C i p - Ct i p) + - (yf - (IZR (x i) - Ct i p))) by (unfold y; ring). eapply Rle_trans; [apply Rabs_triang|]. rewrite !Rabs_Ropp. lra. }
      eapply Rle_trans; [apply Rmult_le_compat_l; [lra|exact A2]|]. assert (0 <= hu * Rabs yf) by nra. assert (hu * Rabs yf <= dy1) by nra. nra.
    + apply floor_dn_ge. replace (IZR (x i)) with (Ct i p + ((IZR (x i) - Ct i p - yf) + yf)) by ring. eapply Rle_trans; [apply Rabs_triang|].
      apply Rplus_le_compat; [exact BT|]. eapply Rle_trans; [apply Rabs_triang|]. rewrite <- Rabs_Ropp. replace (- (IZR (x i) - Ct i p - yf)) with (yf - (IZR (x i) - Ct i p)) by ring. nra.
    + right. exact Y1.
Qed.

Lemma sq_diff : forall a b t, (Rabs a <= t \/ Rabs b <= t) -> Rabs (b * b - a * a) <= 2 * t * Rabs (a - b) + Rabs (a - b) * Rabs (a - b).
Proof.
  intros a b t [H | H].
  - replace (b * b - a * a) with (2 * - (a * (a - b)) + (a - b) * (a - b)) by ring. eapply Rle_trans; [apply Rabs_triang|].
    rewrite !Rabs_mult, Rabs_Ropp, Rabs_mult, (Rabs_right 2) by lra. pose proof (Rabs_pos (a - b)). nra.
  - replace (b * b - a * a) with (2 * - (b * (a - b)) + - ((a - b) * (a - b))) by ring. eapply Rle_trans; [apply Rabs_triang|].
    rewrite !Rabs_Ropp, !Rabs_mult, Rabs_Ropp, Rabs_mult, (Rabs_right 2) by lra. pose proof (Rabs_pos (a - b)). nra.
Qed.
Lemma level_ok : forall D (exact : bool) i p yt dy xx t de, (p < d)%nat -> i = (d - S p)%nat ->
  (if exact then E (S p) <= D else Et (S p) <= D) -> y_ok i p yt dy xx t ->
  lam ^ (2 * d + 1) * Rabs (E p - Et p) <= de -> lam ^ (2 * d + 1) * Rabs (E (S p) - Et (S p)) <= ds D i yt dy t de.
Proof.
  intros D exact i p yt dy xx t de Hp Ei HD [H1 [H2 [_ H4]]] IH. cbn [exact_dist fp_dist] in *. rewrite <- Ei in *.
  set (y := IZR (x i) - C i p) in *. set (yf := fl (IZR (x i) - Ct i p)) in *. set (rf := dbl (r i)) in *. set (w := fl (yf * yf)) in *.
  destruct (Hr i) as [R1 [R2 [RP TP]]]; [lia|]. fold rf in R2, TP. pose proof hu_pos as HU. pose proof K_ge as HK.
  pose proof (Rabs_pos (y - yf)) as DP. pose proof (Rabs_pos yf) as YFP.
  set (L := lam ^ d). assert (HL : 0 < L <= 1) by apply powl_le. assert (LP : L <= lam ^ p) by (apply powl_mono; lia).
  assert (H1' : L * Rabs yf <= yt) by nra. assert (H2' : L * Rabs (y - yf) <= dy) by nra.
  set (M := lam ^ (2 * d + 1)) in *. assert (EM : M = L * L * lam). { unfold M, L. rewrite pow_add, Nat.mul_comm, pow_mult. simpl. ring. }
  assert (L2 : 0 < L * L <= 1) by nra. assert (HM : 0 < M <= 1) by (rewrite EM; nra).
  assert (TP0 : 0 <= t). { destruct H4 as [Q|Q]; eapply Rle_trans; try exact Q; apply Rabs_pos. }
  pose proof (sq_diff y yf t H4) as SD. set (dl := Rabs (y - yf)) in *.
  set (q1 := nr (dy * t)). assert (DY0 : 0 <= dy) by nra.
  assert (Q1 : lam * (dy * t) <= q1) by (apply Hnr; nra).
  set (q2 := up (2 * q1 + dy * dy)). assert (Q2 : 2 * q1 + dy * dy <= q2) by apply Hup.
  assert (A1 : M * Rabs (yf * yf - y * y) <= q2).
  { eapply Rle_trans; [apply Rmult_le_compat_l; [lra|exact SD]|]. eapply Rle_trans; [|exact Q2]. rewrite Rmult_plus_distr_l.
    assert (B1 : lam * (L * L * (dl * t)) <= lam * (dy * t)).
    { apply Rmult_le_compat_l; [lra|]. assert (0 <= dl * t) by nra. assert (L * (L * (dl * t)) <= L * (dl * t)) by (apply sc_le; [lra|apply Rmult_le_pos; lra]). assert (L * dl * t <= dy * t) by nra. lra. }
    assert (B2 : M * (dl * dl) <= dy * dy).
    { assert (0 <= dl * dl) by nra. assert (L * dl * (L * dl) <= dy * dy) by (apply Rmul_le; nra). rewrite EM. assert (lam * (L * dl * (L * dl)) <= L * dl * (L * dl)) by (apply sc_le; [lra|apply Rmult_le_pos; nra]). lra. }
    rewrite EM in *. lra. }
  set (z := up (yt * yt)). assert (Z1 : yt * yt <= z) by apply Hup.
  assert (YT0 : 0 <= yt) by nra.
  assert (A2 : M * (yf * yf) <= z).
  { replace (yf * yf) with (Rabs yf * Rabs yf) by (rewrite <- Rabs_mult; apply Rabs_right; nra).
    assert (L * Rabs yf * (L * Rabs yf) <= yt * yt) by (apply Rmul_le; nra). rewrite EM. assert (lam * (L * Rabs yf * (L * Rabs yf)) <= L * Rabs yf * (L * Rabs yf)) by (apply sc_le; [lra|apply Rmult_le_pos; nra]). lra. }
  pose proof (fl_rel _ Hfl (yf * yf)) as F1. fold w in F1. rewrite (Rabs_right (yf * yf)) in F1 by nra.
  set (q3 := up (q2 + z * hu)). assert (Q3 : q2 + z * hu <= q3) by apply Hup.
  assert (A3 : M * Rabs (w - y * y) <= q3).
  { replace (w - y * y) with ((w - yf * yf) + (yf * yf - y * y)) by ring. eapply Rle_trans; [apply Rmult_le_compat_l; [lra|apply Rabs_triang]|].
    assert (M * Rabs (w - yf * yf) <= hu * (M * (yf * yf))) by nra. nra. }
  set (z2 := up (z * K)). assert (Z2 : z * K <= z2) by apply Hup. assert (WP : 0 <= w) by (apply fl_pos; nra).
  assert (Z0 : 0 <= z) by nra.
  assert (A4 : M * w <= z2). { apply Rabs_le_inv in F1. assert (M * w <= (1 + hu) * (M * (yf * yf))) by nra. nra. }
  assert (Z20 : 0 <= z2) by nra.
  set (mr := up (r i + dr i)). assert (MR : RR i <= mr). { apply up_le. apply Rabs_le_inv in R1. lra. }
  set (ry := up (rf * z2)). assert (RY : rf * z2 <= ry) by apply Hup.
  set (e1 := up (mr * q3)). assert (E1 : mr * q3 <= e1) by apply Hup.
  set (e2 := up (e1 + z2 * dr i)). assert (E2 : e1 + z2 * dr i <= e2) by apply Hup.
  set (e3 := up (e2 + ry * hu)). assert (E3 : e2 + ry * hu <= e3) by apply Hup.
  set (v := fl (w * rf)) in *. pose proof (fl_rel _ Hfl (w * rf)) as F2. fold v in F2. rewrite (Rabs_right (w * rf)) in F2 by nra.
  assert (A5 : M * Rabs (v - y * y * RR i) <= e3).
  { replace (v - y * y * RR i) with ((v - w * rf) + ((w - y * y) * RR i + - (w * (RR i - rf)))) by ring.
    assert (B : Rabs ((v - w * rf) + ((w - y * y) * RR i + - (w * (RR i - rf)))) <= hu * (w * rf) + Rabs (w - y * y) * RR i + w * dr i).
    { eapply Rle_trans; [apply Rabs_triang|]. pose proof (Rabs_triang ((w - y * y) * RR i) (- (w * (RR i - rf)))) as T. rewrite Rabs_Ropp, !Rabs_mult, (Rabs_right w), (Rabs_right (RR i)) in T by lra. nra. }
    eapply Rle_trans; [apply Rmult_le_compat_l; [lra|exact B]|].
    assert (Rabs (w - y * y) * RR i * M <= mr * q3). { replace (Rabs (w - y * y) * RR i * M) with (RR i * (M * Rabs (w - y * y))) by ring. apply Rmul_le; auto; try lra. apply Rmult_le_pos; [lra|apply Rabs_pos]. }
    assert (dr i >= 0) by (pose proof (Rabs_pos (RR i - r i)); lra).
    assert (M * (w * dr i) <= z2 * dr i) by nra.
    assert (M * (hu * (w * rf)) <= hu * ry). { assert (M * w * rf <= ry) by nra. nra. }
    lra. }
  set (u := E p) in *. set (uf := Et p) in *. set (g1 := up (de + e3)). assert (G1 : de + e3 <= g1) by apply Hup.
  set (g2 := up (g1 * K)). assert (G2 : g1 * K <= g2) by apply Hup.
  assert (UF : 0 <= uf) by (apply fp_dist_nonneg; lia). assert (VF : 0 <= v) by (apply fl_pos; nra).
  set (df := Rabs ((uf + v) - (u + y * y * RR i))).
  assert (A6 : M * df <= g1).
  { unfold df. replace ((uf + v) - (u + y * y * RR i)) with (- (u - uf) + (v - y * y * RR i)) by ring.
    eapply Rle_trans; [apply Rmult_le_compat_l; [lra|apply Rabs_triang]|]. rewrite Rabs_Ropp. lra. }
  assert (DF0 : 0 <= df) by apply Rabs_pos.
  pose proof (fl_rel _ Hfl (uf + v)) as F3. pose proof (fl_rel' _ Hfl (uf + v)) as F4. 
  assert (A7 : Rabs (u + y * y * RR i - fl (uf + v)) <= hu * D + (1 + hu) * df).
  { replace (u + y * y * RR i - fl (uf + v)) with (- (fl (uf + v) - (uf + v)) + - ((uf + v) - (u + y * y * RR i))) by ring. eapply Rle_trans; [apply Rabs_triang|].
    rewrite !Rabs_Ropp. fold df. destruct exact.
    - rewrite (Rabs_right (uf + v)) in F3 by lra. pose proof (Rle_abs ((uf + v) - (u + y * y * RR i))) as Q. fold df in Q. nra.
    - rewrite (Rabs_right (fl (uf + v))) in F4 by (apply Rle_ge, fl_pos; lra). nra. }
  unfold de_step. cbv zeta. fold rf q1 q2 z q3 z2 mr ry e1 e2 e3 g1 g2. apply up_le.
  eapply Rle_trans; [apply Rmult_le_compat_l; [lra|exact A7]|]. rewrite Rmult_plus_distr_l.
  assert (D0 : 0 <= D).
  { destruct exact; [|eapply Rle_trans; [|exact HD]; apply fl_pos; lra]. eapply Rle_trans; [|exact HD].
    assert (0 <= u) by (change 0 with (E 0); apply exact_dist_mono; lia). assert (0 <= y * y) by nra. nra. }
  assert (M * (hu * D) <= D * hu) by (assert (0 <= hu * D) by nra; nra).
  assert (M * ((1 + hu) * df) <= g2). { eapply Rle_trans; [|exact G2]. replace (M * ((1 + hu) * df)) with (M * df * (1 + hu)) by ring. apply Rmul_le; nra. }
  lra.
Qed.

Lemma levels_ok : forall D (exact : bool) n X de, (n <= d)%nat -> (if exact then E n <= D else Et n <= D) -> lev D exact n = Some (X, de) ->
  (forall j, (d - n <= j < d)%nat -> Rabs (IZR (x j)) <= X j) /\ lam ^ (2 * d + 1) * Rabs (E n - Et n) <= de.
Proof.
  intros D exact. induction n as [|p IH]; intros X de Hn HD HL.
  - injection HL as <- <-. split; [intros j Hj; lia|]. cbn. rewrite Rminus_0_r, Rabs_R0, Rmult_0_r. lra.
  - cbn [err_levels] in HL. destruct (lev D exact p) as [[X' de']|] eqn:EL; [|discriminate].
    assert (HD' : if exact then E p <= D else Et p <= D).
    { destruct exact; (eapply Rle_trans; [|exact HD]); [apply exact_dist_mono|apply fp_dist_mono]; lia. }
    destruct (IH X' de' ltac:(lia) HD' eq_refl) as [IX ID].
    destruct (yb D exact (d - S p) (cb (d - S p)%nat X' p)) as [[[[yt dy] xx] t]|] eqn:EY; [|discriminate].
    injection HL as <- <-.
    assert (IX' : forall j, (d - S p < j < d)%nat -> Rabs (IZR (x j)) <= X' j) by (intros j Hj; apply IX; lia).
    pose proof (y_bounds_ok D exact (d - S p) p X' yt dy xx t ltac:(lia) eq_refl IX' HD EY) as YO.
    split.
    + intros j Hj. destruct (Nat.eqb_spec j (d - S p)) as [->|N]; [exact (proj1 (proj2 (proj2 YO)))|]. apply IX. lia.
    + exact (level_ok D exact _ p yt dy xx t de' ltac:(lia) eq_refl HD YO ID).
Qed.
End OnX.

(** *** maxDE grows from level to level *)
Lemma cb_nonneg : forall i X m, (forall j, 0 <= X j) -> 0 <= m_c (cb i X m) /\ 0 <= m_ct (cb i X m) /\ 0 <= m_dc (cb i X m).
Proof.
  intros i X m HX. induction m as [|p IH]; [cbn; lra|]. cbn [center_bounds]. destruct IH as [A [B G]]. set (s := cb i X p) in *. set (j := (d - S p)%nat).
  pose proof (HX j) as XJ. pose proof (Hdm i) as DM. pose proof hu_pos as HU. pose proof K_ge as HK. unfold center_step. cbv zeta. cbn [m_c m_ct m_dc].
  set (mm := up (Rabs (mu j i) + dm i)). assert (0 <= mm) by (apply up_le; pose proof (Rabs_pos (mu j i)); lra).
  set (mtx := up (Rabs (dbl (mu j i)) * X j)). assert (M1 : 0 <= mtx) by (apply up_le, Rmult_le_pos; [apply Rabs_pos|auto]).
  set (mtx' := up (mtx * K)). assert (M2 : 0 <= mtx') by (apply up_le; nra).
  set (ct := up (m_ct s + mtx' * K)). assert (M3 : 0 <= ct) by (apply up_le; nra).
  set (dc := nr (m_dc s + dm i * X j)). assert (M4 : 0 <= dc). { assert (0 <= m_dc s + dm i * X j) by nra. pose proof (Hnr _ H0). fold dc in H1. nra. }
  set (dc2 := up (dc + mtx * hu)). assert (M5 : 0 <= dc2) by (apply up_le; nra).
  split; [apply up_le; nra|split; apply up_le; nra].
Qed.
Lemma step_nonneg : forall D exact i s yt dy xx t, (i < d)%nat -> 0 <= D -> 0 <= m_c s -> 0 <= m_ct s -> 0 <= m_dc s -> yb D exact i s = Some (yt, dy, xx, t) ->
  0 <= yt /\ 0 <= dy /\ 0 <= xx /\ 0 <= t.
Proof.
  intros D exact i s yt dy xx t Hi HD A B G H. pose proof hu_pos as HU. pose proof K_ge as HK. destruct (Hr i Hi) as [_ [_ [_ TP]]].
  assert (FL : forall b, 0 <= b -> 0 <= IZR (Zfloor (dn b))).
  { intros b Hb. apply IZR_le. apply Zfloor_lub. apply Hdn; [cbn; lia|exact Hb]. }
  unfold y_bounds in H. destruct exact.
  - destruct (Rle_dec (dn (r i - dr i)) 0) as [|Hm]; [discriminate|]. injection H as <- <- <- <-.
    set (tt := up (sqrt _)). assert (T0 : 0 <= tt) by (apply up_le, sqrt_pos).
    set (dy1 := up (tt * hu)). assert (0 <= dy1) by (apply up_le; nra). set (dy2 := up (dy1 + m_dc s * K)). assert (0 <= dy2) by (apply up_le; nra).
    repeat split; auto; [apply up_le; lra|apply FL; lra].
  - injection H as <- <- <- <-. set (tt := up (sqrt _)). assert (T0 : 0 <= tt) by (apply up_le, sqrt_pos).
    set (dy1 := up (tt * hu)). assert (0 <= dy1) by (apply up_le; nra).
    repeat split; auto; [apply up_le; lra|apply FL; nra].
Qed.
Lemma de_grows : forall D i yt dy t de, (i < d)%nat -> 0 <= D -> 0 <= yt -> 0 <= dy -> 0 <= t -> 0 <= de -> de <= ds D i yt dy t de.
Proof.
  intros D i yt dy t de Hi HD A B G HE. destruct (Hr i Hi) as [R1 [R2 [RP TP]]]. pose proof hu_pos as HU. pose proof K_ge as HK. unfold de_step. cbv zeta.
  assert (DR : 0 <= dr i) by (pose proof (Rabs_pos (RR i - r i)); lra).
  set (q1 := nr (dy * t)). assert (0 <= q1). { assert (Q : 0 <= dy * t) by nra. pose proof (Hnr _ Q). fold q1 in H. nra. }
  set (q2 := up (2 * q1 + dy * dy)). assert (0 <= q2) by (apply up_le; nra).
  set (z := up (yt * yt)). assert (0 <= z) by (apply up_le; nra).
  set (q3 := up (q2 + z * hu)). assert (0 <= q3) by (apply up_le; nra).
  set (z2 := up (z * K)). assert (0 <= z2) by (apply up_le; nra).
  set (mr := up (r i + dr i)). assert (0 <= mr) by (apply up_le; apply Rabs_le_inv in R1; lra).
  set (ry := up (dbl (r i) * z2)). assert (0 <= ry) by (apply up_le; nra).
  set (e1 := up (mr * q3)). assert (0 <= e1) by (apply up_le; nra).
  set (e2 := up (e1 + z2 * dr i)). assert (0 <= e2) by (apply up_le; nra).
  set (e3 := up (e2 + ry * hu)). assert (0 <= e3) by (apply up_le; nra).
  set (g1 := up (de + e3)). assert (de <= g1) by (apply up_le; lra).
  set (g2 := up (g1 * K)). assert (de <= g2) by (apply up_le; nra).
  apply up_le. nra.
Qed.
Lemma lev_grows : forall D exact, 0 <= D -> forall m X de, (m <= d)%nat -> lev D exact m = Some (X, de) ->
  (forall j, 0 <= X j) /\ 0 <= de /\ forall n X' de', (n <= m)%nat -> lev D exact n = Some (X', de') -> de' <= de.
Proof.
  intros D exact HD. induction m as [|p IH]; intros X de Hm HL.
  - injection HL as <- <-. split; [intros; lra|split; [lra|]]. intros n X' de' Hn H. replace n with O in H by lia. injection H as _ <-. lra.
  - assert (HL0 := HL). cbn [err_levels] in HL. destruct (lev D exact p) as [[X1 de1]|] eqn:EL; [|discriminate].
    destruct (IH X1 de1 ltac:(lia) eq_refl) as [I1 [I2 I3]].
    destruct (yb D exact (d - S p) (cb (d - S p)%nat X1 p)) as [[[[yt dy] xx] t]|] eqn:EY; [|discriminate].
    injection HL as <- <-. destruct (cb_nonneg (d - S p) X1 p I1) as [A [B G]].
    destruct (step_nonneg D exact (d - S p) _ yt dy xx t ltac:(lia) HD A B G EY) as [P1 [P2 [P3 P4]]].
    pose proof (de_grows D (d - S p) yt dy t de1 ltac:(lia) HD P1 P2 P4 I2) as DG.
    split; [|split; [lra|]].
    + intros j. destruct (Nat.eqb j (d - S p)); auto.
    + intros n X' de' Hn H. destruct (Nat.eq_dec n (S p)) as [->|N].
      * rewrite HL0 in H. injection H as _ <-. lra.
      * eapply Rle_trans; [|exact DG]. apply (I3 n X' de'); [lia|exact H].
Qed.
Lemma lev_prefix : forall D exact m n, (n <= m)%nat -> lev D exact m <> None -> lev D exact n <> None.
Proof.
  intros D exact m n H. induction H; auto. intros HN. apply IHle. intros E0. apply HN. cbn. rewrite E0. reflexivity.
Qed.

(** **** get_max_error_aux: the documented property of its result, for every loop of the enumeration *)
Theorem max_error_aux_ok : forall (x : nat -> Z) D (exact : bool) de, (forall i, (Z.abs (x i) <= 2 ^ 53)%Z) ->
  get_max_error_aux up dn nr dbl d mu r dr dm D exact = Some de ->
  forall n, (n <= d)%nat ->
  let e := exact_dist d x MU RR n in
  let f := fp_dist d x fl (fun j i => dbl (mu j i)) (fun i => dbl (r i)) n in
  (if exact then e <= D else f <= D) -> lam ^ (2 * d + 1) * Rabs (e - f) <= de.
Proof.
  intros x D exact de Hx H n Hn e f HD. unfold get_max_error_aux in H. destruct (lev D exact d) as [[X de']|] eqn:EL; [|discriminate]. injection H as <-.
  assert (D0 : 0 <= D).
  { destruct exact; (eapply Rle_trans; [|exact HD]); [change 0 with (exact_dist d x MU RR 0); apply exact_dist_mono; lia|apply fp_dist_nonneg; exact Hn]. }
  destruct (lev D exact n) as [[Xn den]|] eqn:EN; [|exfalso; apply (lev_prefix D exact d n Hn); [congruence|exact EN]].
  destruct (levels_ok x Hx D exact n Xn den Hn HD EN) as [_ Q]. eapply Rle_trans; [exact Q|].
  apply (proj2 (proj2 (lev_grows D exact D0 d X de' (le_n d) EL)) n Xn den Hn EN).
Qed.
End Bound.

(** ** mpfr with precision 53 has the assumed roundings, lam = 1 - 2^-53 *)
Notation RN53 := (round radix2 (FLX_exp 53) ZnearestE).
Notation RU53 := (round radix2 (FLX_exp 53) Zceil).
Notation RD53 := (round radix2 (FLX_exp 53) Zfloor).
Lemma int53_format : forall z, (Z.abs z <= 2 ^ 53)%Z -> generic_format radix2 (FLX_exp 53) (IZR z).
Proof.
  intros z H. assert (P53 : Prec_gt_0 53) by reflexivity. apply generic_format_FLX. destruct (Z.eq_dec (Z.abs z) (2 ^ 53)) as [E0|N].
  - exists (Float radix2 (Z.sgn z) 53); [|cbn; lia]. unfold F2R. cbn [Fnum Fexp]. change (bpow radix2 53) with (IZR (2 ^ 53)). rewrite <- mult_IZR. f_equal. lia.
  - exists (Float radix2 z 0); [unfold F2R; cbn; ring|]. cbn [Fnum]. change (radix2 ^ 53)%Z with (2 ^ 53)%Z. lia.
Qed.
Theorem mpfr53_up : rounds_up RU53.
Proof. intros a. assert (P53 : Prec_gt_0 53) by reflexivity. apply round_UP_pt. typeclasses eauto. Qed.
Theorem mpfr53_down : rounds_down RD53.
Proof.
  intros a. assert (P53 : Prec_gt_0 53) by reflexivity. destruct (round_DN_pt radix2 (FLX_exp 53) a) as [_ [A B]]. split; [exact A|].
  intros z Hz H. apply B; [apply int53_format; exact Hz|exact H].
Qed.
Theorem mpfr53_near : loses (1 - half_ulp) RN53.
Proof. intros a H. pose proof (fl_rel _ flx_dbl a) as F. rewrite (Rabs_right a) in F by lra. apply Rabs_le_inv in F. lra. Qed.

Section Uses.
Variables (up dn nr dbl fl : R -> R) (lam : R) (d : nat) (mu : nat -> nat -> R) (r dr dm : nat -> R) (MU : nat -> nat -> R) (RR : nat -> R).
Hypothesis Hup : rounds_up up.
Hypothesis Hdn : rounds_down dn.
Hypothesis Hlam : 0 < lam <= 1.
Hypothesis Hnr : loses lam nr.
Hypothesis Hfl : dbl_rounding fl.
Hypothesis Hdm : forall i, 0 <= dm i.
Hypothesis Hmu : forall i j, (i < j < d)%nat -> Rabs (MU j i - mu j i) <= dm i /\ Rabs (MU j i - dbl (mu j i)) <= dm i.
Hypothesis Hr : forall i, (i < d)%nat -> Rabs (RR i - r i) <= dr i /\ Rabs (RR i - dbl (r i)) <= dr i /\ 0 < RR i /\ 0 < dbl (r i).
Notation E x := (exact_dist d x MU RR).
Notation Et x := (fp_dist d x fl (fun j i => dbl (mu j i)) (fun i => dbl (r i))).
Notation aux := (get_max_error_aux up dn nr dbl d mu r dr dm).
Notation small x := (forall i, (Z.abs (x i) <= 2 ^ 53)%Z).

Let main := max_error_aux_ok up dn nr dbl fl lam d mu r dr dm MU RR Hup Hdn Hlam Hnr Hfl Hdm Hmu Hr.
(** with the radius set by shortest_vector, no vector of exact norm at most D is cut off, at any level *)
Theorem svp_radius_ok : forall (x : nat -> Z) D rad, small x -> svp_radius up dn nr dbl d mu r dr dm D = Some rad -> E x d <= D ->
  forall n, (n <= d)%nat -> lam ^ (2 * d + 1) * Et x n <= rad.
Proof.
  intros x D rad Hx H HE n Hn. unfold svp_radius in H. destruct (aux D true) as [de|] eqn:EA; [|discriminate]. injection H as <-.
  assert (En : E x n <= D) by (eapply Rle_trans; [|exact HE]; apply (exact_dist_mono dbl d r dr MU RR Hr); lia).
  pose proof (main x D true de Hx EA n Hn En) as Q. cbv zeta in Q. set (e := E x n) in *. set (f := Et x n) in *. set (M := lam ^ (2 * d + 1)) in *.
  assert (HM : 0 < M <= 1) by apply (powl_le lam Hlam). apply (up_le up Hup).
  assert (E0 : 0 <= e) by (change 0 with (E x 0); apply (exact_dist_mono dbl d r dr MU RR Hr); lia).
  pose proof (Rle_abs (- (e - f))) as A. rewrite Rabs_Ropp in A. nra.
Qed.
(** int_dist2Float: the radius passed back by the exact evaluator *)
Theorem int_dist2Float_ok : forall (x : nat -> Z) z rad, small x -> int_dist2Float up dn nr dbl d mu r dr dm z = Some rad -> E x d <= IZR z ->
  forall n, (n <= d)%nat -> lam ^ (2 * d + 2) * Et x n <= rad.
Proof.
  intros x z rad Hx H HE n Hn. unfold int_dist2Float in H. set (D := up (IZR z)) in *. destruct (aux D true) as [de|] eqn:EA; [|discriminate].
  destruct (Rle_dec de (r 0)); [|discriminate]. injection H as <-.
  assert (HD : IZR z <= D) by apply Hup.
  assert (En : E x n <= D) by (eapply Rle_trans; [|exact (Rle_trans _ _ _ HE HD)]; apply (exact_dist_mono dbl d r dr MU RR Hr); lia).
  pose proof (main x D true de Hx EA n Hn En) as Q. cbv zeta in Q. set (e := E x n) in *. set (f := Et x n) in *.
  replace (2 * d + 2)%nat with (S (2 * d + 1)) by lia. simpl pow. set (M := lam ^ (d + (d + 0) + 1)). change (lam ^ (2 * d + 1)) with M in Q.
  assert (HM : 0 < M <= 1) by apply (powl_le lam Hlam).
  assert (E0 : 0 <= e) by (change 0 with (E x 0); apply (exact_dist_mono dbl d r dr MU RR Hr); lia).
  pose proof (Rle_abs (- (e - f))) as A. rewrite Rabs_Ropp in A. pose proof (Rabs_pos (e - f)) as AP.
  assert (B : M * f <= D + de) by nra. assert (DE0 : 0 <= de) by nra.
  eapply Rle_trans; [|apply Hnr; lra]. rewrite Rmult_assoc. apply Rmult_le_compat_l; [lra|exact B].
Qed.
(** FastErrorBoundedEvaluator::get_max_error: [x0] the computed vector, of computed norm [last], the least computed norm among the
    vectors of [cand] of exact norm at most that of [x0]; all norms rounded upwards (lam = 1) *)
Theorem get_max_error_ok : forall (cand : (nat -> Z) -> Prop) x0 last de ode m, lam = 1 ->
  (forall x, cand x -> small x) -> cand x0 -> Et x0 d <= last -> (forall x, cand x -> E x d <= E x0 d -> last <= Et x d) ->
  aux last false = Some de -> aux (up (last + de)) true = Some ode -> 0 < dn (last - ode) ->
  get_max_error up dn nr dbl d mu r dr dm true last = Some m ->
  forall x, cand x -> E x0 d <= (1 + m) * E x d.
Proof.
  intros cand x0 last de ode m HL1 Hs C0 F0 Hmin EA EO Hpos H x Cx. unfold get_max_error in H. rewrite EA, EO in H. injection H as <-.
  set (e := up (last + de)) in *. set (mo := dn (last - ode)) in *.
  assert (M1 : lam ^ (2 * d + 1) = 1) by (rewrite HL1; apply pow1).
  pose proof (main x0 last false de (Hs _ C0) EA d (le_n d) F0) as Q0. cbv zeta in Q0. rewrite M1, Rmult_1_l in Q0. apply Rabs_le_inv in Q0.
  assert (E0 : E x0 d <= e) by (apply (up_le up Hup); lra).
  set (q := up (e / mo)). assert (HQ : e / mo <= q) by apply Hup. set (mm := up (q - 1)). assert (HM : q - 1 <= mm) by apply Hup.
  assert (MO : mo <= last - ode) by apply Hdn.
  assert (X0 : 0 <= E x0 d) by (change 0 with (E x0 0); apply (exact_dist_mono dbl d r dr MU RR Hr); lia).
  assert (Q1 : e <= q * mo). { apply (Rmult_le_compat_r mo) in HQ; [|lra]. replace (e / mo * mo) with e in HQ by (field; lra). exact HQ. }
  assert (QP : 0 <= q) by nra.
  destruct (Rle_dec (E x d) (E x0 d)) as [L|L].
  - specialize (Hmin x Cx L). pose proof (main x e true ode (Hs _ Cx) EO d (le_n d) (Rle_trans _ _ _ L E0)) as Q. cbv zeta in Q. rewrite M1, Rmult_1_l in Q. apply Rabs_le_inv in Q.
    assert (mo <= E x d) by lra. nra.
  - apply Rnot_le_lt in L. assert (OP : 0 <= ode).
    { pose proof (main x0 e true ode (Hs _ C0) EO d (le_n d) E0) as Q. cbv zeta in Q. rewrite M1, Rmult_1_l in Q. pose proof (Rabs_pos (E x0 d - Et x0 d)). lra. }
    assert (LE : last <= e). { apply (up_le up Hup). assert (0 <= de) by lra. lra. }
    assert (1 <= q) by nra. nra.
Qed.
End Uses.

(** ** init_delta_def *)
Section InitOk.
Variables (up dn nr dbl : R -> R) (lam : R) (d : nat) (r : nat -> R) (pw : R -> nat -> R) (prec : Z) (rho : R).
Hypothesis Hup : rounds_up up.
Hypothesis Hdn : rounds_down dn.
Hypothesis Hlam : 0 < lam <= 1.
Hypothesis Hnr : loses lam nr.
Hypothesis Hpw : forall n, rho ^ n <= pw rho n.
Hypothesis Hrho : 0 < rho.
(** the documented relative error on r gives the absolute error, as long as the relative error is below 1 *)
Theorem init_dr_ok : forall j (RRj : R), 0 < RRj -> 0 < r j -> Rabs (r j - RRj) <= RRj * (INR d * rho ^ (S j) * bpow radix2 (2 - prec)) ->
  0 < dn (1 - max_rel_dr up d pw prec rho j) ->
  lam * Rabs (RRj - r j) <= init_dr up dn nr d r pw prec rho false j /\
  (Rabs (dbl (r j) - r j) <= half_ulp * Rabs (r j) -> lam * Rabs (RRj - dbl (r j)) <= init_dr up dn nr d r pw prec rho true j).
Proof.
  intros j RRj HR Hrj HE Hpos. unfold init_dr. cbv zeta. set (m := max_rel_dr up d pw prec rho j) in *. set (t0 := dn (1 - m)) in *.
  assert (A0 : t0 <= 1 - m) by apply Hdn.
  assert (A1 : INR d * rho ^ S j * bpow radix2 (2 - prec) <= m).
  { unfold m, max_rel_dr. apply (up_le up Hup). rewrite Rmult_assoc, (Rmult_comm (rho ^ S j)), <- Rmult_assoc.
    apply Rmult_le_compat_l; [|apply Hpw]. apply Rmult_le_pos; [apply pos_INR|apply bpow_ge_0]. }
  assert (M0 : 0 <= m). { eapply Rle_trans; [|exact A1]. apply Rmult_le_pos; [apply Rmult_le_pos; [apply pos_INR|]|apply bpow_ge_0]. apply pow_le. lra. }
  set (t1 := up (m / t0)). assert (A2 : m <= t1 * t0).
  { assert (Q : m / t0 <= t1) by apply Hup. apply (Rmult_le_compat_r t0) in Q; [|lra]. replace (m / t0 * t0) with m in Q by (field; lra). exact Q. }
  assert (T1 : 0 <= t1) by nra. set (e := Rabs (r j - RRj)) in *. assert (E0 : 0 <= e) by apply Rabs_pos.
  assert (A3 : e <= RRj * m) by nra.
  assert (A4 : RRj <= r j + e) by (unfold e; pose proof (Rle_abs (- (r j - RRj))) as Q; rewrite Rabs_Ropp in Q; lra).
  assert (A5 : e <= t1 * r j).
  { assert (e * (1 - m) <= r j * m) by nra. assert (B : e * t0 <= t1 * r j * t0) by nra. apply Rmult_le_reg_r with t0; lra. }
  set (t2 := nr (t1 * r j)). assert (A6 : lam * (t1 * r j) <= t2) by (apply Hnr, Rmult_le_pos; lra).
  rewrite (Rabs_minus_sym RRj (r j)). fold e. split; [nra|]. intros HB. apply (up_le up Hup).
  replace (RRj - dbl (r j)) with (- (r j - RRj) + - (dbl (r j) - r j)) by ring.
  pose proof (Rabs_triang (- (r j - RRj)) (- (dbl (r j) - r j))) as Q. rewrite !Rabs_Ropp in Q. fold e in Q. rewrite (Rabs_right (r j)) in HB by lra.
  pose proof hu_pos. assert (0 <= half_ulp * r j) by nra. nra.
Qed.
(** the error on mu, when the error of column i is bounded by rho^(i+1) and |mu| <= 1 *)
Theorem init_dm_ok : forall i (MUji muji : R), Rabs (MUji - muji) <= INR d * rho ^ (S i) * bpow radix2 (4 - prec) ->
  Rabs (MUji - muji) <= init_dm up d pw prec rho false i /\
  (Rabs muji <= 1 -> Rabs (dbl muji - muji) <= half_ulp * Rabs muji -> Rabs (MUji - dbl muji) <= init_dm up d pw prec rho true i).
Proof.
  intros i MUji muji HE. unfold init_dm. cbv zeta. set (m := up (INR d * bpow radix2 (4 - prec) * pw rho (S i))).
  assert (A1 : INR d * rho ^ S i * bpow radix2 (4 - prec) <= m).
  { apply (up_le up Hup). rewrite Rmult_assoc, (Rmult_comm (rho ^ S i)), <- Rmult_assoc.
    apply Rmult_le_compat_l; [|apply Hpw]. apply Rmult_le_pos; [apply pos_INR|apply bpow_ge_0]. }
  split; [lra|]. intros H1 HB. apply (up_le up Hup). replace (MUji - dbl muji) with ((MUji - muji) + - (dbl muji - muji)) by ring.
  eapply Rle_trans; [apply Rabs_triang|]. rewrite Rabs_Ropp. pose proof hu_pos. nra.
Qed.
End InitOk.

(** ** Refutations, with exact arithmetic for mpfr *)
Notation idR := (fun a : R => a).
Lemma id_up : rounds_up idR. Proof. intros a. apply Rle_refl. Qed.
Lemma id_dn : rounds_down idR. Proof. intros a. split; [apply Rle_refl|auto]. Qed.
Lemma id_nr : loses 1 idR. Proof. intros a H. lra. Qed.
(** the bound of |r~ - r| is negative once the relative error is above 1; get_max_error_aux then does not fail *)
Theorem init_dr_nonneg_refuted : exists d r prec rho, (0 < r 0%nat) /\ 0 < rho /\ init_dr idR idR idR d r pow prec rho false 0 < 0 /\
  get_max_error_aux idR idR idR idR d (fun _ _ => 0) r (init_dr idR idR idR d r pow prec rho false) (fun _ => 0) 1 true <> None.
Proof.
  exists 1%nat, (fun _ => 1), 2%Z, 2.
  assert (V : init_dr idR idR idR 1 (fun _ => 1) pow 2 2 false 0 = -2).
  { unfold init_dr, max_rel_dr. simpl. field. }
  split; [lra|]. split; [lra|]. split; [rewrite V; lra|]. unfold get_max_error_aux. cbn [err_levels]. change (1 - 1)%nat with O. unfold y_bounds. rewrite V.
  destruct (Rle_dec (1 - -2) 0); [exfalso; lra|]. cbn. discriminate.
Qed.
(** the documented bound for mu has rho^(i+1) with i the row; the code uses the column *)
Theorem init_dm_row_refuted : exists d rho prec i j (MUij muij : R), (j < i < d)%nat /\
  Rabs (muij - MUij) <= INR d * rho ^ (i + 1) * bpow radix2 (4 - prec) /\ init_dm idR d pow prec rho false j < Rabs (muij - MUij).
Proof.
  exists 2%nat, 2, 4%Z, 1%nat, 0%nat, 0, 8. split; [lia|]. rewrite Rminus_0_r, Rabs_right by lra. unfold init_dm. simpl. lra.
Qed.
(** get_max_error returns a negative relative error when the least possible norm is not positive *)
Theorem get_max_error_negative_refuted : exists d mu r dr dm last m, (0 < last) /\ (forall i, 0 <= dr i < r i) /\ (forall i, 0 <= dm i) /\
  get_max_error idR idR idR idR d mu r dr dm true last = Some m /\ m < -1.
Proof.
  set (dr := fun _ : nat => 3 / 4). set (r := fun _ : nat => 1). set (mu := fun _ _ : nat => 0). set (dm := fun _ : nat => 0).
  assert (S1 : exists de, get_max_error_aux idR idR idR idR 1 mu r dr dm 1 false = Some de /\ 0 <= de).
  { unfold get_max_error_aux. cbn [err_levels]. change (1 - 1)%nat with O. cbn [y_bounds]. cbn [option_map snd]. eexists. split; [reflexivity|].
    eapply (de_grows idR idR idR 1 1 r dr r id_up); try (intros; unfold r, dr; rewrite ?Rminus_eq_0, ?Rabs_R0; lra); try lia; try lra; try apply id_nr.
    - apply sqrt_pos.
    - cbn. pose proof hu_pos. assert (0 <= sqrt (1 * KK idR / r 0%nat * KK idR)) by apply sqrt_pos. nra.
    - apply sqrt_pos. }
  destruct S1 as [de [E1 D1]].
  set (e := 1 + de). assert (He : 1 <= e) by (unfold e; lra).
  assert (S2 : exists ode, get_max_error_aux idR idR idR idR 1 mu r dr dm e true = Some ode /\ 3 <= ode).
  { unfold get_max_error_aux. cbn [err_levels]. change (1 - 1)%nat with O. unfold y_bounds. unfold r at 1, dr at 1.
    destruct (Rle_dec (1 - 3 / 4) 0); [exfalso; lra|]. cbn [option_map snd]. eexists. split; [reflexivity|]. unfold r, dr. cbn [m_dc center_bounds].
    assert (QS : sqrt (e / (1 - 3 / 4)) * sqrt (e / (1 - 3 / 4)) = 4 * e) by (rewrite sqrt_sqrt; lra).
    pose proof (sqrt_pos (e / (1 - 3 / 4))) as QP. set (q := sqrt (e / (1 - 3 / 4))) in *. pose proof hu_pos as HU. set (h := half_ulp) in *.
    set (K := KK idR). assert (HK : 1 <= K) by (unfold K, KK; fold h; lra). unfold de_step. cbv zeta. fold K h.
    set (dy := q * h + 0 * K). assert (Hdy : 0 <= dy) by (unfold dy; nra). set (yt := q + dy). assert (Hyt : q <= yt) by (unfold yt; lra).
    assert (Y2 : 4 <= yt * yt) by nra. set (y2 := yt * yt) in *. set (y2k := y2 * K). assert (Y3 : 4 <= y2k) by (unfold y2k; nra).
    set (dy2 := 2 * (dy * q) + dy * dy + y2 * h). assert (H2 : 0 <= dy2) by (unfold dy2; nra).
    assert (H3 : 3 <= (1 + 3 / 4) * dy2 + y2k * (3 / 4) + 1 * y2k * h) by nra. set (dd := (1 + 3 / 4) * dy2 + _ + _) in *. nra. }
  destruct S2 as [ode [E2 D2]].
  exists 1%nat, mu, r, dr, dm, 1, (e / (1 - ode) - 1). split; [lra|]. split; [intros i; unfold dr, r; lra|]. split; [intros i; unfold dm; lra|].
  unfold get_max_error. rewrite E1. fold e. rewrite E2. split; [reflexivity|].
  assert (e / (1 - ode) < 0); [|lra]. apply Ropp_lt_cancel. rewrite Ropp_0. unfold Rdiv. rewrite Ropp_mult_distr_r. apply Rmult_lt_0_compat; [lra|].
  rewrite <- Rinv_opp. apply Rinv_0_lt_compat. lra.
Qed.

(** ** A concrete case: d = 2, mpfr and double with 53 bits, mu = 1/2 + 1/100, r = (4 + 1/8, 3 - 1/8) known up to 1/100 and 1/8 *)
Definition ex_mu (j i : nat) : R := 1 / 2.
Definition ex_r (i : nat) : R := match i with O => 4 | _ => 3 end.
Definition ex_MU (j i : nat) : R := 1 / 2 + 1 / 100.
Definition ex_RR (i : nat) : R := match i with O => 4 + 1 / 8 | _ => 3 - 1 / 8 end.
Definition ex_x (i : nat) : Z := match i with O => 1%Z | 1%nat => (-2)%Z | _ => 0%Z end.
Definition ex_dr (i : nat) : R := 1 / 8.
Definition ex_dm (i : nat) : R := 1 / 100.
Lemma RN_half : RN53 (1 / 2) = 1 / 2.
Proof.
  assert (P53 : Prec_gt_0 53) by reflexivity. apply round_generic; [typeclasses eauto|]. apply generic_format_FLX. exists (Float radix2 1 (-1)); [|reflexivity].
  unfold F2R. simpl. lra.
Qed.
Lemma RN_int : forall z, (Z.abs z <= 2 ^ 53)%Z -> RN53 (IZR z) = IZR z.
Proof. intros z H. apply round_generic; [typeclasses eauto|]. apply int53_format. exact H. Qed.
Lemma ex_rf : forall i, RN53 (ex_r i) = ex_r i. Proof. intros [|i]; cbn [ex_r]; apply RN_int; cbn; lia. Qed.
Lemma ex_Hmu : forall i j, (i < j < 2)%nat -> Rabs (ex_MU j i - ex_mu j i) <= ex_dm i /\ Rabs (ex_MU j i - RN53 (ex_mu j i)) <= ex_dm i.
Proof. intros i j _. unfold ex_mu, ex_MU, ex_dm. rewrite RN_half. replace (1 / 2 + 1 / 100 - 1 / 2) with (1 / 100) by lra. rewrite Rabs_right by lra. lra. Qed.
Lemma ex_Hr : forall i, (i < 2)%nat -> Rabs (ex_RR i - ex_r i) <= ex_dr i /\ Rabs (ex_RR i - RN53 (ex_r i)) <= ex_dr i /\ 0 < ex_RR i /\ 0 < RN53 (ex_r i).
Proof.
  intros i Hi. rewrite ex_rf. unfold ex_dr. assert (A : Rabs (ex_RR i - ex_r i) <= 1 / 8). { apply Rabs_le. destruct i; cbn; lra. }
  repeat split; auto; destruct i; cbn; lra.
Qed.
Lemma lam53 : 0 < 1 - half_ulp <= 1. Proof. pose proof hu_pos. pose proof hu_lt. lra. Qed.
(** the bound exists (for vectors of exact norm at most 12) *)
Lemma ex_some : exists de, get_max_error_aux RU53 RD53 RN53 RN53 2 ex_mu ex_r ex_dr ex_dm 12 true = Some de.
Proof.
  assert (Q : forall i, ~ RD53 (ex_r i - ex_dr i) <= 0).
  { intros i. assert (IZR 1 <= RD53 (ex_r i - ex_dr i)). { apply mpfr53_down; [cbn; lia|]. unfold ex_dr. destruct i; cbn; lra. } lra. }
  unfold get_max_error_aux. cbn [err_levels]. unfold y_bounds at 1. destruct (Rle_dec (RD53 (ex_r (2 - 1) - ex_dr (2 - 1))) 0) as [L|_]; [exfalso; exact (Q _ L)|].
  unfold y_bounds. destruct (Rle_dec (RD53 (ex_r (2 - 2) - ex_dr (2 - 2))) 0) as [L|_]; [exfalso; exact (Q _ L)|]. cbn [option_map]. eexists. reflexivity.
Qed.
Lemma ex_norm : exact_dist 2 ex_x ex_MU ex_RR 2 <= 12.
Proof. cbn. unfold ex_MU, ex_RR. lra. Qed.
Lemma ex_small : forall i, (Z.abs (ex_x i) <= 2 ^ 53)%Z. Proof. intros [|[|i]]; cbn; lia. Qed.
Example max_error_aux_ex : exists de, get_max_error_aux RU53 RD53 RN53 RN53 2 ex_mu ex_r ex_dr ex_dm 12 true = Some de /\
  (1 - half_ulp) ^ 5 * Rabs (exact_dist 2 ex_x ex_MU ex_RR 2 - fp_dist 2 ex_x RN53 (fun j i => RN53 (ex_mu j i)) (fun i => RN53 (ex_r i)) 2) <= de.
Proof.
  destruct ex_some as [de E0]. exists de. split; [exact E0|].
  apply (max_error_aux_ok RU53 RD53 RN53 RN53 RN53 (1 - half_ulp) 2 ex_mu ex_r ex_dr ex_dm ex_MU ex_RR mpfr53_up mpfr53_down lam53 mpfr53_near flx_dbl
    ltac:(intros; unfold ex_dm; lra) ex_Hmu ex_Hr ex_x 12 true de ex_small E0 2 (le_n 2) ex_norm).
Qed.
(** the true and the computed norm differ in this case: 11.50165 against 12 *)
Example ex_norms : exact_dist 2 ex_x ex_MU ex_RR 2 = 4125 / 1000 * (2 / 100) * (2 / 100) + 4 * (2875 / 1000) /\
  fp_dist 2 ex_x RN53 (fun j i => RN53 (ex_mu j i)) (fun i => RN53 (ex_r i)) 2 = 12.
Proof.
  split; [cbn; unfold ex_MU, ex_RR; lra|]. cbn [fp_dist fp_center]. change (2 - 1)%nat with 1%nat. change (2 - 2)%nat with O. cbn [ex_x]. unfold ex_mu. rewrite RN_half, !ex_rf. cbn [ex_r].
  assert (N : forall a z, a = IZR z -> (Z.abs z <= 2 ^ 53)%Z -> RN53 a = IZR z) by (intros a z -> H; apply RN_int; exact H).
  rewrite (N (-2 - 0) (-2)%Z), (N (-2 * -2) 4%Z), (N (4 * 3) 12%Z), (N (0 + 12) 12%Z) by (try lra; cbn; lia).
  rewrite (N (-2 * (1 / 2)) (-1)%Z), (N (0 - -1) 1%Z), (N (1 - 1) 0%Z), (N (0 * 0) 0%Z), (N (0 * 4) 0%Z), (N (12 + 0) 12%Z) by (try lra; cbn; lia). reflexivity.
Qed.
Example svp_radius_ex : exists rad, svp_radius RU53 RD53 RN53 RN53 2 ex_mu ex_r ex_dr ex_dm 12 = Some rad /\
  (1 - half_ulp) ^ 5 * fp_dist 2 ex_x RN53 (fun j i => RN53 (ex_mu j i)) (fun i => RN53 (ex_r i)) 1 <= rad.
Proof.
  destruct ex_some as [de E0]. exists (RU53 (12 + de)). assert (S : svp_radius RU53 RD53 RN53 RN53 2 ex_mu ex_r ex_dr ex_dm 12 = Some (RU53 (12 + de))) by (unfold svp_radius; rewrite E0; reflexivity).
  split; [exact S|].
  apply (svp_radius_ok RU53 RD53 RN53 RN53 RN53 (1 - half_ulp) 2 ex_mu ex_r ex_dr ex_dm ex_MU ex_RR mpfr53_up mpfr53_down lam53 mpfr53_near flx_dbl
    ltac:(intros; unfold ex_dm; lra) ex_Hmu ex_Hr ex_x 12 _ ex_small S ex_norm 1). lia.
Qed.
(** the hypotheses of [get_max_error_ok] and [int_dist2Float_ok] with a result: d = 1, r = 1 known exactly, x0 = 1, exact arithmetic for mpfr *)
Lemma one_aux : forall D (exact : bool), 0 <= D <= 2 -> exists de, get_max_error_aux idR idR idR idR 1 (fun _ _ => 0) (fun _ => 1) (fun _ => 0) (fun _ => 0) D exact = Some de /\ 0 <= de <= 100 * half_ulp.
Proof.
  intros D exact HD. pose proof hu_pos as HU. assert (HU1 : half_ulp <= / 1024) by (unfold half_ulp; change (/ 1024) with (bpow radix2 (-10)); apply bpow_le; lia).
  unfold get_max_error_aux. cbn [err_levels]. change (1 - 1)%nat with O. unfold y_bounds.
  set (h := half_ulp) in *. assert (FIN : forall q yt dy, 0 <= q -> q * q <= 2 * (1 + h) * (1 + h) -> q <= yt -> yt <= q + q * h -> 0 <= dy -> dy = q * h ->
    0 <= de_step idR idR idR (fun _ => 1) (fun _ => 0) D 0 yt dy q 0 <= 100 * h).
  { intros q yt dy Q0 Q1 Y0 Y1 D0 D1. unfold de_step. cbv zeta. unfold KK. fold h. subst dy.
    assert (Q2 : q * q <= 201 / 100) by nra. assert (Y2 : 0 <= yt * yt <= 202 / 100) by nra. set (y2 := yt * yt) in *.
    set (a := q * q) in *. replace (2 * (q * h * q) + q * h * (q * h) + y2 * h) with (h * (2 * a + a * h + y2)) by (unfold a; ring).
    assert (A0 : 0 <= a) by (unfold a; nra). set (b := 2 * a + a * h + y2). assert (B0 : 0 <= b <= 7) by (unfold b; nra). set (c := y2 * (1 + h)). assert (C0 : 0 <= c <= 3) by (unfold c; nra).
    replace (((0 + ((1 + 0) * (h * b) + c * 0 + 1 * c * h)) * (1 + h)) + D * h) with (h * ((b + c) * (1 + h) + D)) by ring.
    assert (0 <= (b + c) * (1 + h) + D <= 100) by nra. nra. }
  destruct exact.
  - destruct (Rle_dec (1 - 0) 0); [exfalso; lra|]. cbn [option_map snd]. eexists. split; [reflexivity|]. cbn [m_dc center_bounds]. fold h. set (q := sqrt (D / (1 - 0))).
    assert (Q0 : 0 <= q) by apply sqrt_pos. assert (QQ : q * q = D) by (unfold q; rewrite sqrt_sqrt by lra; lra).
    apply FIN; try nra. 
  - cbn [option_map snd]. eexists. split; [reflexivity|]. cbn [m_dc center_bounds]. fold h. unfold KK. fold h. set (q := sqrt (D * (1 + h) / 1 * (1 + h))).
    assert (Q0 : 0 <= q) by apply sqrt_pos. assert (QQ : q * q = D * (1 + h) * (1 + h)). { unfold q. rewrite sqrt_sqrt; [field|]. assert (0 <= D * (1 + h) * (1 + h)) by nra. lra. }
    apply FIN; try nra.
Qed.
Lemma one_mu : forall i j, (i < j < 1)%nat -> Rabs (0 - 0) <= 0 /\ Rabs (0 - 0) <= 0. Proof. intros i j H. lia. Qed.
Lemma one_r : forall i, (i < 1)%nat -> Rabs (1 - 1) <= 0 /\ Rabs (1 - 1) <= 0 /\ 0 < 1 /\ 0 < 1.
Proof. intros _ _. rewrite Rminus_eq_0, Rabs_R0. repeat split; lra. Qed.
Example get_max_error_ex : exists de ode m,
  get_max_error_aux idR idR idR idR 1 (fun _ _ => 0) (fun _ => 1) (fun _ => 0) (fun _ => 0) 1 false = Some de /\
  get_max_error_aux idR idR idR idR 1 (fun _ _ => 0) (fun _ => 1) (fun _ => 0) (fun _ => 0) (1 + de) true = Some ode /\ 0 < 1 - ode /\
  get_max_error idR idR idR idR 1 (fun _ _ => 0) (fun _ => 1) (fun _ => 0) (fun _ => 0) true 1 = Some m /\
  exact_dist 1 (fun _ => 1%Z) (fun _ _ => 0) (fun _ => 1) 1 <= (1 + m) * exact_dist 1 (fun _ => (-1)%Z) (fun _ _ => 0) (fun _ => 1) 1.
Proof.
  pose proof hu_pos as HU. assert (HU1 : half_ulp <= / 1024) by (unfold half_ulp; change (/ 1024) with (bpow radix2 (-10)); apply bpow_le; lia).
  destruct (one_aux 1 false ltac:(lra)) as [de [E1 D1]]. destruct (one_aux (1 + de) true ltac:(lra)) as [ode [E2 D2]].
  assert (G : get_max_error idR idR idR idR 1 (fun _ _ => 0) (fun _ => 1) (fun _ => 0) (fun _ => 0) true 1 = Some ((1 + de) / (1 - ode) - 1)) by (unfold get_max_error; rewrite E1, E2; reflexivity).
  exists de, ode, ((1 + de) / (1 - ode) - 1). split; [exact E1|]. split; [exact E2|]. split; [lra|]. split; [exact G|].
  assert (F : forall z, z = 1%Z \/ z = (-1)%Z -> fp_dist 1 (fun _ => z) RN53 (fun _ _ => 0) (fun _ => 1) 1 = 1).
  { assert (N : forall a z, a = IZR z -> (Z.abs z <= 2 ^ 53)%Z -> RN53 a = IZR z) by (intros a z -> H; apply RN_int; exact H).
    intros z [-> | ->]; cbn [fp_dist fp_center].
    - rewrite (N (1 - 0) 1%Z), (N (1 * 1) 1%Z), (N (1 * 1) 1%Z), (N (0 + 1) 1%Z) by (try lra; cbn; lia). reflexivity.
    - rewrite (N (-1 - 0) (-1)%Z), (N (-1 * -1) 1%Z), (N (1 * 1) 1%Z), (N (0 + 1) 1%Z) by (try lra; cbn; lia). reflexivity. }
  apply (get_max_error_ok idR idR idR idR RN53 1 1 (fun _ _ => 0) (fun _ => 1) (fun _ => 0) (fun _ => 0) (fun _ _ => 0) (fun _ => 1) id_up id_dn ltac:(lra) id_nr flx_dbl
    ltac:(intros; lra) one_mu one_r
    (fun x => x = (fun _ => 1%Z) \/ x = (fun _ => (-1)%Z)) (fun _ => 1%Z) 1 de ode); auto; try lra.
  - intros x [-> | ->] i; cbn; lia.
  - rewrite F by auto. lra.
  - intros x [-> | ->] _; rewrite F by auto; lra.
Qed.
Example int_dist2Float_ex : exists rad, int_dist2Float idR idR idR idR 1 (fun _ _ => 0) (fun _ => 1) (fun _ => 0) (fun _ => 0) 1 = Some rad /\
  1 ^ 4 * fp_dist 1 (fun _ => 1%Z) RN53 (fun _ _ => 0) (fun _ => 1) 1 <= rad.
Proof.
  pose proof hu_pos as HU. assert (HU1 : half_ulp <= / 1024) by (unfold half_ulp; change (/ 1024) with (bpow radix2 (-10)); apply bpow_le; lia).
  destruct (one_aux 1 true ltac:(lra)) as [de [E1 D1]]. exists (1 + de).
  assert (I : int_dist2Float idR idR idR idR 1 (fun _ _ => 0) (fun _ => 1) (fun _ => 0) (fun _ => 0) 1 = Some (1 + de)).
  { unfold int_dist2Float. rewrite E1. destruct (Rle_dec de 1); [reflexivity|exfalso; lra]. }
  split; [exact I|].
  apply (int_dist2Float_ok idR idR idR idR RN53 1 1 (fun _ _ => 0) (fun _ => 1) (fun _ => 0) (fun _ => 0) (fun _ _ => 0) (fun _ => 1) id_up id_dn ltac:(lra) id_nr flx_dbl
    ltac:(intros; lra) one_mu one_r (fun _ => 1%Z) 1 (1 + de) ltac:(intros; cbn; lia) I); [|lia].
  cbn. lra.
Qed.
(** the documented input errors: d = 1, rho = 2, prec = 10, relative error 1/128 *)
Example init_dr_ex : Rabs (1 - 128 / 129) <= 128 / 129 * (INR 1 * 2 ^ 1 * bpow radix2 (2 - 10)) /\
  1 * Rabs (128 / 129 - 1) <= init_dr idR idR idR 1 (fun _ => 1) pow 10 2 false 0.
Proof.
  assert (A : Rabs (1 - 128 / 129) <= 128 / 129 * (INR 1 * 2 ^ 1 * bpow radix2 (2 - 10))) by (rewrite Rabs_right by lra; simpl; lra).
  split; [exact A|].
  apply (init_dr_ok idR idR idR idR 1 1 (fun _ => 1) pow 10 2 id_up id_dn ltac:(lra) id_nr ltac:(intros; lra) ltac:(lra) 0 (128 / 129) ltac:(lra) ltac:(lra) A).
  unfold max_rel_dr. simpl. lra.
Qed.
Example init_dm_ex : Rabs (1 / 2 - (1 / 2 + 1 / 64)) <= init_dm idR 1 pow 10 2 false 0.
Proof.
  apply (init_dm_ok idR idR 1 pow 10 2 id_up ltac:(intros; lra) 0). 
  replace (1 / 2 - (1 / 2 + 1 / 64)) with (- (1 / 64)) by lra. rewrite Rabs_Ropp, Rabs_right by lra. simpl. lra.
Qed.
Print Assumptions max_error_aux_ok.
Print Assumptions get_max_error_ok.
Print Assumptions get_max_error_negative_refuted.
