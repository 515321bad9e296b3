(** C37, C38: HLLL (hlll.cpp, householder.cpp) for every floating-point type. *)
From Coq Require Import List ZArith Lia Arith Bool.
From Verif Require Import Util LatticeSpec NumVectModel MatrixModel MatrixProofs GsoModel GsoProofs
  PropGso HouseModel HouseProofs MpfrModel.
Import ListNotations.
Local Open Scope nat_scope.

(** the basis, the transform and the inverse transform of the object a run ends with *)
Definition out_b {ho} (x : hl ho) := gb (hz ho (lm ho x)).
Definition out_u {ho} (x : hl ho) := gu (hz ho (lm ho x)).
Definition out_ui {ho} (x : hl ho) := gui (hz ho (lm ho x)).

(** * C38: whatever the floating-point operations return, and wherever the run
    stops, nothing outside the matrices is accessed, the lattice is the one
    given, u keeps expressing the basis and u_inv_t stays the transposed inverse. *)
Theorem hlll_preserves_lattice :
  forall (ho : hops) (row_expo : bool) (P : hpar ho) fuel srfuel junk b c u ui force_long,
    valid_input b c u ui -> 2 <= length b <= c ->
    exists x o,
      hlll ho row_expo P fuel srfuel junk (house_new ho junk b c u ui force_long) = Some (x, o) /\
      length (out_b x) = length b /\ rect c (out_b x) /\ same_lattice c b (out_b x).
Proof.
  intros ho ee P fuel srfuel junk b c u ui fl HV HD.
  destruct (hlll_K ho ee P fuel srfuel junk b c u ui fl HD) as [x [o [E [D [K _ _]]]]].
  { apply valid_input_inv; auto. } { apply HV. }
  exists x, o. split; auto. destruct K as [Sh Z _ St].
  destruct (zsteps_lattice _ _ St) as [L1 [C1 S1]]. destruct (zinv_facts ho _ _ _ _ Sh Z) as [_ [_ [_ R1]]].
  split; [exact L1|]. split; [exact R1|exact S1].
Qed.

Theorem hlll_transform :
  forall (ho : hops) (row_expo : bool) (P : hpar ho) fuel srfuel junk b c u ui force_long n B0,
    valid_input b c u ui -> 2 <= length b <= c -> u <> [] -> is_product n b u B0 ->
    exists x o,
      hlll ho row_expo P fuel srfuel junk (house_new ho junk b c u ui force_long) = Some (x, o) /\
      length (out_u x) = length b /\ is_product n (out_b x) (out_u x) B0.
Proof.
  intros ho ee P fuel srfuel junk b c u ui fl n B0 HV HD Hu HP.
  destruct (hlll_K ho ee P fuel srfuel junk b c u ui fl HD) as [x [o [E [D [K _ _]]]]].
  { apply valid_input_inv; auto. } { apply HV. }
  exists x, o. split; auto. destruct K as [Sh Z _ St].
  assert (Lu : length u = length b) by (destruct (vi_u _ _ _ _ HV) as [->|[L _]]; [congruence|auto]).
  destruct (zsteps_product _ _ n B0 St) as [L1 P1]; auto.
  { change ((0 <? length u) = true). rewrite Lu. apply Nat.ltb_lt. lia. }
  destruct (zsteps_lattice _ _ St) as [L2 _]. split; [|exact P1].
  unfold out_u. rewrite L1. exact L2.
Qed.

Theorem hlll_inverse_transform :
  forall (ho : hops) (row_expo : bool) (P : hpar ho) fuel srfuel junk b c u ui force_long,
    valid_input b c u ui -> 2 <= length b <= c -> u <> [] -> ui <> [] ->
    inverse_transposed (length b) u ui ->
    exists x o,
      hlll ho row_expo P fuel srfuel junk (house_new ho junk b c u ui force_long) = Some (x, o) /\
      inverse_transposed (length b) (out_u x) (out_ui x).
Proof.
  intros ho ee P fuel srfuel junk b c u ui fl HV HD Hu Hui HP.
  destruct (hlll_K ho ee P fuel srfuel junk b c u ui fl HD) as [x [o [E [D [K _ _]]]]].
  { apply valid_input_inv; auto. } { apply HV. }
  exists x, o. split; auto. destruct K as [Sh Z _ St].
  assert (Lu : length u = length b) by (destruct (vi_u _ _ _ _ HV) as [->|[L _]]; [congruence|auto]).
  assert (Lui : length ui = length b) by (destruct (vi_ui _ _ _ _ HV) as [->|[L _]]; [congruence|auto]).
  destruct (zsteps_inverse _ _ St) as [_ [_ P1]]; auto.
  - change ((0 <? length u) = true). rewrite Lu. apply Nat.ltb_lt. lia.
  - change ((0 <? length ui) = true). rewrite Lui. apply Nat.ltb_lt. lia.
Qed.

(** one row: hlll() refreshes row 1, which does not exist (hlll.cpp:75), for
    every floating-point type and every vector *)
Theorem hlll_one_row_refuted :
  forall (ho : hops) (row_expo : bool) (P : hpar ho) fuel srfuel junk v c u ui force_long,
    hlll ho row_expo P fuel srfuel junk (house_new ho junk [v] c u ui force_long) = None.
Proof.
  intros. unfold hlll, hlll_init.
  destruct (refresh_R_bf ho row_expo (house_new ho junk [v] c u ui force_long) 0) as [m1|] eqn:E1; cbn [obind]; auto.
  destruct (update_R_last ho m1 0) as [m2|] eqn:E2; cbn [obind]; auto.
  destruct (compute_dR ho P (mkhl ho m2 (repeat junk (hd_ ho (house_new ho junk [v] c u ui force_long)))
     (repeat junk (hd_ ho (house_new ho junk [v] c u ui force_long)))) 0) as [x1|] eqn:E3; cbn [obind]; auto.
  destruct (compute_eR ho P x1 0) as [x2|] eqn:E4; cbn [obind]; auto.
  enough (refresh_R_bf ho row_expo (lm ho x2) 1 = None) as -> by auto.
  assert (H : irs (hz ho (lm ho x2)) = irs (hz ho (house_new ho junk [v] c u ui force_long))).
  { unfold compute_eR in E4. destruct (mget _ 0 0); [|discriminate]. cbn [obind] in E4.
    destruct (nth_error (leR ho x1) 0); [|discriminate]. injection E4 as <-. cbn [lm].
    unfold compute_dR in E3. destruct (mget _ 0 0); [|discriminate]. cbn [obind] in E3.
    destruct (nth_error (ldR ho _) 0); [|discriminate]. injection E3 as <-. cbn [lm].
    unfold update_R_last in E2.
    repeat match type of E2 with obind ?e _ = _ => let E := fresh "E" in destruct e as [?|] eqn:E; [cbn [obind] in E2|discriminate] end.
    destruct p as [[? ?] ?]. injection E2 as <-. cbn.
    unfold refresh_R_bf in E1.
    repeat match type of E1 with obind ?e _ = _ => let E := fresh "E" in destruct e as [?|] eqn:E; [cbn [obind] in E1|discriminate] end.
    injection E1 as <-. reflexivity. }
  unfold refresh_R_bf. rewrite H. reflexivity.
Qed.

(** ... in particular for the one-row basis (5, 3), which is reduced *)
Example ex_hlll_one_row :
  hlll (mpfr_hops 53) false (mpfr_default 53) 10 10 (0, 0)%Z
    (house_new (mpfr_hops 53) (0, 0)%Z [[5; 3]]%Z 2 [] [] false) = None.
Proof. reflexivity. Qed.

(** more rows than columns: R(i, i) does not exist for i >= cols; the two zero
    vectors of Z^1 pass the size-reduction and the Lovasz test *)
Theorem hlll_more_rows_than_columns_refuted :
  exists b c, valid_input b c [] [] /\ length b = 2 /\ c < length b /\
    hlll (mpfr_hops 53) false (mpfr_default 53) 10 10 (0, 0)%Z
      (house_new (mpfr_hops 53) (0, 0)%Z b c [] [] false) = None.
Proof.
  exists [[0]; [0]]%Z, 1. split; [|split; [|split]]; auto.
  constructor; auto. intros i Hi. cbn in Hi. destruct i as [|[|i]]; auto; lia.
Qed.

(** instance: a run on four vectors with transforms that swaps and reduces *)
Definition hx_b : list (list Z) := [[4;1;0;0]; [7;0;2;0]; [1;1;9;3]; [0;5;-3;8]]%Z.
Definition hx_run (fuel : nat) :=
  match hlll (mpfr_hops 53) false (mpfr_default 53) fuel 20 (0, 0)%Z
      (house_new (mpfr_hops 53) (0, 0)%Z hx_b 4 (ident 4) (ident 4) false) with
  | Some (x, o) => Some (o, out_b x, out_u x, out_ui x)
  | None => None
  end.
Example ex_hlll_input : valid_input hx_b 4 (ident 4) (ident 4) /\ 2 <= length hx_b <= 4.
Proof.
  split; [|cbn; lia].
  assert (R : rect 4 (ident 4)) by (intros i Hi; cbn in Hi; destruct i as [|[|[|[|i]]]]; auto; cbn in Hi; lia).
  constructor; auto; try (right; split; auto; exists 4; exact R).
  intros i Hi. cbn in Hi. destruct i as [|[|[|[|i]]]]; auto; cbn in Hi; lia.
Qed.
Example ex_hlll_run : exists o b u ui, hx_run 50 = Some (o, b, u, ui) /\ o = HSuccess /\ b <> hx_b.
Proof.
  assert (E : exists b u ui, hx_run 50 = Some (HSuccess, b, u, ui) /\ b <> hx_b).
  { unfold hx_run.
    match goal with |- exists b u ui, ?t = _ /\ _ => let v := eval vm_compute in t in
      match v with Some (_, ?b, ?u, ?ui) => exists b, u, ui end end.
    split; [vm_compute; reflexivity|discriminate]. }
  destruct E as [b [u [ui [E N]]]]. exists HSuccess, b, u, ui. auto.
Qed.

(** * C37 *)

(** eta takes no part in a run: two values of it give the same result *)
Theorem hlll_ignores_eta :
  forall (ho : hops) row_expo delta eta eta' theta fuel srfuel junk m,
    hlll ho row_expo (mkhpar ho delta eta theta) fuel srfuel junk m =
    hlll ho row_expo (mkhpar ho delta eta' theta) fuel srfuel junk m.
Proof. reflexivity. Qed.

(** For two independent rows R(0,0) = |b0|, R(1,0) = <b1,b0>/|b0| and
    R(1,1) = |det|/|b0|; this is |R(1,0)| > eta R(0,0) + theta R(1,1), times |b0|,
    for eta = en/q, theta = tn/q. *)
Definition not_size_reduced_2 (en tn q : Z) (b : list (list Z)) : Prop :=
  match b with
  | [[x0; x1]; [y0; y1]] =>
      (q * Z.abs (x0 * y0 + x1 * y1) > en * (x0 * x0 + x1 * x1) + tn * Z.abs (x0 * y1 - x1 * y0))%Z
  | _ => False
  end.

(** [gtm x y]: x > y for numbers m * 2^e *)
Definition gtm (x y : mp) : Prop := xcmp x y = Gt.

Definition h2_run (p : Z) (P : hpar (mpfr_hops p)) (b : list (list Z)) :=
  match hlll (mpfr_hops p) false P 50 50 (0, 0)%Z (house_new (mpfr_hops p) (0, 0)%Z b 2 [] [] false) with
  | Some (x, o) => Some (o, out_b x, hR _ (lm _ x))
  | None => None
  end.

(** With the default parameters (delta 0.99, eta 0.51, theta 0.001) and 8-bit
    mpfr numbers hlll succeeds on a basis with R(1,0) = 0.6 R(0,0), according to
    its own R as well as in exact arithmetic. *)
Theorem hlll_success_eta_refuted :
  exists b b' R, h2_run 8 (mpfr_default 8) b = Some (HSuccess, b', R) /\
    not_size_reduced_2 510 1 1000 b' /\
    exists r00 r10 r11, mget R 0 0 = Some r00 /\ mget R 1 0 = Some r10 /\ mget R 1 1 = Some r11 /\
      gtm (Z.abs (fst r10), snd r10)
          (xadd (xmul (p_eta _ (mpfr_default 8)) r00) (xmul (p_theta _ (mpfr_default 8)) r11)).
Proof.
  exists [[2; -4]; [316; -324]]%Z.
  match goal with |- exists b R, ?t = _ /\ _ => let v := eval vm_compute in t in
    match v with Some (_, ?b, ?R) => exists b, R end end.
  split; [vm_compute; reflexivity|]. split; [vm_compute; reflexivity|].
  do 3 eexists. split; [reflexivity|]. split; [reflexivity|]. split; [reflexivity|]. vm_compute. reflexivity.
Qed.

(** With 53 bits (the precision of double) and theta = 0 the final basis is
    (0,-14), (58151723849365722,-8): 8 > 0.51 * 14 *)
Theorem hlll_success_eta_53_refuted :
  exists b b' R, h2_run 53 (mpfr_theta0 53) b = Some (HSuccess, b', R) /\
    not_size_reduced_2 51 0 100 b' /\
    exists r00 r10, mget R 0 0 = Some r00 /\ mget R 1 0 = Some r10 /\
      gtm (Z.abs (fst r10), snd r10) (xmul (p_eta _ (mpfr_theta0 53)) r00).
Proof.
  exists [[0; -14]; [58151723849365722; -126480231813722634]]%Z.
  match goal with |- exists b R, ?t = _ /\ _ => let v := eval vm_compute in t in
    match v with Some (_, ?b, ?R) => exists b, R end end.
  split; [vm_compute; reflexivity|]. split; [vm_compute; reflexivity|].
  do 2 eexists. split; [reflexivity|]. split; [reflexivity|]. vm_compute. reflexivity.
Qed.

Print Assumptions hlll_preserves_lattice.
Print Assumptions hlll_transform.
Print Assumptions hlll_inverse_transform.
Print Assumptions hlll_one_row_refuted.
Print Assumptions hlll_more_rows_than_columns_refuted.
Print Assumptions hlll_ignores_eta.
Print Assumptions hlll_success_eta_refuted.
Print Assumptions hlll_success_eta_53_refuted.
