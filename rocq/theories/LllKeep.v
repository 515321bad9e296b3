(** LLL and size reduction in exact arithmetic: what is kept by every pass is kept by the whole
    call, and the state a successful call leaves.  Not part of the model (proofs for PropBkzExact.v). *)
From Coq Require Import List ZArith QArith Qcanon Lia Lqa Arith Bool.
From Verif Require Import Util QcUtil LatticeSpec NumVectModel NumVectProofs MatrixModel MatrixProofs
  GsoModel GsoProofs GsoHistory RotateSpec GsoFModel GsoFSpec GsoFProofs GsoWeak GsoQ QGs LllModel LllProofs LllQ LllExact GramDet LatPot LllTotal.
Import ListNotations.
Local Open Scope nat_scope.

Section K.
Variable rnd : Qc -> Z -> Qc.
Variable si ze : Qc -> Z -> Z * nat.
Variable expo : Qc -> Z.
Notation lo := (lq_ops rnd si ze expo).
Notation fo := qc_ops.
Variable P : lpar lo.
Notation en_e := (p_e P).
Notation FI := (FInv fo (p_e P)).
Notation lst := (lst lo).
Notation XP := (XP rnd si ze expo P).
Notation RR z := (qR (gc z) (gb z)).
Notation MM z := (qM (gc z) (gb z)).
Notation PP z := (qproj (gc z) (gb z)).
Notation vc s j := (nth j (fvc s) 0).
Notation half := (Q2Qc (1 # 2)).
Hypothesis HX : exact_rounding rnd si ze.
Hypothesis Heta : (half <= p_eta P)%Qc.
Hypothesis Hthr : p_thr P = (if p_siegel P then p_delta P - p_eta P * p_eta P else p_delta P)%Qc.
Hypothesis Hdelta : (p_eta P * p_eta P < p_delta P)%Qc.
Notation LI := (LI rnd si ze expo P).

(** the state between two calls *)
Record calm (st : lst) : Prop := { C_f : FI (lz st) (ls st); C_x : XP (lz st); C_l : locked (lz st) = false; C_g : en_g (lz st) = false }.

Variable c : nat.
Variable J : list (list Z) -> Prop.
Variable kend : nat.
Hypothesis HJi : forall B B' kappa kappa', J B -> 0 < kappa < kend -> kend <= length B -> all_pos c B kend ->
  iter_rel rnd si ze expo P c B B' kappa kappa' 0 -> J B'.

Definition lll_done (st : lst) : Prop :=
  (forall j, j < kend -> j < vc (ls st) j) /\ kend <= nkr (lz st) /\
  (forall i j, i < kend -> j < i -> (qabs (MM (lz st) i j) <= p_eta P)%Qc) /\
  (forall i, 0 < i < kend -> (p_thr P * RR (lz st) (i - 1) (i - 1) <= PP (lz st) i (tidx lo P i))%Qc).

Lemma lll_loop_k fuel : 2 <= fuel -> p_early P = false -> forall n (st : lst) kappa kmax st', LI st kappa 0 0 kend -> gc (lz st) = c -> en_g (lz st) = false ->
  lzeros st = 0 -> all_pos c (gb (lz st)) kend -> J (gb (lz st)) ->
  lll_loop lo P fuel n st kappa kmax 0 kend 0 = Some (st', OTrue) ->
  calm st' /\ flags_eq (lz st) (lz st') /\ gd (lz st') = gd (lz st) /\ J (gb (lz st')) /\ all_pos c (gb (lz st')) kend /\ lll_done st'.
Proof.
  intros Hf HE.
  assert (FIN : forall (st : lst) kappa st', LI st kappa 0 0 kend -> gc (lz st) = c -> en_g (lz st) = false -> lzeros st = 0 -> all_pos c (gb (lz st)) kend -> J (gb (lz st)) ->
    lll_finish lo st kappa kend = Some (st', OTrue) ->
    calm st' /\ flags_eq (lz st) (lz st') /\ gd (lz st') = gd (lz st) /\ J (gb (lz st')) /\ all_pos c (gb (lz st')) kend /\ lll_done st').
  { intros st kappa st' HL HC HG HZ HA HJ E. unfold lll_finish in E. rewrite HG in E. cbn [obind] in E. cbv zeta in E.
    destruct (Nat.ltb_spec (kappa + lzeros st) kend) as [X|X]; [discriminate E|]. injection E as <-.
    destruct HL as [A1 A2 A3 A4 A5 A6 A7 A8 A9 A10 A11]. rewrite HZ in *.
    assert (kappa = kend) by lia. subst kappa.
    split; [constructor; auto|]. split; [repeat split|]. split; auto. split; auto. split; auto.
    unfold lll_done. cbn [lz ls set_stat set_zs]. split; [auto|]. split; [lia|]. split; [intros i j Hi Hj; apply A9; lia|auto]. }
  induction n as [|n IH]; intros st kappa kmax st' HL HC HG HZ HA HJ E; cbn [lll_loop] in E.
  - eapply FIN; eauto.
  - destruct (Nat.ltb_spec (kappa + lzeros st) kend) as [HB|HB]; [|eapply FIN; eauto].
    rewrite HE in E. rewrite !andb_false_r in E. cbn [andb] in E. cbn [obind fst snd] in E.
    destruct (lll_iter_x rnd si ze expo P Hthr Hdelta fuel st kappa 0 kend 0 HL (le_n 0) HB) as [st2 [o2 [kappa2 [E2 Q2]]]].
    destruct (L_k _ _ _ _ _ _ _ _ _ _ HL) as [Hm Hk]. pose proof (L_e _ _ _ _ _ _ _ _ _ _ HL) as He.
    destruct (lll_iter_t rnd si ze expo P HX Heta Hthr Hdelta fuel st kappa 0 kend 0 Hf HL (le_n 0) ltac:(lia) HZ) as [st2' [kappa2' [E2' [Z2 [HA2 [IR _]]]]]].
    { rewrite HC. auto. }
    assert (EZ : Some (st2, o2, kappa2) = Some (st2', OTrue, kappa2')) by (etransitivity; [symmetry; exact E2|exact E2']). injection EZ as -> -> ->. clear E2.
    rewrite E2' in E. cbn [obind] in E. destruct (Q2 eq_refl) as [HL2 [Fl2 G2]].
    assert (HC2 : gc (lz st2') = c) by (destruct Fl2 as [FA _]; congruence).
    rewrite HC in IR. rewrite HC2 in HA2.
    destruct (IH st2' kappa2' (Nat.max kmax kappa) st') as [R1 [R2 [R3 R4]]]; auto.
    { destruct Fl2 as [_ [FB _]]. congruence. }
    { eapply HJi; eauto. unfold gd in He. lia. }
    split; auto. split; [|split; [congruence|auto]]. eapply flags_eq_trans; eauto.
Qed.

Lemma lll_k fuel max_iter (st st' : lst) : 2 <= fuel -> p_early P = false -> calm st -> gc (lz st) = c -> 0 < kend <= gd (lz st) ->
  all_pos c (gb (lz st)) kend -> J (gb (lz st)) -> lll lo P fuel max_iter st 0 0 kend 0 = Some (st', OTrue) ->
  calm st' /\ flags_eq (lz st) (lz st') /\ gd (lz st') = gd (lz st) /\ J (gb (lz st')) /\ all_pos c (gb (lz st')) kend /\ lll_done st'.
Proof.
  intros Hf HE [HF HXP HL HG] HCc He HA HJ E. unfold lll in E. cbv zeta in E. rewrite Nat.sub_0_r in E.
  assert (HR : (0 < RR (lz st) 0 0)%Qc) by (rewrite HCc; apply HA; lia).
  assert (E1 : zeros_loop lo P kend (set_fk (set_sw (set_zeros st 0) 0) 0) 0 kend = Some (set_fk (set_sw (set_zeros st 0) 0) 0)).
  { destruct kend as [|k]; [lia|]. cbn [zeros_loop lz set_fk set_sw set_zeros].
    rewrite (nth_error_nth' (gb (lz st)) []) by (unfold gd in He; lia). cbn [obind].
    destruct (nv_is_zero (nth 0 (gb (lz st)) []) 0) eqn:EZ; auto. exfalso.
    rewrite (zrow_R (gc (lz st)) (gb (lz st)) 0 0) in HR; [discriminate| |lia].
    intros k' _. apply (proj1 (nv_is_zero_spec _ 0) EZ). lia. }
  rewrite E1 in E. cbn [obind] in E. set (st1 := set_fk (set_sw (set_zeros st 0) 0) 0) in *.
  change (lzeros st1) with 0 in E. destruct (Nat.ltb_spec 0 kend) as [_|]; [|lia].
  change (0 <? 0) with false in E. cbv iota in E. cbn [obind fst snd] in E. change (lz st1) with (lz st) in E. change (ls st1) with (ls st) in E.
  pose proof (F_inv _ _ _ _ HF) as HI.
  assert (HLU : flegal fo (lz st, ls st) (FUpdate 0 0)).
  { split; [lia|]. split; [lia|]. split; [intros X; cbn [legal]; split; [lia|]; rewrite HL; auto|]. split; [lia|]. split; [|lia].
    pose proof (I_unl _ HI HL). rewrite HL. cbn [negb]. rewrite andb_true_r. destruct (Nat.eqb_spec 0 (nkr (lz st))); lia. }
  destruct (update_gso_row_ok fo en_e (qc_laws _) (lz st) (ls st) 0 0 HF HLU) as [z2 [s2 [ok [E2 [F2 [Fl2 [B2 [V2 _]]]]]]]].
  destruct (update_gso_row_w fo (lz st) (ls st) 0 0) as [z2' [s2' [ok' [E2' [_ [_ [_ [_ [[Ka [Kb Kc]] [_ [_ [O2 _]]]]]]]]]]]]; auto; try lia; [apply HF|rewrite HL; auto|rewrite HL; discriminate|].
  assert (z2' = z2 /\ s2' = s2 /\ ok' = ok) as [-> [-> ->]] by (rewrite E2 in E2'; injection E2'; auto).
  rewrite (O2 eq_refl) in *. clear O2. specialize (V2 eq_refl).
  match type of E with context [obind ?A _] => match A with context [update_gso_row] => replace A with (Some (z2, s2, true)) in E by (symmetry; exact E2) end end. cbn [obind fst snd] in E.
  assert (HC : gc z2 = gc (lz st)) by apply Fl2.
  assert (GD : gd z2 = gd (lz st)) by (unfold gd; rewrite B2; auto).
  assert (LI1 : LI (set_zs st1 z2 s2) 1 0 0 kend).
  { unfold st1. constructor; cbn [lz ls set_zs lzeros set_fk set_sw set_zeros]; auto; try lia.
    - eapply XP_flags; eauto.
    - congruence.
    - intros j Hj. replace j with 0 by lia. exact V2.
    - intros j Hj. replace j with 0 by lia. rewrite HC, B2. auto. }
  destruct (lll_loop_k fuel Hf HE (max_iter (gb (lz (set_zs st1 z2 s2)))) (set_zs st1 z2 s2) 1 0 st' LI1) as [R1 [R2 [R3 R4]]]; cbn [lz ls set_zs] in *; auto.
  - congruence.
  - destruct Fl2 as [_ [FB _]]. congruence.
  - rewrite B2. auto.
  - rewrite B2. auto.
  - split; auto. split; [|split; [congruence|auto]]. eapply flags_eq_trans; eauto.
Qed.
(** size reduction *)
Variable J2 : list (list Z) -> Prop.
Hypothesis HJr : forall B B' kappa srs, J2 B -> 0 < kappa < length B -> length B' = length B -> (forall j, j < kappa -> (0 < qR c B j j)%Qc) -> row_changed c B B' kappa ->
  ((forall j, srs <= j < kappa -> (qabs (qM c B kappa j) <= p_eta P)%Qc) -> B' = B) -> J2 B'.

Lemma size_red_k fuel srs : 2 <= fuel -> forall cnt (st : lst) k, calm st -> gc (lz st) = c -> srs <= k -> k <= nkr (lz st) -> k + cnt <= gd (lz st) ->
  all_pos c (gb (lz st)) (k + cnt) -> (forall j, j < k -> j < vc (ls st) j) -> J2 (gb (lz st)) ->
  exists st', size_red_loop lo P fuel cnt st k srs = Some (st', OTrue) /\ calm st' /\ flags_eq (lz st) (lz st') /\ gd (lz st') = gd (lz st) /\
    J2 (gb (lz st')) /\ k + cnt <= nkr (lz st') /\ nkr (lz st) <= nkr (lz st') /\ (forall j, j < k + cnt -> j < vc (ls st') j) /\
    (forall a, a < gd (lz st) -> ~ (k <= a < k + cnt) -> nth a (gb (lz st')) [] = nth a (gb (lz st)) []) /\
    (forall i j, k <= i < k + cnt -> srs <= j < i -> (qabs (MM (lz st') i j) <= p_eta P)%Qc).
Proof.
  intros Hf. induction cnt as [|cnt IH]; intros st k HCm HC Hs Hk He HA HV HJ; cbn [size_red_loop].
  - exists (set_stat st RED_SUCCESS). split; auto. destruct HCm as [A1 A2 A3 A4]. split; [constructor; auto|]. split; [repeat split|]. split; auto. split; auto.
    cbn [lz ls set_stat]. split; [lia|]. split; [lia|]. split; [intros; apply HV; lia|]. split; auto. intros; lia.
  - assert (HB : exists st1, (if 0 <? k then babai lo P fuel st k k srs else Some (st, OTrue)) = Some (st1, OTrue) /\ calm st1 /\ flags_eq (lz st) (lz st1) /\ gd (lz st1) = gd (lz st) /\
      J2 (gb (lz st1)) /\ row_changed c (gb (lz st)) (gb (lz st1)) k /\ k <= nkr (lz st1) /\ nkr (lz st) <= nkr (lz st1) /\ (forall j, j < k -> j < vc (ls st1) j) /\
      (forall j, srs <= j < k -> (qabs (MM (lz st1) k j) <= p_eta P)%Qc)).
    { destruct (Nat.ltb_spec 0 k) as [K0|K0].
      2:{ exists st. split; auto. split; auto. split; [repeat split|]. split; auto. split; auto. split; [apply row_changed_refl|]. split; auto. split; auto. split; auto. intros; lia. }
      destruct HCm as [HF HXP HL HG].
      assert (HPre : babai_pre (lz st) k k).
      { split; [lia|]. split; [lia|]. split; [rewrite HL; auto|]. split; [lia|congruence]. }
      assert (HPo : forall j, j < k -> (0 < RR (lz st) j j)%Qc) by (intros j Hj; rewrite HC; apply HA; lia).
      destruct (babai_x rnd si ze expo P fuel st k k srs HF HXP HPre HV) as [st1 [o [E [F1 [T1 [Fl1 [G1 [K1 [R1 [V1 [M1 Z1]]]]]]]]]]].
      destruct (babai_t rnd si ze expo P HX Heta fuel st k k srs Hf HF HXP HPre ltac:(lia) HV HPo) as [st1' [E' [RC BS]]].
      assert (EZ : Some (st1, o) = Some (st1', OTrue)) by (etransitivity; [symmetry; exact E|exact E']). injection EZ as -> ->. clear E.
      rewrite HC in RC, BS. destruct (K1 eq_refl) as [[Ka [Kb Kc]] Kv]. exists st1'. split; [exact E'|].
      split. { constructor; auto; [eapply XP_flags; eauto|congruence|]. destruct Fl1 as [_ [FB _]]. congruence. }
      split; auto. split; auto. split. { eapply (HJr (gb (lz st)) _ k srs); eauto; [unfold gd in *; lia|intros j Hj; apply HA; lia]. }
      split; auto. split; [lia|]. split; [lia|]. split; [|auto]. intros j Hj. rewrite V1 by auto. auto. }
    destruct HB as [st1 [E1 [[F1 X1 L1 G1] [Fl1 [D1 [J1 [RC [N1 [N2 [V1 M1]]]]]]]]]]. rewrite E1. cbn [obind fst snd].
    assert (HC1 : gc (lz st1) = c) by (destruct Fl1 as [FA _]; congruence).
    pose proof (F_inv _ _ _ _ F1) as HI.
    assert (HP1 : all_pos c (gb (lz st1)) (k + S cnt)) by (eapply row_changed_pos; eauto).
    assert (HLU : flegal fo (lz st1, ls st1) (FUpdate k k)).
    { split; [lia|]. split; [lia|]. split; [intros X; cbn [legal]; split; [lia|]; rewrite L1; auto|]. split; [lia|]. split; [|intros; apply V1; lia].
      pose proof (I_unl _ HI L1). rewrite L1. cbn [negb]. rewrite andb_true_r. destruct (Nat.eqb_spec k (nkr (lz st1))); lia. }
    destruct (update_gso_row_ok fo en_e (qc_laws _) (lz st1) (ls st1) k k F1 HLU) as [z2 [s2 [ok [E2 [F2 [Fl2 [B2 [V2 O2]]]]]]]].
    destruct (update_gso_row_w fo (lz st1) (ls st1) k k) as [z2' [s2' [ok' [E2' [_ [_ [_ [_ [[Ka [Kb Kc]] [_ [_ [_ W2]]]]]]]]]]]]; auto; try lia; [apply F1|rewrite L1; auto|rewrite L1; discriminate|].
    assert (z2' = z2 /\ s2' = s2 /\ ok' = ok) as [-> [-> ->]] by (rewrite E2 in E2'; injection E2'; auto).
    match goal with |- context [obind ?A _] => match A with context [update_gso_row] => replace A with (Some (z2, s2, ok)) by (symmetry; exact E2) end end. cbn [obind fst snd].
    assert (XX : XP z2) by (eapply XP_flags; eauto).
    assert (GD : gd z2 = gd (lz st1)) by (unfold gd; rewrite B2; auto).
    assert (HC2 : gc z2 = c) by (destruct Fl2 as [FA _]; congruence).
    assert (ok = true).
    { destruct ok; auto. exfalso. destruct (O2 eq_refl) as [j [Hj1 [Hj2 Hfi]]].
      destruct (ref_q rnd si ze expo P z2 j j (F_inv _ _ _ _ F2) XX) as [R1 _]; [lia|lia|].
      cbn [f_fin qc_ops] in Hfi. destruct (Qc_eq_dec _ _) as [X|X]; [|discriminate]. rewrite R1 in X.
      assert (HPj : (0 < RR z2 j j)%Qc) by (rewrite HC2, B2; apply HP1; lia).
      pose proof (sc_pos rnd si ze expo P z2 j) as Hsc. change (F fo) with Qc in X. set (r := RR z2 j j) in *. set (t := sc rnd si ze expo P z2 j) in *. clearbody r t.
      clear - HPj Hsc X. apply Qcmult_integral in X. destruct X as [X|X]; [apply Qcmult_integral in X; destruct X as [X|X]|]; subst; discriminate. }
    subst ok. specialize (V2 eq_refl).
    assert (GG : en_g z2 = false) by (destruct Fl2 as [_ [FB _]]; congruence).
    destruct (IH (set_zs st1 z2 s2) (S k)) as [st' [E3 [C3 [Fl3 [D3 [J3 [N3 [N4 [V3 [U3 M3]]]]]]]]]]; cbn [lz ls set_zs] in *; auto; try lia.
    { constructor; cbn [lz ls set_zs]; auto. congruence. }
    { rewrite B2. replace (S k + cnt) with (k + S cnt) by lia. auto. }
    { intros j Hj. destruct (Nat.eq_dec j k) as [->|N]; auto. rewrite W2 by auto. apply V1. lia. }
    { rewrite B2. auto. }
    exists st'. split; [exact E3|]. split; auto. split; [eapply flags_eq_trans; [exact Fl1|]; eapply flags_eq_trans; [exact Fl2|exact Fl3]|].
    split; [congruence|]. split; auto. split; [lia|]. split; [lia|]. split; [intros; apply V3; lia|].
    assert (U4 : forall a, a < gd (lz st) -> ~ (S k <= a < k + S cnt) -> nth a (gb (lz st')) [] = nth a (gb (lz st1)) []).
    { intros a Ha Hn. rewrite U3 by lia. rewrite B2. auto. }
    split.
    + intros a Ha Hn. rewrite U4 by lia. apply RC; [lia|]. unfold gd in *. lia.
    + intros i j Hi Hj. destruct (Nat.eq_dec i k) as [->|N]; [|apply M3; lia].
      assert (CC : gc (lz st') = c) by (destruct Fl3 as [FA _]; congruence). rewrite CC.
      rewrite (qM_same c (gb (lz st1)) (gb (lz st')) k j) by (try lia; intros a Ha; apply U4; lia). rewrite <- HC1. apply M1. lia.
Qed.
End K.
