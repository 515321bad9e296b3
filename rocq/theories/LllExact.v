(** LLL in exact arithmetic: the loop invariant of LLLReduction::lll. *)
From Coq Require Import List ZArith QArith Qcanon Lia Lqa Arith Bool.
From Verif Require Import Util QcUtil LatticeSpec NumVectModel NumVectProofs MatrixModel MatrixProofs
  GsoModel GsoProofs GsoHistory RotateSpec GsoFModel GsoFSpec GsoFProofs GsoWeak GsoQ QGs LllModel LllProofs LllQ.
Import ListNotations.
Local Open Scope nat_scope.

(** ** rows and valid columns after a move *)
Lemma move_rows z a b z' : Inv z -> legal z (OMove a b) -> move_row z a b = Some z' ->
  forall x, x < gd z -> nth x (gb z') [] = nth (if b <? a then rot_right_idx b a x else rot_left_idx a b x) (gb z) [].
Proof.
  intros HI HL HM x Hx. destruct (move_row_exact z a b HI HL) as [z2 [E [B _]]]. cbn [gstep] in E.
  assert (z2 = z') by congruence. subst z2. rewrite B. destruct HL as [_ [Ha [Hb _]]]. unfold gd in *.
  destruct (Nat.ltb_spec b a) as [H|H].
  - destruct (rotate_right_spec (gb z) b a) as [v' [E1 R1]]; [lia|]. rewrite (rotate_right_move (gb z) b a []) in E1 by lia.
    injection E1 as <-. apply reidx_nth; auto. apply rot_right_lt; lia.
  - destruct (rotate_left_spec (gb z) a b) as [v' [E1 R1]]; [lia|]. rewrite (rotate_left_move (gb z) b a []) in E1 by lia.
    injection E1 as <-. apply reidx_nth; auto. apply rot_left_lt; lia.
Qed.

Lemma fmove_vc fo en_e z s a b z' s' : FDims fo z s -> Inv z -> legal z (OMove a b) -> fmove_row fo en_e z s a b = Some (z', s') ->
  (forall j, j < Nat.min a b -> nth j (fvc s') 0 = nth j (fvc s) 0) /\
  (b < a -> nth b (fvc s') 0 = Nat.min (nth a (fvc s) 0) b).
Proof.
  intros HD HI [_ [Ha [Hb Hk]]] E. destruct (I_known _ HI) as [K1 [K2 K3]]. unfold fmove_row in E.
  destruct (Nat.ltb_spec b a) as [H|H].
  - specialize (Hk H).
    destruct (invalidate_gso_rows_ok fo b (nkr z - b) b s) as [s1 [E1 [N1 [N2 [N3 [N4 [N5 [N6 N7]]]]]]]].
    { rewrite (D_vc _ _ _ HD). lia. }
    rewrite E1 in E. cbn [obind] in E.
    destruct (rotate_right_spec (fvc s1) b a) as [vc' [Evc Rvc]]. { rewrite N6, (D_vc _ _ _ HD). lia. }
    rewrite Evc in E. cbn [obind] in E.
    repeat match type of E with obind ?A _ = _ => destruct A; cbn [obind] in E; [|discriminate] end.
    injection E as <- <-. cbn [fvc].
    assert (X : forall x, x < gd z -> nth x vc' 0 = nth (rot_right_idx b a x) (fvc s1) 0).
    { intros x Hx. apply reidx_nth; auto; rewrite N6, (D_vc _ _ _ HD); auto. apply rot_right_lt; lia. }
    split.
    + intros j Hj. rewrite X by lia. rewrite N7. unfold rot_right_idx. gs.
    + intros _. rewrite X by lia. rewrite N7. unfold rot_right_idx. gs.
  - split; [|lia]. destruct (Nat.ltb_spec a b) as [Hab|Hab].
    2:{ injection E as <- <-. auto. }
    destruct (invalidate_gso_rows_ok fo a (nkr z - a) a s) as [s1 [E1 [N1 [N2 [N3 [N4 [N5 [N6 N7]]]]]]]].
    { rewrite (D_vc _ _ _ HD). lia. }
    rewrite E1 in E. cbn [obind] in E.
    destruct (rotate_left_spec (fvc s1) a b) as [vc' [Evc Rvc]]. { rewrite N6, (D_vc _ _ _ HD). lia. }
    rewrite Evc in E. cbn [obind] in E.
    repeat match type of E with obind ?A _ = _ => destruct A; cbn [obind] in E; [|discriminate] end.
    injection E as <- <-. cbn [fvc].
    intros j Hj. rewrite (reidx_nth (rot_left_idx a b) (fvc s1)); auto; try (rewrite N6, (D_vc _ _ _ HD); try apply rot_left_lt; lia).
    rewrite N7. unfold rot_left_idx. gs.
Qed.

Lemma qminus_0 (a : Qc) : (a - 0)%Qc = a. Proof. ring. Qed.
Lemma qabs_zero : qabs 0%Qc = 0%Qc. Proof. reflexivity. Qed.
Lemma pow2_pos k : (0 < pow2 k)%Qc.
Proof.
  unfold Qclt, pow2. rewrite (this_Q2Qc (Qpower (2 # 1) k)). change (this 0) with 0%Q. apply Qpower.Qpower_0_lt. reflexivity.
Qed.

(** rewriting up to conversion (lf lo and qc_ops are convertible) *)
Ltac rwo E H := match type of H with obind ?A _ = _ => match type of E with ?L = ?r => replace A with r in H by (symmetry; exact E) end end; cbn [obind] in H.

Section X.
Variable rnd : Qc -> Z -> Qc.
Variable si ze : Qc -> Z -> Z * nat.
Variable expo : Qc -> Z.
Notation lo := (lq_ops rnd si ze expo).
Notation fo := qc_ops.
Notation f0 := (f_ofZ fo 0).
Variable P : lpar lo.
Notation en_e := (p_e P).
Notation FI := (FInv fo (p_e P)).
Notation lst := (lst lo).
Notation Gr z := (gram_ref fo (p_e P) (en_g z) (gc z) (gb z)).

(** row exponents are only used without integer Gram matrix (gso_interface.h) *)
Definition XP (z : gz) : Prop := p_e P = true -> en_g z = false.
(** scaling factor of row i *)
Definition sc (z : gz) (i : nat) : Qc := pow2 (- encexp fo (p_e P) (nth i (gb z) [])).
Notation RR z := (qR (gc z) (gb z)).
Notation MM z := (qM (gc z) (gb z)).
Notation PP z := (qproj (gc z) (gb z)).
Notation vc s j := (nth j (fvc s) 0).

Lemma sc_pos z i : (0 < sc z i)%Qc. Proof. apply pow2_pos. Qed.
Lemma sc_nz z i : sc z i <> 0%Qc. Proof. apply pow2_nz. Qed.

Lemma Gr_scale z i j : Inv z -> XP z -> i < gd z -> j < gd z -> Gr z i j = (gq (gc z) (gb z) i j * sc z i * sc z j)%Qc.
Proof.
  intros HI HX Hi Hj. destruct (I_b _ HI) as [_ LB]. apply gram_ref_q; auto. apply (I_c _ HI).
Qed.
Lemma ref_q z i j : Inv z -> XP z -> j <= i -> i < gd z ->
  refR fo (Gr z) i j = (RR z i j * sc z i * sc z j)%Qc /\ refM fo (Gr z) i j = (MM z i j * sc z i / sc z j)%Qc.
Proof.
  intros HI HX Hj Hi. apply (ref_scale (gq (gc z) (gb z)) (Gr z) (sc z) (gd z)); auto.
  - intros. apply sc_nz.
  - intros. apply Gr_scale; auto; lia.
Qed.

Lemma get_mu_q z s i j : FI z s -> XP z -> i < nkr z -> j < i -> j < vc s i -> get_mu fo en_e (z, s) i j = Some (MM z i j).
Proof.
  intros HF HX Hi Hj Hv. destruct (coeff_reference fo en_e (qc_laws _) z s i j HF HX) as [_ X].
  { split; auto. cbn [fst snd]. split; [lia|auto]. }
  unfold get_mu. rewrite X by auto. cbn [obind fst snd]. f_equal.
  destruct (I_known _ (F_inv _ _ _ _ HF)) as [K1 [K2 K3]].
  destruct (ref_q z i j (F_inv _ _ _ _ HF) HX) as [_ E]; try lia. rewrite E. unfold sc.
  assert (EX : p_e P = false -> forall r, encexp fo (p_e P) r = 0%Z) by (intros -> r; reflexivity).
  destruct (p_e P) eqn:EE.
  - cbn [f_mul2 qc_ops]. rewrite pow2_sub, !pow2_opp. pose proof (pow2_nz (encexp fo true (nth i (gb z) []))).
    pose proof (pow2_nz (encexp fo true (nth j (gb z) []))). change (F fo) with Qc. field. repeat split; auto; discriminate.
  - change (pow2 (- encexp fo false (nth i (gb z) []))) with 1%Qc. change (pow2 (- encexp fo false (nth j (gb z) []))) with 1%Qc.
    change (F fo) with Qc. field. discriminate.
Qed.

Lemma need_loop_x z s kappa srs sre : FI z s -> XP z -> kappa < nkr z -> sre <= kappa -> sre <= vc s kappa ->
  forall cnt, (cnt <> 0 -> srs + cnt <= sre) ->
  exists b, need_loop lo P (z, s) kappa srs cnt = Some b /\
    (b = false <-> forall j, srs <= j < srs + cnt -> (qabs (MM z kappa j) <= p_eta P)%Qc).
Proof.
  intros HF HX Hk Hs Hv. induction cnt as [|cnt IH]; intros Hc; cbn [need_loop].
  - exists false. split; auto. split; auto. lia.
  - specialize (Hc ltac:(discriminate)). change (lf lo) with fo.
    rewrite get_mu_q by (auto; lia). cbn [obind]. cbn [l_gt l_abs lq_ops].
    destruct (qltb (p_eta P) (qabs (MM z kappa (srs + cnt)))) eqn:EB.
    + exists true. split; auto. split; [discriminate|]. intros H. specialize (H (srs + cnt) ltac:(lia)).
      apply qltb_ge in H. congruence.
    + destruct IH as [b [E Hb]]; [lia|]. exists b. split; auto. rewrite Hb. split; intros H j Hj.
      * destruct (Nat.eq_dec j (srs + cnt)) as [->|]; [apply qltb_ge; auto|]. apply H. lia.
      * apply H. lia.
Qed.

(** ** size reduction of one row *)

Lemma XP_flags z z' : flags_eq z z' -> XP z -> XP z'.
Proof. intros [_ [E _]] H. unfold XP. rewrite E. auto. Qed.

Lemma babai_loop_x kappa sre srs : forall fuel iter maxe (st st' : lst) o, FI (lz st) (ls st) -> XP (lz st) ->
  babai_pre (lz st) kappa sre -> (forall j, j < sre -> j < vc (ls st) j) ->
  babai_loop lo P fuel iter maxe st kappa sre srs = Some (st', o) ->
  FI (lz st') (ls st') /\ flags_eq (lz st) (lz st') /\ gd (lz st') = gd (lz st) /\
  (forall a, a < gd (lz st) -> a <> kappa -> nth a (gb (lz st')) [] = nth a (gb (lz st)) []) /\
  (forall j, j < kappa -> vc (ls st') j = vc (ls st) j) /\
  (o = OTrue -> forall j, srs <= j < sre -> (qabs (MM (lz st') kappa j) <= p_eta P)%Qc) /\
  ((forall j, srs <= j < sre -> (qabs (MM (lz st) kappa j) <= p_eta P)%Qc) -> gb (lz st') = gb (lz st)).
Proof.
  induction fuel as [|fuel IH]; intros iter maxe st st' o HF HX HP HV E; cbn [babai_loop] in E.
  { injection E as <- <-. split; auto. split; [repeat split|]. split; auto. split; auto. split; auto. split; [discriminate|auto]. }
  destruct HP as [P1 [P2 [P3 [P4 P5]]]]. pose proof (F_inv _ _ _ _ HF) as HI. pose proof (F_dims _ _ _ _ HF) as HD.
  assert (HLU : flegal fo (lz st, ls st) (FUpdate kappa (sre - 1))).
  { split; auto. split; auto. split; [intros X; cbn [legal]; split; [lia|]; auto|]. split; [lia|]. split; [|intros; apply HV; lia].
    destruct (Nat.eqb_spec kappa (nkr (lz st))).
    - destruct (locked (lz st)); cbn [andb negb]; [specialize (P5 eq_refl)|]; lia.
    - cbn [andb]. destruct (locked (lz st)) eqn:EL; [specialize (P5 eq_refl)|rewrite (I_unl _ HI EL)]; lia. }
  change (lf lo) with fo in E.
  destruct (update_gso_row_w fo (lz st) (ls st) kappa (sre - 1)) as [z1 [s1 [ok [E1 [_ [D1 [S1 [B1 [K1 [O1 [_ [_ V1]]]]]]]]]]]]; auto; try lia.
  { intros X. specialize (P5 X). lia. }
  destruct (update_gso_row_ok fo en_e (qc_laws _) (lz st) (ls st) kappa (sre - 1) HF HLU) as [z1' [s1' [ok' [E1' [F1 [Fl1 _]]]]]].
  assert (z1' = z1 /\ s1' = s1) as [-> ->] by (rewrite E1 in E1'; injection E1'; auto).
  rewrite E1 in E. cbn [obind] in E.
  pose proof (F_inv _ _ _ _ F1) as I1. destruct (Steps_inv _ _ HI S1) as [_ [_ G1]].
  pose proof K1 as [K1a [K1b K1c]]. destruct (I_known _ I1) as [_ [K2 _]].
  assert (MM1 : forall i j, MM z1 i j = MM (lz st) i j) by (destruct Fl1 as [-> _]; rewrite B1; auto).
  destruct ok; cbn [negb] in E.
  2:{ injection E as <- <-. cbn [lz ls set_zs set_stat]. split; auto. split; auto. split; auto. split; [intros; now rewrite B1|].
      split; [intros; apply V1; lia|]. split; [discriminate|auto]. }
  specialize (O1 eq_refl).
  destruct (need_loop_x z1 s1 kappa srs sre F1 (XP_flags _ _ Fl1 HX) ltac:(lia) ltac:(lia) ltac:(lia) (sre - srs)) as [need [En Hn]]; [lia|].
  rewrite En in E. cbn [obind] in E.
  destruct need; cbn [negb] in E.
  2:{ injection E as <- <-. cbn [lz ls set_zs]. split; auto. split; auto. split; auto. split; [intros; now rewrite B1|].
      split; [intros; apply V1; lia|]. split; auto. intros _ j Hj. apply (proj1 Hn eq_refl). lia. }
  assert (HN : ~ (forall j, srs <= j < sre -> (qabs (MM (lz st) kappa j) <= p_eta P)%Qc)).
  { intros X. enough (true = false) by discriminate. apply Hn. intros j Hj. rewrite MM1. apply X. lia. }
  assert (HOut : forall st2 : lst, lz st2 = z1 -> ls st2 = s1 -> forall o2, o2 <> OTrue ->
      FI (lz st2) (ls st2) /\ flags_eq (lz st) (lz st2) /\ gd (lz st2) = gd (lz st) /\
      (forall a, a < gd (lz st) -> a <> kappa -> nth a (gb (lz st2)) [] = nth a (gb (lz st)) []) /\
      (forall j, j < kappa -> vc (ls st2) j = vc (ls st) j) /\
      (o2 = OTrue -> forall j, srs <= j < sre -> (qabs (MM (lz st2) kappa j) <= p_eta P)%Qc) /\
      ((forall j, srs <= j < sre -> (qabs (MM (lz st) kappa j) <= p_eta P)%Qc) -> gb (lz st2) = gb (lz st))).
  { intros st2 -> -> o2 Ho. split; auto. split; auto. split; auto. split; [intros; now rewrite B1|].
    split; [intros; apply V1; lia|]. split; [contradiction|auto]. }
  match type of E with obind ?A _ = _ => destruct A as [ex|]; cbn [obind] in E; [|discriminate] end.
  destruct (snd ex); cbn [negb] in E.
  2:{ injection E as <- <-. apply HOut; auto. discriminate. }
  destruct ((2 <=? iter) && (maxe - 5 <? fst ex)%Z).
  { injection E as <- <-. apply HOut; auto. discriminate. }
  assert (Hns : sre <= nsr z1).
  { rewrite K1b. destruct (locked (lz st)) eqn:EL.
    - rewrite orb_true_r. auto.
    - rewrite orb_false_r. destruct (Nat.ltb_spec kappa (nkr (lz st))); [|lia]. rewrite (I_unl _ HI EL). lia. }
  destruct (copy_mu_w lo P z1 s1 kappa srs (sre - srs) D1 ltac:(lia) ltac:(lia)) as [bm [Ebm Lbm]]. rwo Ebm E.
  destruct (reduce_loop_w lo s1 kappa srs (sre - srs) z1 bm) as [z2 [E2 [S2 [K2' R2]]]]; auto; try lia.
  rwo E2 E. destruct (Steps_inv _ _ I1 S2) as [I2 [F2 G2]].
  pose proof K2' as [Q1 [Q2 [Q3 [Q4 Q5]]]].
  destruct (row_op_end_w fo en_e z2 s1 kappa (kappa + 1) I2) as [s2 [E3 [D3 V3]]]; try lia.
  { apply (FDims_ext fo z1); auto. apply F2. }
  destruct (row_op_end_ok fo en_e (qc_laws _) z1 z2 s1 kappa (kappa + 1) F1 I2 F2 K2' G2) as [s2' [E3' FF2]]; [lia| |].
  { intros a Ha Hne. apply R2; auto; lia. }
  assert (s2' = s2) as -> by congruence.
  rwo E3 E.
  destruct (IH (S iter) (fst ex) (set_zs (set_zs st z1 s1) z2 s2) st' o) as [A1 [A2 [A3 [A4 [A5 [A6 _]]]]]]; auto; cbn [lz ls set_zs].
  - eapply XP_flags; [|exact HX]. eapply flags_eq_trans; eauto.
  - destruct Fl1 as [? [Fg1 ?]]. destruct F2 as [? [Fg2 ?]].
    split; [lia|]. split; [lia|]. split; [intros; lia|]. split; [lia|]. rewrite Q4, Q2, K1c. intros X. auto.
  - intros j Hj. rewrite V3 by lia. rewrite V1 by lia. auto.
  - cbn [lz ls set_zs] in *. split; auto. split; [eapply flags_eq_trans; [exact Fl1|eapply flags_eq_trans; eauto]|]. split; [lia|].
    split; [intros a Ha Hne; rewrite A4 by (auto; lia); rewrite R2 by (auto; lia); now rewrite B1|].
    split; [intros j Hj; rewrite A5, V3 by lia; apply V1; lia|]. split; auto. intros X. contradiction.
Qed.

Definition rows_same (z z' : gz) (n : nat) : Prop := forall a, a < n -> nth a (gb z') [] = nth a (gb z) [].
Definition vc_same (s s' : fst_ fo) (n : nat) : Prop := forall j, j < n -> vc s' j = vc s j.

Lemma babai_x fuel (st : lst) kappa sre srs : FI (lz st) (ls st) -> XP (lz st) ->
  babai_pre (lz st) kappa sre -> (forall j, j < sre -> j < vc (ls st) j) ->
  exists st' o, babai lo P fuel st kappa sre srs = Some (st', o) /\
    FI (lz st') (ls st') /\ other_eq lo st st' /\ flags_eq (lz st) (lz st') /\ gd (lz st') = gd (lz st) /\
    (o = OTrue -> discovered (lz st) (lz st') kappa /\ sre <= vc (ls st') kappa) /\
    (forall a, a < gd (lz st) -> a <> kappa -> nth a (gb (lz st')) [] = nth a (gb (lz st)) []) /\
    (forall j, j < kappa -> vc (ls st') j = vc (ls st) j) /\
    (o = OTrue -> forall j, srs <= j < sre -> (qabs (MM (lz st') kappa j) <= p_eta P)%Qc) /\
    ((forall j, srs <= j < sre -> (qabs (MM (lz st) kappa j) <= p_eta P)%Qc) -> gb (lz st') = gb (lz st)).
Proof.
  intros HF HX HP HV.
  destruct (babai_w lo P fuel st kappa sre srs) as [st' [o [E [W' [S' [T' [K' [O1 _]]]]]]]]; auto.
  { split; [apply (F_inv _ _ _ _ HF)|apply (F_dims _ _ _ _ HF)]. }
  destruct (babai_loop_x kappa sre srs fuel 0 LONG_MAX st st' o HF HX HP HV E) as [A1 [A2 [A3 [A4 [A5 [A6 A7]]]]]].
  exists st', o. split; [exact E|]. split; [exact A1|]. split; [exact T'|]. split; [exact A2|]. split; [exact A3|].
  split; [|auto]. intros X. split; [apply K'; subst; discriminate|]. apply O1; auto.
Qed.

Hypothesis Heta : (0 <= p_eta P)%Qc.

(** ** early reduction *)
Definition zr (z : gz) (a : nat) : Prop := zrow (gc z) (nth a (gb z) []).

Lemma zr_small z kappa j : zr z kappa -> j <= kappa -> (qabs (MM z kappa j) <= p_eta P)%Qc.
Proof. intros H Hj. rewrite zrow_M by auto. rewrite qabs_zero. auto. Qed.

Lemma early_loop_x fuel start srs : forall cnt (st : lst) i, FI (lz st) (ls st) -> XP (lz st) -> locked (lz st) = true -> en_g (lz st) = false ->
  1 <= start <= i -> start <= nsr (lz st) -> i <= nkr (lz st) -> i + cnt = gd (lz st) ->
  (forall j, j < start -> j < vc (ls st) j) ->
  exists st' o, early_loop lo P fuel cnt st i start srs = Some (st', o) /\
    FI (lz st') (ls st') /\ other_eq lo st st' /\ flags_eq (lz st) (lz st') /\ gd (lz st') = gd (lz st) /\
    (o = OTrue -> locked (lz st') = true /\ nsr (lz st') = nsr (lz st)) /\
    rows_same (lz st) (lz st') start /\ vc_same (ls st) (ls st') start /\
    (forall a, a < gd (lz st) -> zr (lz st) a -> zr (lz st') a).
Proof.
  induction cnt as [|cnt IH]; intros st i HF HX HL HG Hs Hn Hk Hc HV; cbn [early_loop].
  - exists st, OTrue. split; auto. split; auto. split; [repeat split|]. split; [repeat split|]. split; auto. split; auto.
    split; [intros a Ha; auto|]. split; [intros a Ha; auto|auto].
  - destruct (babai_x fuel st i start srs HF HX) as [st1 [o [E [F1 [T1 [Fl1 [G1 [K1 [R1 [V1 [_ Z1]]]]]]]]]]]; auto.
    { split; [lia|]. split; [lia|]. split; [rewrite HG; intros; apply andb_false_r|]. split; [lia|auto]. }
    rewrite E. cbn [obind fst snd].
    assert (ZZ : forall a, a < gd (lz st) -> zr (lz st) a -> zr (lz st1) a).
    { intros a Ha HZ. unfold zr. destruct Fl1 as [-> _]. destruct (Nat.eq_dec a i) as [->|X].
      - rewrite Z1; auto. intros j Hj. apply zr_small; auto. lia.
      - rewrite R1; auto. }
    destruct o.
    2,3,4: eexists; eexists; split; [reflexivity|]; split; [exact F1|]; split; [exact T1|]; split; [exact Fl1|]; split; [exact G1|];
      split; [discriminate|]; split; [intros a Ha; apply R1; lia|]; split; [intros a Ha; apply V1; lia|exact ZZ].
    destruct (K1 eq_refl) as [[Ka [Kb Kc]] Kv]. rewrite HL, orb_true_r in Kb.
    destruct (IH st1 (S i)) as [st' [o' [E' [F' [T' [Fl' [G' [Q' [R' [V' Z']]]]]]]]]]; auto; try lia.
    { eapply XP_flags; eauto. } { congruence. } { destruct Fl1 as [? [? ?]]. congruence. }
    { intros j Hj. rewrite V1 by lia. auto. }
    exists st', o'. split; [exact E'|]. split; auto. split; [|split; [|split; [|split; [|split; [|split]]]]].
    + destruct T1 as [? [? [? ?]]]. destruct T' as [? [? [? ?]]]. repeat split; congruence.
    + eapply flags_eq_trans; eauto.
    + lia.
    + intros X. destruct (Q' X). split; auto. lia.
    + intros a Ha. rewrite R' by auto. apply R1; lia.
    + intros a Ha. rewrite V' by auto. apply V1; lia.
    + intros a Ha HZ. apply Z'; [lia|]. auto.
Qed.

Lemma early_reduction_x fuel (st : lst) start srs : FI (lz st) (ls st) -> XP (lz st) -> locked (lz st) = false -> en_g (lz st) = false ->
  1 <= start -> start <= nkr (lz st) -> (forall j, j < start -> j < vc (ls st) j) ->
  exists st' o, early_reduction lo P fuel st start srs = Some (st', o) /\
    (o = OTrue -> FI (lz st') (ls st') /\ flags_eq (lz st) (lz st') /\ gd (lz st') = gd (lz st) /\ lzeros st' = lzeros st /\
      locked (lz st') = false /\ nkr (lz st') = nkr (lz st) /\
      rows_same (lz st) (lz st') start /\ vc_same (ls st) (ls st') start /\
      (forall a, a < gd (lz st) -> zr (lz st) a -> zr (lz st') a)).
Proof.
  intros HF HX HL HG Hs Hk HV. unfold early_reduction. cbv zeta.
  pose proof (F_inv _ _ _ _ HF) as HI. destruct (I_known _ HI) as [K1 [K2 K3]].
  pose proof (lock_FInv fo en_e (lz st) (ls st) HF HG) as FL.
  destruct (early_loop_x fuel start srs (gd (lz st) - start) (set_zs st (lock_cols (lz st)) (ls st)) start) as [st1 [o [E [F1 [T1 [Fl1 [G1 [Q1 [R1 [V1 Z1]]]]]]]]]]; auto; try lia.
  { cbn [lz set_zs lock_cols set_known nsr]. rewrite (I_unl _ HI HL). auto. }
  { cbn [lz set_zs]. change (gd (lock_cols (lz st))) with (gd (lz st)). lia. }
  rewrite E. cbn [obind fst snd]. cbn [lz ls set_zs] in *.
  destruct o.
  2,3,4: eexists; eexists; split; [reflexivity|discriminate].
  eexists; eexists. split; [reflexivity|]. intros _. destruct (Q1 eq_refl) as [X1 X2]. cbn [lz ls set_zs set_er lzeros].
  split; [apply unlock_FInv; exact F1|]. split; [exact Fl1|]. split; [exact G1|]. split; [apply T1|]. split; [reflexivity|].
  split. { cbn [unlock_cols set_known nkr]. rewrite X2. cbn [lock_cols set_known nsr]. apply (I_unl _ HI HL). }
  split; [exact R1|]. split; [exact V1|]. exact Z1.
Qed.

(** ** Lovasz tests *)
Lemma lovasz_list_x z s kappa : FI z s -> kappa < nkr z -> kappa <= vc s kappa -> forall cnt i t,
  i + cnt = kappa -> t = (Gr z kappa kappa - qsum i (fun j => refM fo (Gr z) kappa j * refR fo (Gr z) kappa j))%Qc ->
  exists l, lovasz_list lo s kappa i cnt t = Some l /\ length l = S cnt /\
    forall a, a <= cnt -> nth_error l a = Some (Gr z kappa kappa - qsum (i + a) (fun j => refM fo (Gr z) kappa j * refR fo (Gr z) kappa j))%Qc.
Proof.
  intros HF Hk Hv. destruct (I_known _ (F_inv _ _ _ _ HF)) as [K1 [K2 K3]]. pose proof (F_dims _ _ _ _ HF) as D.
  induction cnt as [|cnt IH]; intros i t Hi Ht; cbn [lovasz_list].
  - exists [t]. split; auto. split; auto. intros a Ha. replace a with 0 by lia. cbn [nth_error]. rewrite Nat.add_0_r. f_equal; exact Ht.
  - change (lf lo) with fo. rewrite (mget_some f0 (gd z) (gd z)) by (try apply D; lia). cbn [obind].
    rewrite (mget_some f0 (gd z) (gd z)) by (try apply D; lia). cbn [obind].
    destruct (F_co _ _ _ _ HF kappa Hk) as [_ C]. destruct (C i ltac:(lia)) as [C1 C2]. rewrite C1, C2 by lia.
    destruct (IH (S i) (f_sub fo t (f_mul fo (refM fo (Gr z) kappa i) (refR fo (Gr z) kappa i)))) as [l [E [L H]]]; [lia| |].
    + rewrite Ht. cbn [qsum f_sub f_mul qc_ops]. change (F fo) with Qc. ring.
    + rewrite E. cbn [obind]. eexists. split; [reflexivity|]. split; [cbn [length]; f_equal; exact L|]. intros a Ha. destruct a as [|a].
      * cbn [nth_error]. rewrite Nat.add_0_r. f_equal; exact Ht.
      * cbn [nth_error]. rewrite H by lia. replace (S i + a) with (i + S a) by lia. reflexivity.
Qed.

Lemma qproj_ref z kappa i : Inv z -> XP z -> kappa < gd z -> i <= kappa ->
  (Gr z kappa kappa - qsum i (fun j => refM fo (Gr z) kappa j * refR fo (Gr z) kappa j))%Qc = (PP z kappa i * (sc z kappa * sc z kappa))%Qc.
Proof.
  intros HI HX Hk Hi. rewrite Gr_scale by auto. unfold qproj.
  rewrite (qsum_ext i _ (fun j => (MM z kappa j * RR z kappa j) * (sc z kappa * sc z kappa))%Qc).
  - rewrite (qsum_scal_r i). change (F fo) with Qc. ring.
  - intros j Hj. destruct (ref_q z kappa j) as [-> ->]; auto; try lia. pose proof (sc_nz z j). change (F fo) with Qc. field. auto.
Qed.

Lemma lovasz_tests_x z s kappa : FI z s -> XP z -> kappa < nkr z -> kappa < nsr z -> kappa <= vc s kappa ->
  exists lt g', lovasz_tests lo z s kappa = Some (lt, set_gf fo s g') /\ FI z (set_gf fo s g') /\ length lt = S kappa /\
   forall i, i <= kappa -> nth_error lt i = Some (PP z kappa i * (sc z kappa * sc z kappa))%Qc.
Proof.
  intros HF HX Hk Hs Hv. unfold lovasz_tests. change (lf lo) with fo. destruct (I_known _ (F_inv _ _ _ _ HF)) as [K1 [K2 K3]].
  destruct (get_gram_ok fo en_e (qc_laws _) z s kappa kappa HF) as [g' [E F1]]; auto.
  rewrite E. cbn [obind fst snd].
  destruct (lovasz_list_x z (set_gf fo s g') kappa F1 Hk Hv kappa 0 (Gr z kappa kappa)) as [l [El [L H]]]; auto.
  { cbn [qsum]. symmetry; apply qminus_0. }
  match goal with |- context [obind ?A _] => replace A with (Some l) by (symmetry; exact El) end.
  cbn [obind]. exists l, g'. split; auto. split; auto. split; auto. intros i Hi. rewrite H by auto. f_equal.
  cbn [Nat.add]. apply qproj_ref; auto; [apply F1|lia].
Qed.

Lemma fre_exp z s i : FI z s -> XP z -> i < gd z -> p_e P = true -> nth_error (fre s) i = Some (encexp fo (p_e P) (nth i (gb z) [])).
Proof.
  intros HF HX Hi HE. pose proof (F_dims _ _ _ _ HF) as D. rewrite (nth_error_nth' (fre s) 0%Z) by (rewrite (D_re _ _ _ D); auto).
  f_equal. destruct (F_bf _ _ _ _ HF (HX HE) i Hi) as [_ X]. apply X. auto.
Qed.

Lemma scaled_r_x z s k kappa : FI z s -> XP z -> 1 <= k -> k <= nkr z -> k - 1 < vc s (k - 1) -> kappa < gd z ->
  scaled_r lo P s k kappa = Some (p_thr P * RR z (k - 1) (k - 1) * (sc z kappa * sc z kappa))%Qc.
Proof.
  intros HF HX Hk1 Hk Hv Hka. destruct (I_known _ (F_inv _ _ _ _ HF)) as [K1 [K2 K3]]. pose proof (F_dims _ _ _ _ HF) as D.
  unfold scaled_r. change (lf lo) with fo. rewrite (mget_some f0 (gd z) (gd z)) by (try apply D; lia). cbn [obind].
  destruct (F_co _ _ _ _ HF (k - 1)) as [_ C]; [lia|]. destruct (C (k - 1) ltac:(lia)) as [C1 _]. rewrite C1.
  destruct (ref_q z (k - 1) (k - 1)) as [-> _]; auto; [apply HF|lia|].
  pose proof (fre_exp z s (k - 1) HF HX ltac:(lia)) as X1. pose proof (fre_exp z s kappa HF HX ltac:(lia)) as X2.
  unfold sc. destruct (p_e P) eqn:EE.
  - rewrite X1, X2 by auto. cbn [obind]. f_equal. cbn [f_mul2 f_mul qc_ops].
    set (e1 := encexp fo true (nth (k - 1) (gb z) [])). set (e2 := encexp fo true (nth kappa (gb z) [])).
    replace (2 * (e1 - e2))%Z with ((e1 - e2) + (e1 - e2))%Z by lia. rewrite pow2_add, pow2_sub, !pow2_opp.
    pose proof (pow2_nz e1). pose proof (pow2_nz e2). change (F fo) with Qc. field. auto.
  - f_equal. cbn [f_mul qc_ops]. change (pow2 (- encexp fo false (nth kappa (gb z) []))) with 1%Qc.
    change (pow2 (- encexp fo false (nth (k - 1) (gb z) []))) with 1%Qc. change (F fo) with Qc. ring.
Qed.

(** ** one iteration *)
Hypothesis Hthr : p_thr P = (if p_siegel P then p_delta P - p_eta P * p_eta P else p_delta P)%Qc.
Hypothesis Hdelta : (p_eta P * p_eta P < p_delta P)%Qc.

Record LI (st : lst) (kappa kmin srs kend : nat) : Prop := {
  L_f : FI (lz st) (ls st);
  L_x : XP (lz st);
  L_l : locked (lz st) = false;
  L_k : kmin < kappa <= nkr (lz st);
  L_e : kend <= gd (lz st);
  L_sz : kappa + lzeros st <= kend;
  L_v : forall j, j < kappa -> j < vc (ls st) j;
  L_pos : forall j, j < kappa -> (0 < RR (lz st) j j)%Qc;
  L_sr : forall i j, kmin <= i < kappa -> srs <= j < i -> (qabs (MM (lz st) i j) <= p_eta P)%Qc;
  L_lov : forall i, kmin < i < kappa -> (p_thr P * RR (lz st) (i - 1) (i - 1) <= PP (lz st) i (tidx lo P i))%Qc;
  L_z : kmin = 0 -> forall a, kend - lzeros st <= a < kend -> zr (lz st) a
}.

Lemma sq_bound (a e : Qc) : (qabs a <= e)%Qc -> (a * a <= e * e)%Qc.
Proof. intros H. apply qabs_le in H. destruct H as [H1 H2]. qcnra. Qed.
Lemma cancel_le (a b s : Qc) : (0 < s)%Qc -> (a * (s * s) <= b * (s * s))%Qc -> (a <= b)%Qc.
Proof.
  intros Hs H. assert (0 < s * s)%Qc as Hp by qcnra. set (t := (s * s)%Qc) in *.
  destruct (Qclt_le_dec b a) as [X|X]; auto. exfalso. clearbody t. qcnra.
Qed.
Lemma cancel_lt (a b s : Qc) : (0 < s)%Qc -> (a * (s * s) < b * (s * s))%Qc -> (a < b)%Qc.
Proof.
  intros Hs H. assert (0 < s * s)%Qc as Hp by qcnra. set (t := (s * s)%Qc) in *.
  destruct (Qclt_le_dec a b) as [X|X]; auto. exfalso. clearbody t. qcnra.
Qed.
Lemma aux_mono (d m e R : Qc) : (e < d)%Qc -> (m <= e)%Qc -> (0 < R)%Qc -> (0 < d * R - m * R)%Qc.
Proof. intros. qcnra. Qed.

Lemma lov_pos z kappa k : (0 < RR z (k - 1) (k - 1))%Qc -> 1 <= k <= kappa -> (qabs (MM z kappa (k - 1)) <= p_eta P)%Qc ->
  (p_thr P * RR z (k - 1) (k - 1) <= PP z kappa (tidx lo P k))%Qc -> (0 < PP z kappa k)%Qc.
Proof.
  intros HR Hk HM HT. apply sq_bound in HM. unfold tidx in HT. rewrite Hthr in HT.
  set (m := (MM z kappa (k - 1) * MM z kappa (k - 1))%Qc) in *.
  set (e := (p_eta P * p_eta P)%Qc) in *.
  destruct (p_siegel P).
  - apply Qclt_le_trans with ((p_delta P - e) * RR z (k - 1) (k - 1))%Qc; [|exact HT].
    replace ((p_delta P - e) * RR z (k - 1) (k - 1))%Qc with (p_delta P * RR z (k - 1) (k - 1) - e * RR z (k - 1) (k - 1))%Qc by ring.
    apply (aux_mono _ _ e); auto. apply Qcle_refl.
  - replace (PP z kappa k) with (PP z kappa (k - 1) - m * RR z (k - 1) (k - 1))%Qc.
    2:{ pose proof (qproj_S (gc z) (gb z) kappa (k - 1) ltac:(lia)) as X. replace (S (k - 1)) with k in X by lia. rewrite X. unfold m. ring. }
    pose proof (aux_mono (p_delta P) m e (RR z (k - 1) (k - 1)) Hdelta HM HR) as X.
    eapply Qclt_le_trans; [exact X|]. clearbody m. clear - HT. set (a := (p_delta P * RR z (k - 1) (k - 1))%Qc) in *.
    set (b := (m * RR z (k - 1) (k - 1))%Qc). set (c := PP z kappa (k - 1)) in *. clearbody a b c. qclra.
Qed.

Lemma ins_loop_x z s lt kappa kmin : FI z s -> XP z -> kappa < nkr z -> length lt = S kappa ->
  (forall i, i <= kappa -> nth_error lt i = Some (PP z kappa i * (sc z kappa * sc z kappa))%Qc) ->
  (forall j, j < kappa -> j < vc s j) ->
  forall k, k < kappa -> kmin <= k ->
  exists k', ins_loop lo P s lt kappa kmin k = Some k' /\ kmin <= k' <= k /\
    (kmin < k' -> (p_thr P * RR z (k' - 1) (k' - 1) < PP z kappa (tidx lo P k'))%Qc).
Proof.
  intros HF HX Hka Hl Hlt HV. destruct (I_known _ (F_inv _ _ _ _ HF)) as [K1 [K2 K3]].
  induction k as [|k IH]; intros Hk Hm; cbn [ins_loop].
  - exists 0. split; auto. split; [lia|]. lia.
  - destruct (Nat.leb_spec (S k) kmin). { exists (S k). split; [reflexivity|]. split; [lia|]. lia. }
    rewrite (scaled_r_x z s (S k) kappa) by (auto; try lia; apply HV; lia). cbn [obind].
    pose proof (tidx_le lo P (S k)). rewrite Hlt by lia. cbn [obind l_lt lq_ops].
    destruct (qltb _ _) eqn:EB.
    + exists (S k). split; [reflexivity|]. split; [lia|]. intros _. apply qltb_lt in EB. eapply cancel_lt; [|exact EB]. apply sc_pos.
    + destruct IH as [k' [E [H2 H3]]]; try lia. exists k'. split; auto. split; [lia|auto].
Qed.

Lemma r_value_x z s k : FI z s -> k < nkr z -> k < nsr z -> k <= vc s k -> r_value fo z s k k = Some (refR fo (Gr z) k k).
Proof.
  intros HF Hk Hs Hv. unfold r_value. destruct (get_gram_ok fo en_e (qc_laws _) z s k k HF) as [g' [E F1]]; auto.
  rewrite E. cbn [obind fst snd]. destruct (I_known _ (F_inv _ _ _ _ HF)) as [K1 [K2 K3]].
  destruct (F_co _ _ _ _ HF k Hk) as [_ C].
  apply (sub_loop_ok fo z); try lia. { apply F1. }
  - intros j Hj. cbn [fmu set_gf]. apply C; lia.
  - intros j Hj. cbn [fr set_gf]. apply C; lia.
Qed.

Lemma set_r_x z s k x : FI z s -> k < nkr z -> k < nsr z -> vc s k = k \/ vc s k = S k -> x = refR fo (Gr z) k k ->
  exists s', set_r fo s k k x = Some s' /\ FI z s' /\ vc s' k = S k /\ forall j, j <> k -> vc s' j = vc s j.
Proof.
  intros HF Hk Hs Hv ->.
  destruct (set_r_ok fo en_e (qc_laws _) z s k k (refR fo (Gr z) k k) HF) as [s' [E F1]].
  { split; auto. split; auto. split; [lia|]. split; auto. apply r_value_x; auto. lia. }
  exists s'. split; auto. split; auto. pose proof (D_vc _ _ _ (F_dims _ _ _ _ HF)) as LV.
  destruct (I_known _ (F_inv _ _ _ _ HF)) as [K1 [K2 K3]].
  unfold set_r in E. destruct (mset _ _ _ _); cbn [obind] in E; [|discriminate].
  rewrite (nth_error_nth' (fvc s) 0) in E by lia. cbn [obind] in E. injection E as <-.
  destruct (Nat.eqb_spec (vc s k) k); cbn [fvc set_vc set_r_].
  - split; [rewrite nth_upd; gs|]. intros j Hj. rewrite nth_upd. gs.
  - split; [lia|auto].
Qed.

Lemma LI_rows (st : lst) kappa k kmin srs kend z' s' :
  LI st kappa kmin srs kend -> k <= kappa -> flags_eq (lz st) z' -> rows_same (lz st) z' k -> vc_same (ls st) s' k ->
  (forall j, j < k -> j < vc s' j) /\ (forall j, j < k -> (0 < RR z' j j)%Qc) /\
  (forall i j, kmin <= i < k -> srs <= j < i -> (qabs (MM z' i j) <= p_eta P)%Qc) /\
  (forall i, kmin < i < k -> (p_thr P * RR z' (i - 1) (i - 1) <= PP z' i (tidx lo P i))%Qc).
Proof.
  intros H Hk [Fc _] HR HV.
  split; [|split; [|split]].
  - intros j Hj. rewrite HV by auto. apply (L_v _ _ _ _ _ H). lia.
  - intros j Hj. rewrite Fc. rewrite (qR_same _ (gb (lz st))) by (auto; intros; apply HR; lia). apply (L_pos _ _ _ _ _ H). lia.
  - intros i j Hi Hj. rewrite Fc. rewrite (qM_same _ (gb (lz st))) by (try lia; intros; apply HR; lia). apply (L_sr _ _ _ _ _ H); lia.
  - intros i Hi. rewrite Fc. rewrite (qR_same _ (gb (lz st))) by (auto; intros; apply HR; lia).
    pose proof (tidx_le lo P i). rewrite (qproj_same _ (gb (lz st))) by (auto; intros; apply HR; lia). apply (L_lov _ _ _ _ _ H). lia.
Qed.

Lemma lll_iter_x fuel (st : lst) kappa kmin kend srs : LI st kappa kmin srs kend -> srs <= kmin -> kappa + lzeros st < kend ->
  exists st' o kappa', lll_iter lo P fuel st kappa kmin kend srs = Some (st', o, kappa') /\
    (o = OTrue -> LI st' kappa' kmin srs kend /\ flags_eq (lz st) (lz st') /\ gd (lz st') = gd (lz st)).
Proof.
  intros HL Hsrs Hz. destruct (L_k _ _ _ _ _ HL) as [Hm Hk]. pose proof (L_e _ _ _ _ _ HL) as He. pose proof (L_l _ _ _ _ _ HL) as HLk.
  pose proof (L_x _ _ _ _ _ HL) as HX.
  unfold lll_iter.
  destruct (babai_x fuel st kappa kappa srs (L_f _ _ _ _ _ HL) HX) as [st1 [o [E [F1 [T1 [Fl1 [G1 [K1 [R1 [V1 [M1 Z1]]]]]]]]]]].
  { split; [lia|]. split; [lia|]. split; [rewrite HLk; auto|]. split; [lia|congruence]. }
  { apply (L_v _ _ _ _ _ HL). }
  rewrite E. cbn [obind fst snd]. cbv zeta.
  destruct o; [|eexists; eexists; eexists; split; [reflexivity|discriminate]..].
  destruct (K1 eq_refl) as [[Ka [Kb Kc]] Kv]. destruct T1 as [T1 [T2 [T3 T4]]]. specialize (M1 eq_refl).
  assert (HX1 : XP (lz st1)) by (eapply XP_flags; eauto).
  destruct (LI_rows st kappa kappa kmin srs kend (lz st1) (ls st1) HL) as [A1 [A2 [A3 A4]]]; auto.
  { intros a Ha. apply R1; lia. }
  assert (Z2 : kmin = 0 -> forall a, kend - lzeros st <= a < kend -> zr (lz st1) a).
  { intros K0 a Ha. pose proof (L_z _ _ _ _ _ HL K0 a Ha) as X. unfold zr in *. destruct Fl1 as [-> _]. rewrite R1 by lia. auto. }
  clear Z1 R1 V1 HL.
  pose proof (F_inv _ _ _ _ F1) as I1. destruct (I_known _ I1) as [N1 [N2 N3]].
  assert (HL1 : locked (lz st1) = false) by congruence.
  assert (Hsr : nsr (lz st1) = nkr (lz st1)) by (apply I_unl; auto).
  destruct (lovasz_tests_x (lz st1) (ls st1) kappa F1 HX1) as [lt [g' [El [F2 [Ll Hlt]]]]]; try lia; [exact Kv|].
  match goal with |- context [obind ?A _] => replace A with (Some (lt, set_gf fo (ls st1) g')) by (symmetry; exact El) end.
  cbn [obind]. set (s1 := set_gf fo (ls st1) g') in *.
  assert (Vs : forall j, vc s1 j = vc (ls st1) j) by reflexivity.
  pose proof (scaled_r_x (lz st1) s1 kappa kappa F2 HX1 ltac:(lia) ltac:(lia) ltac:(apply A1; lia) ltac:(lia)) as Et.
  match goal with |- context [obind ?A _] => match type of Et with _ = ?r => replace A with r by (symmetry; exact Et) end end. cbn [obind].
  pose proof (tidx_le lo P kappa).
  match goal with |- context [obind ?A _] => replace A with (Some (PP (lz st1) kappa (tidx lo P kappa) * (sc (lz st1) kappa * sc (lz st1) kappa))%Qc) by (symmetry; apply Hlt; lia) end. cbn [obind].
  cbn [l_gt lq_ops].
  assert (C1 : vc s1 kappa = kappa \/ vc s1 kappa = S kappa).
  { destruct (F_co _ _ _ _ F2 kappa) as [X _]; [lia|]. rewrite Vs in *. lia. }
  destruct (qltb _ _) eqn:EB.
  - clear EB. cbn [lz ls set_sw set_zs lsw lzeros].
    destruct (ins_loop_x (lz st1) s1 lt kappa kmin F2 HX1) with (k := kappa - 1) as [k [Ek [Hk' Hins]]]; auto; try lia.
    match goal with |- context [obind ?A _] => replace A with (Some k) by (symmetry; exact Ek) end. cbn [obind].
    match goal with |- context [obind ?A _] => replace A with (Some (PP (lz st1) kappa k * (sc (lz st1) kappa * sc (lz st1) kappa))%Qc) by (symmetry; apply Hlt; lia) end. cbn [obind].
    cbn [l_pos lq_ops].
    destruct (qltb _ _) eqn:EP.
    + apply qltb_lt in EP. assert (HP : (0 < PP (lz st1) kappa k)%Qc).
      { apply (cancel_lt _ _ (sc (lz st1) kappa)); [apply sc_pos|]. replace (0 * (sc (lz st1) kappa * sc (lz st1) kappa))%Qc with 0%Qc by ring. exact EP. }
      assert (LM : legal (lz st1) (OMove kappa k)) by (cbn [legal]; split; auto; split; [lia|]; split; lia).
      destruct (fmove_ok fo en_e (qc_laws _) (lz st1) s1 kappa k F2 LM) as [z2 [s2 [E2 [F3 M2]]]].
      match goal with |- context [obind ?A _] => replace A with (Some (z2, s2)) by (symmetry; exact E2) end. cbn [obind fst snd].
      destruct (move_known _ _ _ _ M2) as [Fl2 Kn]. pose proof (move_rows _ _ _ _ I1 LM M2) as RM.
      destruct (fmove_vc fo en_e _ _ _ _ _ _ (F_dims _ _ _ _ F2) I1 LM E2) as [VM1 VM2].
      assert (Hn : nkr z2 = nkr (lz st1)). { rewrite Kn. destruct (Nat.ltb_spec kappa k); [lia|]. rewrite andb_false_r. auto. }
      assert (G2 : gd z2 = gd (lz st1)). { destruct (move_row_ok _ _ _ I1 LM) as [z3 [ef [X1 [_ [_ [_ [X2 _]]]]]]]. assert (z3 = z2) by congruence. subst z3. apply X2. }
      assert (L2 : locked z2 = false) by (rewrite (move_locked _ _ _ _ M2); auto).
      assert (Hs2 : nsr z2 = nkr z2) by (apply (I_unl _ (F_inv _ _ _ _ F3)); auto).
      assert (HX2 : XP z2) by (eapply XP_flags; eauto).
      rewrite (proj2 (Nat.ltb_lt k kappa)) in RM by lia.
      assert (RS : rows_same (lz st1) z2 k). { intros a Ha. rewrite RM by lia. unfold rot_right_idx. gs. }
      assert (RK : nth k (gb z2) [] = nth kappa (gb (lz st1)) []). { rewrite RM by lia. unfold rot_right_idx. gs. }
      assert (VK : vc s2 k = k) by (rewrite VM2 by lia; lia).
      assert (HRk : RR z2 k k = PP (lz st1) kappa k). { destruct Fl2 as [-> _]. apply qR_proj; auto. }
      destruct (set_r_x z2 s2 k (PP (lz st1) kappa k * (sc (lz st1) kappa * sc (lz st1) kappa))%Qc F3) as [s3 [E3 [F4 [V3 V4]]]]; try lia.
      { destruct (ref_q z2 k k (F_inv _ _ _ _ F3) HX2) as [X _]; try lia. rewrite X. rewrite HRk. unfold sc. rewrite RK. change (F fo) with Qc. ring. }
      match goal with |- context [obind ?A _] => replace A with (Some s3) by (symmetry; exact E3) end. cbn [obind].
      eexists; eexists; eexists. split; [reflexivity|]. intros _. cbn [lz ls set_zs set_sw].
      split; [|split; [eapply flags_eq_trans; eauto|lia]].
      constructor; cbn [lz ls set_zs set_sw lzeros]; auto; try lia.
      * intros j Hj. destruct (Nat.eq_dec j k) as [->|X]; [change (k < vc s3 k); lia|]. change (j < vc s3 j). rewrite V4 by auto. rewrite VM1 by lia. rewrite Vs. apply A1. lia.
      * intros j Hj. destruct (Nat.eq_dec j k) as [->|X]; [rewrite HRk; auto|].
        destruct Fl2 as [-> _]. rewrite (qR_same _ (gb (lz st1))) by (auto; intros; apply RS; lia). apply A2. lia.
      * intros i j Hi Hj. destruct (Nat.eq_dec i k) as [->|X].
        -- destruct Fl2 as [-> _]. destruct (qR_move (gc (lz st1)) (gb (lz st1)) (gb z2) kappa k j) as [_ ->]; auto; try lia. apply M1. lia.
        -- destruct Fl2 as [-> _]. rewrite (qM_same _ (gb (lz st1))) by (try lia; intros; apply RS; lia). apply A3; lia.
      * intros i Hi. pose proof (tidx_le lo P i). destruct (Nat.eq_dec i k) as [->|X].
        -- destruct Fl2 as [-> _]. rewrite (qR_same _ (gb (lz st1))) by (auto; intros; apply RS; lia).
           replace (qproj (gc (lz st1)) (gb z2) k (tidx lo P k)) with (PP (lz st1) kappa (tidx lo P k)); [apply Qclt_le_weak, Hins; lia|].
           unfold qproj. f_equal. { symmetry. apply gq_ext; auto. } apply qsum_ext. intros j Hj.
           destruct (qR_move (gc (lz st1)) (gb (lz st1)) (gb z2) kappa k j) as [-> ->]; auto; lia.
        -- destruct Fl2 as [-> _]. rewrite (qR_same _ (gb (lz st1))) by (auto; intros; apply RS; lia).
           rewrite (qproj_same _ (gb (lz st1))) by (auto; intros; apply RS; lia). apply A4; lia.
      * rewrite T3. intros K0 a Ha. pose proof (Z2 K0 a Ha) as X. unfold zr in *. destruct Fl2 as [-> _]. rewrite RM by lia.
        unfold rot_right_idx. gs.
    + apply qltb_ge in EP.
      assert (HP : (PP (lz st1) kappa k <= 0)%Qc).
      { apply (cancel_le _ _ (sc (lz st1) kappa)); [apply sc_pos|]. replace (0 * (sc (lz st1) kappa * sc (lz st1) kappa))%Qc with 0%Qc by ring. exact EP. }
      assert (k = kmin).
      { destruct (Nat.eq_dec k kmin) as [|X]; auto. exfalso. apply (Qcle_not_lt _ _ HP). apply lov_pos; try lia.
        - apply A2. lia.
        - apply M1. lia.
        - apply Qclt_le_weak, Hins. lia. }
      subst k.
      assert (LM : legal (lz st1) (OMove kappa (kend - S (lzeros st1)))) by (cbn [legal]; split; auto; split; [lia|]; split; lia).
      destruct (fmove_ok fo en_e (qc_laws _) (lz st1) s1 kappa (kend - S (lzeros st1)) F2 LM) as [z2 [s2 [E2 [F3 M2]]]].
      match goal with |- context [obind ?A _] => replace A with (Some (z2, s2)) by (symmetry; exact E2) end. cbn [obind fst snd].
      destruct (move_known _ _ _ _ M2) as [Fl2 Kn]. pose proof (move_rows _ _ _ _ I1 LM M2) as RM.
      destruct (fmove_vc fo en_e _ _ _ _ _ _ (F_dims _ _ _ _ F2) I1 LM E2) as [VM1 _].
      assert (G2 : gd z2 = gd (lz st1)). { destruct (move_row_ok _ _ _ I1 LM) as [z3 [ef [X1 [_ [_ [_ [X2 _]]]]]]]. assert (z3 = z2) by congruence. subst z3. apply X2. }
      rewrite (proj2 (Nat.ltb_ge (kend - S (lzeros st1)) kappa)) in RM by lia.
      assert (RS : rows_same (lz st1) z2 kappa). { intros a Ha. rewrite RM by lia. unfold rot_left_idx. gs. }
      eexists; eexists; eexists. split; [reflexivity|]. intros _. cbn [lz ls set_zs set_sw set_zeros].
      split; [|split; [eapply flags_eq_trans; eauto|lia]].
      constructor; cbn [lz ls set_zs set_sw set_zeros lzeros]; auto; try lia.
      * eapply XP_flags; eauto.
      * rewrite (move_locked _ _ _ _ M2); auto.
      * rewrite Kn. destruct (_ && _); lia.
      * intros j Hj. rewrite VM1 by lia. rewrite Vs. apply A1. lia.
      * intros j Hj. destruct Fl2 as [-> _]. rewrite (qR_same _ (gb (lz st1))) by (auto; intros; apply RS; lia). apply A2. lia.
      * intros i j Hi Hj. destruct Fl2 as [-> _]. rewrite (qM_same _ (gb (lz st1))) by (try lia; intros; apply RS; lia). apply A3; lia.
      * intros i Hi. pose proof (tidx_le lo P i). destruct Fl2 as [-> _]. rewrite (qR_same _ (gb (lz st1))) by (auto; intros; apply RS; lia).
        rewrite (qproj_same _ (gb (lz st1))) by (auto; intros; apply RS; lia). apply A4; lia.
      * intros K0 a Ha. unfold zr in *. destruct Fl2 as [-> _]. rewrite RM by lia. destruct (Nat.eq_dec a (kend - S (lzeros st1))) as [X|X].
        -- subst a. assert (EI : rot_left_idx kappa (kend - S (lzeros st1)) (kend - S (lzeros st1)) = kappa) by (unfold rot_left_idx; gs).
           rewrite EI. apply gq_zrow. subst kmin. rewrite qproj_0 in HP. apply Qcle_antisym; [exact HP|]. unfold gq. apply qdot_nonneg.
        -- assert (EI : rot_left_idx kappa (kend - S (lzeros st1)) a = a) by (unfold rot_left_idx; gs). rewrite EI. apply Z2; auto. lia.
  - apply qltb_ge in EB. assert (HT : (p_thr P * RR (lz st1) (kappa - 1) (kappa - 1) <= PP (lz st1) kappa (tidx lo P kappa))%Qc).
    { eapply cancel_le; [|exact EB]. apply sc_pos. }
    match goal with |- context [obind ?A _] => replace A with (Some (PP (lz st1) kappa kappa * (sc (lz st1) kappa * sc (lz st1) kappa))%Qc) by (symmetry; apply Hlt; lia) end. cbn [obind].
    destruct (set_r_x (lz st1) s1 kappa (PP (lz st1) kappa kappa * (sc (lz st1) kappa * sc (lz st1) kappa))%Qc F2) as [s3 [E3 [F4 [V3 V4]]]]; try lia.
    { destruct (ref_q (lz st1) kappa kappa I1 HX1) as [X _]; try lia. rewrite X, qproj_diag. change (F fo) with Qc. ring. }
    match goal with |- context [obind ?A _] => replace A with (Some s3) by (symmetry; exact E3) end. cbn [obind].
    eexists; eexists; eexists. split; [reflexivity|]. intros _. cbn [lz ls set_zs].
    split; [|split; [auto|lia]].
    assert (HP : (0 < RR (lz st1) kappa kappa)%Qc).
    { rewrite <- qproj_diag. apply lov_pos; try lia; auto; [apply A2; lia|]. apply M1. lia. }
    constructor; cbn [lz ls set_zs lzeros]; auto; try lia.
    + intros j Hj. destruct (Nat.eq_dec j kappa) as [->|X]; [change (kappa < vc s3 kappa); lia|]. change (j < vc s3 j). rewrite V4 by auto. rewrite Vs. apply A1. lia.
    + intros j Hj. destruct (Nat.eq_dec j kappa) as [->|X]; auto. apply A2. lia.
    + intros i j Hi Hj. destruct (Nat.eq_dec i kappa) as [->|X]; [apply M1; lia|]. apply A3; lia.
    + intros i Hi. destruct (Nat.eq_dec i kappa) as [->|X]; auto. apply A4; lia.
    + rewrite T3. exact Z2.
Qed.

(** ** the main loop *)
Lemma lll_finish_x (st st' : lst) kappa kend o : Inv (lz st) -> lll_finish lo st kappa kend = Some (st', o) ->
  gb (lz st') = gb (lz st) /\ gc (lz st') = gc (lz st) /\ lzeros st' = lzeros st /\ (o = OTrue -> kend <= kappa + lzeros st).
Proof.
  intros HI E. unfold lll_finish in E.
  assert (exists z', (if en_g (lz st) then symmetrize_g (lz st) else Some (lz st)) = Some z' /\ gb z' = gb (lz st) /\ gc z' = gc (lz st)) as [z' [E1 [B1 C1]]].
  { destruct (en_g (lz st)) eqn:EG; [|eauto]. destruct (symmetrize_ok (lz st) HI EG) as [z' [E1 [S1 [_ [B1 _]]]]].
    exists z'. split; auto. split; auto. destruct S1 as [_ [[X _] _]]. auto. }
  rewrite E1 in E. cbn [obind] in E. cbv zeta in E.
  destruct (Nat.ltb_spec (kappa + lzeros st) kend); injection E as <- <-; cbn [lz set_stat set_zs lzeros]; repeat split; auto. discriminate.
Qed.

Lemma lll_loop_x fuel kmin kend srs : srs <= kmin -> forall n (st st' : lst) kappa kmax, LI st kappa kmin srs kend ->
  (p_early P = true -> en_g (lz st) = false) ->
  lll_loop lo P fuel n st kappa kmax kmin kend srs = Some (st', OTrue) ->
  exists stf, LI stf (kend - lzeros stf) kmin srs kend /\ gb (lz st') = gb (lz stf) /\ gc (lz st') = gc (lz stf) /\ lzeros st' = lzeros stf /\
    lzeros stf <= kend.
Proof.
  intros Hsrs. induction n as [|n IH]; intros st st' kappa kmax HL HE E; cbn [lll_loop] in E.
  - destruct (lll_finish_x st st' kappa kend OTrue) as [A1 [A2 [A3 A4]]]; auto. { apply (L_f _ _ _ _ _ HL). }
    specialize (A4 eq_refl). pose proof (L_sz _ _ _ _ _ HL). exists st. split; [replace (kend - lzeros st) with kappa by lia; auto|]. repeat split; auto. lia.
  - pose proof (L_sz _ _ _ _ _ HL) as Hsz. destruct (Nat.ltb_spec (kappa + lzeros st) kend) as [HB|HB].
    2:{ destruct (lll_finish_x st st' kappa kend OTrue) as [A1 [A2 [A3 A4]]]; auto. { apply (L_f _ _ _ _ _ HL). }
        exists st. split; [replace (kend - lzeros st) with kappa by lia; auto|]. repeat split; auto. lia. }
    match type of E with obind ?A _ = _ => assert (HA : exists st1 o1, A = Some (st1, o1) /\
      (o1 = OTrue -> LI st1 kappa kmin srs kend /\ flags_eq (lz st) (lz st1) /\ lzeros st1 = lzeros st)) end.
    { destruct (_ && _) eqn:EE.
      - apply andb_prop in EE. destruct EE as [EE _]. apply andb_prop in EE. destruct EE as [EE _]. apply andb_prop in EE. destruct EE as [_ EE].
        destruct (L_k _ _ _ _ _ HL) as [Hm Hk].
        destruct (early_reduction_x fuel st kappa srs (L_f _ _ _ _ _ HL) (L_x _ _ _ _ _ HL) (L_l _ _ _ _ _ HL) (HE EE)) as [st1 [o1 [E1 P1]]]; try lia.
        { apply (L_v _ _ _ _ _ HL). }
        exists st1, o1. split; auto. intros X. destruct (P1 X) as [F1 [Fl1 [G1 [Z1 [L1 [N1 [R1 [V1 ZZ]]]]]]]]. split; [|auto].
        destruct (LI_rows st kappa kappa kmin srs kend (lz st1) (ls st1) HL) as [A1 [A2 [A3 A4]]]; auto.
        constructor; auto; try lia.
        + eapply XP_flags; eauto. apply (L_x _ _ _ _ _ HL).
        + rewrite G1. apply (L_e _ _ _ _ _ HL).
        + rewrite Z1. intros K0 a Ha. apply ZZ; [pose proof (L_e _ _ _ _ _ HL); lia|]. apply (L_z _ _ _ _ _ HL); auto.
      - exists st, OTrue. split; auto. intros _. split; auto. split; [repeat split|auto]. }
    destruct HA as [st1 [o1 [E1 Q1]]]. rewrite E1 in E. cbn [obind fst snd] in E. destruct o1; try discriminate.
    destruct (Q1 eq_refl) as [HL1 [Fl1 Z1]].
    destruct (lll_iter_x fuel st1 kappa kmin kend srs HL1 Hsrs) as [st2 [o2 [kappa2 [E2 Q2]]]]; [lia|].
    rewrite E2 in E. cbn [obind] in E. destruct o2; try discriminate.
    destruct (Q2 eq_refl) as [HL2 [Fl2 G2]].
    eapply IH; [exact HL2| |exact E]. intros X. destruct Fl1 as [_ [FA _]]. destruct Fl2 as [_ [FB _]]. rewrite FB, FA. auto.
Qed.

(** ** leading zero rows, kappa_min = 0 *)
Lemma zeros_loop_x kend : forall cnt (st : lst), FI (lz st) (ls st) -> XP (lz st) -> locked (lz st) = false -> kend <= gd (lz st) -> 0 < gd (lz st) ->
  lzeros st + cnt = kend -> (forall a, kend - lzeros st <= a < kend -> zr (lz st) a) ->
  exists st', zeros_loop lo P cnt st 0 kend = Some st' /\ FI (lz st') (ls st') /\ flags_eq (lz st) (lz st') /\ gd (lz st') = gd (lz st) /\
    locked (lz st') = false /\ lzeros st' <= kend /\ (forall a, kend - lzeros st' <= a < kend -> zr (lz st') a) /\
    (lzeros st' < kend -> ~ zr (lz st') 0).
Proof.
  induction cnt as [|cnt IH]; intros st HF HX HL He Hg Hc HZ; cbn [zeros_loop].
  - exists st. split; auto. split; auto. split; [repeat split|]. repeat split; auto; lia.
  - rewrite (nth_error_nth' (gb (lz st)) []) by (unfold gd in Hg; lia). cbn [obind].
    destruct (nv_is_zero (nth 0 (gb (lz st)) []) 0) eqn:EZ.
    2:{ exists st. split; auto. split; auto. split; [repeat split|]. repeat split; auto; try lia. intros _ X.
        enough (nv_is_zero (nth 0 (gb (lz st)) []) 0 = true) by congruence. apply nv_is_zero_spec. intros k _.
        destruct (Nat.lt_ge_cases k (gc (lz st))); [apply X; auto|]. apply nth_overflow.
        destruct (I_b _ (F_inv _ _ _ _ HF)) as [_ LB]. rewrite LB by lia. auto. }
    pose proof (F_inv _ _ _ _ HF) as HI.
    assert (LM : legal (lz st) (OMove 0 (kend - 1 - lzeros st))) by (cbn [legal]; split; auto; split; [lia|]; split; lia).
    destruct (fmove_ok fo en_e (qc_laws _) (lz st) (ls st) 0 (kend - 1 - lzeros st) HF LM) as [z2 [s2 [E2 [F2 M2]]]].
    match goal with |- context [obind ?A _] => replace A with (Some (z2, s2)) by (symmetry; exact E2) end. cbn [obind fst snd].
    destruct (move_known _ _ _ _ M2) as [Fl2 _]. pose proof (move_rows _ _ _ _ HI LM M2) as RM.
    assert (G2 : gd z2 = gd (lz st)). { destruct (move_row_ok _ _ _ HI LM) as [z3 [ef [X1 [_ [_ [_ [X2 _]]]]]]]. assert (z3 = z2) by congruence. subst z3. apply X2. }
    rewrite (proj2 (Nat.ltb_ge (kend - 1 - lzeros st) 0)) in RM by lia.
    destruct (IH (set_zeros (set_zs st z2 s2) (S (lzeros st)))) as [st' [E [F' [Fl' [G' [L' [Z1 [Z2 Z3]]]]]]]]; cbn [lz ls set_zeros set_zs lzeros]; auto; try lia.
    + eapply XP_flags; eauto.
    + rewrite (move_locked _ _ _ _ M2). auto.
    + intros a Ha. unfold zr. destruct Fl2 as [-> _]. rewrite RM by lia. destruct (Nat.eq_dec a (kend - 1 - lzeros st)) as [->|X].
      * assert (EI : rot_left_idx 0 (kend - 1 - lzeros st) (kend - 1 - lzeros st) = 0) by (unfold rot_left_idx; gs).
        rewrite EI. intros k _. apply (proj1 (nv_is_zero_spec _ 0) EZ). lia.
      * assert (EI : rot_left_idx 0 (kend - 1 - lzeros st) a = a) by (unfold rot_left_idx; gs). rewrite EI. apply HZ. lia.
    + exists st'. split; auto. split; auto. cbn [lz ls set_zeros set_zs lzeros] in *. split; [eapply flags_eq_trans; eauto|]. split; [lia|]. auto.
Qed.

(** what the result satisfies: the first n rows are reduced *)
Definition reduced (c : nat) (B : list (list Z)) (kmin srs n : nat) : Prop :=
  (forall j, j < n -> (0 < qR c B j j)%Qc) /\
  (forall i j, kmin <= i < n -> srs <= j < i -> (qabs (qM c B i j) <= p_eta P)%Qc) /\
  (forall i, kmin < i < n -> (p_thr P * qR c B (i - 1) (i - 1) <= qproj c B i (tidx lo P i))%Qc).

Lemma LI_reduced (stf st' : lst) kmin srs kend : LI stf (kend - lzeros stf) kmin srs kend -> gb (lz st') = gb (lz stf) -> gc (lz st') = gc (lz stf) ->
  lzeros st' = lzeros stf -> reduced (gc (lz st')) (gb (lz st')) kmin srs (kend - lzeros st').
Proof.
  intros HL B C Z. rewrite B, C, Z. split; [apply (L_pos _ _ _ _ _ HL)|]. split; [apply (L_sr _ _ _ _ _ HL)|apply (L_lov _ _ _ _ _ HL)].
Qed.

Lemma lll_x fuel max_iter (st st' : lst) kend : FI (lz st) (ls st) -> XP (lz st) -> locked (lz st) = false ->
  0 < kend <= gd (lz st) -> (p_early P = true -> en_g (lz st) = false) ->
  lll lo P fuel max_iter st 0 0 kend 0 = Some (st', OTrue) ->
  reduced (gc (lz st')) (gb (lz st')) 0 0 (kend - lzeros st') /\ lzeros st' <= kend /\
  (forall a, kend - lzeros st' <= a < kend -> zr (lz st') a).
Proof.
  intros HF HX HL He HE E. unfold lll in E. cbv zeta in E.
  destruct (zeros_loop_x kend (kend - 0) (set_fk (set_sw (set_zeros st 0) 0) 0)) as [st1 [E1 [F1 [Fl1 [G1 [L1 [Z1 [Z2 Z3]]]]]]]]; auto; cbn [lz ls lzeros set_fk set_sw set_zeros] in *; try lia.
  rewrite E1 in E. cbn [obind] in E.
  assert (HX1 : XP (lz st1)) by (eapply XP_flags; eauto).
  rewrite Nat.sub_0_r in E.
  destruct (Nat.ltb_spec (lzeros st1) kend) as [HZ|HZ].
  - change (0 <? 0) with false in E. cbv iota in E. cbn [obind fst snd] in E.
    assert (HLU : flegal fo (lz st1, ls st1) (FUpdate 0 0)).
    { split; [lia|]. split; [lia|]. split; [intros X; cbn [legal]; split; [lia|]; rewrite L1; auto|]. split; [lia|]. split; [|lia].
      pose proof (I_unl _ (F_inv _ _ _ _ F1) L1). rewrite L1. cbn [negb]. rewrite andb_true_r. destruct (Nat.eqb_spec 0 (nkr (lz st1))); lia. }
    destruct (update_gso_row_ok fo en_e (qc_laws _) (lz st1) (ls st1) 0 0 F1 HLU) as [z2 [s2 [ok [E2 [F2 [Fl2 [B2 [V2 _]]]]]]]].
    destruct (update_gso_row_w fo (lz st1) (ls st1) 0 0) as [z2' [s2' [ok' [E2' [_ [_ [_ [_ [[Ka [Kb Kc]] [_ [_ [O2 _]]]]]]]]]]]]; auto; try lia; [apply F1|apply F1|rewrite L1; auto|rewrite L1; discriminate|].
    assert (z2' = z2 /\ s2' = s2 /\ ok' = ok) as [-> [-> ->]] by (rewrite E2 in E2'; injection E2'; auto).
    rewrite (O2 eq_refl) in *. clear O2. specialize (V2 eq_refl).
    replace (update_gso_row (lf lo) (lz st1) (ls st1) 0 0) with (Some (z2, s2, true)) in E by (symmetry; exact E2).
    cbn [obind fst snd] in E.
    assert (LI1 : LI (set_zs st1 z2 s2) 1 0 0 kend).
    { assert (GD : gd z2 = gd (lz st1)) by (unfold gd; rewrite B2; auto).
      constructor; cbn [lz ls set_zs lzeros]; auto; try lia.
      - eapply XP_flags; eauto.
      - congruence.
      - intros j Hj. replace j with 0 by lia. exact V2.
      - intros j Hj. replace j with 0 by lia. destruct Fl2 as [-> _]. rewrite B2.
        pose proof (qR_nonneg (gc (lz st1)) (gb (lz st1)) 0) as X. apply Qcle_lt_or_eq in X. destruct X as [X|X]; auto.
        exfalso. apply (Z3 HZ). apply gq_zrow. rewrite <- (qproj_0 _ _ 0), qproj_diag. auto.
      - intros _ a Ha. unfold zr. destruct Fl2 as [-> _]. rewrite B2. apply Z2; auto. }
    assert (HEE : p_early P = true -> en_g (lz (set_zs st1 z2 s2)) = false).
    { cbn [lz set_zs]. intros X. destruct Fl1 as [_ [FA _]]. destruct Fl2 as [_ [FB _]]. rewrite FB, FA. auto. }
    destruct (lll_loop_x fuel 0 kend 0 (le_n 0) (max_iter (gb z2)) (set_zs st1 z2 s2) st' 1 0 LI1 HEE E) as [stf [HLf [B [C [Z ZL]]]]].
    split; [eapply LI_reduced; eauto|]. split; [lia|]. rewrite Z. intros a Ha. unfold zr. rewrite B, C. apply (L_z _ _ _ _ _ HLf eq_refl); auto.
  - cbn [obind fst snd] in E.
    assert (HK : lll_finish lo st1 1 kend = Some (st', OTrue)).
    { revert E. destruct (max_iter (gb (lz st1))); cbn [lll_loop]; auto. destruct (Nat.ltb_spec (1 + lzeros st1) kend); [lia|auto]. }
    destruct (lll_finish_x st1 st' 1 kend OTrue) as [A1 [A2 [A3 A4]]]; auto. { apply F1. }
    rewrite A3. split; [|split; [auto|]].
    + replace (kend - lzeros st1) with 0 by lia. split; [|split]; intros; lia.
    + intros a Ha. unfold zr. rewrite A1, A2. apply Z2; auto.
Qed.

End X.
