(** LLL over an arbitrary floating-point type: memory safety, lattice
    preservation, termination and status reporting. *)
From Coq Require Import List ZArith Lia Arith Bool.
From Verif Require Import Util LatticeSpec NumVectModel NumVectProofs MatrixModel MatrixProofs
  GsoModel GsoProofs GsoHistory RotateSpec GsoFModel GsoFSpec GsoFProofs GsoWeak LllModel.
Import ListNotations.
Local Open Scope nat_scope.

Lemma same_known_trans a b c : same_known a b -> same_known b c -> same_known a c.
Proof. intros [? [? [? [? ?]]]] [? [? [? [? ?]]]]. repeat split; congruence. Qed.
Lemma same_known_refl a : same_known a a.
Proof. repeat split. Qed.
Lemma flags_eq_trans a b c : flags_eq a b -> flags_eq b c -> flags_eq a c.
Proof. intros [? [? [? [? ?]]]] [? [? [? [? ?]]]]. repeat split; congruence. Qed.

(** ** symmetrize_g *)
Lemma symmetrize_ok z : Inv z -> en_g z = true ->
  exists z', symmetrize_g z = Some z' /\ step_ok z z' ENone /\ same_known z z' /\ gb z' = gb z /\
    (forall i j, i < gd z -> j < gd z -> gent 0%Z (gg z') i j = sgent 0%Z (gg z) i j).
Proof.
  intros HI EG. destruct (I_g _ HI EG) as [HL [Dg HG]]. unfold symmetrize_g.
  set (low := fun g => forall a b, b <= a -> gent 0%Z g a b = gent 0%Z (gg z) a b).
  destruct (ofor_inv (fun i g => dims (gd z) (gd z) g /\ low g /\ forall a b, a < i -> b < gd z -> gent 0%Z g a b = sgent 0%Z (gg z) a b)
    (fun i g => ofor (seq 0 (gd z)) (fun j g => v <- sym_get g i j;; mset g i j v) g) (gd z) 0 (gg z)) as [g' [E [D1 [L1 U1]]]].
  - split; auto. split; [intros a b _; auto|]. lia.
  - intros i g Hi [D [L U]].
    destruct (ofor_inv (fun j g => dims (gd z) (gd z) g /\ low g /\ (forall a b, a < i -> b < gd z -> gent 0%Z g a b = sgent 0%Z (gg z) a b) /\
         forall b, b < j -> gent 0%Z g i b = sgent 0%Z (gg z) i b)
      (fun j g => v <- sym_get g i j;; mset g i j v) (gd z) 0 g) as [g2 [E2 [D2 [L2 [U2 R2]]]]].
    + split; auto. split; auto. split; auto. lia.
    + intros j g1 Hj [D1 [L1 [U1 R1]]].
      assert (sym_get g1 i j = Some (sgent 0%Z (gg z) i j)) as ES.
      { unfold sym_get, sgent. destruct (Nat.leb_spec j i); rewrite (mget_some 0%Z (gd z) (gd z)) by (auto; lia); rewrite L1 by lia; auto. }
      rewrite ES. cbn [obind].
      destruct (mset_some 0%Z (gd z) (gd z) g1 i j (sgent 0%Z (gg z) i j)) as [g3 [E3 [D3 G3]]]; auto; try lia.
      exists g3. split; auto. split; auto. split; [|split].
      * intros a b Hab. rewrite G3. destruct (Nat.eqb_spec a i); destruct (Nat.eqb_spec b j); cbn [andb]; subst; try apply L1; auto.
        unfold sgent. destruct (Nat.leb_spec j i); [auto|lia].
      * intros a b Ha Hb. rewrite G3. destruct (Nat.eqb_spec a i); [lia|]. cbn [andb]. auto.
      * intros b Hb. rewrite G3. rewrite Nat.eqb_refl. destruct (Nat.eqb_spec b j); cbn [andb]; [subst; auto|]. apply R1. lia.
    + exists g2. split; auto. split; auto. split; auto. intros a b Ha Hb. destruct (Nat.eq_dec a i); [subst; apply R2; lia|]. apply U2; lia.
  - rewrite E. cbn [obind]. eexists. split; [reflexivity|]. split; [|split; [repeat split|split; [reflexivity|]]].
    2:{ intros i j Hi Hj. cbn [gg set_g]. apply U1; lia. }
    assert (HI' : Inv (set_g z g')).
    { destruct HI. constructor; auto. cbn [gg set_g en_g locked nkr gc gb gd]. intros _. split; auto. split; auto.
      intros i j Hi Hj. rewrite <- HG by auto. unfold sg, sgent. destruct (Nat.leb_spec j i); apply L1; lia. }
    split; auto. split; [repeat split|]. split; [exact I|]. split; [split; auto|]. split; [discriminate|].
    split; [intros; split; auto|]. split; [intros; split; auto|]. apply shape_eq; auto.
Qed.

Section W.
Variable lo : lops.
Notation fo := (lf lo).
Notation FT := (F fo).
Notation f0 := (f_ofZ fo 0).
Variable P : lpar lo.
Notation en_e := (p_e P).
Notation FD := (FDims fo).
Notation lst := (lst lo).

Definition W (st : lst) : Prop := Inv (lz st) /\ FD (lz st) (ls st).

Lemma need_loop_w z s kappa srs : FD z s -> kappa < gd z -> forall cnt, (cnt <> 0 -> srs + cnt <= gd z) ->
  exists b, need_loop lo P (z, s) kappa srs cnt = Some b.
Proof.
  intros HD Hk. induction cnt as [|c IH]; intros H; cbn [need_loop]; eauto.
  unfold get_mu. destruct (get_mu_exp_w fo en_e z s kappa (srs + c)) as [p E]; auto; [lia|]. rewrite E. cbn [obind].
  destruct (l_gt lo _ _); eauto. apply IH. lia.
Qed.

Lemma get_max_w z s i n : FD z s -> i < gd z -> n <= gd z ->
  exists e b, get_max_mu_exp lo P (z, s) i n = Some (e, b) /\ (LONG_MIN <= e)%Z.
Proof.
  intros HD Hi Hn. unfold get_max_mu_exp.
  match goal with |- context [ofor _ ?g ?x] =>
    destruct (ofor_inv (fun _ a => (LONG_MIN <= fst a)%Z) g n 0 x) as [a [E H]] end.
  - cbn [fst]. lia.
  - intros j a Hj Ha. destruct (get_mu_exp_w fo en_e z s i j) as [p E]; auto; [lia|].
    rewrite E. cbn [obind]. eexists. split; [reflexivity|]. cbn [fst]. lia.
  - rewrite E. destruct a as [e b]. exists e, b. auto.
Qed.

Lemma copy_mu_w z s kappa srs cnt : FD z s -> kappa < gd z -> (cnt <> 0 -> srs + cnt <= gd z) ->
  exists l, copy_mu lo P (z, s) kappa srs cnt = Some l /\ length l = cnt.
Proof.
  intros HD Hk H. unfold copy_mu.
  destruct (ofor_inv (fun j (l : list (FT * Z)) => length l = j - srs)
    (fun j l => p <- get_mu_exp fo en_e (z, s) kappa j;; Some (l ++ [p])) cnt srs []) as [l [E L]].
  - simpl. lia.
  - intros j l Hj L. destruct (get_mu_exp_w fo en_e z s kappa j) as [p E]; auto; [lia|].
    rewrite E. cbn [obind]. eexists. split; [reflexivity|]. rewrite app_length. cbn [length]. lia.
  - exists l. split; auto. lia.
Qed.

Lemma reduce_loop_w s kappa srs : forall cnt z bm, Inv z -> FD z s -> kappa < nkr z -> (cnt <> 0 -> srs + cnt <= nsr z) -> (cnt <> 0 -> srs + cnt <= kappa) ->
  cnt <= length bm ->
  exists z', reduce_loop lo z s kappa srs cnt bm = Some z' /\ Steps z z' /\ same_known z z' /\
    (forall a, a < gd z -> a <> kappa -> nth a (gb z') [] = nth a (gb z) []).
Proof.
  induction cnt as [|c IH]; intros z bm HI HD Hk Hs Hc Hb; cbn [reduce_loop].
  - exists z. split; auto. split; [apply St_refl|]. split; [apply same_known_refl|auto].
  - destruct (nth_error bm c) as [p|] eqn:Ep. 2:{ apply nth_error_None in Ep. lia. }
    cbn [obind]. cbv zeta. destruct (l_zero lo _).
    + apply IH; auto; lia.
    + destruct (I_known _ HI) as [K1 [K2 K3]].
      match goal with |- context [ofor (seq 0 c) ?g bm] =>
        destruct (ofor_inv (fun _ (b : list (FT * Z)) => length b = length bm) g c 0 bm) as [bm' [E L]]; auto end.
      { intros k b Hk' Lb. rewrite (nth_error_nth' b p) by lia. cbn [obind].
        rewrite (mget_some f0 (gd z) (gd z)) by (try apply HD; lia). cbn [obind].
        eexists. split; [reflexivity|]. now rewrite upd_length. }
      rewrite E. cbn [obind].
      match goal with |- context [row_addmul_we z kappa (srs + c) ?a ?b ?d ?e] =>
        assert (LR : legal z (OAddmulWe kappa (srs + c) a b d e)) by (cbn [legal]; split; [lia|split; lia]);
        destruct (row_addmul_we_ok z kappa (srs + c) a b d e HI LR) as [z1 [ef [E1 S1]]];
        destruct (gstep_rows kappa (S kappa) z (OAddmulWe kappa (srs + c) a b d e) z1) as [_ [_ [_ R1]]]; auto; [simpl; lia|];
        pose proof (gstep_known kappa (S kappa) z (OAddmulWe kappa (srs + c) a b d e) z1 ltac:(simpl; lia) E1) as K end.
      rewrite E1. cbn [obind].
      pose proof (Steps_one _ _ _ S1) as SS. destruct (Steps_inv _ _ HI SS) as [I1 [F1 D1]].
      pose proof K as [Q1 [Q2 [Q3 [Q4 Q5]]]].
      destruct (IH z1 bm') as [z' [E' [S' [K' R']]]]; auto; try lia.
      { apply (FDims_ext fo z); auto. apply F1. }
      exists z'. split; auto. split; [eapply Steps_trans; eauto|]. split; [eapply same_known_trans; eauto|].
      intros a Ha Hne. rewrite R' by (auto; lia). apply R1; auto. lia.
Qed.

(** precondition of babai(kappa, sre, srs) *)
Definition babai_pre (z : gz) (kappa sre : nat) : Prop :=
  kappa < gd z /\ kappa <= nkr z /\ (kappa = nkr z -> locked z && en_g z = false) /\ 1 <= sre <= kappa /\
  (locked z = true -> sre <= nsr z).

Definition other_eq (st st' : lst) : Prop :=
  lfk st' = lfk st /\ ler st' = ler st /\ lzeros st' = lzeros st /\ lsw st' = lsw st.

Lemma discovered_trans z z1 z' i : discovered z z1 i -> nkr z' = nkr z1 -> nsr z' = nsr z1 -> locked z' = locked z1 -> discovered z z' i.
Proof. intros [H1 [H2 H3]] A B C. unfold discovered. rewrite A, B, C. auto. Qed.
Lemma discovered_again z z1 z' i : discovered z z1 i -> discovered z1 z' i -> discovered z z' i.
Proof.
  intros [H1 [H2 H3]] [A [B C]]. unfold discovered. split; [lia|]. split; [|congruence].
  destruct (Nat.ltb_spec i (nkr z1)); [|lia]. cbn [orb] in B. congruence.
Qed.

Lemma babai_loop_w kappa sre srs : forall fuel iter maxe st, W st -> babai_pre (lz st) kappa sre -> (LONG_MIN <= maxe)%Z ->
  exists st' o, babai_loop lo P fuel iter maxe st kappa sre srs = Some (st', o) /\
    W st' /\ Steps (lz st) (lz st') /\ other_eq st st' /\
    (fuel <> 0 -> discovered (lz st) (lz st') kappa) /\
    (o = OTrue -> sre <= nth kappa (fvc (ls st')) 0 /\ lstat st' = lstat st /\ fuel <> 0) /\
    (o = OFalse -> lstat st' <> RED_SUCCESS) /\
    ((maxe - LONG_MIN < 5 * (Z.of_nat fuel - Z.of_nat (2 - iter)))%Z -> o <> OFuel).
Proof.
  induction fuel as [|fuel IH]; intros iter maxe st [HI HD] HP HM; cbn [babai_loop].
  - exists st, OFuel. split; auto. split; [split; auto|]. split; [apply St_refl|]. split; [repeat split|].
    split; [congruence|]. split; [discriminate|]. split; [discriminate|]. lia.
  - destruct HP as [P1 [P2 [P3 [P4 P5]]]].
    destruct (update_gso_row_w fo (lz st) (ls st) kappa (sre - 1)) as [z1 [s1 [ok [E1 [I1 [D1 [S1 [B1 [K1 [O1 [O2 [O3 V1]]]]]]]]]]]]; auto; try lia.
    { intros X. specialize (P5 X). lia. }
    rewrite E1. cbn [obind]. destruct (Steps_inv _ _ HI S1) as [_ [F1 G1]].
    pose proof K1 as [K1a [K1b K1c]]. destruct (I_known _ I1) as [_ [K2 _]].
    destruct ok; cbn [negb].
    2:{ eexists; eexists. split; [reflexivity|]. split; [split; auto|]. split; [auto|]. split; [repeat split|].
        split; [intros; exact K1|]. split; [discriminate|]. split; [intros _; discriminate|]. intros _. discriminate. }
    destruct (need_loop_w z1 s1 kappa srs D1 ltac:(lia) (sre - srs)) as [need En]; [lia|].
    rewrite En. cbn [obind]. destruct need; cbn [negb].
    2:{ eexists; eexists. split; [reflexivity|]. split; [split; auto|]. split; [auto|]. split; [repeat split|].
        split; [intros; exact K1|]. split; [|split; [discriminate|intros _; discriminate]].
        intros _. split; [|split; auto]. specialize (O1 eq_refl). cbn [ls set_zs]. lia. }
    assert (exists ex b, (if 2 <=? iter then e <- get_max_mu_exp lo P (z1, s1) kappa sre;; Some (fst e, snd e && in_long (maxe - 5)) else Some (maxe, true)) = Some (ex, b) /\
       (LONG_MIN <= ex)%Z /\ (iter < 2 -> ex = maxe)) as [ex [b [Eex [Hex Hex2]]]].
    { destruct (Nat.leb_spec 2 iter).
      - destruct (get_max_w z1 s1 kappa sre D1) as [e [b [E2 L2]]]; try lia. rewrite E2. cbn [obind fst snd].
        eexists; eexists. split; [reflexivity|]. split; [auto|lia].
      - exists maxe, true. auto. }
    rewrite Eex. cbn [obind fst snd]. destruct b; cbn [negb].
    2:{ eexists; eexists. split; [reflexivity|]. split; [split; auto|]. split; [auto|]. split; [repeat split|].
        split; [intros; exact K1|]. split; [discriminate|]. split; [discriminate|]. intros _. discriminate. }
    destruct ((2 <=? iter) && (maxe - 5 <? ex)%Z) eqn:EB.
    { eexists; eexists. split; [reflexivity|]. split; [split; auto|]. split; [auto|]. split; [repeat split|].
      split; [intros; exact K1|]. split; [discriminate|]. split; [intros _; discriminate|]. intros _. discriminate. }
    destruct (copy_mu_w z1 s1 kappa srs (sre - srs) D1 ltac:(lia) ltac:(lia)) as [bm [Ebm Lbm]]. rewrite Ebm. cbn [obind].
    assert (Hns : sre <= nsr z1).
    { rewrite K1b. destruct (locked (lz st)) eqn:EL.
      - rewrite orb_true_r. auto.
      - rewrite orb_false_r. destruct (Nat.ltb_spec kappa (nkr (lz st))); [|lia]. rewrite (I_unl _ HI EL). lia. }
    destruct (reduce_loop_w s1 kappa srs (sre - srs) z1 bm) as [z2 [E2 [S2 [K2' R2]]]]; auto; try lia.
    rewrite E2. cbn [obind]. destruct (Steps_inv _ _ I1 S2) as [I2 [F2 G2]].
    pose proof K2' as [Q1 [Q2 [Q3 [Q4 Q5]]]].
    destruct (row_op_end_w fo en_e z2 s1 kappa (kappa + 1) I2) as [s2 [E3 [D3 V3]]]; try lia.
    { apply (FDims_ext fo z1); auto. apply F2. }
    rewrite E3. cbn [obind].
    assert (DK : discovered (lz st) z2 kappa) by (apply (discovered_trans _ z1); auto).
    destruct (IH (S iter) ex (set_zs (set_zs st z1 s1) z2 s2)) as [st' [o [E4 [W4 [S4 [T4 [K4 [O4 [O5 O6]]]]]]]]].
    + split; auto.
    + cbn [lz set_zs]. destruct F1 as [? [Fg1 ?]]. destruct F2 as [? [Fg2 ?]].
      split; [lia|]. split; [lia|]. split; [intros; lia|]. split; [lia|]. rewrite Q4, Q2, K1c. intros X. auto.
    + auto.
    + exists st', o. split; [exact E4|]. split; auto. split.
      { eapply Steps_trans; [|exact S4]. cbn [lz set_zs]. eapply Steps_trans; eauto. }
      split. { destruct T4 as [? [? [? ?]]]. repeat split; auto. }
      split. { intros _. destruct fuel as [|fuel].
               - cbn [babai_loop] in E4. injection E4 as <- <-. cbn [lz set_zs]. auto.
               - eapply discovered_again; [exact DK|]. apply K4. lia. }
      split. { intros X. destruct (O4 X) as [X1 [X2 X3]]. auto. }
      split; auto. intros X. apply O6.
      destruct (Nat.leb_spec 2 iter).
      * cbn [andb] in EB. apply Z.ltb_ge in EB. replace (2 - S iter) with 0 by lia. lia.
      * rewrite Hex2 by lia. lia.
Qed.

(** enough iterations for every call of babai: 2^64 < 5 (fuel - 2) *)
Definition enough (fuel : nat) : Prop := (2 ^ 64 < 5 * (Z.of_nat fuel - 2))%Z.

Lemma babai_w fuel st kappa sre srs : W st -> babai_pre (lz st) kappa sre ->
  exists st' o, babai lo P fuel st kappa sre srs = Some (st', o) /\
    W st' /\ Steps (lz st) (lz st') /\ other_eq st st' /\
    (o <> OFuel -> discovered (lz st) (lz st') kappa) /\
    (o = OTrue -> sre <= nth kappa (fvc (ls st')) 0 /\ lstat st' = lstat st) /\
    (o = OFalse -> lstat st' <> RED_SUCCESS) /\
    (enough fuel -> o <> OFuel).
Proof.
  intros HW HP. unfold babai.
  destruct (babai_loop_w kappa sre srs fuel 0 LONG_MAX st HW HP) as [st' [o [E [W' [S' [T' [K' [O1 [O2 O3]]]]]]]]].
  { unfold LONG_MIN, LONG_MAX. lia. }
  exists st', o. split; auto. split; auto. split; auto. split; auto. split.
  - intros H. apply K'. intros ->. cbn [babai_loop] in E. congruence.
  - split; [intros X; destruct (O1 X) as [? [? ?]]; auto|]. split; auto. intros H. apply O3. unfold enough in H. unfold LONG_MIN, LONG_MAX.
    change (2 - 0) with 2. lia.
Qed.

(** what every function guarantees *)
Definition post (fuel : nat) (st st' : lst) (o : out) : Prop :=
  W st' /\ Steps (lz st) (lz st') /\ (o = OFalse -> lstat st' <> RED_SUCCESS) /\ (enough fuel -> o <> OFuel).

(** ** early reduction *)
Lemma early_loop_w fuel start srs : forall cnt st i, W st -> locked (lz st) = true -> en_g (lz st) = false ->
  1 <= start <= i -> start <= nsr (lz st) -> i <= nkr (lz st) -> i + cnt = gd (lz st) ->
  exists st' o, early_loop lo P fuel cnt st i start srs = Some (st', o) /\ post fuel st st' o /\ other_eq st st' /\
    (o = OTrue -> locked (lz st') = true /\ nsr (lz st') = nsr (lz st) /\ lstat st' = lstat st).
Proof.
  induction cnt as [|cnt IH]; intros st i HW HL HG Hs Hn Hk Hc; cbn [early_loop].
  - exists st, OTrue. split; auto. split; [|split; [repeat split|auto]]. split; auto. split; [apply St_refl|]. split; [discriminate|]. intros _. discriminate.
  - destruct (babai_w fuel st i start srs HW) as [st1 [o [E [W1 [S1 [T1 [K1 [O1 [O2 O3]]]]]]]]].
    { split; [lia|]. split; [lia|]. split; [rewrite HG; intros; apply andb_false_r|]. split; [lia|auto]. }
    rewrite E. cbn [obind fst snd].
    destruct o.
    + destruct (K1 ltac:(discriminate)) as [Ka [Kb Kc]]. destruct (Steps_inv _ _ (proj1 HW) S1) as [_ [F1 G1]].
      rewrite HL, orb_true_r in Kb.
      destruct (IH st1 (S i)) as [st' [o' [E' [[W' [S' [P1 P2]]] [T' Q']]]]]; auto; try lia.
      { congruence. } { destruct F1 as [? [? ?]]. congruence. }
      exists st', o'. split; auto. split; [|split].
      * split; auto. split; [eapply Steps_trans; eauto|]. auto.
      * destruct T1 as [? [? [? ?]]]. destruct T' as [? [? [? ?]]]. repeat split; congruence.
      * intros X. destruct (Q' X) as [X1 [X2 X3]]. destruct (O1 eq_refl). split; auto. split; congruence.
    + exists st1, OFalse. split; auto. split; [|split; [auto|discriminate]]. split; auto.
    + exists st1, OFuel. split; auto. split; [|split; [auto|discriminate]]. split; auto.
    + exists st1, OExpo. split; auto. split; [|split; [auto|discriminate]]. split; auto.
Qed.

Lemma early_reduction_w fuel st start srs : W st -> locked (lz st) = false -> en_g (lz st) = false ->
  1 <= start -> start <= nkr (lz st) ->
  exists st' o, early_reduction lo P fuel st start srs = Some (st', o) /\ post fuel st st' o /\
    lfk st' = lfk st /\ lzeros st' = lzeros st /\ lsw st' = lsw st /\
    (o = OTrue -> locked (lz st') = false /\ nkr (lz st') = nkr (lz st) /\ lstat st' = lstat st).
Proof.
  intros [HI HD] HL HG Hs Hk. unfold early_reduction. cbv zeta. destruct (I_known _ HI) as [K1 [K2 K3]].
  pose proof (lock_ok (lz st) HI HG) as SL. pose proof SL as [IL _].
  destruct (early_loop_w fuel start srs (gd (lz st) - start) (set_zs st (lock_cols (lz st)) (ls st)) start) as [st1 [o [E [[W1 [S1 [P1 P2]]] [T1 Q1]]]]]; auto; try lia.
  { split; auto. cbn [lz ls set_zs]. apply (FDims_ext fo (lz st)); auto. }
  { cbn [lz set_zs lock_cols set_known nsr]. rewrite (I_unl _ HI HL). auto. }
  { cbn [lz set_zs]. change (gd (lock_cols (lz st))) with (gd (lz st)). lia. }
  assert (S2 : Steps (lz st) (lz st1)) by (eapply Steps_trans; [eapply Steps_one; exact SL|exact S1]).
  rewrite E. cbn [obind fst snd]. destruct T1 as [T1 [T2 [T3 T4]]].
  destruct o.
  - destruct (Q1 eq_refl) as [X1 [X2 X3]]. pose proof (unlock_ok (lz st1) (proj1 W1)) as SU. pose proof SU as [IU _].
    eexists; eexists. split; [reflexivity|]. split; [|split; [auto|split; [auto|split; [auto|]]]].
    + split. { split; auto. cbn [lz ls set_er set_zs]. apply (FDims_ext fo (lz st1)); auto. apply W1. }
      split. { cbn [lz set_er set_zs]. eapply Steps_trans; [exact S2|]. eapply Steps_one; exact SU. }
      split; [discriminate|]. intros _. discriminate.
    + intros _. cbn [lz set_er set_zs unlock_cols set_known locked nkr lstat]. split; auto. split; auto.
      rewrite X2. cbn [lz set_zs lock_cols set_known nsr]. apply (I_unl _ HI HL).
  - eexists; eexists. split; [reflexivity|]. split; [split; auto|]. split; auto. split; auto. split; auto. discriminate.
  - eexists; eexists. split; [reflexivity|]. split; [split; auto|]. split; auto. split; auto. split; auto. discriminate.
  - eexists; eexists. split; [reflexivity|]. split; [split; auto|]. split; auto. split; auto. split; auto. discriminate.
Qed.

(** ** Lovasz tests *)
Lemma lovasz_list_w z s kappa : FD z s -> kappa < gd z -> forall cnt i t, i + cnt <= gd z ->
  exists l, lovasz_list lo s kappa i cnt t = Some l /\ length l = S cnt.
Proof.
  intros HD Hk. induction cnt as [|c IH]; intros i t H; cbn [lovasz_list].
  - eexists; split; reflexivity.
  - rewrite (mget_some f0 (gd z) (gd z)) by (try apply HD; lia). cbn [obind].
    rewrite (mget_some f0 (gd z) (gd z)) by (try apply HD; lia). cbn [obind].
    destruct (IH (S i) (f_sub fo t (f_mul fo (gent f0 (fmu s) kappa i) (gent f0 (fr s) kappa i)))) as [l [E L]]; [lia|].
    rewrite E. cbn [obind]. eexists. split; [reflexivity|]. cbn [length]. lia.
Qed.

Lemma scaled_r_w z s k ref : FD z s -> k - 1 < gd z -> ref < gd z -> exists t, scaled_r lo P s k ref = Some t.
Proof.
  intros HD H1 H2. unfold scaled_r. rewrite (mget_some f0 (gd z) (gd z)) by (try apply HD; lia). cbn [obind].
  destruct en_e; [|eauto]. pose proof (D_re _ _ _ HD).
  rewrite (nth_error_nth' (fre s) 0%Z) by lia. cbn [obind].
  rewrite (nth_error_nth' (fre s) 0%Z) by lia. cbn [obind]. eauto.
Qed.

Lemma tidx_le k : tidx lo P k <= k.
Proof. unfold tidx. destruct (p_siegel P); lia. Qed.

Lemma ins_loop_w z s l old_k kmin : FD z s -> old_k < gd z -> forall k, k < old_k -> length l = S old_k -> kmin <= k ->
  exists k', ins_loop lo P s l old_k kmin k = Some k' /\ kmin <= k' <= k.
Proof.
  intros HD Ho. induction k as [|k IH]; intros Hk Hl Hm; cbn [ins_loop].
  - exists 0. split; auto.
  - destruct (Nat.leb_spec (S k) kmin). { exists (S k). split; [reflexivity|lia]. }
    destruct (scaled_r_w z s (S k) old_k HD) as [t Et]; try lia. rewrite Et. cbn [obind].
    pose proof (tidx_le (S k)).
    destruct (nth_error l (tidx lo P (S k))) as [c|] eqn:Ec. 2:{ apply nth_error_None in Ec. lia. } cbn [obind].
    destruct (l_lt lo t c). { exists (S k). split; [reflexivity|lia]. }
    destruct (IH ltac:(lia) Hl ltac:(lia)) as [k' [E X]]. exists k'. split; auto; lia.
Qed.

(** ** one iteration *)
Lemma move_locked z a b z' : move_row z a b = Some z' -> locked z' = locked z.
Proof.
  unfold move_row. destruct (b <? a).
  - destruct (rotate_right_by_swap _ _ _); cbn [obind]; [|discriminate].
    match goal with |- obind ?A _ = _ -> _ => destruct A as [w|] eqn:EA end; cbn [obind]; [|discriminate].
    assert (locked w = locked z).
    { revert EA. destruct (en_t z); [|intros Q; injection Q as <-; auto].
      destruct (rotate_right_by_swap _ _ _); cbn [obind]; [|discriminate].
      destruct (en_i z); [|intros Q; injection Q as <-; auto].
      destruct (rotate_right_by_swap _ _ _); cbn [obind]; [|discriminate]. intros Q; injection Q as <-; auto. }
    destruct (en_g z); [|intros Q; injection Q as <-; auto].
    destruct (rotate_gram_right _ _ _ _); cbn [obind]; [|discriminate]. intros Q; injection Q as <-; auto.
  - destruct (a <? b). 2:{ intros Q; injection Q as <-; auto. }
    destruct (rotate_left_by_swap _ _ _); cbn [obind]; [|discriminate].
    match goal with |- obind ?A _ = _ -> _ => destruct A as [w|] eqn:EA end; cbn [obind]; [|discriminate].
    assert (locked w = locked z).
    { revert EA. destruct (en_t z); [|intros Q; injection Q as <-; auto].
      destruct (rotate_left_by_swap _ _ _); cbn [obind]; [|discriminate].
      destruct (en_i z); [|intros Q; injection Q as <-; auto].
      destruct (rotate_left_by_swap _ _ _); cbn [obind]; [|discriminate]. intros Q; injection Q as <-; auto. }
    match goal with |- obind ?A _ = _ -> _ => destruct A as [w2|] eqn:EB end; cbn [obind]; [|discriminate].
    assert (locked w2 = locked z).
    { revert EB. destruct (en_g z); [|intros Q; injection Q as <-; auto].
      destruct (S a <? nkr z); [|intros Q; injection Q as <-; auto].
      destruct (rotate_gram_left _ _ _ _); cbn [obind]; [|discriminate]. intros Q; injection Q as <-; auto. }
    destruct (nkr z <=? b); [|intros Q; injection Q as <-; auto].
    destruct (rotate_left_by_swap (irs z) a b); cbn [obind]; [|discriminate].
    destruct (a <? nkr z); [|intros Q; injection Q as <-; auto].
    destruct (nth_error _ _); cbn [obind]; [|discriminate]. intros Q; injection Q as <-; auto.
Qed.

Lemma lll_iter_w fuel st kappa kmin kend srs : W st -> locked (lz st) = false -> kmin < kappa -> kappa <= nkr (lz st) ->
  kappa + lzeros st < kend -> kend <= gd (lz st) ->
  exists st' o kappa', lll_iter lo P fuel st kappa kmin kend srs = Some (st', o, kappa') /\ post fuel st st' o /\
    (o = OTrue -> locked (lz st') = false /\ kmin < kappa' /\ kappa' <= nkr (lz st') /\ lstat st' = lstat st).
Proof.
  intros HW HL Hm Hk Hz He. unfold lll_iter.
  destruct (babai_w fuel st kappa kappa srs HW) as [st1 [o [E [W1 [S1 [T1 [K1 [O1 [O2 O3]]]]]]]]].
  { split; [lia|]. split; [lia|]. split; [rewrite HL; auto|]. split; [lia|congruence]. }
  rewrite E. cbn [obind fst snd]. cbv zeta.
  destruct (Steps_inv _ _ (proj1 HW) S1) as [I1 [F1 G1]].
  destruct o.
  2,3,4: eexists; eexists; eexists; split; [reflexivity|]; split; [split; [exact W1|]; split; [auto|split; auto]|]; discriminate.
  destruct (K1 ltac:(discriminate)) as [Ka [Kb Kc]]. destruct T1 as [T1 [T2 [T3 T4]]]. destruct (O1 eq_refl) as [_ ST1].
  destruct W1 as [_ D1]. destruct (I_known _ I1) as [N1 [N2 N3]].
  assert (HL1 : locked (lz st1) = false) by congruence.
  assert (Hsr : nsr (lz st1) = nkr (lz st1)) by (apply I_unl; auto).
  unfold lovasz_tests.
  destruct (get_gram_w fo (lz st1) (ls st1) kappa kappa) as [g [s1 [Eg [D2 [V2 _]]]]]; auto; try lia. { intros _. apply (I_kc _ I1). lia. }
  rewrite Eg. cbn [obind fst snd].
  destruct (lovasz_list_w (lz st1) s1 kappa D2 ltac:(lia) kappa 0 g) as [lt [El Ll]]; [lia|]. rewrite El. cbn [obind].
  destruct (scaled_r_w (lz st1) s1 kappa kappa D2) as [t Et]; try lia. rewrite Et. cbn [obind].
  pose proof (tidx_le kappa).
  destruct (nth_error lt (tidx lo P kappa)) as [c|] eqn:Ec. 2:{ apply nth_error_None in Ec. lia. } cbn [obind].
  destruct (l_gt lo t c).
  - cbn [lz ls set_sw set_zs lsw lzeros].
    destruct (ins_loop_w (lz st1) s1 lt kappa kmin D2 ltac:(lia) (kappa - 1)) as [k [Ek Hk']]; try lia. rewrite Ek. cbn [obind].
    destruct (nth_error lt k) as [lk|] eqn:Elk. 2:{ apply nth_error_None in Elk. lia. } cbn [obind].
    destruct (l_pos lo lk).
    + destruct (fmove_w fo en_e (lz st1) s1 kappa k I1 D2) as [z2 [s2 [E2 [I2 [D3 [S2 M2]]]]]].
      { cbn [legal]. split; auto. split; [lia|]. split; lia. }
      rewrite E2. cbn [obind fst snd]. destruct (Steps_inv _ _ I1 S2) as [_ [F2 G2]].
      destruct (move_known _ _ _ _ M2) as [_ Kn].
      destruct (set_r_w fo z2 s2 k k lk D3) as [s3 [E3 D4]]; try lia. rewrite E3. cbn [obind].
      eexists; eexists; eexists. split; [reflexivity|]. split.
      * split; [split; auto|]. split; [cbn [lz set_zs]; eapply Steps_trans; eauto|]. split; [discriminate|intros _; discriminate].
      * intros _. cbn [lz set_zs lstat lzeros set_sw]. split; [rewrite (move_locked _ _ _ _ M2); auto|]. split; [lia|].
        split; auto. rewrite Kn. destruct (_ && _); lia.
    + destruct (fmove_w fo en_e (lz st1) s1 kappa (kend - S (lzeros st1)) I1 D2) as [z2 [s2 [E2 [I2 [D3 [S2 M2]]]]]].
      { cbn [legal]. split; auto. split; [lia|]. split; lia. }
      rewrite E2. cbn [obind fst snd]. destruct (Steps_inv _ _ I1 S2) as [_ [F2 G2]].
      destruct (move_known _ _ _ _ M2) as [_ Kn].
      eexists; eexists; eexists. split; [reflexivity|]. split.
      * split; [split; auto|]. split; [cbn [lz set_zs]; eapply Steps_trans; eauto|]. split; [discriminate|intros _; discriminate].
      * intros _. cbn [lz set_zs lstat lzeros set_sw set_zeros]. split; [rewrite (move_locked _ _ _ _ M2); auto|]. split; [lia|].
        split; auto. rewrite Kn. destruct (_ && _); lia.
  - destruct (nth_error lt kappa) as [lk|] eqn:Elk. 2:{ apply nth_error_None in Elk. lia. } cbn [obind].
    destruct (set_r_w fo (lz st1) s1 kappa kappa lk D2) as [s3 [E3 D4]]; try lia. rewrite E3. cbn [obind].
    eexists; eexists; eexists. split; [reflexivity|]. split.
    + split; [split; auto|]. split; [auto|]. split; [discriminate|intros _; discriminate].
    + intros _. cbn [lz set_zs lstat]. split; auto. split; [lia|]. split; auto. lia.
Qed.

(** ** the main loop *)
Lemma lll_finish_w fuel st kappa kend : W st ->
  exists st' o, lll_finish lo st kappa kend = Some (st', o) /\ post fuel st st' o /\
    (o = OTrue -> lstat st' = RED_SUCCESS /\ kend <= kappa + lzeros st) /\ lzeros st' = lzeros st.
Proof.
  intros HW. unfold lll_finish.
  assert (exists z', (if en_g (lz st) then symmetrize_g (lz st) else Some (lz st)) = Some z' /\ Steps (lz st) z' /\ FD z' (ls st)) as [z' [E [S1 D1]]].
  { destruct (en_g (lz st)) eqn:EG.
    - destruct (symmetrize_ok (lz st) (proj1 HW) EG) as [z' [E [S1 _]]]. exists z'. split; auto. apply Steps_one in S1. split; auto.
      destruct (Steps_inv _ _ (proj1 HW) S1) as [_ [F G]]. apply (FDims_ext fo (lz st)); auto. apply F. apply HW.
    - exists (lz st). split; auto. split; [apply St_refl|]. apply HW. }
  rewrite E. cbn [obind]. cbv zeta. destruct (Steps_inv _ _ (proj1 HW) S1) as [I1 _].
  destruct (Nat.ltb_spec (kappa + lzeros st) kend); eexists; eexists; (split; [reflexivity|]); (split; [split; [split; auto|split; [exact S1|split; [discriminate|intros _; discriminate]]]|]).
  - split; [discriminate|auto].
  - split; auto.
Qed.

Lemma lll_loop_w fuel kmin kend srs : forall n st kappa kmax, W st -> locked (lz st) = false -> kmin < kappa ->
  (kappa + lzeros st < kend -> kappa <= nkr (lz st)) -> kend <= gd (lz st) -> (p_early P = true -> en_g (lz st) = false) ->
  exists st' o, lll_loop lo P fuel n st kappa kmax kmin kend srs = Some (st', o) /\ post fuel st st' o /\
    (o = OTrue -> lstat st' = RED_SUCCESS).
Proof.
  induction n as [|n IH]; intros st kappa kmax HW HL Hm Hk He HE; cbn [lll_loop].
  - destruct (lll_finish_w fuel st kappa kend HW) as [st' [o [E [P1 [P2 _]]]]]. exists st', o. split; auto. split; auto. intros X. apply P2; auto.
  - destruct (Nat.ltb_spec (kappa + lzeros st) kend) as [HB|HB].
    2:{ destruct (lll_finish_w fuel st kappa kend HW) as [st' [o [E [P1 [P2 _]]]]]. exists st', o. split; auto. split; auto. intros X. apply P2; auto. }
    specialize (Hk HB).
    match goal with |- context [obind ?A _] => assert (HA : exists st1 o1, A = Some (st1, o1) /\ post fuel st st1 o1 /\ lzeros st1 = lzeros st /\
      (o1 = OTrue -> locked (lz st1) = false /\ nkr (lz st1) = nkr (lz st) /\ lstat st1 = lstat st)) end.
    { destruct (_ && _) eqn:EE.
      - apply andb_prop in EE. destruct EE as [EE _]. apply andb_prop in EE. destruct EE as [EE _]. apply andb_prop in EE. destruct EE as [_ EE].
        destruct (early_reduction_w fuel st kappa srs HW HL (HE EE)) as [st1 [o1 [E1 [P1 [P2 [P3 [P4 P5]]]]]]]; try lia.
        exists st1, o1. auto.
      - exists st, OTrue. split; auto. split; [|auto]. split; auto. split; [apply St_refl|]. split; [discriminate|intros _; discriminate]. }
    destruct HA as [st1 [o1 [E1 [[W1 [S1 [A1 A2]]] [Z1 Q1]]]]]. rewrite E1. cbn [obind fst snd].
    destruct (Steps_inv _ _ (proj1 HW) S1) as [I1 [F1 G1]].
    destruct o1.
    2,3,4: eexists; eexists; split; [reflexivity|]; split; [split; [exact W1|]; split; [exact S1|split; auto]|discriminate].
    destruct (Q1 eq_refl) as [L1 [N1 ST1]].
    destruct (lll_iter_w fuel st1 kappa kmin kend srs W1 L1 Hm) as [st2 [o2 [kappa2 [E2 [[W2 [S2 [B1 B2]]] Q2]]]]]; try lia.
    rewrite E2. cbn [obind]. destruct (Steps_inv _ _ I1 S2) as [I2 [F2 G2]].
    destruct o2.
    2,3,4: eexists; eexists; split; [reflexivity|]; split; [split; [exact W2|]; split; [eapply Steps_trans; eauto|split; auto]|discriminate].
    destruct (Q2 eq_refl) as [L2 [M2 [N2 ST2]]].
    destruct (IH st2 kappa2 (Nat.max kmax kappa)) as [st' [o [E [[W3 [S3 [C1 C2]]] Q3]]]]; auto; try lia.
    { intros X. destruct F1 as [? [? _]]. destruct F2 as [? [? _]]. rewrite H2, H0. auto. }
    exists st', o. split; auto. split; auto. split; auto. split; [|auto]. eapply Steps_trans; [|exact S3]. eapply Steps_trans; eauto.
Qed.

(** ** leading zero rows *)
Lemma move_row0 z a b z' : Inv z -> move_row z a b = Some z' -> legal z (OMove a b) -> 1 <= a -> 1 <= b ->
  nth 0 (gb z') [] = nth 0 (gb z) [].
Proof.
  intros HI HM HL Ha Hb. destruct (move_row_exact z a b HI HL) as [z2 [E [B _]]]. cbn [gstep] in E.
  assert (z2 = z') by congruence. subst z2. rewrite B. destruct HL as [_ [HL _]]. unfold gd in HL.
  unfold insert_at, remove_at. destruct (gb z) as [|x l]; [cbn in HL; lia|].
  destruct a; [lia|]. destruct b; [lia|]. reflexivity.
Qed.

Lemma zeros_loop_w kmin kend : forall cnt st, W st -> locked (lz st) = false -> kend <= gd (lz st) ->
  0 < gd (lz st) -> lzeros st + cnt = kend - kmin ->
  exists st', zeros_loop lo P cnt st kmin kend = Some st' /\ W st' /\ Steps (lz st) (lz st') /\ locked (lz st') = false /\
    (kend <= nkr (lz st) -> nkr (lz st') = nkr (lz st)) /\ lzeros st <= lzeros st' <= lzeros st + cnt /\ lstat st' = lstat st /\
    (nv_is_zero (nth 0 (gb (lz st)) []) 0 = false -> st' = st) /\
    (1 <= kmin -> nv_is_zero (nth 0 (gb (lz st)) []) 0 = true -> lzeros st' = lzeros st + cnt).
Proof.
  induction cnt as [|cnt IH]; intros st HW HL He Hg Hc; cbn [zeros_loop].
  - exists st. split; auto. split; auto. split; [apply St_refl|]. repeat split; auto; lia.
  - rewrite (nth_error_nth' (gb (lz st)) []) by (unfold gd in Hg; lia). cbn [obind].
    destruct (nv_is_zero (nth 0 (gb (lz st)) []) 0) eqn:EZ.
    2:{ exists st. split; auto. split; auto. split; [apply St_refl|]. repeat split; auto; try lia; discriminate. }
    destruct (fmove_w fo en_e (lz st) (ls st) kmin (kend - 1 - lzeros st) (proj1 HW) (proj2 HW)) as [z2 [s2 [E2 [I2 [D2 [S2 M2]]]]]].
    { cbn [legal]. split; auto. split; [lia|]. split; lia. }
    rewrite E2. cbn [obind fst snd]. destruct (Steps_inv _ _ (proj1 HW) S2) as [_ [F2 G2]].
    destruct (move_known _ _ _ _ M2) as [_ Kn].
    destruct (IH (set_zeros (set_zs st z2 s2) (S (lzeros st)))) as [st' [E [W' [S' [L' [N' [Z' [ST' [_ A']]]]]]]]].
    + split; auto.
    + cbn [lz set_zeros set_zs]. rewrite (move_locked _ _ _ _ M2). auto.
    + cbn [lz set_zeros set_zs]. lia.
    + cbn [lz set_zeros set_zs]. lia.
    + cbn [lzeros set_zeros set_zs]. lia.
    + exists st'. split; auto. split; auto. cbn [lz set_zeros set_zs lzeros] in *. split; [eapply Steps_trans; eauto|]. split; auto.
      split; [|split; [lia|split; [auto|split; [discriminate|]]]].
      2:{ intros Hm _. rewrite A'; auto; try lia. rewrite (move_row0 _ _ _ _ (proj1 HW) M2); auto; try lia. cbn [legal]. split; auto. split; [lia|]. split; lia. }
      intros X. assert (nkr z2 = nkr (lz st)).
      { rewrite Kn. destruct ((kmin <? nkr (lz st)) && (nkr (lz st) <=? kend - 1 - lzeros st)) eqn:Y; auto.
        apply andb_prop in Y. destruct Y as [_ Y]. apply Nat.leb_le in Y. lia. }
      rewrite N'; lia.
Qed.

(** precondition of lll(): lll.cpp:51 FPLLL_DEBUG_CHECK, and rows before kappa_start
    have been discovered (they are after an LLL call on them) *)
Definition lll_pre (st : lst) (kmin kstart kend : nat) : Prop :=
  kmin <= kstart < kend /\ kend <= gd (lz st) /\ locked (lz st) = false /\ kstart <= nkr (lz st) /\
  (kstart = 0 \/ nv_is_zero (nth 0 (gb (lz st)) []) 0 = false \/ kend <= nkr (lz st) \/ 1 <= kmin) /\
  (p_early P = true -> en_g (lz st) = false).

Lemma lll_w fuel max_iter st kmin kstart kend srs : W st -> lll_pre st kmin kstart kend ->
  exists st' o, lll lo P fuel max_iter st kmin kstart kend srs = Some (st', o) /\ post fuel st st' o /\
    (o = OTrue -> lstat st' = RED_SUCCESS).
Proof.
  intros HW [H1 [H2 [H3 [H4 [H5 H6]]]]]. unfold lll. cbv zeta.
  destruct (zeros_loop_w kmin kend (kend - kmin) (set_fk (set_sw (set_zeros st 0) 0) 0)) as [st1 [E1 [W1 [S1 [L1 [N1 [Z1 [ST1 [U1 A1]]]]]]]]]; auto.
  { cbn [lz set_fk set_sw set_zeros]. lia. }
  rewrite E1. cbn [obind]. cbn [lz set_fk set_sw set_zeros lzeros] in *.
  destruct (Steps_inv _ _ (proj1 HW) S1) as [I1 [F1 G1]].
  assert (HN : lzeros st1 < kend - kmin -> kstart <= nkr (lz st1)).
  { intros HZ. destruct H5 as [->|[X|[X|X]]]; [lia| |rewrite (N1 X); auto|]. rewrite (U1 X). auto.
    destruct (nv_is_zero (nth 0 (gb (lz st)) []) 0) eqn:EZ; [rewrite (A1 X eq_refl) in HZ; lia|]. rewrite (U1 eq_refl). auto. }
  match goal with |- context [obind ?A _] => assert (HA : exists st2 o2, A = Some (st2, o2) /\ post fuel st1 st2 o2 /\ lzeros st2 = lzeros st1 /\
      (o2 = OTrue -> locked (lz st2) = false /\ (S kstart + lzeros st2 < kend -> S kstart <= nkr (lz st2)))) end.
  { destruct (Nat.ltb_spec (lzeros st1) (kend - kmin)) as [HZ|HZ].
    2:{ exists st1, OTrue. split; auto. split; [|split; [auto|split; [auto|lia]]]. split; auto. split; [apply St_refl|]. split; [discriminate|intros _; discriminate]. }
    specialize (HN HZ).
    match goal with |- context [obind ?A _] => assert (HA : exists st2 o2, A = Some (st2, o2) /\ post fuel st1 st2 o2 /\ lzeros st2 = lzeros st1 /\
      (o2 = OTrue -> locked (lz st2) = false /\ kstart <= nkr (lz st2) /\ (kstart <> 0 -> kstart < nkr (lz st2) /\ kstart <= nth kstart (fvc (ls st2)) 0))) end.
    { destruct (Nat.ltb_spec 0 kstart).
      - destruct (babai_w fuel st1 kstart kstart srs W1) as [st2 [o [E [W2 [S2 [T2 [K2 [O1 [O2 O3]]]]]]]]].
        { split; [lia|]. split; [lia|]. split; [rewrite L1; auto|]. split; [lia|congruence]. }
        exists st2, o. split; auto. destruct T2 as [T1 [T2 [T3 T4]]]. split; [split; auto|]. split; [auto|]. intros X.
        destruct (K2 ltac:(subst; discriminate)) as [Ka [Kb Kc]]. destruct (O1 X). split; [congruence|]. split; [lia|]. intros _. split; lia.
      - exists st1, OTrue. split; auto. split; [|split; [auto|intros _; split; [auto|split; [auto|lia]]]].
        split; auto. split; [apply St_refl|]. split; [discriminate|intros _; discriminate]. }
    destruct HA as [st2 [o2 [E2 [[W2 [S2 [A3 A2]]] [Z2 Q2]]]]]. rewrite E2. cbn [obind fst snd].
    destruct (Steps_inv _ _ I1 S2) as [I2 [F2 G2]].
    destruct o2.
    2,3,4: eexists; eexists; split; [reflexivity|]; split; [split; [exact W2|]; split; [exact S2|split; auto]|split; [auto|discriminate]].
    destruct (Q2 eq_refl) as [L2 [N2 V2]].
    destruct (update_gso_row_w fo (lz st2) (ls st2) kstart kstart (proj1 W2) (proj2 W2)) as [z3 [s3 [ok [E3 [I3 [D3 [S3 [_ [[Ka [Kb Kc]] [_ [O2 [O3 _]]]]]]]]]]]]; auto; try lia.
    { intros _. rewrite L2. auto. } { rewrite L2; discriminate. }
    rewrite E3. cbn [obind].
    assert (ok = true) as ->. { destruct (Nat.eq_dec kstart 0) as [X|X]; [auto|]. apply O2; apply V2; auto. }
    eexists; eexists. split; [reflexivity|]. split; [|split; [exact Z2|]].
    - split; [split; auto|]. split; [eapply Steps_trans; eauto|]. split; [discriminate|intros _; discriminate].
    - intros _. cbn [lz lzeros set_zs]. split; [congruence|]. lia. }
  destruct HA as [st2 [o2 [E2 [[W2 [S2 [A3 A2]]] [Z2 Q2]]]]]. rewrite E2. cbn [obind fst snd].
  destruct (Steps_inv _ _ I1 S2) as [I2 [F2 G2]].
  destruct o2.
  2,3,4: eexists; eexists; split; [reflexivity|]; split; [split; [exact W2|]; split; [eapply Steps_trans; eauto|split; auto]|discriminate].
  destruct (Q2 eq_refl) as [L2 N2].
  destruct (lll_loop_w fuel kmin kend srs (max_iter (gb (lz st2))) st2 (S kstart) 0) as [st' [o [E [[W3 [S3 [C1 C2]]] Q3]]]]; auto; try lia.
  { intros X. destruct F1 as [_ [FA _]]. destruct F2 as [_ [FB _]]. rewrite FB, FA. auto. }
  exists st', o. split; auto. split; auto. split; auto. split; [|auto]. eapply Steps_trans; [|exact S3]. eapply Steps_trans; eauto.
Qed.

(** ** size_reduction *)
Lemma size_red_loop_w fuel srs : forall cnt st k, W st -> locked (lz st) = false -> k <= nkr (lz st) -> k + cnt <= gd (lz st) ->
  exists st' o, size_red_loop lo P fuel cnt st k srs = Some (st', o) /\ post fuel st st' o /\
    (o = OTrue -> lstat st' = RED_SUCCESS).
Proof.
  induction cnt as [|cnt IH]; intros st k HW HL Hk He; cbn [size_red_loop].
  - eexists; eexists. split; [reflexivity|]. split; [|auto]. split; [exact HW|]. split; [apply St_refl|]. split; [discriminate|intros _; discriminate].
  - match goal with |- context [obind ?A _] => assert (HA : exists st2 o2, A = Some (st2, o2) /\ post fuel st st2 o2 /\
      (o2 = OTrue -> locked (lz st2) = false /\ k <= nkr (lz st2) /\ (k <> 0 -> k < nkr (lz st2) /\ k <= nth k (fvc (ls st2)) 0))) end.
    { destruct (Nat.ltb_spec 0 k).
      - destruct (babai_w fuel st k k srs HW) as [st2 [o [E [W2 [S2 [T2 [K2 [O1 [O2 O3]]]]]]]]].
        { split; [lia|]. split; [lia|]. split; [rewrite HL; auto|]. split; [lia|congruence]. }
        exists st2, o. split; auto. split; [split; auto|]. intros X.
        destruct (K2 ltac:(subst; discriminate)) as [Ka [Kb Kc]]. destruct (O1 X). split; [congruence|]. split; [lia|]. intros _. split; lia.
      - exists st, OTrue. split; auto. split; [|intros _; split; [auto|split; [auto|lia]]].
        split; auto. split; [apply St_refl|]. split; [discriminate|intros _; discriminate]. }
    destruct HA as [st2 [o2 [E2 [[W2 [S2 [A1 A2]]] Q2]]]]. rewrite E2. cbn [obind fst snd].
    destruct (Steps_inv _ _ (proj1 HW) S2) as [I2 [F2 G2]].
    destruct o2.
    2,3,4: eexists; eexists; split; [reflexivity|]; split; [split; [exact W2|]; split; [exact S2|split; auto]|discriminate].
    destruct (Q2 eq_refl) as [L2 [N2 V2]].
    destruct (update_gso_row_w fo (lz st2) (ls st2) k k (proj1 W2) (proj2 W2)) as [z3 [s3 [ok [E3 [I3 [D3 [S3 [_ [[Ka [Kb Kc]] [_ [O2 [O3 _]]]]]]]]]]]]; auto; try lia.
    { intros _. rewrite L2. auto. } { rewrite L2; discriminate. }
    rewrite E3. cbn [obind].
    assert (ok = true) as ->. { destruct (Nat.eq_dec k 0) as [X|X]; [auto|]. apply O2; apply V2; auto. }
    destruct (IH (set_zs st2 z3 s3) (S k)) as [st' [o [E [[W' [S' [C1 C2]]] Q']]]]; cbn [lz set_zs]; auto; try lia.
    { split; auto. } { congruence. } { destruct (Steps_inv _ _ I2 S3) as [_ [_ X]]. lia. }
    exists st', o. split; auto. split; auto. split; auto. split; [|auto]. eapply Steps_trans; [|exact S']. eapply Steps_trans; eauto.
Qed.

Lemma size_reduction_w fuel st kmin kend srs : W st -> locked (lz st) = false -> kmin <= nkr (lz st) -> kend <= gd (lz st) -> kmin <= kend ->
  exists st' o, size_reduction lo P fuel st kmin kend srs = Some (st', o) /\ post fuel st st' o /\
    (o = OTrue -> lstat st' = RED_SUCCESS).
Proof. intros. apply size_red_loop_w; auto. lia. Qed.
End W.
