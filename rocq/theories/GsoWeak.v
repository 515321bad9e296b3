(** The GSO operations for a completely arbitrary floating-point type: memory
    safety and the integer invariants, without any law on FT. *)
From Coq Require Import List ZArith Lia Arith Bool.
From Verif Require Import Util LatticeSpec NumVectModel NumVectProofs MatrixModel MatrixProofs
  GsoModel GsoProofs GsoHistory RotateSpec GsoFModel GsoFSpec GsoFProofs.
Import ListNotations.
Local Open Scope nat_scope.

(** Reflexive-transitive closure of the basis effects. *)
Inductive Steps : gz -> gz -> Prop :=
| St_refl z : Steps z z
| St_step z1 z2 z3 e : Steps z1 z2 -> step_ok z2 z3 e -> Steps z1 z3.

Lemma Steps_trans z1 z2 z3 : Steps z1 z2 -> Steps z2 z3 -> Steps z1 z3.
Proof. intros H1 H2. revert H1. induction H2; intros H1; auto. eapply St_step; [apply IHSteps; auto|eassumption]. Qed.
Lemma Steps_one z z' e : step_ok z z' e -> Steps z z'.
Proof. intros. eapply St_step; [apply St_refl|eauto]. Qed.

Lemma Steps_inv z z' : Inv z -> Steps z z' -> Inv z' /\ flags_eq z z' /\ gd z' = gd z.
Proof.
  intros HI HS. induction HS.
  - split; auto. split; auto. repeat split.
  - destruct (IHHS HI) as [A [B C]]. destruct H as [D [E [G [K _]]]].
    split; auto. split.
    + destruct B as [? [? [? [? ?]]]]; destruct E as [? [? [? [? ?]]]]; repeat split; congruence.
    + destruct K. unfold gd in *. congruence.
Qed.

Lemma Steps_lattice z z' : Inv z -> Steps z z' -> same_lattice (gc z) (gb z) (gb z').
Proof.
  intros HI HS. induction HS; [apply same_lattice_refl|].
  destruct (Steps_inv _ _ HI HS) as [A [B C]]. destruct H as [D [E [G [K _]]]].
  eapply same_lattice_trans; [apply IHHS; auto|]. eapply eff_mat_lattice; eauto.
Qed.

Lemma Steps_product z z' n B0 : Inv z -> Steps z z' -> en_t z = true ->
  is_product n (gb z) (gu z) B0 -> is_product n (gb z') (gu z') B0.
Proof.
  intros HI HS ET HP. induction HS; auto.
  destruct (Steps_inv _ _ HI HS) as [A [B C]]. destruct H as [D [E [G [K [NN [EU _]]]]]].
  destruct B as [? [? [ET2 [? ?]]]].
  destruct (I_u _ A) as [cu [Du _]]; [congruence|].
  eapply eff_product with (e := e) (B := gb z2) (U := gu z2); eauto.
Qed.

Lemma Steps_inverse z z' : Inv z -> Steps z z' -> en_t z = true -> en_i z = true ->
  inverse_transposed (gd z) (gu z) (gui z) -> inverse_transposed (gd z) (gu z') (gui z').
Proof.
  intros HI HS ET EI HP. induction HS; auto.
  destruct (Steps_inv _ _ HI HS) as [A [B C]]. destruct H as [D [E [G [K [NN [EU [ED _]]]]]]].
  destruct B as [? [? [ET2 [EI2 ?]]]].
  destruct (I_u _ A) as [cu [Du _]]; [congruence|].
  destruct (I_ui _ A) as [cui [Dui _]]; [congruence|congruence|].
  eapply eff_inverse with (e := e) (U := gu z2) (V := gui z2); eauto; try congruence.
Qed.

Lemma Steps_shape z z' : Inv z -> Steps z z' -> shape z z'.
Proof.
  intros HI HS. induction HS; [apply shape_eq; auto|].
  destruct (Steps_inv _ _ HI HS) as [A [B C]]. destruct H as [D [E [G [K [NN [EU [ED S3]]]]]]].
  destruct B as [_ [_ [ET [EI _]]]]. specialize (IHHS HI). destruct IHHS as [A1 [A2 [A3 A4]]].
  destruct S3 as [B1 [B2 [B3 B4]]]. rewrite ET, EI, C in *.
  split; [|split; [|split]].
  - intros X cu Dc. auto.
  - intros X Y cu Dc. auto.
  - intros X. rewrite B3, A3; auto.
  - intros X. rewrite B4, A4; auto.
Qed.

Section W.
Variable fo : fops.
Variable en_e : bool.
Notation FT := (F fo).
Notation f0 := (f_ofZ fo 0).
Notation ge := (gent f0).
Notation FD := (FDims fo).

Lemma FDims_ext z z' s : gd z' = gd z -> gc z' = gc z -> FD z s -> FD z' s.
Proof. intros H1 H2 []. constructor; rewrite ?H1, ?H2; auto. Qed.

Lemma update_bf_w z s i : Inv z -> i < gd z -> FD z s ->
  exists s', update_bf fo en_e z s i = Some s' /\ FD z s' /\ fvc s' = fvc s.
Proof.
  intros HI Hi HD. unfold update_bf. destruct (I_irs _ HI) as [LI BI]. destruct (I_b _ HI) as [LB RB].
  destruct (D_bf _ _ _ HD) as [LF RF]. destruct (I_known _ HI) as [_ [_ K]].
  rewrite (nth_error_nth' (irs z) 0) by lia. cbn [obind]. cbv zeta.
  rewrite (nth_error_nth' (gb z) []) by lia. cbn [obind].
  rewrite (nth_error_nth' (fbf s) []) by lia. cbn [obind].
  pose proof (BI i Hi). set (n := Nat.max (nkc z) (nth i (irs z) 0)).
  rewrite RB, RF by auto.
  destruct (Nat.ltb_spec (gc z) n); [lia|]. cbn [orb].
  assert (HX : forall row, length row = n -> dims (gd z) (gc z) (upd (fbf s) i (row ++ skipn n (nth i (fbf s) [])))).
  { intros row Hr. split; [rewrite upd_length; auto|]. intros a Ha. rewrite nth_upd.
    destruct (Nat.eqb_spec a i); cbn [andb]; [|apply RF; auto]. subst. destruct (Nat.ltb_spec i (length (fbf s))); [|lia].
    rewrite app_length, skipn_length, RF by auto. lia. }
  destruct en_e.
  - rewrite (nth_error_nth' (fre s) 0%Z) by (rewrite (D_re _ _ _ HD); lia). cbn [obind].
    eexists. split; [reflexivity|]. split; [|reflexivity].
    destruct HD. constructor; auto; cbn [fbf fre set_bf].
    + apply HX. rewrite map_length, map_length, firstn_length, RB by auto. lia.
    + now rewrite upd_length.
  - eexists. split; [reflexivity|]. split; [|reflexivity].
    destruct HD. constructor; auto; cbn [fbf fre set_bf].
    apply HX. rewrite map_length, firstn_length, RB by auto. lia.
Qed.

Lemma fst_new_w junk z : Inv z -> exists s, fst_new fo en_e junk z = Some s /\ FD z s /\ (forall i, nth i (fvc s) 0 = 0).
Proof.
  intros HI. unfold fst_new. set (s0 := mkfst _ _ _ _ _ _).
  assert (D0 : FD z s0). { constructor; simpl; try apply dims_repeat; apply repeat_length. }
  assert (V0 : forall i, nth i (fvc s0) 0 = 0). { intros i. simpl. apply nth_repeat. }
  destruct (en_g z). { exists s0. auto. }
  destruct (ofor_inv (fun _ s => FD z s /\ fvc s = fvc s0) (fun i s => update_bf fo en_e z s i) (gd z) 0 s0) as [s [E [D V]]]; auto.
  - intros k s Hk [D V]. destruct (update_bf_w z s k) as [s' [E [D' V']]]; auto; [lia|]. exists s'. split; auto. split; auto. congruence.
  - exists s. split; auto. split; auto. intros i. rewrite V. auto.
Qed.

Lemma fdiscover_w z s : Inv z -> FD z s -> legal z ODiscover ->
  exists z' s', fdiscover_row fo z s = Some (z', s') /\ FD z' s' /\ discover_row z = Some z' /\
    (exists e, step_ok z z' e) /\ length (fvc s') = gd z /\
    (forall j, j <> nkr z -> nth j (fvc s') 0 = nth j (fvc s) 0).
Proof.
  intros HI HD HL. unfold fdiscover_row.
  destruct (gstep_ok z ODiscover HI HL) as [z' [e [E S]]]; [discriminate|]. simpl in E. rewrite E. cbn [obind].
  destruct HL as [Hk Hlg].
  assert (exists s1, (if en_g z then Some s else invalidate_gram_row fo s (nkr z)) = Some s1 /\ FD z s1 /\ fvc s1 = fvc s) as [s1 [E1 [D1 V1]]].
  { destruct (en_g z); [exists s; auto|].
    destruct (invalidate_gram_row_ok fo (gd z) s (nkr z)) as [s1 [A1 [A2 [A3 [A4 [A5 [A6 [A7 _]]]]]]]]; auto; [apply HD|].
    exists s1. split; auto. split; auto. destruct HD. constructor; congruence. }
  rewrite E1. cbn [obind]. pose proof (D_vc _ _ _ D1) as LV.
  rewrite (nth_error_nth' (fvc s1) 0) by lia. cbn [obind].
  eexists. eexists. split; [reflexivity|].
  destruct (discover_known _ _ E) as [B1 [[C1 _] _]].
  split; [|split; [auto|split; [eauto|split]]].
  - apply (FDims_ext z); auto. { unfold gd. congruence. }
    destruct D1. constructor; auto. cbn [fvc set_vc]. now rewrite upd_length.
  - cbn [fvc set_vc]. now rewrite upd_length.
  - intros j Hj. cbn [fvc set_vc]. rewrite nth_upd_neq by auto. congruence.
Qed.

Lemma get_gram_w z s i j : Inv z -> FD z s -> i < gd z -> j < gd z -> (en_g z = false -> 1 <= nkc z) ->
  exists v s', get_gram fo z s i j = Some (v, s') /\ FD z s' /\ fvc s' = fvc s /\ fmu s' = fmu s /\ fr s' = fr s /\ fre s' = fre s.
Proof.
  intros HI HD Hi Hj Hc. unfold get_gram. destruct (en_g z) eqn:EG.
  - destruct (I_g _ HI EG) as [_ [Dg _]]. rewrite (mget_some 0%Z (gd z) (gd z)) by auto. cbn [obind].
    eexists; eexists. split; [reflexivity|]. auto 10.
  - rewrite (mget_some (@None FT) (gd z) (gd z)) by (auto; apply HD). cbn [obind].
    destruct (gent None (fgf s) i j) as [v|]. { exists v, s. auto 10. }
    destruct (D_bf _ _ _ HD) as [LF RF]. destruct (I_known _ HI) as [_ [_ K]]. specialize (Hc eq_refl).
    rewrite (nth_error_nth' (fbf s) []) by lia. cbn [obind].
    rewrite (nth_error_nth' (fbf s) []) by lia. cbn [obind].
    unfold fdot. pose proof (RF i Hi) as Ri. pose proof (RF j Hj) as Rj.
    rewrite (nth_error_nth' (nth i (fbf s) []) f0) by lia. cbn [obind].
    rewrite (nth_error_nth' (nth j (fbf s) []) f0) by lia. cbn [obind].
    rewrite fdot_loop_spec by lia. cbn [obind].
    match goal with |- context [mset _ i j (Some ?v)] => destruct (mset_some (@None FT) (gd z) (gd z) (fgf s) i j (Some v)) as [g' [Em [Dm _]]]; auto end.
    { apply HD. }
    rewrite Em. cbn [obind]. eexists; eexists. split; [reflexivity|]. split; auto. destruct HD; constructor; auto.
Qed.

Lemma sub_loop_w z s i j g : FD z s -> i < gd z -> j < gd z -> exists v, sub_loop fo s i j g = Some v.
Proof.
  intros HD Hi Hj. unfold sub_loop. eexists. apply ofor_fold. intros k a Hk. apply in_seq in Hk.
  rewrite (mget_some f0 (gd z) (gd z)) by (try apply HD; lia). cbn [obind].
  rewrite (mget_some f0 (gd z) (gd z)) by (try apply HD; lia). cbn [obind]. reflexivity.
Qed.

Lemma update_loop_w z i : Inv z -> i < gd z -> (en_g z = false -> 1 <= nkc z) -> forall cnt s j, FD z s -> j + cnt <= S i ->
  exists s' ok, update_loop fo z s i j cnt = Some (s', ok) /\ FD z s' /\ fvc s' = fvc s /\ (i <= j -> ok = true).
Proof.
  intros HI Hi Hc. induction cnt as [|cnt IH]; intros s j HD Hj; cbn [update_loop].
  - exists s, true. auto.
  - destruct (get_gram_w z s i j) as [g [s1 [E1 [D1 [V1 _]]]]]; auto; [lia|]. rewrite E1. cbn [obind].
    destruct (sub_loop_w z s1 i j g) as [acc Ea]; auto; [lia|]. rewrite Ea. cbn [obind].
    destruct (mset_some f0 (gd z) (gd z) (fr s1) i j acc) as [r' [Er [Dr _]]]; try apply D1; auto; [lia|]. rewrite Er. cbn [obind]. cbv zeta.
    assert (D2 : FD z (set_r_ fo s1 r')) by (destruct D1; constructor; auto).
    destruct (Nat.ltb_spec j i).
    + rewrite (mget_some f0 (gd z) (gd z)) by (auto; lia). cbn [obind].
      match goal with |- context [mset _ i j ?v] => destruct (mset_some f0 (gd z) (gd z) (fmu (set_r_ fo s1 r')) i j v) as [m' [Em [Dm _]]]; try apply D2; auto; [lia|] end.
      rewrite Em. cbn [obind].
      assert (D3 : FD z (set_mu fo (set_r_ fo s1 r') m')) by (destruct D2; constructor; auto).
      destruct (f_fin fo _ _).
      * destruct (IH (set_mu fo (set_r_ fo s1 r') m') (S j)) as [s' [ok [E [D' [V' O']]]]]; auto; [lia|].
        exists s', ok. split; auto. split; auto. split; [rewrite V'; auto|lia].
      * eexists; exists false. split; [reflexivity|]. split; auto. split; auto. lia.
    + destruct (IH (set_r_ fo s1 r') (S j)) as [s' [ok [E [D' [V' O']]]]]; auto; [lia|].
      exists s', ok. split; auto. split; auto. split; [rewrite V'; auto|]. intros _. apply O'. lia.
Qed.

(** what update_gso_row does to the discovery counters *)
Definition discovered (z z' : gz) (i : nat) : Prop :=
  nkr z' = Nat.max (nkr z) (S i) /\ nsr z' = (if (i <? nkr z) || locked z then nsr z else S i) /\ locked z' = locked z.

Lemma update_gso_row_w z s i lj : Inv z -> FD z s -> i < gd z -> i <= nkr z -> (i = nkr z -> locked z && en_g z = false) ->
  lj <= i -> (locked z = true -> 1 <= nsr z) ->
  exists z' s' ok, update_gso_row fo z s i lj = Some (z', s', ok) /\ Inv z' /\ FD z' s' /\ Steps z z' /\ gb z' = gb z /\
    discovered z z' i /\
    (ok = true -> lj < nth i (fvc s') 0) /\
    (i < nkr z -> i <= nth i (fvc s) 0 -> ok = true) /\
    (i = 0 -> ok = true) /\
    (forall j, j <> i -> nth j (fvc s') 0 = nth j (fvc s) 0).
Proof.
  intros HI HD Hi Hk HL Hlj Hlk. unfold update_gso_row.
  assert (HX : exists z1 s1, (if nkr z <=? i then fdiscover_row fo z s else Some (z, s)) = Some (z1, s1) /\
      Inv z1 /\ FD z1 s1 /\ Steps z z1 /\ gb z1 = gb z /\ discovered z z1 i /\ (i < nkr z -> s1 = s) /\
      (forall j, j <> i -> nth j (fvc s1) 0 = nth j (fvc s) 0)).
  { unfold discovered. destruct (Nat.leb_spec (nkr z) i).
    - assert (i = nkr z) by lia. subst i.
      assert (LD : legal z ODiscover) by (split; auto).
      destruct (fdiscover_w z s HI HD LD) as [z1 [s1 [E [D1 [E1 [[e S] [LV V]]]]]]].
      destruct (discover_known _ _ E1) as [B1 [F1 [K1 [K2 K3]]]].
      exists z1, s1. split; auto. pose proof S as [I1 _]. split; auto. split; auto. split; [eapply Steps_one; eauto|].
      split; auto. split; [|split; [lia|auto]].
      rewrite K1, K2, K3. split; [lia|]. split; auto. destruct (Nat.ltb_spec (nkr z) (nkr z)); [lia|]. cbn [orb]. auto.
    - exists z, s. split; auto. split; auto. split; auto. split; [apply St_refl|]. split; auto.
      split; [|auto]. split; [lia|]. split; auto. destruct (Nat.ltb_spec i (nkr z)); [|lia]. reflexivity. }
  destruct HX as [z1 [s1 [E1 [I1 [D1 [S1 [B1 [K1 [V1 V2]]]]]]]]]. rewrite E1. cbn [obind].
  destruct (Steps_inv _ _ HI S1) as [_ [F1 G1]].
  pose proof (D_vc _ _ _ D1) as LV.
  rewrite (nth_error_nth' (fvc s1) 0) by lia. cbn [obind].
  pose proof K1 as [K1a [K1b K1c]].
  assert (Hc : en_g z1 = false -> 1 <= nkc z1).
  { intros _. apply (I_kc _ I1). rewrite K1b. destruct (Nat.ltb_spec i (nkr z)); cbn [orb].
    - destruct (locked z) eqn:EL; [apply Hlk; auto|]. rewrite (I_unl _ HI) by auto. lia.
    - destruct (locked z) eqn:EL; [apply Hlk; auto|lia]. }
  set (v := nth i (fvc s1) 0).
  destruct (le_lt_dec v (S lj)).
  2:{ replace (S lj - v) with 0 by lia. cbn [update_loop obind].
      eexists; eexists; exists true. split; [reflexivity|]. split; auto. split.
      { destruct D1; constructor; auto. cbn [fvc set_vc]. now rewrite upd_length. }
      split; auto. split; auto. split; auto. split.
      { intros _. cbn [fvc set_vc]. rewrite nth_upd_eq by lia. lia. }
      split; auto. split; auto. intros j Hj. cbn [fvc set_vc]. rewrite nth_upd_neq by auto. auto. }
  destruct (update_loop_w z1 i I1 ltac:(lia) Hc (S lj - v) s1 v D1 ltac:(lia)) as [s2 [ok [E2 [D2 [V3 O2]]]]].
  rewrite E2. cbn [obind].
  destruct ok.
  - eexists; eexists; exists true. split; [reflexivity|]. split; auto. split.
    { destruct D2; constructor; auto. cbn [fvc set_vc]. now rewrite upd_length. }
    split; auto. split; auto. split; auto. split.
    { intros _. cbn [fvc set_vc]. rewrite V3, nth_upd_eq by lia. lia. }
    split; auto. split; auto. intros j Hj. cbn [fvc set_vc]. rewrite nth_upd_neq by auto. rewrite V3. auto.
  - eexists; eexists; exists false. split; [reflexivity|]. split; auto. split; auto. split; auto. split; auto. split; auto.
    split; [discriminate|]. split.
    { intros H1 H2. apply O2. unfold v. rewrite V1; auto. }
    split. { intros ->. apply O2. lia. }
    intros j Hj. rewrite V3. auto.
Qed.

Lemma invalidate_gso_rows_w z s f a cnt : FD z s -> a + cnt <= gd z ->
  exists s', ofor (seq a cnt) (fun i s => invalidate_gso_row fo s i f) s = Some s' /\ FD z s' /\
    (forall i, nth i (fvc s') 0 = if (a <=? i) && (i <? a + cnt) then Nat.min (nth i (fvc s) 0) f else nth i (fvc s) 0).
Proof.
  intros HD H. pose proof (D_vc _ _ _ HD).
  destruct (invalidate_gso_rows_ok fo f cnt a s) as [s' [E [N1 [N2 [N3 [N4 [N5 [N6 N7]]]]]]]]; [lia|].
  exists s'. split; auto. split; auto. destruct HD. constructor; congruence.
Qed.

Lemma row_op_end_w z s f l : Inv z -> FD z s -> f <= l -> l <= nkr z ->
  exists s', row_op_end fo en_e z s f l = Some s' /\ FD z s' /\
    (forall j, j < f -> nth j (fvc s') 0 = nth j (fvc s) 0).
Proof.
  intros HI HD Hfl Hl. unfold row_op_end. destruct (I_known _ HI) as [K1 [K2 K3]].
  destruct (ofor_inv (fun _ s' => FD z s' /\ forall j, j < f -> nth j (fvc s') 0 = nth j (fvc s) 0)
     (fun i s =>
          s1 <- (if en_g z then Some s
                 else
                   s1 <- update_bf fo en_e z s i;;
                   s2 <- invalidate_gram_row fo s1 i;;
                   g' <- ofor (seq (i + 1) (nkr z - (i + 1))) (fun j g => mset g j i None) (fgf s2);;
                   Some (set_gf fo s2 g'));;
          invalidate_gso_row fo s1 i 0) (l - f) f s) as [s1 [E1 [D1 V1]]]; auto.
  - intros k s1 Hk [D1 V1].
    assert (exists s2, (if en_g z then Some s1
                 else
                   s2 <- update_bf fo en_e z s1 k;;
                   s3 <- invalidate_gram_row fo s2 k;;
                   g' <- ofor (seq (k + 1) (nkr z - (k + 1))) (fun j g => mset g j k None) (fgf s3);;
                   Some (set_gf fo s3 g')) = Some s2 /\ FD z s2 /\ fvc s2 = fvc s1) as [s2 [E2 [D2 V2]]].
    { destruct (en_g z). { exists s1. auto. }
      destruct (update_bf_w z s1 k) as [s2 [E2 [D2 V2]]]; auto; [lia|]. rewrite E2. cbn [obind].
      destruct (invalidate_gram_row_ok fo (gd z) s2 k) as [s3 [A1 [A2 [A3 [A4 [A5 [A6 [A7 _]]]]]]]]; [apply D2|lia|].
      rewrite A1. cbn [obind].
      destruct (ofor_inv (fun _ g => dims (gd z) (gd z) g) (fun j g => mset g j k (@None FT)) (nkr z - (k + 1)) (k + 1) (fgf s3)) as [g' [Eg Dg]]; auto.
      { intros j g Hj Dg. destruct (mset_some (@None FT) (gd z) (gd z) g j k None) as [g2 [X1 [X2 _]]]; auto; [lia|lia|]. eauto. }
      rewrite Eg. cbn [obind]. eexists. split; [reflexivity|]. split; [|cbn [fvc set_gf]; congruence].
      destruct D2; constructor; cbn [fmu fr fgf fbf fre fvc set_gf]; congruence. }
    rewrite E2. cbn [obind]. unfold invalidate_gso_row.
    pose proof (D_vc _ _ _ D2). rewrite (nth_error_nth' (fvc s2) 0) by lia. cbn [obind].
    eexists. split; [reflexivity|]. split.
    + destruct D2; constructor; auto. cbn [fvc set_vc]. now rewrite upd_length.
    + intros j Hj. cbn [fvc set_vc]. rewrite nth_upd_neq by lia. rewrite V2. auto.
  - rewrite E1. cbn [obind].
    destruct (invalidate_gso_rows_w z s1 f l (nkr z - l) D1) as [s2 [E2 [D2 V2]]]; [lia|].
    exists s2. split; auto. split; auto. intros j Hj. rewrite V2. destruct (Nat.leb_spec l j); [lia|]. cbn [andb]. auto.
Qed.

Lemma set_r_w z s i j x : FD z s -> i < gd z -> j < gd z ->
  exists s', set_r fo s i j x = Some s' /\ FD z s'.
Proof.
  intros HD Hi Hj. unfold set_r.
  destruct (mset_some f0 (gd z) (gd z) (fr s) i j x) as [r' [Er [Dr _]]]; auto; [apply HD|]. rewrite Er. cbn [obind].
  pose proof (D_vc _ _ _ HD). rewrite (nth_error_nth' (fvc s) 0) by lia. cbn [obind]. eexists. split; [reflexivity|].
  destruct (_ =? _); destruct HD; constructor; auto. cbn [fvc set_vc set_r_]. now rewrite upd_length.
Qed.

Lemma rot_left_w {A} R C (M : list (list A)) f l : dims R C M -> f <= l < R -> exists M', rotate_left_by_swap M f l = Some M' /\ dims R C M'.
Proof.
  intros HD H. destruct (rotate_left_spec M f l) as [M' [E [L X]]]. { destruct HD; lia. }
  exists M'. split; auto. destruct HD as [H1 H2]. split; [lia|]. intros i Hi.
  erewrite reidx_nth; [|split; eassumption|lia|rewrite H1; apply rot_left_lt; lia]. apply H2. apply rot_left_lt; lia.
Qed.
Lemma rot_right_w {A} R C (M : list (list A)) f l : dims R C M -> f <= l < R -> exists M', rotate_right_by_swap M f l = Some M' /\ dims R C M'.
Proof.
  intros HD H. destruct (rotate_right_spec M f l) as [M' [E [L X]]]. { destruct HD; lia. }
  exists M'. split; auto. destruct HD as [H1 H2]. split; [lia|]. intros i Hi.
  erewrite reidx_nth; [|split; eassumption|lia|rewrite H1; apply rot_right_lt; lia]. apply H2. apply rot_right_lt; lia.
Qed.

Lemma fmove_w z s o n : Inv z -> FD z s -> legal z (OMove o n) ->
  exists z' s', fmove_row fo en_e z s o n = Some (z', s') /\ Inv z' /\ FD z' s' /\ Steps z z' /\ move_row z o n = Some z'.
Proof.
  intros HI HD HL. destruct (move_row_ok z o n HI HL) as [z' [ef [Ez S]]]. pose proof S as [HI' _].
  pose proof (Steps_one _ _ _ S) as HS. destruct (Steps_inv _ _ HI HS) as [_ [[Fc _] Fd]].
  destruct HL as [Hl [Ho [Hn Hkn]]]. destruct (I_known _ HI) as [K1 [K2 K3]].
  unfold fmove_row. rewrite Ez.
  destruct (Nat.ltb_spec n o) as [Hno|Hno]; [specialize (Hkn Hno)|destruct (Nat.ltb_spec o n) as [Hon|Hon]].
  - destruct (invalidate_gso_rows_w z s n n (nkr z - n) HD) as [s1 [E1 [D1 V1]]]; [lia|]. rewrite E1. cbn [obind].
    destruct (rotate_right_spec (fvc s1) n o) as [vc' [Evc [Lvc _]]]. { rewrite (D_vc _ _ _ D1). lia. } rewrite Evc. cbn [obind].
    destruct (rot_right_w (gd z) (gd z) (fmu s1) n o) as [mu' [Emu Dmu]]; [apply D1|lia|]. rewrite Emu. cbn [obind].
    destruct (rot_right_w (gd z) (gd z) (fr s1) n o) as [r' [Er Dr]]; [apply D1|lia|]. rewrite Er. cbn [obind].
    assert (exists g', (if en_g z then Some (fgf s1) else rotate_gram_right (fgf s1) n o (nkr z)) = Some g' /\ dims (gd z) (gd z) g') as [g' [Eg Dg]].
    { destruct (en_g z). { exists (fgf s1). split; auto. apply D1. }
      destruct (rotate_gram_right_spec (@None FT) (gd z) (gd z) (fgf s1) n o (nkr z)) as [g' [A1 [A2 A3]]]; try apply D1; try lia. eauto. }
    rewrite Eg. cbn [obind].
    assert (exists b', (if en_g z then Some (fbf s1) else rotate_right_by_swap (fbf s1) n o) = Some b' /\ dims (gd z) (gc z) b') as [b' [Eb Db]].
    { destruct (en_g z). { exists (fbf s1). split; auto. apply D1. } apply rot_right_w; [apply D1|lia]. }
    rewrite Eb. cbn [obind].
    assert (exists e', (if en_e then rotate_right_by_swap (fre s1) n o else Some (fre s1)) = Some e' /\ length e' = gd z) as [e' [Ee De]].
    { destruct en_e. 2:{ exists (fre s1). split; auto. apply D1. }
      destruct (rotate_right_spec (fre s1) n o) as [e' [A1 [A2 _]]]. { rewrite (D_re _ _ _ D1). lia. } exists e'. split; auto. rewrite A2. apply D1. }
    rewrite Ee. cbn [obind]. eexists; eexists. split; [reflexivity|]. split; auto. split; [|auto].
    constructor; rewrite ?Fd, ?Fc; auto. cbn [fvc]. rewrite Lvc. apply D1.
  - destruct (invalidate_gso_rows_w z s o o (nkr z - o) HD) as [s1 [E1 [D1 V1]]].
    { lia. }
    rewrite E1. cbn [obind].
    destruct (rotate_left_spec (fvc s1) o n) as [vc' [Evc [Lvc _]]]. { rewrite (D_vc _ _ _ D1). lia. } rewrite Evc. cbn [obind].
    destruct (rot_left_w (gd z) (gd z) (fmu s1) o n) as [mu' [Emu Dmu]]; [apply D1|lia|]. rewrite Emu. cbn [obind].
    destruct (rot_left_w (gd z) (gd z) (fr s1) o n) as [r' [Er Dr]]; [apply D1|lia|]. rewrite Er. cbn [obind].
    assert (exists g', (if en_g z then Some (fgf s1) else if Datatypes.S o <? nkr z then rotate_gram_left (fgf s1) o (Nat.min n (nkr z - 1)) (nkr z) else Some (fgf s1)) = Some g' /\ dims (gd z) (gd z) g') as [g' [Eg Dg]].
    { destruct (en_g z). { exists (fgf s1). split; auto. apply D1. }
      destruct (Nat.ltb_spec (Datatypes.S o) (nkr z)). 2:{ exists (fgf s1). split; auto. apply D1. }
      destruct (rotate_gram_left_spec (@None FT) (gd z) (gd z) (fgf s1) o (Nat.min n (nkr z - 1)) (nkr z)) as [g' [A1 [A2 A3]]]; try apply D1; try lia. eauto. }
    rewrite Eg. cbn [obind].
    assert (exists b', (if en_g z then Some (fbf s1) else rotate_left_by_swap (fbf s1) o n) = Some b' /\ dims (gd z) (gc z) b') as [b' [Eb Db]].
    { destruct (en_g z). { exists (fbf s1). split; auto. apply D1. } apply rot_left_w; [apply D1|lia]. }
    rewrite Eb. cbn [obind].
    assert (exists e', (if en_e then rotate_left_by_swap (fre s1) o n else Some (fre s1)) = Some e' /\ length e' = gd z) as [e' [Ee De]].
    { destruct en_e. 2:{ exists (fre s1). split; auto. apply D1. }
      destruct (rotate_left_spec (fre s1) o n) as [e' [A1 [A2 _]]]. { rewrite (D_re _ _ _ D1). lia. } exists e'. split; auto. rewrite A2. apply D1. }
    rewrite Ee. cbn [obind]. eexists; eexists. split; [reflexivity|]. split; auto. split; [|auto].
    constructor; rewrite ?Fd, ?Fc; auto. cbn [fvc]. rewrite Lvc. apply D1.
  - exists z, s. split; auto. split; auto. split; auto. split; [apply St_refl|].
    unfold move_row in Ez. destruct (Nat.ltb_spec n o); [lia|]. destruct (Nat.ltb_spec o n); [lia|]. auto.
Qed.

Lemma get_mu_exp_w z s i j : FD z s -> i < gd z -> j < gd z -> exists p, get_mu_exp fo en_e (z, s) i j = Some p.
Proof.
  intros HD Hi Hj. unfold get_mu_exp. rewrite (mget_some f0 (gd z) (gd z)) by (auto; apply HD). cbn [obind].
  destruct en_e; [|eauto]. pose proof (D_re _ _ _ HD).
  rewrite (nth_error_nth' (fre s) 0%Z) by lia. cbn [obind].
  rewrite (nth_error_nth' (fre s) 0%Z) by lia. cbn [obind]. eauto.
Qed.
Lemma get_r_exp_w z s i j : FD z s -> i < gd z -> j < gd z -> exists p, get_r_exp fo en_e (z, s) i j = Some p.
Proof.
  intros HD Hi Hj. unfold get_r_exp. rewrite (mget_some f0 (gd z) (gd z)) by (auto; apply HD). cbn [obind].
  destruct en_e; [|eauto]. pose proof (D_re _ _ _ HD).
  rewrite (nth_error_nth' (fre s) 0%Z) by lia. cbn [obind].
  rewrite (nth_error_nth' (fre s) 0%Z) by lia. cbn [obind]. eauto.
Qed.
End W.
