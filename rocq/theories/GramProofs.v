(** Proofs about the MatGSOGram model: every operation acts on g as the same
    row operation acts on the rows of u (congruence transformation). *)
From Coq Require Import List ZArith Lia Arith Bool.
From Verif Require Import Util LatticeSpec NumVectModel NumVectProofs MatrixModel MatrixProofs
  GsoModel GsoProofs GsoHistory GramModel.
Import ListNotations.
Local Open Scope nat_scope.

Record MInv (z : gm) : Prop := {
  M_al : md z <= malloc z;
  M_g : dims (malloc z) (malloc z) (mg z);
  M_kr : msr z <= mkr z /\ mkr z <= md z;
  M_u : m_t z = true -> exists cu, dims (md z) cu (mu_ z);
  M_ui : m_t z = true -> m_i z = true -> exists cu, dims (md z) cu (mui z)
}.

(** effect of a row operation on a symmetric matrix of inner products *)
Definition seff (n : nat) (e : effect) (S S' : nat -> nat -> Z) : Prop :=
  forall a b, a < n -> b < n ->
  match e with
  | EAdd i j x => S' a b = (S a b + (if (a =? i)%nat then x * S j b else 0)
      + (if (b =? i)%nat then x * S a j else 0)
      + (if (a =? i)%nat && (b =? i)%nat then x * x * S j j else 0))%Z
  | EPerm p _ => S' a b = S (p a) (p b)
  | ENeg i => S' a b = ((if (a =? i)%nat then -1 else 1) * (if (b =? i)%nat then -1 else 1) * S a b)%Z
  | ENone => S' a b = S a b
  end.

Definition mflags_eq (z z' : gm) : Prop :=
  m_t z' = m_t z /\ m_i z' = m_i z /\ m_fl z' = m_fl z /\ md z' = md z /\ malloc z' = malloc z.

Definition mstep_ok (z z' : gm) (e : effect) : Prop :=
  MInv z' /\ mflags_eq z z' /\ eff_ok (md z) e /\ (forall i, e <> ENeg i) /\
  seff (md z) e (sg (mg z)) (sg (mg z')) /\
  (m_t z = true -> eff_mat e (mu_ z) (mu_ z')) /\
  (m_t z = true -> m_i z = true -> eff_dual e (mui z) (mui z')).

Lemma gm_transform_spec z i j y ny :
  MInv z -> i < md z -> j < md z -> ny = (- y)%Z ->
  exists z', gm_transform_addmul z i j y ny = Some z' /\
    mg z' = mg z /\ mflags_eq z z' /\ mkr z' = mkr z /\ msr z' = msr z /\ mlk z' = mlk z /\
    (m_t z = true -> eff_mat (EAdd i j y) (mu_ z) (mu_ z') /\ exists cu, dims (md z) cu (mu_ z')) /\
    (m_t z = true -> m_i z = true -> eff_dual (EAdd i j y) (mui z) (mui z') /\ exists cu, dims (md z) cu (mui z')).
Proof.
  intros HI Hi Hj ->. unfold gm_transform_addmul.
  destruct (m_t z) eqn:ET.
  - destruct (M_u _ HI ET) as [cu Du].
    destruct (mrow_addmul_full_some (md z) cu (mu_ z) i j y) as [u' [E [D H]]]; auto.
    rewrite E. cbn [obind]. destruct (m_i z) eqn:EI.
    + destruct (M_ui _ HI ET EI) as [cui Dui].
      destruct (mrow_addmul_full_some (md z) cui (mui z) j i (- y)%Z) as [ui' [E' [D' H']]]; auto.
      rewrite E'. cbn [obind]. eexists; split; [reflexivity|]. simpl.
      repeat split; auto; intros; simpl; try congruence; eauto.
      * destruct D, Du; congruence.
      * destruct D', Dui; congruence.
    + eexists; split; [reflexivity|]. simpl.
      repeat split; auto; intros; simpl; try congruence; eauto.
      destruct D, Du; congruence.
  - eexists; split; [reflexivity|]. repeat split; auto; intros; discriminate.
Qed.

(** the Gram part of a row addition *)
Lemma gm_gram_add al n g g1 i j y h :
  dims al al g -> dims al al g1 -> n <= al -> i < n -> j < n -> i <> j ->
  (forall a b, sg g1 a b = if ((a =? i)%nat) && ((b =? i)%nat)
     then (sg g i i + 2 * y * sg g i j + y * y * sg g j j)%Z else sg g a b) ->
  (forall v, h v = (y * v)%Z) ->
  exists g', gram_row_loop n i j h g1 = Some g' /\ dims al al g' /\ seff n (EAdd i j y) (sg g) (sg g').
Proof.
  intros HD HD1 HR Hi Hj Hij HG1 Hh.
  destruct (gram_row_loop_spec al al n i j h g1) as [g' [E [D H]]]; auto; try lia.
  exists g'. split; auto. split; auto. intros a b Ha Hb. rewrite H by auto.
  rewrite !Hh, !HG1.
  destruct (Nat.eqb_spec a i); destruct (Nat.eqb_spec b i); destruct (Nat.eqb_spec j i);
    subst; cbn [andb negb]; try lia.
  - rewrite (sgent_sym 0%Z g j i). ring.
  - rewrite Nat.eqb_refl; cbn [andb]. ring.
Qed.

Lemma mstep_ok_add z z1 g' i j y :
  MInv z -> i < md z -> j < md z -> i <> j ->
  mg z1 = mg z -> mflags_eq z z1 -> mkr z1 = mkr z -> msr z1 = msr z -> mlk z1 = mlk z ->
  (m_t z = true -> eff_mat (EAdd i j y) (mu_ z) (mu_ z1) /\ exists cu, dims (md z) cu (mu_ z1)) ->
  (m_t z = true -> m_i z = true -> eff_dual (EAdd i j y) (mui z) (mui z1) /\ exists cu, dims (md z) cu (mui z1)) ->
  dims (malloc z) (malloc z) g' -> seff (md z) (EAdd i j y) (sg (mg z)) (sg g') ->
  mstep_ok z (mset_g z1 g') (EAdd i j y).
Proof.
  intros HI Hi Hj Hij Eg HF K1 K2 K3 HU HUI D HS. pose proof HF as [F1 [F2 [F3 [F4 F5]]]].
  destruct HI.
  split; [|split; [|split; [|split; [|split; [|split]]]]].
  - constructor; simpl; rewrite ?F4, ?F5, ?K1, ?K2; auto; intros; [apply HU|apply HUI]; congruence.
  - unfold mflags_eq; simpl; auto.
  - simpl; auto.
  - intros; discriminate.
  - exact HS.
  - intros; apply HU; auto.
  - intros; apply HUI; auto.
Qed.

Lemma gm_row_add_ok z i j : MInv z -> i < md z -> j < md z -> i <> j ->
  exists z', gm_row_add z i j = Some z' /\ mstep_ok z z' (EAdd i j 1).
Proof.
  intros HI Hi Hj Hij. unfold gm_row_add.
  destruct (gm_transform_spec z i j 1 (-1)) as [z1 [E [Eg [F [K1 [K2 [K3 [HU HUI]]]]]]]]; auto.
  rewrite E. cbn [obind]. pose proof (M_al _ HI) as Al. pose proof (M_g _ HI) as Dg.
  rewrite (sym_get_some 0%Z (malloc z) (malloc z)) by (auto; lia). cbn [obind].
  rewrite !(mget_sg (malloc z)) by (auto; lia). cbn [obind].
  destruct (mset_some 0%Z (malloc z) (malloc z) (mg z) i i (sg (mg z) i i + (mul_2si (sg (mg z) i j) 1 + sg (mg z) j j))%Z)
    as [g1 [E3 _]]; auto; try lia. rewrite E3. cbn [obind].
  destruct (sg_mset _ _ i _ _ Dg ltac:(lia) E3) as [Dg1 Hg1].
  destruct (gm_gram_add (malloc z) (md z) (mg z) g1 i j 1 (fun x => x)) as [g' [E4 [D4 H4]]]; auto; try lia.
  { intros a b. rewrite Hg1, mul_2si_eq. destruct ((a =? i)%nat && (b =? i)%nat); auto.
    change (Z.of_nat 1) with 1%Z. ring. }
  rewrite E4. cbn [obind]. eexists; split; [reflexivity|]. apply mstep_ok_add; auto.
Qed.

Lemma gm_row_sub_ok z i j : MInv z -> i < md z -> j < md z -> i <> j ->
  exists z', gm_row_sub z i j = Some z' /\ mstep_ok z z' (EAdd i j (-1)).
Proof.
  intros HI Hi Hj Hij. unfold gm_row_sub.
  destruct (gm_transform_spec z i j (-1) 1) as [z1 [E [Eg [F [K1 [K2 [K3 [HU HUI]]]]]]]]; auto.
  rewrite E. cbn [obind]. pose proof (M_al _ HI) as Al. pose proof (M_g _ HI) as Dg.
  rewrite (sym_get_some 0%Z (malloc z) (malloc z)) by (auto; lia). cbn [obind].
  rewrite !(mget_sg (malloc z)) by (auto; lia). cbn [obind].
  destruct (mset_some 0%Z (malloc z) (malloc z) (mg z) i i (sg (mg z) i i + (sg (mg z) j j - mul_2si (sg (mg z) i j) 1))%Z)
    as [g1 [E3 _]]; auto; try lia. rewrite E3. cbn [obind].
  destruct (sg_mset _ _ i _ _ Dg ltac:(lia) E3) as [Dg1 Hg1].
  destruct (gm_gram_add (malloc z) (md z) (mg z) g1 i j (-1) Z.opp) as [g' [E4 [D4 H4]]]; auto; try lia.
  { intros a b. rewrite Hg1, mul_2si_eq. destruct ((a =? i)%nat && (b =? i)%nat); auto.
    change (Z.of_nat 1) with 1%Z. ring. }
  rewrite E4. cbn [obind]. eexists; split; [reflexivity|]. apply mstep_ok_add; auto.
Qed.

Lemma gm_row_addmul_ok z i j x e : MInv z -> i < md z -> j < md z -> i <> j ->
  exists z', gm_row_addmul z i j x e = Some z' /\ mstep_ok z z' (EAdd i j (x * 2 ^ Z.of_nat e)).
Proof.
  intros HI Hi Hj Hij. unfold gm_row_addmul.
  destruct (gm_transform_spec z i j (mul_2si x e) (mul_2si (-x) e)) as [z1 [E [Eg [F [K1 [K2 [K3 [HU HUI]]]]]]]]; auto.
  { rewrite !mul_2si_eq. ring. }
  rewrite E. cbn [obind]. pose proof (M_al _ HI) as Al. pose proof (M_g _ HI) as Dg.
  rewrite (sym_get_some 0%Z (malloc z) (malloc z)) by (auto; lia). cbn [obind].
  rewrite !(mget_sg (malloc z)) by (auto; lia). cbn [obind].
  destruct (mset_some 0%Z (malloc z) (malloc z) (mg z) i i (sg (mg z) i i + mul_2si (sg (mg z) i j * x) (e + 1))%Z)
    as [g1 [E3 _]]; auto; try lia. rewrite E3. cbn [obind].
  destruct (sg_mset _ _ i _ _ Dg ltac:(lia) E3) as [Dg1 Hg1].
  rewrite !(mget_sg (malloc z)) by (auto; lia). cbn [obind].
  destruct (mset_some 0%Z (malloc z) (malloc z) g1 i i (sg g1 i i + mul_2si (sg g1 j j * x * x) (2 * e))%Z)
    as [g2 [E5 _]]; auto; try lia. rewrite E5. cbn [obind].
  destruct (sg_mset _ _ i _ _ Dg1 ltac:(lia) E5) as [Dg2 Hg2].
  destruct (gm_gram_add (malloc z) (md z) (mg z) g2 i j (x * 2 ^ Z.of_nat e)%Z (fun v => mul_2si (v * x) e)) as [g' [E4 [D4 H4]]]; auto; try lia.
  { intros a b. rewrite Hg2. destruct ((a =? i)%nat && (b =? i)%nat) eqn:Eab.
    - rewrite !Hg1, !Nat.eqb_refl. destruct (Nat.eqb_spec j i); [lia|]. cbn [andb].
      rewrite !mul_2si_eq. replace (2 * e) with (e + e) by lia. rewrite !pow2_add.
      change (2 ^ Z.of_nat 1)%Z with 2%Z. ring.
    - rewrite Hg1, Eab. auto. }
  { intros v. rewrite mul_2si_eq. ring. }
  rewrite E4. cbn [obind]. eexists; split; [reflexivity|].
  rewrite mul_2si_eq in HU, HUI. apply mstep_ok_add; auto.
Qed.

Lemma mstep_ok_none z z' : MInv z' -> mflags_eq z z' -> mg z' = mg z -> mu_ z' = mu_ z -> mui z' = mui z ->
  mstep_ok z z' ENone.
Proof.
  intros HI HF E1 E2 E3. split; auto. split; auto. split; [simpl; auto|].
  split; [discriminate|]. split; [|split].
  - intros a b _ _. now rewrite E1.
  - intros _. split; congruence.
  - intros _ _. split; congruence.
Qed.

Lemma gm_row_addmul_we_ok z i j lx e zx e2 : MInv z -> i < md z -> j < md z -> i <> j ->
  exists z' ef, gm_row_addmul_we z i j lx e zx e2 = Some z' /\ mstep_ok z z' ef.
Proof.
  intros HI Hi Hj Hij. unfold gm_row_addmul_we.
  destruct (e =? 0).
  - destruct (lx =? 1)%Z; [destruct (gm_row_add_ok z i j) as [z' [E S]]; eauto|].
    destruct (lx =? -1)%Z; [destruct (gm_row_sub_ok z i j) as [z' [E S]]; eauto|].
    destruct (lx =? 0)%Z.
    { exists z, ENone. split; auto. apply mstep_ok_none; auto. repeat split. }
    destruct (gm_row_addmul_ok z i j lx 0) as [z' [E S]]; eauto.
  - destruct (m_fl z); [destruct (gm_row_addmul_ok z i j lx e) as [z' [E S]]; eauto|].
    destruct (gm_row_addmul_ok z i j zx e2) as [z' [E S]]; eauto.
Qed.

Lemma row_swap_gram' al g i j n :
  dims al al g -> i < j -> j < n -> n <= al ->
  exists g1 g2 g3 g4,
    ofor (seq 0 i) (fun k g => mswap g i k j k) g = Some g1 /\
    ofor (seq (i + 1) (j - (i + 1))) (fun k g => mswap g k i j k) g1 = Some g2 /\
    ofor (seq (j + 1) (n - (j + 1))) (fun k g => mswap g k i k j) g2 = Some g3 /\
    mswap g3 i i j j = Some g4 /\ dims al al g4 /\
    forall a b, a < n -> b < n -> sg g4 a b = sg g (tr i j a) (tr i j b).
Proof. apply row_swap_gram. Qed.

Lemma mstep_ok_perm z z1 z' p q :
  MInv z -> perm_ok (md z) p q ->
  mflags_eq z z1 ->
  (m_t z = true -> eff_mat (EPerm p q) (mu_ z) (mu_ z1) /\ exists cu, dims (md z) cu (mu_ z1)) ->
  (m_t z = true -> m_i z = true -> eff_dual (EPerm p q) (mui z) (mui z1) /\ exists cu, dims (md z) cu (mui z1)) ->
  dims (malloc z) (malloc z) (mg z') ->
  (forall a b, a < md z -> b < md z -> sg (mg z') a b = sg (mg z) (p a) (p b)) ->
  mu_ z' = mu_ z1 -> mui z' = mui z1 -> mflags_eq z1 z' -> msr z' <= mkr z' /\ mkr z' <= md z ->
  mstep_ok z z' (EPerm p q).
Proof.
  intros HI HP [F1 [F2 [F3 [F4 F5]]]] HU HUI D HS Eu Eui [G1 [G2 [G3 [G4 G5]]]] HK. destruct HI.
  split; [|split; [|split; [|split; [|split; [|split]]]]]; auto.
  - constructor; rewrite ?G4, ?G5, ?F4, ?F5, ?Eu, ?Eui; auto; intros; [apply HU|apply HUI]; congruence.
  - unfold mflags_eq. repeat split; congruence.
  - intros; discriminate.
  - intros. rewrite Eu. apply HU; auto.
  - intros. rewrite Eui. apply HUI; auto.
Qed.

Lemma gm_row_swap_ok z i j : MInv z -> gmlegal z (OSwap i j) ->
  exists z', gm_row_swap z i j = Some z' /\ mstep_ok z z' (EPerm (tr i j) (tr i j)).
Proof.
  intros HI [Hij Hi]. unfold gm_row_swap. pose proof (M_al _ HI) as Al. pose proof (M_g _ HI) as Dg.
  assert (exists z1, (if m_t z then u' <- oswap (mu_ z) i j;; Some (mset_u z u') else Some z) = Some z1
     /\ mg z1 = mg z /\ mflags_eq z z1 /\ mkr z1 = mkr z /\ msr z1 = msr z /\
     (m_t z = true -> eff_mat (EPerm (tr i j) (tr i j)) (mu_ z) (mu_ z1) /\ exists cu, dims (md z) cu (mu_ z1)))
     as [z1 [E1 [Eg [F [K1 [K2 HU]]]]]].
  { destruct (m_t z) eqn:ET.
    - destruct (M_u _ HI ET) as [cu Du].
      destruct (oswap_dims (md z) cu (mu_ z) i j) as [u' [E [D H]]]; auto; try lia.
      rewrite E. cbn [obind]. eexists; split; [reflexivity|]. simpl. repeat split; auto; simpl.
      + destruct D, Du; congruence.
      + intros a k Ha. apply H. destruct Du; lia.
      + eauto.
    - eexists; split; [reflexivity|]. repeat split; auto; discriminate. }
  rewrite E1. cbn [obind]. destruct (Nat.ltb_spec j i); [lia|].
  destruct (row_swap_gram (malloc z) (mg z) i j (md z)) as [g1 [g2 [g3 [g4 [A1 [A2 [A3 [A4 [A5 A6]]]]]]]]]; auto; try lia.
  rewrite A1; cbn [obind]. rewrite A2; cbn [obind]. rewrite A3; cbn [obind]. rewrite A4; cbn [obind].
  eexists; split; [reflexivity|].
  apply mstep_ok_perm with (z1 := z1); simpl; auto.
  - apply perm_ok_tr; lia.
  - congruence.
  - repeat split.
  - rewrite K1, K2. apply (M_kr _ HI).
Qed.

Lemma gm_rot_u_ok z f l (rot : list (list Z) -> nat -> nat -> option (list (list Z))) p q :
  MInv z -> f <= l < md z ->
  (forall R C M, dims R C M -> f <= l < R -> exists M', rot M f l = Some M' /\ dims R C M' /\
     forall a k, a < R -> ent M' a k = ent M (p a) k) ->
  exists z1, gm_rot_u rot z f l = Some z1 /\ mg z1 = mg z /\ mflags_eq z z1 /\
     mkr z1 = mkr z /\ msr z1 = msr z /\
     (m_t z = true -> eff_mat (EPerm p q) (mu_ z) (mu_ z1) /\ exists cu, dims (md z) cu (mu_ z1)) /\
     (m_t z = true -> m_i z = true -> eff_dual (EPerm p q) (mui z) (mui z1) /\ exists cu, dims (md z) cu (mui z1)).
Proof.
  intros HI Hfl Hrot. unfold gm_rot_u. destruct (m_t z) eqn:ET.
  - destruct (M_u _ HI ET) as [cu Du].
    destruct (Hrot (md z) cu (mu_ z) Du Hfl) as [u' [E [D H]]]. rewrite E. cbn [obind].
    destruct (m_i z) eqn:EI.
    + destruct (M_ui _ HI ET EI) as [cui Dui].
      destruct (Hrot (md z) cui (mui z) Dui Hfl) as [ui' [E' [D' H']]]. rewrite E'. cbn [obind].
      eexists; split; [reflexivity|]. simpl. repeat split; auto; simpl; eauto.
      * destruct D, Du; congruence.
      * intros a k Ha. apply H. destruct Du; lia.
      * destruct D', Dui; congruence.
      * intros a k Ha. apply H'. destruct Dui; lia.
    + eexists; split; [reflexivity|]. simpl. repeat split; auto; simpl; eauto; try discriminate.
      * destruct D, Du; congruence.
      * intros a k Ha. apply H. destruct Du; lia.
  - eexists; split; [reflexivity|]. repeat split; auto; discriminate.
Qed.

(** move_row is a congruence only when the target lies among the known rows. *)
Definition gm_safe (z : gm) (o : gop) : Prop :=
  gmlegal z o /\ match o with OMove a b => a < b -> b < mkr z | ONegate _ => False | _ => True end.

Lemma gm_move_ok z o n : MInv z -> gm_safe z (OMove o n) ->
  exists z' ef, gm_move_row z o n = Some z' /\ mstep_ok z z' ef.
Proof.
  intros HI [[Hl [Ho [Hn Hk]]] Hs]. unfold gm_move_row. pose proof (M_al _ HI) as Al. pose proof (M_g _ HI) as Dg.
  pose proof (M_kr _ HI) as Kr.
  destruct (Nat.ltb_spec n o) as [Hno|Hno].
  - destruct (gm_rot_u_ok z n o (@rotate_right_by_swap _) (rot_right_idx n o) (rot_left_idx n o)) as [z1 [E1 [Eg [F [K1 [K2 [HU HUI]]]]]]]; auto; try lia.
    { intros; apply rot_dims_r; auto. }
    rewrite E1. cbn [obind].
    destruct (rotate_gram_right_spec 0%Z (malloc z) (malloc z) (mg z) n o (md z)) as [g' [E2 [D2 H2]]]; auto; try lia.
    rewrite E2. cbn [obind]. eexists; exists (EPerm (rot_right_idx n o) (rot_left_idx n o)); split; [reflexivity|].
    apply mstep_ok_perm with (z1 := z1); simpl; auto; try (repeat split; fail); try lia.
    apply perm_ok_sym, perm_ok_rot; lia.
  - destruct (Nat.ltb_spec o n) as [Hon|Hon].
    + specialize (Hs Hon).
      destruct (gm_rot_u_ok z o n (@rotate_left_by_swap _) (rot_left_idx o n) (rot_right_idx o n)) as [z1 [E1 [Eg [F [K1 [K2 [HU HUI]]]]]]]; auto; try lia.
      { intros; apply rot_dims_l; auto. }
      rewrite E1. cbn [obind]. destruct (Nat.ltb_spec (o + 1) (mkr z)); [|lia].
      replace (Nat.min n (mkr z - 1)) with n by lia.
      destruct (rotate_gram_left_spec 0%Z (malloc z) (malloc z) (mg z) o n (md z)) as [g' [E2 [D2 H2]]]; auto; try lia.
      rewrite E2. cbn [obind]. destruct (Nat.leb_spec (mkr z) n); [lia|]. cbn [andb].
      eexists; exists (EPerm (rot_left_idx o n) (rot_right_idx o n)); split; [reflexivity|].
      apply mstep_ok_perm with (z1 := z1); simpl; auto; try (repeat split; fail); try lia.
      apply perm_ok_rot; lia.
    + exists z, ENone. split; auto. apply mstep_ok_none; auto. repeat split.
Qed.

Lemma gmstep_ok z o : MInv z -> gm_safe z o -> exists z' e, gmstep z o = Some z' /\ mstep_ok z z' e.
Proof.
  intros HI HS. pose proof HS as [HL HN]. pose proof (M_kr _ HI) as [K1 K2]. pose proof (M_al _ HI) as Al.
  destruct o; cbn [gmstep]; cbn [gmlegal] in HL; try contradiction.
  - destruct (gm_row_add_ok z i j) as [z' [E S]]; eauto; lia.
  - destruct (gm_row_sub_ok z i j) as [z' [E S]]; eauto; lia.
  - destruct (gm_row_addmul_ok z i j x 0) as [z' [E S]]; eauto; lia.
  - destruct (gm_row_addmul_ok z i j x e) as [z' [E S]]; eauto; lia.
  - destruct (gm_row_addmul_ok z i j x e) as [z' [E S]]; eauto; lia.
  - apply gm_row_addmul_we_ok; auto; lia.
  - destruct (gm_row_swap_ok z i j HI HL) as [z' [E S]]; eauto.
  - apply gm_move_ok; auto.
  - unfold gm_discover_row. destruct (Nat.ltb_spec (mkr z) (malloc z)); [|lia].
    eexists; exists ENone; split; [reflexivity|]. destruct HL as [HL HL2]. rewrite HL2.
    apply mstep_ok_none; try reflexivity; [|repeat split].
    destruct HI. constructor; simpl; auto; lia.
  - eexists; exists ENone; split; [reflexivity|]. apply mstep_ok_none; try reflexivity; [|repeat split].
    destruct HI. constructor; simpl; auto.
  - eexists; exists ENone; split; [reflexivity|]. apply mstep_ok_none; try reflexivity; [|repeat split].
    destruct HI. constructor; simpl; auto; lia.
Qed.

(** ** Congruence *)
Definition congruent (n : nat) (T : list (list Z)) (S0 S : nat -> nat -> Z) : Prop :=
  forall a b, a < n -> b < n ->
    S a b = zsum n (fun k => zsum n (fun l => ent T a k * ent T b l * S0 k l))%Z.

Definition bil n (T : list (list Z)) (S0 : nat -> nat -> Z) a b : Z :=
  zsum n (fun k => zsum n (fun l => ent T a k * ent T b l * S0 k l))%Z.

Lemma bil_fact n T S0 a b :
  bil n T S0 a b = zsum n (fun k => ent T a k * zsum n (fun l => ent T b l * S0 k l))%Z.
Proof. unfold bil. apply zsum_ext. intros k Hk. rewrite <- zsum_scal. apply zsum_ext. intros; ring. Qed.

Lemma bil_gen n (S0 : nat -> nat -> Z) (va vb va' vb' : nat -> Z) (x y : Z) (wa wb : nat -> Z) :
  (forall k, k < n -> va' k = (va k + x * wa k)%Z) -> (forall k, k < n -> vb' k = (vb k + y * wb k)%Z) ->
  zsum n (fun k => zsum n (fun l => va' k * vb' l * S0 k l))%Z =
  (zsum n (fun k => zsum n (fun l => va k * vb l * S0 k l))
   + x * zsum n (fun k => zsum n (fun l => wa k * vb l * S0 k l))
   + y * zsum n (fun k => zsum n (fun l => va k * wb l * S0 k l))
   + x * y * zsum n (fun k => zsum n (fun l => wa k * wb l * S0 k l)))%Z.
Proof.
  intros Ha Hb. rewrite <- !zsum_scal, <- !zsum_plus. apply zsum_ext. intros k Hk.
  rewrite <- !zsum_scal, <- !zsum_plus. apply zsum_ext. intros l Hl.
  rewrite Ha, Hb by auto. ring.
Qed.

Lemma eff_congruent n e T T' S0 S S' :
  (forall i, e <> ENeg i) -> eff_ok n e -> length T = n -> eff_mat e T T' ->
  congruent n T S0 S -> seff n e S S' -> congruent n T' S0 S'.
Proof.
  intros HN HO HL [L H] HC HS a b Ha Hb. specialize (HS a b Ha Hb). destruct e; cbn [eff_ok] in *.
  - rewrite HS. destruct HO as [Hi [Hj Hij]].
    rewrite (bil_gen n S0 (ent T a) (ent T b) (ent T' a) (ent T' b)
       (if (a =? i)%nat then x else 0)%Z (if (b =? i)%nat then x else 0)%Z (ent T j) (ent T j)).
    + rewrite <- !HC by auto. destruct (a =? i)%nat; destruct (b =? i)%nat; cbn [andb]; ring.
    + intros k Hk. rewrite H. destruct (a =? i)%nat; ring.
    + intros k Hk. rewrite H. destruct (b =? i)%nat; ring.
  - destruct HO as [Hp Hq]. rewrite HS. rewrite HC by (apply Hp; auto).
    apply zsum_ext. intros k Hk. apply zsum_ext. intros l Hl. rewrite !H by lia. auto.
  - exfalso. eapply HN; reflexivity.
  - subst T'. rewrite HS. apply HC; auto.
Qed.

(** existence of the transformed ghost matrices *)
Definition dual (e : effect) : effect :=
  match e with EAdd i j x => EAdd j i (- x) | _ => e end.

Lemma eff_dual_mat e M M' : eff_dual e M M' <-> eff_mat (dual e) M M'.
Proof. destruct e; simpl; unfold eff_dual, eff_mat; tauto. Qed.

Lemma eff_ok_dual n e : eff_ok n e -> eff_ok n (dual e).
Proof. destruct e; cbn [dual eff_ok]; auto. intros [H1 [H2 H3]]; auto. Qed.

Definition mk (n : nat) (f : nat -> nat -> Z) : list (list Z) :=
  map (fun i => map (fun j => f i j) (seq 0 n)) (seq 0 n).

Lemma mk_dims n f : dims n n (mk n f).
Proof. unfold mk. split; [apply map_seq_length|]. intros i Hi. now rewrite nth_map_seq, map_seq_length. Qed.
Lemma mk_ent n f i j : i < n -> j < n -> ent (mk n f) i j = f i j.
Proof. intros. unfold ent, mk. now rewrite nth_map_seq, nth_map_seq. Qed.

Lemma ent_out_row M a k : length M <= a -> ent M a k = 0%Z.
Proof. intros. unfold ent. rewrite (nth_overflow M) by auto. destruct k; auto. Qed.

Lemma eff_exists n e T : (forall i, e <> ENeg i) -> eff_ok n e -> dims n n T ->
  exists T', eff_mat e T T' /\ dims n n T'.
Proof.
  intros HN HO HD. pose proof HD as [HR HC]. destruct e.
  - exists (mk n (fun a k => ent T a k + if (a =? i)%nat then x * ent T j k else 0)%Z).
    split; [|apply mk_dims]. split; [destruct (mk_dims n (fun a k => ent T a k + if (a =? i)%nat then x * ent T j k else 0)%Z); lia|].
    intros a k. destruct HO as [Hi [Hj _]].
    destruct (Nat.lt_ge_cases a n); [destruct (Nat.lt_ge_cases k n)|].
    + now rewrite mk_ent.
    + rewrite !(dims_ent_out n n) with (k := k); auto using mk_dims. destruct (a =? i)%nat; ring.
    + rewrite !ent_out_row with (a := a); try lia.
      * destruct (Nat.eqb_spec a i); lia.
      * match goal with |- length ?m <= _ => destruct (mk_dims n (fun a k => ent T a k + if (a =? i)%nat then x * ent T j k else 0)%Z) as [X _]; rewrite X end. auto.
  - exists (mk n (fun a k => ent T (p a) k)). split; [|apply mk_dims].
    split; [destruct (mk_dims n (fun a k => ent T (p a) k)); lia|].
    intros a k Ha. destruct (Nat.lt_ge_cases k n); [rewrite mk_ent by lia; auto|].
    rewrite !(dims_ent_out n n) with (k := k); auto using mk_dims.
  - exfalso. eapply HN; reflexivity.
  - exists T. split; auto. split; auto.
Qed.

Lemma congruent_ident n S0 : congruent n (ident n) S0 S0.
Proof.
  intros a b Ha Hb.
  rewrite zsum_ext with (g := fun k => (if (k =? a)%nat then S0 k b else 0)%Z).
  - now rewrite (zsum_delta n a (fun k => S0 k b)) by auto.
  - intros k Hk. rewrite ent_ident by auto. unfold delta. rewrite (Nat.eqb_sym a k).
    rewrite zsum_ext with (g := fun l => (if (l =? b)%nat then (if (k =? a)%nat then S0 k l else 0) else 0)%Z).
    + rewrite (zsum_delta n b (fun l => if (k =? a)%nat then S0 k l else 0)%Z) by auto. auto.
    + intros l Hl. rewrite ent_ident by auto. unfold delta. rewrite (Nat.eqb_sym b l).
      destruct (k =? a)%nat; destruct (l =? b)%nat; ring.
Qed.

Lemma product_ident n m (U : list (list Z)) : length U = n -> is_product m U (ident n) U.
Proof.
  intros HL i j Hi Hj. rewrite HL in *.
  rewrite zsum_ext with (g := fun k => (if (k =? i)%nat then ent U k j else 0)%Z).
  - now rewrite (zsum_delta n i (fun k => ent U k j)) by auto.
  - intros k Hk. rewrite ent_ident by auto. unfold delta. rewrite (Nat.eqb_sym i k).
    destruct (k =? i)%nat; ring.
Qed.

Lemma inverse_ident n : inverse_transposed n (ident n) (ident n).
Proof.
  split; intros i j Hi Hj.
  - rewrite zsum_ext with (g := fun k => (if (k =? i)%nat then delta j k else 0)%Z).
    + rewrite (zsum_delta n i (fun k => delta j k)) by auto. unfold delta. now rewrite Nat.eqb_sym.
    + intros k Hk. rewrite !ent_ident by auto. unfold delta at 1. rewrite (Nat.eqb_sym i k).
      destruct (k =? i)%nat; ring.
  - rewrite zsum_ext with (g := fun k => (if (k =? i)%nat then delta k j else 0)%Z).
    + now rewrite (zsum_delta n i (fun k => delta k j)) by auto.
    + intros k Hk. rewrite !ent_ident by auto. unfold delta at 1. destruct (k =? i)%nat; ring.
Qed.

Lemma dims_ident n : dims n n (ident n).
Proof. split; [apply ident_length|]. intros i Hi. apply rect_ident. now rewrite ident_length. Qed.

(** The state reached from z by T (with transposed inverse V). *)
Definition reached (n : nat) (z0 z : gm) (T V : list (list Z)) : Prop :=
  mflags_eq z0 z /\ dims n n T /\ dims n n V /\ inverse_transposed n T V /\
  congruent n T (sg (mg z0)) (sg (mg z)) /\
  (m_t z0 = true -> forall m, is_product m (mu_ z) T (mu_ z0)) /\
  (m_t z0 = true -> m_i z0 = true -> forall m, is_product m (mui z) V (mui z0)).

Lemma gm_history z0 l : forall z T V, MInv z0 -> MInv z -> md z = md z0 -> reached (md z0) z0 z T V ->
  gmlegal_run gm_safe z l ->
  exists z' T' V', gmrun z l = Some z' /\ MInv z' /\ reached (md z0) z0 z' T' V'.
Proof.
  induction l as [|o l IH]; intros z T V HI0 HI HE HR HL.
  - exists z, T, V. auto.
  - destruct HL as [HS HL]. cbn [gmrun]. destruct (gmstep_ok z o HI HS) as [z1 [e [E S]]].
    rewrite E in *. cbn [obind]. destruct S as [I1 [F [EO [EN [SE [EU EUI]]]]]].
    destruct HR as [F0 [DT [DV [INV [CO [PU PUI]]]]]].
    rewrite HE in EO, SE.
    destruct (eff_exists (md z0) e T) as [T' [ET DT']]; auto.
    destruct (eff_exists (md z0) (dual e) V) as [V' [EV DV']]; auto.
    { intros i. destruct e; simpl; try discriminate. apply EN. }
    { apply eff_ok_dual; auto. }
    destruct F as [F1 [F2 [F3 [F4 F5]]]]. destruct F0 as [G1 [G2 [G3 [G4 G5]]]].
    apply (IH z1 T' V'); auto; [congruence|].
    split; [|split; [|split; [|split; [|split; [|split]]]]]; auto.
    + repeat split; congruence.
    + eapply eff_inverse with (e := e); eauto; try (destruct DT; auto; fail); try (destruct DV; auto; fail).
      apply eff_dual_mat; auto.
    + eapply eff_congruent; eauto. destruct DT; auto.
    + intros Ht m. rewrite <- G1 in Ht. destruct (M_u _ HI Ht) as [cu Du].
      apply eff_product with (e := e) (B := mu_ z) (U := T); auto.
      * destruct Du as [Lu _]. rewrite Lu, HE. auto.
      * destruct DT as [Lt _], Du as [Lu _]. congruence.
      * apply PU. congruence.
    + intros Ht Hi m. rewrite <- G1 in Ht. rewrite <- G2 in Hi. destruct (M_ui _ HI Ht Hi) as [cu Du].
      apply eff_product with (e := dual e) (B := mui z) (U := V); auto.
      * intros i. destruct e; simpl; try discriminate. apply EN.
      * destruct Du as [Lu _]. rewrite Lu, HE. apply eff_ok_dual; auto.
      * destruct DV as [Lt _], Du as [Lu _]. congruence.
      * apply eff_dual_mat. apply EUI; congruence.
      * apply PUI; congruence.
Qed.

Lemma gm_new_inv g u ui fl cu cui :
  rect (length g) g ->
  (0 < length u -> length u = length g /\ rect cu u) ->
  (0 < length u -> 0 < length ui -> length ui = length g /\ rect cui ui) ->
  MInv (gm_new g u ui fl) /\ md (gm_new g u ui fl) = length g /\
  (forall i j, i < length g -> j < length g -> sg (mg (gm_new g u ui fl)) i j = sg g i j).
Proof.
  intros Hg Hu Hui. unfold gm_new, gm_size_increased. cbn [malloc md].
  destruct (Nat.ltb_spec 0 (length g)).
  - assert (D : dims (length g) (length g) (mat_grow (length g) (length g) g)) by apply mk_dims.
    assert (EE : forall i j, i < length g -> j < length g -> ent (mat_grow (length g) (length g) g) i j = ent g i j).
    { intros i j Hi Hj. unfold mat_grow. exact (mk_ent _ _ i j Hi Hj). }
    split; [|split].
    + constructor; simpl; auto; try lia.
      * intros Ht. apply Nat.ltb_lt in Ht. destruct (Hu Ht) as [L R]. exists cu. split; auto. intros i Hi. apply R; lia.
      * intros Ht Hi. apply Nat.ltb_lt in Ht, Hi. destruct (Hui Ht Hi) as [L R]. exists cui. split; auto. intros i Hi'. apply R; lia.
    + simpl. auto.
    + intros i j Hi Hj. simpl. unfold sgent. destruct (j <=? i); rewrite !gent_ent; apply EE; auto.
  - assert (length g = 0) as E0 by lia. destruct g; [|simpl in *; lia]. split; [|split]; simpl; auto.
    + constructor; simpl; auto.
      * split; auto; intros; lia.
      * intros Ht. apply Nat.ltb_lt in Ht. destruct (Hu Ht) as [L R]. simpl in L; lia.
      * intros Ht _. apply Nat.ltb_lt in Ht. destruct (Hu Ht) as [L R]. simpl in L; lia.
Qed.
