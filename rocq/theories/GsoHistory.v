(** Consequences of the step invariants for whole histories of GSO operations. *)
From Coq Require Import List ZArith Lia Arith Bool.
From Verif Require Import Util LatticeSpec NumVectModel NumVectProofs MatrixModel MatrixProofs GsoModel GsoProofs.
Import ListNotations.
Local Open Scope nat_scope.

Lemma grun_cons z o l : grun z (o :: l) = match gstep z o with Some z' => grun z' l | None => None end.
Proof.
  unfold grun. simpl. destruct (gstep z o); simpl; auto.
  induction l; simpl; auto.
Qed.

Lemma is_negate_dec o : {i | o = ONegate i} + {forall i, o <> ONegate i}.
Proof. destruct o; try (right; discriminate). left. eexists; reflexivity. Defined.

(** induction principle over legal histories *)
Lemma history_ind (P : gz -> Prop) :
  (forall z z' o, Inv z -> P z -> legal z o -> gstep z o = Some z' -> Inv z' ->
     (exists e, step_ok z z' e) \/ (exists i, o = ONegate i /\ step_ok_neg z z' i) -> P z') ->
  forall l z, Inv z -> P z -> legal_run z l ->
  exists z', grun z l = Some z' /\ Inv z' /\ P z'.
Proof.
  intros HS. induction l as [|o l IH]; intros z HI HP HL.
  - exists z. auto.
  - rewrite grun_cons. destruct HL as [HL HR].
    destruct (is_negate_dec o) as [[i ->]|Hn].
    + destruct (negate_ok z i HI HL) as [z' [E S]]. simpl gstep in *. rewrite E in *.
      apply IH; auto. apply S. eapply (HS z z' (ONegate i)); eauto. apply S.
    + destruct (gstep_ok z o HI HL Hn) as [z' [e [E S]]]. rewrite E in *.
      apply IH; auto. apply S. eapply HS; eauto. apply S.
Qed.

Lemma eff_mat_lattice e n B B' : eff_ok (length B) e -> eff_mat e B B' -> same_lattice n B B'.
Proof.
  intros HO [HL HE]. destruct e; simpl in *.
  - eapply same_lattice_addmul with (i := i) (j := j) (x := x); try tauto; auto.
  - destruct HO as [H1 H2]. apply same_lattice_perm with (p := p) (q := q); auto.
  - apply same_lattice_negate with (i := i); auto.
  - subst. apply same_lattice_refl.
Qed.

Lemma history_lattice l z : Inv z -> legal_run z l ->
  exists z', grun z l = Some z' /\ Inv z' /\ gd z' = gd z /\ gc z' = gc z /\
    same_lattice (gc z) (gb z) (gb z').
Proof.
  intros HI HL.
  destruct (history_ind (fun w => gd w = gd z /\ gc w = gc z /\ same_lattice (gc z) (gb z) (gb w))) with (l := l) (z := z)
    as [z' [E [I' [P1 [P2 P3]]]]]; auto.
  - intros w w' o Iw [P1 [P2 P3]] Lw Ew Iw' HS. destruct HS as [[e S]|[i [-> S]]].
    + destruct S as [_ [F [EO [EM _]]]]. destruct F as [Fc _].
      split; [destruct EM; unfold gd in *; lia|]. split; [congruence|].
      eapply same_lattice_trans; [exact P3|]. eapply eff_mat_lattice; eauto.
    + destruct S as [_ [F [EO [EM _]]]]. destruct F as [Fc _].
      split; [destruct EM; unfold gd in *; lia|]. split; [congruence|].
      eapply same_lattice_trans; [exact P3|]. eapply (eff_mat_lattice (ENeg i)); eauto.
  - split; [auto|]. split; [auto|]. apply same_lattice_refl.
  - exists z'. auto.
Qed.

(** *** products *)
Lemma eff_product e n B B' U U' B0 :
  (forall i, e <> ENeg i) -> eff_ok (length B) e -> length U = length B ->
  eff_mat e B B' -> eff_mat e U U' -> is_product n B U B0 -> is_product n B' U' B0.
Proof.
  intros Hn HO HL [L1 H1] [L2 H2] HP i j Hi Hj. rewrite L1 in Hi.
  destruct e; simpl in *.
  - rewrite H1. rewrite zsum_ext with (g := fun k => (ent U i k * ent B0 k j + (if (i =? i0)%nat then x else 0) * (ent U j0 k * ent B0 k j))%Z).
    + rewrite zsum_plus, zsum_scal. rewrite <- HP by auto. destruct (Nat.eqb_spec i i0).
      * rewrite <- HP by tauto. auto.
      * lia.
    + intros k Hk. rewrite H2. destruct (Nat.eqb_spec i i0); ring.
  - rewrite H1 by auto. destruct HO as [Hp _]. rewrite HP by (auto; apply Hp; auto).
    apply zsum_ext. intros k Hk. rewrite H2 by lia. auto.
  - exfalso. eapply Hn; reflexivity.
  - subst. auto.
Qed.

Definition no_negate (l : list gop) : Prop := forall i, ~ In (ONegate i) l.

Lemma history_ind_nn (P : gz -> Prop) :
  (forall z z' o e, Inv z -> P z -> legal z o -> gstep z o = Some z' -> step_ok z z' e -> P z') ->
  forall l z, no_negate l -> Inv z -> P z -> legal_run z l ->
  exists z', grun z l = Some z' /\ Inv z' /\ P z'.
Proof.
  intros HS. induction l as [|o l IH]; intros z HN HI HP HL.
  - exists z. auto.
  - rewrite grun_cons. destruct HL as [HL HR].
    assert (Hn : forall i, o <> ONegate i) by (intros i ->; apply (HN i); left; auto).
    destruct (gstep_ok z o HI HL Hn) as [z' [e [E S]]]. rewrite E in *.
    apply IH; auto. { intros i Hi. apply (HN i). right; auto. }
    apply S. eapply HS; eauto.
Qed.

Lemma history_product l z n B0 :
  no_negate l -> Inv z -> legal_run z l -> en_t z = true -> is_product n (gb z) (gu z) B0 ->
  exists z', grun z l = Some z' /\ Inv z' /\ gd z' = gd z /\ is_product n (gb z') (gu z') B0.
Proof.
  intros HN HI HL ET HP.
  destruct (history_ind_nn (fun w => gd w = gd z /\ en_t w = true /\ is_product n (gb w) (gu w) B0)) with (l := l) (z := z)
    as [z' [E [I' [P1 [P2 P3]]]]]; auto.
  - intros w w' o e Iw [P1 [P2 P3]] Lw Ew [Iw' [F [EO [EM [EN [EU _]]]]]].
    split; [destruct EM; unfold gd in *; lia|]. split; [destruct F as [_ [_ [X _]]]; congruence|].
    destruct (I_u _ Iw P2) as [cu [Du _]].
    eapply eff_product with (e := e); eauto.
  - exists z'. auto.
Qed.

(** *** inverse transforms *)
Lemma eff_inverse e d U U' V V' :
  (forall i, e <> ENeg i) -> eff_ok d e -> length U = d -> length V = d ->
  eff_mat e U U' -> eff_dual e V V' -> inverse_transposed d U V -> inverse_transposed d U' V'.
Proof.
  intros Hn HO LU LV [L1 H1] [L2 H2] [HP HQ]. destruct e; simpl in *.
  - destruct HO as [Hi [Hj Hij]]. split; intros a b Ha Hb.
    + rewrite zsum_ext with (g := fun k => (ent U a k * ent V b k
         + (if (a =? i)%nat then x else 0) * (ent U j k * ent V b k)
         + (if (b =? j)%nat then - x else 0) * (ent U a k * ent V i k)
         + (if ((a =? i)%nat)%nat && ((b =? j)%nat)%nat then - x * x else 0) * (ent U j k * ent V i k))%Z).
      * rewrite !zsum_plus, !zsum_scal, !HP by auto. unfold delta.
        destruct (Nat.eqb_spec a i); destruct (Nat.eqb_spec b j); destruct (Nat.eqb_spec a b);
          destruct (Nat.eqb_spec j b); destruct (Nat.eqb_spec j i); cbn [andb]; try lia.
      * intros k Hk. rewrite H1, H2. destruct ((a =? i)%nat); destruct ((b =? j)%nat); cbn [andb]; ring.
    + rewrite zsum_ext with (g := fun k => (ent V k a * ent U k b
         + (if (k =? j)%nat then - x * ent V i a * ent U k b else 0)
         + (if (k =? i)%nat then x * ent V k a * ent U j b else 0))%Z).
      * rewrite !zsum_plus.
        rewrite (zsum_delta d j (fun k => - x * ent V i a * ent U k b)%Z) by auto.
        rewrite (zsum_delta d i (fun k => x * ent V k a * ent U j b)%Z) by auto.
        rewrite HQ by auto. ring.
      * intros k Hk. rewrite H1, H2. destruct (Nat.eqb_spec k i); destruct (Nat.eqb_spec k j); subst; try lia; ring.
  - destruct HO as [Hp Hq]. split; intros a b Ha Hb.
    + rewrite zsum_ext with (g := fun k => (ent U (p a) k * ent V (p b) k)%Z).
      * rewrite HP by (apply Hp; auto). unfold delta.
        destruct (Nat.eqb_spec (p a) (p b)); destruct (Nat.eqb_spec a b); subst; auto; try lia.
        exfalso. apply n. destruct (Hp a Ha) as [_ <-]. destruct (Hp b Hb) as [_ <-]. congruence.
      * intros k Hk. rewrite H1, H2 by lia. auto.
    + rewrite <- HQ by auto.
      rewrite zsum_ext with (g := fun k => (fun m => ent V m a * ent U m b)%Z (p k)).
      * apply (zsum_perm d p q (fun m => ent V m a * ent U m b)%Z); auto.
      * intros k Hk. rewrite H1, H2 by lia. auto.
  - exfalso. eapply Hn; reflexivity.
  - subst. split; auto.
Qed.

Lemma history_inverse l z :
  Inv z -> legal_run z l -> en_t z = true -> en_i z = true ->
  inverse_transposed (gd z) (gu z) (gui z) ->
  exists z', grun z l = Some z' /\ Inv z' /\ gd z' = gd z /\ inverse_transposed (gd z) (gu z') (gui z').
Proof.
  intros HI HL ET EI HP.
  destruct (history_ind (fun w => gd w = gd z /\ en_t w = true /\ en_i w = true /\ inverse_transposed (gd z) (gu w) (gui w))) with (l := l) (z := z)
    as [z' [E [I' [P1 [P2 [P3 P4]]]]]]; auto.
  - intros w w' o Iw [P1 [P2 [P3 P4]]] Lw Ew Iw' HS. destruct HS as [[e S]|[i [-> S]]].
    + destruct S as [_ [F [EO [EM [EN [EU [ED _]]]]]]]. destruct F as [_ [_ [F2 [F3 _]]]].
      split; [destruct EM; unfold gd in *; lia|]. split; [congruence|]. split; [congruence|].
      destruct (I_u _ Iw P2) as [cu [Du _]]. destruct (I_ui _ Iw P2 P3) as [cui [Dui _]].
      eapply eff_inverse with (e := e) (U := gu w) (V := gui w); eauto; try congruence.
    + destruct S as [_ [F [EO [EM [E1 E2]]]]]. destruct F as [_ [_ [F2 [F3 _]]]].
      split; [destruct EM; unfold gd in *; lia|]. split; [congruence|]. split; [congruence|].
      rewrite E1, E2. auto.
  - exists z'. auto.
Qed.

(** B = U B0 and V^T U = 1 give B0 = V^T B *)
Lemma product_inverse d n B U V B0 :
  length B = d -> length B0 = d -> is_product n B U B0 -> inverse_transposed d U V ->
  forall i j, i < d -> j < n -> ent B0 i j = zsum d (fun k => ent V k i * ent B k j)%Z.
Proof.
  intros LB LB0 HP [_ HQ] i j Hi Hj.
  rewrite zsum_ext with (g := fun k => zsum d (fun m => (ent V k i * (ent U k m * ent B0 m j))%Z)).
  - rewrite zsum_swap.
    rewrite zsum_ext with (g := fun m => if (m =? i)%nat then ent B0 m j else 0%Z).
    + rewrite (zsum_delta d i (fun m => ent B0 m j)) by auto. auto.
    + intros m Hm. rewrite zsum_ext with (g := fun k => ((ent V k i * ent U k m) * ent B0 m j)%Z).
      * rewrite zsum_scal_r. rewrite HQ by auto. unfold delta. rewrite Nat.eqb_sym. destruct ((m =? i)%nat); lia.
      * intros; ring.
  - intros k Hk. rewrite zsum_scal. rewrite HP by lia. rewrite LB0. auto.
Qed.

(** *** Gram matrix *)
Lemma get_int_gram_correct z i j : Inv z -> i < nkr z -> j <= i -> j < nsr z ->
  get_int_gram z i j = Some (inner (gc z) (nth i (gb z) []) (nth j (gb z) [])).
Proof.
  intros HI Hi Hj Hjs. pose proof HI as [I_b0 I_c0 I_known0 I_unl0 I_irs0 I_src0 I_tail0 I_kc0 I_g0 I_u0 I_ui0]. unfold get_int_gram. destruct (en_g z) eqn:EG.
  - destruct (I_g0 eq_refl) as [_ [D H]]. rewrite (mget_some 0%Z (gd z) (gd z)) by (auto; lia).
    f_equal. rewrite <- H by lia. unfold sgent. destruct (Nat.leb_spec j i); [auto|lia].
  - rewrite (nth_error_nth' (gb z) []) by (destruct I_b0; lia). simpl.
    rewrite (nth_error_nth' (gb z) []) by (destruct I_b0; lia). simpl.
    rewrite nv_dot_product_spec.
    + f_equal. unfold inner. symmetry. apply zsum_trunc; [lia|]. intros k Hk.
      pose proof (I_src0 j k Hjs (proj1 Hk)) as X. unfold ent in X. rewrite X. lia.
    + apply I_kc0. lia.
    + destruct I_b0 as [_ X]. rewrite X by lia. lia.
    + destruct I_b0 as [_ X]. rewrite X by lia. lia.
Qed.

(** *** Row operations are the full-width operations *)
Definition addmul_row (x : Z) (v w : list Z) : list Z := map (fun p => fst p + x * snd p)%Z (combine v w).

Lemma nth_addmul_row x v w k : length v = length w -> nth k (addmul_row x v w) 0%Z = (nth k v 0 + x * nth k w 0)%Z.
Proof.
  intros H. unfold addmul_row. destruct (Nat.lt_ge_cases k (length v)).
  - rewrite map_nth_lt with (d := (0%Z, 0%Z)) by (rewrite combine_length; lia).
    rewrite combine_nth by auto. auto.
  - rewrite !nth_overflow; auto; try lia. rewrite map_length, combine_length. lia.
Qed.

Lemma effect_full_width z z' i j x : Inv z -> step_ok z z' (EAdd i j x) ->
  gb z' = upd (gb z) i (addmul_row x (nth i (gb z) []) (nth j (gb z) [])).
Proof.
  intros HI [HI' [F [[Hi [Hj Hij]] [[HL HE] _]]]].
  destruct (I_b _ HI) as [LB RB]. destruct (I_b _ HI') as [LB' RB'].
  destruct F as [Fc _].
  assert (Hd : gd z' = gd z) by (unfold gd; auto).
  assert (LA : length (addmul_row x (nth i (gb z) []) (nth j (gb z) [])) = gc z).
  { unfold addmul_row. rewrite map_length, combine_length, !RB by auto. lia. }
  apply (mat_ext (gc z)).
  - rewrite upd_length. auto.
  - intros k Hk. rewrite RB' by (unfold gd; lia). auto.
  - apply rect_upd; auto.
  - intros a c Ha Hc. rewrite HE. rewrite ent_upd by lia.
    destruct (Nat.eqb_spec a i).
    + subst. rewrite nth_addmul_row by (rewrite !RB; auto). auto.
    + lia.
Qed.

(** The operation each method documents: row i += (x * 2^e) * row j. *)
Definition documented_rowop (fl : bool) (o : gop) : option (nat * nat * Z) :=
  match o with
  | ORowAdd i j => Some (i, j, 1%Z)
  | ORowSub i j => Some (i, j, (-1)%Z)
  | OAddmulSi i j x => Some (i, j, x)
  | OAddmulSi2 i j x e => Some (i, j, (x * 2 ^ Z.of_nat e)%Z)
  | OAddmul2 i j x e => Some (i, j, (x * 2 ^ Z.of_nat e)%Z)
  | OAddmulWe i j lx e zx e2 =>
      Some (i, j, if e =? 0 then lx else if fl then (lx * 2 ^ Z.of_nat e)%Z else (zx * 2 ^ Z.of_nat e2)%Z)
  | _ => None
  end.


Lemma history_lattice_fl l z : Inv z -> legal_run z l ->
  exists z', grun z l = Some z' /\ Inv z' /\ force_long z' = force_long z.
Proof.
  intros HI HL.
  destruct (history_ind (fun w => force_long w = force_long z)) with (l := l) (z := z)
    as [z' [E [I' P1]]]; auto.
  - intros w w' o Iw P1 Lw Ew Iw' HS. destruct HS as [[e S]|[i [-> S]]].
    + destruct S as [_ [[_ [_ [_ [_ F]]]] _]]. congruence.
    + destruct S as [_ [[_ [_ [_ [_ F]]]] _]]. congruence.
  - exists z'. auto.
Qed.

Lemma rowop_effect z o i j x : Inv z -> documented_rowop (force_long z) o = Some (i, j, x) -> legal z o ->
  exists z', gstep z o = Some z' /\ (step_ok z z' (EAdd i j x) \/ (x = 0%Z /\ z' = z)).
Proof.
  intros HI HO HL. destruct o; simpl in HO; try discriminate; injection HO as <- <- <-; simpl in HL.
  - destruct (row_add_ok z _ _ HI HL) as [z' [E S]]; eauto.
  - destruct (row_sub_ok z _ _ HI HL) as [z' [E S]]; eauto.
  - destruct (row_addmul_si_ok z _ _ x0 HI HL) as [z' [E S]]; eauto.
  - destruct (row_addmul_si_2exp_ok z _ _ x0 e HI HL) as [z' [E S]]; eauto.
  - destruct (row_addmul_2exp_ok z _ _ x0 e HI HL) as [z' [E S]]; eauto.
  - simpl. unfold row_addmul_we. destruct (e =? 0).
    + destruct (Z.eqb_spec lx 1). { subst. destruct (row_add_ok z _ _ HI HL) as [z' [E S]]; eauto. }
      destruct (Z.eqb_spec lx (-1)). { subst. destruct (row_sub_ok z _ _ HI HL) as [z' [E S]]; eauto. }
      destruct (Z.eqb_spec lx 0); simpl; eauto.
      destruct (row_addmul_si_ok z _ _ lx HI HL) as [z' [E S]]; eauto.
    + destruct (force_long z).
      * destruct (row_addmul_si_2exp_ok z _ _ lx e HI HL) as [z' [E S]]; eauto.
      * destruct (row_addmul_2exp_ok z _ _ zx e2 HI HL) as [z' [E S]]; eauto.
Qed.

Lemma rowop_exact fl z o i j x : Inv z -> force_long z = fl ->
  documented_rowop fl o = Some (i, j, x) -> legal z o ->
  exists z', gstep z o = Some z' /\ gb z' = upd (gb z) i (addmul_row x (nth i (gb z) []) (nth j (gb z) [])).
Proof.
  intros HI <- HO HL. destruct (rowop_effect z o i j x HI HO HL) as [z' [E [S|[Hx Hz]]]].
  - exists z'. split; auto. apply effect_full_width; auto.
  - subst x z'. exists z. split; auto. destruct (I_b _ HI) as [LB RB].
    assert (i < gd z /\ j < gd z) as [Hi Hj].
    { pose proof (I_known _ HI). destruct o; simpl in HO; try discriminate; injection HO as <- <- _; destruct HL as [? [? ?]]; lia. }
    apply (mat_ext (gc z)).
    + rewrite upd_length. auto.
    + intros k Hk. apply RB. auto.
    + apply rect_upd. { intros k Hk. apply RB. auto. }
      unfold addmul_row. rewrite map_length, combine_length, !RB by auto. lia.
    + intros a c Ha Hc. rewrite ent_upd by (unfold gd in *; lia). destruct (Nat.eqb_spec a i); auto. subst.
      rewrite nth_addmul_row by (rewrite !RB; auto). unfold ent. lia.
Qed.
