(** Theorems about create_rows / remove_last_rows of MatGSO (property C07). *)
From Coq Require Import List ZArith Lia Arith Bool.
From Verif Require Import Util LatticeSpec NumVectModel NumVectProofs MatrixModel MatrixProofs
  GsoModel GsoProofs GsoFModel GsoFSpec GsoFProofs GramModel GsoRowsModel GsoRowsProofs QcUtil GsoQ.
Import ListNotations.
Local Open Scope nat_scope.

Lemma nth_firstn_lt {A} (d : A) n : forall l i, i < n -> nth i (firstn n l) d = nth i l d.
Proof. induction n; intros l i Hi; [lia|]. destruct l; auto. destruct i; simpl; auto. apply IHn. lia. Qed.

Section T.
Variable fo : fops.
Variable en_e : bool.
Variable junk : F fo.

(** Whatever the object went through before (in particular rows removed and
    re-created: nothing is assumed about the contents of the spare storage),
    appended rows are zero rows of b, zero rows of u, they are known, and their
    exact inner products with all rows are zero. *)
Theorem gso_created_rows_are_zero :
  forall (x : gr fo) n,
    rwf fo x -> nkr (rz x) = gd (rz x) ->
    (en_t (rz x) = true -> length (gu (rz x)) = gd (rz x)) ->
    exists x',
      create_rows fo en_e junk x n = Some x' /\ rwf fo x' /\
      gd (rz x') = gd (rz x) + n /\ nkr (rz x') = gd (rz x) + n /\
      (forall i, i < gd (rz x) -> nth i (gb (rz x')) [] = nth i (gb (rz x)) []) /\
      (forall i, gd (rz x) <= i < gd (rz x) + n ->
         nth i (gb (rz x')) [] = repeat 0%Z (gc (rz x)) /\
         (en_t (rz x) = true -> nth i (gu (rz x')) [] = repeat 0%Z (rucols x)) /\
         forall j, j <= i -> get_int_gram (rz x') i j = Some 0%Z).
Proof.
  intros x n HW Hk Hu. pose proof HW as [HW1 HP HM HK HL]. pose proof HW1 as [].
  unfold create_rows. cbv zeta.
  set (B := gb (rz x) ++ repeat (repeat 0%Z (gc (rz x))) n).
  set (z2 := if en_t (rz x) then set_u (set_b (rz x) B) (gu (rz x) ++ repeat (repeat 0%Z (rucols x)) n) else set_b (rz x) B).
  assert (Z2 : gb z2 = B /\ gc z2 = gc (rz x) /\ en_g z2 = en_g (rz x) /\ en_t z2 = en_t (rz x) /\ nkr z2 = nkr (rz x)
     /\ nkc z2 = nkc (rz x) /\ locked z2 = false /\ irs z2 = irs (rz x) /\ gg z2 = gg (rz x) /\
     gu z2 = if en_t (rz x) then gu (rz x) ++ repeat (repeat 0%Z (rucols x)) n else gu (rz x)).
  { subst z2. destruct (en_t (rz x)) eqn:ET; cbn; rewrite ?ET; auto 20. }
  destruct Z2 as [Z2b [Z2c [Z2g [Z2t [Z2k [Z2kc [Z2l [Z2i [Z2gg Z2u]]]]]]]]].
  assert (LB : length B = gd (rz x) + n). { subst B. rewrite app_length, repeat_length. auto. }
  assert (RB : rect (gc (rz x)) B).
  { intros i Hi. subst B. destruct (Nat.lt_ge_cases i (length (gb (rz x)))).
    - rewrite app_nth1 by auto. apply W_b; auto.
    - rewrite app_nth2 by auto. rewrite app_length, repeat_length in Hi.
      rewrite nth_indep with (d' := repeat 0%Z (gc (rz x))) by (rewrite repeat_length; lia).
      rewrite nth_repeat. apply repeat_length. }
  assert (G2 : gd z2 = gd (rz x) + n) by (unfold gd at 1; congruence).
  unfold size_increased. cbn [rs]. rewrite HM.
  set (y := mkgr z2 (rs x) (ralloc x) (rucols x)).
  destruct (realloc_ok fo junk y) as [RW [RA [Rb [Rc [Ru [Rg [Rt [Rl [Rk [Rkc [Ri Rmu]]]]]]]]]]].
  { destruct (Nat.le_gt_cases (gd z2) (ralloc x)).
    - left. subst y. constructor; cbn [rz rs ralloc]; rewrite ?Z2b, ?Z2c, ?Z2g, ?Z2i, ?Z2kc, ?Z2gg; auto.
    - right. split; [exact H|]. exists (gb (rz x)). split; [|subst y; cbn [rz]; rewrite Z2b, Z2c; auto].
      subst y. constructor; cbn [rz rs ralloc set_b gb gc en_g irs nkc gg]; rewrite ?Z2b, ?Z2c, ?Z2g, ?Z2i, ?Z2kc, ?Z2gg; auto. }
  set (x1 := realloc fo junk y) in *.
  assert (Gx1 : gd (rz x1) = gd (rz x) + n). { unfold gd at 1. rewrite Rb. subst y. cbn [rz]. rewrite Z2b. auto. }
  destruct (ofor_inv (fun k w => rwf_ fo w (ralloc x1) /\ ralloc w = ralloc x1 /\
      gb (rz w) = B /\ gc (rz w) = gc (rz x) /\ gu (rz w) = gu z2 /\ en_g (rz w) = en_g (rz x) /\ en_t (rz w) = en_t (rz x) /\
      locked (rz w) = false /\ nkr (rz w) = nkr (rz x) /\ nkc (rz w) = nkc (rz x) /\ length (fmu (rs w)) = ralloc x1 /\
      forall i, i < k -> 1 <= nth i (irs (rz w)) 0)
     (init_row fo en_e) (gd (rz x1) - ralloc x) (ralloc x) x1) as [x2 [E2 [W2 [A2 [Sb [Sc [Su [Sg [St [Sl [Sk [Skc [Sm Sp]]]]]]]]]]]]].
  { split; auto. split; auto. rewrite Rb, Rc, Ru, Rg, Rt, Rl, Rk, Rkc. subst y; cbn [rz rs ralloc] in *.
    repeat (split; [congruence|]). split; [apply Rmu; auto|].
    intros i Hi. rewrite Ri by auto. rewrite Z2i. apply HP; auto. }
  { intros k w Hk' [Ww [Aw [Wb [Wc [Wu [Wg [Wt [Wl [Wk [Wkc [Wm Wp]]]]]]]]]]].
    assert (gd (rz w) = gd (rz x1)) as Gw by (unfold gd at 1; rewrite Wb; lia).
    destruct (init_row_ok fo en_e k w (ralloc x1) Ww) as [w' [Ew [Ww' [Aw' [Q1 [Q2 [Q3 [Q4 [Q5 [Q6 [Q7 [Q8 [Q9 Q10]]]]]]]]]]]]]; [lia|].
    exists w'. split; auto. split; auto. repeat (split; [congruence|]).
    intros i Hi. rewrite Q10. destruct (Nat.eqb_spec i k); [lia|]. apply Wp. lia. }
  rewrite E2. cbn [obind]. rewrite Sk, Hk, Nat.eqb_refl.
  assert (Gx2 : gd (rz x2) = gd (rz x) + n) by (unfold gd at 1; congruence).
  assert (RW2 : rwf fo x2).
  { constructor; rewrite ?A2; auto.
    - intros i Hi. apply Sp. subst y; cbn [rz ralloc] in *. rewrite RA in Hi. rewrite G2 in Hi. lia.
    - rewrite Sk, Skc. auto. }
  assert (BZ : forall i k, gd (rz x) <= i -> ent B i k = 0%Z).
  { intros i k Hi. subst B. unfold ent. rewrite app_nth2 by (unfold gd in Hi; lia).
    destruct (Nat.lt_ge_cases (i - length (gb (rz x))) n).
    - rewrite nth_indep with (d' := repeat 0%Z (gc (rz x))) by (rewrite repeat_length; lia).
      rewrite !nth_repeat. auto.
    - rewrite nth_overflow with (n := i - length (gb (rz x))) by (rewrite repeat_length; lia). destruct k; auto. }
  destruct (discover_all_zero fo n x2) as [x' [E' [W' [A' [C1 [C2 [C3 [C4 [C5 [C6 C7]]]]]]]]]]; auto; try lia.
  { intros i k Hi. rewrite Sb. apply BZ. lia. }
  exists x'. split; auto. split; auto.
  assert (GX : gd (rz x') = gd (rz x) + n) by (unfold gd at 1; congruence).
  split; auto. split; [congruence|]. split.
  - intros i Hi. rewrite C1, Sb. subst B. rewrite app_nth1; auto.
  - intros i Hi. split; [|split].
    + rewrite C1, Sb. subst B. rewrite app_nth2 by (unfold gd in Hi; lia).
      rewrite nth_indep with (d' := repeat 0%Z (gc (rz x))) by (rewrite repeat_length; unfold gd in Hi; lia).
      apply nth_repeat.
    + intros Ht. rewrite C3, Su, Z2u, Ht. rewrite app_nth2 by (rewrite Hu by auto; lia). rewrite Hu by auto.
      rewrite nth_indep with (d' := repeat 0%Z (rucols x)) by (rewrite repeat_length; lia). apply nth_repeat.
    + intros j Hj. unfold get_int_gram. rewrite C4. destruct (en_g (rz x2)) eqn:EG.
      * rewrite (mget_some 0%Z (ralloc x') (ralloc x')).
        -- f_equal. rewrite C7 by (auto; lia). destruct (Nat.leb_spec (nkr (rz x2)) i); auto. lia.
        -- apply (GsoRowsProofs.W_g _ _ _ (R_w _ _ W')). congruence.
        -- pose proof (GsoRowsProofs.W_al _ _ _ (R_w _ _ W')). lia.
        -- pose proof (GsoRowsProofs.W_al _ _ _ (R_w _ _ W')). lia.
      * pose proof (GsoRowsProofs.W_b _ _ _ (R_w _ _ W')) as RB'. pose proof (R_kc _ _ W') as Kc'.
        pose proof (GsoRowsProofs.W_kc _ _ _ (R_w _ _ W')) as Kc2.
        rewrite (nth_error_nth' (gb (rz x')) []) by (unfold gd in *; lia). cbn [obind].
        rewrite (nth_error_nth' (gb (rz x')) []) by (unfold gd in *; lia). cbn [obind].
        rewrite nv_dot_product_spec; [|lia|rewrite RB' by (unfold gd in *; lia); lia|rewrite RB' by (unfold gd in *; lia); lia].
        f_equal. unfold inner. apply zsum_0. intros t Ht.
        assert (ent (gb (rz x')) i t = 0%Z) as X by (rewrite C1, Sb; apply BZ; lia).
        unfold ent in X. rewrite X. ring.
Qed.

(** remove_last_rows keeps the hypotheses of the theorem *)
Theorem gso_remove_keeps_storage :
  forall (x : gr fo) n, rwf fo x -> nkr (rz x) = gd (rz x) ->
    let x' := remove_last_rows fo x n in
    rwf fo x' /\ gd (rz x') = gd (rz x) - n /\ nkr (rz x') = gd (rz x') /\
    gb (rz x') = firstn (gd (rz x) - n) (gb (rz x)).
Proof.
  intros x n [HW HP HM HK HL] Hk. cbv zeta. destruct HW.
  assert (E : gb (rz (remove_last_rows fo x n)) = firstn (gd (rz x) - n) (gb (rz x))).
  { unfold remove_last_rows. cbn [rz]. destruct (en_t (rz x)); reflexivity. }
  assert (G : gd (rz (remove_last_rows fo x n)) = gd (rz x) - n).
  { unfold gd at 1. rewrite E, firstn_length. unfold gd. lia. }
  split; [|split; [auto|split; [|auto]]].
  - constructor.
    + constructor; try rewrite E; try rewrite G; unfold remove_last_rows; cbn [rz rs ralloc]; destruct (en_t (rz x)); cbn; auto; try lia.
      * intros i Hi. rewrite firstn_length in Hi. rewrite nth_firstn_lt by lia. apply W_b. lia.
      * intros i Hi. rewrite firstn_length in Hi. rewrite nth_firstn_lt by lia. apply W_b. lia.
    + unfold remove_last_rows; cbn [rz rs ralloc]; destruct (en_t (rz x)); cbn; auto.
    + unfold remove_last_rows; cbn [rz rs ralloc]; auto.
    + unfold remove_last_rows; cbn [rz rs ralloc]; destruct (en_t (rz x)); cbn; intros; apply HK; lia.
    + unfold remove_last_rows; cbn [rz rs ralloc]; destruct (en_t (rz x)); cbn; auto.
  - rewrite G. unfold remove_last_rows; cbn [rz rs ralloc]; destruct (en_t (rz x)); cbn; lia.
Qed.
End T.
Print Assumptions gso_created_rows_are_zero.
Print Assumptions gso_remove_keeps_storage.

(** A concrete object satisfying the hypotheses: three rows, all discovered, one
    removed (so spare, non-zero storage lies behind the two remaining rows). *)
Definition rows_b : list (list Z) := [[1;2;0];[0;3;1];[5;0;7]]%Z.
Definition rows_script (ig : bool) : option (gr qc_ops) :=
  x <- gr_new qc_ops false (Qcz 0) rows_b 3 (ident 3) [] 3 ig false;;
  x1 <- discover_all qc_ops 3 x;;
  Some (remove_last_rows qc_ops x1 1).

Section B.
Variable fo : fops.
Definition dimsb {A} (R C : nat) (M : list (list A)) : bool :=
  (length M =? R) && forallb (fun r => length r =? C) M.
Lemma dimsb_ok {A} R C (M : list (list A)) : dimsb R C M = true -> dims R C M.
Proof.
  unfold dimsb. intros H. apply andb_prop in H. destruct H as [H1 H2]. apply Nat.eqb_eq in H1.
  rewrite forallb_forall in H2. split; auto. intros i Hi. apply Nat.eqb_eq, H2, nth_In. lia.
Qed.
Definition rwfb (x : gr fo) : bool :=
  let z := rz x in let al := ralloc x in
  (1 <=? gc z) && forallb (fun r => length r =? gc z) (gb z) && (gd z <=? al) &&
  (length (irs z) =? al) && forallb (fun v => (v <=? gc z) && (1 <=? v)) (irs z) && (nkc z <=? gc z) &&
  (if en_g z then dimsb al al (gg z) else dimsb al al (fgf (rs x)) && dimsb al (gc z) (fbf (rs x))) &&
  (length (fre (rs x)) =? al) && (length (fvc (rs x)) =? al) && (length (fmu (rs x)) =? al) &&
  ((nkr z =? 0) || (1 <=? nkc z)) && negb (locked z).
Lemma rwfb_ok x : rwfb x = true -> rwf fo x.
Proof.
  unfold rwfb. cbv zeta. intros H. repeat (apply andb_prop in H; destruct H as [H ?]).
  rewrite forallb_forall in *. repeat match goal with
    | H : (_ <=? _) = true |- _ => apply Nat.leb_le in H
    | H : (_ =? _) = true |- _ => apply Nat.eqb_eq in H end.
  assert (HI : forall i, i < ralloc x -> nth i (irs (rz x)) 0 <= gc (rz x) /\ 1 <= nth i (irs (rz x)) 0).
  { intros i Hi. specialize (H7 (nth i (irs (rz x)) 0)). rewrite andb_true_iff, !Nat.leb_le in H7.
    apply H7. apply nth_In. lia. }
  constructor; auto.
  - constructor; auto.
    + intros i Hi. apply Nat.eqb_eq. apply H10. apply nth_In; auto.
    + split; auto. intros i Hi. apply HI; auto.
    + intros E. rewrite E in *. apply dimsb_ok; auto.
    + intros E. rewrite E in *. apply andb_prop in H5. destruct H5. split; apply dimsb_ok; auto.
  - intros i Hi. apply HI; auto.
  - intros Hk. apply orb_prop in H1. destruct H1 as [H1|H1]; [apply Nat.eqb_eq in H1; lia|apply Nat.leb_le in H1; auto].
  - apply negb_true_iff; auto.
Qed.
End B.

Example rows_hyps : forall ig, exists x, rows_script ig = Some x /\ rwf qc_ops x /\
  nkr (rz x) = gd (rz x) /\ length (gu (rz x)) = gd (rz x) /\ gd (rz x) = 2 /\ ralloc x = 3.
Proof.
  intros ig.
  assert (H : match rows_script ig with Some x => rwfb qc_ops x && (nkr (rz x) =? 2) && (gd (rz x) =? 2)
     && (length (gu (rz x)) =? 2) && (ralloc x =? 3) | None => false end = true)
    by (destruct ig; vm_compute; reflexivity).
  destruct (rows_script ig) as [x|]; [|discriminate]. exists x. split; auto.
  do 4 (apply andb_prop in H; destruct H as [H ?]).
  repeat match goal with H : (_ =? _) = true |- _ => apply Nat.eqb_eq in H end.
  split; [apply rwfb_ok; auto|]. repeat split; congruence.
Qed.

(** The floating-point view is not restored: without integer Gram matrix, after
    discover_all_rows, remove_last_rows(1), create_rows(1) the object reports a
    non-zero squared length get_gram(2,2) for the new (zero) row, even with
    exact arithmetic. *)
Theorem gso_create_rows_float_gram_refuted :
  exists b x1 x2 v s,
    (x <- gr_new qc_ops false (Qcz 0) b 3 [] [] 0 false false;; discover_all qc_ops 3 x) = Some x1 /\
    create_rows qc_ops false (Qcz 0) (remove_last_rows qc_ops x1 1) 1 = Some x2 /\
    nkr (rz x2) = 3 /\
    nth 2 (gb (rz x2)) [] = [0;0;0]%Z /\
    get_int_gram (rz x2) 2 2 = Some 0%Z /\
    get_gram qc_ops (rz x2) (rs x2) 2 2 = Some (v, s) /\ v <> Qcz 0.
Proof.
  exists rows_b.
  set (chk := match (x <- gr_new qc_ops false (Qcz 0) rows_b 3 [] [] 0 false false;; discover_all qc_ops 3 x) with
    | Some x1 => match create_rows qc_ops false (Qcz 0) (remove_last_rows qc_ops x1 1) 1 with
      | Some x2 => match get_gram qc_ops (rz x2) (rs x2) 2 2 with
         | Some (v, _) => (nkr (rz x2) =? 3) &&
             (if list_eq_dec Z.eq_dec (nth 2 (gb (rz x2)) []) [0;0;0]%Z then true else false) &&
             match get_int_gram (rz x2) 2 2 with Some t => (t =? 0)%Z | None => false end &&
             negb (if Qcanon.Qc_eq_dec v (Qcz 0) then true else false)
         | None => false end
      | None => false end
    | None => false end).
  assert (H : chk = true) by (vm_compute; reflexivity). subst chk.
  destruct (x <- gr_new qc_ops false (Qcz 0) rows_b 3 [] [] 0 false false;; discover_all qc_ops 3 x) as [x1|] eqn:E1; [|discriminate].
  destruct (create_rows qc_ops false (Qcz 0) (remove_last_rows qc_ops x1 1) 1) as [x2|] eqn:E2; [|discriminate].
  destruct (get_gram qc_ops (rz x2) (rs x2) 2 2) as [[v s]|] eqn:E3; [|discriminate].
  exists x1, x2, v, s. repeat (apply andb_prop in H; destruct H as [H ?]).
  split; auto. split; auto. split; [now apply Nat.eqb_eq|]. split; [|split; [|split; auto]].
  - destruct (list_eq_dec Z.eq_dec (nth 2 (gb (rz x2)) []) [0;0;0]%Z); auto; discriminate.
  - destruct (get_int_gram (rz x2) 2 2) as [t|]; [|discriminate]. f_equal. now apply Z.eqb_eq.
  - destruct (Qcanon.Qc_eq_dec v (Qcz 0)); [discriminate|auto].
Qed.
Print Assumptions gso_create_rows_float_gram_refuted.
