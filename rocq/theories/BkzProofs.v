(** Proofs about the BKZ insertion and rerandomisation model. *)
From Coq Require Import List ZArith Lia Arith Bool Znumtheory.
From Verif Require Import Util NumVectModel MatrixModel NumVectProofs MatrixProofs LatticeSpec GsoModel GsoProofs GsoHistory RotateSpec BkzModel.
Import ListNotations.
Local Open Scope nat_scope.

(** ** Effect of an operation on one column, indexed by rows *)
(** row that ends up at position k when row o is moved to position n *)
Definition mv (o n k : nat) : nat :=
  if k =? n then o else let k' := if k <? n then k else k - 1 in if k' <? o then k' else S k'.

Definition act (o : gop) (f : nat -> Z) : nat -> Z :=
  match o with
  | ORowAdd i j => xset f i (f i + f j)
  | ORowSub i j => xset f i (f i - f j)
  | OAddmulWe i j lx _ _ _ => xset f i (f i + lx * f j)
  | OSwap i j => fun a => f (tr i j a)
  | OMove a b => fun k => f (mv a b k)
  | ONegate i => xset f i (- f i)
  | _ => f
  end%Z.
Definition act_run (l : list gop) (f : nat -> Z) : nat -> Z := fold_left (fun g o => act o g) l f.

Lemma act_run_app l1 l2 f : act_run (l1 ++ l2) f = act_run l2 (act_run l1 f).
Proof. apply fold_left_app. Qed.
Lemma act_run_cons o l f : act_run (o :: l) f = act_run l (act o f).
Proof. reflexivity. Qed.

(** operations that touch rows lo..hi-1 only and satisfy the documented conditions *)
Definition inb (lo hi : nat) (o : gop) : Prop :=
  match o with
  | ORowAdd i j | ORowSub i j => lo <= i < hi /\ lo <= j < hi /\ i <> j
  | OAddmulWe i j _ e _ _ => lo <= i < hi /\ lo <= j < hi /\ i <> j /\ e = 0
  | OSwap i j => lo <= i /\ i < j /\ j < hi
  | OMove a b => lo <= a < hi /\ lo <= b < hi
  | ONegate i => lo <= i < hi
  | _ => False
  end.
Definition is_swap (o : gop) : bool := match o with OSwap _ _ => true | _ => false end.

Lemma mv_out lo hi a b k : lo <= a < hi -> lo <= b < hi -> (k < lo \/ hi <= k) -> mv a b k = k.
Proof.
  intros. unfold mv. destruct (Nat.eqb_spec k b); [lia|]. cbv zeta.
  destruct (Nat.ltb_spec k b); destruct (Nat.ltb_spec k a); try lia;
  destruct (Nat.ltb_spec (k - 1) a); lia.
Qed.
Lemma mv_in lo hi a b k : lo <= a < hi -> lo <= b < hi -> lo <= k < hi -> lo <= mv a b k < hi.
Proof.
  intros. unfold mv. destruct (Nat.eqb_spec k b); [lia|]. cbv zeta.
  destruct (Nat.ltb_spec k b).
  - destruct (Nat.ltb_spec k a); lia.
  - destruct (Nat.ltb_spec (k - 1) a); lia.
Qed.
Lemma tr_in lo hi i j k : lo <= i < hi -> lo <= j < hi -> lo <= k < hi -> lo <= tr i j k < hi.
Proof. intros. unfold tr. destruct (k =? i); auto. destruct (k =? j); auto. Qed.

Lemma act_out lo hi o f p : inb lo hi o -> p < lo \/ hi <= p -> act o f p = f p.
Proof.
  intros HO Hp. destruct o; simpl in *; try tauto; unfold xset;
    try (destruct (Nat.eqb_spec p i); [lia|reflexivity]).
  - unfold tr. destruct (Nat.eqb_spec p i); [lia|]. destruct (Nat.eqb_spec p j); [lia|]. auto.
  - f_equal. apply (mv_out lo hi); tauto.
Qed.
Lemma act_run_out lo hi l : Forall (inb lo hi) l -> forall f p, p < lo \/ hi <= p -> act_run l f p = f p.
Proof.
  induction 1; intros f p Hp; auto. rewrite act_run_cons, IHForall by auto. eapply act_out; eauto.
Qed.
Lemma act_ext D lo hi o f g : inb lo hi o -> hi <= D -> (forall a, a < D -> f a = g a) ->
  forall a, a < D -> act o f a = act o g a.
Proof.
  intros HO HD HE a Ha. destruct o; simpl in *; try tauto; unfold xset;
    try (destruct (a =? i); rewrite ?(HE i), ?(HE j), ?(HE a) by lia; reflexivity).
  - apply HE. unfold tr. destruct (a =? i); [lia|]. destruct (a =? j); lia.
  - apply HE. destruct (Nat.lt_ge_cases a lo); [rewrite (mv_out lo hi); try tauto; lia|].
    destruct (Nat.lt_ge_cases a hi); [|rewrite (mv_out lo hi); try tauto; lia].
    pose proof (mv_in lo hi old_r new_r a). lia.
Qed.
Lemma act_run_ext D lo hi l : Forall (inb lo hi) l -> hi <= D -> forall f g, (forall a, a < D -> f a = g a) ->
  forall a, a < D -> act_run l f a = act_run l g a.
Proof.
  induction 1; intros HD f g HE a Ha; auto. rewrite !act_run_cons. apply IHForall; auto.
  intros. eapply act_ext; eauto.
Qed.

(** linearity *)
Lemma act_zsum n o (F : nat -> nat -> Z) w : forall a,
  act o (fun a => zsum n (fun k => F k a * w k)%Z) a = zsum n (fun k => act o (F k) a * w k)%Z.
Proof.
  intros a. destruct o; simpl; auto; unfold xset; destruct (a =? i); auto.
  - rewrite <- zsum_plus. apply zsum_ext. intros; ring.
  - rewrite <- zsum_minus. apply zsum_ext. intros; ring.
  - rewrite <- zsum_scal, <- zsum_plus. apply zsum_ext. intros; ring.
  - rewrite <- (Z.mul_1_l (zsum _ _)), <- Z.mul_opp_l, <- zsum_scal. apply zsum_ext. intros; ring.
Qed.
Lemma act_run_zsum D lo hi n l : Forall (inb lo hi) l -> hi <= D -> forall (F : nat -> nat -> Z) w a, a < D ->
  act_run l (fun a => zsum n (fun k => F k a * w k)%Z) a = zsum n (fun k => act_run l (F k) a * w k)%Z.
Proof.
  induction 1; intros HD F w a Ha; auto. rewrite act_run_cons.
  rewrite (act_run_ext D lo hi l H0 HD _ (fun a => zsum n (fun k => act x (F k) a * w k)%Z)); auto.
  - rewrite IHForall; auto.
  - intros. apply act_zsum.
Qed.

(** ** The GSO object follows [act] *)
Lemma transform_known z i j x nx z' : transform_addmul z i j x nx = Some z' -> nkr z' = nkr z /\ locked z' = locked z.
Proof.
  unfold transform_addmul. intros H.
  repeat match type of H with
  | obind ?e _ = Some _ => destruct e; simpl in H; [|discriminate]
  | (if ?c then _ else _) = Some _ => destruct c
  end; injection H as <-; auto.
Qed.
Ltac known_tac H :=
  repeat match type of H with
  | obind (transform_addmul _ _ _ _ _) _ = Some _ => let E := fresh "ET" in
      destruct (transform_addmul _ _ _ _ _) eqn:E; simpl in H; [apply transform_known in E; simpl in E|discriminate]
  | obind ?e _ = Some _ => destruct e eqn:?; simpl in H; [|discriminate]
  | (if ?c then _ else _) = Some _ => destruct c eqn:?
  end; try discriminate; injection H as <-; simpl; auto.
Lemma row_add_known z i j z' : row_add z i j = Some z' -> nkr z' = nkr z /\ locked z' = locked z.
Proof. unfold row_add. intros H. known_tac H. Qed.
Lemma row_sub_known z i j z' : row_sub z i j = Some z' -> nkr z' = nkr z /\ locked z' = locked z.
Proof. unfold row_sub. intros H. known_tac H. Qed.
Lemma row_addmul_si_known z i j x z' : row_addmul_si z i j x = Some z' -> nkr z' = nkr z /\ locked z' = locked z.
Proof. unfold row_addmul_si. intros H. known_tac H. Qed.
Lemma negate_known z i z' : negate_row_of_b z i = Some z' -> nkr z' = nkr z /\ locked z' = locked z.
Proof. unfold negate_row_of_b. intros H. known_tac H. Qed.
Lemma if_trans_known (z z1 : gz) (o : option gz) z' :
  (if en_t z then o else Some z1) = Some z' -> (forall w, o = Some w -> nkr w = nkr z1 /\ locked w = locked z1) ->
  nkr z' = nkr z1 /\ locked z' = locked z1.
Proof. destruct (en_t z); intros H HO; auto. injection H as <-; auto. Qed.
Lemma row_swap_known z i j z' : row_swap z i j = Some z' -> nkr z' = nkr z /\ locked z' = locked z.
Proof.
  unfold row_swap. intros H. destruct (oswap (gb z) i j); simpl in H; [|discriminate].
  match type of H with obind ?e _ = _ => destruct e eqn:E; simpl in H; [|discriminate] end.
  apply if_trans_known in E.
  2:{ intros w W. destruct (oswap (gu z) i j); simpl in W; [injection W as <-; auto|discriminate]. }
  simpl in E. known_tac H.
Qed.
Lemma move_row_known z a b z' : a < nkr z -> b < nkr z -> move_row z a b = Some z' -> nkr z' = nkr z /\ locked z' = locked z.
Proof.
  intros Ha Hb. unfold move_row. intros H.
  destruct (b <? a).
  - destruct (rotate_right_by_swap (gb z) b a); simpl in H; [|discriminate].
    match type of H with obind ?e _ = _ => destruct e eqn:E; simpl in H; [|discriminate] end.
    apply if_trans_known in E; [simpl in E; known_tac H|].
    intros w W. known_tac W.
  - destruct (a <? b); [|injection H as <-; auto].
    destruct (rotate_left_by_swap (gb z) a b); simpl in H; [|discriminate].
    match type of H with obind ?e _ = _ => destruct e eqn:E; simpl in H; [|discriminate] end.
    apply if_trans_known in E.
    2:{ intros w W. known_tac W. }
    match type of H with obind ?e _ = _ => destruct e eqn:E2; simpl in H; [|discriminate] end.
    simpl in E. replace (nkr z <=? b) with false in H by (symmetry; apply Nat.leb_gt; lia).
    injection H as <-. known_tac E2.
Qed.

Lemma block_step z o lo hi : Inv z -> locked z = false -> hi <= nkr z -> inb lo hi o ->
  (is_swap o = true -> en_i z = false) ->
  legal z o /\ exists z', gstep z o = Some z' /\ Inv z' /\ nkr z' = nkr z /\ locked z' = false /\
    flags_eq z z' /\ gd z' = gd z /\
    forall a k, a < gd z -> ent (gb z') a k = act o (fun a => ent (gb z) a k) a.
Proof.
  intros HI HL Hhi HO HS. pose proof (I_known _ HI) as HK. pose proof (I_unl _ HI HL) as HU.
  assert (GD : forall z', Inv z' -> length (gb z') = length (gb z) -> gd z' = gd z) by (intros; unfold gd; auto).
  destruct o; simpl in HO; try tauto.
  - assert (LG : legal z (ORowAdd i j)) by (simpl; unfold legal_rowop; lia). split; auto.
    destruct (row_add_ok z i j HI LG) as [z' [E [S1 [S2 [_ [[S3 S4] _]]]]]]. exists z'.
    destruct (row_add_known _ _ _ _ E). repeat (split; [now auto || congruence|]).
    intros a k Ha. rewrite S4. cbn [act]. unfold xset. destruct (Nat.eqb_spec a i); subst; ring.
  - assert (LG : legal z (ORowSub i j)) by (simpl; unfold legal_rowop; lia). split; auto.
    destruct (row_sub_ok z i j HI LG) as [z' [E [S1 [S2 [_ [[S3 S4] _]]]]]]. exists z'.
    destruct (row_sub_known _ _ _ _ E). repeat (split; [now auto || congruence|]).
    intros a k Ha. rewrite S4. cbn [act]. unfold xset. destruct (Nat.eqb_spec a i); subst; ring.
  - destruct HO as [H1 [H2 [H3 He]]]. subst e.
    assert (LG : legal z (OAddmulWe i j lx 0 zx e2)) by (simpl; unfold legal_rowop; lia). split; auto.
    cbn [gstep]. unfold row_addmul_we. cbn [Nat.eqb].
    destruct (Z.eqb_spec lx 1); [|destruct (Z.eqb_spec lx (-1)); [|destruct (Z.eqb_spec lx 0)]]; cbn [negb].
    + destruct (row_add_ok z i j HI LG) as [z' [E [S1 [S2 [_ [[S3 S4] _]]]]]]. exists z'.
      destruct (row_add_known _ _ _ _ E). repeat (split; [now auto || congruence|]).
      intros a k Ha. rewrite S4. cbn [act]. unfold xset. destruct (Nat.eqb_spec a i); subst; ring.
    + destruct (row_sub_ok z i j HI LG) as [z' [E [S1 [S2 [_ [[S3 S4] _]]]]]]. exists z'.
      destruct (row_sub_known _ _ _ _ E). repeat (split; [now auto || congruence|]).
      intros a k Ha. rewrite S4. cbn [act]. unfold xset. destruct (Nat.eqb_spec a i); subst; ring.
    + exists z. repeat (split; [now auto || now repeat split|]).
      intros a k Ha. cbn [act]. unfold xset. destruct (Nat.eqb_spec a i); subst; ring.
    + destruct (row_addmul_si_ok z i j lx HI LG) as [z' [E [S1 [S2 [_ [[S3 S4] _]]]]]]. exists z'.
      destruct (row_addmul_si_known _ _ _ _ _ E). repeat (split; [now auto || congruence|]).
      intros a k Ha. rewrite S4. cbn [act]. unfold xset. destruct (Nat.eqb_spec a i); subst; ring.
  - assert (LG : legal z (OSwap i j)) by (simpl; split; [lia|auto]). split; auto.
    destruct (row_swap_ok z i j HI LG) as [z' [E [S1 [S2 [_ [[S3 S4] _]]]]]]. exists z'.
    destruct (row_swap_known _ _ _ _ E). repeat (split; [now auto || congruence|]).
    intros a k Ha. rewrite S4 by auto. reflexivity.
  - assert (LG : legal z (OMove old_r new_r)) by (simpl; repeat split; auto; lia). split; auto.
    destruct (move_row_ok z old_r new_r HI LG) as [z' [ef [E S]]].
    destruct (move_row_exact z old_r new_r HI LG) as [z2 [E' [X _]]]. cbn [gstep] in E'.
    assert (z2 = z') by congruence. subst z2.
    destruct S as [S1 [S2 [_ [[S3 S4] _]]]]. exists z'.
    destruct (move_row_known z old_r new_r z'); auto; try lia. repeat (split; [now auto || congruence|]).
    intros a k Ha. simpl. unfold ent. rewrite X.
    assert (R : reidx (mv old_r new_r) (gb z) (insert_at new_r (nth old_r (gb z) []) (remove_at old_r (gb z)))).
    { apply insert_remove_reidx; unfold gd in *; try lia. reflexivity. }
    f_equal. destruct R as [_ R]. specialize (R a Ha).
    assert (HM : mv old_r new_r a < length (gb z)).
    { pose proof (mv_in lo hi old_r new_r a). pose proof (mv_out lo hi old_r new_r a). unfold gd in *.
      destruct (Nat.lt_ge_cases a lo); [lia|]. destruct (Nat.lt_ge_cases a hi); lia. }
    rewrite (nth_error_nth' (gb z) [] HM) in R. apply nth_error_nth. exact R.
  - assert (LG : legal z (ONegate i)) by (simpl; lia). split; auto.
    destruct (negate_ok z i HI LG) as [z' [E [S1 [S2 [_ [[S3 S4] _]]]]]]. exists z'.
    destruct (negate_known _ _ _ E). repeat (split; [now auto || congruence|]).
    intros a k Ha. rewrite S4. cbn [act]. unfold xset. destruct (Nat.eqb_spec a i); subst; auto.
Qed.

Lemma block_run lo hi l : Forall (inb lo hi) l -> forall z, Inv z -> locked z = false -> hi <= nkr z ->
  (existsb is_swap l = true -> en_i z = false) ->
  legal_run z l /\ exists z', grun z l = Some z' /\ Inv z' /\ nkr z' = nkr z /\ locked z' = false /\
    flags_eq z z' /\ gd z' = gd z /\
    forall a k, a < gd z -> ent (gb z') a k = act_run l (fun a => ent (gb z) a k) a.
Proof.
  induction 1; intros z HI HL Hhi HS.
  - split; [exact I|]. exists z. repeat (split; [now auto || now repeat split|]). auto.
  - cbn [existsb] in HS.
    destruct (block_step z x lo hi HI HL Hhi H) as [LG [z1 [E [I1 [K1 [L1 [F1 [G1 A1]]]]]]]].
    { intros Hs. apply HS. now rewrite Hs. }
    pose proof F1 as [Fc [Fg [Ft [Fi Ffl]]]].
    destruct (IHForall z1) as [LR [z' [E' [I' [K' [L' [F' [G' A']]]]]]]]; auto; try lia.
    { intros Hs. rewrite Fi. apply HS. rewrite Hs. apply orb_true_r. }
    split. { simpl. split; auto. rewrite E. auto. }
    exists z'. rewrite grun_cons, E. repeat (split; [now auto || congruence|]).
    split. { destruct F' as [? [? [? [? ?]]]]. repeat split; congruence. }
    split; [congruence|].
    intros a k Ha. rewrite A' by congruence. rewrite act_run_cons.
    apply (act_run_ext (gd z) lo hi l H0). { pose proof (I_known _ HI). lia. } 2: auto.
    intros b Hb. rewrite A1 by auto. auto.
Qed.

(** ** The gcd procedure *)
Definition csum (d kappa : nat) (x f : nat -> Z) : Z := zsum d (fun i => x i * f (kappa + i)%nat)%Z.

Lemma gpair_total fuel dual hi lo : forall b a, (0 <= a)%Z -> (0 <= b)%Z ->
  (2 * (a + b) + (if b <? a then 1 else 0) < Z.of_nat fuel)%Z -> exists r, gpair fuel dual hi lo b a = Some r.
Proof.
  induction fuel; intros b a Ha Hb HF.
  - destruct (b <? a)%Z; lia.
  - cbn [gpair]. destruct (Z.eqb_spec a 0); [eauto|].
    destruct (Z.leb_spec a b).
    + destruct (IHfuel (b - a)%Z a) as [[[b' a'] l] E]; try lia.
      { destruct (Z.ltb_spec b a); destruct (Z.ltb_spec (b - a) a); lia. }
      rewrite E. simpl. eauto.
    + destruct (IHfuel a b) as [[[b' a'] l] E]; try lia.
      { destruct (Z.ltb_spec b a); destruct (Z.ltb_spec a b); lia. }
      rewrite E. simpl. eauto.
Qed.

Lemma gpair_spec dual L H hi lo : L <= lo -> lo < hi -> hi < H ->
  forall fuel b a b' a' l, (0 <= a)%Z -> (0 <= b)%Z ->
  gpair fuel dual hi lo b a = Some (b', a', l) ->
  a' = 0%Z /\ (0 <= b')%Z /\ (forall g, ((g | a) /\ (g | b))%Z <-> (g | b')%Z) /\ Forall (inb L H) l /\
  (forall f p, p <> hi -> p <> lo -> act_run l f p = f p) /\
  (dual = false -> forall f, b' * act_run l f hi = b * f hi + a * f lo)%Z /\
  (dual = true -> forall f, f hi = b -> f lo = a -> act_run l f hi = b' /\ act_run l f lo = 0%Z) /\
  Forall (fun o => forall i, o <> ONegate i) l.
Proof.
  intros H1 H2 H3. induction fuel; intros b a b' a' l Ha Hb E; cbn [gpair] in E.
  - destruct (Z.eqb_spec a 0); [|discriminate]. injection E as <- <- <-. subst.
    split; [auto|]. split; [auto|]. split. { intros g. split; [tauto|]. split; auto. apply Z.divide_0_r. }
    split; [constructor|]. split; [auto|]. split; [intros; cbn; ring|]. split; [cbn; auto|constructor].
  - destruct (Z.eqb_spec a 0).
    { injection E as <- <- <-. subst.
      split; [auto|]. split; [auto|]. split. { intros g. split; [tauto|]. split; auto. apply Z.divide_0_r. }
      split; [constructor|]. split; [auto|]. split; [intros; cbn; ring|]. split; [cbn; auto|constructor]. }
    destruct (Z.leb_spec a b).
    + destruct (gpair fuel dual hi lo (b - a) a) as [[[b1 a1] l1]|] eqn:E1; simpl in E; [|discriminate].
      injection E as <- <- <-.
      assert (Hba : (0 <= b - a)%Z) by lia.
      destruct (IHfuel _ _ _ _ _ Ha Hba E1) as [P1 [P2 [P3 [P4 [P5 [P6 [P7 P8]]]]]]].
      split; [auto|]. split; [auto|]. split; [|split; [|split; [|split; [|split]]]].
      * intros g. rewrite <- P3. split; intros [X Y]; split; auto.
        -- apply Z.divide_sub_r; auto.
        -- replace b with ((b - a) + a)%Z by ring. apply Z.divide_add_r; auto.
      * constructor; auto. destruct dual; simpl; lia.
      * intros f p Hp1 Hp2. rewrite act_run_cons, P5 by auto.
        destruct dual; cbn [act]; unfold xset.
        -- destruct (Nat.eqb_spec p hi); [lia|auto].
        -- destruct (Nat.eqb_spec p lo); [lia|auto].
      * intros -> f. rewrite act_run_cons, P6 by auto. cbn [act]. unfold xset.
        rewrite Nat.eqb_refl. destruct (Nat.eqb_spec hi lo); [lia|]. ring.
      * intros -> f F1 F2. rewrite act_run_cons. apply P7; auto; cbn [act]; unfold xset.
        -- rewrite Nat.eqb_refl. lia.
        -- destruct (Nat.eqb_spec lo hi); [lia|auto].
      * constructor; auto. destruct dual; discriminate.
    + destruct (gpair fuel dual hi lo a b) as [[[b1 a1] l1]|] eqn:E1; simpl in E; [|discriminate].
      injection E as <- <- <-.
      destruct (IHfuel _ _ _ _ _ Hb Ha E1) as [P1 [P2 [P3 [P4 [P5 [P6 [P7 P8]]]]]]].
      assert (T1 : tr lo hi hi = lo). { unfold tr. destruct (Nat.eqb_spec hi lo); [lia|]. now rewrite Nat.eqb_refl. }
      assert (T2 : tr lo hi lo = hi). { unfold tr. now rewrite Nat.eqb_refl. }
      split; [auto|]. split; [auto|]. split; [|split; [|split; [|split; [|split]]]].
      * intros g. rewrite <- P3. tauto.
      * constructor; auto. simpl; lia.
      * intros f p Hp1 Hp2. rewrite act_run_cons, P5 by auto. cbn [act]. unfold tr.
        destruct (Nat.eqb_spec p lo); [lia|]. destruct (Nat.eqb_spec p hi); [lia|auto].
      * intros DD f. rewrite act_run_cons, P6 by auto. cbn [act]. rewrite T1, T2. ring.
      * intros DD f F1 F2. rewrite act_run_cons. apply P7; auto; cbn [act]; rewrite ?T1, ?T2; auto.
      * constructor; auto. discriminate.
Qed.

(** what a segment of the generic insertion guarantees *)
Record seg (d kappa : nat) (dual : bool) (x x' : nat -> Z) (l : list gop) : Prop := {
  sg_nn : forall i, i < d -> (0 <= x' i)%Z;
  sg_div : forall g, (forall i, i < d -> (g | x i)%Z) <-> (forall i, i < d -> (g | x' i)%Z);
  sg_inb : Forall (inb kappa (kappa + d)) l;
  sg_neg : Forall (fun o => forall i, o <> ONegate i) l;
  sg_sum : dual = false -> forall f, csum d kappa x' (act_run l f) = csum d kappa x f;
  sg_dual : dual = true -> forall f, (forall i, i < d -> f (kappa + i) = x i) ->
      forall i, i < d -> act_run l f (kappa + i) = x' i
}.
Lemma seg_refl d kappa dual x : (forall i, i < d -> (0 <= x i)%Z) -> seg d kappa dual x x [].
Proof. intros H. constructor; auto; tauto. Qed.
Lemma seg_trans d kappa dual x y w l1 l2 : seg d kappa dual x y l1 -> seg d kappa dual y w l2 ->
  seg d kappa dual x w (l1 ++ l2).
Proof.
  intros [] []. constructor; auto.
  - intros g. rewrite sg_div0. auto.
  - apply Forall_app; auto.
  - apply Forall_app; auto.
  - intros D f. rewrite act_run_app, sg_sum1, sg_sum0; auto.
  - intros D f Hf. rewrite act_run_app. apply sg_dual1; auto.
Qed.

Lemma two_changed d kappa x x' f f' j k : j < d -> k < d -> j <> k ->
  (forall i, i < d -> i <> j -> i <> k -> x' i = x i /\ f' (kappa + i) = f (kappa + i)) ->
  (x' k * f' (kappa + k)%nat + x' j * f' (kappa + j)%nat = x k * f (kappa + k)%nat + x j * f (kappa + j)%nat)%Z ->
  csum d kappa x' f' = csum d kappa x f.
Proof.
  intros Hj Hk Hjk HO HE. unfold csum.
  set (h := fun i => if i =? k then (x k * f (kappa + k)%nat)%Z else (x' i * f' (kappa + i)%nat)%Z).
  rewrite (@zsum_upd d k (fun i => x' i * f' (kappa + i)%nat)%Z h); auto.
  - rewrite (@zsum_upd d j h (fun i => x i * f (kappa + i)%nat)%Z); auto.
    + unfold h. rewrite Nat.eqb_refl. destruct (Nat.eqb_spec j k); [lia|]. lia.
    + intros i Hi Hn. unfold h. destruct (Nat.eqb_spec i k); [now subst|].
      destruct (HO i Hi Hn n) as [-> ->]. auto.
  - intros i Hi Hn. unfold h. destruct (Nat.eqb_spec i k); [lia|auto].
Qed.

Lemma gbody_spec d kappa dual x k off : 1 <= off -> off <= k -> k < d -> (forall i, i < d -> (0 <= x i)%Z) ->
  exists x' l, gbody kappa dual x k off = Some (x', l) /\ seg d kappa dual x x' l /\
    x' (k - off) = 0%Z /\ forall i, i <> k -> i <> k - off -> x' i = x i.
Proof.
  intros Ho Hok Hk HN. unfold gbody. set (j := k - off). cbv zeta.
  assert (Hj : j < k) by (unfold j; lia).
  destruct (Z.eqb_spec (x k) 0) as [Zk|Zk]; destruct (Z.eqb_spec (x j) 0) as [Zj|Zj]; cbn [andb].
  1:{ exists x, []. split; auto. split; [apply seg_refl; auto|]. auto. }
  all: set (sw := (x k <? x j)%Z); set (b := if sw then x j else x k); set (a := if sw then x k else x j);
    pose proof (HN k Hk) as Nk; pose proof (HN j ltac:(lia)) as Nj;
    assert (Na : (0 <= a)%Z) by (unfold a; destruct sw; auto);
    assert (Nb : (0 <= b)%Z) by (unfold b; destruct sw; auto);
    destruct (gpair_total (Z.to_nat (2 * (a + b) + 2)) dual (kappa + k) (kappa + j) b a Na Nb) as [[[b' a'] l] E];
    [destruct (b <? a)%Z; lia|];
    rewrite E; cbn [obind];
    (destruct (gpair_spec dual kappa (kappa + d) (kappa + k) (kappa + j) ltac:(lia) ltac:(lia) ltac:(lia) _ _ _ _ _ _ Na Nb E)
      as [P1 [P2 [P3 [P4 [P5 [P6 [P7 P8]]]]]]]);
    eexists _, _; (split; [reflexivity|]); subst a'; set (pre := if sw then [OSwap (kappa + j) (kappa + k)] else []);
    set (x' := xset (xset x k b') j 0%Z);
    assert (Xk : x' k = b') by (unfold x', xset; rewrite Nat.eqb_refl; destruct (Nat.eqb_spec k j); [lia|auto]);
    assert (Xj : x' j = 0%Z) by (unfold x', xset; rewrite Nat.eqb_refl; auto);
    assert (Xo : forall i, i <> k -> i <> j -> x' i = x i)
      by (intros i I1 I2; unfold x', xset; destruct (Nat.eqb_spec i j); [lia|]; destruct (Nat.eqb_spec i k); [lia|auto]);
    assert (PK : forall f, act_run pre f (kappa + k) = f (kappa + (if sw then j else k)) /\
                           act_run pre f (kappa + j) = f (kappa + (if sw then k else j)) /\
                           forall p, p <> kappa + k -> p <> kappa + j -> act_run pre f p = f p)
      by (intros f; unfold pre; destruct sw; cbn [act_run fold_left act]; [unfold tr|auto];
          rewrite !Nat.eqb_refl; destruct (Nat.eqb_spec (kappa + k) (kappa + j)); [lia|];
          split; [auto|]; split; [auto|];
          intros p Q1 Q2; destruct (Nat.eqb_spec p (kappa + j)); [lia|]; destruct (Nat.eqb_spec p (kappa + k)); [lia|auto]);
    (split; [|split; [exact Xj|exact Xo]]);
    constructor.
  all: try (intros i Hi; destruct (Nat.eq_dec i k); [subst i; rewrite Xk; auto|];
            destruct (Nat.eq_dec i j); [subst i; rewrite Xj; lia|]; rewrite Xo; auto; fail).
  all: try (apply Forall_app; split; auto; unfold pre; destruct sw; repeat constructor; simpl; try lia; discriminate).
  all: try (intros DD f; destruct (PK f) as [K1 [K2 K3]]; rewrite act_run_app;
       apply two_changed with (j := j) (k := k); try lia;
       [intros i Hi I1 I2; split; [apply Xo; auto|]; rewrite P5 by lia; apply K3; lia
       |rewrite Xk, Xj, P6 by auto; rewrite K1, K2; unfold a, b; destruct sw; ring]; fail).
  all: try (intros DD f Hf i Hi; destruct (PK f) as [K1 [K2 K3]]; rewrite act_run_app;
       destruct (P7 DD (act_run pre f)) as [Q1 Q2];
       [rewrite K1; unfold b; destruct sw; apply Hf; lia
       |rewrite K2; unfold a; destruct sw; apply Hf; lia|];
       destruct (Nat.eq_dec i k); [subst i; congruence|]; destruct (Nat.eq_dec i j); [subst i; congruence|];
       rewrite P5 by lia; rewrite K3 by lia; rewrite Xo by auto; apply Hf; auto).
  all: intros g; specialize (P3 g); unfold a, b in P3; split; intros HG.
  all: try (intros i Hi; destruct (Nat.eq_dec i k); [subst i; rewrite Xk; apply P3; destruct sw; split; apply HG; lia|];
            destruct (Nat.eq_dec i j); [subst i; rewrite Xj; apply Z.divide_0_r|]; rewrite Xo by auto; auto; fail).
  all: intros i Hi; pose proof (HG k Hk) as GK; rewrite Xk in GK; apply P3 in GK;
       destruct (Nat.eq_dec i k); [subst i; destruct sw; tauto|];
       destruct (Nat.eq_dec i j); [subst i; destruct sw; tauto|]; rewrite <- Xo by auto; auto.
Qed.

Lemma div_lt off n : (exists q, n = q * off) -> n < off -> n = 0.
Proof. intros [q ->] H. destruct q; simpl in *; lia. Qed.
Lemma div_lt2 off n : (exists q, n = q * off) -> n < 2 * off -> n = 0 \/ n = off.
Proof. intros [q ->] H. destruct q as [|[|q]]; simpl in *; lia. Qed.
Lemma div_sub off a b : (exists q, a = q * off) -> (exists q, b = q * off) -> exists q, a - b = q * off.
Proof. intros [q ->] [r ->]. exists (q - r). now rewrite Nat.mul_sub_distr_r. Qed.

Lemma glevel_spec d kappa dual off : 1 <= off -> forall n x k, k < n -> k < d ->
  (forall i, i < d -> (0 <= x i)%Z) ->
  (exists q, d - 1 - k = q * (2 * off)) ->
  (forall i, i < d -> x i <> 0%Z -> exists q, d - 1 - i = q * off) ->
  (forall i, k < i < d -> x i <> 0%Z -> exists q, d - 1 - i = q * (2 * off)) ->
  exists x' l, glevel kappa dual n x k off = Some (x', l) /\ seg d kappa dual x x' l /\
    forall i, i < d -> x' i <> 0%Z -> exists q, d - 1 - i = q * (2 * off).
Proof.
  intros Ho. induction n; intros x k Hkn Hk HN Dk D1 D2; [lia|]. cbn [glevel].
  assert (Dko : exists q, d - 1 - k = q * off) by (destruct Dk as [q ->]; exists (q * 2); lia).
  assert (KI : forall i, i <= k -> x i <> 0%Z -> exists q, k - i = q * off).
  { intros i Hi Hx. destruct (div_sub off _ _ (D1 i ltac:(lia) Hx) Dko) as [q Q]. exists q. rewrite <- Q. lia. }
  destruct (Nat.ltb_spec k off).
  - exists x, []. split; auto. split; [apply seg_refl; auto|].
    intros i Hi Hx. destruct (Nat.lt_ge_cases k i); [auto|].
    pose proof (div_lt off (k - i) (KI i ltac:(lia) Hx) ltac:(lia)). replace i with k by lia. auto.
  - destruct (gbody_spec d kappa dual x k off Ho H Hk HN) as [x1 [l1 [E1 [S1 [Z1 O1]]]]].
    rewrite E1. cbn [obind].
    assert (KI' : forall i, i <= k -> x1 i <> 0%Z -> i = k \/ exists q, k - i = q * off).
    { intros i Hi Hx. destruct (Nat.eq_dec i k); auto. right.
      destruct (Nat.eq_dec i (k - off)); [subst; congruence|]. apply KI; auto. rewrite <- O1; auto. }
    destruct (Nat.ltb_spec k (2 * off)).
    + exists x1, l1. split; auto. split; auto. intros i Hi Hx.
      destruct (Nat.lt_ge_cases k i). { apply D2; auto. rewrite <- O1; auto; lia. }
      destruct (KI' i ltac:(lia) Hx) as [->|Q]; auto.
      destruct (div_lt2 off (k - i) Q ltac:(lia)). { replace i with k by lia; auto. }
      exfalso. apply Hx. replace i with (k - off) by lia. auto.
    + destruct (IHn x1 (k - 2 * off)) as [x2 [l2 [E2 [S2 Z2]]]]; try lia.
      * apply (sg_nn _ _ _ _ _ _ S1).
      * destruct Dk as [q Q]. exists (S q). lia.
      * intros i Hi Hx. destruct (Nat.eq_dec i k); [subst; auto|].
        destruct (Nat.eq_dec i (k - off)); [subst; congruence|]. apply D1; auto. rewrite <- O1; auto.
      * intros i Hi Hx. destruct (Nat.lt_ge_cases k i). { apply D2; try lia. rewrite <- O1; auto; lia. }
        destruct (KI' i ltac:(lia) Hx) as [->|Q]; auto.
        destruct (div_lt2 off (k - i) Q ltac:(lia)). { replace i with k by lia; auto. }
        exfalso. apply Hx. replace i with (k - off) by lia. auto.
      * rewrite E2. cbn [obind]. exists x2, (l1 ++ l2). split; auto. split; auto. eapply seg_trans; eauto.
Qed.

Lemma gtree_spec d kappa dual : 1 <= d -> forall n x off, 1 <= off -> d <= off + n ->
  (forall i, i < d -> (0 <= x i)%Z) ->
  (forall i, i < d -> x i <> 0%Z -> exists q, d - 1 - i = q * off) ->
  exists x' l, gtree kappa dual n x d off = Some (x', l) /\ seg d kappa dual x x' l /\
    forall i, i < d -> i <> d - 1 -> x' i = 0%Z.
Proof.
  intros Hd. induction n; intros x off Ho HF HN D1; cbn [gtree].
  - destruct (Nat.ltb_spec off d); [lia|]. exists x, []. split; auto. split; [apply seg_refl; auto|].
    intros i Hi Hn. destruct (Z.eq_dec (x i) 0) as [|N]; auto. pose proof (div_lt off (d - 1 - i) (D1 i Hi N) ltac:(lia)). lia.
  - destruct (Nat.ltb_spec off d).
    2:{ exists x, []. split; auto. split; [apply seg_refl; auto|].
        intros i Hi Hn. destruct (Z.eq_dec (x i) 0) as [|N]; auto. pose proof (div_lt off (d - 1 - i) (D1 i Hi N) ltac:(lia)). lia. }
    destruct (glevel_spec d kappa dual off Ho d x (d - 1)) as [x1 [l1 [E1 [S1 Z1]]]]; auto; try lia.
    { exists 0. lia. }
    rewrite E1. cbn [obind].
    destruct (IHn x1 (2 * off)) as [x2 [l2 [E2 [S2 Z2]]]]; auto; try lia.
    { apply (sg_nn _ _ _ _ _ _ S1). }
    rewrite E2. cbn [obind]. exists x2, (l1 ++ l2). split; auto. split; auto. eapply seg_trans; eauto.
Qed.

Lemma neg_ops_act kappa d x : forall f p, act_run (neg_ops kappa d x) f p =
  if (kappa <=? p) && (p <? kappa + d) && (x (p - kappa)%nat <? 0)%Z then (- f p)%Z else f p.
Proof.
  induction d; intros f p.
  - change (act_run (neg_ops kappa 0 x) f p) with (f p).
    destruct (Nat.leb_spec kappa p); destruct (Nat.ltb_spec p (kappa + 0)); cbn [andb]; auto; lia.
  - unfold neg_ops in *. rewrite seq_S, flat_map_app, act_run_app. cbn [Nat.add flat_map].
    rewrite app_nil_r.
    destruct (Nat.eq_dec p (kappa + d)) as [->|Hp].
    + replace (kappa + d - kappa) with d by lia.
      replace (kappa <=? kappa + d) with true by (symmetry; apply Nat.leb_le; lia).
      replace (kappa + d <? kappa + S d) with true by (symmetry; apply Nat.ltb_lt; lia). cbn [andb].
      assert (X : act_run (flat_map (fun i => if (x i <? 0)%Z then [ONegate (kappa + i)] else []) (seq 0 d)) f (kappa + d) = f (kappa + d)).
      { rewrite IHd. replace (kappa + d <? kappa + d) with false by (symmetry; apply Nat.ltb_ge; lia).
        rewrite andb_false_r. auto. }
      destruct (x d <? 0)%Z; cbn [act_run fold_left act]; unfold xset; rewrite ?Nat.eqb_refl; fold (act_run) in *;
        [f_equal|]; exact X.
    + assert (Y : forall g, act_run (if (x d <? 0)%Z then [ONegate (kappa + d)] else []) g p = g p).
      { intros g. destruct (x d <? 0)%Z; cbn [act_run fold_left act]; auto. unfold xset.
        destruct (Nat.eqb_spec p (kappa + d)); [lia|auto]. }
      rewrite Y, IHd.
      replace (p <? kappa + S d) with (p <? kappa + d); auto.
      destruct (Nat.ltb_spec p (kappa + d)); destruct (Nat.ltb_spec p (kappa + S d)); auto; lia.
Qed.
Lemma neg_ops_inb kappa d x : Forall (inb kappa (kappa + d)) (neg_ops kappa d x).
Proof.
  apply Forall_forall. intros o Ho. unfold neg_ops in Ho. apply in_flat_map in Ho. destruct Ho as [i [Hi Ho]].
  apply in_seq in Hi. destruct (x i <? 0)%Z; [|contradiction]. destruct Ho as [<-|[]]. simpl. lia.
Qed.
Lemma neg_ops_nil kappa d x : (forall i, i < d -> (0 <= x i)%Z) -> neg_ops kappa d x = [].
Proof.
  intros H. unfold neg_ops. assert (X : forall l, (forall i, In i l -> i < d) ->
    flat_map (fun i => if (x i <? 0)%Z then [ONegate (kappa + i)] else []) l = []).
  { induction l; intros HL; auto. cbn [flat_map]. rewrite IHl by (intros; apply HL; right; auto).
    specialize (H a (HL a (or_introl eq_refl))). destruct (Z.ltb_spec (x a) 0); [lia|auto]. }
  apply X. intros i Hi. apply in_seq in Hi. lia.
Qed.

(** the generic insertion as a whole *)
Lemma generic_spec kappa dual d sol : 1 <= d ->
  exists x l, generic_run kappa dual d sol = Some (x, l) /\
    Forall (inb kappa (kappa + d)) l /\
    (forall i, i < d - 1 -> x i = 0%Z) /\ (0 <= x (d - 1)%nat)%Z /\
    (forall g, (forall i, i < d -> (g | sol i)%Z) <-> (g | x (d - 1)%nat)%Z) /\
    (dual = false -> forall f, (x (d - 1)%nat * act_run l f kappa = csum d kappa sol f)%Z) /\
    (dual = true -> forall f, (forall i, i < d -> f (kappa + i) = sol i) ->
       forall i, i < d -> act_run l f (kappa + i) = x i) /\
    ((forall i, i < d -> (0 <= sol i)%Z) -> Forall (fun o => forall i, o <> ONegate i) l).
Proof.
  intros Hd. unfold generic_run.
  destruct (gtree_spec d kappa dual Hd d (fun i => Z.abs (sol i)) 1) as [x [l [E [[S1 S2 S3 S4 S5 S6] Z]]]]; try lia.
  { intros i Hi _. exists (d - 1 - i). lia. }
  rewrite E. cbn [obind]. exists x. eexists. split; [reflexivity|].
  assert (NA : forall f i, i < d -> act_run (neg_ops kappa d sol) f (kappa + i) = if (sol i <? 0)%Z then (- f (kappa + i)%nat)%Z else f (kappa + i)).
  { intros f i Hi. rewrite neg_ops_act. replace (kappa + i - kappa) with i by lia.
    replace (kappa <=? kappa + i) with true by (symmetry; apply Nat.leb_le; lia).
    replace (kappa + i <? kappa + d) with true by (symmetry; apply Nat.ltb_lt; lia). auto. }
  split; [|split; [|split; [|split; [|split; [|split]]]]].
  - apply Forall_app; split; [apply neg_ops_inb|]. apply Forall_app; split; auto.
    destruct dual; repeat constructor; simpl; lia.
  - intros i Hi. apply Z; lia.
  - apply S1; lia.
  - intros g. transitivity (forall i, i < d -> (g | Z.abs (sol i))%Z).
    + split; intros H i Hi; specialize (H i Hi); apply Z.divide_abs_r; auto.
    + rewrite S2. split; intros H; [apply H; lia|]. intros i Hi.
      destruct (Nat.eq_dec i (d - 1)); [subst; auto|]. rewrite Z by auto. apply Z.divide_0_r.
  - intros DD f. rewrite DD, app_assoc, !act_run_app. cbn [act_run fold_left act].
    assert (M : mv (kappa + d - 1) kappa kappa = kappa + (d - 1)) by (unfold mv; rewrite Nat.eqb_refl; lia).
    rewrite M. change (fold_left _ l ?g) with (act_run l g). change (fold_left _ (neg_ops kappa d sol) f) with (act_run (neg_ops kappa d sol) f).
    specialize (S5 DD (act_run (neg_ops kappa d sol) f)). unfold csum in S5 at 1.
    rewrite (@zsum_single d (d - 1)) in S5; [|lia|intros i Hi Hn; rewrite Z by auto; ring].
    rewrite S5. unfold csum. apply zsum_ext. intros i Hi. rewrite NA by auto.
    destruct (Z.ltb_spec (sol i) 0); [rewrite Z.abs_neq by lia|rewrite Z.abs_eq by lia]; ring.
  - intros DD f Hf i Hi. rewrite DD, app_nil_r, act_run_app. apply S6; auto.
    intros j Hj. rewrite NA, Hf by auto. destruct (Z.ltb_spec (sol j) 0); lia.
  - intros HN. rewrite neg_ops_nil by auto. cbn [app]. apply Forall_app; split; auto.
    destruct dual; repeat constructor. discriminate.
Qed.

(** ** Scanning the solution *)
Lemma scan_count0 n sol : fst (scan n sol) = 0 -> forall i, i < n -> sol i = 0%Z.
Proof.
  induction n; intros H i Hi; [lia|]. cbn [scan] in H. destruct (scan n sol) as [c v]. cbn [fst] in *.
  destruct (Z.eqb_spec (sol n) 0); [|discriminate].
  destruct (Nat.eq_dec i n); [subst; auto|]. apply IHn; auto; lia.
Qed.
Lemma scan_count1 n sol : fst (scan n sol) = 1 ->
  exists i, i < n /\ sol i <> 0%Z /\ forall j, j < n -> j <> i -> sol j = 0%Z.
Proof.
  induction n; intros H; [discriminate|]. cbn [scan] in H. pose proof (scan_count0 n sol) as C0.
  destruct (scan n sol) as [c v]. cbn [fst] in *.
  destruct (Z.eqb_spec (sol n) 0).
  - destruct (IHn H) as [i [H1 [H2 H3]]]. exists i. split; [lia|]. split; auto. intros j Hj Hn.
    destruct (Nat.eq_dec j n); [subst; auto|]. apply H3; lia.
  - exists n. split; [lia|]. split; auto. intros j Hj Hn. apply C0; lia.
Qed.
Lemma scan_unit n sol :
  match snd (scan n sol) with
  | Some v => v < n /\ Z.abs (sol v) = 1%Z /\ forall j, v < j < n -> Z.abs (sol j) <> 1%Z
  | None => forall j, j < n -> Z.abs (sol j) <> 1%Z
  end.
Proof.
  induction n; [cbn; intros; lia|]. cbn [scan]. destruct (scan n sol) as [c v]. cbn [snd] in *.
  destruct (Z.eqb_spec (Z.abs (sol n)) 1).
  - split; [lia|]. split; auto. intros; lia.
  - destruct v.
    + destruct IHn as [H1 [H2 H3]]. split; [lia|]. split; auto. intros j Hj.
      destruct (Nat.eq_dec j n); [subst; auto|]. apply H3; lia.
    + intros j Hj. destruct (Nat.eq_dec j n); [subst; auto|]. apply IHn; lia.
Qed.

(** ** Insertion with a unit coordinate *)
Definition unit_ops (kappa : nat) (dual : bool) (sol : nat -> Z) (v : nat) (s : Z) (n : nat) : list gop :=
  flat_map (fun i => if negb (sol i =? 0)%Z && negb (i =? v)
                 then [if dual then OAddmulWe (kappa + i) (kappa + v) (s * sol i) 0 0 0
                       else OAddmulWe (kappa + v) (kappa + i) (s * sol i) 0 0 0] else []) (seq 0 n).
Lemma unit_ops_inb kappa dual sol v s d : v < d -> Forall (inb kappa (kappa + d)) (unit_ops kappa dual sol v s d).
Proof.
  intros Hv. apply Forall_forall. intros o Ho. unfold unit_ops in Ho. apply in_flat_map in Ho. destruct Ho as [i [Hi Ho]].
  apply in_seq in Hi. destruct (negb (sol i =? 0)%Z); [|contradiction].
  destruct (Nat.eqb_spec i v); [contradiction|]. destruct Ho as [<-|[]]. destruct dual; simpl; lia.
Qed.
Lemma unit_ops_shape kappa dual sol v s d : Forall (fun o => is_swap o = false /\ forall i, o <> ONegate i) (unit_ops kappa dual sol v s d).
Proof.
  apply Forall_forall. intros o Ho. unfold unit_ops in Ho. apply in_flat_map in Ho. destruct Ho as [i [Hi Ho]].
  destruct (negb (sol i =? 0)%Z && negb (i =? v)); [|contradiction]. destruct Ho as [<-|[]].
  destruct dual; split; auto; discriminate.
Qed.
Lemma unit_ops_primal kappa sol v s n f p : act_run (unit_ops kappa false sol v s n) f p =
  if p =? kappa + v then (f p + s * zsum n (fun i => if (i =? v)%nat then 0 else sol i * f (kappa + i)%nat))%Z else f p.
Proof.
  revert p. induction n; intros p.
  - cbn. destruct (p =? kappa + v); [ring|auto].
  - unfold unit_ops in *. rewrite seq_S, flat_map_app, act_run_app. cbn [Nat.add flat_map zsum]. rewrite app_nil_r.
    set (g := act_run _ f) in *.
    destruct (Z.eqb_spec (sol n) 0) as [e|e]; destruct (Nat.eqb_spec n v) as [w|w]; cbn [negb andb act_run fold_left act].
    + rewrite IHn. destruct (p =? kappa + v); [ring|auto].
    + rewrite IHn, e. destruct (p =? kappa + v); [ring|auto].
    + rewrite IHn. destruct (p =? kappa + v); [ring|auto].
    + unfold xset. destruct (Nat.eqb_spec p (kappa + v)).
      * rewrite !IHn, Nat.eqb_refl. destruct (Nat.eqb_spec (kappa + n) (kappa + v)); [lia|]. subst p. ring.
      * rewrite IHn. destruct (Nat.eqb_spec p (kappa + v)); [lia|auto].
Qed.
Lemma unit_ops_dual kappa sol v s n f i : i < n -> i <> v ->
  act_run (unit_ops kappa true sol v s n) f (kappa + i) = (f (kappa + i)%nat + s * sol i * f (kappa + v)%nat)%Z.
Proof.
  intros Hi Hv.
  assert (V : forall n, act_run (unit_ops kappa true sol v s n) f (kappa + v) = f (kappa + v)).
  { clear n Hi. induction n; auto. unfold unit_ops in *. rewrite seq_S, flat_map_app, act_run_app. cbn [Nat.add flat_map].
    rewrite app_nil_r. destruct (sol n =? 0)%Z; cbn [negb andb]; auto.
    destruct (Nat.eqb_spec n v); cbn [negb act_run fold_left act]; auto. unfold xset.
    destruct (Nat.eqb_spec (kappa + v) (kappa + n)); [lia|auto]. }
  assert (O : forall n, n <= i -> act_run (unit_ops kappa true sol v s n) f (kappa + i) = f (kappa + i)).
  { clear n Hi. induction n; intros Hn; auto. unfold unit_ops in *. rewrite seq_S, flat_map_app, act_run_app. cbn [Nat.add flat_map].
    rewrite app_nil_r. destruct (negb (sol n =? 0)%Z && negb (n =? v)); cbn [act_run fold_left act]; [|apply IHn; lia]. unfold xset.
    destruct (Nat.eqb_spec (kappa + i) (kappa + n)); [lia|]. apply IHn; lia. }
  induction n; [lia|].
  unfold unit_ops in *. rewrite seq_S, flat_map_app, act_run_app. cbn [Nat.add flat_map]. rewrite app_nil_r.
  destruct (Nat.eq_dec i n).
  - subst i. destruct (Z.eqb_spec (sol n) 0) as [e|e]; cbn [negb andb].
    + cbn [act_run fold_left]. rewrite e. change (fold_left _ _ _) with (act_run (unit_ops kappa true sol v s n) f).
      transitivity (f (kappa + n)); [apply (O n); lia|ring].
    + destruct (Nat.eqb_spec n v); [lia|]. cbn [negb act_run fold_left act]. unfold xset. rewrite Nat.eqb_refl.
      f_equal; [apply (O n); lia|]. f_equal. apply (V n).
  - destruct (negb (sol n =? 0)%Z && negb (n =? v)); cbn [act_run fold_left act]; [|apply IHn; lia].
    unfold xset. destruct (Nat.eqb_spec (kappa + i) (kappa + n)); [lia|]. apply IHn; lia.
Qed.
Lemma unit_ops_dual_v kappa sol v s f : forall n,
  act_run (unit_ops kappa true sol v s n) f (kappa + v) = f (kappa + v).
Proof.
  induction n; auto. unfold unit_ops in *. rewrite seq_S, flat_map_app, act_run_app. cbn [Nat.add flat_map].
  rewrite app_nil_r. destruct (sol n =? 0)%Z; cbn [negb andb]; auto.
  destruct (Nat.eqb_spec n v); cbn [negb act_run fold_left act]; auto. unfold xset.
  destruct (Nat.eqb_spec (kappa + v) (kappa + n)); [lia|auto].
Qed.
