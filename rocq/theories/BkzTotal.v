(** BKZ in exact arithmetic returns: size reduction and LLL succeed on independent rows, the enumeration
    terminates, and more fuel does not change its result.  Not part of the model (proofs for PropBkzExact.v). *)
From Coq Require Import List ZArith QArith Qcanon Lia Lqa Arith Bool.
From Verif Require Import Util QcUtil LatticeSpec MatrixModel MatrixProofs GsoModel GsoProofs GsoHistory GsoFModel GsoFSpec GsoFProofs GsoQ QGs
  LllModel LllQ LllExact LllDecide LllSpec LllSpecFacts GramDet LatPot LllTotal LllKeep
  EnumModel EnumExact EnumSpec EnumLink EvalModel EnumCall PropEnum BkzModel BkzProofs PropBkz BkzExactModel BkzSpec LatProj BkzExact BkzHkz.
Import ListNotations.
Local Open Scope nat_scope.

(** ** fuel of the enumeration *)
Section E.
Context {o : eops} {EV : Type}.
Variable evalS : list Z -> E o -> E o -> EV -> EV * E o.
Variable evalSub : nat -> list Z -> E o -> EV -> EV.
Variable cf : ecfg o.
Variable rst : list Z -> nat -> option (option (list Z * E o)).
Notation est := (est o EV).

Lemma rec_loop_mono (b1 b2 : est -> option est) kk : (forall s r, b1 s = Some r -> b2 s = Some r) ->
  forall n n' s r, n <= n' -> rec_loop o evalS cf b1 kk n s = Some r -> rec_loop o evalS cf b2 kk n' s = Some r.
Proof.
  intros HB. induction n as [|n IH]; intros n' s r Hn H; [discriminate|]. destruct n' as [|n']; [lia|]. cbn [rec_loop] in *.
  destruct (b1 s) as [s'|] eqn:E1; [|discriminate]. rewrite (HB _ _ E1). cbv zeta in *. destruct (negb _); auto. apply IH; auto. lia.
Qed.
Lemma enum_rec_mono f f' : f <= f' -> forall L s r, enum_rec o evalS evalSub cf rst f L s = Some r -> enum_rec o evalS evalSub cf rst f' L s = Some r.
Proof.
  intros Hf. induction L as [|kk IH]; intros s r H; cbn [enum_rec] in *; auto. cbv zeta in *. destruct (negb _); auto.
  destruct kk as [|p].
  - eapply rec_loop_mono; eauto.
  - destruct (c_reset cf && _); auto. eapply rec_loop_mono; eauto.
Qed.
Lemma enum_iter_mono : forall f f' k s r, f <= f' -> enum_iter o evalS evalSub cf rst f k s = Some r -> enum_iter o evalS evalSub cf rst f' k s = Some r.
Proof.
  induction f as [|f IH]; intros f' k s r Hf H; [discriminate|]. destruct f' as [|f']; [lia|]. cbn [enum_iter] in *.
  destruct (iter_step o evalS evalSub cf rst k s) as [[s'|[k' s']]|]; auto. apply IH; auto. lia.
Qed.
End E.

Lemma enum_run_mono rec f f' ne cb st N inp s : f <= f' -> enum_run rec f ne cb st N inp = Some s -> enum_run rec f' ne cb st N inp = Some s.
Proof.
  intros Hf. unfold enum_run, run_enum. destruct (prepared _ _) as [k0 q]. unfold enum_loop. destruct (Nat.leb _ _); auto.
  destruct rec; [apply enum_rec_mono|apply enum_iter_mono]; auto.
Qed.

Section S.
Variable rnd : Qc -> Z -> Qc.
Variable si ze : Qc -> Z -> Z * nat.
Variable expo : Qc -> Z.
Notation lo := (lq_ops rnd si ze expo).
Notation fo := qc_ops.
Variable P : lpar lo.
Notation lst := (lst lo).
Notation half := (Q2Qc (1 # 2)).
Notation RR z := (qR (gc z) (gb z)).
Notation MM z := (qM (gc z) (gb z)).
Notation vc s j := (nth j (fvc s) 0).
Hypothesis HX : exact_rounding rnd si ze.
Hypothesis Heta : (half <= p_eta P)%Qc.
Hypothesis Hthr : p_thr P = (if p_siegel P then p_delta P - p_eta P * p_eta P else p_delta P)%Qc.
Hypothesis Hdelta : (p_eta P * p_eta P < p_delta P)%Qc.
Hypothesis Hd1 : (p_delta P < 1)%Qc.
Hypothesis Hearly : p_early P = false.
Variables (fuel : nat) (max_iter : list (list Z) -> nat) (ne : list Qc -> Z) (rec : bool) (delta : Qc).
Hypothesis Hfuel : 2 <= fuel.
Hypothesis Hd0 : (0 <= delta)%Qc.
Variables (c D : nat).
Notation calm := (calm rnd si ze expo P).
Notation ready := (ready rnd si ze expo P c D).
Notation valid_to := (valid_to rnd si ze expo).
Notation svp ef := (svp_reduction rnd si ze expo P fuel ef max_iter ne rec delta).
Notation blocks ef := (blocks rnd si ze expo P fuel ef max_iter ne rec delta).
Notation hkz ef := (hkz rnd si ze expo P fuel ef max_iter ne rec delta).
Notation tour ef := (tour rnd si ze expo P fuel ef max_iter ne rec delta).
Notation bkz_loop ef := (bkz_loop rnd si ze expo P fuel ef max_iter ne rec delta).

Lemma enum_block_t (st : lst) kappa m R : calm st -> 0 < m -> kappa + m <= nkr (lz st) -> (forall j, j < kappa + m -> j < vc (ls st) j) ->
  (forall j, j < kappa + m -> (0 < RR (lz st) j j)%Qc) -> (0 <= R)%Qc ->
  exists e0 res, forall ef, e0 <= ef -> enum_block rnd si ze expo P ef ne rec st kappa m R = Some res.
Proof.
  intros [HF HXP _ _] Hm HK HV HP HR. unfold enum_block.
  rewrite (oseq_map _ (fun i => RR (lz st) (kappa + i) (kappa + i))).
  2:{ intros i Hi. apply in_seq in Hi. apply r_val_q; auto; try lia. apply HV. lia. }
  cbn [obind].
  rewrite (oseq_map _ (fun j => map (fun i => MM (lz st) (kappa + j) (kappa + i)) (seq 0 j))).
  2:{ intros j Hj. apply in_seq in Hj. apply oseq_map. intros i Hi. apply in_seq in Hi. apply (get_mu_q rnd si ze expo P); auto; try lia. apply Nat.lt_trans with (kappa + j); [lia|]. apply HV; lia. }
  cbn [obind]. set (r := map (fun i => RR (lz st) (kappa + i) (kappa + i)) (seq 0 m)) in *.
  set (mu := map (fun j => map (fun i => MM (lz st) (kappa + j) (kappa + i)) (seq 0 j)) (seq 0 m)) in *.
  set (muf := fun j i => nth i (nth j mu []) 0%Qc) in *. set (rf := fun i => nth i r 0%Qc) in *.
  assert (Hr : forall k, k < m -> (0 < rf k)%Qc).
  { intros k Hk. unfold rf, r. rewrite (nth_map_seq (fun i => RR (lz st) (kappa + i) (kappa + i))) by auto. apply HP; lia. }
  destruct (enum_best_terminates m muf rf None false R (ne r) 1 rec Hm Hr HR ltac:(lia)) as [e0 [s ES]].
  exists e0, (match kept s with [] => None | p :: _ => Some (snd p) end). intros ef Hef.
  pose proof (enum_run_mono rec e0 ef (ne r) accept_all BestN 1 _ s Hef ES) as EM.
  match goal with |- obind ?A _ = _ => replace A with (Some s) by (symmetry; exact EM) end. reflexivity.
Qed.

(** the limit on LLL iterations is large enough *)
Hypothesis Hmi : forall B kend, length B = D -> all_pos c B D -> 0 < kend <= D ->
  exists m, (potential c B kend * p_delta P ^ S m < 1)%Qc /\ kend - 1 + m <= max_iter B.
Variable Bs : list (list Z).
(** the rows are a basis of the lattice of Bs *)
Definition LK (B : list (list Z)) : Prop := length B = D /\ (forall v, LB c D B v <-> LB c D Bs v) /\ all_pos c B D.
Lemma LK_stable : stable rnd si ze expo P c LK.
Proof.
  intros B B' k srs [H1 [H2 H3]] Hk HL _ HR _. split; [congruence|]. split; [|eapply row_changed_pos; eauto; lia].
  intros v. rewrite <- H2. apply (row_changed_LB c D B B' k); auto; lia.
Qed.
Lemma LK_lstable kend : kend <= D -> lstable rnd si ze expo P c kend LK.
Proof.
  intros HD B B' k k' [H1 [H2 H3]] Hk HE HA [B1 [L1 [R1 [_ HC]]]].
  assert (K1 : LK B1).
  { split; [congruence|]. split; [|eapply row_changed_pos; eauto; lia]. intros v. rewrite <- H2. apply (row_changed_LB c D B B1 k); auto; lia. }
  destruct HC as [[_ ->]|[i [Hi [_ [L2 [HI _]]]]]]; auto. destruct K1 as [G1 [G2 G3]]. pose proof (inserted_LB c D B1 B' k i G1 ltac:(lia) HI) as IB.
  split; [congruence|]. split; [intros v; rewrite IB; auto|]. eapply LB_pos; eauto.
Qed.

Lemma svp_returns (st : lst) kappa m : ready st -> 0 < m -> kappa + m <= D ->
  exists e0 st' b, forall ef, e0 <= ef -> svp ef st kappa m = Some (st', BRet b).
Proof.
  intros HR Hm HD.
  destruct (size_red_q rnd si ze expo P HX Heta fuel Hfuel c D st 0 (S kappa) 0 HR ltac:(lia) ltac:(lia) ltac:(split; [lia|intros; lia])) as [s0 [E0 [R0 [S0 [V0 _]]]]].
  rewrite Nat.add_0_l in E0, V0. pose proof R0 as [C0 G0 D0 I0 P0].
  destruct (r_exp_q rnd si ze expo P (lz s0) (ls s0) kappa) as [ro [eo [EO RO]]]; [apply C0|apply C0|destruct V0; lia|destruct V0 as [_ V0]; apply V0; lia|].
  destruct (Hmi (gb (lz s0)) (kappa + m) ltac:(unfold gd in D0; exact D0) P0 ltac:(lia)) as [mm [M1 M2]].
  destruct (lll_t rnd si ze expo P HX Heta Hthr Hdelta Hd1 fuel max_iter mm s0 (kappa + m) Hfuel (C_f _ _ _ _ _ _ C0) (C_x _ _ _ _ _ _ C0) (C_l _ _ _ _ _ _ C0)) as [s1 [E1 _]]; auto; try lia.
  { intros _. apply (C_g _ _ _ _ _ _ C0). }
  { rewrite G0. intros j Hj. apply P0. lia. }
  { rewrite G0. exact M1. }
  assert (J0 : length (gb (lz s0)) = D /\ all_pos c (gb (lz s0)) D) by (split; auto).
  set (J := fun B : list (list Z) => length B = D /\ all_pos c B D).
  destruct (lll_k rnd si ze expo P HX Heta Hthr Hdelta c J (kappa + m)) with (fuel := fuel) (max_iter := max_iter) (st := s0) (st' := s1)
    as [C1 [F1 [D1 [J1 [P1 [L1 [L2 _]]]]]]]; auto; try lia.
  { intros B B' k k' [H1 H3] Hk HE HA [B1 [LL1 [R1 [_ HC]]]].
    assert (K1 : J B1) by (split; [congruence|]; eapply row_changed_pos; eauto; lia).
    destruct HC as [[_ ->]|[i [Hi [_ [LL2 [HI _]]]]]]; auto. destruct K1 as [G1 G3]. split; [congruence|].
    eapply (LB_pos c D B1); eauto. apply (inserted_LB c D B1 B' k i); auto; lia. }
  { intros j Hj. apply P0. lia. }
  destruct F1 as [Fa [Fb [Fc [Fd Fe]]]]. assert (G1 : gc (lz s1) = c) by congruence. destruct J1 as [LL1 A1].
  assert (RP : (0 < RR (lz s1) kappa kappa)%Qc) by (rewrite G1; apply A1; lia).
  assert (RN : (0 <= RR (lz s1) kappa kappa * delta)%Qc).
  { set (r := RR (lz s1) kappa kappa) in *. clearbody r. clear - RP Hd0. qcnra. }
  destruct (enum_block_t s1 kappa m (RR (lz s1) kappa kappa * delta)%Qc C1 Hm L2 L1 ltac:(intros j Hj; rewrite G1; apply A1; lia) RN) as [e0 [res EB]].
  pose proof (enum_block_q rnd si ze expo P e0 ne rec s1 kappa m _ res C1 Hm L2 L1 ltac:(intros j Hj; rewrite G1; apply A1; lia) RN (EB e0 (le_n _))) as EN.
  rewrite G1 in EN.
  assert (HS : exists s2, match res with Some x => svp_insert rnd si ze expo P s1 kappa m x | None => Some s1 end = Some s2 /\ ready s2).
  { destruct res as [x|].
    - destruct EN as [N1 [N2 [N3 N4]]].
      assert (PR : primitive m (fun i => nth i x 0%Z)).
      { eapply shortest_primitive; eauto. intros k Hk. unfold br. apply A1. lia. }
      destruct (svp_insert_q rnd si ze expo P s1 kappa m x C1 ltac:(congruence) L2 PR) as [s2 [X1 [X2 [X3 [X4 [X5 [X6 X7]]]]]]].
      exists s2. split; [exact X1|]. destruct X3 as [Ya [Yb [Yc [Yd Ye]]]]. rewrite G1 in X6. rewrite D1, D0 in X5, X6.
      constructor; auto; try congruence. eapply (LB_pos c D (gb (lz s1))); eauto.
    - exists s1. split; auto. constructor; auto; congruence. }
  destruct HS as [s2 [E2 R2]].
  destruct (size_red_q rnd si ze expo P HX Heta fuel Hfuel c D s2 0 (S kappa) 0 R2 ltac:(lia) ltac:(lia) ltac:(split; [lia|intros; lia])) as [s3 [E3 [R3 [S3 [V3 [_ M3]]]]]].
  rewrite Nat.add_0_l in E3, V3. pose proof R3 as [C3 G3 D3 I3 P3].
  destruct (r_exp_q rnd si ze expo P (lz s3) (ls s3) kappa) as [rn [en [EN3 RN3]]]; [apply C3|apply C3|destruct V3; lia|destruct V3 as [_ V3]; apply V3; lia|].
  exists e0, s3, (negb (qltb (rn * pow2 (en - eo)%Z) ro)%Qc). intros ef Hef. unfold svp_reduction.
  rewrite E0. cbn [obind fst snd].
  match goal with |- obind ?A _ = _ => replace A with (Some (ro, eo)) by (symmetry; exact EO) end. cbn [obind fst snd].
  rewrite E1. cbn [obind fst snd]. rewrite (r_val_q rnd si ze expo P s1 kappa) by (try apply C1; try lia; apply L1; lia). cbn [obind].
  rewrite (EB ef Hef). cbn [obind].
  match goal with |- obind ?A _ = _ => replace A with (Some s2) by (symmetry; exact E2) end. cbn [obind].
  rewrite E3. cbn [obind fst snd].
  match goal with |- obind ?A _ = _ => replace A with (Some (rn, en)) by (symmetry; exact EN3) end. reflexivity.
Qed.

Lemma svp_total (st : lst) kappa m : ready st -> LK (gb (lz st)) -> 0 < m -> kappa + m <= D ->
  exists e0 st' b, (forall ef, e0 <= ef -> svp ef st kappa m = Some (st', BRet b)) /\ ready st' /\ LK (gb (lz st')) /\ valid_to st' (S kappa).
Proof.
  intros HR HJ Hm HD. destruct (svp_returns st kappa m HR Hm HD) as [e0 [st' [b E]]]. exists e0, st', b. split; auto.
  destruct (svp_gen rnd si ze expo P HX Heta Hthr Hdelta Hearly fuel e0 max_iter ne rec delta Hfuel Hd0 c D LK st st' kappa m b)
    as [B0 [B1 [B2 [J0 [J1 [L1 [HC [RE [L2 [P2 [R' [V' _]]]]]]]]]]]]; auto.
  { intros B HB. apply HB. }
  { apply LK_stable. }
  { apply LK_lstable. auto. }
  split; auto. split; auto. apply RE; [apply LK_stable|]. destruct HC as [[-> _]|[x [_ [_ [_ [_ [_ [U [LL _]]]]]]]]]; auto.
  destruct J1 as [G1 [G2 G3]]. split; auto. split; auto. intros v. rewrite LL. auto.
Qed.

Lemma blocks_total size : forall cnt st k cl, ready st -> LK (gb (lz st)) -> (forall i, k <= i < k + cnt -> 0 < size i /\ i + size i <= D) ->
  (0 < cnt \/ valid_to st k) ->
  exists e0 st' b, (forall ef, e0 <= ef -> blocks ef size cnt st k cl = Some (st', BRet b)) /\ ready st' /\ LK (gb (lz st')) /\ valid_to st' (k + cnt).
Proof.
  induction cnt as [|cnt IH]; intros st k cl HR HJ HS HV.
  - exists 0, st, cl. split; [reflexivity|]. split; auto. split; auto. rewrite Nat.add_0_r. destruct HV; auto. lia.
  - destruct (HS k ltac:(lia)) as [S1 S2]. destruct (svp_total st k (size k) HR HJ S1 S2) as [e1 [s1 [b1 [E1 [R1 [J1 V1]]]]]].
    destruct (IH s1 (S k) (cl && b1) R1 J1) as [e2 [s2 [b2 [E2 [R2 [J2 V2]]]]]]; auto.
    { intros i Hi. apply HS. lia. }
    exists (Nat.max e1 e2), s2, b2. split; [|split; auto; split; auto; replace (k + S cnt) with (S k + cnt) by lia; auto].
    intros ef Hef. cbn [BkzExactModel.blocks]. rewrite E1 by lia. cbn [obind fst snd]. apply E2. lia.
Qed.

Lemma tour_total st beta : ready st -> LK (gb (lz st)) -> 2 <= beta -> 2 <= D ->
  exists e0 st' b, (forall ef, e0 <= ef -> tour ef st beta 0 D = Some (st', BRet b)) /\ ready st' /\ LK (gb (lz st')).
Proof.
  intros HR HJ Hb HD.
  destruct (blocks_total (fun _ => beta) (D - beta - 0) st 0 true HR HJ) as [e1 [s1 [b1 [E1 [R1 [J1 V1]]]]]].
  { intros i Hi. lia. }
  { right. split; [lia|intros; lia]. }
  destruct (blocks_total (fun kappa => D - kappa) (D - 1 - (D - beta)) s1 (D - beta) true R1 J1) as [e2 [s2 [b2 [E2 [R2 [J2 V2]]]]]].
  { intros i Hi. lia. }
  { left. lia. }
  replace (D - beta + (D - 1 - (D - beta))) with (D - 1) in V2 by lia.
  destruct (size_red_q rnd si ze expo P HX Heta fuel Hfuel c D s2 (D - 1) 1 (D - 2) R2 ltac:(lia) ltac:(lia) V2) as [s3 [E3 [R3 [S3 _]]]].
  replace (D - 1 + 1) with D in * by lia.
  exists (Nat.max e1 e2), s3, (b1 && b2). split; [|split; auto; apply S3; auto; apply LK_stable].
  intros ef Hef. unfold BkzExactModel.tour, trunc_tour. rewrite E1 by lia. cbn [obind fst snd].
  unfold BkzExactModel.hkz. rewrite E2 by lia. cbn [obind fst snd]. rewrite E3. reflexivity.
Qed.

Lemma loop_total beta : 2 <= beta -> 2 <= D -> forall n st, ready st -> LK (gb (lz st)) ->
  exists e0 st' b, (forall ef, e0 <= ef -> bkz_loop ef n st beta D = Some (st', BRet b)) /\ ready st' /\ LK (gb (lz st')) /\ (D <= beta -> 0 < n -> b = true).
Proof.
  intros Hb HD. induction n as [|n IH]; intros st HR HJ.
  - exists 0, st, false. split; [reflexivity|]. split; auto. split; auto. lia.
  - destruct (tour_total st beta HR HJ Hb HD) as [e1 [s1 [b1 [E1 [R1 J1]]]]].
    destruct (b1 || (D <=? beta)) eqn:EB.
    + exists e1, s1, true. split; [|split; auto]. intros ef Hef. cbn [BkzExactModel.bkz_loop]. rewrite E1 by auto. cbn [obind fst snd]. rewrite EB. reflexivity.
    + destruct (IH s1 R1 J1) as [e2 [s2 [b2 [E2 [R2 [J2 X2]]]]]]. exists (Nat.max e1 e2), s2, b2. split; [|split; auto; split; auto].
      * intros ef Hef. cbn [BkzExactModel.bkz_loop]. rewrite E1 by lia. cbn [obind fst snd]. rewrite EB. apply E2. lia.
      * intros X. apply orb_false_iff in EB. destruct EB as [_ EB]. apply Nat.leb_gt in EB. lia.
Qed.
End S.
