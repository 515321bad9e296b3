(** hlll (hlll.cpp:26-173) in exact real arithmetic on linearly independent rows:
    size reduction needs two passes, no test fails, and every swap lowers a Gram
    determinant. *)
From Coq Require Import List ZArith QArith Qcanon Reals Lra Lia Arith Bool.
From Flocq Require Import Core.
From Verif Require Import Util QcUtil LatticeSpec NumVectModel MatrixModel MatrixProofs GsoModel GsoFModel GsoFSpec GsoProofs
  GsoQ QGs GramDet LatPot HouseModel HouseProofs HouseReal HouseRun HlllRun HlllSpec HlllSpecFacts HlllBridge.
Import ListNotations.
Local Open Scope R_scope.

(** ** the row operation on the basis *)
Lemma row_op_exact D z i j lx zx e2 z' : Zinv D z -> (i < D)%nat -> (j < D)%nat -> i <> j ->
  row_addmul_we z i j lx 0 zx e2 = Some z' ->
  length (gb z') = length (gb z) /\
  forall a k, ent (gb z') a k = (ent (gb z) a k + if (a =? i)%nat then lx * ent (gb z) j k else 0)%Z.
Proof.
  intros [HI HG] Hi Hj Hij E.
  assert (HL : legal_rowop (disc D z) i j). { split; [exact Hi|]. split; [exact Hj|auto]. }
  pose proof (row_addmul_we_disc D z i j lx 0 zx e2 HG) as ED. rewrite E in ED.
  unfold row_addmul_we in ED. rewrite Nat.eqb_refl in ED.
  destruct (Z.eqb_spec lx 1) as [->|N1].
  { destruct (row_add_ok _ _ _ HI HL) as [w [Ew [_ [_ [_ [[L1 L2] _]]]]]]. rewrite Ew in ED. injection ED as ->. split; auto. }
  destruct (Z.eqb_spec lx (-1)) as [->|N2].
  { destruct (row_sub_ok _ _ _ HI HL) as [w [Ew [_ [_ [_ [[L1 L2] _]]]]]]. rewrite Ew in ED. injection ED as ->. split; auto. }
  destruct (Z.eqb_spec lx 0) as [->|N3]; cbn [negb] in ED.
  { apply (f_equal (fun o => match o with Some w => gb w | None => [] end)) in ED. cbn in ED. rewrite <- ED. split; auto. intros a k. destruct (a =? i)%nat; lia. }
  destruct (row_addmul_si_ok _ _ _ lx HI HL) as [w [Ew [_ [_ [_ [[L1 L2] _]]]]]]. rewrite Ew in ED. injection ED as ->. split; auto.
Qed.

Section Run.
Variable dz : R -> R.
Notation ho := (r_hops dz).
Variable en_e : bool.
Variables d n : nat.
Hypothesis Hdn : (d <= n)%nat.
Variable zi : gz.
Variable Pr : hpar ho.

Ltac cR := change (HF ho) with R in *.
Notation delta := (p_delta ho Pr : R).
Notation theta := (p_theta ho Pr : R).
Notation Rt := (Rt dz).
Notation et := (et dz).
Notation bt := (bt dz).
Notation nt := (nt dz).
Notation vt := (vt dz).
Notation st := (st dz).
Notation row_ok := (row_ok dz n).
Notation done_ok := (done_ok dz n).
Notation fresh := (fresh dz n).
Notation pre := (pre dz n).
Notation Sinv := (Sinv dz en_e d n zi).
Notation rho := (rho dz).
Notation only_k := (only_k dz).
Notation BB s := (gb (hz ho s)).

(** row i of the basis after the first k transformations *)
Definition tru (s : hst ho) (k i l : nat) : R := ah n (vt s) (st s) k (fun l => IZR (ent (BB s) i l)) l.

Lemma tru_ar s k i : row_ok s i -> (k <= n)%nat -> forall l, (l < n)%nat -> tru s k i l = ar dz n s k i l * p2 (et s i).
Proof.
  intros [H _] Hk l Hl. unfold tru, ar.
  rewrite (ah_ext n (vt s) (vt s) (st s) (st s) k Hk (fun _ _ _ _ => eq_refl) (fun _ _ => eq_refl) _ (fun l => p2 (et s i) * bt s i l + 0 * bt s i l)); auto.
  - rewrite ah_comb by auto. ring.
  - intros m Hm. rewrite <- H by auto. ring.
Qed.
Lemma tru_low s k i : (forall i, (i < k)%nat -> done_ok s i) -> row_ok s i -> (i < k)%nat -> (k <= n)%nat ->
  forall l, (l < n)%nat -> tru s k i l = if (l <=? i)%nat then rho s i l else 0.
Proof.
  intros H RO Hi Hk l Hl. rewrite tru_ar by auto. unfold ar.
  rewrite (trim k n (vt s) (st s) (bt s) (Rt s)); auto.
  - unfold HlllRun.rho. destruct (l <=? i)%nat; ring.
  - intros j Hj. apply H. auto.
  - intros j m Hj Hm. destruct (H j Hj) as [_ E]. apply E. auto.
Qed.

(** R_addmul (householder.cpp:549-558) on real numbers *)
Lemma R_addmul_real k x ri rj r : (k <= length ri)%nat -> (k <= length rj)%nat -> R_addmul ho k x ri rj = Some r ->
  forall l, (l < k)%nat -> en r l = en ri l + x * en rj l.
Proof.
  intros H1 H2 E l Hl. unfold R_addmul in E. cbn [h_is1 h_ism1 r_hops] in E. cR.
  assert (G : forall f, rw2 0 k f ri rj = Some r -> en r l = f (en ri l) (en rj l)).
  { intros f Ef. destruct (rw2_spec f 0 0 k ri rj H1 H2) as [r' [E' [_ N]]]. rewrite E' in Ef. injection Ef as ->.
    unfold en. rewrite N. rewrite (proj2 (Nat.ltb_lt l k)) by auto. reflexivity. }
  destruct (req x 1) eqn:E1. { apply req_true in E1. rewrite (G _ E). cbn. subst x. unfold HouseReal.en. cbn. ring. }
  destruct (req x (-1)) eqn:E2. { apply req_true in E2. rewrite (G _ E). cbn. subst x. cbn. ring. }
  rewrite (G _ E). cbn. ring.
Qed.

Definition zzero (s : hst ho) (k : nat) : Prop := forall l, (l < k)%nat -> Rabs (tru s k k l) <= rho s l l / 2.

Lemma size_reduce_loop_total D k cnt : forall s red s' red', HOK ho d n D zi s -> (k < D)%nat -> (cnt <= k)%nat ->
  (forall i, (i < k)%nat -> row_ok s i /\ done_ok s i /\ 0 < Rt s i i) ->
  (forall l, (l < cnt)%nat -> Rt s k l * p2 (et s k) = tru s k k l) ->
  (forall l, (cnt <= l < k)%nat -> Rabs (tru s k k l) <= rho s l l / 2) ->
  size_reduce_loop ho s k 0 cnt red = Some (s', red') ->
  length (BB s') = length (BB s) /\ row_changed n (BB s) (BB s') k /\ zzero s' k.
Proof.
  induction cnt; intros s red s' red' K Hk Hc HR H1 H2 E; cbn [size_reduce_loop] in E.
  - injection E as <- <-. split; auto. split.
    + split; auto. exists (fun _ => 0%Z). intros l Hl. rewrite zsum_0; [lia|]. intros; lia.
    + intros l Hl. apply H2. lia.
  - pose proof K as [Sh Z HD _]. pose proof Sh as []. cbn [Nat.add] in E.
    rewrite !(mget_some (h_0 ho) d n) in E by (auto; lia). cbn [obind] in E.
    rewrite !(fun i H => nth_error_lt (hre ho s) i 0%Z H) in E by lia. cbn [obind] in E.
    change (nth k (hre ho s) 0%Z) with (et s k) in E. change (nth cnt (hre ho s) 0%Z) with (et s cnt) in E.
    change (gent (h_0 ho) (hR ho s) k cnt) with (Rt s k cnt) in E.
    change (gent (h_0 ho) (hR ho s) cnt cnt) with (Rt s cnt cnt) in E.
    destruct (HR cnt ltac:(lia)) as [RC [DC PC]].
    set (e := (et s k - et s cnt)%Z) in *.
    set (N := ZnearestE (Rt s k cnt / Rt s cnt cnt * p2 e)).
    assert (PE : forall a, 0 < p2 a) by (intros; apply p2_pos).
    assert (PN : forall a, p2 a <> 0) by (intros a; apply Rgt_not_eq; apply PE).
    assert (RP : 0 < rho s cnt cnt) by (unfold HlllRun.rho; apply Rmult_lt_0_compat; auto).
    assert (Q : Rt s k cnt / Rt s cnt cnt * p2 e = tru s k k cnt / rho s cnt cnt).
    { rewrite <- H1 by lia. unfold HlllRun.rho, e, Z.sub. rewrite p2_add.
      assert (p2 (- et s cnt) = / p2 (et s cnt)).
      { apply (Rmult_eq_reg_r (p2 (et s cnt))); [|auto]. rewrite p2_opp. field. auto. }
      rewrite H. field. split; auto. lra. }
    assert (EX : h_neg ho (h_rnd ho (h_div ho (Rt s k cnt) (Rt s cnt cnt)) e) = - (IZR N * p2 (- e))).
    { cbn. rewrite (proj2 (req_false (Rt s cnt cnt) 0)) by lra. reflexivity. }
    rewrite EX in E. clear EX.
    assert (TC : Rabs (tru s k k cnt - IZR N * rho s cnt cnt) <= rho s cnt cnt / 2).
    { pose proof (near_half (Rt s k cnt / Rt s cnt cnt * p2 e)) as X. fold N in X. rewrite Q in X.
      replace (tru s k k cnt - IZR N * rho s cnt cnt) with (- (IZR N - tru s k k cnt / rho s cnt cnt) * rho s cnt cnt) by (field; lra).
      rewrite Rabs_mult, Rabs_Ropp, (Rabs_pos_eq (rho s cnt cnt)) by lra. nra. }
    assert (TL : forall i l, (i < k)%nat -> (l < n)%nat -> tru s k i l = if (l <=? i)%nat then rho s i l else 0).
    { intros i l Hi Hl. apply tru_low; auto; try lia; [|apply HR; auto]. intros; apply HR; auto. }
    cbn [h_sgn r_hops] in E. destruct (req (- (IZR N * p2 (- e))) 0) eqn:ER; cbn [negb] in E.
    + apply req_true in ER. specialize (PE (- e)%Z).
      assert (N0 : IZR N = 0). { assert (IZR N * p2 (- e) = 0) by lra. apply Rmult_integral in H. destruct H; auto. lra. }
      rewrite N0 in TC. replace (tru s k k cnt - 0 * rho s cnt cnt) with (tru s k k cnt) in TC by ring.
      apply IHcnt in E; auto; try lia.
      intros l Hl. destruct (Nat.eq_dec l cnt) as [->|]; auto. apply H2. lia.
    + destruct (hrow_addmul_we ho s k cnt (- (IZR N * p2 (- e))) e) as [s1|] eqn:E1; cbn [obind] in E; [|discriminate].
      destruct (hrow_addmul_we_K ho d n D zi s k cnt (- (IZR N * p2 (- e))) e) as [s1' [E1' K1]]; auto; try lia.
      rewrite E1 in E1'. injection E1' as <-.
      unfold hrow_addmul_we in E1. cbn [h_si h_ze r_hops fst snd] in E1.
      assert (EN : Ztrunc (- (IZR N * p2 (- e)) * p2 e) = (- N)%Z).
      { replace (- (IZR N * p2 (- e)) * p2 e) with (IZR (- N)).
        - apply Ztrunc_IZR.
        - rewrite opp_IZR. replace (- (IZR N * p2 (- e)) * p2 e) with (- IZR N * (p2 (- e) * p2 e)) by ring. rewrite p2_opp. ring. }
      rewrite EN in E1.
      destruct (row_addmul_we (hz ho s) k cnt (- N) 0 (- N) 0) as [z'|] eqn:Ez; cbn [obind] in E1; [|discriminate].
      destruct (dims_nth _ _ _ k S_R) as [G1 LG1]; try lia. destruct (dims_nth _ _ _ cnt S_R) as [G2 LG2]; try lia.
      rewrite G1, G2 in E1. cbn [obind] in E1.
      destruct (R_addmul ho k _ _ _) as [ri|] eqn:Er; cbn [obind] in E1; [|discriminate]. injection E1 as E1.
      assert (LK : (k < length (hR ho s))%nat) by (destruct S_R; lia).
      assert (RKK : forall l, (l < k)%nat -> Rt s1 k l = Rt s k l + - (IZR N * p2 (- e)) * Rt s cnt l).
      { intros l Hl. replace (Rt s1 k l) with (HouseReal.en ri l).
        - refine (R_addmul_real k _ _ _ ri _ _ Er l Hl); cR; lia.
        - rewrite <- E1. unfold HouseRun.Rt. cbn. rewrite nth_upd_eq by (cR; lia). auto. }
      assert (RO : forall i, i <> k -> Rt s1 i = Rt s i).
      { intros i Hi. rewrite <- E1. unfold HouseRun.Rt. cbn. rewrite nth_upd_neq by auto. auto. }
      assert (ZZ : hz ho s1 = z') by (rewrite <- E1; reflexivity).
      assert (EV : hV ho s1 = hV ho s /\ hsig ho s1 = hsig ho s /\ hbf ho s1 = hbf ho s /\ hre ho s1 = hre ho s /\ hnb ho s1 = hnb ho s) by (rewrite <- E1; auto).
      assert (OK : only_k k s s1).
      { rewrite <- E1. repeat split; cbn; intros i Hi; [apply nth_upd_neq; auto|]. eapply row_addmul_we_other; eauto. }
      clear E1. destruct EV as [EV [ES [EB [EE ENb]]]].
      destruct (row_op_exact D (hz ho s) k cnt (- N) (- N) 0 z' Z) as [LB EB']; auto; try lia. rewrite <- ZZ in LB, EB'.
      assert (TK : forall l, (l < n)%nat -> tru s1 k k l = tru s k k l - IZR N * tru s k cnt l).
      { intros l Hl. unfold tru. replace (vt s1) with (vt s) by (unfold HouseRun.vt; rewrite EV; auto).
        replace (st s1) with (st s) by (unfold HouseRun.st; rewrite ES; auto).
        rewrite (ah_ext n (vt s) (vt s) (st s) (st s) k ltac:(lia) (fun _ _ _ _ => eq_refl) (fun _ _ => eq_refl) _
          (fun l => 1 * IZR (ent (BB s) k l) + - IZR N * IZR (ent (BB s) cnt l))); auto.
        - rewrite ah_comb by lia. ring.
        - intros m Hm. rewrite EB', Nat.eqb_refl, plus_IZR, mult_IZR, opp_IZR. ring. }
      assert (RW : forall i, i <> k -> nth i (BB s1) [] = nth i (BB s) []).
      { intros i Hi. rewrite ZZ. eapply row_addmul_we_other; eauto. }
      assert (ET : forall i, et s1 i = et s i) by (intros; unfold HouseRun.et; rewrite EE; auto).
      assert (RH : forall i l, i <> k -> rho s1 i l = rho s i l).
      { intros i l Hi. unfold HlllRun.rho. rewrite RO, ET by auto. auto. }
      apply IHcnt in E; auto; try lia.
      * destruct E as [L1 [C1 Z1]]. split; [congruence|]. split; auto.
        apply (row_changed_trans n (BB s) (BB s1)); auto.
        { change (length (BB s)) with (hd_ ho s). lia. }
        split; auto. exists (fun a => if (a =? cnt)%nat then (- N)%Z else 0%Z). intros l Hl.
        rewrite EB', Nat.eqb_refl. f_equal. rewrite (zsum_single k cnt); [rewrite Nat.eqb_refl; auto|lia|].
        intros a _ Ha. destruct (Nat.eqb_spec a cnt); [congruence|lia].
      * intros i Hi. destruct (HR i Hi) as [A1 [A2 A3]]. split; [|split].
        { eapply only_k_rows; eauto. lia. }
        { apply (only_k_done dz d n Hdn k s s1); auto. lia. }
        { rewrite RO by lia. auto. }
      * intros l Hl. rewrite TK, (TL cnt) by lia. rewrite (proj2 (Nat.leb_le l cnt)) by lia. rewrite <- H1, RKK, ET by lia.
        unfold HlllRun.rho. replace (et s k) with (e + et s cnt)%Z at 2 by (unfold e; lia). rewrite p2_add.
        replace (et s k) with (e + et s cnt)%Z by (unfold e; lia). rewrite p2_add.
        pose proof (p2_opp e) as PO.
        transitivity (Rt s k l * (p2 e * p2 (et s cnt)) - IZR N * (Rt s cnt l * p2 (et s cnt)) * (p2 (- e) * p2 e)); [ring|rewrite PO; ring].
      * intros l Hl. rewrite TK, (TL cnt), RH by lia. destruct (Nat.eq_dec l cnt) as [->|NE].
        { rewrite Nat.leb_refl. auto. }
        rewrite (proj2 (Nat.leb_gt l cnt)) by lia. replace (tru s k k l - IZR N * 0) with (tru s k k l) by ring. apply H2. lia.
Qed.

(** a row that is size-reduced is left alone *)
Lemma size_reduce_loop_id D k cnt : forall s, HOK ho d n D zi s -> (k < D)%nat -> (cnt <= k)%nat ->
  (forall i, (i < k)%nat -> 0 < Rt s i i /\ Rabs (rho s k i) <= rho s i i / 2) ->
  size_reduce_loop ho s k 0 cnt false = Some (s, false).
Proof.
  induction cnt; intros s K Hk Hc HR; cbn [size_reduce_loop]; auto.
  pose proof K as [Sh Z HD _]. pose proof Sh as []. cbn [Nat.add].
  rewrite !(mget_some (h_0 ho) d n) by (auto; lia). cbn [obind].
  rewrite !(fun i H => nth_error_lt (hre ho s) i 0%Z H) by lia. cbn [obind].
  change (nth k (hre ho s) 0%Z) with (et s k). change (nth cnt (hre ho s) 0%Z) with (et s cnt).
  change (gent (h_0 ho) (hR ho s) k cnt) with (Rt s k cnt).
  change (gent (h_0 ho) (hR ho s) cnt cnt) with (Rt s cnt cnt).
  destruct (HR cnt ltac:(lia)) as [PC HA].
  assert (PE : forall a, 0 < p2 a) by (intros; apply p2_pos).
  assert (PN : forall a, p2 a <> 0) by (intros a; apply Rgt_not_eq; apply PE).
  assert (RP : 0 < rho s cnt cnt) by (unfold HlllRun.rho; apply Rmult_lt_0_compat; auto).
  assert (Q : Rt s k cnt / Rt s cnt cnt * p2 (et s k - et s cnt) = rho s k cnt / rho s cnt cnt).
  { unfold HlllRun.rho, Z.sub. rewrite p2_add.
    assert (p2 (- et s cnt) = / p2 (et s cnt)).
    { apply (Rmult_eq_reg_r (p2 (et s cnt))); [|auto]. rewrite p2_opp. field. auto. }
    rewrite H. field. split; auto. lra. }
  assert (EX : h_neg ho (h_rnd ho (h_div ho (Rt s k cnt) (Rt s cnt cnt)) (et s k - et s cnt)) = 0).
  { cbn. rewrite (proj2 (req_false (Rt s cnt cnt) 0)) by lra. rewrite near_0; [ring|]. rewrite Q.
    unfold Rdiv. rewrite Rabs_mult, Rabs_inv, (Rabs_pos_eq (rho s cnt cnt)) by lra.
    apply (Rmult_le_reg_r (rho s cnt cnt)); auto. rewrite Rmult_assoc, Rinv_l by lra. lra. }
  rewrite EX. cbn [h_sgn r_hops]. rewrite (proj2 (req_true 0 0) eq_refl). cbn [negb]. apply IHcnt; auto. lia.
Qed.

(** no function but row_addmul_we and swap touches the basis *)
Ltac unf E := repeat match type of E with obind ?e _ = _ => let X := fresh "X" in destruct e as [?|] eqn:X; [cbn [obind] in E|discriminate E] end.
Lemma update_R_gb s k s' : update_R ho s k false = Some s' -> BB s' = BB s.
Proof. unfold update_R. destruct (hupd ho s); [intros [= <-]; auto|]. intros E. unf E. injection E as <-. auto. Qed.
Lemma update_R_last_gb s k s' : update_R_last ho s k = Some s' -> BB s' = BB s.
Proof. unfold update_R_last. intros E. unf E. destruct p as [[? ?] ?]. injection E as <-. auto. Qed.
Lemma refresh_R_bf_gb s k s' : refresh_R_bf ho en_e s k = Some s' -> BB s' = BB s.
Proof. unfold refresh_R_bf. intros E. unf E. injection E as <-. auto. Qed.
Lemma refresh_R_bf_V s k s' : refresh_R_bf ho en_e s k = Some s' -> hV ho s' = hV ho s /\ hsig ho s' = hsig ho s.
Proof. unfold refresh_R_bf. intros E. unf E. injection E as <-. auto. Qed.
Lemma update_R_V s k s' : update_R ho s k false = Some s' -> hV ho s' = hV ho s /\ hsig ho s' = hsig ho s /\
  forall i, i <> k -> Rt s' i = Rt s i /\ et s' i = et s i.
Proof.
  unfold update_R. destruct (hupd ho s); [intros [= <-]; auto|]. intros E. unf E. injection E as <-. split; auto. split; auto.
  intros i Hi. unfold HouseRun.Rt. cbn. rewrite nth_upd_neq by auto. auto.
Qed.
Lemma refresh_R_gb s k s' : refresh_R ho s k = Some s' -> BB s' = BB s.
Proof. unfold refresh_R. intros E. unf E. injection E as <-. auto. Qed.
Lemma recover_R_gb s k s' : recover_R ho s k = Some s' -> BB s' = BB s.
Proof. unfold recover_R. destruct k; [discriminate|]. intros E. unf E. injection E as <-. auto. Qed.

Lemma recover_R_frame s k s' : recover_R ho s k = Some s' -> forall i, i <> k -> Rt s' i = Rt s i /\ et s' i = et s i.
Proof.
  unfold recover_R. destruct k; [discriminate|]. intros E i Hi. unf E. injection E as <-.
  unfold HouseRun.Rt. cbn. rewrite nth_upd_neq by auto. auto.
Qed.
Lemma compute_dR_lm x k x' : compute_dR ho Pr x k = Some x' -> lm ho x' = lm ho x.
Proof. unfold compute_dR. intros E. unf E. injection E as <-. auto. Qed.
Lemma compute_eR_lm x k x' : compute_eR ho Pr x k = Some x' -> lm ho x' = lm ho x.
Proof. unfold compute_eR. intros E. unf E. injection E as <-. auto. Qed.

Lemma fresh_tru s k : row_ok s k -> fresh s k -> (k < n)%nat -> forall l, (l < n)%nat -> rho s k l = tru s k k l.
Proof. intros RK [F _] Hk l Hl. rewrite tru_ar by (auto; lia). unfold HlllRun.rho. rewrite F by auto. auto. Qed.

Lemma size_reduction_total D k fuel s : Sinv k D s -> row_ok s k -> pre s k -> (k < D)%nat -> (2 <= fuel)%nat ->
  (forall i, (i < k)%nat -> 0 < Rt s i i) ->
  exists s', size_reduction ho en_e fuel s k k 0 = Some (s', true) /\
    length (BB s') = length (BB s) /\ row_changed n (BB s) (BB s') k /\
    (forall l, (l < k)%nat -> Rabs (rho s' k l) <= rho s' l l / 2).
Proof.
  intros SI RK HP Hk HF HPos. unfold size_reduction.
  destruct (update_R_real dz en_e d n Hdn zi D s k SI RK HP Hk) as [s1 [E1 [S1 [R1 [F1 U1]]]]]. rewrite E1. cbn [obind].
  assert (FR : forall i, (i < k)%nat -> Rt s1 i = Rt s i).
  { intros i Hi. unfold update_R in E1. destruct (hupd ho s); [injection E1 as <-; auto|]. unf E1. injection E1 as <-.
    unfold HouseRun.Rt. cbn. rewrite nth_upd_neq by lia. auto. }
  assert (G1 : BB s1 = BB s) by (eapply update_R_gb; eauto).
  set (t := h_setupd ho s1 false).
  assert (ST : Sinv k D t). { destruct S1 as [K QB QD QE]. constructor; auto. destruct K as [A B0 C0 D0]. constructor; auto. destruct A. constructor; auto. }
  assert (UT : hupd ho t = false) by reflexivity.
  assert (RT : row_ok t k) by exact R1. assert (FT : fresh t k) by exact F1.
  assert (PT : forall i, (i < k)%nat -> 0 < Rt t i i). { intros i Hi. change (Rt t i i) with (Rt s1 i i). rewrite FR by auto. auto. }
  rewrite <- G1. change (BB s1) with (BB t). clearbody t. clear s1 E1 S1 R1 F1 U1 FR G1. clear s SI RK HP HPos.
  destruct fuel as [|[|fuel]]; try lia. remember (S fuel) as fuel1 eqn:Hf. cbn [size_reduction_loop].
  pose proof ST as [K QB QD QE]. pose proof K as [_ _ HD _].
  destruct (size_reduce_K ho d n D zi t k k 0) as [s1 [red [E1 K1]]]; auto; try lia. rewrite E1. cbn [obind].
  unfold size_reduce in E1. rewrite Nat.sub_0_r in E1.
  destruct (size_reduce_loop ho t k 0 k false) as [[w r]|] eqn:E2; cbn [obind] in E1; [|discriminate E1].
  pose proof E2 as E3. apply (size_reduce_loop_real dz d n Hdn zi D) in E2; auto. destruct E2 as [OK [_ SAME]].
  apply (size_reduce_loop_total D) in E3; auto; try (intros; lia).
  2: { intros i Hi. split; [apply QB; lia|]. split; auto. }
  2: { intros l Hl. apply fresh_tru; auto; lia. }
  destruct E3 as [L3 [C3 Z3]]. injection E1 as Et Er. subst r.
  destruct red; cbn [negb].
  2: { exists s1. subst s1. rewrite SAME in * by auto. split; auto. split; auto. split; auto.
       intros l Hl. rewrite fresh_tru by (auto; lia). apply Z3. auto. }
  assert (OK1 : only_k k t s1) by (rewrite <- Et; exact OK).
  assert (EB1 : BB s1 = BB w) by (rewrite <- Et; reflexivity).
  assert (ZZ1 : zzero s1 k) by (rewrite <- Et; exact Z3).
  rewrite <- EB1 in L3, C3. clear OK SAME Et Z3 EB1 w.
  assert (S1 : Sinv k D s1).
  { constructor; auto.
    - intros i Hi N. eapply only_k_rows; eauto.
    - intros i Hi. apply (only_k_done dz d n Hdn k t s1); auto. lia.
    - intros Q i. destruct OK1 as [_ [_ [_ [A4 _]]]]. unfold HouseRun.et. rewrite A4. apply QE; auto. }
  pose proof K1 as [[] _ _ _].
  rewrite (nth_error_lt (hnb ho s1) k 0), (nth_error_lt (hnbe ho s1) k 0%Z) by (cR; lia). cbn [obind].
  destruct (refresh_R_bf_real dz en_e d n Hdn zi k D s1 k) as [s2 [E2 [K2 [R2 [P2 [D2 [B2 [F2 [Z2 U2]]]]]]]]]; auto; try lia.
  rewrite E2. cbn [obind]. replace (Nat.max D (S k)) with D in K2 by lia.
  assert (S2 : Sinv k D s2).
  { constructor; auto. intros i Hi N. apply B2; auto. apply S1; auto. }
  assert (UU : hupd ho s2 = false). { rewrite U2. destruct OK1 as [_ [_ [_ [_ [_ [-> _]]]]]]. auto. }
  destruct (update_R_real dz en_e d n Hdn zi D s2 k) as [s3 [E3 [S3 [R3 [FR3 U3]]]]]; auto.
  { unfold HouseRun.pre. rewrite UU. auto. }
  pose proof K2 as [[] _ _ _].
  rewrite (nth_error_lt (hnb ho s2) k 0), (nth_error_lt (hnbe ho s2) k 0%Z) by (cR; lia). cbn [obind].
  rewrite E3. cbn [obind orb].
  destruct (refresh_R_bf_V _ _ _ E2) as [V2 G2]. destruct (update_R_V _ _ _ E3) as [V3 [G3 F3]].
  pose proof (refresh_R_bf_gb _ _ _ E2) as B21. pose proof (update_R_gb _ _ _ E3) as B32.
  assert (RD : forall l, (l < k)%nat -> Rabs (rho s3 k l) <= rho s3 l l / 2).
  { intros l Hl. rewrite fresh_tru by (auto; lia). unfold tru, HouseRun.vt, HouseRun.st. rewrite B32, B21, V3, V2, G3, G2.
    unfold HlllRun.rho. destruct (F3 l) as [-> ->]; [lia|]. destruct (F2 l) as [-> ->]; [lia|]. apply ZZ1. auto. }
  assert (P3 : forall i, (i < k)%nat -> 0 < Rt s3 i i).
  { intros i Hi. destruct (F3 i) as [-> _]; [lia|]. destruct (F2 i) as [-> _]; [lia|].
    destruct OK1 as [_ [_ [_ [_ [_ [_ [A7 _]]]]]]]. unfold HouseRun.Rt. rewrite A7 by lia. apply PT. auto. }
  exists s3. rewrite B32, B21. split; auto.
  subst fuel1. cbn [size_reduction_loop]. unfold size_reduce. rewrite Nat.sub_0_r.
  rewrite (size_reduce_loop_id D); auto. destruct S3; auto.
Qed.
(** ** the tests *)
Lemma verify_holds k D x : Linv dz en_e d n zi Pr k D x -> (k < D)%nat ->
  (forall j, (j < k)%nat -> Rabs (Rt (lm ho x) k j) <=
    sqrt (rs (fun l => Rt (lm ho x) k l * Rt (lm ho x) k l) k (n - k)) * theta +
    nth j (leR ho x) 0 * p2 (et (lm ho x) j - et (lm ho x) k)) ->
  verify_size_reduction ho en_e Pr x k = Some true.
Proof.
  intros [L [K _ _ _] Wd We Wr] Hk HB. pose proof K as [Sh _ HD _]. pose proof L as [_ L1 L2]. pose proof Sh as [].
  unfold verify_size_reduction. rewrite S_n.
  assert (EN : exists p, norm_R_row ho en_e (lm ho x) k k n = Some p /\
     fst p = sqrt (rs (fun l => Rt (lm ho x) k l * Rt (lm ho x) k l) k (n - k))).
  { unfold norm_R_row. rewrite (proj2 (Nat.eqb_neq n k)) by lia.
    destruct (dims_nth _ _ _ k S_R) as [E1 LR]; try lia. rewrite E1. cbn [obind].
    destruct (hdot_some ho (nth k (hR ho (lm ho x)) []) (nth k (hR ho (lm ho x)) []) k n) as [y Ey]; try (cR; lia).
    rewrite Ey. cbn [obind]. apply hdot_real in Ey; try (cR; lia).
    rewrite (nth_error_lt (hre ho (lm ho x)) k 0%Z) by lia. cbn [obind]. eexists. split; [reflexivity|].
    cbn [fst h_sqrt r_hops]. rewrite Ey. reflexivity. }
  destruct EN as [p [EN FP]]. rewrite EN. cbn [obind].
  match goal with |- ofor _ ?f _ = _ => set (F := f) end.
  destruct (ofor_inv (fun (i : nat) (ok : bool) => ok = true) F k 0%nat true) as [ok [E' H]]; auto.
  - intros i ok Hi ->. unfold F. cbn [negb].
    rewrite (mget_some (h_0 ho) d n) by (auto; lia). cbn [obind].
    rewrite (nth_error_lt (hre ho (lm ho x)) k 0%Z), (nth_error_lt (hre ho (lm ho x)) i 0%Z) by lia. cbn [obind].
    rewrite (nth_error_lt (leR ho x) i (h_0 ho)) by lia. cbn [obind].
    eexists; split; [reflexivity|]. apply negb_true_iff. cbn [h_gt h_abs h_add h_mul h_mul2 r_hops]. apply rlt_false.
    rewrite FP. apply HB. lia.
  - rewrite E', H. auto.
Qed.

Lemma lovasz_false k D x : Linv dz en_e d n zi Pr (S k) D x -> (S k < D)%nat ->
  lovasz_test ho en_e x (S k) = Some false ->
  (nt (lm ho x) (S k) - rs (fun l => Rt (lm ho x) (S k) l * Rt (lm ho x) (S k) l) 0 k) *
    p2 (2 * et (lm ho x) (S k) - 2 * et (lm ho x) k) < nth k (ldR ho x) 0.
Proof.
  intros [L [K _ _ Qe] Wd We Wr] Hk E. pose proof K as [Sh _ HD _]. pose proof L as [_ L1 L2]. pose proof Sh as [].
  unfold lovasz_test in E.
  rewrite (nth_error_lt (hnb ho (lm ho x)) (S k) (h_0 ho)) in E by lia. cbn [obind] in E.
  replace (S k - 1)%nat with k in E by lia.
  destruct (norm_square_R_row ho en_e (lm ho x) (S k) 0 k) as [p|] eqn:EN; cbn [obind] in E; [|discriminate E].
  rewrite (nth_error_lt (hre ho (lm ho x)) k 0%Z) in E by lia. cbn [obind] in E.
  rewrite (nth_error_lt (ldR ho x) k (h_0 ho)) in E by lia. cbn [obind] in E.
  injection E as E. cbn [h_le r_hops h_mul2 h_sub] in E. apply negb_false_iff, rlt_true in E.
  assert (FP : fst p = rs (fun l => Rt (lm ho x) (S k) l * Rt (lm ho x) (S k) l) 0 k /\
               snd p = (2 * et (lm ho x) (S k))%Z).
  { unfold norm_square_R_row in EN. destruct (Nat.eqb_spec k 0) as [->|N].
    - cbn [obind] in EN. rewrite (nth_error_lt (hre ho (lm ho x)) 1 0%Z) in EN by lia. cbn [obind] in EN. injection EN as <-.
      cbn [fst snd]. split; [reflexivity|]. destruct en_e; auto. rewrite Qe by auto. auto.
    - destruct (dims_nth _ _ _ (S k) S_R) as [E1 LR]; try lia. rewrite E1 in EN. cbn [obind] in EN.
      destruct (hdot ho _ _ 0 k) as [y|] eqn:Ey; cbn [obind] in EN; [|discriminate EN].
      apply hdot_real in Ey; try (cR; lia). rewrite Nat.sub_0_r in Ey.
      rewrite (nth_error_lt (hre ho (lm ho x)) (S k) 0%Z) in EN by lia. cbn [obind] in EN. injection EN as <-.
      cbn [fst snd]. split; [exact Ey|]. destruct en_e; auto. rewrite Qe by auto. auto. }
  destruct FP as [F1 F2]. destruct p as [q1 q2]. cbn [fst snd] in *. subst q1 q2. exact E.
Qed.

(** ** the R-factor of the rows done and the orthogonalisation *)
Lemma nth_firstn_lt {A} (l : list A) k i x : (i < k)%nat -> nth i (firstn k l) x = nth i l x.
Proof. revert k i. induction l; intros [|k] [|i] H; cbn; auto; try lia. apply IHl. lia. Qed.

Lemma BB_len D s : HOK ho d n D zi s -> length (BB s) = d.
Proof. intros [[] _ _ _]. auto. Qed.

Lemma done_factor D s k : Sinv k D s -> (k <= D)%nat ->
  r_factor n (firstn k (BB s)) (tri (Rt s) (et s)) /\ length (firstn k (BB s)) = k.
Proof.
  intros [K QB QD QE] Hk. pose proof K as [_ _ HD _]. pose proof (BB_len D s K) as LB.
  assert (LF : length (firstn k (BB s)) = k) by (rewrite firstn_length; lia). split; auto.
  apply (tri_r_factor k n (firstn k (BB s)) (vt s) (st s) (bt s) (Rt s) (et s)); auto; try lia.
  - intros i l Hi Hl. unfold ent. rewrite nth_firstn_lt by auto. destruct (QB i) as [H _]; try lia. apply H. auto.
  - intros i Hi. destruct (QD i Hi) as [H _]. exact H.
  - intros i l Hi Hl. destruct (QD i Hi) as [_ H]. apply H. auto.
Qed.
Lemma all_pos_firstn B k : all_pos n B (length B) -> all_pos n (firstn k B) (length (firstn k B)).
Proof.
  intros H j Hj. rewrite firstn_length in Hj. rewrite (qR_same n B (firstn k B) j j); [apply H; lia|auto|].
  intros a Ha. apply nth_firstn_lt. lia.
Qed.
Lemma done_bridge D s k : Sinv k D s -> (k <= D)%nat -> all_pos n (BB s) d ->
  forall i, (i < k)%nat -> 0 < rho s i i /\ rho s i i * rho s i i = qr (qR n (BB s) i i).
Proof.
  intros SI Hk AP i Hi. destruct (done_factor D s k SI Hk) as [F L]. pose proof SI as [K _ _ _].
  rewrite <- (BB_len D s K) in AP. pose proof (all_pos_firstn _ k AP) as AP'.
  assert (T : tri (Rt s) (et s) i i = rho s i i) by (unfold tri; rewrite Nat.leb_refl; reflexivity).
  split.
  - rewrite <- T. apply (bridge_pos n (firstn k (BB s))); auto. lia.
  - rewrite <- T. rewrite (bridge n (firstn k (BB s)) _ F AP' i i) by lia. f_equal. apply qR_same; auto.
    intros a Ha. apply nth_firstn_lt. lia.
Qed.
Lemma done_proj D s k i : Sinv (S k) D s -> (S k <= D)%nat -> all_pos n (BB s) d -> (i <= k)%nat ->
  qr (qproj n (BB s) k i) = IZR (inner n (nth k (BB s) []) (nth k (BB s) [])) - rsum i (fun l => rho s k l * rho s k l).
Proof.
  intros SI Hk AP Hi. destruct (done_factor D s (S k) SI Hk) as [F L]. pose proof SI as [K _ _ _].
  rewrite <- (BB_len D s K) in AP. pose proof (all_pos_firstn _ (S k) AP) as AP'.
  rewrite <- (nth_firstn_lt (BB s) (S k) k) by lia.
  rewrite <- (qproj_same n (BB s) (firstn (S k) (BB s)) k i); auto.
  - rewrite (bridge_proj n (firstn (S k) (BB s)) _ F AP' k i) by lia. f_equal. apply rsum_ext. intros l Hl.
    unfold tri. rewrite (proj2 (Nat.leb_le l k)) by lia. reflexivity.
  - intros a Ha. apply nth_firstn_lt. lia.
Qed.

(** swapping two rows *)
Lemma hswap_inserted D s k s' : HOK ho d n D zi s -> (S k < D)%nat -> hswap ho en_e s k (S k) = Some s' ->
  inserted (BB s) (BB s') (S k) k.
Proof.
  intros K Hk E. pose proof (BB_len D s K) as LB. destruct K as [_ Z HD _].
  destruct (swap_Z D (hz ho s) k (S k) Z) as [z' [Ez [_ [_ [GD [_ [NG _]]]]]]]; try lia.
  unfold hswap in E. rewrite Ez in E. cbn [obind] in E. unf E. injection E as <-. cbn [hz].
  assert (GDL : gd (hz ho s) = length (BB s)) by reflexivity.
  assert (NN : forall a, (a < d)%nat -> nth a (gb z') [] = nth (tr k (S k) a) (BB s) []).
  { intros a Ha. apply NG. lia. }
  split; [|split; [|split]]; intros; rewrite NN by lia; unfold tr.
  - rewrite Nat.eqb_refl. auto.
  - destruct (Nat.eqb_spec a k); [lia|]. destruct (Nat.eqb_spec a (S k)); [lia|auto].
  - replace a with (S k) by lia. destruct (Nat.eqb_spec (S k) k); [lia|]. rewrite Nat.eqb_refl. f_equal. lia.
  - destruct (Nat.eqb_spec a k); [lia|]. destruct (Nat.eqb_spec a (S k)); [lia|auto].
Qed.

(** ** determinants *)
Lemma pos_row B B' k : row_changed n B B' k -> length B' = length B -> all_pos n B (length B) -> all_pos n B' (length B).
Proof.
  intros RC HL AP. apply det_all_pos. intros j Hj. rewrite (gram_det_row n B B' k) by auto. apply (all_pos_det n B (length B)); auto.
Qed.
Lemma qR_row B B' k j : row_changed n B B' k -> (j < length B)%nat -> all_pos n B (length B) -> qR n B' j j = qR n B j j.
Proof.
  intros RC Hj AP. pose proof (gram_det_step n B j) as E1. pose proof (gram_det_step n B' j) as E2.
  rewrite !(gram_det_row n B B' k) in E2 by (auto; lia). rewrite E1 in E2.
  pose proof (all_pos_det n B (length B) j AP ltac:(lia)) as P.
  set (x := Qcz (gram_det n B j)) in *. apply (f_equal (fun y => (y / x)%Qc)) in E2.
  assert (x <> 0)%Qc by (intros Q; rewrite Q in P; discriminate P).
  rewrite !(Qcmult_comm x) in E2. unfold Qcdiv in E2. rewrite <- !Qcmult_assoc, Qcmult_inv_r in E2 by auto.
  rewrite !Qcmult_1_r in E2. auto.
Qed.
Lemma swap_det B B' k : inserted B B' (S k) k -> (S k < length B)%nat -> all_pos n B (length B) ->
  all_pos n B' (length B) /\ qR n B' k k = qproj n B (S k) k /\
  (forall j, (j <= length B)%nat -> j <> S k -> gram_det n B' j = gram_det n B j) /\
  ((qproj n B (S k) k < qR n B k k)%Qc -> (gram_det n B' (S k) < gram_det n B (S k))%Z).
Proof.
  intros IN Hk AP.
  assert (G : forall j, (j <= length B)%nat -> j <> S k -> gram_det n B' j = gram_det n B j).
  { intros j Hj N. apply (gram_det_outside n B B' (S k) k); auto; lia. }
  pose proof (gram_det_inside n B B' (S k) k (S k) IN ltac:(lia) Hk) as GI. replace (S k - 1)%nat with k in GI by lia.
  pose proof (all_pos_det n B (length B) k AP ltac:(lia)) as P.
  assert (PP : (0 < qproj n B (S k) k)%Qc).
  { eapply Qclt_le_trans; [apply (AP (S k) Hk)|]. rewrite <- qproj_diag. apply qproj_le; lia. }
  split; [|split; [|split]]; auto.
  - apply det_all_pos. intros j Hj. destruct (Nat.eq_dec j (S k)) as [->|N].
    + rewrite GI. set (x := Qcz _) in *. set (y := qproj _ _ _ _) in *. clearbody x y. qcnra.
    + rewrite G by auto. apply (all_pos_det n B (length B)); auto.
  - pose proof (gram_det_step n B' k) as E2. rewrite (G k) in E2 by lia. rewrite GI in E2.
    set (x := Qcz (gram_det n B k)) in *. apply (f_equal (fun y => (y / x)%Qc)) in E2.
    assert (x <> 0)%Qc by (intros Q; rewrite Q in P; discriminate P).
    rewrite !(Qcmult_comm x) in E2. unfold Qcdiv in E2. rewrite <- !Qcmult_assoc, Qcmult_inv_r in E2 by auto.
    rewrite !Qcmult_1_r in E2. auto.
  - intros L. apply Qcz_lt. rewrite GI, gram_det_step.
    set (x := Qcz _) in *. set (y := qproj _ _ _ _) in *. set (w := qR _ _ _ _) in *. clearbody x y w. qcnra.
Qed.

(** ** one iteration *)
Hypothesis Hdelta : / 2 <= delta <= 1.
Hypothesis Htheta : 0 <= theta.

(** the first k rows of the R-factor are size-reduced with parameter 1/2 *)
Definition halved (s : hst ho) (k : nat) : Prop := forall i j, (j < i < k)%nat -> Rabs (rho s i j) <= rho s j j / 2.
Lemma halved_frame s s' k : halved s k -> (forall i, (i < k)%nat -> Rt s' i = Rt s i /\ et s' i = et s i) -> halved s' k.
Proof.
  intros H F i j Hij. unfold HlllRun.rho. destruct (F i) as [-> ->]; [lia|]. destruct (F j) as [-> ->]; [lia|]. apply H. auto.
Qed.

Definition Head2 (x : hl ho) (v : hv ho) : Prop :=
  Head dz en_e d n zi Pr x v /\ all_pos n (BB (lm ho x)) d /\ halved (lm ho x) (vk ho v) /\
  (forall i, (1 <= i < vk ho v)%nat -> nth i (vpR ho v) 0 * p2 (nth i (vpE ho v) 0%Z) = rho (lm ho x) i i) /\
  (vprev ho v = Some (S (vk ho v)) ->
     let p := nth (vk ho v) (vpR ho v) 0 * p2 (nth (vk ho v) (vpE ho v) 0%Z) in
     0 <= p /\ qr (qR n (BB (lm ho x)) (vk ho v) (vk ho v)) <= p * p).

(** the Lovasz test compares the projections *)
Lemma lovasz_value D s k m : Sinv (S k) D s -> row_ok s (S k) -> fresh s (S k) -> (S k < D)%nat -> all_pos n (BB s) d ->
  update_R_last ho s (S k) = Some m ->
  (nt s (S k) - rs (fun l => Rt s (S k) l * Rt s (S k) l) 0 k) * p2 (2 * et s (S k)) = qr (qproj n (BB s) (S k) k).
Proof.
  intros SI RK FR Hk AP E.
  destruct (update_R_last_real dz en_e d n Hdn zi D s (S k)) as [m' [E1 [S1 [RK1 [U1 [RKK [RKL [RI [EI [BI NK]]]]]]]]]]; auto.
  rewrite E in E1. injection E1 as <-. pose proof (update_R_last_gb _ _ _ E) as GB.
  rewrite <- GB. rewrite (done_proj D m (S k) k); auto; try lia; [|rewrite GB; auto].
  rewrite GB. destruct RK as [RB RN]. rewrite RN.
  unfold inner. rewrite IZR_zsum, rsum_rs, rsum_rs. rewrite Rmult_minus_distr_r. f_equal.
  - rewrite Rmult_comm, <- rs_scal. apply rs_ext. intros l Hl. rewrite mult_IZR.
    change (IZR (nth l (nth (S k) (BB s) []) 0%Z)) with (IZR (ent (BB s) (S k) l)). rewrite <- RB by lia.
    replace (2 * et s (S k))%Z with (et s (S k) + et s (S k))%Z by lia. rewrite p2_add. ring.
  - rewrite Rmult_comm, <- rs_scal. apply rs_ext. intros l Hl. unfold HlllRun.rho. rewrite RKL, EI by lia.
    replace (2 * et s (S k))%Z with (et s (S k) + et s (S k))%Z by lia. rewrite p2_add. ring.
Qed.

Lemma iter_total srfuel x v : (2 <= srfuel)%nat -> Head2 x v ->
  exists x' v' o, hlll_iter ho en_e Pr srfuel x v = Some (x', v', o) /\
    match o with
    | Some o => o = HSuccess /\ halved (lm ho x') d
    | None => Head2 x' v' /\
        ((forall j, (j <= d)%nat -> gram_det n (BB (lm ho x')) j = gram_det n (BB (lm ho x)) j) /\
         vk ho v' = S (vk ho v) /\ (vk ho v' < d)%nat \/
         exists q, (q <= d)%nat /\ (gram_det n (BB (lm ho x')) q < gram_det n (BB (lm ho x)) q)%Z /\
           forall j, (j <= d)%nat -> j <> q -> gram_det n (BB (lm ho x')) j = gram_det n (BB (lm ho x)) j)
    end.
Proof.
  intros HF [HH [AP [HV [HA HB]]]].
  destruct (iter_real dz en_e d n Hdn zi Pr srfuel x v HH) as [x' [v' [o [E HM]]]].
  exists x', v', o. split; auto. pose proof E as EI. unfold hlll_iter in E.
  pose proof HH as [Hk [LI [RK [HP [P1 P2]]]]]. pose proof LI as [L SI Wd We Wr]. pose proof SI as [K _ _ _]. pose proof K as [_ _ HD _].
  set (s := lm ho x) in *. set (k := vk ho v) in *. set (D := S (vkmax ho v)) in *.
  pose proof (BB_len D s K) as LB.
  assert (RP : forall i, (i < k)%nat -> 0 < rho s i i) by (intros i Hi; apply (done_bridge D s k); auto; lia).
  assert (RP' : forall i, (i < k)%nat -> 0 < Rt s i i).
  { intros i Hi. specialize (RP i Hi). unfold HlllRun.rho in RP. pose proof (p2_pos (et s i)). nra. }
  destruct (size_reduction_total D k srfuel s) as [m1 [E1 [L1 [C1 Z1]]]]; auto; try lia.
  pose proof E1 as ESR. rewrite E1 in E. cbn [obind fst snd negb] in E.
  apply (size_reduction_real dz en_e d n Hdn zi D) in E1; auto; try lia.
  destruct E1 as [S1 [R1 [F1 [U1 FRM]]]].
  assert (LI1 : Linv dz en_e d n zi Pr k D (l_setm ho x m1)) by (eapply Linv_setm; eauto; apply S1).
  pose proof LI1 as [X1 _ Wd1 We1 _]. cbn [lm l_setm ldR leR] in Wd1, We1.
  rewrite LB in *. assert (AP1 : all_pos n (BB m1) d).
  { rewrite <- LB. apply (pos_row (BB s) (BB m1) k); auto; rewrite LB; auto. }
  rewrite verify_holds with (D := D) in E; auto; try lia.
  2: { intros j Hj. cbn [lm l_setm leR].
       assert (PE : forall a, 0 < p2 a) by (intros; apply p2_pos).
       assert (0 <= sqrt (rs (fun l => Rt m1 k l * Rt m1 k l) k (n - k)) * theta) by (apply Rmult_le_pos; auto; apply sqrt_pos).
       change (leR ho (l_setm ho x m1)) with (leR ho x). rewrite We1 by auto.
       specialize (Z1 j Hj). destruct (FRM j Hj) as [G1 G2]. specialize (RP' j Hj). rewrite <- G1 in RP'.
       unfold HlllRun.rho in Z1. rewrite Rabs_mult, (Rabs_pos_eq (p2 _)) in Z1 by (left; auto).
       unfold Z.sub. rewrite p2_add.
       assert (Rabs (Rt m1 k j) <= Rt m1 j j / 2 * (p2 (et m1 j) * p2 (- et m1 k))).
       { apply (Rmult_le_reg_r (p2 (et m1 k))); auto. eapply Rle_trans; [exact Z1|]. right.
         transitivity (Rt m1 j j / 2 * p2 (et m1 j) * (p2 (- et m1 k) * p2 (et m1 k))); [rewrite p2_opp; field|field]. }
       assert (0 < Rt m1 j j * (p2 (et m1 j) * p2 (- et m1 k))) by (apply Rmult_lt_0_compat; auto; apply Rmult_lt_0_compat; auto).
       nra. }
  cbn [obind negb] in E.
  destruct (lovasz_some ho en_e d n _ zi _ k X1) as [lt E3]; try lia. rewrite E3 in E. cbn [obind] in E.
  destruct (update_R_last_real dz en_e d n Hdn zi D m1 k) as [m [E4 [S4 [RK4 [U4 [RKK [RKL [RI [EI4 [BI NK]]]]]]]]]]; auto; try lia.
  pose proof (update_R_last_gb _ _ _ E4) as GB4.
  assert (GD1 : forall j, (j <= d)%nat -> gram_det n (BB m1) j = gram_det n (BB s) j).
  { intros j Hj. apply (gram_det_row n (BB s) (BB m1) k); auto. lia. }
  assert (FR2 : forall i l, (i < k)%nat -> rho m1 i l = rho s i l).
  { intros i l Hi. unfold HlllRun.rho. destruct (FRM i Hi) as [-> ->]. auto. }
  destruct lt.
  - (* advance *)
    assert (LO : LOK ho d n D zi (l_setm ho (l_setm ho x m1) m)). { eapply LOK_setm; eauto. apply S4. }
    unfold hlll_advance in E. change (vk ho v) with k in E. cbn [lm l_setm] in E.
    rewrite E4 in E. cbn [obind] in E.
    destruct (compute_dR_K ho Pr d n D zi _ k LO) as [x1 [E5 [X5 M5]]]; try lia. rewrite E5 in E. cbn [obind] in E.
    destruct (compute_eR_K ho Pr d n D zi _ k X5) as [x2 [E6 [X6 M6]]]; try lia. rewrite E6 in E. cbn [obind] in E.
    rewrite M5 in M6. cbn [lm l_setm] in M6. rewrite M6 in E. clear M5.
    pose proof S4 as [K4 _ _ _]. pose proof K4 as [[] _ _ _].
    rewrite (mget_some (h_0 ho) d n) in E by (auto; lia). cbn [obind] in E.
    rewrite (nth_error_lt (hre ho m) k 0%Z) in E by lia. cbn [obind] in E.
    rewrite (nth_error_lt (vpR ho v) k (h_0 ho)), (nth_error_lt (vpE ho v) k 0%Z) in E by (cR; lia). cbn [obind] in E.
    change (gent (h_0 ho) (hR ho m) k k) with (Rt m k k) in E. change (nth k (hre ho m) 0%Z) with (et m k) in E.
    assert (APm : all_pos n (BB m) d) by (rewrite GB4; auto).
    destruct (done_bridge D m (S k) S4 ltac:(lia) APm k ltac:(lia)) as [RMP RMQ].
    match type of E with (if ?c then _ else _) = _ => assert (C : c = false) end.
    { apply andb_false_iff. destruct (vprev ho v) as [pv|] eqn:EP; [|auto].
      destruct (Nat.eqb_spec pv (S k)) as [->|]; [right|auto]. cbn [h_gt h_mul2 r_hops]. apply rlt_false.
      specialize (HB eq_refl). cbn zeta in HB. fold k in HB. destruct HB as [HB1 HB2].
      rewrite <- (qR_row (BB s) (BB m1) k k), <- GB4, <- RMQ in HB2; auto; [|lia|rewrite LB; auto].
      assert (LE : rho m k k <= nth k (vpR ho v) 0 * p2 (nth k (vpE ho v) 0%Z)) by (apply Rsqr_incr_0_var; auto).
      apply (Rmult_le_reg_r (p2 (et m k))); [apply p2_pos|]. eapply Rle_trans; [exact LE|]. right.
      unfold Z.sub. rewrite p2_add. rewrite !Rmult_assoc, p2_opp, Rmult_1_r. reflexivity. }
    rewrite C in E. clear C. rewrite S_d in E.
    assert (HA' : forall w v2, lm ho x' = w -> (forall i, i <> S k -> Rt w i = Rt m i) -> (forall i, i <> S k -> et w i = et m i) ->
       vk ho v2 = S k -> vpR ho v2 = upd (vpR ho v) k (Rt m k k) -> vpE ho v2 = upd (vpE ho v) k (et m k) ->
       forall i, (1 <= i < vk ho v2)%nat -> nth i (vpR ho v2) 0 * p2 (nth i (vpE ho v2) 0%Z) = rho w i i).
    { intros w v2 _ A1 A2 A3 A4 A5 i Hi. rewrite A3 in Hi. rewrite A4, A5. unfold HlllRun.rho. rewrite A1, A2 by lia.
      destruct (Nat.eq_dec i k) as [->|N].
      - rewrite !nth_upd_eq by (cR; lia). auto.
      - rewrite !nth_upd_neq by auto. rewrite HA by lia. rewrite RI, EI4 by lia. rewrite <- FR2 by lia. reflexivity. }
    assert (HVm : halved m (S k)).
    { intros i j Hij. destruct (Nat.eq_dec i k) as [->|N].
      - unfold HlllRun.rho. rewrite (RKL j), (RI j), !EI4 by lia. apply Z1. lia.
      - unfold HlllRun.rho. rewrite (RI i), (RI j), !EI4 by lia. destruct (FRM i) as [-> ->]; [lia|].
        destruct (FRM j) as [-> ->]; [lia|]. apply HV. fold k. lia. }
    destruct (Nat.ltb_spec (S k) d) as [LT|GE].
    2: { injection E as <- <- <-. split; auto. rewrite M6. replace d with (S k) by lia. auto. }
    destruct (Nat.ltb_spec (vkmax ho v) (S k)) as [LT2|GE2].
    + assert (DD : D = S k) by (unfold D in *; lia).
      destruct (refresh_R_bf_real dz en_e d n Hdn zi (S k) D m (S k)) as [m2 [E7 [K2 [R2 [P4 [D2 [B2 [F2 [Z2 U2]]]]]]]]]; auto; try lia.
      rewrite E7 in E. cbn [obind] in E. injection E as <- <- <-. pose proof (refresh_R_bf_gb _ _ _ E7) as GB7. cbn [lm l_setm vk].
      split; [|left; split; [intros; rewrite GB7, GB4; auto|auto]].
      split; auto. cbn [lm l_setm vk vprev]. split; [rewrite GB7; auto|].
      split; [apply (halved_frame m m2); auto; intros; apply F2; lia|]. split.
      * apply (HA' m2 (mkhv ho (S k) (S k) (Some k) (upd (vpR ho v) k (Rt m k k)) (upd (vpE ho v) k (et m k)))); auto; intros i Hi; apply F2; auto.
      * intros Q. injection Q. lia.
    + assert (RS : row_ok m (S k)) by (destruct S4 as [_ QB1 _ _]; destruct S1 as [_ QB0 _ _]; (assert (O : row_ok m1 (S k)) by (apply QB0; unfold D; lia));
        clear - O E4; unfold update_R_last in E4;
        repeat match type of E4 with obind ?e _ = _ => let E := fresh "E" in destruct e as [?|] eqn:E; [cbn [obind] in E4|discriminate] end;
        destruct p as [[? ?] ?]; injection E4 as <-; exact O).
      destruct (refresh_R_real dz en_e d n Hdn zi (S k) D m (S k)) as [m2 [E7 [S2 [R2 [_ [P4 [F2 [T2 U2]]]]]]]]; auto; try (unfold D in *; lia).
      rewrite E7 in E. cbn [obind] in E. injection E as <- <- <-. pose proof (refresh_R_gb _ _ _ E7) as GB7. cbn [lm l_setm vk].
      split; [|left; split; [intros; rewrite GB7, GB4; auto|auto]].
      split; auto. cbn [lm l_setm vk vprev]. split; [rewrite GB7; auto|].
      split; [apply (halved_frame m m2); auto; intros i Hi; split; [apply F2; lia|apply T2]|]. split.
      * apply (HA' m2 (mkhv ho (S k) (vkmax ho v) (Some k) (upd (vpR ho v) k (Rt m k k)) (upd (vpE ho v) k (et m k)))); auto.
      * intros Q. injection Q. lia.
  - (* back *)
    unfold hlll_back in E. change (vk ho v) with k in E. destruct k as [|k'] eqn:Ek; [lia|]. cbn [lm l_setm] in E.
    destruct (hswap_real dz en_e d n Hdn zi D m1 k') as [m2 [E5 [S2 [RK2 [F2 [V2 [B2 [H2 U2]]]]]]]]; auto; try lia.
    rewrite E5 in E. cbn [obind] in E.
    pose proof S1 as [K1 _ _ _]. pose proof (hswap_inserted D m1 k' m2 K1 ltac:(lia) E5) as IN.
    assert (LB1 : length (BB m1) = d) by lia.
    destruct (swap_det (BB m1) (BB m2) k' IN) as [AP2 [QR2 [GD2 GL2]]]; rewrite ?LB1; auto; try lia.
    rewrite LB1 in *.
    pose proof (lovasz_false k' D (l_setm ho x m1) LI1 ltac:(lia) E3) as LF. cbn [lm l_setm] in LF.
    change (ldR ho (l_setm ho x m1)) with (ldR ho x) in LF. rewrite Wd1 in LF by lia.
    pose proof (lovasz_value D m1 k' m S1 R1 F1 ltac:(lia) AP1 E4) as LV.
    destruct (done_bridge D m1 (S k') S1 ltac:(lia) AP1 k' ltac:(lia)) as [RMP RMQ].
    assert (QL : qr (qproj n (BB m1) (S k') k') < rho m1 k' k' * rho m1 k' k').
    { rewrite <- LV. unfold Z.sub in LF. rewrite p2_add in LF.
      apply (Rmult_lt_compat_r (p2 (et m1 k') * p2 (et m1 k'))) in LF; [|apply Rmult_lt_0_compat; apply p2_pos].
      pose proof (p2_opp (et m1 k')) as PO.
      replace (- (2 * et m1 k'))%Z with (- et m1 k' + - et m1 k')%Z in LF by lia. rewrite p2_add in LF.
      unfold HlllRun.rho in *.
      set (a := (nt m1 (S k') - rs (fun l => Rt m1 (S k') l * Rt m1 (S k') l) 0 k')) in *.
      set (b := p2 (2 * et m1 (S k'))) in *. set (u := p2 (- et m1 k')) in *. set (w := p2 (et m1 k')) in *.
      replace (a * (b * (u * u)) * (w * w)) with (a * b * (u * w) * (u * w)) in LF by ring. rewrite PO in LF.
      assert (0 < (Rt m1 k' k' * w) * (Rt m1 k' k' * w)) by (apply Rmult_lt_0_compat; auto).
      nra. }
    assert (GL : (gram_det n (BB m2) (S k') < gram_det n (BB s) (S k'))%Z).
    { rewrite <- GD1 by lia. apply GL2. apply PropLllTotal.qr_lt. rewrite <- RMQ. exact QL. }
    assert (GE : forall j, (j <= d)%nat -> j <> S k' -> gram_det n (BB m2) j = gram_det n (BB s) j).
    { intros j Hj N. rewrite GD2, GD1; auto. }
    assert (FIN : BB (lm ho x') = BB m2 -> o = None -> halved (lm ho x') (vk ho v') ->
      (forall i, (1 <= i < vk ho v')%nat -> nth i (vpR ho v') 0 * p2 (nth i (vpE ho v') 0%Z) = rho (lm ho x') i i) ->
      (vprev ho v' = Some (S (vk ho v')) ->
        let p := nth (vk ho v') (vpR ho v') 0 * p2 (nth (vk ho v') (vpE ho v') 0%Z) in
        0 <= p /\ qr (qR n (BB (lm ho x')) (vk ho v') (vk ho v')) <= p * p) ->
      match o with
      | Some o => o = HSuccess /\ halved (lm ho x') d
      | None => Head2 x' v' /\
          ((forall j, (j <= d)%nat -> gram_det n (BB (lm ho x')) j = gram_det n (BB s) j) /\
           vk ho v' = S (S k') /\ (vk ho v' < d)%nat \/
           exists q, (q <= d)%nat /\ (gram_det n (BB (lm ho x')) q < gram_det n (BB s) q)%Z /\
             forall j, (j <= d)%nat -> j <> q -> gram_det n (BB (lm ho x')) j = gram_det n (BB s) j)
      end).
    { intros Q1 -> Q0 Q2 Q3. split.
      - split; auto. split; auto. rewrite Q1. auto.
      - right. exists (S k'). rewrite Q1. split; [lia|]. split; auto. }
    destruct (Nat.eqb_spec k' 0) as [->|N0].
    + unf E. injection E as <- <- <-. apply FIN; auto.
      * cbn [lm l_setm].
        repeat match goal with H : refresh_R _ _ _ = Some _ |- _ => apply refresh_R_gb in H
          | H : update_R_last _ _ _ = Some ?b |- _ => tryif constr_eq b m then fail else apply update_R_last_gb in H
          | H : compute_dR _ _ _ _ = Some _ |- _ => apply compute_dR_lm in H; cbn [lm l_setm] in H
          | H : compute_eR _ _ _ _ = Some _ |- _ => apply compute_eR_lm in H end. congruence.
      * cbn [vk]. intros i j Hij. lia.
      * cbn [vk]. intros; lia.
      * cbn [vk vprev]. discriminate.
    + destruct (recover_R ho m2 k') as [m3|] eqn:E6; cbn [obind] in E; [|discriminate E]. injection E as <- <- <-.
      pose proof (recover_R_gb _ _ _ E6) as GB6. pose proof (recover_R_frame _ _ _ E6) as FR6.
      apply FIN; auto; cbn [vk vprev vpR vpE lm l_setm].
      * intros i j Hij. unfold HlllRun.rho. destruct (FR6 i) as [-> ->]; [lia|]. destruct (F2 i) as [-> ->]; [lia|].
        destruct (FR6 j) as [-> ->]; [lia|]. destruct (F2 j) as [-> ->]; [lia|].
        destruct (FRM i) as [-> ->]; [lia|]. destruct (FRM j) as [-> ->]; [lia|]. apply HV. lia.
      * intros i Hi. rewrite HA by lia. rewrite <- FR2 by lia. unfold HlllRun.rho.
        destruct (FR6 i) as [-> ->]; [lia|]. destruct (F2 i) as [-> ->]; [lia|]. auto.
      * intros _. rewrite HA by lia. cbn zeta. rewrite <- FR2 by lia. split; [lra|]. rewrite GB6, QR2. lra.
Qed.

(** ** the whole run *)
Lemma sum_one_less (f g : nat -> Z) q : forall m, (q < m)%nat -> (f q < g q)%Z ->
  (forall j, (j < m)%nat -> j <> q -> f j = g j) -> (zsum m f < zsum m g)%Z.
Proof.
  induction m; intros Hq L H; [lia|]. cbn [zsum]. destruct (Nat.eq_dec q m) as [->|N].
  - rewrite (zsum_ext m f g); [lia|]. intros j Hj. apply H; lia.
  - rewrite (H m) by lia. assert (zsum m f < zsum m g)%Z by (apply IHm; auto; lia). lia.
Qed.

Definition pot (x : hl ho) : Z := zsum (S d) (gram_det n (BB (lm ho x))).
Lemma pot_nonneg x v : Head2 x v -> (0 <= pot x)%Z.
Proof.
  intros [_ [AP _]]. unfold pot. apply zsum_nonneg. intros j Hj.
  pose proof (all_pos_det n _ d j AP ltac:(lia)) as P. rewrite <- Qcz_0 in P. apply (proj1 (Qcz_lt 0 _)) in P. lia.
Qed.

(** at most one iteration more than d times the potential *)
Lemma loop_total srfuel : (2 <= srfuel)%nat -> forall p c x v, Head2 x v -> (pot x <= Z.of_nat p)%Z -> (d - vk ho v <= c)%nat ->
  forall fuel, (p * d + c < fuel)%nat -> exists x', hlll_loop ho en_e Pr fuel srfuel x v = Some (x', HSuccess) /\ halved (lm ho x') d.
Proof.
  intros HF.
  induction p as [p IHp] using lt_wf_ind. induction c as [c IHc] using lt_wf_ind.
  intros x v H2 HPp HPc fuel Hfu. destruct fuel as [|fuel]; [lia|]. cbn [hlll_loop].
  destruct (iter_total srfuel x v HF H2) as [x1 [v1 [o [E HM]]]]. rewrite E. cbn [obind fst snd].
  destruct o as [o|]. { destruct HM as [-> HM]. eauto. }
  destruct HM as [H3 HM]. pose proof (pot_nonneg x v H2) as PN. pose proof (pot_nonneg x1 v1 H3) as PN1.
  destruct HM as [[G [V1 V2]]|[q [Q1 [Q2 Q3]]]].
  - apply (IHc (d - vk ho v1)%nat); auto; try lia. unfold pot in *. rewrite (zsum_ext (S d) _ (gram_det n (BB (lm ho x)))); auto.
    intros j Hj. apply G. lia.
  - assert (PL : (pot x1 < pot x)%Z). { unfold pot. apply (sum_one_less _ _ q); auto; try lia. intros; apply Q3; auto; lia. }
    assert (VK : (1 <= vk ho v1)%nat) by (destruct H3 as [[A _] _]; lia).
    assert (VK2 : (1 <= vk ho v < d)%nat).
    { destruct H2 as [[A [LI _]] _]. destruct LI as [_ [K _ _ _] _ _ _]. destruct K as [_ _ HD _]. lia. }
    apply (IHp (p - 1)%nat ltac:(lia) (d - vk ho v1)%nat); auto; try lia. nia.
Qed.

Lemma init_total junk s : (2 <= d)%nat -> HOK ho d n 0 zi s -> hupd ho s = false -> (forall i, et s i = 0%Z) ->
  all_pos n (BB s) d ->
  exists x v, hlll_init ho en_e Pr junk s = Some (x, v) /\ Head2 x v /\ BB (lm ho x) = BB s /\ vk ho v = 1%nat.
Proof.
  intros Hd K HU HE AP. destruct (init_real dz en_e d n Hdn zi Pr junk s Hd K HU HE) as [x [v [E H]]].
  exists x, v. split; auto.
  assert (G : BB (lm ho x) = BB s /\ vk ho v = 1%nat /\ vprev ho v = None).
  { clear H. unfold hlll_init in E. unf E. injection E as <- <-. cbn [lm l_setm vk vprev]. split; auto.
    repeat match goal with H : refresh_R_bf _ _ _ _ = Some _ |- _ => apply refresh_R_bf_gb in H
          | H : update_R_last _ _ _ = Some ?b |- _ => apply update_R_last_gb in H
          | H : compute_dR _ _ _ _ = Some _ |- _ => apply compute_dR_lm in H; cbn [lm l_setm] in H
          | H : compute_eR _ _ _ _ = Some _ |- _ => apply compute_eR_lm in H end. congruence. }
  destruct G as [G1 [G2 G3]]. split; auto. split; auto. rewrite G1, G2, G3. split; auto. split.
  - intros i j Hij. lia.
  - split; [intros; lia|discriminate].
Qed.
End Run.
