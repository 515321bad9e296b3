(** C72: splitting the enumeration tree with Enumerator (enum/topenum.cpp). *)
From Coq Require Import List ZArith QArith Qcanon Arith Bool Lia Reals Lra.
From Verif Require Import Util QcUtil GsoQ EnumModel EnumRefine EnumTop EnumExact EnumSpec EnumTree EnumLink EnumCall EvalModel PropEnum TopModel TopProofs.
Import ListNotations.
Local Open Scope Qc_scope.

(** ** Specification *)
(** [x] lies in the subtree [t]: its last coordinates are [t] *)
Definition lies_in (x t : list Z) : Prop := exists p, x = p ++ t.
(** rounding to a nearest integer *)
Definition nearest (rnd : Qc -> Z) : Prop := forall c, Qcz 2 * (Qcz (rnd c) - c) <= 1 /\ Qcz 2 * (c - Qcz (rnd c)) <= 1.

Lemma lies_neg_zero x t : allz t = true -> lies_in x t -> lies_in (neg x) t.
Proof.
  intros Z [p ->]. exists (map Z.opp p). unfold neg. rewrite map_app. f_equal.
  apply nth_ext with 0%Z 0%Z; [apply map_length|]. intros n Hn. change 0%Z with (Z.opp 0) at 1. rewrite map_nth.
  rewrite !(allz_nth _ Z). reflexivity.
Qed.
Lemma neg_len x : length (neg x) = length x. Proof. apply map_length. Qed.
Lemma tpos_app2 p t : tpos t = true -> tpos (p ++ t) = true.
Proof.
  intros T. rewrite (tpos_skip (length p)); [|rewrite skipn_app, skipn_all2, Nat.sub_diag by lia; cbn; now apply tpos_nz].
  rewrite skipn_app, skipn_all2, Nat.sub_diag by lia. exact T.
Qed.

Section C72.
Variables (d : nat) (mu : nat -> nat -> Qc) (r : nat -> Qc) (kmin : Z).
Variables (vle vge : Qc -> Z -> bool) (rnd : Qc -> Z).
Hypothesis Hr : forall i, (i < d)%nat -> 0 < r i.
Hypothesis Hrnd : nearest rnd.

(** The sequence of subtrees handed out by enum_next, the bound of the i-th call being [Rs i] and arbitrary: a vector
    that is within all the bounds lies, up to sign, in exactly one of the subtrees.  Hypotheses: the level -1 is never
    asked for (min_level >= 0, or an estimate that is small there), and the estimate for the whole remaining
    tree is not exactly max_volume in the first call. *)
Theorem top_once fuel calls Rs l :
  (0 <= kmin)%Z \/ (forall b, vle b (-1)%Z = true /\ vge b (-1)%Z = false) ->
  (forall m, (m < Z.of_nat d - 1)%Z -> vle (Rs 0%nat) m = true -> vge (Rs 0%nat) m = false) ->
  split d mu r kmin vle vge rnd fuel calls Rs top_new = Some l ->
  forall x, length x = d -> (forall i, vlen d mu r x <= Rs i) ->
  exists! i, (i < length l)%nat /\ (lies_in x (nth i l []) \/ lies_in (neg x) (nth i l [])).
Proof.
  intros UF NT H x Hx HW.
  destruct (split_new d mu r kmin vle vge rnd Hr Hrnd fuel calls Rs l UF H) as (A & B & _ & _ & C). specialize (C NT).
  assert (HN : forall i, vlen d mu r (neg x) <= Rs i) by (intros i; unfold vlen; rewrite plen_neg; apply HW).
  assert (LN : length (neg x) = d) by (now rewrite neg_len).
  assert (EX : exists i, (i < length l)%nat /\ (lies_in x (nth i l []) \/ lies_in (neg x) (nth i l []))).
  { destruct (allz x) eqn:Z0.
    - destruct (A x Hx HW (or_introl Z0)) as (t & HI & HE). apply (In_nth _ _ []) in HI as (i & Hi & <-). exists i. auto.
    - destruct (tpos_or_opp x Z0) as [T|T].
      + destruct (A x Hx HW (or_intror T)) as (t & HI & HE). apply (In_nth _ _ []) in HI as (i & Hi & <-). exists i. auto.
      + destruct (A (neg x) LN HN (or_intror T)) as (t & HI & HE). apply (In_nth _ _ []) in HI as (i & Hi & <-). exists i. auto. }
  assert (UNI : forall i j, (i < length l)%nat -> (j < length l)%nat -> lies_in x (nth i l []) -> lies_in (neg x) (nth j l []) -> i = j).
  { intros i j Hi Hj E1 E2. destruct (C _ (nth_In l [] Hi)) as [T1|Z1].
    - destruct (C _ (nth_In l [] Hj)) as [T2|Z2].
      + exfalso. apply (tpos_not_both x).
        * destruct E1 as [p ->]. now apply tpos_app2.
        * change (tpos (neg x) = true). destruct E2 as [p ->]. now apply tpos_app2.
      + apply (B x); auto. change (lies_in x (nth j l [])). rewrite <- (neg_neg x). now apply lies_neg_zero.
    - apply (B (neg x)); auto. change (lies_in (neg x) (nth i l [])). now apply lies_neg_zero. }
  destruct EX as (i & Hi & E). exists i. split; [auto|]. intros j (Hj & E'). destruct E as [E|E], E' as [E'|E'].
  - apply (B x); auto.
  - now apply UNI.
  - symmetry. now apply UNI.
  - apply (B (neg x)); auto.
Qed.

(** Without the second hypothesis the vectors within the bounds are still all found. *)
Theorem top_cover fuel calls Rs l :
  (0 <= kmin)%Z \/ (forall b, vle b (-1)%Z = true /\ vge b (-1)%Z = false) ->
  split d mu r kmin vle vge rnd fuel calls Rs top_new = Some l ->
  forall x, length x = d -> (forall i, vlen d mu r x <= Rs i) ->
  exists t, In t l /\ (lies_in x t \/ lies_in (neg x) t).
Proof.
  intros UF H x Hx HW.
  destruct (split_new d mu r kmin vle vge rnd Hr Hrnd fuel calls Rs l UF H) as (A & _).
  assert (HN : forall i, vlen d mu r (neg x) <= Rs i) by (intros i; unfold vlen; rewrite plen_neg; apply HW).
  assert (LN : length (neg x) = d) by (now rewrite neg_len).
  destruct (allz x) eqn:Z0.
  - destruct (A x Hx HW (or_introl Z0)) as (t & HI & HE). exists t. auto.
  - destruct (tpos_or_opp x Z0) as [T|T].
    + destruct (A x Hx HW (or_intror T)) as (t & HI & HE). exists t. auto.
    + destruct (A (neg x) LN HN (or_intror T)) as (t & HI & HE). exists t. auto.
Qed.

(** Every subtree handed out is worth looking at: the projection of its vectors that it determines is within
    the bound of some call. *)
Theorem top_inside fuel calls Rs l :
  (0 <= kmin)%Z \/ (forall b, vle b (-1)%Z = true /\ vge b (-1)%Z = false) ->
  split d mu r kmin vle vge rnd fuel calls Rs top_new = Some l ->
  forall t, In t l -> (1 <= length t <= d)%nat /\
    exists i, forall x, length x = d -> lies_in x t -> plen d mu r no_target x (d - length t) <= Rs i.
Proof.
  intros UF H. destruct (split_new d mu r kmin vle vge rnd Hr Hrnd fuel calls Rs l UF H) as (_ & _ & A & B & _). auto.
Qed.

(** The sequence ends, for all bounds below a common [M]. *)
Theorem top_terminates M :
  (0 <= kmin)%Z \/ (forall b, vle b (-1)%Z = true /\ vge b (-1)%Z = false) -> (0 < d)%nat ->
  exists fuel, forall Rs : nat -> Qc, (forall i, Rs i <= M) ->
  exists l, split d mu r kmin vle vge rnd fuel fuel Rs top_new = Some l.
Proof.
  intros UF HD.
  assert (EN : forall n, exists N, forall j, (j < n)%nat -> (j < d)%nat -> Qcz 4 * M < Qcz (Z.of_nat N) * r j).
  { induction n as [|n [N IH]]; [exists 0%nat; intros; lia|].
    destruct (le_lt_dec d n); [exists N; intros j Hj Hd; apply IH; lia|].
    assert (AR : exists N', Qcz 4 * M / r n < Qcz (Z.of_nat N')).
    { exists (Z.to_nat (Qround.Qfloor (this (Qcz 4 * M / r n)) + 1)). apply Qclt_le_trans with (Qcz (Qround.Qfloor (this (Qcz 4 * M / r n)) + 1)).
      - unfold Qclt. rewrite Qcz_Q. apply Qround.Qlt_floor.
      - apply Qcz_le. lia. }
    destruct AR as [N' HN'].
    exists (Nat.max N N'). intros j Hj Hjd.
    assert (MX : forall a b : nat, (a <= b)%nat -> Qcz (Z.of_nat a) * r j <= Qcz (Z.of_nat b) * r j).
    { intros a b Hab. assert (Q : Qcz (Z.of_nat a) <= Qcz (Z.of_nat b)) by (apply Qcz_le; lia). pose proof (Hr j Hjd) as P. revert Q P.
      generalize (Qcz (Z.of_nat a)) (Qcz (Z.of_nat b)) (r j). clear. intros. qcnra. }
    destruct (Nat.eq_dec j n) as [->|NE].
    - eapply Qclt_le_trans; [|apply (MX N'); lia]. pose proof (Hr n Hjd) as P.
      assert (E : Qcz 4 * M = Qcz 4 * M / r n * r n) by (field; intros E; rewrite E in P; discriminate P).
      rewrite E. revert HN' P. generalize (Qcz 4 * M / r n) (Qcz (Z.of_nat N')) (r n). clear. intros. qcnra.
    - eapply Qclt_le_trans; [apply (IH j); lia|apply MX; lia]. }
  destruct (EN d) as [N HN]. apply (split_term d mu r kmin vle vge rnd Hr Hrnd M N); auto.
Qed.

(** ** Enumeration of all the subtrees *)
Lemma sum_unique {A} (f : A -> nat) (df : A) : forall l i, (i < length l)%nat -> f (nth i l df) = 1%nat ->
  (forall j, (j < length l)%nat -> j <> i -> f (nth j l df) = 0%nat) -> list_sum (map f l) = 1%nat.
Proof.
  assert (SZ : forall l, (forall j, (j < length l)%nat -> f (nth j l df) = 0%nat) -> list_sum (map f l) = 0%nat).
  { induction l as [|b l IH]; intros H; auto. change (f b + list_sum (map f l) = 0)%nat.
    rewrite IH; [|intros j Hj; apply (H (S j)); cbn [length]; lia]. pose proof (H 0%nat) as H0. cbn [nth length] in H0. rewrite H0 by lia. reflexivity. }
  induction l as [|a l IH]; intros i Hi H1 H0; cbn [length] in Hi; [lia|]. change (f a + list_sum (map f l) = 1)%nat. destruct i as [|i].
  - cbn [nth] in H1. rewrite H1, SZ; [reflexivity|]. intros j Hj. apply (H0 (S j)); cbn [length]; lia.
  - pose proof (H0 0%nat) as Z. cbn [nth length] in Z. rewrite Z by lia. cbn [Nat.add]. apply (IH i); [lia|exact H1|].
    intros j Hj NE. apply (H0 (S j)); cbn [length]; lia.
Qed.
Lemma sum_zero {A} (f : A -> nat) l : (forall a, In a l -> f a = 0%nat) -> list_sum (map f l) = 0%nat.
Proof.
  induction l as [|a l IH]; intros H; auto. change (f a + list_sum (map f l) = 0)%nat. rewrite (H a) by (left; auto). rewrite IH; auto.
  intros b Hb. apply H. now right.
Qed.
Lemma lies_skipn x t : length x = d -> (length t <= d)%nat -> (lies_in x t <-> skipn (d - length t) x = t).
Proof.
  intros Hx Ht. split.
  - intros [p ->]. rewrite app_length in Hx. replace (d - length t)%nat with (length p) by lia. rewrite skipn_app, skipn_all2, Nat.sub_diag by lia. reflexivity.
  - intros E. exists (firstn (d - length t) x). rewrite <- E at 2. now rewrite firstn_skipn.
Qed.

Context {EV : Type}.
Variables (evalS : list Z -> Qc -> Qc -> EV -> EV * Qc) (evalSub : nat -> list Z -> Qc -> EV -> EV) (ev0 : EV).
Variables (rec findsub : bool) (ne : Z) (R : Qc).
(** the evaluator leaves the bound alone *)
Hypothesis Hfix : forall v nd m ev, snd (evalS v nd m ev) = m.
Hypothesis HR : 0 <= R.
Hypothesis Hd : (2 <= d)%nat.

Definition sub_run (fuel : nat) (t : list Z) : option (est qe_ops EV) :=
  run_enum qe_ops evalS evalSub (no_rst qe_ops) rec fuel (enum_input d mu r None t findsub None R ne) ev0.

Lemma sub_facts t fuel s : (length t < d)%nat -> plen d mu r no_target (root_vec d t) (d - length t) <= R -> sub_run fuel t = Some s ->
  call_facts d mu r None t None R ne evalS evalSub (fun _ m => m = R * pow2 (- ne)) ev0 (s_g s).
Proof.
  intros HL HB H. eapply (call_spec d mu r None t findsub None R ne); eauto.
  - intros k _. cbn. discriminate.
  - apply Qcle_refl.
  - intros v nd m ev -> _ _. rewrite Hfix. split; [reflexivity|apply Qcle_refl].
  - intros ev m ->. pose proof (pow2_pos (- ne)) as P. revert HR P. generalize (pow2 (- ne)). clear. intros. qcnra.
Qed.

Lemma sub_times t fuel s x : (length t < d)%nat -> plen d mu r no_target (root_vec d t) (d - length t) <= R -> sub_run fuel t = Some s -> length x = d ->
  (lies_in x t /\ vlen d mu r x <= R /\ (allz t = true -> tpos x = true) -> times x s = 1%nat) /\
  (~ (lies_in x t /\ vlen d mu r x <= R /\ (allz t = true -> tpos x = true)) -> times x s = 0%nat).
Proof.
  intros HL HB H Hx. destruct (sub_facts t fuel s HL HB H) as [F1 F2 F3 F4 F5 F6].
  assert (HR0 : forall i, (i < d)%nat -> 0 <= r i) by (intros; apply Qclt_le_weak; auto).
  split.
  - intros (L & W & T). assert (P : (0 < times x s)%nat).
    { apply count_occ_In. apply F3; auto.
      - apply lies_skipn; auto. lia.
      - intros k Hk. rewrite F5, unscale. cbn [prune_at]. rewrite Qcmult_1_l. eapply Qcle_trans; [apply (plen_anti d mu r no_target x 0 k HR0); lia|exact W]. }
    pose proof (proj1 (NoDup_count_occ (list_eq_dec Z.eq_dec) _) F2 x) as N. unfold times, reported in *. lia.
  - intros NW. destruct (times x s) eqn:E; auto. exfalso. apply NW.
    assert (Hy : (0 < times x s)%nat) by lia. apply count_occ_In in Hy. apply in_map_iff in Hy as ([[v nd] m] & EE & Hy). cbn in EE. subst v.
    destruct (F1 x nd m Hy) as (_ & A & _ & _ & B & C). split; [|split].
    + apply lies_skipn; auto. lia.
    + specialize (B 0%nat ltac:(lia)). cbn [prune_at] in B. rewrite Qcmult_1_l in B. exact B.
    + intros Z0. apply C. exact Z0.
Qed.

(** Splitting with a bound R and enumerating every subtree with the same bound reports every non-zero vector within the bound
    exactly once up to sign, and nothing else. *)
Theorem split_enumerate fuel calls l fe (run : list Z -> est qe_ops EV) :
  (1 <= kmin)%Z \/ (forall b m, (m <= 0)%Z -> vle b m = true /\ vge b m = false) ->
  (forall m, (m < Z.of_nat d - 1)%Z -> vle R m = true -> vge R m = false) ->
  split d mu r kmin vle vge rnd fuel calls (fun _ => R) top_new = Some l ->
  (forall t, In t l -> sub_run (fe t) t = Some (run t)) ->
  forall x, length x = d ->
    (nonzero x /\ vlen d mu r x <= R -> list_sum (map (fun t => times x (run t) + times (neg x) (run t))%nat l) = 1%nat) /\
    (~ (nonzero x /\ vlen d mu r x <= R) -> list_sum (map (fun t => times x (run t)) l) = 0%nat).
Proof.
  intros LF NT H RUN x Hx.
  assert (UF : (0 <= kmin)%Z \/ (forall b, vle b (-1)%Z = true /\ vge b (-1)%Z = false)).
  { destruct LF as [A|A]; [left; lia|right]. intros b. apply A. lia. }
  destruct (split_new d mu r kmin vle vge rnd Hr Hrnd fuel calls _ l UF H) as (_ & _ & _ & IN & CAN). specialize (CAN NT).
  pose proof (split_low d mu r kmin vle vge rnd Hr Hrnd fuel calls _ l LF Hd H) as LOW.
  assert (ROOT : forall t, In t l -> plen d mu r no_target (root_vec d t) (d - length t) <= R).
  { intros t HI. destruct (IN t HI) as [_ W]. specialize (LOW t HI). apply W.
    - unfold root_vec. rewrite app_length, repeat_length. lia.
    - unfold root_vec. eexists. reflexivity. }
  pose proof (fun t HI y Hy => sub_times t (fe t) (run t) y (LOW t HI) (ROOT t HI) (RUN t HI) Hy) as TM.
  assert (LN : length (neg x) = d) by (now rewrite neg_len).
  assert (WN : vlen d mu r (neg x) = vlen d mu r x) by (unfold vlen; apply plen_neg).
  split.
  - intros [NZ W]. destruct (top_once fuel calls _ l UF NT H x Hx (fun _ => W)) as (i & (Hi & HE) & UNI).
    pose proof (nth_In l [] Hi) as HI.
    apply (sum_unique _ [] l i Hi).
    + assert (AZ : allz x = false) by (now apply nonzero_allz).
      destruct (allz (nth i l [])) eqn:Z0.
      * assert (L1 : lies_in x (nth i l [])) by (destruct HE as [HE|HE]; auto; rewrite <- (neg_neg x); now apply lies_neg_zero).
        assert (L2 : lies_in (neg x) (nth i l [])) by (now apply lies_neg_zero).
        destruct (tpos_or_opp x AZ) as [T|T].
        -- rewrite (proj1 (TM _ HI x Hx)) by auto. rewrite (proj2 (TM _ HI (neg x) LN)); auto. intros (_ & _ & T'). apply (tpos_not_both x T). auto.
        -- rewrite (proj2 (TM _ HI x Hx)) by (intros (_ & _ & T'); apply (tpos_not_both x); auto).
           rewrite (proj1 (TM _ HI (neg x) LN)); auto. split; [auto|]. split; [now rewrite WN|]. intros _. exact T.
      * assert (T0 : tpos (nth i l []) = true) by (destruct (CAN _ HI) as [T|Z1]; [auto|congruence]).
        assert (NB : ~ (lies_in x (nth i l []) /\ lies_in (neg x) (nth i l []))).
        { intros [[p E1] [q E2]]. apply (tpos_not_both x).
          - rewrite E1. now apply tpos_app2.
          - change (tpos (neg x) = true). rewrite E2. now apply tpos_app2. }
        destruct HE as [HE|HE].
        -- rewrite (proj1 (TM _ HI x Hx)) by (split; [auto|split; [auto|congruence]]). rewrite (proj2 (TM _ HI (neg x) LN)); auto.
           intros (A & _). apply NB. auto.
        -- rewrite (proj2 (TM _ HI x Hx)) by (intros (A & _); apply NB; auto).
           rewrite (proj1 (TM _ HI (neg x) LN)); auto. split; [auto|]. split; [now rewrite WN|congruence].
    + intros j Hj NE. pose proof (nth_In l [] Hj) as HJ.
      rewrite (proj2 (TM _ HJ x Hx)) by (intros (A & _); apply NE; symmetry; apply UNI; auto).
      rewrite (proj2 (TM _ HJ (neg x) LN)); auto. intros (A & _). apply NE. symmetry. apply UNI. auto.
  - intros NW. apply sum_zero. intros t HI. apply (proj2 (TM t HI x Hx)). intros (L & W & T). apply NW. split; auto.
    apply nonzero_allz. destruct (CAN t HI) as [T0|Z0].
    + destruct L as [p ->]. apply tpos_nz. now apply tpos_app2.
    + apply tpos_nz. auto.
Qed.
End C72.


(** ** The estimate of the code *)
Local Open Scope Qc_scope.

(** sphere_volume (util.cpp:207-224) is the volume of the unit ball: 1, 2 and the recursion V(d+2) = V(d) 2 pi / (d+2) *)
Lemma fold_acc_div : forall (l : list nat) (v a : R), fold_left (fun v i => v / INR i)%R l (v * a)%R = (fold_left (fun v i => v / INR i)%R l v * a)%R.
Proof. induction l as [|i l IH]; intros v a; cbn [fold_left]; auto. rewrite <- IH. f_equal. unfold Rdiv. ring. Qed.
Lemma fold_acc_mul (f : nat -> R) : forall (l : list nat) (v a : R), fold_left (fun v i => v * f i)%R l (v * a)%R = (fold_left (fun v i => v * f i)%R l v * a)%R.
Proof. induction l as [|i l IH]; intros v a; cbn [fold_left]; auto. rewrite <- IH. f_equal. ring. Qed.
Theorem sphere_volume_ball : sphere_volume 0 = 1%R /\ sphere_volume 1 = 2%R /\
  forall d, sphere_volume (S (S d)) = (sphere_volume d * (2 * PI / INR (S (S d))))%R.
Proof.
  split; [unfold sphere_volume; cbn; lra|]. split; [unfold sphere_volume; cbn; lra|]. intros d.
  unfold sphere_volume.
  assert (D2 : (S (S d) / 2 = S (d / 2))%nat) by (replace (S (S d)) with (1 * 2 + d)%nat by lia; rewrite Nat.div_add_l by lia; reflexivity).
  rewrite D2. change (Nat.even (S (S d))) with (Nat.even d). destruct (Nat.even d) eqn:E.
  - rewrite (seq_S (d / 2) 1), fold_left_app. cbn [fold_left].
    replace (PI ^ S (d / 2))%R with (PI ^ (d / 2) * PI)%R by (cbn [pow]; ring). rewrite fold_acc_div.
    apply Nat.even_spec in E as [k ->]. replace (2 * k / 2)%nat with k by (rewrite Nat.mul_comm, Nat.div_mul; lia).
    replace (INR (S (S (2 * k)))) with (2 * INR (1 + k))%R by (rewrite <- (mult_INR 2); f_equal; lia).
    assert (N : INR (1 + k) <> 0%R) by (apply not_0_INR; lia). field. exact N.
  - rewrite (seq_S (S (d / 2)) 0), fold_left_app. cbn [fold_left].
    replace (PI ^ S (d / 2))%R with (PI ^ (d / 2) * PI)%R by (cbn [pow]; ring).
    rewrite (fold_acc_mul (fun i => 2 / INR (2 * i + 1))%R).
    assert (O : Nat.odd d = true) by (unfold Nat.odd; rewrite E; reflexivity). apply Nat.odd_spec in O as [k ->].
    replace ((2 * k + 1) / 2)%nat with k by (rewrite Nat.mul_comm, Nat.div_add_l by lia; cbn; lia).
    replace (S (S (2 * k + 1)))%nat with (2 * (0 + S k) + 1)%nat by lia.
    assert (N : INR (2 * (0 + S k) + 1) <> 0%R) by (apply not_0_INR; lia). field. exact N.
Qed.

Lemma cost_low b r m : (m <= 0)%Z -> cost_estimate b r m = 0%R.
Proof. intros H. unfold cost_estimate. replace (Z.to_nat m) with 0%nat by lia. reflexivity. Qed.
Lemma real_low r maxvol b m : (0 < maxvol)%R -> (m <= 0)%Z -> vle_real r maxvol b m = true /\ vge_real r maxvol b m = false.
Proof.
  intros P H. unfold vle_real, vge_real. rewrite (cost_low _ _ m H). destruct (Rle_dec 0 maxvol), (Rge_dec 0 maxvol); try lra; auto.
Qed.
Lemma real_tie r maxvol b m : cost_estimate (Q2R (this b)) (fun i => Q2R (this (r i))) m <> maxvol -> vle_real r maxvol b m = true -> vge_real r maxvol b m = false.
Proof. unfold vle_real, vge_real. intros H. destruct (Rle_dec _ _); [|discriminate]. destruct (Rge_dec _ _); auto. exfalso. apply H. lra. Qed.

(** Enumerator with the exact estimate: for every min_level and max_volume > 0 (the constructor replaces the others,
    topenum.cpp:24), unless the estimate for some level is exactly max_volume. *)
Theorem top_once_real d mu r kmin rnd maxvol fuel calls Rs l :
  (forall i, (i < d)%nat -> 0 < r i) -> nearest rnd -> (0 < maxvol)%R ->
  (forall m, (m < Z.of_nat d - 1)%Z -> cost_estimate (Q2R (this (Rs 0%nat))) (fun i => Q2R (this (r i))) m <> maxvol) ->
  split d mu r kmin (vle_real r maxvol) (vge_real r maxvol) rnd fuel calls Rs top_new = Some l ->
  forall x, length x = d -> (forall i, vlen d mu r x <= Rs i) ->
  exists! i, (i < length l)%nat /\ (lies_in x (nth i l []) \/ lies_in (neg x) (nth i l [])).
Proof.
  intros Hr Hn P NT H. apply (top_once d mu r kmin (vle_real r maxvol) (vge_real r maxvol) rnd Hr Hn fuel calls Rs l); auto.
  - right. intros b. apply real_low; auto. lia.
  - intros m Hm. apply real_tie. auto.
Qed.
Theorem top_terminates_real d mu r kmin rnd maxvol M :
  (forall i, (i < d)%nat -> 0 < r i) -> nearest rnd -> (0 < maxvol)%R -> (0 < d)%nat ->
  exists fuel, forall Rs : nat -> Qc, (forall i, Rs i <= M) ->
  exists l, split d mu r kmin (vle_real r maxvol) (vge_real r maxvol) rnd fuel fuel Rs top_new = Some l.
Proof.
  intros Hr Hn P HD. apply (top_terminates d mu r kmin (vle_real r maxvol) (vge_real r maxvol) rnd Hr Hn M); auto.
  right. intros b. apply real_low; auto. lia.
Qed.

(** Every subtree can be enumerated, so that split and enumeration together report each vector once up to sign. *)
Theorem split_enumerate_total {EV} d mu r kmin rnd maxvol (evalS : list Z -> Qc -> Qc -> EV -> EV * Qc) evalSub (ev0 : EV) rec findsub ne R :
  (forall i, (i < d)%nat -> 0 < r i) -> nearest rnd -> (0 < maxvol)%R -> (2 <= d)%nat -> 0 <= R ->
  (forall v nd m ev, snd (evalS v nd m ev) = m) ->
  (forall m, (m < Z.of_nat d - 1)%Z -> cost_estimate (Q2R (this R)) (fun i => Q2R (this (r i))) m <> maxvol) ->
  exists fuel l fe (run : list Z -> est qe_ops EV),
    split d mu r kmin (vle_real r maxvol) (vge_real r maxvol) rnd fuel fuel (fun _ => R) top_new = Some l /\
    (forall t, In t l -> sub_run d mu r evalS evalSub ev0 rec findsub ne R (fe t) t = Some (run t)) /\
    forall x, length x = d ->
    (nonzero x /\ vlen d mu r x <= R -> list_sum (map (fun t => times x (run t) + times (neg x) (run t))%nat l) = 1%nat) /\
    (~ (nonzero x /\ vlen d mu r x <= R) -> list_sum (map (fun t => times x (run t)) l) = 0%nat).
Proof.
  intros Hr Hn P Hd HR Hfix NT.
  destruct (top_terminates_real d mu r kmin rnd maxvol R Hr Hn P ltac:(lia)) as [fuel F].
  destruct (F (fun _ => R) (fun _ => Qcle_refl _)) as [l Hl].
  assert (LF : (1 <= kmin)%Z \/ (forall b m, (m <= 0)%Z -> vle_real r maxvol b m = true /\ vge_real r maxvol b m = false)).
  { right. intros b m Hm. now apply real_low. }
  assert (UF : (0 <= kmin)%Z \/ (forall b, vle_real r maxvol b (-1)%Z = true /\ vge_real r maxvol b (-1)%Z = false)).
  { right. intros b. apply real_low; auto. lia. }
  assert (ALL : forall l', (forall t, In t l' -> In t l) ->
    exists fe run, forall t, In t l' -> sub_run d mu r evalS evalSub ev0 rec findsub ne R (fe t) t = Some (run t)).
  { induction l' as [|t l' IH]; intros HI.
    - destruct (call_terminates d mu r None [] findsub None R ne) with (evalS := evalS) (evalSub := evalSub) (ev0 := ev0)
        (EInv := fun (_ : EV) m => m = R * pow2 (- ne)) (rst := no_rst qe_ops) (rec := rec) as (f0 & s0 & _); auto.
      + cbn. lia.
      + intros k _. cbn. discriminate.
      + apply Qcle_refl.
      + intros v nd m ev -> _ _. rewrite Hfix. split; [reflexivity|apply Qcle_refl].
      + intros ev m ->. pose proof (pow2_pos (- ne)) as Q. revert HR Q. generalize (pow2 (- ne)). clear. intros. qcnra.
      + rewrite plen_end by (cbn; lia). exact HR.
      + exists (fun _ => f0), (fun _ => s0). intros t [].
    - destruct (IH (fun u Hu => HI u (or_intror Hu))) as (fe & run & HF).
      pose proof (HI t (or_introl eq_refl)) as Ht.
      pose proof (split_low d mu r kmin _ _ rnd Hr Hn fuel fuel _ l LF Hd Hl t Ht) as LOW.
      destruct (top_inside d mu r kmin _ _ rnd Hr Hn fuel fuel _ l UF Hl t Ht) as (_ & i & W).
      destruct (call_terminates d mu r None t findsub None R ne) with (evalS := evalS) (evalSub := evalSub) (ev0 := ev0)
        (EInv := fun (_ : EV) m => m = R * pow2 (- ne)) (rst := no_rst qe_ops) (rec := rec) as (f0 & s0 & E0); auto.
      + intros k _. cbn. discriminate.
      + apply Qcle_refl.
      + intros v nd m ev -> _ _. rewrite Hfix. split; [reflexivity|apply Qcle_refl].
      + intros ev m ->. pose proof (pow2_pos (- ne)) as Q. revert HR Q. generalize (pow2 (- ne)). clear. intros. qcnra.
      + apply W.
        * unfold root_vec. rewrite app_length, repeat_length. lia.
        * unfold root_vec. eexists. reflexivity.
      + exists (fun u => if list_eq_dec Z.eq_dec u t then f0 else fe u), (fun u => if list_eq_dec Z.eq_dec u t then s0 else run u).
        intros u [<-|Hu].
        * destruct (list_eq_dec Z.eq_dec t t); [exact E0|congruence].
        * destruct (list_eq_dec Z.eq_dec u t) as [->|]; [exact E0|auto]. }
  destruct (ALL l (fun t H => H)) as (fe & run & HF). exists fuel, l, fe, run. split; [exact Hl|]. split; [exact HF|].
  apply (split_enumerate d mu r kmin (vle_real r maxvol) (vge_real r maxvol) rnd Hr Hn evalS evalSub ev0 rec findsub ne R Hfix HR Hd fuel fuel l fe run); auto.
  intros m Hm. apply real_tie. auto.
Qed.

(** ** Where it fails *)
Lemma top_level_ext kmin v v' R : (forall b m, v b m = v' b m) -> forall k, top_level kmin v R k = top_level kmin v' R k.
Proof. intros E. induction k as [|k IH]; cbn [top_level]; rewrite E; [|rewrite IH]; reflexivity. Qed.
Lemma split_ext d mu r kmin rnd v v' w w' fuel : (forall b m, v b m = v' b m) -> (forall b m, w b m = w' b m) ->
  forall calls Rs s, split d mu r kmin v w rnd fuel calls Rs s = split d mu r kmin v' w' rnd fuel calls Rs s.
Proof.
  intros E F.
  assert (L : forall n R s, top_loop d mu r kmin w rnd R n s = top_loop d mu r kmin w' rnd R n s).
  { induction n as [|n IH]; intros R s; cbn [top_loop]; auto.
    assert (S : top_step d mu r kmin w rnd R s = top_step d mu r kmin w' rnd R s) by (unfold top_step; rewrite F; reflexivity).
    rewrite S. destruct (top_step d mu r kmin w' rnd R s); auto. }
  assert (N : forall R s, enum_next d mu r kmin v w rnd R fuel s = enum_next d mu r kmin v' w' rnd R fuel s).
  { intros R s. unfold enum_next.
    assert (I : top_init d kmin v R s = top_init d kmin v' R s) by (unfold top_init; destruct (t_new s); auto; destruct d; auto; now rewrite (top_level_ext kmin v v' R E)).
    rewrite I. destruct (top_init d kmin v' R s); auto. destruct (d <=? t_k t)%nat; auto. }
  induction calls as [|n IH]; intros Rs s; cbn [split]; auto. rewrite N. destruct (enum_next _ _ _ _ _ _ _ _ _ _) as [| |[sub|] s']; auto. now rewrite IH.
Qed.

(** the estimate of one level is 2 sqrt(b / r_0) *)
Lemma cost_one b r : cost_estimate b r 1 = (2 * sqrt (b / r 0%nat))%R.
Proof.
  unfold cost_estimate. change (Z.to_nat 1) with 1%nat. cbn [cost_loop]. change (1 - 0)%nat with 1%nat.
  rewrite (proj1 (proj2 sphere_volume_ball)). rewrite Rmult_1_l. ring.
Qed.
Lemma Q2R_Qcz z : Q2R (this (Qcz z)) = IZR z.
Proof. rewrite (Qreals.Qeq_eqR _ _ (Qcz_Q z)). unfold Q2R. cbn. field. Qed.
Lemma sqrt_cmp (x y : R) : (0 < y)%R -> (sqrt x <= y <-> x <= y * y)%R.
Proof.
  intros P. split; intros H.
  - destruct (Rle_dec x 0); [nra|]. rewrite <- (sqrt_def x) by lra. pose proof (sqrt_pos x). nra.
  - rewrite <- (sqrt_square y) by lra. destruct (Rle_dec x 0); [rewrite (sqrt_neg_0 x) by lra; apply sqrt_pos|]. apply sqrt_le_1; nra.
Qed.
Lemma sqrt_cmp' (x y : R) : (0 < y)%R -> (sqrt x >= y <-> x >= y * y)%R.
Proof.
  intros P. split; intros H.
  - destruct (Rlt_dec x (y * y)); [|lra]. exfalso. destruct (Rle_dec x 0); [rewrite (sqrt_neg_0 x) in H by lra; lra|].
    rewrite <- (sqrt_square y) in H by lra. pose proof (sqrt_lt_1 x (y * y)). nra.
  - rewrite <- (sqrt_square y) by lra. apply Rle_ge, sqrt_le_1; nra.
Qed.
(** the two comparisons at level 1 in rational arithmetic, when max_volume = v and (v/2)^2 r_0 = q *)
Definition vle_q (r : nat -> Qc) (maxvol : R) (q b : Qc) (m : Z) : bool :=
  if (m <=? 0)%Z then true else if (m =? 1)%Z then eleb b q else vle_real r maxvol b m.
Definition vge_q (r : nat -> Qc) (maxvol : R) (q b : Qc) (m : Z) : bool :=
  if (m <=? 0)%Z then false else if (m =? 1)%Z then eleb q b else vge_real r maxvol b m.
Lemma oracle_q r maxvol q : (0 < maxvol)%R -> 0 < r 0%nat -> (maxvol / 2 * (maxvol / 2) * Q2R (this (r 0%nat)) = Q2R (this q))%R ->
  forall b m, vle_real r maxvol b m = vle_q r maxvol q b m /\ vge_real r maxvol b m = vge_q r maxvol q b m.
Proof.
  intros P R0 E b m. unfold vle_q, vge_q. destruct (m <=? 0)%Z eqn:H0; [apply Z.leb_le in H0; now apply real_low|].
  destruct (m =? 1)%Z eqn:H1; [|auto]. apply Z.eqb_eq in H1 as ->.
  assert (PR : (0 < Q2R (this (r 0%nat)))%R) by (replace 0%R with (Q2R 0) by (unfold Q2R; cbn; lra); apply Qreals.Qlt_Rlt; exact R0).
  assert (DM : forall x y z : R, (0 < z -> (x / z <= y <-> x <= y * z) /\ (x / z >= y <-> x >= y * z))%R).
  { intros x y z Z. assert (X : x = (x / z * z)%R) by (field; lra). generalize dependent (x / z)%R. intros w ->. split; split; intros; nra. }
  destruct (DM (Q2R (this b)) (maxvol / 2 * (maxvol / 2))%R _ PR) as [D1 D2]. rewrite E in D1, D2.
  unfold vle_real, vge_real. rewrite cost_one. split.
  - destruct (Rle_dec _ _) as [L|L]; symmetry.
    + apply eleb_le. apply Qreals.Rle_Qle. apply D1. apply sqrt_cmp; lra.
    + apply eleb_gt. apply Qcnot_le_lt. intros C. apply L. apply Qreals.Qle_Rle in C. apply D1 in C. apply sqrt_cmp in C; lra.
  - destruct (Rge_dec _ _) as [L|L]; symmetry.
    + apply eleb_le. apply Qreals.Rle_Qle. apply Rge_le, D2. apply sqrt_cmp'; lra.
    + apply eleb_gt. apply Qcnot_le_lt. intros C. apply L. apply Qreals.Qle_Rle in C. apply Rle_ge in C. apply D2 in C. apply sqrt_cmp' in C; lra.
Qed.

(** When the estimate for the remaining tree is exactly max_volume, the first call starts at that level (<=, topenum.cpp:43) and
    yet goes down below it (>=, line 64): the level below is then swept on both sides of zero. Here (0,1,0) lies in
    one subtree and its negative in another. *)
Definition one_r (_ : nat) : Qc := 1.
Definition no_mu (_ _ : nat) : Qc := 0.
Theorem top_tie_refuted : exists l, split 3 no_mu one_r 0 (vle_real one_r 2) (vge_real one_r 2) qround 20 20 (fun _ => 1) top_new = Some l /\
  exists x i j, length x = 3%nat /\ vlen 3 no_mu one_r x <= 1 /\ i <> j /\ (i < length l)%nat /\ (j < length l)%nat /\
    lies_in x (nth i l []) /\ lies_in (neg x) (nth j l []).
Proof.
  exists [[0; 0]; [1; 0]; [-1; 0]; [1]]%Z. split.
  - assert (E : forall b m, vle_real one_r 2 b m = vle_q one_r 2 1 b m /\ vge_real one_r 2 b m = vge_q one_r 2 1 b m).
    { apply oracle_q; [lra|vm_compute; reflexivity|]. change (this (one_r 0)) with (this (Qcz 1)). change (this 1) with (this (Qcz 1)). rewrite Q2R_Qcz. lra. }
    rewrite (split_ext _ _ _ _ _ _ _ _ _ _ (fun b m => proj1 (E b m)) (fun b m => proj2 (E b m))). vm_compute. reflexivity.
  - exists [0; 1; 0]%Z, 1%nat, 2%nat. split; [reflexivity|]. split; [vm_compute; discriminate|]. split; [lia|]. split; [cbn; lia|]. split; [cbn; lia|].
    split; exists [0%Z]; reflexivity.
Qed.

(** In dimension 1 the only level is a whole coordinate vector; enumeration from it reports nothing (k_end = 0), so that no vector is found. *)
Theorem split_dim1_refuted : exists l, split 1 no_mu one_r 0 (vle_real one_r 2) (vge_real one_r 2) qround 20 20 (fun _ => Qcz 5) top_new = Some l /\
  nonzero [1%Z] /\ vlen 1 no_mu one_r [1%Z] <= Qcz 5 /\
  forall t, In t l -> option_map reported (sub_run 1 no_mu one_r (fun _ _ m ev => (ev, m)) (fun _ _ _ ev => ev) tt true false 0 (Qcz 5) 20 t) = Some [].
Proof.
  exists [[0]; [1]; [2]]%Z. split.
  - assert (E : forall b m, vle_real one_r 2 b m = vle_q one_r 2 1 b m /\ vge_real one_r 2 b m = vge_q one_r 2 1 b m).
    { apply oracle_q; [lra|vm_compute; reflexivity|]. change (this (one_r 0)) with (this (Qcz 1)). change (this 1) with (this (Qcz 1)). rewrite Q2R_Qcz. lra. }
    rewrite (split_ext _ _ _ _ _ _ _ _ _ _ (fun b m => proj1 (E b m)) (fun b m => proj2 (E b m))). vm_compute. reflexivity.
  - split; [exists 0%nat; discriminate|]. split; [vm_compute; discriminate|]. intros t [<-|[<-|[<-|[]]]]; vm_compute; reflexivity.
Qed.

(** ** Examples *)
(** max_volume = 4, bound 17: level 2 is handed out whole where little work is left below it *)
Lemma ex_oracle : forall b m, vle_real ex_r 4 b m = vle_q ex_r 4 (Qcz 16) b m /\ vge_real ex_r 4 b m = vge_q ex_r 4 (Qcz 16) b m.
Proof. apply oracle_q; [lra|vm_compute; reflexivity|]. change (ex_r 0) with (Qcz 4). rewrite !Q2R_Qcz. lra. Qed.
Lemma ex_split Rs : split 3 ex_mu ex_r 0 (vle_real ex_r 4) (vge_real ex_r 4) qround 50 50 Rs top_new =
  split 3 ex_mu ex_r 0 (vle_q ex_r 4 (Qcz 16)) (vge_q ex_r 4 (Qcz 16)) qround 50 50 Rs top_new.
Proof. apply split_ext; intros b m; apply ex_oracle. Qed.
Lemma ex_no_tie m : (m < 2)%Z -> cost_estimate (Q2R (this (Qcz 17))) (fun i => Q2R (this (ex_r i))) m <> 4%R.
Proof.
  intros Hm. destruct (Z_le_dec m 0); [rewrite cost_low by lia; lra|]. replace m with 1%Z by lia. rewrite cost_one. change (ex_r 0) with (Qcz 4). rewrite !Q2R_Qcz.
  intros E. assert (S : sqrt (17 / 4) = 2%R) by lra. pose proof (sqrt_def (17 / 4)%R ltac:(lra)) as D. rewrite S in D. lra.
Qed.
Lemma nearest_qround : nearest qround. Proof. intros c. apply qround_half. Qed.
Definition ex_Rs (i : nat) : Qc := if (i <? 3)%nat then Qcz 17 else Qcz 9.
(** hypotheses of top_once, top_once_real, top_cover, top_inside: a constant bound and one that shrinks after three subtrees *)
Example top_ex :
  split 3 ex_mu ex_r 0 (vle_real ex_r 4) (vge_real ex_r 4) qround 50 50 (fun _ => Qcz 17) top_new = Some [[0; 0]; [1; 0]; [2; 0]; [1]; [2]]%Z /\
  split 3 ex_mu ex_r 0 (vle_real ex_r 4) (vge_real ex_r 4) qround 50 50 ex_Rs top_new = Some [[0; 0]; [1; 0]; [2; 0]; [1]]%Z /\
  (forall m, (m < 2)%Z -> cost_estimate (Q2R (this (ex_Rs 0%nat))) (fun i => Q2R (this (ex_r i))) m <> 4%R) /\
  (forall m, (m < 2)%Z -> vle_real ex_r 4 (ex_Rs 0%nat) m = true -> vge_real ex_r 4 (ex_Rs 0%nat) m = false) /\
  eleb (vlen 3 ex_mu ex_r [1; -1; -1]%Z) (Qcz 9) = true /\
  exists! i, (i < 4)%nat /\ (lies_in [1; -1; -1]%Z (nth i [[0; 0]; [1; 0]; [2; 0]; [1]]%Z []) \/ lies_in (neg [1; -1; -1]%Z) (nth i [[0; 0]; [1; 0]; [2; 0]; [1]]%Z [])).
Proof.
  assert (S2 : split 3 ex_mu ex_r 0 (vle_real ex_r 4) (vge_real ex_r 4) qround 50 50 ex_Rs top_new = Some [[0; 0]; [1; 0]; [2; 0]; [1]]%Z) by (rewrite ex_split; vm_compute; reflexivity).
  split; [rewrite ex_split; vm_compute; reflexivity|]. split; [exact S2|].
  split; [exact ex_no_tie|]. split; [intros m Hm; apply real_tie, ex_no_tie, Hm|]. split; [vm_compute; reflexivity|].
  apply (top_once_real 3 ex_mu ex_r 0 qround 4 50 50 ex_Rs [[0; 0]; [1; 0]; [2; 0]; [1]]%Z ex_r_pos nearest_qround); auto.
  - lra.
  - exact ex_no_tie.
  - intros i. unfold ex_Rs. destruct (i <? 3)%nat; vm_compute; discriminate.
Qed.
(** split_enumerate: bound 12, max_volume = 1: nine subtrees and the 16 vectors of PropEnum.enum_complete_ex *)
Example split_enumerate_ex :
  option_map (map (fun t => option_map (fun s => length (reported s)) (sub_run 3 ex_mu ex_r (fun _ _ m ev => (ev, m)) (fun _ _ _ ev => ev) tt true false 0 (Qcz 12) 20 t)))
    (split 3 ex_mu ex_r 0 (vle_real ex_r 1) (vge_real ex_r 1) qround 50 50 (fun _ => Qcz 12) top_new) =
  Some [Some 1; Some 4; Some 1; Some 3; Some 3; Some 2; Some 1; Some 1; Some 0]%nat /\
  (forall m, (m < 2)%Z -> cost_estimate (Q2R (this (Qcz 12))) (fun i => Q2R (this (ex_r i))) m <> 1%R).
Proof.
  split.
  - assert (E : forall b m, vle_real ex_r 1 b m = vle_q ex_r 1 1 b m /\ vge_real ex_r 1 b m = vge_q ex_r 1 1 b m).
    { apply oracle_q; [lra|vm_compute; reflexivity|]. change (ex_r 0) with (Qcz 4). change (this 1) with (this (Qcz 1)). rewrite !Q2R_Qcz. lra. }
    rewrite (split_ext _ _ _ _ _ _ _ _ _ _ (fun b m => proj1 (E b m)) (fun b m => proj2 (E b m))). vm_compute. reflexivity.
  - intros m Hm. destruct (Z_le_dec m 0); [rewrite cost_low by lia; lra|]. replace m with 1%Z by lia. rewrite cost_one. change (ex_r 0) with (Qcz 4). rewrite !Q2R_Qcz.
    intros E. assert (S : sqrt (12 / 4) = (1/2)%R) by lra. pose proof (sqrt_def (12 / 4)%R ltac:(lra)) as D. rewrite S in D. lra.
Qed.
Example top_terminates_ex : (0 < 3)%nat /\ (forall i, (i < 3)%nat -> 0 < ex_r i) /\ nearest qround /\ (forall i, ex_Rs i <= Qcz 17).
Proof. split; [lia|]. split; [exact ex_r_pos|]. split; [exact nearest_qround|]. intros i. unfold ex_Rs. destruct (i <? 3)%nat; vm_compute; discriminate. Qed.
(** pi / 2^0 = V(2), 4 pi / 3 = V(3) *)
Example sphere_volume_ex : sphere_volume 2 = PI /\ sphere_volume 3 = (4 * PI / 3)%R.
Proof. unfold sphere_volume. cbn. split; field. Qed.

Print Assumptions top_once.
Print Assumptions top_cover.
Print Assumptions top_inside.
Print Assumptions top_terminates.
Print Assumptions split_enumerate.
Print Assumptions top_once_real.
Print Assumptions top_terminates_real.
Print Assumptions split_enumerate_total.
Print Assumptions sphere_volume_ball.
Print Assumptions top_tie_refuted.
Print Assumptions split_dim1_refuted.
