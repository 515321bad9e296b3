(** C68: the optimiser of the pruning coefficients: termination, cost, and what is
    kept of the shape of a coefficient vector. *)
From Coq Require Import List ZArith Reals Lra Lia Arith Bool.
From Verif Require Import Util MatrixModel MatrixProofs HouseProofs PrunerModel PropPruner PruneVolModel PropPruneVol PruneCostModel PropPruneCost OptModel OptProofs.
Import ListNotations.
Local Open Scope R_scope.

(** ** Specification *)

(** non-decreasing with entries between [lo] and one *)
Definition inside (lo : R) (b : list R) : Prop :=
  (forall i k, (i <= k < length b)%nat -> nth i b 0 <= nth k b 0) /\
  forall i, (i < length b)%nat -> lo <= nth i b 0 <= 1.
(** costs of such vectors of length [dn] are at least [m] *)
Definition cost_floor (F : list R -> option R) (lo m : R) (dn : nat) : Prop :=
  forall b c, length b = dn -> inside lo b -> F b = Some c -> m <= c.
(** above the minimal coefficients: entry i of a vector of length d, entries 2i and 2i+1 of a longer one *)
Definition above (mins b : list R) : Prop :=
  forall i, (i < length b)%nat ->
    let k := if (length b =? length mins)%nat then i else (i / 2)%nat in
    (k < length mins)%nat -> nth k mins 0 <= nth i b 0.
(** what enforce gives: inside, above, and with a last entry of at least .999 (unless it is also
    the first one) *)
Definition proper (lo : R) (mins b : list R) : Prop :=
  inside lo b /\ above mins b /\ (length b = 1%nat \/ 999 / 1000 <= nth (length b - 1) b 0).
(** minimal coefficients *)
Definition minima (lo : R) (mins : list R) : Prop :=
  0 < lo /\ lo <= nth 0 mins 0 /\ (0 < length mins)%nat /\ forall i, (i < length mins)%nat -> nth i mins 0 <= 1.

(** ** enforce *)
Lemma rvalid_above mins b : rvalid mins b -> above mins b.
Proof.
  intros (_ & V) i Hi k Hk. destruct (V i Hi) as (_ & W). apply W. unfold rmin_for. fold k.
  apply nth_error_nth'. auto.
Qed.
Lemma rvalid_inside lo mins b : minima lo mins -> rvalid mins b -> inside lo b.
Proof.
  intros (L0 & Lo & Ln & _) V. pose proof (rvalid_above _ _ V) as A. destruct V as (N & V).
  assert (M : forall i k, (i <= k < length b)%nat -> nth i b 0 <= nth k b 0) by (intros i k H; exact (rnondec_le b N i k H)).
  split; [exact M|]. intros i Hi. split; [|apply V; auto].
  apply Rle_trans with (nth 0 b 0); [|apply M; lia].
  apply Rle_trans with (nth 0 mins 0); auto. specialize (A O ltac:(lia)). cbn zeta in A.
  replace (if (length b =? length mins)%nat then 0%nat else (0 / 2)%nat) with O in A by (destruct (length b =? length mins)%nat; reflexivity).
  apply A. auto.
Qed.
Lemma proper_rvalid lo mins b : proper lo mins b -> rvalid mins b.
Proof.
  intros ((N & B) & A & _). split; [intros i Hi; apply N; lia|].
  intros i Hi. split; [apply B; auto|]. intros m Em. unfold rmin_for in Em.
  assert (Q := Em). apply nth_error_nth with (d := 0) in Q. rewrite <- Q. apply (A i Hi).
  apply nth_error_Some. congruence.
Qed.

(** enforce makes a vector proper, and says and does nothing if it is already *)
Theorem enforce_proper lo mins b :
  minima lo mins -> (0 < length b)%nat ->
  exists b' st, enforce (length mins) mins b 0 = Some (b', st) /\ length b' = length b /\ proper lo mins b'.
Proof.
  intros M Hb. destruct (enforce_valid mins b 0 Hb) as (b' & st & E & L & V).
  - intros m Hm. apply (In_nth _ _ 0) in Hm. destruct Hm as (i & Hi & <-). apply M. auto.
  - now left.
  - exists b', st. split; auto. split; auto. split; [eapply rvalid_inside; eauto|]. split; [apply rvalid_above; auto|].
    destruct (Nat.eq_dec (length b) 1) as [H1|H1]; [left; lia|right].
    destruct (enforce_last mins b 0) as (b2 & st2 & E2 & L2 & X); [lra|lia|]. rewrite E in E2. injection E2 as <- <-.
    rewrite L. exact X.
Qed.
Theorem enforce_proper_same lo mins b :
  (0 < length b)%nat -> proper lo mins b -> enforce (length mins) mins b 0 = Some (b, false).
Proof.
  intros Hb P. apply enforce_fixed; [lra|lia|eapply proper_rvalid; eauto|].
  destruct P as (_ & _ & [H|H]); [left; lia|right; exact H].
Qed.
Lemma enforce_total mins b j : (j < length b)%nat ->
  exists b' st, enforce (length mins) mins b j = Some (b', st) /\ length b' = length b.
Proof. intros H. destruct (enforce_entries mins b j H) as (b' & st & E & L & _). eauto. Qed.

Lemma fold_seq_inv {S} (Inv : nat -> S -> Prop) (f : S -> nat -> S) k : forall s a,
  Inv s a -> (forall i a, (s <= i < s + k)%nat -> Inv i a -> Inv (Datatypes.S i) (f a i)) ->
  Inv (s + k)%nat (fold_left f (seq s k) a).
Proof.
  induction k as [|k IH]; intros s a H Hf; cbn; [now rewrite Nat.add_0_r|].
  replace (s + Datatypes.S k)%nat with (Datatypes.S s + k)%nat by lia. apply IH; [apply Hf; auto; lia|].
  intros i b Hi. apply Hf. lia.
Qed.

(** the first index is that of a smallest value; the two indices agree only if all values do *)
Theorem min_max_smallest fs : (0 < length fs)%nat ->
  let (mini, maxi) := min_max fs in
  (mini < length fs)%nat /\ (maxi < length fs)%nat /\
  (forall i, (i < length fs)%nat -> nth mini fs 0 <= nth i fs 0) /\
  (mini = maxi -> forall i, (i < length fs)%nat -> nth i fs 0 = nth mini fs 0).
Proof.
  intros H. unfold min_max.
  pose proof (fold_seq_inv (fun i p => (fst p < i)%nat /\ (snd p < i)%nat /\
    (forall t, (t < i)%nat -> nth (fst p) fs 0 <= nth t fs 0) /\
    (fst p = snd p -> forall t, (t < i)%nat -> nth t fs 0 = nth (fst p) fs 0))
    (fun p i => let mini := if rlt (nth i fs 0) (nth (fst p) fs 0) then i else fst p in
      (mini, if rlt (nth mini fs 0) (nth i fs 0) then i else snd p)) (length fs - 1) 1 (O, O)) as G.
  destruct (fold_left _ (seq 1 (length fs - 1)) (O, O)) as [mini maxi]. 
  replace (1 + (length fs - 1))%nat with (length fs) in G by lia. cbn [fst snd] in G. apply G.
  - split; [lia|]. split; [lia|]. split; intros; replace t with O by lia; lra.
  - clear. intros i [mini maxi] Hi (A1 & A2 & A3 & A4). cbn [fst snd] in *.
    generalize (rlt_spec (nth i fs 0) (nth mini fs 0)). destruct (rlt (nth i fs 0) (nth mini fs 0)); intros R1; cbn [fst snd].
    + generalize (rlt_spec (nth i fs 0) (nth i fs 0)). destruct (rlt (nth i fs 0) (nth i fs 0)); intros R2; [lra|].
      split; [lia|]. split; [lia|]. split; [|lia]. intros t Ht. destruct (Nat.eq_dec t i) as [->|Ne]; [lra|].
      specialize (A3 t ltac:(lia)). lra.
    + generalize (rlt_spec (nth mini fs 0) (nth i fs 0)). destruct (rlt (nth mini fs 0) (nth i fs 0)); intros R2.
      * split; [lia|]. split; [lia|]. split; [|lia]. intros t Ht. destruct (Nat.eq_dec t i) as [->|Ne]; [lra|].
        apply A3. lia.
      * split; [lia|]. split; [lia|]. split.
        -- intros t Ht. destruct (Nat.eq_dec t i) as [->|Ne]; [lra|]. apply A3. lia.
        -- intros Eq t Ht. destruct (Nat.eq_dec t i) as [->|Ne]; [lra|]. apply A4; auto. lia.
Qed.
Lemma second_max_lt fs maxi : (1 < length fs)%nat -> (second_max' fs maxi (second_max fs maxi) < length fs)%nat.
Proof.
  intros H. assert (A : (second_max fs maxi < length fs)%nat).
  { unfold second_max. apply (fold_seq_inv (fun _ m => (m < length fs)%nat)).
    - destruct (maxi =? 0)%nat; lia.
    - intros i a Hi Ha. destruct (_ && _); lia. }
  unfold second_max'. apply (fold_seq_inv (fun _ m => (m < length fs)%nat)); auto.
  intros i a Hi Ha. destruct (_ && _); lia.
Qed.

(** sum of the first k values *)
Fixpoint psum (f : nat -> R) (k : nat) : R := match k with O => 0 | S k => psum f k + f k end.
Lemma psum_le f g k : (forall i, (i < k)%nat -> f i <= g i) -> psum f k <= psum g k.
Proof. induction k as [|k IH]; intros H; cbn; [lra|]. specialize (IH (fun i L => H i ltac:(lia))). specialize (H k ltac:(lia)). lra. Qed.
Lemma psum_const c k : psum (fun _ => c) k = INR k * c.
Proof. induction k as [|k IH]; [cbn; ring|]. rewrite S_INR. cbn [psum]. rewrite IH. ring. Qed.

Lemma nth_upd_R {A} (l : list A) i j x y : (i < length l)%nat -> nth j (upd l i x) y = if (j =? i)%nat then x else nth j l y.
Proof. intros H. rewrite nth_upd. apply Nat.ltb_lt in H. rewrite H, andb_true_r. reflexivity. Qed.
Lemma mod_succ c L : (1 < L)%nat ->
  ((S c mod L)%nat = O /\ (c mod L = L - 1)%nat) \/ ((S c mod L)%nat = S (c mod L) /\ (S (c mod L) < L)%nat).
Proof.
  intros H. pose proof (Nat.mod_upper_bound c L ltac:(lia)) as B. pose proof (Nat.div_mod c L ltac:(lia)) as E.
  destruct (Nat.eq_dec (c mod L) (L - 1)) as [Q|Q].
  - left. split; auto. symmetry. apply Nat.mod_unique with (q := S (c / L)); nia.
  - right. split; [|lia]. symmetry. apply Nat.mod_unique with (q := (c / L)%nat); lia.
Qed.

Section Descent.
  Variable F : list R -> option R.
  Variables (lo m : R) (mins : list R) (dn : nat).
  Hypothesis Hmins : minima lo mins.
  Hypothesis Hm : 0 < m.
  Hypothesis Hdn : (0 < dn)%nat.
  Hypothesis Hfloor : cost_floor F lo m dn.
  Notation d := (length mins).

  Lemma enf0 b : length b = dn -> fine (fun e => length (fst e) = dn /\ proper lo mins (fst e)) (enf d mins b 0).
  Proof.
    intros L. destruct (enforce_proper lo mins b Hmins) as (b' & st & E & L' & P); [lia|].
    unfold enf. rewrite E. cbn. split; [lia|auto].
  Qed.
  Lemma enfj b j : length b = dn -> (j < dn)%nat -> fine (fun e => length (fst e) = dn) (enf d mins b j).
  Proof.
    intros L H. destruct (enforce_total mins b j) as (b' & st & E & L'); [lia|]. unfold enf. rewrite E. cbn. lia.
  Qed.

  (** *** gradient *)
  Lemma gradient_fine eps b : length b = dn -> fine (fun g => length g = dn) (target_function_gradient d F mins eps b).
  Proof.
    intros L. unfold target_function_gradient. eapply fine_bnd with (Q := fun k => k = (dn - 1)%nat).
    - rewrite osub_le by lia. cbn. lia.
    - intros k ->. eapply fine_bnd; [apply fine_collect with (P := fun _ _ => True)|].
      + intros i Hi. unfold slope_at. eapply fine_bnd; [apply fine_ub with (P := fun _ => True) (a := nth i b 0); auto; apply nth_error_nth'; lia|].
        intros x _. eapply fine_bnd; [eapply fine_ub with (P := fun l => length l = dn); [apply vset_at; lia|rewrite upd_length; auto]|].
        intros b1 L1. eapply fine_bnd; [apply enfj; auto; lia|]. intros e1 _.
        eapply fine_bnd; [apply fine_call with (P := fun _ => True); auto|]. intros X _.
        eapply fine_bnd; [eapply fine_ub with (P := fun l => length l = dn); [apply vset_at; lia|rewrite upd_length; auto]|].
        intros b2 L2. eapply fine_bnd; [apply enfj; auto; lia|]. intros e2 _.
        eapply fine_bnd; [apply fine_call with (P := fun _ => True); auto|]. intros Y _. exact I.
      + intros g (Lg & _). cbn. rewrite app_length. cbn. lia.
  Qed.

  (** what a descent keeps: [b'] has at most the cost of [b], and is [b] or proper *)
  Definition better (b b' : list R) : Prop :=
    length b' = dn /\ (b' = b \/ proper lo mins b') /\
    exists c c', F b = Some c /\ F b' = Some c' /\ c' <= c.

  Lemma mini_step_does g b cf : length b = dn -> length g = dn -> F b = Some cf ->
    forall k step j new_b b1 cf1, 0 < step -> INR dn < step * step_factor ^ k ->
    length new_b = dn -> length b1 = dn -> (b1 = b \/ proper lo mins b1) -> F b1 = Some cf1 -> cf1 <= cf ->
    does (fun r => let '(_, b', cf') := r in
             length b' = dn /\ (b' = b \/ proper lo mins b') /\ F b' = Some cf' /\ cf' <= cf)
         (fun fu => wloop (mini_step d F mins dn g) fu (j, step, new_b, b1, cf1)).
  Proof.
    intros Lb Lg Eb k step j new_b b1 cf1 Hs Hk L1 L2 P E C.
    eapply does_wloop with (Inv := fun k s => let '(j, step, new_b, b1, cf1) := s in
      0 < step /\ INR dn < step * step_factor ^ k /\
      length new_b = dn /\ length b1 = dn /\ (b1 = b \/ proper lo mins b1) /\ F b1 = Some cf1 /\ cf1 <= cf) (k := k); [|now repeat split].
    clear - Lb Lg Eb Hmins Hdn. intros k [[[[j step] nb0] b1] cf1] (Hs & Hk & L1 & L2 & P & E & C).
    unfold mini_step. apply does_fine. destruct (rlt (INR dn) step) eqn:R1; [cbn; repeat split; auto|].
    apply rlt_false in R1.
    eapply fine_bnd; [apply fine_collect with (P := fun _ _ => True)|].
    { intros i Hi. eapply fine_bnd; [apply fine_ub with (P := fun _ => True) (a := nth i nb0 0); auto; apply nth_error_nth'; lia|].
      intros x _. eapply fine_bnd; [apply fine_ub with (P := fun _ => True) (a := nth i g 0); auto; apply nth_error_nth'; lia|].
      intros y _. exact I. }
    intros nb (Lnb & _). eapply fine_bnd; [apply enf0; auto|]. intros e (Le & Pe).
    eapply fine_bnd; [apply fine_call with (P := fun c => F (fst e) = Some c); auto|]. intros c Ec.
    destruct (rle cf1 c) eqn:R2; [cbn; repeat split; auto|]. apply rle_false in R2. cbn.
    destruct k as [|k]; [cbn in Hk; lra|].
    assert (S2 : 0 < step_factor) by (apply sqrt_lt_R0; lra).
    exists k. split; [lia|]. split; [apply Rmult_lt_0_compat; auto|]. split; [cbn [pow] in Hk; lra|]. split; auto. split; auto.
    split; auto. split; auto. lra.
  Qed.

  (** one step of the gradient descent never raises the cost; when it reports a success the
      cost went down by half a percent at least *)
  Theorem gradient_descent_step_cost eps ms b : length b = dn -> 0 < ms ->
    does (fun r => better b (snd r) /\
            ((0 < fst r)%Z -> exists c c', F b = Some c /\ F (snd r) = Some c' /\ c' <= c * (995 / 1000)))
         (fun fu => gradient_descent_step d F mins fu eps ms b).
  Proof.
    intros L Hms. unfold gradient_descent_step. rewrite L.
    eapply does_bnd with (f := fun cf fu => g <~ target_function_gradient d F mins eps b;; _);
      [apply does_fine, fine_call with (P := fun c => F b = Some c); auto|].
    intros cf Ecf.
    eapply does_bnd with (Q := fun g => length g = dn); [apply does_fine, gradient_fine; auto|]. intros g Lg.
    destruct (rle (sqrt (fold_left (fun a x => a + x * x) g 0 / INR dn)) 0) eqn:Rn.
    { apply does_ret. cbn. split; [|lia]. split; auto. split; auto. exists cf, cf. repeat split; auto. lra. }
    set (norm := sqrt _). destruct (sqrt2_steps ms (INR dn) Hms) as (k & Hk).
    eapply does_bnd; [eapply mini_step_does with (b := b) (cf := cf) (k := k); auto; [now rewrite map_length|lra]|].
    intros [[res b'] cf'] (L' & P' & E' & C'). 
    assert (Bt : better b b') by (split; auto; split; auto; exists cf, cf'; auto).
    apply does_fine. destruct res as [j|].
    - destruct (rlt (cf * min_cf_decrease) cf') eqn:R; cbn; [split; auto; lia|]. split; auto. intros _.
      exists cf, cf'. apply rlt_false in R. unfold min_cf_decrease in R. auto.
    - cbn. split; auto. lia.
  Qed.

  Lemma better_inside b b' : inside lo b -> better b b' -> inside lo b'.
  Proof. intros I (_ & [->|P] & _); auto. apply P. Qed.
  Lemma better_trans a b c : better a b -> better b c -> better a c.
  Proof.
    intros (L1 & P1 & c1 & c1' & E1 & E1' & G1) (L2 & P2 & c2 & c2' & E2 & E2' & G2). split; auto. split.
    - destruct P2 as [->|P2]; auto.
    - exists c1, c2'. repeat split; auto. assert (c1' = c2) by congruence. lra.
  Qed.

  (** the gradient descent terminates and does not raise the cost *)
  Theorem gradient_descent_terminates b : length b = dn -> inside lo b ->
    does (better b) (fun fu => gradient_descent d F mins fu b).
  Proof.
    intros L Ib. destruct (F b) as [c0|] eqn:E0.
    2:{ exists (Throw Range), 1%nat. split; [|exact I]. intros [|fu] H; [lia|].
        unfold gradient_descent. cbn [wloop descent_turn]. unfold gradient_descent_step. rewrite E0. reflexivity. }
    unfold gradient_descent. destruct (budget c0 m Hm) as (k0 & Hk0).
    eapply does_wloop with (k := (2 * k0 + 5)%nat) (Inv := fun q s => let '(eps, ms, trials, b1) := s in
      exists k c, better b b1 /\ F b1 = Some c /\ c * (995 / 1000) ^ k < m /\ 0 < ms /\ (trials < 5)%Z /\
        (Z.of_nat q = 2 * Z.of_nat k + 5 - trials)%Z).
    - intros q [[[eps ms] trials] b1] (k & c & B & E & Hk & Hms & Ht & Hq). unfold descent_turn.
      eapply does_bnd with (f := fun r fu => let '(ret, b) := r in _);
        [eapply gradient_descent_step_cost with (ms := ms); auto; apply B|].
      intros [ret b2] (B2 & G). cbn [snd fst] in *. assert (B12 : better b b2) by (eapply better_trans; eauto).
      apply does_fine. destruct (ret =? 0)%Z eqn:R0; [cbn; auto|].
      apply Z.eqb_neq in R0. destruct B2 as (L2 & P2 & c1 & c2 & E1 & E2 & C2). assert (c1 = c) by congruence. subst c1.
      destruct (ret <? 0)%Z eqn:R1.
      + destruct (5 <=? trials + 1)%Z eqn:R2; [cbn; auto|]. apply Z.leb_gt in R2. cbn [fine].
        exists (q - 1)%nat. split; [lia|]. exists k, c2. split; auto. split; auto. 
        assert (P : 0 < (995 / 1000) ^ k) by (apply pow_lt; lra).
        split; [|split; [lra|split; [lia|lia]]]. nra.
      + apply Z.ltb_ge in R1. destruct (G ltac:(lia)) as (c1 & c3 & E1' & E3 & C3).
        assert (c1 = c) by congruence. assert (c3 = c2) by congruence. subst c1 c3. cbn [fine].
        assert (I2 : inside lo b2) by (eapply better_inside; eauto).
        assert (Fl : m <= c2) by (eapply Hfloor; eauto).
        destruct k as [|k]; [cbn in Hk; lra|].
        exists (q - 1)%nat. split; [lia|]. exists k, c2. split; auto. split; auto.
        assert (P : 0 < (995 / 1000) ^ k) by (apply pow_lt; lra). cbn [pow] in Hk.
        split; [nra|]. split; auto. split; lia.
    - exists k0, c0. split; [split; auto; split; auto; exists c0, c0; repeat split; auto; lra|]. split; auto. split; auto.
      split; [apply Rinv_0_lt_compat, pow_lt; lra|]. lia.
  Qed.

  (** *** Nelder-Mead *)
  Lemma centroid_fine bs : (0 < length bs)%nat -> (forall i, (i < length bs)%nat -> length (nth i bs []) = dn) ->
    fine (fun o => length o = dn /\ forall j, (j < dn)%nat -> nth j o 0 = psum (fun i => nth j (nth i bs []) 0) (length bs) / INR (length bs))
      (centroid dn bs).
  Proof.
    intros L0 Lb. unfold centroid. eapply fine_weak.
    - apply fine_collect with (P := fun j x => x = psum (fun i => nth j (nth i bs []) 0) (length bs) / INR (length bs)).
      intros j Hj. eapply fine_bnd.
      + apply (fine_each (fun i a => a = psum (fun i => nth j (nth i bs []) 0) i)) with (k := (length bs - 1)%nat).
        * cbn. ring.
        * intros i a Hi ->. eapply fine_bnd; [apply fine_ub with (P := fun v => v = nth i bs []) (a := nth i bs []); auto; apply nth_error_nth'; lia|].
          intros v ->. eapply fine_bnd; [apply fine_ub with (P := fun x => x = nth j (nth i bs []) 0) (a := nth j (nth i bs []) 0); auto; apply nth_error_nth'; rewrite Lb by lia; lia|].
          intros x ->. reflexivity.
      + intros s ->. cbn [fine]. replace (1 + (length bs - 1))%nat with (length bs) by lia. reflexivity.
    - intros o (L & P). split; auto. intros j Hj. apply (P j 0 Hj).
  Qed.

  (** the proper vectors form a convex set *)
  Lemma proper_convex bs o : (0 < length bs)%nat -> length o = dn ->
    (forall i, (i < length bs)%nat -> length (nth i bs []) = dn /\ proper lo mins (nth i bs [])) ->
    (forall j, (j < dn)%nat -> nth j o 0 = psum (fun i => nth j (nth i bs []) 0) (length bs) / INR (length bs)) ->
    proper lo mins o.
  Proof.
    intros L0 Lo P E. assert (Lp : 0 < INR (length bs)) by (apply lt_0_INR; auto).
    assert (D : forall j c, (j < dn)%nat -> (forall i, (i < length bs)%nat -> c <= nth j (nth i bs []) 0) -> c <= nth j o 0).
    { intros j c Hj H. rewrite E by auto. apply Rmult_le_reg_r with (INR (length bs)); auto.
      unfold Rdiv. rewrite Rmult_assoc, Rinv_l by lra. rewrite (Rmult_comm c), <- psum_const, Rmult_1_r. apply psum_le. auto. }
    split; [split|split].
    - rewrite Lo. intros i k H. rewrite !E by lia. unfold Rdiv. apply Rmult_le_compat_r; [left; apply Rinv_0_lt_compat; auto|].
      apply psum_le. intros t Ht. destruct (P t Ht) as (Lt & (N & _) & _). apply N. lia.
    - rewrite Lo. intros i Hi. split.
      + apply D; auto. intros t Ht. destruct (P t Ht) as (Lt & (_ & B) & _). apply B. lia.
      + rewrite E by lia. apply Rmult_le_reg_r with (INR (length bs)); auto.
        unfold Rdiv. rewrite Rmult_assoc, Rinv_l by lra. rewrite (Rmult_comm 1), <- psum_const, Rmult_1_r. apply psum_le.
        intros t Ht. destruct (P t Ht) as (Lt & (_ & B) & _). apply B. lia.
    - unfold above. rewrite Lo. intros i Hi Hk. apply D; auto. intros t Ht. destruct (P t Ht) as (Lt & _ & A & _).
      unfold above in A. rewrite Lt in A. apply A; auto.
    - rewrite Lo. destruct (Nat.eq_dec dn 1) as [|Ne]; [left; auto|right]. apply D; [lia|].
      intros t Ht. destruct (P t Ht) as (Lt & _ & _ & [X|X]); [lia|]. rewrite Lt in X. exact X.
  Qed.

  Lemma along_fine p q t : length p = dn -> length q = dn ->
    fine (fun v => length v = dn /\ forall i, (i < dn)%nat -> nth i v 0 = nth i p 0 + t * (nth i q 0 - nth i p 0)) (along dn p q t).
  Proof.
    intros Lp Lq. unfold along. eapply fine_weak.
    - apply fine_collect with (P := fun i x => x = nth i p 0 + t * (nth i q 0 - nth i p 0)). intros i Hi.
      eapply fine_bnd; [apply fine_ub with (P := fun x => x = nth i p 0) (a := nth i p 0); auto; apply nth_error_nth'; lia|].
      intros x ->. eapply fine_bnd; [apply fine_ub with (P := fun x => x = nth i q 0) (a := nth i q 0); auto; apply nth_error_nth'; lia|].
      intros y ->. reflexivity.
    - intros v (L & P). split; auto. intros i Hi. apply (P i 0 Hi).
  Qed.
  (** a vertex with its value *)
  Definition vertex (r : list R * R) : Prop := length (fst r) = dn /\ proper lo mins (fst r) /\ F (fst r) = Some (snd r).
  Lemma valued_fine v : length v = dn -> fine (fun r => vertex r /\ (proper lo mins v -> fst r = v)) (valued d F mins v).
  Proof.
    intros L. unfold valued, enf. destruct (enforce_proper lo mins v Hmins) as (v' & st & E & L' & P); [lia|].
    rewrite E. cbn [ub obnd fst]. eapply fine_bnd; [apply fine_call with (P := fun c => F v' = Some c); auto|].
    intros f Ef. cbn [fine]. unfold vertex. cbn [fst snd]. split; [split; [lia|split; [exact P|exact Ef]]|].
    intros Pv. rewrite (enforce_proper_same lo mins v) in E by (auto; lia). congruence.
  Qed.

  (** the simplex; one of its values is at most [v0] *)
  Definition simplex0 (bs : list (list R)) (fs : list R) : Prop :=
    length bs = S dn /\ length fs = S dn /\ forall i, (i < S dn)%nat -> vertex (nth i bs [], nth i fs 0).
  Definition simplex (v0 : R) (bs : list (list R)) (fs : list R) : Prop :=
    simplex0 bs fs /\ exists i, (i < S dn)%nat /\ nth i fs 0 <= v0.

  Lemma simplex0_upd bs fs j r : simplex0 bs fs -> (j < S dn)%nat -> vertex r -> simplex0 (upd bs j (fst r)) (upd fs j (snd r)).
  Proof.
    intros (L1 & L2 & V) Hj Vr. split; [now rewrite upd_length|]. split; [now rewrite upd_length|]. intros i Hi.
    rewrite !nth_upd_R by lia. destruct (i =? j)%nat; auto.
  Qed.
  Lemma simplex_upd v0 bs fs j r : simplex0 bs fs -> (j < S dn)%nat -> vertex r ->
    (exists t, (t < S dn)%nat /\ t <> j /\ nth t fs 0 <= v0) \/ snd r <= v0 ->
    simplex v0 (upd bs j (fst r)) (upd fs j (snd r)).
  Proof.
    intros S0 Hj Vr W. split; [apply simplex0_upd; auto|]. destruct S0 as (L1 & L2 & V). destruct W as [(t & Ht & Ne & C)|C].
    - exists t. split; auto. rewrite nth_upd_R by lia. apply Nat.eqb_neq in Ne. rewrite Ne. auto.
    - exists j. split; auto. rewrite nth_upd_R by lia. rewrite Nat.eqb_refl. auto.
  Qed.

  Lemma shrink_fine v0 bs fs mini : simplex0 bs fs -> (mini < S dn)%nat -> nth mini fs 0 <= v0 ->
    fine (fun s => simplex v0 (fst s) (snd s)) (each (seq 0 (length bs)) (shrink_one d F mins dn mini) (bs, fs)).
  Proof.
    intros S0 Hm0 C. eapply fine_weak.
    - apply (fine_each (fun _ s => simplex0 (fst s) (snd s) /\ nth mini (fst s) [] = nth mini bs [] /\ nth mini (snd s) 0 <= v0));
        [cbn [fst snd]; auto|].
      intros j [bs1 fs1] Hj (S1 & E1 & C1). cbn [fst snd] in *. assert (S1' := S1). destruct S1' as (L1 & L2 & V). destruct S0 as (L0 & _ & _).
      destruct (V mini Hm0) as (Lm & Pm & Fm). destruct (V j ltac:(lia)) as (Lj & Pj & Fj). cbn [fst snd] in *.
      unfold shrink_one.
      eapply fine_bnd; [apply fine_ub with (P := fun v => v = nth mini bs1 []) (a := nth mini bs1 []); auto; apply nth_error_nth'; lia|].
      intros p ->. eapply fine_bnd; [apply fine_ub with (P := fun v => v = nth j bs1 []) (a := nth j bs1 []); auto; apply nth_error_nth'; lia|].
      intros q ->. eapply fine_bnd; [apply along_fine; auto|]. intros v (Lv & Ev).
      eapply fine_bnd; [apply valued_fine; auto|]. intros r (Vr & Kr).
      rewrite (vset_at bs1) by lia. cbn [ub obnd]. rewrite vset_at by lia. cbn [ub obnd fine fst snd].
      split; [apply simplex0_upd; auto; lia|]. rewrite !nth_upd_R by lia. destruct (mini =? j)%nat eqn:Ej; auto.
      apply Nat.eqb_eq in Ej. subst j. 
      assert (v = nth mini bs1 []).
      { apply (nth_ext _ _ 0 0); [lia|]. intros i Hi. rewrite Ev by lia. ring. }
      subst v. rewrite (Kr Pm). split; auto. destruct Vr as (_ & _ & Fr). rewrite (Kr Pm) in Fr.
      assert (snd r = nth mini fs1 0) by congruence. lra.
    - intros s (S1 & _ & C1). split; auto. exists mini. auto.
  Qed.

  (** the state of the main loop with a bound on the number of turns that are left *)
  Definition nelder_inv (v0 : R) (q : nat) (s : list (list R) * list R * R * nat) : Prop :=
    let '(bs, fs, last, counter) := s in
    simplex v0 bs fs /\ exists k,
      (if (counter =? 0)%nat then nth (snd (min_max fs)) fs 0 else last) * (995 / 1000) ^ k < m /\
      q = (k * S dn + (S dn - counter mod S dn))%nat.

  Lemma nelder_turn_fine v0 q fu s : nelder_inv v0 q s ->
    fine (fun r => match r with inl s' => exists q', (q' < q)%nat /\ nelder_inv v0 q' s' | inr a => vertex a /\ snd a <= v0 end)
      (nelder_turn d F mins dn fu s).
  Proof.
    destruct s as [[[bs fs] last] counter]. intros ((S0 & Hv) & k & Hk & Hq). unfold nelder_turn.
    assert (S0' := S0). destruct S0' as (L1 & L2 & V).
    pose proof (min_max_smallest fs ltac:(lia)) as MM. destruct (min_max fs) as [mini maxi]. cbn [snd] in Hk.
    destruct MM as (Mi & Ma & Mle & Meq). rewrite L2 in *.
    assert (Cm : nth mini fs 0 <= v0) by (destruct Hv as (i & Hi & Ci); specialize (Mle i Hi); lra).
    eapply fine_bnd; [apply centroid_fine; [lia|intros i Hi; apply V; lia]|]. intros bo (Lo & Eo).
    assert (Po : proper lo mins bo).
    { apply (proper_convex bs); auto; [lia|]. intros i Hi. split; apply V; lia. }
    unfold enf. rewrite (enforce_proper_same lo) by (auto; lia). cbn [ub obnd snd fst].
    set (last0 := if (counter =? 0)%nat then nth maxi fs 0 else last) in *.
    rewrite L1. set (check := (S counter mod S dn =? 0)%nat).
    destruct (V mini Mi) as (Lmi & Pmi & Fmi). destruct (V maxi Ma) as (Lma & Pma & Fma). cbn [fst snd] in *.
    destruct (check && rlt (last0 * min_cf_decrease) (nth maxi fs 0)) eqn:Ck.
    { eapply fine_bnd; [apply fine_ub with (P := fun v => v = nth mini bs []) (a := nth mini bs []); auto; apply nth_error_nth'; lia|].
      intros b ->. cbn [fine snd]. split; auto. }
    set (last1 := if check then nth maxi fs 0 else last0).
    assert (Q : exists q' k', (q' < q)%nat /\ last1 * (995 / 1000) ^ k' < m /\ q' = (k' * S dn + (S dn - S counter mod S dn))%nat).
    { unfold last1, check in *. destruct (mod_succ counter (S dn) ltac:(lia)) as [(Z1 & Z2)|(Z1 & Z2)].
      - rewrite Z1 in *. cbn [Nat.eqb andb] in *. apply rlt_false in Ck. unfold min_cf_decrease in Ck.
        assert (Fl : m <= nth maxi fs 0) by (eapply Hfloor; [exact Lma|apply Pma|exact Fma]).
        destruct k as [|k]; [cbn in Hk; lra|]. exists (k * S dn + (S dn - 0))%nat, k. split; [lia|]. split; auto.
        assert (0 < (995 / 1000) ^ k) by (apply pow_lt; lra). cbn [pow] in Hk. nra.
      - rewrite Z1. replace (S (counter mod S dn) =? 0)%nat with false by reflexivity.
        eexists _, k. split; [|split; [exact Hk|reflexivity]]. lia. }
    destruct Q as (q' & k' & Hq' & Hk' & Eq').
    set (maxi2 := second_max' fs maxi (second_max fs maxi)).
    assert (M2 : (maxi2 < S dn)%nat) by (rewrite <- L2; apply second_max_lt; lia).
    assert (Rep : forall r, vertex r -> (mini <> maxi \/ snd r <= v0) ->
      fine (fun r => match r with inl s' => exists q', (q' < q)%nat /\ nelder_inv v0 q' s' | inr a => vertex a /\ snd a <= v0 end)
        (bs0 <~ ub (vset bs maxi (fst r));; fs0 <~ ub (vset fs maxi (snd r));; Ret (inl (bs0, fs0, last1, S counter)))).
    { intros r Vr W. rewrite (vset_at bs) by lia. cbn [ub obnd]. rewrite vset_at by lia. cbn [ub obnd fine].
      exists q'. split; auto. split; [|exists k'; split; auto].
      apply simplex_upd; auto. destruct W as [W|W]; auto. left. exists mini. auto. }
    eapply fine_bnd; [apply fine_ub with (P := fun v => v = nth maxi bs []) (a := nth maxi bs []); auto; apply nth_error_nth'; lia|].
    intros bmax ->. eapply fine_bnd; [apply along_fine; auto|]. intros br (Lbr & _).
    eapply fine_bnd; [apply valued_fine; auto|]. intros r (Vr & _).
    assert (Vr' := Vr). destruct Vr' as (Lr & Pr & Fr).
    destruct (rle (nth mini fs 0) (snd r) && rlt (snd r) (nth maxi2 fs 0)) eqn:R1.
    { apply andb_prop in R1. destruct R1 as (R1 & R2). apply rle_true in R1. apply rlt_true in R2.
      apply Rep; auto. left. intros Eq. specialize (Meq Eq maxi2 M2). lra. }
    destruct (rlt (snd r) (nth mini fs 0)) eqn:R2.
    { apply rlt_true in R2. eapply fine_bnd; [apply along_fine; auto|]. intros be (Lbe & _).
      eapply fine_bnd; [apply valued_fine; auto|]. intros x (Vx & _).
      destruct (rlt (snd x) (snd r)) eqn:R3; apply Rep; auto; right; [apply rlt_true in R3|]; lra. }
    apply rlt_false in R2. apply andb_false_iff in R1.
    destruct (negb (rle (nth maxi2 fs 0) (snd r))) eqn:R3.
    { apply negb_true_iff, rle_false in R3. destruct R1 as [R1|R1]; [apply rle_false in R1|apply rlt_false in R1]; lra. }
    eapply fine_bnd; [apply along_fine; auto|]. intros bc (Lbc & _).
    eapply fine_bnd; [apply valued_fine; auto|]. intros c (Vc & _).
    destruct (rlt (snd c) (nth maxi fs 0)) eqn:R4.
    { apply rlt_true in R4. apply Rep; auto. destruct (Nat.eq_dec mini maxi) as [Eq|Ne]; auto. right. rewrite Eq in Cm. lra. }
    eapply fine_bnd; [rewrite <- L1; apply (shrink_fine v0); auto|]. intros [bs1 fs1] Sx. cbn [fst snd fine] in *.
    exists q'. split; auto. split; auto. exists k'. split; auto.
  Qed.

  (** the cost of a step of Nelder-Mead: [r] is the outcome for [b] *)
  Definition nm_result (b : list R) (r : bool * list R) : Prop :=
    length (snd r) = dn /\ proper lo mins (snd r) /\
    exists b0 st c0 c, enforce d mins b 0 = Some (b0, st) /\ F b0 = Some c0 /\ F (snd r) = Some c /\ c <= c0 /\
      (fst r = true -> c < c0 * (995 / 1000)).

  (** a step of Nelder-Mead terminates, throws neither of its own exceptions, and does not
      raise the cost of the enforced starting vector *)
  Theorem nelder_mead_step_cost b : length b = dn -> does (nm_result b) (fun fu => nelder_mead_step d F mins fu b).
  Proof.
    intros L. unfold nelder_mead_step. rewrite L.
    eapply does_bnd with (f := fun vs fu => r <~ wloop (nelder_turn d F mins dn) fu _;; _).
    - apply does_fine. apply fine_collect with (P := fun i r => vertex r /\ (i = dn -> exists st, enforce d mins b 0 = Some (fst r, st))).
      intros i Hi. unfold first_vertex. rewrite L.
      eapply fine_bnd with (Q := fun v => length v = dn /\ (i = dn -> v = b)).
      { destruct (i <? dn)%nat eqn:Ei; [|apply Nat.ltb_ge in Ei; cbn; split; auto].
        apply Nat.ltb_lt in Ei. rewrite nth_error_nth' with (d := 0) by lia. cbn [ub obnd]. rewrite vset_at by lia.
        cbn. split; [now rewrite upd_length|lia]. }
      intros v (Lv & Ev). unfold enf. destruct (enforce_proper lo mins v Hmins) as (v' & st & E & L' & P); [lia|].
      rewrite E. cbn [ub obnd fst]. eapply fine_bnd; [apply fine_call with (P := fun c => F v' = Some c); auto|].
      intros f Ef. cbn [fine]. split; [split; [cbn; lia|split; [exact P|exact Ef]]|]. intros Hd. rewrite <- (Ev Hd). exists st. exact E.
    - intros vs (Lv & V).
      assert (V1 : forall i, (i < S dn)%nat -> vertex (nth i (map fst vs) [], nth i (map snd vs) 0)).
      { intros i Hi. specialize (V i ([], 0) Hi). rewrite (nth_indep (map fst vs) [] (fst ([] : list R, 0))) by (rewrite map_length; lia).
        rewrite (nth_indep (map snd vs) 0 (snd ([] : list R, 0))) by (rewrite map_length; lia). rewrite !map_nth.
        destruct (nth i vs ([], 0)). apply V. }
      assert (Sx : simplex (nth dn (map snd vs) 0) (map fst vs) (map snd vs)).
      { split; [split; [now rewrite map_length|split; [now rewrite map_length|auto]]|]. exists dn. split; [lia|lra]. }
      destruct (V dn ([], 0) ltac:(lia)) as (Vd & Ed). destruct (Ed ltac:(lia)) as (st & Eb).
      assert (Ec : nth dn (map snd vs) 0 = snd (nth dn vs ([], 0))).
      { rewrite (nth_indep (map snd vs) 0 (snd ([] : list R, 0))) by (rewrite map_length; lia). apply map_nth. }
      destruct (budget (nth (snd (min_max (map snd vs))) (map snd vs) 0) m Hm) as (k & Hk).
      eapply does_bnd with (f := fun r fu => _) .
      + eapply does_wloop with (Inv := nelder_inv (nth dn (map snd vs) 0)).
        * intros q s I. exists (nelder_turn d F mins dn O s), O. split; [reflexivity|]. exact (nelder_turn_fine _ q O s I).
        * split; [exact Sx|]. exists k. split; [exact Hk|reflexivity].
      + intros [b' c'] ((Lb' & Pb' & Fb') & Cb'). cbn [fst snd] in *. apply does_ret. split; auto. split; auto.
        exists (fst (nth dn vs ([], 0))), st, (nth dn (map snd vs) 0), c'. split; auto. split; [rewrite Ec; apply Vd|]. split; auto. split; auto.
        cbn [fst]. intros R1. apply rlt_true in R1. exact R1.
  Qed.

  (** the loop of Nelder-Mead steps terminates and does not raise the cost of the enforced vector *)
  Definition nm_better (b b' : list R) : Prop :=
    length b' = dn /\ proper lo mins b' /\
    exists b0 st c0 c, enforce d mins b 0 = Some (b0, st) /\ F b0 = Some c0 /\ F b' = Some c /\ c <= c0.
  Theorem nelder_mead_terminates b : length b = dn -> does (nm_better b) (fun fu => nelder_mead d F mins fu b).
  Proof.
    intros L. unfold nelder_mead. destruct (enforce_proper lo mins b Hmins) as (b0 & st & E & L0 & P0); [lia|].
    assert (K : exists k, forall c0, F b0 = Some c0 -> c0 * (995 / 1000) ^ k < m).
    { destruct (F b0) as [c0|]; [|exists O; discriminate]. destruct (budget c0 m Hm) as (k & Hk). exists k. intros c1 E1. injection E1 as <-. auto. }
    destruct K as (k0 & Hk0).
    eapply does_wloop with (k := S k0) (Inv := fun q b1 => (b1 = b /\ q = S k0) \/
      (length b1 = dn /\ proper lo mins b1 /\ exists c0 c, F b0 = Some c0 /\ F b1 = Some c /\ c <= c0 /\ c * (995 / 1000) ^ q < m));
      [|left; auto].
    intros q b1 I. eapply does_bnd with (f := fun r fu => _);
      [apply nelder_mead_step_cost; destruct I as [(-> & _)|(L1 & _)]; auto|].
    intros [im b2] (L2 & P2 & e & st2 & ce & c2 & Ee & Fe & F2 & C2 & G). cbn [fst snd] in *. apply does_ret.
    assert (T : exists c0, F b0 = Some c0 /\ ce <= c0 /\ (im = true -> exists q', (q' < q)%nat /\ c2 * (995 / 1000) ^ q' < m)).
    { destruct I as [(-> & ->)|(L1 & P1 & c0 & c & F0 & F1 & C & Hq)].
      - rewrite E in Ee. injection Ee as <- <-. exists ce. split; auto. split; [lra|]. intros Hi. exists k0. split; [lia|].
        specialize (Hk0 ce Fe). assert (0 < (995 / 1000) ^ k0) by (apply pow_lt; lra). nra.
      - rewrite (enforce_proper_same lo) in Ee by (auto; lia). injection Ee as <- <-. assert (ce = c) by congruence. subst ce.
        exists c0. split; auto. split; auto. intros Hi. specialize (G Hi).
        assert (Fl : m <= c2) by (eapply Hfloor; [exact L2|apply P2|exact F2]).
        destruct q as [|q]; [cbn in Hq; lra|]. exists q. split; [lia|].
        assert (0 < (995 / 1000) ^ q) by (apply pow_lt; lra). cbn [pow] in Hq. nra. }
    destruct T as (c0 & F0 & Cc & T). destruct im.
    - destruct (T eq_refl) as (q' & Hq' & B). exists q'. split; auto. right. split; auto. split; auto. exists c0, c2. repeat split; auto. lra.
    - split; auto. split; auto. exists b0, st, c0, c2. repeat split; auto. lra.
  Qed.
End Descent.

(** ** The indices of Nelder-Mead: the second one need not be that of the largest value *)
Theorem worst_vertex_refuted : exists fs, length fs = 3%nat /\
  exists i, nth (snd (min_max fs)) fs 0 < nth i fs 0.
Proof.
  exists [2; 1; 3 / 2]. split; auto. exists 0%nat. unfold min_max. cbn [length Nat.sub seq fold_left fst snd nth].
  replace (rlt 1 2) with true by (symmetry; apply rlt_true; lra). cbn [nth].
  replace (rlt 1 1) with false by (symmetry; apply rlt_false; lra).
  replace (rlt (3 / 2) 1) with false by (symmetry; apply rlt_false; lra). cbn [nth].
  replace (rlt 1 (3 / 2)) with true by (symmetry; apply rlt_true; lra). cbn [nth]. lra.
Qed.

(** ** Profiles (external coefficients) *)

(** non-increasing with entries between [lo] and one *)
Definition falling (lo : R) (n : nat) (pr : list R) : Prop :=
  length pr = n /\
  (forall i k, (i <= k < n)%nat -> nth k pr 0 <= nth i pr 0) /\
  forall i, (i < n)%nat -> lo <= nth i pr 0 <= 1.

Section Profiles.
  Variables (n d : nat) (lo : R).
  Hypothesis Hn : (2 <= n)%nat.
  Hypothesis Hd : d = (n / 2)%nat.
  Hypothesis Hlo : lo <= 1.

  Lemma half : (0 < d)%nat /\ (2 * d <= n <= 2 * d + 1)%nat.
  Proof. rewrite Hd. pose proof (Nat.div_mod n 2 ltac:(lia)). pose proof (Nat.mod_upper_bound n 2 ltac:(lia)). lia. Qed.

  (** what is loaded *)
  Lemma load_inside dn pr : dn = d \/ dn = n -> falling lo n pr ->
    exists b, load_profile n d dn pr = Some b /\ length b = dn /\ inside lo b /\
      forall i, (i < dn)%nat -> nth i b 0 = nth (n - 1 - (if (dn =? d)%nat then 2 * i else i)) pr 0.
  Proof.
    intros D (L & A & B). pose proof half as H.
    destruct (load_entries n d dn pr) as (b & E & Lb & V); [lia|auto|].
    exists b. split; auto. split; auto. unfold en in V. split; [|auto].
    assert (X : forall i, (i < dn)%nat -> (n - 1 - (if (dn =? d)%nat then 2 * i else i) < n)%nat) by (intros; lia).
    split; rewrite Lb.
    - intros i k Hik. rewrite !V by lia. apply A. split; [|apply X; lia]. destruct (dn =? d)%nat; lia.
    - intros i Hi. rewrite V by auto. apply B, X. auto.
  Qed.
  (** what is saved *)
  Lemma save_falling pr0 b : length b = d \/ length b = n -> inside lo b ->
    exists pr, save_profile n d pr0 b = Some pr /\ falling lo n pr /\ nth 0 pr 0 = 1 /\
      forall k, (0 < k < n)%nat -> nth k pr 0 = nth (if (length b =? d)%nat then (n - 1 - k) / 2 else n - 1 - k) b 0.
  Proof.
    intros D (A & B). pose proof half as H.
    assert (S : exists pr, save_profile n d pr0 b = Some pr /\ length pr = n /\ nth 0 pr 0 = 1 /\
      forall k, (0 < k < n)%nat -> nth k pr 0 = nth (if (length b =? d)%nat then (n - 1 - k) / 2 else n - 1 - k) b 0).
    { destruct D as [D|D].
      - destruct (save_half_entries n d pr0 b) as (pr & E & L & Z & V); [auto|lia|lia|]. exists pr. split; auto. split; auto. split; auto.
        intros k Hk. rewrite D, Nat.eqb_refl. apply V; lia.
      - destruct (save_full_entries n d pr0 b) as (pr & E & L & Z & V); [auto|lia|lia|]. exists pr. split; auto. split; auto. split; auto.
        intros k Hk. replace (length b =? d)%nat with false by (symmetry; apply Nat.eqb_neq; lia). apply V; lia. }
    destruct S as (pr & E & L & Z & V). exists pr. split; auto. split; [|auto]. split; auto.
    set (q := fun k => if (length b =? d)%nat then ((n - 1 - k) / 2)%nat else (n - 1 - k)%nat).
    assert (Q : forall k, (0 < k < n)%nat -> (q k < length b)%nat).
    { intros k Hk. unfold q. destruct D as [D|D]; rewrite D.
      - rewrite Nat.eqb_refl. apply Nat.div_lt_upper_bound; lia.
      - replace (n =? d)%nat with false by (symmetry; apply Nat.eqb_neq; lia). lia. }
    split.
    - intros i k Hik. destruct k as [|k]; [replace i with O by lia; lra|]. destruct i as [|i].
      + rewrite Z, V by lia. apply B. apply Q. lia.
      + rewrite !V by lia. apply A. split; [|apply Q; lia].
        destruct (length b =? d)%nat; [apply Nat.div_le_mono; lia|lia].
    - intros [|i] Hi; [rewrite Z; lra|]. rewrite V by lia. apply B, Q. lia.
  Qed.
  (** a half vector is loaded as it was saved *)
  Lemma load_save_half pr0 b pr : length b = d -> inside lo b -> save_profile n d pr0 b = Some pr ->
    load_profile n d d pr = Some b.
  Proof.
    intros L I E. pose proof half as H. destruct (save_falling pr0 b) as (pr1 & E1 & Fp & Z & V); auto.
    rewrite E in E1. injection E1 as <-. destruct (load_inside d pr) as (b1 & E1 & L1 & _ & V1); auto.
    rewrite E1. f_equal. apply (nth_ext _ _ 0 0); [lia|]. intros i Hi. rewrite V1 by lia. rewrite Nat.eqb_refl.
    rewrite V by lia. rewrite L, Nat.eqb_refl. f_equal.
    replace (n - 1 - (n - 1 - 2 * i))%nat with (i * 2)%nat by lia. apply Nat.div_mul. lia.
  Qed.
  (** a full vector too, except that its last entry becomes one *)
  Lemma load_save_full pr0 b pr : length b = n -> inside lo b -> save_profile n d pr0 b = Some pr ->
    load_profile n d n pr = Some (upd b (n - 1) 1).
  Proof.
    intros L I E. pose proof half as H. destruct (save_falling pr0 b) as (pr1 & E1 & Fp & Z & V); auto.
    rewrite E in E1. injection E1 as <-. destruct (load_inside n pr) as (b1 & E1 & L1 & _ & V1); auto.
    rewrite E1. f_equal. apply (nth_ext _ _ 0 0); [rewrite upd_length; lia|]. intros i Hi. rewrite V1 by lia.
    replace (n =? d)%nat with false by (symmetry; apply Nat.eqb_neq; lia).
    rewrite nth_upd_R by lia. destruct (i =? n - 1)%nat eqn:Ei.
    - apply Nat.eqb_eq in Ei. subst i. replace (n - 1 - (n - 1))%nat with O by lia. auto.
    - apply Nat.eqb_neq in Ei. rewrite V by lia. rewrite L. replace (n =? d)%nat with false by (symmetry; apply Nat.eqb_neq; lia). f_equal. lia.
  Qed.
End Profiles.

Section Adjust.
  Variables (n d : nat) (lo m : R).
  Variable F : list R -> option R.
  Variable SC : list R -> list R -> option (R * list R).
  Hypothesis Hn : (2 <= n)%nat.
  Hypothesis Hd : d = (n / 2)%nat.
  Hypothesis Hlo : 0 < lo <= 1.
  Hypothesis Hm : 0 < m.
  Hypothesis Hfull : cost_floor F lo m n.
  Hypothesis Hhalf : cost_floor F lo m d.

  Lemma core_does_gen mins grad nm dn pr b : length mins = d -> minima lo mins -> dn = d \/ dn = n ->
    falling lo n pr -> load_profile n d dn pr = Some b -> length b = dn -> inside lo b ->
    does (fun pr' => exists b', save_profile n d pr b' = Some pr' /\ length b' = dn /\ inside lo b' /\
        (F b = None \/ exists c c', F b' = Some c' /\ (F b = Some c \/ exists b0 st, enforce d mins b 0 = Some (b0, st) /\ F b0 = Some c) /\ c' <= c))
      (fun fu => core n d F mins grad nm dn fu pr).
  Proof.
    intros Lm Hmins D Fp E Lb Ib. pose proof (half n d Hn Hd) as H.
    assert (Hdn : (0 < dn)%nat) by lia. assert (Hf : cost_floor F lo m dn) by (destruct D; subst dn; auto).
    unfold core. rewrite E. cbn [ub obnd].
    eapply does_bnd with (Q := fun b1 => length b1 = dn /\ inside lo b1 /\ (b1 = b \/ proper lo mins b1 /\ better F lo mins dn b b1))
                         (f := fun b1 fu => b0 <~ (if nm then nelder_mead d F mins fu b1 else Ret b1);; ub (save_profile n d pr b0)).
    { destruct grad; [|apply does_ret; auto].
      eapply does_weak; [rewrite <- Lm; apply (gradient_descent_terminates F lo m mins dn); auto|].
      intros b1 B. split; [apply B|]. split; [eapply better_inside; eauto|]. destruct B as (L1 & [->|P] & X); [auto|right]. split; auto. split; auto. }
    intros b1 (L1 & I1 & B1).
    eapply does_bnd with (f := fun b2 fu => ub (save_profile n d pr b2))
      (Q := fun b2 => length b2 = dn /\ inside lo b2 /\ (F b = None \/ exists c c', F b2 = Some c' /\ (F b = Some c \/ exists b0 st, enforce d mins b 0 = Some (b0, st) /\ F b0 = Some c) /\ c' <= c)).
    { destruct nm.
      - eapply does_weak; [rewrite <- Lm; apply (nelder_mead_terminates F lo m mins dn); auto|].
        intros b2 (L2 & P2 & b0 & st & c0 & c & E0 & F0 & F2 & C). split; auto. split; [apply P2|]. right.
        destruct B1 as [->|(P1 & B1)].
        + exists c0, c. split; auto. split; [right; exists b0, st; rewrite <- Lm; auto|auto].
        + rewrite (enforce_proper_same lo) in E0 by (auto; lia). injection E0 as <- <-.
          destruct B1 as (_ & _ & ca & cb & Fa & Fb & Cab). exists ca, c. split; auto. split; auto. assert (cb = c0) by congruence. lra.
      - apply does_ret. split; auto. split; auto. destruct B1 as [->|(P1 & B1)].
        + destruct (F b) as [c|]; [right|left; auto]. exists c, c. split; auto. split; auto. lra.
        + destruct B1 as (_ & _ & ca & cb & Fa & Fb & Cab). right. exists ca, cb. auto. }
    intros b2 (L2 & I2 & C2). apply does_fine.
    destruct (save_falling n d lo Hn Hd (proj2 Hlo) pr b2) as (pr' & E' & _); [rewrite L2; auto|auto|].
    rewrite E'. cbn. exists b2. auto.
  Qed.

  (** *** The two cores terminate and give a profile again *)
  Theorem core_terminates mins grad nm dn pr : length mins = d -> minima lo mins -> dn = d \/ dn = n -> falling lo n pr ->
    does (fun pr' => falling lo n pr' /\ nth 0 pr' 0 = 1) (fun fu => core n d F mins grad nm dn fu pr).
  Proof.
    intros Lm Hmins D Fp. destruct (load_inside n d lo Hn Hd dn pr D Fp) as (b & E & L & I & _).
    eapply does_weak; [apply core_does_gen with (b := b); auto|].
    intros pr' (b' & E' & L' & I' & _). destruct (save_falling n d lo Hn Hd (proj2 Hlo) pr b') as (pr1 & E1 & F1 & Z1 & _); [rewrite L'; auto|auto|].
    assert (pr1 = pr') by congruence. subst pr1. auto.
  Qed.
  (** the core of the half vectors does not raise the cost of a proper vector *)
  Theorem core_half_cost mins grad nm pr b c : length mins = d -> minima lo mins -> falling lo n pr ->
    load_profile n d d pr = Some b -> proper lo mins b -> F b = Some c ->
    does (fun pr' => exists b' c', load_profile n d d pr' = Some b' /\ F b' = Some c' /\ c' <= c) (fun fu => core n d F mins grad nm d fu pr).
  Proof.
    intros Lm Hmins Fp E P Fb. pose proof (half n d Hn Hd) as H.
    destruct (load_inside n d lo Hn Hd d pr) as (b1 & E1 & L & I & _); auto. rewrite E in E1. injection E1 as <-.
    eapply does_weak; [apply core_does_gen with (b := b); auto|].
    intros pr' (b' & E' & L' & I' & [N|(c1 & c' & F' & X & C)]); [congruence|]. exists b', c'.
    split; [eapply load_save_half; eauto; apply Hlo|]. split; auto. destruct X as [X|(b0 & st & X & Y)]; [congruence || (assert (c1 = c) by congruence; lra)|].
    rewrite <- Lm in X. rewrite (enforce_proper_same lo) in X by (auto; lia). injection X as <- <-. assert (c1 = c) by congruence. lra.
  Qed.

  (** *** Lowering the bottleneck *)
  Lemma bottleneck_lt det lasti thr : (bottleneck n det lasti thr < n)%nat.
  Proof.
    unfold bottleneck. apply (fold_seq_inv (fun _ (p : R * nat) => (snd p < n)%nat)); cbn; [lia|].
    intros i a Hi Ha. destruct (_ && _); auto. destruct (rlt _ _); cbn; auto; lia.
  Qed.

  (** lowers an entry towards the one before it: stays ordered *)
  Lemma lower_inside b ind sl : length b = n -> inside lo b -> (0 < ind < n)%nat -> 1 <= sl ->
    inside lo (upd b ind (nth ind b 0 - (nth ind b 0 - nth (ind - 1) b 0) / sl)).
  Proof.
    intros L (A & B) Hi Hs. set (x := nth ind b 0). set (y := nth (ind - 1) b 0).
    assert (yx : y <= x) by (apply A; lia).
    assert (Q : 0 <= (x - y) / sl <= x - y).
    { split; [apply Rmult_le_pos; [lra|left; apply Rinv_0_lt_compat; lra]|].
      apply Rmult_le_reg_r with sl; [lra|]. unfold Rdiv. rewrite Rmult_assoc, Rinv_l by lra. nra. }
    split; rewrite upd_length.
    - intros i k Hik. rewrite !nth_upd_R by lia. destruct (i =? ind)%nat eqn:Ei, (k =? ind)%nat eqn:Ek; try lra.
      + apply Nat.eqb_eq in Ei. apply Nat.eqb_neq in Ek. subst i. assert (x <= nth k b 0) by (apply A; lia). lra.
      + apply Nat.eqb_eq in Ek. apply Nat.eqb_neq in Ei. subst k. assert (nth i b 0 <= y) by (apply A; lia). lra.
      + apply A. lia.
    - intros i Hi'. rewrite nth_upd_R by lia. destruct (i =? ind)%nat; [|apply B; auto].
      pose proof (B ind ltac:(lia)). pose proof (B (ind - 1)%nat ltac:(lia)). fold x in H. fold y in H0. lra.
  Qed.

  Definition decr_inv (b0 : list R) (q : nat) (s : list R * list R * list R * list Z * Z * nat) : Prop :=
    let '(b, det, slices, thr, lasti, fails) := s in
    length b = n /\ inside lo b /\ nth 0 b 0 = nth 0 b0 0 /\ length slices = n /\ length thr = n /\ (forall i, (i < n)%nat -> 1 <= nth i slices 0) /\
    (fails <= 10)%nat /\
    (F b0 = None /\ b = b0 /\ q = O \/ exists c0 c k, F b0 = Some c0 /\ F b = Some c /\ c <= c0 /\ c * (995 / 1000) ^ k < m /\ q = (11 * k + (10 - fails))%nat).

  (** local_adjust_decr_single: terminates; the vector before it is saved costs no more than the
      loaded one and has the same first entry *)
  Theorem decr_single_terminates pr : falling lo n pr ->
    does (fun pr' => falling lo n pr' /\ nth 0 pr' 0 = 1 /\ nth (n - 1) pr' 0 = nth (n - 1) pr 0 /\
            exists b b' c c', load_profile n d n pr = Some b /\ save_profile n d pr b' = Some pr' /\
              F b = Some c /\ F b' = Some c' /\ c' <= c)
         (fun fu => local_adjust_decr_single n d F SC fu pr).
  Proof.
    intros Fp. pose proof (half n d Hn Hd) as H.
    destruct (load_inside n d lo Hn Hd n pr) as (b & E & L & Ib & V); auto.
    unfold local_adjust_decr_single. rewrite E. cbn [ub obnd].
    assert (K : exists q, decr_inv b q (b, repeat 0 n, repeat 10 n, repeat 3%Z n, (-1)%Z, O)).
    { assert (S10 : forall i, (i < n)%nat -> 1 <= nth i (repeat 10 n) 0).
      { intros i Hi. rewrite (nth_indep _ 0 10) by (rewrite repeat_length; auto). rewrite nth_repeat. lra. }
      assert (Base : length b = n /\ inside lo b /\ nth 0 b 0 = nth 0 b 0 /\ length (repeat 10 n) = n /\ length (repeat 3%Z n) = n) by (rewrite !repeat_length; auto).
      destruct Base as (Q1 & Q2 & Q3 & Q4 & Q5). unfold decr_inv.
      destruct (F b) as [c0|] eqn:E0.
      - destruct (budget c0 m Hm) as (k & Hk). exists (11 * k + 10)%nat. do 6 (split; [assumption|]). split; [lia|].
        right. exists c0, c0, k. split; auto. split; auto. split; [lra|]. split; auto.
      - exists O. do 6 (split; [assumption|]). split; [lia|]. left. auto. }
    destruct K as (q & K).
    eapply does_bnd with (f := fun b' fu => ub (save_profile n d pr b'))
      (Q := fun b' => length b' = n /\ inside lo b' /\ nth 0 b' 0 = nth 0 b 0 /\ exists c c', F b = Some c /\ F b' = Some c' /\ c' <= c).
    2:{ intros b' (L' & I' & Z' & c & c' & E1 & E2 & C). apply does_fine.
        destruct (save_falling n d lo Hn Hd (proj2 Hlo) pr b') as (pr' & E' & F' & Y' & V'); auto. rewrite E'. cbn [ub fine].
        split; auto. split; auto. split; [|exists b, b', c, c'; auto].
        rewrite V' by lia. rewrite L'. replace (n =? d)%nat with false by (symmetry; apply Nat.eqb_neq; lia).
        replace (n - 1 - (n - 1))%nat with O by lia. rewrite Z', V by lia.
        replace (n =? d)%nat with false by (symmetry; apply Nat.eqb_neq; lia). f_equal. lia. }
    eapply does_wloop; [|exact K]. clear q K. intros q [[[[[b1 det] slices] thr] lasti] fails] (L1 & I1 & Z1 & Ls & Lt & S1 & Hf & C1).
    unfold decr_turn. apply does_fine.
    eapply fine_bnd; [apply fine_call with (P := fun c => F b1 = Some c); auto|]. intros old Eold.
    destruct C1 as [(N & -> & _)|(c0 & c & k & E0 & E1 & C1 & Hk & Hq)]; [congruence|].
    assert (old = c) by congruence. subst old.
    assert (Fl : m <= c) by exact (Hfull b1 c L1 I1 E1).
    eapply fine_bnd; [apply fine_call with (P := fun _ => True); auto|]. intros [sc det1] _. cbn [fst snd].
    assert (Done : length b1 = n /\ inside lo b1 /\ nth 0 b1 0 = nth 0 b 0 /\ exists c c', F b = Some c /\ F b1 = Some c' /\ c' <= c).
    { split; auto. split; auto. split; auto. exists c0, c. auto. }
    destruct (rlt sc (sqrt c / 10)); [exact Done|].
    pose proof (bottleneck_lt det1 lasti thr) as Bl. set (ind := (n - bottleneck n det1 lasti thr - 1)%nat).
    destruct (ind =? 0)%nat eqn:Ei; [exact Done|]. apply Nat.eqb_neq in Ei. assert (Hi : (0 < ind < n)%nat) by lia.
    rewrite (nth_error_nth' b1 0) by lia. cbn [ub obnd]. rewrite (nth_error_nth' b1 0) by lia. cbn [ub obnd].
    rewrite (nth_error_nth' slices 0) by lia. cbn [ub obnd]. rewrite vset_at by lia. cbn [ub obnd].
    assert (In : inside lo (upd b1 ind (nth ind b1 0 - (nth ind b1 0 - nth (ind - 1) b1 0) / nth ind slices 0))) by (apply lower_inside; auto; apply S1; lia).
    set (nb := upd b1 ind _) in *.
    eapply fine_bnd; [apply fine_call with (P := fun c => F nb = Some c); auto|]. intros nc Enc.
    destruct (rle (c * (995 / 1000)) nc) eqn:R1.
    - rewrite (nth_error_nth' thr 0%Z) by lia. cbn [ub obnd]. rewrite vset_at by lia. cbn [ub obnd].
      destruct (10 <? S fails)%nat eqn:R2; [exact Done|]. apply Nat.ltb_ge in R2. cbn [fine].
      exists (11 * k + (10 - S fails))%nat. split; [lia|]. unfold decr_inv. rewrite upd_length. repeat (split; auto). right. exists c0, c, k. auto.
    - apply rle_false in R1. assert (Lnb : length nb = n) by (unfold nb; rewrite upd_length; auto).
      eapply fine_bnd with (Q := fun sl => length sl = n /\ forall i, (i < n)%nat -> 1 <= nth i sl 0).
      { destruct (rlt (nth ind slices 0) 1024); [|cbn; auto]. rewrite vset_at by lia. cbn [ub fine]. rewrite upd_length. split; auto.
        intros i Hi'. rewrite nth_upd_R by lia. destruct (i =? ind)%nat; auto. specialize (S1 ind ltac:(lia)). lra. }
      intros sl (Lsl & Ssl). cbn [fine].
      assert (Fn : m <= nc) by exact (Hfull nb nc Lnb In Enc).
      destruct k as [|k]; [cbn in Hk; lra|]. exists (11 * k + (10 - 0))%nat. split; [lia|]. unfold decr_inv.
      split; auto. split; auto. split; [unfold nb; rewrite nth_upd_R by lia; replace (0 =? ind)%nat with false by (symmetry; apply Nat.eqb_neq; lia); auto|].
      split; auto. split; auto. split; auto. split; [lia|]. right. exists c0, nc, k. split; auto. split; auto. split; [lra|]. split; auto.
      assert (0 < (995 / 1000) ^ k) by (apply pow_lt; lra). cbn [pow] in Hk. nra.
  Qed.

  (** *** Raising the entries before the bottleneck *)
  Definition raised (b b' : list R) : Prop :=
    length b' = n /\ inside lo b' /\ (forall i, (i < n)%nat -> nth i b 0 <= nth i b' 0) /\ nth (n - 1) b' 0 = nth (n - 1) b 0.
  Lemma raised_refl b : length b = n -> inside lo b -> raised b b.
  Proof. intros L I. split; auto. split; auto. split; auto. intros. lra. Qed.
  Lemma raised_trans a b c : raised a b -> raised b c -> raised a c.
  Proof.
    intros (_ & _ & A3 & A4) (B1 & B2 & B3 & B4). split; auto. split; auto. split; [|congruence].
    intros i Hi. specialize (A3 i Hi). specialize (B3 i Hi). lra.
  Qed.
  Lemma raise_raised b i sl : length b = n -> inside lo b -> (0 < i < n)%nat -> 1 <= sl ->
    raised b (upd b (i - 1) (nth (i - 1) b 0 + (nth i b 0 - nth (i - 1) b 0) / sl)).
  Proof.
    intros L (A & B) Hi Hs. set (y := nth i b 0). set (x := nth (i - 1) b 0).
    assert (xy : x <= y) by (apply A; lia).
    assert (Q : 0 <= (y - x) / sl <= y - x).
    { split; [apply Rmult_le_pos; [lra|left; apply Rinv_0_lt_compat; lra]|].
      apply Rmult_le_reg_r with sl; [lra|]. unfold Rdiv. rewrite Rmult_assoc, Rinv_l by lra. nra. }
    split; [now rewrite upd_length|]. split; [split; rewrite upd_length|split].
    - intros j k Hik. rewrite !nth_upd_R by lia. destruct (j =? i - 1)%nat eqn:Ei, (k =? i - 1)%nat eqn:Ek; try lra.
      + apply Nat.eqb_eq in Ei. apply Nat.eqb_neq in Ek. subst j. assert (y <= nth k b 0) by (apply A; lia). lra.
      + apply Nat.eqb_eq in Ek. apply Nat.eqb_neq in Ei. subst k. assert (nth j b 0 <= x) by (apply A; lia). lra.
      + apply A. lia.
    - intros j Hj. rewrite nth_upd_R by lia. destruct (j =? i - 1)%nat; [|apply B; auto].
      pose proof (B i ltac:(lia)). pose proof (B (i - 1)%nat ltac:(lia)). fold y in H. fold x in H0. lra.
    - intros j Hj. rewrite nth_upd_R by lia. destruct (j =? i - 1)%nat eqn:Ej; [|lra]. apply Nat.eqb_eq in Ej. subst j. fold x. lra.
    - rewrite nth_upd_R by lia. replace (n - 1 =? i - 1)%nat with false by (symmetry; apply Nat.eqb_neq; lia). reflexivity.
  Qed.

  (** a vector above [b] with its slices *)
  Definition raised_state (b : list R) (s : list R * list R) : Prop :=
    raised b (fst s) /\ length (snd s) = n /\ forall i, (i < n)%nat -> 1 <= nth i (snd s) 0.

  Lemma raise_at_does b i s : (0 < i < n)%nat -> raised_state b s -> does (raised_state b) (fun fu => raise_at F fu i s).
  Proof.
    intros Hi. destruct s as [b1 sl]. intros (R1 & Ls & Ss). cbn [fst snd] in *.
    unfold raise_at. rewrite (nth_error_nth' b1 0) by (destruct R1; lia). cbn [ub obnd].
    rewrite (nth_error_nth' b1 0) by (destruct R1; lia). cbn [ub obnd].
    destruct (rle (nth i b1 0) (nth (i - 1) b1 0)); [apply does_ret; split; auto|].
    eapply does_wloop with (k := 10%nat) (Inv := fun q s => let '(trials, b1, sl) := s in raised_state b (b1, sl) /\ (trials < 10)%nat /\ q = (10 - trials)%nat).
    2:{ split; [split; auto|]. split; lia. }
    clear b1 sl R1 Ls Ss. intros q [[trials b1] sl] ((R1 & Ls & Ss) & Ht & Hq). cbn [fst snd] in *. unfold raise_turn. apply does_fine.
    assert (R1' := R1). destruct R1' as (L1 & I1 & _ & _).
    eapply fine_bnd; [apply fine_call with (P := fun _ => True); auto|]. intros old _.
    rewrite (nth_error_nth' b1 0) by lia. cbn [ub obnd]. rewrite (nth_error_nth' b1 0) by lia. cbn [ub obnd].
    rewrite (nth_error_nth' sl 0) by lia. cbn [ub obnd]. rewrite vset_at by lia. cbn [ub obnd].
    assert (R2 := raise_raised b1 i (nth (i - 1) sl 0) L1 I1 Hi ltac:(apply Ss; lia)). set (nb := upd b1 (i - 1) _) in *.
    eapply fine_bnd; [apply fine_call with (P := fun _ => True); auto|]. intros nc _.
    destruct (rle (old * (12 / 10)) nc); [cbn; split; auto|].
    eapply fine_bnd with (Q := fun sl => length sl = n /\ forall i, (i < n)%nat -> 1 <= nth i sl 0).
    { destruct (rlt (nth (i - 1) sl 0) 1024); [|cbn; auto]. rewrite vset_at by lia. cbn [ub fine]. rewrite upd_length. split; auto.
      intros j Hj. rewrite nth_upd_R by lia. destruct (j =? i - 1)%nat; auto. specialize (Ss (i - 1)%nat ltac:(lia)). lra. }
    intros sl' (Ls' & Ss'). assert (R3 : raised_state b (nb, sl')) by (split; [eapply raised_trans; eauto|auto]).
    destruct (10 <=? S trials)%nat eqn:T; [exact R3|]. apply Nat.leb_gt in T. cbn [fine].
    exists (10 - S trials)%nat. split; [lia|]. split; auto.
  Qed.

  (** local_adjust_incr_prob: terminates and lowers no entry *)
  Theorem incr_prob_terminates pr : falling lo n pr ->
    does (fun pr' => falling lo n pr' /\ nth 0 pr' 0 = 1 /\ forall i, (i < n)%nat -> nth i pr 0 <= nth i pr' 0)
         (fun fu => local_adjust_incr_prob n d F SC fu pr).
  Proof.
    intros Fp. pose proof (half n d Hn Hd) as H.
    destruct (load_inside n d lo Hn Hd n pr) as (b & E & L & Ib & V); auto.
    unfold local_adjust_incr_prob. rewrite E. cbn [ub obnd].
    eapply does_bnd with (f := fun c fu => b' <~ wloop (incr_turn n F SC c) fu _;; ub (save_profile n d pr b'));
      [apply does_fine, fine_call with (P := fun _ => True); auto|]. intros c0 _.
    eapply does_bnd with (Q := raised b) (f := fun b' fu => ub (save_profile n d pr b')).
    2:{ intros b' (L' & I' & U' & Z'). apply does_fine.
        destruct (save_falling n d lo Hn Hd (proj2 Hlo) pr b') as (pr' & E' & F' & Y' & V'); auto. rewrite E'. cbn [ub fine].
        split; auto. split; auto. intros [|i] Hi; [rewrite Y'; apply Fp; auto|].
        rewrite V' by lia. rewrite L'. replace (n =? d)%nat with false by (symmetry; apply Nat.eqb_neq; lia).
        specialize (U' (n - 1 - S i)%nat ltac:(lia)). rewrite V in U' by lia.
        replace (n =? d)%nat with false in U' by (symmetry; apply Nat.eqb_neq; lia).
        replace (n - 1 - (n - 1 - S i))%nat with (S i) in U' by lia. exact U'. }
    eapply does_wloop with (k := 5%nat) (Inv := fun q s => let '(tours, b1, det, sl) := s in raised_state b (b1, sl) /\ (tours < 5)%nat /\ q = (5 - tours)%nat).
    2:{ split; [|lia]. split; [apply raised_refl; auto|]. cbn [snd]. rewrite repeat_length. split; auto.
        intros i Hi. rewrite (nth_indep _ 0 10) by (rewrite repeat_length; auto). rewrite nth_repeat. lra. }
    intros q [[[tours b1] det] sl] (Rs & Ht & Hq). unfold incr_turn.
    eapply does_bnd with (f := fun c fu => _); [apply does_fine, fine_call with (P := fun _ => True); auto|]. intros old _.
    eapply does_bnd with (f := fun c fu => _); [apply does_fine, fine_call with (P := fun _ => True); auto|]. intros [sc det1] _. cbn [fst snd].
    set (ind := (n - _ - 1)%nat). assert (Hi : (ind <= n - 1)%nat) by lia.
    destruct (ind <=? 1)%nat; [apply does_ret; apply Rs|].
    destruct (rlt (sqrt old / 10) sc); [apply does_ret; apply Rs|].
    eapply does_bnd with (Q := raised_state b) (f := fun s fu => _).
    { apply does_each_any; auto. intros i s Hin Hs. apply in_rev, in_seq in Hin. apply raise_at_does; auto. lia. }
    intros [b2 sl2] Rs2. cbn [fst snd].
    eapply does_bnd with (f := fun c fu => _); [apply does_fine, fine_call with (P := fun _ => True); auto|]. intros nc _.
    apply does_fine. destruct (rlt (c0 * (11 / 10)) nc || (4 <? S tours)%nat) eqn:T; [apply Rs2|]. apply orb_false_iff in T. destruct T as (_ & T).
    apply Nat.ltb_ge in T. cbn [fine]. exists (5 - S tours)%nat. split; [lia|]. split; auto. split; lia.
  Qed.

  (** *** Smoothing *)
  Lemma smooth_value p x q : 0 < p -> p <= x <= q ->
    p <= (let x1 := if rlt (125 / 100) (q / x / (x / p)) || rlt (q / x / (x / p)) (8 / 10) then sqrt (p * q) else x in
          if rlt (1 / INR n) (q - x1) || rlt (1 / INR n) (x1 - p) then (p + q) / 2 else x1) <= q.
  Proof.
    intros Hp Hx. assert (S1 : p <= sqrt (p * q) <= q).
    { split.
      - rewrite <- (sqrt_square p) at 1 by lra. apply R_sqrt.sqrt_le_1; nra.
      - apply Rle_trans with (sqrt (q * q)); [apply R_sqrt.sqrt_le_1; nra|rewrite sqrt_square; lra]. }
    cbn zeta. destruct (rlt (125 / 100) _ || _); destruct (_ || _); lra.
  Qed.

  (** local_adjust_smooth: gives a profile again, with the same last entry *)
  Theorem smooth_falling pr : falling lo n pr ->
    fine (fun pr' => falling lo n pr' /\ nth 0 pr' 0 = 1 /\ nth (n - 1) pr' 0 = nth (n - 1) pr 0) (local_adjust_smooth n d pr).
  Proof.
    intros Fp. pose proof (half n d Hn Hd) as H.
    destruct (load_inside n d lo Hn Hd n pr) as (b & E & L & Ib & V); auto.
    unfold local_adjust_smooth. rewrite E. cbn [ub obnd].
    eapply fine_bnd with (Q := fun b' => length b' = n /\ inside lo b' /\ nth 0 b' 0 = nth 0 b 0).
    - apply (fine_each (fun _ b' => length b' = n /\ inside lo b' /\ nth 0 b' 0 = nth 0 b 0)); auto.
      intros i b1 Hi (L1 & I1 & Z1). unfold smooth_at.
      rewrite (nth_error_nth' b1 0) by lia. cbn [ub obnd]. rewrite (nth_error_nth' b1 0) by lia. cbn [ub obnd].
      rewrite (nth_error_nth' b1 0) by lia. cbn [ub obnd]. rewrite vset_at by lia. cbn [ub fine]. destruct I1 as (A & B).
      pose proof (A (i - 1)%nat i ltac:(lia)) as A1. pose proof (A i (S i) ltac:(lia)) as A2.
      pose proof (B (i - 1)%nat ltac:(lia)) as B1. pose proof (B (S i) ltac:(lia)) as B2.
      pose proof (smooth_value (nth (i - 1) b1 0) (nth i b1 0) (nth (S i) b1 0) ltac:(lra) ltac:(lra)) as Sv. cbn zeta in Sv.
      match goal with |- context [upd b1 i ?x] => set (x1 := x) in * end.
      split; [now rewrite upd_length|]. split; [split; rewrite upd_length|].
      + intros j k Hjk. rewrite !nth_upd_R by lia. destruct (j =? i)%nat eqn:Ej, (k =? i)%nat eqn:Ek; try lra.
        * apply Nat.eqb_eq in Ej. apply Nat.eqb_neq in Ek. pose proof (A (S i) k ltac:(lia)). lra.
        * apply Nat.eqb_eq in Ek. apply Nat.eqb_neq in Ej. pose proof (A j (i - 1)%nat ltac:(lia)). lra.
        * apply A. lia.
      + intros j Hj. rewrite nth_upd_R by lia. destruct (j =? i)%nat; [lra|]. apply B. auto.
      + rewrite nth_upd_R by lia. replace (0 =? i)%nat with false by (symmetry; apply Nat.eqb_neq; lia). auto.
    - intros b' (L' & I' & Z'). destruct (save_falling n d lo Hn Hd (proj2 Hlo) pr b') as (pr' & E' & F' & Y' & V'); auto. rewrite E'. cbn [ub fine].
      split; auto. split; auto.
      rewrite V' by lia. rewrite L'. replace (n =? d)%nat with false by (symmetry; apply Nat.eqb_neq; lia).
      replace (n - 1 - (n - 1))%nat with O by lia. rewrite Z', V by lia.
      replace (n =? d)%nat with false by (symmetry; apply Nat.eqb_neq; lia). f_equal. lia.
  Qed.

  (** *** The whole optimisation with a varying probability *)
  Lemma load_one pr : falling lo n pr -> nth 0 pr 0 = 1 ->
    exists b, load_profile n d n pr = Some b /\ length b = n /\ inside lo b /\ nth (n - 1) b 0 = 1.
  Proof.
    intros Fp Z. pose proof (half n d Hn Hd) as H. destruct (load_inside n d lo Hn Hd n pr) as (b & E & L & I & V); auto. exists b. split; auto. split; auto. split; auto.
    rewrite V by lia. replace (n =? d)%nat with false by (symmetry; apply Nat.eqb_neq; lia).
    replace (n - 1 - (n - 1))%nat with O by lia. auto.
  Qed.

  Lemma does_wloop_step {S A} (Q : S + A -> Prop) (P : A -> Prop) (body : nat -> S -> out (S + A)) s :
    does Q (fun fu => body fu s) -> (forall s', Q (inl s') -> does P (fun fu => wloop body fu s')) -> (forall a, Q (inr a) -> P a) ->
    does P (fun fu => wloop body fu s).
  Proof.
    intros (r & K & E & G) H1 H2. destruct r as [[s'|a]|e| |]; cbn in G; try contradiction.
    - destruct (H1 s' G) as (r' & K' & E' & G'). exists r', (Datatypes.S (Nat.max K K')). split; auto. intros [|fu] L; [lia|].
      cbn [wloop]. rewrite E by lia. cbn [obnd]. apply E'. lia.
    - exists (Ret a), (Datatypes.S K). split; [|cbn; auto]. intros [|fu] L; [lia|]. cbn [wloop]. rewrite E by lia. auto.
    - exists (Throw e), (Datatypes.S K). split; auto. intros [|fu] L; [lia|]. cbn [wloop]. rewrite E by lia. auto.
  Qed.

  (** a tour: [best] is a full vector with cost [min_c] at most [c0] *)
  Definition tour_base (c0 : R) (pr best : list R) (min_c : R) : Prop :=
    falling lo n pr /\ nth 0 pr 0 = 1 /\
    length best = n /\ inside lo best /\ nth (n - 1) best 0 = 1 /\ F best = Some min_c /\ min_c <= c0.

  Lemma tour_turn_does mins grad nm c0 tours pr best min_c : length mins = d -> minima lo mins -> tour_base c0 pr best min_c ->
    does (fun r => match r with
      | inl (tours', pr', best', min_c') => tours' = S tours /\ tour_base c0 pr' best' min_c' /\
          ((3 <= tours)%nat -> exists b c b' c', load_profile n d n pr = Some b /\ F b = Some c /\
             load_profile n d n pr' = Some b' /\ F b' = Some c' /\ c' <= c * (995 / 1000))
      | inr (pr', best') => falling lo n pr' /\ exists min_c', tour_base c0 pr' best' min_c' end)
      (fun fu => tour_turn n d F SC grad nm mins fu (tours, pr, best, min_c)).
  Proof.
    intros Lm Hmins (Fp & Z & Bb). unfold tour_turn.
    destruct (load_one pr Fp Z) as (b & E & Lb & Ib & Zb). rewrite E. cbn [ub obnd].
    eapply does_bnd with (f := fun c fu => _); [apply does_fine, fine_call with (P := fun c => F b = Some c); auto|]. intros old Eold.
    eapply does_bnd with (f := fun c fu => _); [apply decr_single_terminates; auto|]. intros pr1 (F1 & Z1 & _).
    eapply does_bnd with (f := fun c fu => _); [apply incr_prob_terminates; auto|]. intros pr2 (F2 & Z2 & _).
    eapply does_bnd with (f := fun c fu => _); [apply does_fine, smooth_falling; auto|]. intros pr3 (F3 & Z3 & _).
    destruct (load_one pr3 F3 Z3) as (b3 & E3 & L3 & I3 & Y3). rewrite E3. cbn [ub obnd].
    eapply does_bnd with (f := fun c fu => _); [apply does_fine, fine_call with (P := fun c => F b3 = Some c); auto|]. intros c3 Ec3.
    destruct (if rlt c3 min_c then (c3, b3) else (min_c, best)) as [mc1 best1] eqn:Eb1.
    assert (B1 : length best1 = n /\ inside lo best1 /\ nth (n - 1) best1 0 = 1 /\ F best1 = Some mc1 /\ mc1 <= c0).
    { destruct (rlt c3 min_c) eqn:R; injection Eb1 as <- <-; auto. apply rlt_true in R. destruct Bb as (_ & _ & _ & _ & Bb).
      split; auto. split; auto. split; auto. split; auto. lra. }
    eapply does_bnd with (f := fun c fu => _); [apply core_terminates; auto|]. intros pr4 (F4 & Z4).
    destruct (load_one pr4 F4 Z4) as (b4 & E4 & L4 & I4 & Y4). rewrite E4. cbn [ub obnd].
    eapply does_bnd with (f := fun c fu => _); [apply does_fine, fine_call with (P := fun c => F b4 = Some c); auto|]. intros c4 Ec4.
    destruct (if rlt c4 mc1 then (c4, b4) else (mc1, best1)) as [mc2 best2] eqn:Eb2.
    assert (B2 : length best2 = n /\ inside lo best2 /\ nth (n - 1) best2 0 = 1 /\ F best2 = Some mc2 /\ mc2 <= c0).
    { destruct (rlt c4 mc1) eqn:R; injection Eb2 as <- <-; auto. apply rlt_true in R. destruct B1 as (_ & _ & _ & _ & B1).
      split; auto. split; auto. split; auto. split; auto. lra. }
    apply does_fine. destruct (rlt (995 / 1000) (c4 / old) && (3 <? S tours)%nat) eqn:R.
    - cbn [fine]. split; auto. exists mc2. split; auto.
    - cbn [fine]. split; auto. split; [split; auto|]. intros Ht. exists b, old, b4, c4. split; auto. split; auto. split; auto. split; auto.
      apply andb_false_iff in R. destruct R as [R|R]; [|apply Nat.ltb_ge in R; lia]. apply rlt_false in R.
      assert (O : m <= old) by exact (Hfull b old Lb Ib Eold).
      apply (Rmult_le_compat_r old) in R; [|lra]. unfold Rdiv in R at 1. rewrite Rmult_assoc, Rinv_l, Rmult_1_r in R by lra. lra.
  Qed.

  Lemma tours_terminate mins grad nm c0 tours pr best min_c : length mins = d -> minima lo mins -> tour_base c0 pr best min_c ->
    does (fun r => falling lo n (fst r) /\ exists min_c', tour_base c0 (fst r) (snd r) min_c')
      (fun fu => wloop (tour_turn n d F SC grad nm mins) fu (tours, pr, best, min_c)).
  Proof.
    intros Lm Hmins.
    (* after three tours *)
    assert (Late : forall q tours pr best min_c b c, (3 <= tours)%nat -> tour_base c0 pr best min_c ->
      load_profile n d n pr = Some b -> F b = Some c -> c * (995 / 1000) ^ q < m ->
      does (fun r => falling lo n (fst r) /\ exists min_c', tour_base c0 (fst r) (snd r) min_c')
        (fun fu => wloop (tour_turn n d F SC grad nm mins) fu (tours, pr, best, min_c))).
    { clear tours pr best min_c. induction q as [|q IH]; intros tours pr best min_c b c Ht B E Ec Hc.
      - exfalso. cbn in Hc. destruct (load_one pr) as (b1 & E1 & L1 & I1 & _); [apply B|apply B|].
        assert (b1 = b) by congruence. subst b1. pose proof (Hfull b c L1 I1 Ec). lra.
      - eapply does_wloop_step; [apply tour_turn_does; eauto| |].
        + intros [[[tours' pr'] best'] min_c'] (-> & B' & G). destruct (G Ht) as (b1 & c1 & b' & c' & X1 & X2 & X3 & X4 & X5).
          assert (b1 = b) by congruence. subst b1. assert (c1 = c) by congruence. subst c1.
          apply (IH (S tours) pr' best' min_c' b' c'); auto.
          assert (0 < (995 / 1000) ^ q) by (apply pow_lt; lra). cbn [pow] in Hc. nra.
        + intros [pr' best'] X. exact X. }
    assert (Start : forall k tours pr best min_c, (3 <= tours + k)%nat -> tour_base c0 pr best min_c ->
      does (fun r => falling lo n (fst r) /\ exists min_c', tour_base c0 (fst r) (snd r) min_c')
        (fun fu => wloop (tour_turn n d F SC grad nm mins) fu (tours, pr, best, min_c))).
    { clear tours pr best min_c. induction k as [|k IH]; intros tours pr best min_c Hk B.
      - destruct (load_one pr) as (b & E & L & I & _); [apply B|apply B|]. destruct (F b) as [c|] eqn:Ec.
        + destruct (budget c m Hm) as (q & Hq). apply (Late q tours pr best min_c b c); auto. lia.
        + exists (Throw Range), 1%nat. split; [|exact Logic.I]. intros [|fu] Hf; [lia|]. cbn [wloop tour_turn]. rewrite E. cbn [ub obnd]. rewrite Ec. reflexivity.
      - eapply does_wloop_step; [apply tour_turn_does; eauto| |].
        + intros [[[tours' pr'] best'] min_c'] (-> & B' & _). apply IH; auto. lia.
        + intros [pr' best'] X. exact X. }
    intros B. apply (Start 3%nat); auto. lia.
  Qed.

  (** the optimisation with a varying probability terminates; the cost of what it returns is
      at most that of the vector after the first core *)
  Theorem vary_prob_terminates mins fl pr : length mins = d -> minima lo mins -> falling lo n pr ->
    does (fun pr' => falling lo n pr' /\ nth 0 pr' 0 = 1 /\
            exists K pr1 b1 b' c1 c', (forall fu, (K <= fu)%nat -> core n d F mins (f_gradient fl) (f_nelder fl) d fu pr = Ret pr1) /\
              load_profile n d n pr1 = Some b1 /\ load_profile n d n pr' = Some b' /\ F b1 = Some c1 /\ F b' = Some c' /\ c' <= c1)
         (fun fu => vary_prob n d F SC fl mins fu pr).
  Proof.
    intros Lm Hmins Fp. pose proof (half n d Hn Hd) as H.
    destruct (core_terminates mins (f_gradient fl) (f_nelder fl) d pr Lm Hmins ltac:(auto) Fp) as (r & K & E & G).
    assert (Ho : lo <= 1) by lra.
    assert (Same : forall b pr0 pr1, length b = n -> inside lo b -> nth (n - 1) b 0 = 1 -> save_profile n d pr0 b = Some pr1 -> load_profile n d n pr1 = Some b).
    { intros b pr0 pr1 Lb Ib Zb Es. rewrite (load_save_full n d lo Hn Hd Ho pr0 b pr1) by auto. f_equal.
      apply (nth_ext _ _ 0 0); [apply upd_length|]. intros i _. rewrite nth_upd_R by lia.
      destruct (i =? n - 1)%nat eqn:Ei; auto. apply Nat.eqb_eq in Ei. subst i. auto. }
    eapply does_bnd with (x := fun fu => core n d F mins (f_gradient fl) (f_nelder fl) d fu pr) (f := fun pr fu => _)
      (Q := fun pr1 => (falling lo n pr1 /\ nth 0 pr1 0 = 1) /\ exists K, forall fu, (K <= fu)%nat -> core n d F mins (f_gradient fl) (f_nelder fl) d fu pr = Ret pr1).
    { exists r, K. split; auto. destruct r as [a|[]| |]; cbn in *; auto. split; auto. exists K. auto. }
    clear r K E G. intros pr1 ((F1 & Z1) & K & HK). destruct (load_one pr1 F1 Z1) as (b1 & E1 & L1 & I1 & Y1). rewrite E1. cbn [ub obnd].
    eapply does_bnd with (f := fun c fu => _); [apply does_fine, fine_call with (P := fun c => F b1 = Some c); auto|]. intros c1 Ec1.
    destruct (f_half fl).
    - apply does_fine. destruct (save_falling n d lo Hn Hd Ho pr1 b1) as (pr' & E' & F' & Z' & _); auto. rewrite E'. cbn [ub fine].
      split; auto. split; auto. exists K, pr1, b1, b1, c1, c1. split; auto. split; auto. split; [eapply Same; eauto|]. split; auto. split; auto. lra.
    - eapply does_bnd with (f := fun r fu => _); [apply (tours_terminate mins (f_gradient fl) (f_nelder fl) c1); auto|].
      + split; auto. split; auto. split; auto. split; auto. split; auto. split; auto. lra.
      + intros [pr2 best] (F2 & mc & (_ & _ & Lb & Ib & Zb & Eb & Cb)). cbn [fst snd] in *. apply does_fine.
        destruct (save_falling n d lo Hn Hd Ho pr2 best) as (pr' & E' & F' & Z' & _); auto. rewrite E'. cbn [ub fine].
        split; auto. split; auto. exists K, pr1, b1, best, c1, mc. split; auto. split; auto. split; [eapply Same; eauto|]. auto.
  Qed.
End Adjust.

(** ** Moving towards a target probability *)

(** one step: every entry is moved by its positive weight, up to at most one or down to at
    least 1e-4, and enforce is applied *)
Definition moved (up : bool) (mins b w b' : list R) : Prop :=
  length w = length b /\ (forall i, (i < length b)%nat -> 0 < nth i w 0) /\
  exists nb st, length nb = length b /\
    (forall i, (i < length b)%nat -> nth i nb 0 = if up then Rmin 1 (nth i b 0 + nth i w 0) else Rmax (1 / 10000) (nth i b 0 - nth i w 0)) /\
    enforce (length mins) mins nb 0 = Some (b', st).
(** a step that changes nothing *)
Definition stuck (up : bool) (mins b : list R) : Prop := exists w, moved up mins b w b.

(** nothing can be raised any more: all entries are one *)
Theorem stuck_up mins b : (2 <= length b)%nat -> (forall m, In m mins -> m <= 1) -> stuck true mins b ->
  forall i, (i < length b)%nat -> nth i b 0 = 1.
Proof.
  intros Lb Hm (w & Lw & Pw & nb & st & Ln & En & E).
  destruct (enforce_entries mins nb 0) as (b1 & st1 & E1 & L1 & A & _); [lia|]. rewrite E in E1. injection E1 as <- <-.
  destruct (enforce_valid mins nb 0) as (b2 & st2 & E2 & L2 & N & V); [lia|auto|now left|]. rewrite E in E2. injection E2 as <- <-.
  assert (X : forall i, (i < length b - 1)%nat -> nth i b 0 = 1).
  { intros i Hi. destruct (A i) as (U & _); [lia|]. specialize (U i ltac:(lia)).
    assert (Lf : en (last_fixed nb 0) i = nth i nb 0).
    { unfold last_fixed. destruct (_ && _); [|reflexivity]. rewrite en_upd by lia.
      replace (i =? length nb - 1)%nat with false by (symmetry; apply Nat.eqb_neq; lia). reflexivity. }
    rewrite Lf in U. specialize (En i ltac:(lia)). cbn in En. specialize (Pw i ltac:(lia)).
    destruct (V i ltac:(lia)) as (V1 & _). unfold en in *.
    assert (G : nth i nb 0 <= rcut (rmin_for mins (length nb) i) (nth i nb 0)).
    { assert (nth i nb 0 <= 1) by (rewrite En; apply Rmin_l). unfold rcut.
      generalize (rlt_spec 1 (nth i nb 0)). destruct (rlt 1 (nth i nb 0)); intros; [lra|]. destruct (rmin_for mins (length nb) i) as [y|]; [|lra].
      generalize (rlt_spec (nth i nb 0) y). destruct (rlt (nth i nb 0) y); lra. }
    destruct (Rle_dec 1 (nth i b 0 + nth i w 0)) as [C|C].
    - rewrite Rmin_left in En by lra. lra.
    - rewrite Rmin_right in En by lra. lra. }
  intros i Hi. destruct (Nat.eq_dec i (length b - 1)) as [->|Ne]; [|apply X; lia].
  pose proof (X O ltac:(lia)) as X0. pose proof (rnondec_le b N 0 (length b - 1) ltac:(lia)) as X1. unfold en in *.
  destruct (V (length b - 1)%nat ltac:(lia)) as (V1 & _). unfold en in V1. lra.
Qed.

(** nothing can be lowered any more: up to its last entry the vector is below every ordered
    vector that is above the minimal coefficients and 1e-4 *)
Theorem stuck_down mins b : (forall m, In m mins -> m <= 1) -> stuck false mins b -> forall c, length c = length b ->
  (forall i k, (i <= k < length c)%nat -> nth i c 0 <= nth k c 0) -> above mins c -> (forall i, (i < length c)%nat -> 1 / 10000 <= nth i c 0) ->
  forall i, (i < length b - 1)%nat -> nth i b 0 <= nth i c 0.
Proof.
  intros Hm (w & Lw & Pw & nb & st & Ln & En & E) c Lc Oc Ac Mc i Hi.
  destruct (enforce_entries mins nb 0) as (b1 & st1 & E1 & L1 & A & _); [lia|]. rewrite E in E1. injection E1 as <- <-.
  destruct (A i) as (U & t & Ht & Et); [lia|].
  assert (Lf : forall k, (k < length b - 1)%nat -> en (last_fixed nb 0) k = nth k nb 0).
  { intros k Hk. unfold last_fixed. destruct (_ && _); [|reflexivity]. rewrite en_upd by lia.
    replace (k =? length nb - 1)%nat with false by (symmetry; apply Nat.eqb_neq; lia). reflexivity. }
  rewrite Lf in Et by lia. pose proof (En t ltac:(lia)) as Ent. cbn in Ent. pose proof (Pw t ltac:(lia)) as Pt.
  (* entries do not decrease *)
  assert (N : nth t b 0 <= nth i b 0).
  { destruct (A t) as (_ & u & Hu & Eu); [lia|]. unfold en in *. rewrite Eu. apply U. lia. }
  unfold en in Et. rewrite Et. assert (Cti : nth t c 0 <= nth i c 0) by (apply Oc; lia).
  apply Rle_trans with (nth t c 0); auto. clear U.
  assert (Mt : forall y, rmin_for mins (length nb) t = Some y -> y <= nth t c 0).
  { intros y Hy. unfold rmin_for in Hy. assert (Q := Hy). apply nth_error_nth with (d := 0) in Q. rewrite <- Q.
    specialize (Ac t ltac:(lia)). cbn zeta in Ac. rewrite Lc, <- Ln in Ac. apply Ac. apply nth_error_Some. congruence. }
  assert (X : nth t nb 0 <= nth t c 0 \/ nth t nb 0 = nth t b 0 - nth t w 0).
  { rewrite Ent. destruct (Rle_dec (1 / 10000) (nth t b 0 - nth t w 0)); [right; apply Rmax_right; auto|left; rewrite Rmax_left by lra; apply Mc; lia]. }
  assert (B1 : nth t b 0 <= 1).
  { destruct (enforce_valid mins nb 0) as (b2 & st2 & E2 & L2 & _ & V); [lia|auto|now left|]. rewrite E in E2. injection E2 as <- <-.
    apply V. lia. }
  assert (R0 : nth t nb 0 < 1 \/ nth t nb 0 = 1 / 10000).
  { rewrite Ent. unfold Rmax. destruct (Rle_dec (1 / 10000) (nth t b 0 - nth t w 0)); [left; lra|right; auto]. }
  unfold rcut in *. generalize (rlt_spec 1 (nth t nb 0)). destruct (rlt 1 (nth t nb 0)); intros R1; [lra|].
  assert (Y : nth i b 0 = nth t nb 0 -> nth t nb 0 <= nth t c 0) by (intros Y; destruct X as [X|X]; [auto|lra]).
  destruct (rmin_for mins (length nb) t) as [y|]; [|auto].
  generalize (rlt_spec (nth t nb 0) y). destruct (rlt (nth t nb 0) y); intros R2; auto.
Qed.

(** vectors stay above [lo]: the minimal coefficients are, or the smallest step is *)
Definition allowed (lo : R) (mins : list R) : Prop :=
  0 < lo <= 1 /\ (forall i, (i < length mins)%nat -> nth i mins 0 <= 1) /\ (lo <= nth 0 mins 0 \/ lo <= 1 / 10000).
Lemma minima_allowed lo mins : minima lo mins -> allowed lo mins.
Proof.
  intros (A & B & C & D). pose proof (D O C). split; [lra|]. split; auto.
Qed.
Lemma enforce_inside lo mins nb : (0 < length mins)%nat -> (0 < length nb)%nat -> allowed lo mins ->
  (lo <= 1 / 10000 -> forall i, (i < length nb)%nat -> lo <= nth i nb 0) ->
  exists b2 st, enforce (length mins) mins nb 0 = Some (b2, st) /\ length b2 = length nb /\ inside lo b2.
Proof.
  intros Hm Hb (L0 & L1 & [A|A]) N.
  - destruct (enforce_proper lo mins nb) as (b2 & st & E & L & P); auto.
    { split; [lra|]. split; auto. }
    exists b2, st. split; auto. split; auto. apply P.
  - destruct (enforce_valid mins nb 0 Hb) as (b2 & st & E & L & V).
    { intros m Im. apply (In_nth _ _ 0) in Im. destruct Im as (i & Hi & <-). auto. }
    { now left. }
    exists b2, st. split; auto. split; auto. destruct V as (V1 & V2).
    assert (Mo : forall i k, (i <= k < length b2)%nat -> nth i b2 0 <= nth k b2 0) by (intros i k H; exact (rnondec_le b2 V1 i k H)).
    split; [exact Mo|]. intros i Hi. split; [|apply V2; auto].
    apply Rle_trans with (nth 0 b2 0); [|apply Mo; lia].
    destruct (enforce_entries mins nb 0 Hb) as (b3 & st3 & E3 & L3 & W & _). rewrite E in E3. injection E3 as <- <-.
    destruct (W O ltac:(lia)) as (W0 & _). specialize (W0 O ltac:(lia)). unfold en in W0 at 2.
    eapply Rle_trans; [|exact W0].
    assert (X : lo <= en (last_fixed nb 0) 0).
    { unfold last_fixed. destruct (_ && _); [|apply N; auto]. rewrite en_upd by lia. destruct (_ =? _)%nat; [lra|apply N; auto]. }
    unfold rcut. generalize (rlt_spec 1 (en (last_fixed nb 0) 0)).
    destruct (rlt 1 (en (last_fixed nb 0) 0)); intros R1; destruct (rmin_for mins (length nb) 0) as [m|]; try lra.
    + generalize (rlt_spec 1 m). destruct (rlt 1 m); intros R2; lra.
    + generalize (rlt_spec (en (last_fixed nb 0) 0) m). destruct (rlt (en (last_fixed nb 0) 0) m); intros R2; lra.
Qed.
Lemma moves_above lo (up : bool) x w : lo <= x -> lo <= 1 -> 0 < w -> lo <= 1 / 10000 ->
  lo <= if up then Rmin 1 (x + w) else Rmax (1 / 10000) (x - w).
Proof.
  intros A B C D. destruct up; [apply Rmin_glb; lra|]. eapply Rle_trans; [exact D|apply Rmax_l].
Qed.

Section Target.
  Variables (n d : nat) (lo : R).
  Variable M : list R -> option R.
  Variable SC : list R -> list R -> option (R * list R).
  Variable target : R.
  Variable mins : list R.
  Hypothesis Hn : (2 <= n)%nat.
  Hypothesis Hd : d = (n / 2)%nat.
  Hypothesis Hlen : length mins = d.
  Hypothesis Hmins : allowed lo mins.
  (** single_enum_cost fills detailed_cost with positive numbers *)
  Hypothesis HSC : forall b det c det', length b = n -> inside lo b -> length det = n -> SC b det = Some (c, det') ->
    length det' = n /\ forall i, (i < n)%nat -> 0 < nth i det' 0.

  Lemma lo1 : lo <= 1.
  Proof. destruct Hmins as (A & _). lra. Qed.

  Lemma rsum_pos (l : list R) : (0 < length l)%nat -> (forall i, (i < length l)%nat -> 0 < nth i l 0) -> forall a, 0 <= a -> 0 < fold_left Rplus l a.
  Proof.
    destruct l as [|x l]; cbn [length]; [lia|]. intros _ H a Ha. cbn [fold_left].
    assert (X : 0 < a + x) by (specialize (H O ltac:(lia)); cbn in H; lra).
    assert (Y : forall i, (i < length l)%nat -> 0 < nth i l 0) by (intros i Hi; apply (H (S i)); lia). clear H.
    revert X. generalize (a + x). clear a x Ha. induction l as [|y l IH]; intros z Z; cbn [fold_left]; auto.
    apply IH; [intros i Hi; apply (Y (S i)); cbn; lia|]. specialize (Y O ltac:(cbn; lia)). cbn in Y. lra.
  Qed.

  Lemma weights_fine det : length det = n -> (forall i, (i < n)%nat -> 0 < nth i det 0) ->
    fine (fun w => length w = n /\ forall i, (i < n)%nat -> 0 < nth i w 0) (weights det n).
  Proof.
    intros L P. unfold weights. eapply fine_bnd.
    - apply fine_collect with (P := fun _ x => 0 < x). intros i Hi. unfold raw_weight.
      eapply fine_bnd with (Q := fun _ => True).
      + apply (fine_each (fun _ _ => True)) with (k := (n - i)%nat); auto. intros j a Hj _.
        rewrite (nth_error_nth' det 0) by lia. exact I.
      + intros s _. cbn [fine]. destruct (rlt (1 / s) minstep) eqn:R; [unfold minstep; lra|].
        apply rlt_false in R. unfold minstep in R. lra.
    - intros w (Lw & Pw). cbn [fine]. rewrite map_length. split; auto. intros i Hi.
      rewrite (nth_indep _ 0 ((fun x => x / fold_left Rplus w 0) 0)) by (rewrite map_length; lia). rewrite (map_nth (fun x => x / fold_left Rplus w 0)).
      apply Rdiv_lt_0_compat; [apply Pw; auto|]. apply rsum_pos; [lia| |lra]. intros k Hk. apply Pw. lia.
  Qed.

  Lemma move_up_min x w : move_up x w = Rmin 1 (x + w).
  Proof.
    unfold move_up. cbn zeta. destruct (rle 1 (x + w)) eqn:R; [apply rle_true in R; rewrite Rmin_left; lra|apply rle_false in R; rewrite Rmin_right; lra].
  Qed.
  Lemma move_down_max x w : move_down x w = Rmax (1 / 10000) (x - w).
  Proof.
    unfold move_down, minstep. cbn zeta. destruct (rlt (x - w) (1 / 10000)) eqn:R; [apply rlt_true in R; rewrite Rmax_left; lra|apply rlt_false in R; rewrite Rmax_right; lra].
  Qed.

  Lemma unchanged_eq b old : length b = length old -> unchanged b old = true -> b = old.
  Proof.
    intros L H. apply (nth_ext _ _ 0 0); auto. intros i Hi. unfold unchanged in H. rewrite forallb_forall in H.
    specialize (H i ltac:(apply in_seq; lia)). destruct (Req_EM_T (nth i b 0) (nth i old 0)); [auto|discriminate].
  Qed.

  (** the steps of the loop: [steps up k b b'] *)
  Inductive steps (up : bool) : nat -> list R -> list R -> Prop :=
  | steps_0 b : steps up 0 b b
  | steps_S k b b1 b2 w : steps up k b b1 -> moved up mins b1 w b2 -> steps up (S k) b b2.

  Definition reached (up : bool) (p : R) : Prop := if up then target <= p else p <= target.

  (** incr_prob and decr_prob: terminate after at most 10001 steps, with a vector that
      reaches the target or cannot be moved, or else after exactly 10001 steps *)
  Theorem change_prob_terminates up pr : falling lo n pr ->
    does (fun pr' => falling lo n pr' /\
        exists k b b', (Z.of_nat k <= 10001)%Z /\ load_profile n d n pr = Some b /\ save_profile n d pr b' = Some pr' /\ steps up k b b' /\
          ((exists p, M b' = Some p /\ reached up p) \/ stuck up mins b' \/ Z.of_nat k = 10001%Z))
      (fun fu => change_prob n d M SC target mins up fu pr).
  Proof.
    intros Fp. pose proof (half n d Hn Hd) as H. pose proof lo1 as Hlo1.
    destruct (load_inside n d lo Hn Hd n pr) as (b & E & L & Ib & V); auto.
    unfold change_prob. rewrite (proj1 Fp), E. cbn [ub obnd].
    eapply does_bnd with (f := fun b' fu => ub (save_profile n d pr b'))
      (Q := fun b' => length b' = n /\ inside lo b' /\ exists k, (Z.of_nat k <= 10001)%Z /\ steps up k b b' /\
        ((exists p, M b' = Some p /\ reached up p) \/ stuck up mins b' \/ Z.of_nat k = 10001%Z)).
    2:{ intros b' (L' & I' & k & Hk & St & C). apply does_fine.
        destruct (save_falling n d lo Hn Hd Hlo1 pr b') as (pr' & E' & F' & _); auto. rewrite E'. cbn [ub fine]. split; auto.
        exists k, b, b'. split; [lia|]. auto. }
    eapply does_wloop with (k := Z.to_nat 10002) (Inv := fun q s => let '(tours, b1, det) := s in
      length b1 = n /\ inside lo b1 /\ length det = n /\ (Z.of_nat tours <= 10001)%Z /\ (Z.of_nat q = 10002 - Z.of_nat tours)%Z /\ steps up tours b b1).
    2:{ rewrite repeat_length. split; auto. split; auto. split; auto. split; [lia|]. split; [lia|]. constructor. }
    intros q [[tours b1] det] (L1 & I1 & Ld & Ht & Hq & St). unfold prob_turn.
    apply does_fine. destruct (10000 <? Z.of_nat tours)%Z eqn:T.
    { apply Z.ltb_lt in T. cbn [fine]. split; auto. split; auto. exists tours. split; auto. split; auto. right. right. lia. }
    apply Z.ltb_ge in T.
    eapply fine_bnd; [apply fine_call with (P := fun p => M b1 = Some p); auto|]. intros p Ep.
    destruct (if up then rle target p else rle p target) eqn:R.
    { cbn [fine]. split; auto. split; auto. exists tours. split; auto. split; auto. left. exists p. split; auto.
      unfold reached. destruct up; apply rle_true; auto. }
    eapply fine_bnd; [apply fine_call with (P := fun c => SC b1 det = Some c); auto|]. intros [c det1] Esc. cbn [snd].
    destruct (HSC b1 det c det1 L1 I1 Ld Esc) as (Ld1 & Pd1).
    eapply fine_bnd; [apply weights_fine; auto|]. intros w (Lw & Pw).
    eapply fine_bnd.
    { apply fine_collect with (P := fun i x => x = if up then Rmin 1 (nth i b1 0 + nth i w 0) else Rmax (1 / 10000) (nth i b1 0 - nth i w 0)).
      intros i Hi. rewrite (nth_error_nth' b1 0) by lia. cbn [ub obnd]. rewrite (nth_error_nth' w 0) by lia. cbn [ub obnd fine].
      destruct up; [apply move_up_min|apply move_down_max]. }
    intros nb (Lnb & Enb). destruct (enforce_inside lo mins nb) as (b2 & st & E2 & L2 & P2); [lia|lia|exact Hmins| |].
    { intros Hl i Hi. rewrite (Enb i 0) by lia. apply moves_above; auto; [apply I1; lia|apply Pw; lia]. }
    unfold enf. rewrite <- Hlen, E2. cbn [ub obnd fst].
    assert (Mv : moved up mins b1 w b2).
    { split; [lia|]. split; [rewrite L1; auto|]. exists nb, st. split; [lia|]. split; auto. intros i Hi. apply (Enb i 0). lia. }
    destruct (unchanged b2 b1) eqn:U.
    - apply unchanged_eq in U; [|lia]. subst b2. cbn [fine]. split; auto. split; auto. exists tours. split; [lia|]. split; auto.
      right. left. exists w. exact Mv.
    - cbn [fine]. exists (q - 1)%nat. split; [lia|]. split; [lia|]. split; [exact P2|]. split; auto. split; [lia|]. split; [lia|].
      econstructor; eauto.
  Qed.

  (** local_adjust_prob: if it returns, the metric is within five percent of the target or the
      vector cannot be moved *)
  Theorem local_adjust_prob_result fuel pr pr' : falling lo n pr -> local_adjust_prob n d M target mins fuel pr = Ret pr' ->
    falling lo n pr' /\
    exists b' p, save_profile n d pr b' = Some pr' /\ M b' = Some p /\
      (95 / 100 < p / target < 105 / 100 \/ (if rlt (p / target) 1 then stuck true mins b' else stuck false mins b')).
  Proof.
    intros Fp. pose proof (half n d Hn Hd) as H. pose proof lo1 as Hlo1.
    destruct (load_inside n d lo Hn Hd n pr) as (b & E & L & Ib & V); auto.
    unfold local_adjust_prob. rewrite (proj1 Fp), E. cbn [ub obnd].
    assert (Loop : forall fuel b, length b = n -> inside lo b -> forall b', wloop (adjust_turn d M target mins n) fuel b = Ret b' ->
      length b' = n /\ inside lo b' /\ exists p, M b' = Some p /\
      (95 / 100 < p / target < 105 / 100 \/ (if rlt (p / target) 1 then stuck true mins b' else stuck false mins b'))).
    { clear pr b Fp E L Ib V fuel pr'. induction fuel as [|fuel IH]; intros b L Ib b' W; [discriminate|]. cbn [wloop] in W. unfold adjust_turn in W at 1.
      destruct (M b) as [p|] eqn:Ep; [|discriminate]. cbn [call obnd] in W.
      destruct (rlt (p / target) (105 / 100) && rlt (95 / 100) (p / target)) eqn:R.
      { cbn [obnd] in W. injection W as <-. apply andb_prop in R. destruct R as (R1 & R2). apply rlt_true in R1, R2.
        split; auto. split; auto. exists p. auto. }
      assert (Cl : fine (fun nb => length nb = n /\ forall i dflt, (i < n)%nat -> nth i nb dflt = (if rlt (p / target) 1 then move_up (nth i b 0) minstep else move_down (nth i b 0) minstep))
        (collect (fun i => x <~ ub (nth_error b i);; Ret (if rlt (p / target) 1 then move_up x minstep else move_down x minstep)) (seq 0 n))).
      { apply (fine_collect (fun i x => x = if rlt (p / target) 1 then move_up (nth i b 0) minstep else move_down (nth i b 0) minstep)). intros i Hi.
        rewrite (nth_error_nth' b 0) by lia. reflexivity. }
      destruct (collect _ (seq 0 n)) as [nb|e| |] eqn:Ec; try discriminate. cbn [fine] in Cl. destruct Cl as (Ln & En). cbn [obnd] in W.
      destruct (enforce_inside lo mins nb) as (b2 & st & E2 & L2 & P2); [lia|lia|exact Hmins| |].
      { intros Hl i Hi. rewrite (En i 0) by lia. pose proof (moves_above lo (rlt (p / target) 1) (nth i b 0) minstep) as Ma.
        rewrite <- move_up_min, <- move_down_max in Ma. apply Ma; auto; [apply Ib; lia|unfold minstep; lra]. }
      unfold enf in W. rewrite <- Hlen, E2 in W. cbn [ub obnd fst] in W.
      destruct (unchanged b2 b) eqn:U; cbn [obnd] in W.
      - injection W as <-. apply unchanged_eq in U; [|lia]. subst b2. split; auto. split; auto. exists p. split; auto. right.
        assert (G : forall up, (rlt (p / target) 1 = up) -> stuck up mins b).
        { intros up <-. exists (repeat minstep n). unfold moved. rewrite repeat_length. split; auto. split.
          - intros i Hi. rewrite (nth_indep (repeat minstep n) 0 minstep) by (rewrite repeat_length; lia). rewrite nth_repeat. unfold minstep. lra.
          - exists nb, st. split; [lia|]. split; [|exact E2]. intros i Hi. rewrite (En i 0 ltac:(lia)).
            rewrite (nth_indep (repeat minstep n) 0 minstep) by (rewrite repeat_length; lia). rewrite nth_repeat.
            destruct (rlt (p / target) 1); [apply move_up_min|apply move_down_max]. }
        destruct (rlt (p / target) 1); apply G; reflexivity.
      - apply (IH b2); [lia|exact P2|rewrite <- Hlen; exact W]. }
    destruct (wloop (adjust_turn d M target mins n) fuel b) as [b'|e| |] eqn:W; try discriminate. cbn [obnd]. intros S.
    destruct (Loop fuel b L Ib b' W) as (L' & I' & p & Ep & C).
    destruct (save_falling n d lo Hn Hd Hlo1 pr b') as (pr1 & E' & F' & _); auto. rewrite E' in S. cbn in S. injection S as <-.
    split; auto. exists b', p. auto.
  Qed.
End Target.
