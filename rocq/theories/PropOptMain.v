(** C68: the whole optimisation with a varying probability: greedy start, minimal
    coefficients, cores and local adjustments. *)
From Coq Require Import List ZArith Reals Lra Lia Arith Bool.
From Verif Require Import Util MatrixModel MatrixProofs HouseProofs PrunerModel PropPruner PruneVolModel PropPruneVol PruneCostModel PropPruneCost OptModel OptProofs PropOpt.
Import ListNotations.
Local Open Scope R_scope.

(** ** greedy *)
Section Start.
  Variables n d : nat.
  Variable nodes : nat -> list R -> option R.
  Variable lo : R.
  Hypothesis Hlo : 0 < lo <= 98 / 100000.
  Hypothesis Hd : (0 < d)%nat.
  (** the node count of a level can be computed *)
  Hypothesis Hnodes : forall j b, (j < 2 * d)%nat -> length b = d -> inside lo b -> exists v, nodes j b = Some v.

  (** entries from [i] on are one *)
  Definition opened (i : nat) (b : list R) : Prop :=
    length b = d /\ inside lo b /\ forall k, (i <= k < d)%nat -> nth k b 0 = 1.

  Lemma upd_inside b i y : length b = d -> (i < d)%nat -> inside lo b -> lo <= y <= 1 ->
    (forall k, (k < i)%nat -> nth k b 0 <= y) -> (forall k, (i < k < d)%nat -> nth k b 0 = 1) -> inside lo (upd b i y).
  Proof.
    intros L Hi (A & B) Hy Low High. split; rewrite upd_length.
    - intros k k2 Hk. rewrite !nth_upd_R by lia. destruct (k =? i)%nat eqn:E1; destruct (k2 =? i)%nat eqn:E2;
        rewrite ?Nat.eqb_eq, ?Nat.eqb_neq in *; subst; try lra.
      + rewrite (High k2) by lia. lra.
      + apply Low. lia.
      + apply A. lia.
    - intros k Hk. rewrite nth_upd_R by lia. destruct (k =? i)%nat; auto.
  Qed.

  Lemma gcap_spec i b : length b = d -> (i < d)%nat ->
    exists b', gcap i b = Some b' /\ length b' = d /\
      forall k, nth k b' 0 = if (k <? i)%nat then Rmin (nth k b 0) (nth i b 0) else nth k b 0.
  Proof.
    intros L Hi. unfold gcap.
    destruct (ofor_inv (fun k0 b' => length b' = d /\
      forall k, nth k b' 0 = if (k <? k0)%nat then Rmin (nth k b 0) (nth i b 0) else nth k b 0)
      (fun k b => x <- nth_error b k;; y <- nth_error b i;; vset b k (if rlt x y then x else y)) i 0 b)
      as (b' & E & L' & V).
    - split; auto.
    - intros k0 b1 Hk (L1 & V1). rewrite (nth_error_nth' b1 0) by lia. cbn [obind].
      rewrite (nth_error_nth' b1 0) by lia. cbn [obind]. rewrite PropPruner.vset_at by lia.
      eexists. split; [reflexivity|]. split; [now rewrite upd_length|]. intros k.
      rewrite nth_upd_R by lia. rewrite !V1.
      replace (k0 <? k0)%nat with false by (symmetry; apply Nat.ltb_ge; lia).
      replace (i <? k0)%nat with false by (symmetry; apply Nat.ltb_ge; lia).
      destruct (k =? k0)%nat eqn:E1.
      + apply Nat.eqb_eq in E1. subst k. replace (k0 <? S k0)%nat with true by (symmetry; apply Nat.ltb_lt; lia).
        generalize (rlt_spec (nth k0 b 0) (nth i b 0)). destruct (rlt (nth k0 b 0) (nth i b 0)); intros R.
        * rewrite Rmin_left; lra.
        * rewrite Rmin_right; lra.
      + apply Nat.eqb_neq in E1. destruct (k <? k0)%nat eqn:E2.
        * apply Nat.ltb_lt in E2. replace (k <? S k0)%nat with true by (symmetry; apply Nat.ltb_lt; lia). reflexivity.
        * apply Nat.ltb_ge in E2. replace (k <? S k0)%nat with false by (symmetry; apply Nat.ltb_ge; lia). reflexivity.
    - exists b'. split; [exact E|]. split; [exact L'|exact V].
  Qed.

  Lemma shrink_opened i b : opened (S i) b -> (i < d)%nat -> 1 / 1000 < nth i b 0 ->
    exists b', gcap i (upd b i (nth i b 0 * (98 / 100))) = Some b' /\ opened (S i) b' /\ nth i b' 0 = nth i b 0 * (98 / 100).
  Proof.
    intros (L & (A & B) & O) Hi X. set (y := nth i b 0 * (98 / 100)).
    assert (Y : lo <= y <= 1) by (unfold y; specialize (B i ltac:(lia)); lra).
    destruct (gcap_spec i (upd b i y)) as (b' & E & L' & V); [now rewrite upd_length|auto|].
    assert (W : forall k, (k < d)%nat -> nth k b' 0 = if (k <? i)%nat then Rmin (nth k b 0) y else if (k =? i)%nat then y else 1).
    { intros k Hk. rewrite V. rewrite !nth_upd_R by lia. rewrite Nat.eqb_refl.
      destruct (k <? i)%nat eqn:E1.
      - apply Nat.ltb_lt in E1. replace (k =? i)%nat with false by (symmetry; apply Nat.eqb_neq; lia). reflexivity.
      - apply Nat.ltb_ge in E1. destruct (k =? i)%nat eqn:E2; auto. apply Nat.eqb_neq in E2. apply O. lia. }
    assert (Wi : nth i b' 0 = y).
    { rewrite W by auto. rewrite Nat.ltb_irrefl, Nat.eqb_refl. reflexivity. }
    exists b'. split; auto. split; [|auto].
    split; auto. split; [split; rewrite L'|].
    - intros k k2 Hk. rewrite !W by lia. destruct (k <? i)%nat eqn:E1.
      + apply Nat.ltb_lt in E1. destruct (k2 <? i)%nat eqn:E2.
        * apply Rmin_glb; [eapply Rle_trans; [apply Rmin_l|]; apply A; apply Nat.ltb_lt in E2; lia|apply Rmin_r].
        * destruct (k2 =? i)%nat; [apply Rmin_r|]. eapply Rle_trans; [apply Rmin_r|lra].
      + apply Nat.ltb_ge in E1. replace (k2 <? i)%nat with false by (symmetry; apply Nat.ltb_ge; lia).
        destruct (k =? i)%nat eqn:E2; destruct (k2 =? i)%nat eqn:E3; rewrite ?Nat.eqb_eq, ?Nat.eqb_neq in *; try lra; lia.
    - intros k Hk. rewrite W by lia. specialize (B k ltac:(lia)). destruct (k <? i)%nat; [|destruct (k =? i)%nat; lra].
      split; [apply Rmin_glb; lra|eapply Rle_trans; [apply Rmin_l|lra]].
    - intros k Hk. rewrite W by lia. replace (k <? i)%nat with false by (symmetry; apply Nat.ltb_ge; lia).
      replace (k =? i)%nat with false by (symmetry; apply Nat.eqb_neq; lia). reflexivity.
  Qed.

  Lemma shrink_budget : exists q, (98 / 100) ^ q < 1 / 1000.
  Proof.
    destruct (pow_lt_1_zero (98 / 100)) with (y := 1 / 1000) as (N & HN); [rewrite Rabs_pos_eq; lra|lra|].
    exists N. specialize (HN N (Nat.le_refl N)). rewrite Rabs_pos_eq in HN by (apply pow_le; lra). lra.
  Qed.

  Lemma gshrink_does preproc i nd b : (i < d)%nat -> opened (S i) b ->
    does (opened (S i)) (fun fu => wloop (gshrink n nodes preproc (2 * i + 1)) fu (nd, b)).
  Proof.
    intros Hi O. destruct shrink_budget as (q0 & Hq).
    eapply does_wloop with (k := S q0) (Inv := fun q s => opened (S i) (snd s) /\ nth i (snd s) 0 * (98 / 100) ^ q < 1 / 1000).
    - intros q [nd1 b1] (O1 & B1). cbn [snd] in *. unfold gshrink. apply does_fine.
      replace ((2 * i + 1) / 2)%nat with i by (rewrite Nat.mul_comm, Nat.div_add_l by lia; simpl; lia).
      pose proof O1 as (L1 & I1 & _).
      rewrite (nth_error_nth' b1 0) by lia. cbn [ub obnd].
      destruct (rlt _ nd1 && rlt (1 / 1000) (nth i b1 0)) eqn:R; [|exact O1].
      apply andb_prop in R. destruct R as (_ & R). apply rlt_true in R.
      rewrite PropPruner.vset_at by lia. cbn [ub obnd].
      destruct (shrink_opened i b1 O1 Hi R) as (b2 & E2 & O2 & V2). rewrite E2. cbn [ub obnd].
      destruct (Hnodes (2 * i + 1) b2) as (v & Ev); [lia|apply O2|apply O2|]. rewrite Ev. cbn [ub obnd fine snd].
      destruct q as [|q]; [cbn [pow] in B1; lra|]. exists q. split; [lia|]. split; auto.
      rewrite V2. cbn [pow] in B1. lra.
    - cbn [snd]. split; auto. destruct O as (L & (_ & B) & _). specialize (B i ltac:(lia)). cbn [pow].
      assert (0 < (98 / 100) ^ q0) by (apply pow_lt; lra).
      assert (nth i b 0 * (98 / 100 * (98 / 100) ^ q0) <= 1 * (98 / 100 * (98 / 100) ^ q0)) by (apply Rmult_le_compat_r; lra). lra.
  Qed.

  (** *** greedy terminates; its vector is ordered, with entries from 98/100000 to one *)
  Theorem greedy_profile_terminates preproc :
    does (fun b => length b = d /\ inside lo b /\ nth (d - 1) b 0 = 1) (fun fu => greedy_profile n d nodes preproc fu).
  Proof.
    unfold greedy_profile. eapply does_weak.
    - apply (does_each opened (fun fu => gstep n nodes preproc fu) (d - 1) 0).
      + split; [apply repeat_length|]. assert (R1 : forall k, (k < d)%nat -> nth k (repeat 1 d) 0 = 1).
        { intros k Hk. rewrite (nth_indep (repeat 1 d) 0 1) by (rewrite repeat_length; auto). apply nth_repeat. }
        split; [split; rewrite repeat_length|]; intros; rewrite ?R1 by lia; lra.
      + intros i b Hi O. unfold gstep.
        eapply does_bnd with (Q := opened (S i)) (f := fun b fu => wloop (gshrink n nodes preproc (2 * i + 1)) fu (1 + 10000000000 * preproc, b));
          [|intros b1 O1; apply gshrink_does; auto; lia].
        apply does_fine. destruct O as (L & Ib & On). destruct (1 <? i)%nat eqn:E.
        * apply Nat.ltb_lt in E. rewrite (nth_error_nth' b 0) by lia. cbn [ub obnd]. rewrite PropPruner.vset_at by lia. cbn [ub fine].
          pose proof Ib as (A & B). pose proof (B (i - 1)%nat ltac:(lia)) as Bi.
          set (y := if rlt (9 / 10) (nth (i - 1) b 0) then 1 else 11 / 10 * nth (i - 1) b 0).
          assert (Y : nth (i - 1) b 0 <= y <= 1).
          { unfold y. generalize (rlt_spec (9 / 10) (nth (i - 1) b 0)). destruct (rlt (9 / 10) (nth (i - 1) b 0)); intros; lra. }
          split; [now rewrite upd_length|]. split.
          -- apply upd_inside; auto; [lia|lra| |intros; apply On; lia].
             intros k Hk. apply Rle_trans with (nth (i - 1) b 0); [apply A; lia|lra].
          -- intros k Hk. rewrite nth_upd_R by lia. replace (k =? i)%nat with false by (symmetry; apply Nat.eqb_neq; lia). apply On. lia.
        * cbn [fine]. split; auto. split; auto. intros k Hk. apply On. lia.
    - intros b (L & Ib & O). split; auto. split; auto. apply O. lia.
  Qed.
End Start.

(** ** The whole optimisation *)
Section Whole.
  Variables (n d : nat) (lo m : R).
  Variables F M : list R -> option R.
  Variable SC : list R -> list R -> option (R * list R).
  Variable target : R.
  Variable nodes : nat -> list R -> option R.
  Hypothesis Hn : (2 <= n)%nat.
  Hypothesis Hd : d = (n / 2)%nat.
  Hypothesis Hlo : 0 < lo <= 1 / 10000.
  Hypothesis Hm : 0 < m.
  Hypothesis Hfull : cost_floor F lo m n.
  Hypothesis Hhalf : cost_floor F lo m d.
  Hypothesis HSC : forall b det c det', length b = n -> inside lo b -> length det = n -> SC b det = Some (c, det') ->
    length det' = n /\ forall i, (i < n)%nat -> 0 < nth i det' 0.
  Hypothesis Hnodes : forall j b, (j < 2 * d)%nat -> length b = d -> inside lo b -> exists v, nodes j b = Some v.

  Notation prep := (preparation n d M SC target (fun fu pp => greedy_profile n d nodes pp fu)).

  Lemma inside_minima b : length b = d -> inside lo b -> minima lo b.
  Proof.
    intros L (_ & B). pose proof (half n d Hn Hd) as H. split; [lra|]. split; [apply B; lia|]. split; [lia|]. intros i Hi. apply B. auto.
  Qed.

  (** optimize_coefficients_preparation gives usable minimal coefficients and a profile *)
  Theorem preparation_terminates fl preproc mins0 pr : (f_input fl = true -> falling lo n pr) ->
    does (fun r => falling lo n (snd r) /\ nth 0 (snd r) 0 = 1 /\
                   (f_gradient fl || f_nelder fl = true -> length (fst r) = d /\ minima lo (fst r)))
         (fun fu => prep fl preproc fu mins0 pr).
  Proof.
    intros Fp. pose proof (half n d Hn Hd) as H. unfold preparation.
    assert (G : forall pp, does (fun b => length b = d /\ inside lo b) (fun fu => greedy_profile n d nodes pp fu)).
    { intros pp. eapply does_weak; [apply (greedy_profile_terminates n d nodes lo); [lra|lia|exact Hnodes]|]. intros b (A & B & _). auto. }
    eapply does_bnd with (Q := fun b => length b = d /\ inside lo b) (f := fun b fu =>
      mins <~ (if f_gradient fl || f_nelder fl then mn <~ greedy_profile n d nodes (preproc * (1 / 10)) fu;;
               if f_single fl then Ret mn else (pr_min <~ ub (save_profile n d (repeat 0 n) mn);; p <~ call (M mn);;
                 pr_min <~ (if rlt target p then change_prob n d M SC target (repeat 0 d) false fu pr_min else Ret pr_min);;
                 ub (load_profile n d d pr_min))
             else Ret (if f_input fl then mins0 else repeat 0 d));; pr0 <~ ub (save_profile n d pr b);; Ret (mins, pr0)).
    { destruct (f_input fl); [|apply G]. apply does_fine.
      destruct (load_inside n d lo Hn Hd d pr) as (b & E & L & I & _); auto. rewrite E. cbn. auto. }
    intros b (Lb & Ib).
    eapply does_bnd with (Q := fun mins => f_gradient fl || f_nelder fl = true -> length mins = d /\ minima lo mins)
      (f := fun mins fu => pr0 <~ ub (save_profile n d pr b);; Ret (mins, pr0)).
    2:{ intros mins Hmi. apply does_fine. destruct (save_falling n d lo Hn Hd ltac:(lra) pr b) as (pr0 & E0 & F0 & Z0 & _); auto.
        rewrite E0. cbn [ub obnd fine fst snd]. auto. }
    destruct (f_gradient fl || f_nelder fl); [|apply does_ret; discriminate].
    eapply does_bnd with (Q := fun b => length b = d /\ inside lo b) (f := fun mn fu => if f_single fl then Ret mn else (pr_min <~ ub (save_profile n d (repeat 0 n) mn);; p <~ call (M mn);;
                 pr_min <~ (if rlt target p then change_prob n d M SC target (repeat 0 d) false fu pr_min else Ret pr_min);;
                 ub (load_profile n d d pr_min))); [apply G|].
    intros mn (Lm & Im). destruct (f_single fl); [apply does_ret; intros _; split; [auto|apply inside_minima; auto]|].
    destruct (save_falling n d lo Hn Hd ltac:(lra) (repeat 0 n) mn) as (pm & Ep & Fpm & _); auto. rewrite Ep. cbn [ub obnd].
    eapply does_bnd with (Q := fun _ => True) (f := fun p fu => pr_min <~ (if rlt target p then change_prob n d M SC target (repeat 0 d) false fu pm else Ret pm);; ub (load_profile n d d pr_min));
      [apply does_fine, fine_call; auto|].
    intros p _.
    eapply does_bnd with (Q := falling lo n) (f := fun pr_min fu => ub (load_profile n d d pr_min)).
    - destruct (rlt target p); [|apply does_ret; auto].
      eapply does_weak; [apply (change_prob_terminates n d lo); auto; [apply repeat_length|]|intros pr' (A & _); exact A].
      split; [lra|]. split; [|right; lra]. intros i Hi. rewrite repeat_length in Hi. rewrite nth_repeat. lra.
    - intros pm1 Fm1. apply does_fine. destruct (load_inside n d lo Hn Hd d pm1) as (b1 & E1 & L1 & I1 & _); auto. rewrite E1.
      cbn. intros _. split; [auto|apply inside_minima; auto].
  Qed.

  (** without the descents the minimal coefficients are not used *)
  Lemma core_unused mins mins' dn fu pr : core n d F mins false false dn fu pr = core n d F mins' false false dn fu pr.
  Proof. reflexivity. Qed.
  Lemma vary_unused fl mins mins' fu pr : f_gradient fl || f_nelder fl = false ->
    vary_prob n d F SC fl mins fu pr = vary_prob n d F SC fl mins' fu pr.
  Proof.
    intros H. apply orb_false_elim in H. destruct H as (H1 & H2). unfold vary_prob. rewrite H1, H2. reflexivity.
  Qed.

  (** *** optimize_coefficients without PRUNER_SINGLE terminates, with a profile *)
  Theorem optimize_terminates fl preproc mins0 pr : f_single fl = false -> (f_input fl = true -> falling lo n pr) ->
    does (fun pr' => falling lo n pr' /\ nth 0 pr' 0 = 1)
      (fun fu => optimize_coefficients n d F M SC target (fun fu pp => greedy_profile n d nodes pp fu) fl preproc fu mins0 pr).
  Proof.
    intros Hs Fp. pose proof (half n d Hn Hd) as H. unfold optimize_coefficients. rewrite Hs.
    eapply does_bnd with (f := fun mp fu => vary_prob n d F SC fl (fst mp) fu (snd mp)); [apply preparation_terminates; exact Fp|].
    intros [mins pr1] (A & B & C). cbn [fst snd] in *.
    assert (V : forall mins1, length mins1 = d -> minima lo mins1 ->
      does (fun pr' => falling lo n pr' /\ nth 0 pr' 0 = 1) (fun fu => vary_prob n d F SC fl mins1 fu pr1)).
    { intros mins1 L1 M1. eapply does_weak; [apply (vary_prob_terminates n d lo m); auto; lra|]. intros pr' (X & Y & _). auto. }
    destruct (f_gradient fl || f_nelder fl) eqn:G; [apply V; apply C; auto|].
    eapply does_ext; [apply (V (repeat lo d)); [apply repeat_length|]|intros fu; apply vary_unused; exact G].
    assert (R : forall i, (i < d)%nat -> nth i (repeat lo d) 0 = lo).
    { intros i Hi. rewrite (nth_indep (repeat lo d) 0 lo) by (rewrite repeat_length; auto). apply nth_repeat. }
    split; [lra|]. rewrite repeat_length. split; [rewrite R by lia; lra|]. split; [lia|]. intros i Hi. rewrite R by auto. lra.
  Qed.
End Whole.
