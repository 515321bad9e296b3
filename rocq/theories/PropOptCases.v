(** C68: the optimiser with the cost and metric models of PruneCostModel, cases, and
    what is not so: a loop that does not end, minimal coefficients above the target,
    smoothing below the minimal coefficients. *)
From Coq Require Import List ZArith Reals Lra Lia Arith Bool.
From Verif Require Import Util MatrixModel MatrixProofs HouseProofs PrunerModel PropPruner PruneVolModel PruneVolProofs PropPruneVol PruneCostModel PropPruneCost PropPruneShape OptModel OptProofs PropOpt PropOptMain.
Import ListNotations.
Local Open Scope R_scope.

(** ** The hypotheses hold for target_function, single_enum_cost and the node count *)
Section Real.
  Variable dx : R.
  Variable fresh : nat -> list R.
  Hypothesis fresh_len : forall k, length (fresh k) = S k.
  Variable ball : list R.
  Variable sym : R.
  Variables n d : nat.
  Variable g : list R.
  Variable radius : R.
  Variable sh : shape.
  Variable s0 : shape.
  Hypothesis sizes : (0 < d)%nat /\ (2 * d <= n)%nat /\ (n < length ball)%nat.
  Hypothesis positive : 0 < sym /\ 0 < radius /\ (forall i, (i <= n)%nat -> 0 < en ball i).
  Hypothesis basis : length g = n /\ pos_list g.
  (** Pruner with a basis shape (pruner.h:296-360) *)
  Hypothesis loaded : load_basis_shape n d radius g true s0 = Some sh.
  Variable lo : R.
  Hypothesis Hlo : 0 < lo.

  Let CS := cost_sizes ball sym n d g radius sh s0 sizes positive basis loaded.
  Let CP := cost_positive ball sym n d g radius sh s0 sizes positive basis loaded.

  Lemma inside_profile k b : (k <= length b)%nat -> inside lo b -> profile k b.
  Proof.
    intros L (A & B). split; auto. unfold en. split; intros i Hi; [specialize (B i ltac:(lia)); lra|apply A; lia].
  Qed.

  (** the enumeration of one dimension *)
  Definition first_level : R := full_level ball sym sh 0 * sqrt lo.

  Lemma first_level_pos : 0 < first_level.
  Proof.
    apply Rmult_lt_0_compat; [apply (full_level_pos ball sym d sh CP); pose proof sizes; lia|apply sqrt_lt_R0; auto].
  Qed.

  Lemma evec_floor b det t dt : profile d b -> lo <= en b 0 ->
    single_enum_cost_evec fresh ball sym n d sh b det = Some (t, dt) -> first_level <= t.
  Proof.
    intros Pb H0 E. destruct (cost_spec fresh fresh_len ball sym n d sh CS b det Pb) as (t1 & d1 & E1 & _ & _ & T).
    rewrite E in E1. injection E1 as <- <-. pose proof sizes as (Hd & _).
    assert (Pos : forall i, (i < 2 * d)%nat -> 0 < full_level ball sym sh i * width b i).
    { intros i Hi. apply Rmult_lt_0_compat; [apply (full_level_pos ball sym d sh CP); auto|apply (width_pos fresh fresh_len d); auto]. }
    assert (Up : forall k, (S k <= 2 * d)%nat -> full_level ball sym sh 0 * width b 0 <= upto (fun i => full_level ball sym sh i * width b i) (S k)).
    { induction k as [|k IH]; intros Hk; [cbn [upto]; lra|]. cbn [upto] in *. specialize (IH ltac:(lia)). specialize (Pos (S k) ltac:(lia)). lra. }
    rewrite T. replace (2 * d)%nat with (S (2 * d - 1)) by lia. eapply Rle_trans; [|apply Up; lia].
    unfold first_level. apply Rmult_le_compat_l; [left; apply (full_level_pos ball sym d sh CP); lia|].
    unfold width. cbn. apply sqrt_le_1_alt. exact H0.
  Qed.

  Lemma single_floor b det t dt : length b = d \/ length b = n -> inside lo b ->
    single_enum_cost fresh ball sym n d sh b det = Some (t, dt) -> first_level <= t.
  Proof.
    intros L I E. pose proof sizes as (Hd & Hn & _). unfold single_enum_cost in E.
    destruct (length b =? d)%nat eqn:Eb.
    - apply Nat.eqb_eq in Eb. apply (evec_floor b det t dt); auto; [apply inside_profile; auto; lia|apply I; lia].
    - apply Nat.eqb_neq in Eb. assert (Ln : length b = n) by lia.
      destruct (every_second_spec d 0 b) as (v & Ev & Lv & Pv); [lia..|].
      destruct (every_second_spec d 1 b) as (w & Ew & Lw & Pw); [lia..|].
      assert (Pf : profile (2 * d) b) by (apply inside_profile; auto; lia).
      unfold single_enum_cost_lower, single_enum_cost_upper in E. rewrite Ev, Ew in E. cbn [obind] in E.
      destruct (single_enum_cost_evec fresh ball sym n d sh v det) as [[l dl]|] eqn:E1; [|discriminate]. cbn [obind snd fst] in E.
      destruct (single_enum_cost_evec fresh ball sym n d sh w dl) as [[u du]|] eqn:E2; [|discriminate]. cbn [obind snd fst] in E.
      injection E as <- <-.
      apply evec_floor in E1; [|apply (half_profile d 0 b); auto|rewrite Pv by lia; apply I; lia].
      apply evec_floor in E2; [|apply (half_profile d 1 b); auto|rewrite Pw by lia; apply I; lia]. lra.
  Qed.

  (** *** The cost the optimiser minimises has a positive lower bound, for both lengths *)
  Theorem target_function_floor mt preproc target dn : 0 <= preproc -> dn = d \/ dn = n ->
    0 < first_level /\ cost_floor (target_function dx fresh ball sym n d sh mt preproc target) lo first_level dn.
  Proof.
    intros Hp D. pose proof first_level_pos as FP. split; auto. intros b c Lb I E.
    destruct (single_enum_cost fresh ball sym n d sh b []) as [[t dt]|] eqn:Ec.
    - assert (first_level <= t) by (apply (single_floor b [] t dt); auto; lia).
      pose proof (target_function_at_least_one dx fresh ball sym d n sh mt preproc target b t dt c ltac:(lra) Hp Ec E). lra.
    - exfalso. unfold target_function in E. rewrite Ec in E. destruct mt.
      + destruct (svp_probability dx fresh d b) as [p|]; [|discriminate]. cbn [obind] in E. destruct (trials_for target p); discriminate.
      + destruct (expected_solutions fresh ball sym d sh b) as [p|]; [|discriminate]. cbn [obind] in E.
        destruct (Req_EM_T p 0); discriminate.
  Qed.

  (** *** In even dimension single_enum_cost fills detailed_cost with positive numbers *)
  Theorem single_enum_cost_details b det c det' : n = (2 * d)%nat -> length b = n -> inside lo b ->
    single_enum_cost fresh ball sym n d sh b det = Some (c, det') ->
    length det' = n /\ forall i, (i < n)%nat -> 0 < nth i det' 0.
  Proof.
    intros Hn2 L I E. pose proof sizes as (Hd & Hn & _). unfold single_enum_cost in E.
    replace (length b =? d)%nat with false in E by (symmetry; apply Nat.eqb_neq; lia).
    destruct (every_second_spec d 0 b) as (v & Ev & Lv & Pv); [lia..|].
    destruct (every_second_spec d 1 b) as (w & Ew & Lw & Pw); [lia..|].
    assert (Pf : profile (2 * d) b) by (apply inside_profile; auto; lia).
    unfold single_enum_cost_lower, single_enum_cost_upper in E. rewrite Ev, Ew in E. cbn [obind] in E.
    destruct (single_enum_cost_evec fresh ball sym n d sh v det) as [[l dl]|] eqn:E1; [|discriminate]. cbn [obind snd fst] in E.
    assert (Qw : profile d w) by (apply (half_profile d 1 b); auto).
    destruct (cost_spec fresh fresh_len ball sym n d sh CS w dl Qw) as (u & du & E2 & L2 & D2 & _). rewrite E2 in E. cbn [obind snd fst] in E.
    injection E as <- <-. split; auto. intros i Hi. change (nth i du 0) with (en du i).
    replace i with (2 * d - S (2 * d - S i))%nat by lia. rewrite D2 by lia.
    apply Rmult_lt_0_compat; [apply (full_level_pos ball sym d sh CP); lia|apply (width_pos fresh fresh_len d); auto; lia].
  Qed.

  (** the node count of greedy can be computed *)
  Theorem greedy_nodes_total j b : (j < 2 * d)%nat -> length b = d -> exists v, greedy_nodes fresh ball sym sh j b = Some v.
  Proof.
    intros Hj L. pose proof CS as (Hd & Hn & Hb & Hi). unfold greedy_nodes.
    assert ((j + 1) / 2 <= d)%nat by (apply Nat.div_le_upper_bound; lia).
    assert (j / 2 < d)%nat by (apply Nat.div_lt_upper_bound; lia).
    rewrite relative_volume_is by (auto; lia). cbn [obind]. rewrite !nth_error_atR by lia. cbn [obind]. eauto.
  Qed.

  (** *** In even dimension, without PRUNER_SINGLE, the optimisation terminates for every basis shape
      and radius, and the coefficients it returns are a non-increasing vector that starts with one *)
  Theorem pruner_optimize_terminates mt preproc target fl mins0 pr : n = (2 * d)%nat -> lo <= 1 / 10000 -> 0 <= preproc ->
    f_single fl = false -> (f_input fl = true -> falling lo n pr) ->
    does (fun pr' => falling lo n pr' /\ nth 0 pr' 0 = 1)
      (fun fu => optimize_coefficients n d (target_function dx fresh ball sym n d sh mt preproc target)
         (measure_metric dx fresh ball sym d sh mt) (single_enum_cost fresh ball sym n d sh) target
         (fun fu pp => greedy_profile n d (greedy_nodes fresh ball sym sh) pp fu) fl preproc fu mins0 pr).
  Proof.
    intros Hn2 Hl Hp Hs Fp. pose proof sizes as (Hd & Hn & _).
    destruct (target_function_floor mt preproc target n Hp ltac:(auto)) as (FP & Ff).
    destruct (target_function_floor mt preproc target d Hp ltac:(auto)) as (_ & Fh).
    apply (optimize_terminates n d lo first_level); auto; try lia.
    - rewrite Hn2, Nat.mul_comm, Nat.div_mul by lia. reflexivity.
    - intros b det c det' L I _ E. exact (single_enum_cost_details b det c det' Hn2 L I E).
    - intros j b Hj L _. apply greedy_nodes_total; auto.
  Qed.
End Real.

(** ** A small basis: Z^4, radius 1 *)
Definition ones4 : list R := [1; 1; 1; 1].
Lemma ones4_pos : length ones4 = 4%nat /\ pos_list ones4.
Proof. split; [reflexivity|]. intros i H. simpl in H. destruct i as [|[|[|[|i]]]]; cbn; try lra; lia. Qed.
Lemma ones4_sizes : (0 < 2)%nat /\ (2 * 2 <= 4)%nat /\ (4 < length ball_table)%nat.
Proof. simpl. lia. Qed.
Lemma ones4_positive : 0 < 1 / 2 /\ 0 < 1 /\ (forall i, (i <= 4)%nat -> 0 < en ball_table i).
Proof. split; [lra|]. split; [lra|]. intros i Hi. apply table_pos. lia. Qed.
Lemma ones4_shape : exists sh, load_basis_shape 4 2 1 ones4 true no_shape = Some sh.
Proof.
  destruct (load_basis_shape_exact 4 2 1 ones4 no_shape) as (sh & E & _); try lia; try lra; try apply ones4_pos. eauto.
Qed.
(** expected number of points (up to sign) in the ball: half of its volume *)
Definition c4 : R := 4934802 / 2000000.
Section Small.
  Variable dx : R.
  Variable sh : shape.
  Hypothesis E : load_basis_shape 4 2 1 ones4 true no_shape = Some sh.
  Notation M := (measure_metric dx zeros ball_table (1 / 2) 2 sh Solutions).

  Lemma half_metric x y : 0 < x <= y -> expected_solutions_evec zeros ball_table (1 / 2) 2 sh [x; y] = Some (c4 * (2 * x * y - x * x)).
  Proof.
    intros H. rewrite (expected_value zeros zeros_len ball_table (1 / 2) 4 2 ones4 1 sh no_shape ones4_sizes ones4_positive ones4_pos E).
    - f_equal. unfold ball_points, block_vol, rprod, part, ones4, ball_table, en, c4. cbn [length Nat.sub Nat.mul Nat.add skipn map fold_right nth firstn].
      rewrite vol2, sqrt_1. cbn [pow fact Nat.mul Nat.add INR]. field.
    - reflexivity.
    - split; [cbn; lia|]. unfold en. split; intros [|[|i]] Hi; cbn; try lra; lia.
  Qed.
  Lemma small_metric a b c d : 0 < a <= b -> b <= c -> c <= d ->
    M [a; b; c; d] = Some ((c4 * (2 * a * c - a * a) + c4 * (2 * b * d - b * b)) / 2).
  Proof.
    intros A B C. unfold measure_metric, expected_solutions. cbn [length Nat.eqb].
    unfold expected_solutions_lower, expected_solutions_upper.
    replace (every_second 2 0 [a; b; c; d]) with (Some [a; c]) by reflexivity.
    replace (every_second 2 1 [a; b; c; d]) with (Some [b; d]) by reflexivity. cbn [obind].
    rewrite !half_metric by lra. reflexivity.
  Qed.

  (** *** local_adjust_prob: two vectors that are one step apart, the metric of one below and that
      of the other above the target by more than five percent *)
  Definition e4 : R := 1 / 10000.
  Definition low4 : list R := [e4; e4; e4; 1].
  Definition low4' : list R := [e4; e4; e4; 9999 / 10000].
  Definition high4 : list R := [2 * e4; 2 * e4; 2 * e4; 1].
  Definition goal4 : R := 3 / 2 * c4 * e4.

  Lemma list4 (a b c d a' b' c' d' : R) : a = a' -> b = b' -> c = c' -> d = d' -> [a; b; c; d] = [a'; b'; c'; d'].
  Proof. congruence. Qed.
  Lemma four_proper (a d : R) : 0 <= a <= d -> d <= 1 -> 999 / 1000 <= d -> proper 0 [0; 0] [a; a; a; d].
  Proof.
    intros A B C. split; [split|split].
    - intros [|[|[|[|i]]]] [|[|[|[|k]]]] H; cbn in *; try lra; lia.
    - intros [|[|[|[|i]]]] H; cbn in *; try lra; lia.
    - intros [|[|[|[|i]]]] H; cbn in *; intros; try lra; lia.
    - right. cbn. lra.
  Qed.
  Lemma four_same a d : 0 <= a <= d -> d <= 1 -> 999 / 1000 <= d -> enforce 2 [0; 0] [a; a; a; d] 0 = Some ([a; a; a; d], false).
  Proof. intros A B C. apply (enforce_proper_same 0 [0; 0]); [cbn; lia|apply four_proper; auto]. Qed.

  Lemma ratio4 q : q * c4 * e4 / goal4 = q * (2 / 3).
  Proof. unfold goal4, c4, e4. field. Qed.

  Lemma up_turn (x : R) fu : 9999 / 10000 <= x <= 1 ->
    adjust_turn 2 M goal4 [0; 0] 4 fu [e4; e4; e4; x] = Ret (inl high4).
  Proof.
    intros Hx. unfold adjust_turn.
    assert (Em : M [e4; e4; e4; x] = Some (x * c4 * e4)).
    { rewrite small_metric by (unfold e4; lra). f_equal. unfold e4. field. }
    rewrite Em. cbn [call obnd]. rewrite ratio4.
    replace (rlt (x * (2 / 3)) (105 / 100)) with true by (symmetry; apply rlt_true; lra).
    replace (rlt (95 / 100) (x * (2 / 3))) with false by (symmetry; apply rlt_false; lra). cbn [andb].
    replace (rlt (x * (2 / 3)) 1) with true by (symmetry; apply rlt_true; lra).
    cbn [seq collect nth_error ub obnd]. rewrite !move_up_min.
    replace [Rmin 1 (e4 + minstep); Rmin 1 (e4 + minstep); Rmin 1 (e4 + minstep); Rmin 1 (x + minstep)] with high4
      by (unfold high4, minstep, e4; rewrite Rmin_right, Rmin_left by lra; apply list4; lra).
    unfold enf, high4. rewrite four_same by (unfold e4; lra). cbn [ub obnd fst].
    unfold unchanged. cbn [length seq forallb nth]. destruct (Req_EM_T (2 * e4) e4) as [X|X]; [unfold e4 in X; lra|]. reflexivity.
  Qed.
  Lemma down_turn fu : adjust_turn 2 M goal4 [0; 0] 4 fu high4 = Ret (inl low4').
  Proof.
    unfold adjust_turn.
    assert (Em : M high4 = Some (2 * c4 * e4)).
    { unfold high4. rewrite small_metric by (unfold e4; lra). f_equal. unfold e4. field. }
    rewrite Em. cbn [call obnd]. rewrite ratio4.
    replace (rlt (2 * (2 / 3)) (105 / 100)) with false by (symmetry; apply rlt_false; lra). cbn [andb].
    replace (rlt (2 * (2 / 3)) 1) with false by (symmetry; apply rlt_false; lra).
    unfold high4 at 1. cbn [seq collect nth_error ub obnd]. rewrite !move_down_max.
    replace [Rmax (1 / 10000) (2 * e4 - minstep); Rmax (1 / 10000) (2 * e4 - minstep); Rmax (1 / 10000) (2 * e4 - minstep); Rmax (1 / 10000) (1 - minstep)] with low4'
      by (unfold low4', minstep, e4; rewrite !Rmax_right by lra; apply list4; lra).
    unfold enf, low4'. rewrite four_same by (unfold e4; lra). cbn [ub obnd fst].
    unfold unchanged, high4. cbn [length seq forallb nth]. destruct (Req_EM_T e4 (2 * e4)) as [X|X]; [unfold e4 in X; lra|]. reflexivity.
  Qed.
  Lemma never fuel : wloop (adjust_turn 2 M goal4 [0; 0] 4) fuel low4' = Fuel /\ wloop (adjust_turn 2 M goal4 [0; 0] 4) fuel high4 = Fuel.
  Proof.
    induction fuel as [|fuel (IH1 & IH2)]; [split; reflexivity|]. split; cbn [wloop].
    - unfold low4'. rewrite up_turn by lra. cbn [obnd]. exact IH2.
    - rewrite down_turn. cbn [obnd]. exact IH1.
  Qed.
End Small.

(** *** optimize_coefficients_local_adjust_prob need not terminate: Z^4, radius 1, expected solutions,
    minimal coefficients zero, target 0.00037: it goes back and forth between two vectors for ever *)
Theorem local_adjust_prob_terminates_refuted : exists sh target pr,
  load_basis_shape 4 2 1 ones4 true no_shape = Some sh /\ 0 < target /\ falling e4 4 pr /\
  forall fuel, local_adjust_prob 4 2 (measure_metric (995 / 1000) zeros ball_table (1 / 2) 2 sh Solutions) target [0; 0] fuel pr = Fuel.
Proof.
  destruct ones4_shape as (sh & E). exists sh, goal4, [1; e4; e4; e4]. split; [exact E|].
  split; [unfold goal4, c4, e4; lra|]. split.
  { split; [reflexivity|]. split; [intros [|[|[|[|i]]]] [|[|[|[|k]]]] H; cbn in *; unfold e4; try lra; lia|].
    intros [|[|[|[|i]]]] H; cbn in *; unfold e4; try lra; lia. }
  intros fuel. unfold local_adjust_prob. cbn [length].
  replace (load_profile 4 2 4 [1; e4; e4; e4]) with (Some low4) by reflexivity. cbn [ub obnd].
  destruct fuel as [|fuel]; [reflexivity|]. cbn [wloop]. unfold low4. rewrite up_turn by (auto; lra). cbn [obnd].
  rewrite (proj2 (never (995 / 1000) sh E fuel)). reflexivity.
Qed.

(** ** Minimal coefficients *)
Lemma small_nodes sh x : load_basis_shape 4 2 1 ones4 true no_shape = Some sh -> 0 < x ->
  greedy_nodes zeros ball_table (1 / 2) sh 1 [x; 1] = Some (3141592 / 2000000 * x).
Proof.
  intros E Hx.
  pose proof (cost_sizes ball_table (1/2) 4 2 ones4 1 sh no_shape ones4_sizes ones4_positive ones4_pos E) as (_ & _ & _ & Li).
  destruct (load_basis_shape_exact 4 2 1 ones4 no_shape) as (sh1 & E1 & _ & _ & X & _); try lia; try lra; try apply ones4_pos.
  rewrite E in E1. injection E1 as <-. destruct (X 2%nat ltac:(lia)) as (_ & X2). cbn [Nat.sub] in X2.
  unfold greedy_nodes. change ((1 + 1) / 2)%nat with 1%nat. change (1 / 2)%nat with 0%nat.
  rewrite relative_volume_is by (cbn; lia). rewrite (nth_error_nth' (sh_ipv sh) 0) by lia. cbn [obind nth_error Nat.add ball_table].
  change (nth 1 (sh_ipv sh) 0) with (en (sh_ipv sh) 1). f_equal.
  unfold ratios. cbn [firstn map nth Nat.sub fact INR Nat.mul Nat.add]. rewrite vol1.
  rewrite Rpow_mult_distr. replace (sqrt x ^ 2) with x by (cbn [pow]; rewrite Rmult_1_r, sqrt_sqrt; lra).
  replace (x / x) with 1 by (field; lra).
  unfold block_vol, rprod, ones4 in X2. cbn [length Nat.sub skipn map fold_right] in X2. rewrite sqrt_1 in X2.
  replace (1 ^ 2 / (1 * (1 * 1))) with 1 in X2 by field.
  transitivity (3141592 / 2000000 * x * (en (sh_ipv sh) 1 * sh_nr sh ^ 2)); [field|]. rewrite X2. ring.
Qed.
Lemma small_greedy sh pp fuel : load_basis_shape 4 2 1 ones4 true no_shape = Some sh -> 100 <= pp -> (2 <= fuel)%nat ->
  greedy_profile 4 2 (greedy_nodes zeros ball_table (1 / 2) sh) pp fuel = Ret [98 / 100; 1].
Proof.
  intros E Hp Hf. destruct fuel as [|[|fuel]]; [lia|lia|]. unfold greedy_profile. cbn [Nat.sub seq each repeat].
  unfold gstep. cbn [Nat.ltb Nat.leb obnd Nat.mul Nat.add wloop]. unfold gshrink at 1. change (1 / 2)%nat with 0%nat.
  cbn [nth_error ub obnd]. change (goal_parabola (Z.of_nat 4) (Z.of_nat 1)) with 0%Z.
  assert (G : 1 / (3 * INR 4) + 0 = 1 / 12) by (cbn [INR]; field). rewrite G.
  replace (rlt (1 / 12 * pp) (1 + 10000000000 * pp)) with true by (symmetry; apply rlt_true; lra).
  replace (rlt (1 / 1000) 1) with true by (symmetry; apply rlt_true; lra). cbn [andb].
  replace (vset [1; 1] 0 (1 * (98 / 100))) with (Some [98 / 100; 1]) by (unfold vset; cbn; do 2 f_equal; lra). cbn [ub obnd].
  replace (gcap 0 [98 / 100; 1]) with (Some [98 / 100; 1]) by reflexivity. cbn [ub obnd].
  rewrite small_nodes by (auto; lra). cbn [ub obnd].
  unfold gshrink. change (1 / 2)%nat with 0%nat. cbn [nth_error ub obnd]. change (goal_parabola (Z.of_nat 4) (Z.of_nat 1)) with 0%Z. rewrite G.
  replace (rlt (1 / 12 * pp) (3141592 / 2000000 * (98 / 100))) with false by (symmetry; apply rlt_false; lra). reflexivity.
Qed.

(** *** "Otherwise, reduce it further. This is important since otherwise one may never achieve the
    target probability": with PRUNER_SINGLE, where the target is to be met, the minimal coefficients
    are not reduced.  Z^4, radius 1, target 1/100: every vector above them has a metric of more than 2 *)
Theorem minimal_coefficients_reach_target_refuted : exists sh target,
  load_basis_shape 4 2 1 ones4 true no_shape = Some sh /\ target = 1 / 100 /\
  forall fuel mins0 pr0, (2 <= fuel)%nat ->
  let M := measure_metric (995 / 1000) zeros ball_table (1 / 2) 2 sh Solutions in
  exists mins pr, preparation 4 2 M (single_enum_cost zeros ball_table (1 / 2) 4 2 sh) target
      (fun fu pp => greedy_profile 4 2 (greedy_nodes zeros ball_table (1 / 2) sh) pp fu)
      (Flags false true false false true) 10000 fuel mins0 pr0 = Ret (mins, pr) /\
    forall lo b p, 0 < lo -> length b = 4%nat -> inside lo b -> above mins b -> M b = Some p -> 200 * target < p.
Proof.
  destruct ones4_shape as (sh & E). exists sh, (1 / 100). split; [exact E|]. split; [reflexivity|].
  intros fuel mins0 pr0 Hf M. unfold preparation. cbn [f_input f_gradient f_nelder f_single orb].
  rewrite (small_greedy sh 10000) by (auto; lra). cbn [obnd].
  rewrite (small_greedy sh (10000 * (1 / 10))) by (auto; lra). cbn [obnd].
  destruct (save_falling 4 2 (98 / 100) ltac:(lia) eq_refl ltac:(lra) pr0 [98 / 100; 1]) as (pr & Ep & _).
  { left. reflexivity. }
  { split; [intros [|[|i]] [|[|k]] H; cbn in *; try lra; lia|intros [|[|i]] H; cbn in *; try lra; lia]. }
  rewrite Ep. cbn [ub obnd]. exists [98 / 100; 1], pr. split; [reflexivity|].
  intros lo b p Hlo Lb (A & B) Ab Ep1. destruct b as [|x0 [|x1 [|x2 [|x3 [|x4 b]]]]]; try discriminate.
  pose proof (A 0%nat 1%nat ltac:(cbn; lia)) as A0. pose proof (A 1%nat 2%nat ltac:(cbn; lia)) as A1.
  pose proof (A 2%nat 3%nat ltac:(cbn; lia)) as A2. pose proof (B 0%nat ltac:(cbn; lia)) as B0. pose proof (B 3%nat ltac:(cbn; lia)) as B3.
  pose proof (Ab 0%nat ltac:(cbn; lia) ltac:(cbn; lia)) as M0. pose proof (Ab 1%nat ltac:(cbn; lia) ltac:(cbn; lia)) as M1.
  cbn in A0, A1, A2, B0, B3, M0, M1.
  unfold M in Ep1. rewrite small_metric in Ep1 by (auto; lra). injection Ep1 as <-. unfold c4.
  assert (Q : forall x y, 98 / 100 <= x -> x <= y -> 9604 / 10000 <= 2 * x * y - x * x) by (intros; nra).
  pose proof (Q x0 x2 ltac:(lra) ltac:(lra)). pose proof (Q x1 x3 ltac:(lra) ltac:(lra)). lra.
Qed.

(** ** Smoothing *)
(** *** optimize_coefficients_local_adjust_smooth can go below the minimal coefficients *)
Theorem smooth_above_minima_refuted : exists mins pr pr' b b', minima (1 / 10) mins /\ falling (1 / 10) 4 pr /\
  load_profile 4 2 4 pr = Some b /\ proper (1 / 10) mins b /\
  local_adjust_smooth 4 2 pr = Ret pr' /\ load_profile 4 2 4 pr' = Some b' /\ inside (1 / 10) b' /\ ~ above mins b'.
Proof.
  exists [1 / 10; 9 / 10], [1; 9 / 10; 1 / 10; 1 / 10], [1; 3 / 4; 1 / 2; 1 / 10], [1 / 10; 1 / 10; 9 / 10; 1], [1 / 10; 1 / 2; 3 / 4; 1].
  split. { split; [lra|]. split; [cbn; lra|]. split; [cbn; lia|]. intros [|[|i]] H; cbn in *; try lra; lia. }
  split. { split; [reflexivity|]. split; [intros [|[|[|[|i]]]] [|[|[|[|k]]]] H; cbn in *; try lra; lia|].
    intros [|[|[|[|i]]]] H; cbn in *; try lra; lia. }
  split; [reflexivity|]. split.
  { split; [split|split].
    - intros [|[|[|[|i]]]] [|[|[|[|k]]]] H; cbn in *; try lra; lia.
    - intros [|[|[|[|i]]]] H; cbn in *; try lra; lia.
    - intros [|[|[|[|i]]]] H; cbn in *; intros; try lra; lia.
    - right. cbn. lra. }
  split.
  { unfold local_adjust_smooth. replace (load_profile 4 2 4 [1; 9 / 10; 1 / 10; 1 / 10]) with (Some [1 / 10; 1 / 10; 9 / 10; 1]) by reflexivity.
    cbn [ub obnd Nat.sub seq each].
    assert (I4 : 1 / INR 4 = 1 / 4) by (cbn [INR]; field).
    unfold smooth_at at 1. cbn [Nat.sub nth_error ub obnd]. rewrite I4.
    assert (Q1 : sqrt (1 / 10 * (9 / 10)) = 3 / 10) by (replace (1 / 10 * (9 / 10)) with ((3 / 10) * (3 / 10)) by lra; apply sqrt_square; lra).
    replace (9 / 10 / (1 / 10) / (1 / 10 / (1 / 10))) with 9 by field.
    replace (rlt (125 / 100) 9) with true by (symmetry; apply rlt_true; lra). cbn [orb]. rewrite Q1.
    replace (rlt (1 / 4) (9 / 10 - 3 / 10)) with true by (symmetry; apply rlt_true; lra). cbn [orb].
    replace (vset [1 / 10; 1 / 10; 9 / 10; 1] 1 ((1 / 10 + 9 / 10) / 2)) with (Some [1 / 10; 1 / 2; 9 / 10; 1])
      by (unfold vset; cbn; f_equal; apply list4; lra). cbn [ub obnd].
    unfold smooth_at. cbn [Nat.sub nth_error ub obnd]. rewrite I4.
    replace (1 / (9 / 10) / (9 / 10 / (1 / 2))) with (50 / 81) by field.
    replace (rlt (50 / 81) (8 / 10)) with true by (symmetry; apply rlt_true; lra). rewrite orb_true_r.
    assert (Q2 : sqrt (1 / 2 * 1) < 3 / 4).
    { replace (3 / 4) with (sqrt (3 / 4 * (3 / 4))) by (apply sqrt_square; lra). apply sqrt_lt_1; lra. }
    replace (rlt (1 / 4) (1 - sqrt (1 / 2 * 1))) with true by (symmetry; apply rlt_true; lra). cbn [orb].
    replace (vset [1 / 10; 1 / 2; 9 / 10; 1] 2 ((1 / 2 + 1) / 2)) with (Some [1 / 10; 1 / 2; 3 / 4; 1])
      by (unfold vset; cbn; f_equal; apply list4; lra). reflexivity. }
  split; [reflexivity|]. split.
  { split; [intros [|[|[|[|i]]]] [|[|[|[|k]]]] H; cbn in *; try lra; lia|intros [|[|[|[|i]]]] H; cbn in *; try lra; lia]. }
  intros Ab. specialize (Ab 2%nat ltac:(cbn; lia)). cbn in Ab. specialize (Ab ltac:(lia)). lra.
Qed.

(** ** Cases *)

Definition mins4 : list R := [1 / 2; 3 / 4].
Definition pr4 : list R := [1; 1; 3 / 4; 1 / 2].
Lemma mins4_minima : minima (1 / 2) mins4.
Proof. split; [lra|]. split; [cbn; lra|]. split; [cbn; lia|]. intros [|[|i]] H; cbn in *; try lra; lia. Qed.
Lemma pr4_falling : falling (1 / 2) 4 pr4.
Proof.
  split; [reflexivity|]. split; [intros [|[|[|[|i]]]] [|[|[|[|k]]]] H; cbn in *; try lra; lia|].
  intros [|[|[|[|i]]]] H; cbn in *; try lra; lia.
Qed.
(** enforce on a vector that is neither ordered nor within the bounds *)
Example enforce_case : exists b' st, enforce 2 mins4 [2; 1 / 4; 3 / 4; 1 / 10] 0 = Some (b', st) /\ proper (1 / 2) mins4 b'.
Proof. destruct (enforce_proper (1 / 2) mins4 [2; 1 / 4; 3 / 4; 1 / 10]) as (b' & st & E & _ & P); [apply mins4_minima|cbn; lia|eauto]. Qed.
Example min_max_case : min_max [2; 1; 3 / 2] = (1%nat, 2%nat).
Proof.
  unfold min_max. cbn [length Nat.sub seq fold_left fst snd nth].
  replace (rlt 1 2) with true by (symmetry; apply rlt_true; lra). cbn [nth].
  replace (rlt 1 1) with false by (symmetry; apply rlt_false; lra).
  replace (rlt (3 / 2) 1) with false by (symmetry; apply rlt_false; lra). cbn [nth].
  replace (rlt 1 (3 / 2)) with true by (symmetry; apply rlt_true; lra). reflexivity.
Qed.
(** a vector of ones cannot be raised; the least vector above the minimal coefficients cannot be
    lowered, its last entry is set back to one *)
Example stuck_case : stuck true mins4 [1; 1; 1; 1] /\ stuck false mins4 [1 / 2; 1 / 2; 3 / 4; 1].
Proof.
  assert (P : forall b, length b = 4%nat -> proper (1 / 2) mins4 b -> enforce (length mins4) mins4 b 0 = Some (b, false)).
  { intros b L Pb. apply (enforce_proper_same (1 / 2)); [lia|auto]. }
  split.
  - exists [1; 1; 1; 1]. split; [reflexivity|]. split; [intros [|[|[|[|i]]]] H; cbn in *; try lra; lia|].
    exists [1; 1; 1; 1], false. split; [reflexivity|]. split.
    + intros [|[|[|[|i]]]] H; cbn in *; try lia; rewrite Rmin_left; lra.
    + apply P; [reflexivity|]. split; [split|split].
      * intros [|[|[|[|i]]]] [|[|[|[|k]]]] H; cbn in *; try lra; lia.
      * intros [|[|[|[|i]]]] H; cbn in *; try lra; lia.
      * intros [|[|[|[|i]]]] H; cbn in *; intros; try lra; lia.
      * right. cbn. lra.
  - exists [1 / 4; 1 / 4; 1 / 2; 1 / 2]. split; [reflexivity|]. split; [intros [|[|[|[|i]]]] H; cbn in *; try lra; lia|].
    exists [1 / 4; 1 / 4; 1 / 4; 1 / 2], true. split; [reflexivity|]. split.
    + intros [|[|[|[|i]]]] H; cbn in *; try lia; rewrite Rmax_right; lra.
    + unfold enforce, mins4. cbn [length Nat.eqb osub Nat.leb Nat.sub obind nth_error seq Nat.min rev].
      replace (rlt (1 / 2) (999 / 1000)) with true by (symmetry; apply rlt_true; lra). cbn [andb negb].
      unfold vset at 1. cbn [length Nat.ltb Nat.leb upd obind ofor].
      unfold eclip, eraise.
      repeat (cbn [length Nat.ltb Nat.leb upd obind ofor app nth_error orb Nat.div Nat.divmod fst snd]; unfold vset;
        match goal with
        | |- context [rlt ?x ?y] => lazymatch constr:((x, y)) with context [if _ then _ else _] => fail | _ =>
            let R := fresh in destruct (rlt x y) eqn:R; [apply rlt_true in R|apply rlt_false in R]; try (exfalso; lra) end
        | |- context [rle ?x ?y] => lazymatch constr:((x, y)) with context [if _ then _ else _] => fail | _ =>
            let R := fresh in destruct (rle x y) eqn:R; [apply rle_true in R|apply rle_false in R]; try (exfalso; lra) end
        end).
      all: reflexivity.
Qed.

(** the optimisers on Z^4 with radius 1, expected solutions, preprocessing cost 10 and target 9/10 *)
Definition cost4 (sh : shape) : list R -> option R := target_function (995 / 1000) zeros ball_table (1 / 2) 4 2 sh Solutions 10 (9 / 10).
Definition sc4 (sh : shape) : list R -> list R -> option (R * list R) := single_enum_cost zeros ball_table (1 / 2) 4 2 sh.
Definition metric4 (sh : shape) : list R -> option R := measure_metric (995 / 1000) zeros ball_table (1 / 2) 2 sh Solutions.

Lemma cost4_floor sh lo : load_basis_shape 4 2 1 ones4 true no_shape = Some sh -> 0 < lo ->
  exists m, 0 < m /\ cost_floor (cost4 sh) lo m 4 /\ cost_floor (cost4 sh) lo m 2.
Proof.
  intros E Hl. exists (first_level ball_table (1 / 2) sh lo).
  destruct (target_function_floor (995 / 1000) zeros zeros_len ball_table (1 / 2) 4 2 ones4 1 sh no_shape ones4_sizes ones4_positive ones4_pos E
    lo Hl Solutions 10 (9 / 10) 4 ltac:(lra) ltac:(auto)) as (A & B).
  destruct (target_function_floor (995 / 1000) zeros zeros_len ball_table (1 / 2) 4 2 ones4 1 sh no_shape ones4_sizes ones4_positive ones4_pos E
    lo Hl Solutions 10 (9 / 10) 2 ltac:(lra) ltac:(auto)) as (_ & C). auto.
Qed.
Lemma sc4_details sh lo : load_basis_shape 4 2 1 ones4 true no_shape = Some sh -> 0 < lo ->
  forall b det c det', length b = 4%nat -> inside lo b -> length det = 4%nat -> sc4 sh b det = Some (c, det') ->
    length det' = 4%nat /\ forall i, (i < 4)%nat -> 0 < nth i det' 0.
Proof.
  intros E Hl b det c det' L I _ Es.
  exact (single_enum_cost_details zeros zeros_len ball_table (1 / 2) 4 2 ones4 1 sh no_shape ones4_sizes ones4_positive ones4_pos E lo Hl b det c det' eq_refl L I Es).
Qed.
(** costs are finite *)
Lemma cost4_value sh x y : load_basis_shape 4 2 1 ones4 true no_shape = Some sh -> 0 < x <= y -> exists c, cost4 sh [x; y] = Some c.
Proof.
  intros E H. unfold cost4, target_function. unfold expected_solutions. cbn [length Nat.eqb]. rewrite half_metric by auto. cbn [obind].
  assert (0 < c4 * (2 * x * y - x * x)) by (unfold c4; nra).
  destruct (Req_EM_T (c4 * (2 * x * y - x * x)) 0) as [Z|_]; [lra|]. cbn [obind].
  destruct (cost_spec zeros zeros_len ball_table (1 / 2) 4 2 sh (cost_sizes ball_table (1/2) 4 2 ones4 1 sh no_shape ones4_sizes ones4_positive ones4_pos E) [x; y] [])
    as (t & dt & Et & _).
  { split; [cbn; lia|]. unfold en. split; intros [|[|i]] Hi; cbn; try lra; lia. }
  unfold single_enum_cost. cbn [length Nat.eqb]. rewrite Et. cbn [obind fst]. eauto.
Qed.

(** the descents, from the vector (3/4, 1) *)
Example descents_case : exists sh, load_basis_shape 4 2 1 ones4 true no_shape = Some sh /\
  (exists c, cost4 sh [3 / 4; 1] = Some c) /\
  does (fun r => better (cost4 sh) (1 / 2) mins4 2 [3 / 4; 1] (snd r)) (fun fu => gradient_descent_step 2 (cost4 sh) mins4 fu (/ 2 ^ 7) (/ 2 ^ 6) [3 / 4; 1]) /\
  does (better (cost4 sh) (1 / 2) mins4 2 [3 / 4; 1]) (fun fu => gradient_descent 2 (cost4 sh) mins4 fu [3 / 4; 1]) /\
  does (nm_result (cost4 sh) (1 / 2) mins4 2 [3 / 4; 1]) (fun fu => nelder_mead_step 2 (cost4 sh) mins4 fu [3 / 4; 1]) /\
  does (nm_better (cost4 sh) (1 / 2) mins4 2 [3 / 4; 1]) (fun fu => nelder_mead 2 (cost4 sh) mins4 fu [3 / 4; 1]).
Proof.
  destruct ones4_shape as (sh & E). exists sh. split; [exact E|]. destruct (cost4_floor sh (1 / 2) E ltac:(lra)) as (m & Hm & _ & Fh).
  assert (I : inside (1 / 2) [3 / 4; 1]) by (split; [intros [|[|i]] [|[|k]] H; cbn in *; try lra; lia|intros [|[|i]] H; cbn in *; try lra; lia]).
  split; [apply cost4_value; auto; lra|]. split.
  { eapply does_weak; [apply (gradient_descent_step_cost (cost4 sh) (1 / 2) mins4 2); auto; [apply mins4_minima|apply Rinv_0_lt_compat, pow_lt; lra]|].
    intros r (A & _). exact A. }
  split; [apply (gradient_descent_terminates (cost4 sh) (1 / 2) m mins4 2); auto; apply mins4_minima|].
  split; [apply (nelder_mead_step_cost (cost4 sh) (1 / 2) m mins4 2); auto; apply mins4_minima|].
  apply (nelder_mead_terminates (cost4 sh) (1 / 2) m mins4 2); auto; apply mins4_minima.
Qed.

(** cores, local adjustments and the whole, from the profile (1, 1, 3/4, 1/2) *)
Example adjustments_case : exists sh, load_basis_shape 4 2 1 ones4 true no_shape = Some sh /\
  does (fun pr' => falling (1 / 2) 4 pr' /\ nth 0 pr' 0 = 1) (fun fu => core 4 2 (cost4 sh) mins4 true true 4 fu pr4) /\
  does (fun pr' => exists b' c' c, load_profile 4 2 2 pr' = Some b' /\ cost4 sh b' = Some c' /\ cost4 sh [1 / 2; 1] = Some c /\ c' <= c)
    (fun fu => core 4 2 (cost4 sh) mins4 true true 2 fu pr4) /\
  does (falling (1 / 2) 4) (fun fu => local_adjust_decr_single 4 2 (cost4 sh) (sc4 sh) fu pr4) /\
  does (falling (1 / 2) 4) (fun fu => local_adjust_incr_prob 4 2 (cost4 sh) (sc4 sh) fu pr4) /\
  fine (falling (1 / 2) 4) (local_adjust_smooth 4 2 pr4) /\
  does (falling (1 / 2) 4) (fun fu => vary_prob 4 2 (cost4 sh) (sc4 sh) (Flags true true true false false) mins4 fu pr4) /\
  does (falling (1 / 2) 4) (fun fu => change_prob 4 2 (metric4 sh) (sc4 sh) (1 / 10) mins4 false fu pr4).
Proof.
  destruct ones4_shape as (sh & E). exists sh. split; [exact E|]. destruct (cost4_floor sh (1 / 2) E ltac:(lra)) as (m & Hm & Ff & Fh).
  pose proof mins4_minima as Mm. pose proof pr4_falling as Fp.
  split; [apply (core_terminates 4 2 (1 / 2) m); auto; lra || lia|]. split.
  { destruct (cost4_value sh (1 / 2) 1 E ltac:(lra)) as (c & Ec).
    eapply does_weak; [apply (core_half_cost 4 2 (1 / 2) m (cost4 sh)) with (b := [1 / 2; 1]) (c := c); auto; try lra; try lia|].
    - split; [split|split].
      + intros [|[|i]] [|[|k]] H; cbn in *; try lra; lia.
      + intros [|[|i]] H; cbn in *; try lra; lia.
      + intros [|[|i]] H; cbn in *; intros; try lra; lia.
      + right. cbn. lra.
    - intros pr' (b' & c' & A & B & C). exists b', c', c. auto. }
  split. { eapply does_weak; [apply (decr_single_terminates 4 2 (1 / 2) m); auto; lra || lia|]. intros x (A & _). exact A. }
  split. { eapply does_weak; [apply (incr_prob_terminates 4 2 (1 / 2)); auto; lra || lia|]. intros x (A & _). exact A. }
  split. { eapply fine_weak; [apply (smooth_falling 4 2 (1 / 2)); auto; lra || lia|]. intros x (A & _). exact A. }
  split. { eapply does_weak; [apply (vary_prob_terminates 4 2 (1 / 2) m); auto; lra || lia|]. intros x (A & _). exact A. }
  eapply does_weak; [apply (change_prob_terminates 4 2 (1 / 2)); auto; [apply minima_allowed; auto|apply sc4_details; auto; lra]|]. intros x (A & _). exact A.
Qed.

(** local_adjust_prob returns when the metric is near the target *)
Example adjust_prob_case : exists sh p pr', load_basis_shape 4 2 1 ones4 true no_shape = Some sh /\ 0 < p /\
  local_adjust_prob 4 2 (metric4 sh) p mins4 1 pr4 = Ret pr' /\ falling (1 / 2) 4 pr'.
Proof.
  destruct ones4_shape as (sh & E).
  exists sh, ((c4 * (2 * (1 / 2) * 1 - 1 / 2 * (1 / 2)) + c4 * (2 * (3 / 4) * 1 - 3 / 4 * (3 / 4))) / 2).
  set (p := (_ + _) / 2). assert (Hp : 0 < p) by (unfold p, c4; lra). exists [1; 1; 3 / 4; 1 / 2].
  assert (R : local_adjust_prob 4 2 (metric4 sh) p mins4 1 pr4 = Ret [1; 1; 3 / 4; 1 / 2]).
  { unfold local_adjust_prob, pr4. cbn [length]. replace (load_profile 4 2 4 [1; 1; 3 / 4; 1 / 2]) with (Some [1 / 2; 3 / 4; 1; 1]) by reflexivity.
    cbn [ub obnd wloop]. unfold adjust_turn. unfold metric4 at 1. rewrite (small_metric (995 / 1000) sh E) by lra. fold p. cbn [call obnd].
    replace (p / p) with 1 by (field; lra). replace (rlt 1 (105 / 100)) with true by (symmetry; apply rlt_true; lra).
    replace (rlt (95 / 100) 1) with true by (symmetry; apply rlt_true; lra). reflexivity. }
  split; [exact E|]. split; [exact Hp|]. split; [exact R|].
  apply (local_adjust_prob_result 4 2 (1 / 2) (metric4 sh) p mins4 ltac:(lia) eq_refl eq_refl (minima_allowed _ _ mins4_minima) 1 pr4 _ pr4_falling R).
Qed.

(** the whole optimisation of Z^4 with gradient descent and Nelder-Mead, from greedy *)
Example optimize_case : exists sh, load_basis_shape 4 2 1 ones4 true no_shape = Some sh /\
  does (fun pr' => falling (1 / 10000) 4 pr' /\ nth 0 pr' 0 = 1)
    (fun fu => optimize_coefficients 4 2 (cost4 sh) (metric4 sh) (sc4 sh) (9 / 10)
         (fun fu pp => greedy_profile 4 2 (greedy_nodes zeros ball_table (1 / 2) sh) pp fu) (Flags false true true false false) 10 fu [0; 0] []).
Proof.
  destruct ones4_shape as (sh & E). exists sh. split; [exact E|].
  apply (pruner_optimize_terminates (995 / 1000) zeros zeros_len ball_table (1 / 2) 4 2 ones4 1 sh no_shape ones4_sizes ones4_positive ones4_pos E
    (1 / 10000)); auto; try lra; discriminate.
Qed.

Print Assumptions pruner_optimize_terminates.
Print Assumptions local_adjust_prob_terminates_refuted.
Print Assumptions minimal_coefficients_reach_target_refuted.
Print Assumptions smooth_above_minima_refuted.
