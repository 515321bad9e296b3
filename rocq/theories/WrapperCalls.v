(** Proofs about the class Wrapper: chain of runs, number of calls, final status. *)
From Coq Require Import List ZArith Lia Arith Bool.
From Verif Require Import Util LatticeSpec NumVectModel NumVectProofs MatrixModel MatrixProofs GsoModel GsoProofs GsoHistory
  PropGso GsoFModel GsoFProofs GsoWeak LllModel LllProofs WrapperModel WrapperProofs.
Import ListNotations.
Local Open Scope nat_scope.

(** ** Specification: a chain of LLL runs *)
Section Chain.
Variables (fuel : nat) (early siegel : bool) (n : nat).
(** x is really an LLL run (model of lll(), any numerical behaviour [l_env x]) *)
Definition genuine (x : wlog) : Prop :=
  run_lll (l_env x) fuel early siegel (call_flags (c_meth (l_call x)) (c_prec (l_call x))) (l_er x)
          (l_b x) n (l_u x) (l_ui x) = Some (l_res x).
(** the first run starts from (b, u, ui), each next run from the result of the previous
    one, and (b', u', ui') is the result of the last one *)
Inductive chain (b u ui : list (list Z)) : list wlog -> list (list Z) -> list (list Z) -> list (list Z) -> Prop :=
| ch_nil : chain b u ui [] b u ui
| ch_snoc L x : chain b u ui L (l_b x) (l_u x) (l_ui x) -> genuine x ->
    chain b u ui (L ++ [x]) (r_b (l_res x)) (r_u (l_res x)) (r_ui (l_res x)).

Lemma chain_track b0 b u ui L b' u' ui' : 1 <= n -> 0 < length b0 ->
  chain b u ui L b' u' ui' -> track b0 n b u ui ->
  track b0 n b' u' ui' /\ length u' = length u /\ length ui' = length ui.
Proof.
  intros Hn Hd HC HT. induction HC as [|L x HC IH G]; auto. destruct (IH) as [T1 [L1 L2]].
  destruct (run_lll_ok (l_env x) fuel early siegel (call_flags (c_meth (l_call x)) (c_prec (l_call x))) (l_er x) b0 n _ _ _ Hn Hd T1)
    as [r [E [T2 [A [B _]]]]].
  unfold genuine in G. rewrite G in E. injection E as <-. split; [exact T2|]. split; congruence.
Qed.
End Chain.

Section Calls.
Variable envs : wcall -> nat -> env.
Variable little : Z -> Z -> bool.
Variable good_prec : Z.
Variable lg : nat -> nat -> Z.
Variable fuel : nat.
Variables (early siegel : bool) (zlong wld wqd wdpe : bool).
Variable ld_digits : Z.
Variable n : nat.
Variables b0 u0 ui0 : list (list Z).
Hypothesis Hn : 1 <= n.
Hypothesis Hd : 0 < length b0.
Hypothesis HT0 : track b0 n b0 u0 ui0.
Notation chain := (chain fuel early siegel n).
Notation call_lll := (call_lll envs fuel early siegel n).
Notation proved_loop := (proved_loop envs good_prec fuel early siegel wqd wdpe n).
Notation heuristic_loop := (heuristic_loop envs little good_prec fuel early siegel wqd wdpe n).
Notation large_stage := (large_stage envs little good_prec fuel early siegel wld wqd wdpe ld_digits n).
Notation last_lll := (last_lll envs good_prec lg fuel early siegel zlong wqd wdpe n).
Notation wrapper_lll := (wrapper_lll envs little good_prec lg fuel early siegel zlong wld wqd wdpe ld_digits n).

(** the matrix the wrapper works on *)
Definition cur (s : wst) : list (list Z) := if wuse s then wbl s else wb s.
Record WI (s : wst) : Prop := {
  wi_chain : chain b0 u0 ui0 (wlogs s) (cur s) (wu s) (wui s);
  wi_long : wuse s = true -> zlong = true /\ wu s = [] /\ wui s = [];
}.
(** s' comes from s by at most m calls *)
Definition ext (m : nat) (s s' : wst) : Prop :=
  exists L, wlogs s' = wlogs s ++ L /\ length L <= m.
Lemma ext_refl m s : ext m s s.
Proof. exists []. rewrite app_nil_r. split; [auto|cbn; lia]. Qed.
Lemma ext_trans m1 m2 s1 s2 s3 : ext m1 s1 s2 -> ext m2 s2 s3 -> ext (m1 + m2) s1 s3.
Proof.
  intros [L1 [E1 H1]] [L2 [E2 H2]]. exists (L1 ++ L2). rewrite E2, E1, app_assoc, app_length. split; auto. lia.
Qed.
Lemma ext_le m1 m2 s s' : m1 <= m2 -> ext m1 s s' -> ext m2 s s'.
Proof. intros H [L [E1 E2]]. exists L. split; auto. lia. Qed.

(** result of a stage *)
Definition stage (m : nat) (s : wst) (r : option (wst * wres)) (noloop : Prop) : Prop :=
  exists s' w, r = Some (s', w) /\ WI s' /\ wuse s' = wuse s /\ wmax s' = wmax s /\ ext m s s' /\
    (noloop -> w <> WLoop) /\ (enough fuel -> w <> WStop OFuel) /\ length (wb s') = length (wb s).

Lemma call_ok s x : WI s -> c_long x = wuse s ->
  exists s' w y, call_lll s x = Some (s', w) /\ WI s' /\ wuse s' = wuse s /\ wmax s' = wmax s /\
    wlogs s' = wlogs s ++ [y] /\ l_call y = x /\ l_env y = envs x (length (wlogs s)) /\ wstat s' = r_status (l_res y) /\
    w <> WLoop /\ (enough fuel -> w <> WStop OFuel) /\
    (w = WK 0%Z <-> r_out (l_res y) = OTrue) /\
    ((exists kk, w = WK kk) -> (wstat s' = RED_SUCCESS <-> r_out (l_res y) = OTrue)) /\
    length (wb s') = length (wb s).
Proof.
  intros [HC HL] HX. unfold WrapperModel.call_lll. cbv zeta.
  set (E := envs x (length (wlogs s))).
  set (b := if c_long x then wbl s else wb s). set (u := if c_long x then [] else wu s). set (ui := if c_long x then [] else wui s).
  assert (EC : b = cur s /\ u = wu s /\ ui = wui s).
  { unfold b, u, ui, cur. rewrite HX. destruct (wuse s); auto. destruct (HL eq_refl) as [_ [-> ->]]. auto. }
  destruct EC as [EB [EU EUI]].
  destruct (chain_track _ _ _ _ b0 _ _ _ _ _ _ _ Hn Hd HC HT0) as [HT [LU LUI]].
  rewrite <- EB, <- EU, <- EUI in HT.
  destruct (run_lll_ok E fuel early siegel (call_flags (c_meth x) (c_prec x)) (wer s) b0 n b u ui Hn Hd HT)
    as [r [ER [T' [L1 [L2 [R1 [R2 R3]]]]]]].
  rewrite ER. cbn [obind].
  eexists _, _, (mklog x E (wer s) b u ui r). split; [reflexivity|].
  assert (RN : c_long x = true -> r_u r = [] /\ r_ui r = []).
  { intros X. unfold u, ui in *. rewrite X in *. cbn in L1, L2. split; [destruct (r_u r)|destruct (r_ui r)]; auto; discriminate. }
  split.
  { split; cbn [wlogs wb wu wui wbl wuse cur].
    - unfold cur. cbn [wuse wb wbl].
      replace (if wuse s then if c_long x then r_b r else wbl s else if c_long x then wb s else r_b r) with (r_b r) by (rewrite HX; destruct (wuse s); auto).
      replace (if c_long x then wu s else r_u r) with (r_u r).
      2:{ destruct (c_long x) eqn:X; auto. destruct (RN eq_refl) as [-> _]. symmetry. apply HL. congruence. }
      replace (if c_long x then wui s else r_ui r) with (r_ui r).
      2:{ destruct (c_long x) eqn:X; auto. destruct (RN eq_refl) as [_ ->]. symmetry. apply HL. congruence. }
      apply (ch_snoc fuel early siegel n b0 u0 ui0 (wlogs s) (mklog x E (wer s) b u ui r)).
      + cbn. rewrite EB, EU, EUI. exact HC.
      + exact ER.
    - intros X. rewrite HX, X. apply HL. auto. }
  split; [reflexivity|]. split; [reflexivity|]. split; [reflexivity|]. split; [reflexivity|]. split; [reflexivity|]. split; [reflexivity|].
  cbn [l_res wstat].
  split; [destruct (r_out r); discriminate|].
  split; [intros HF; specialize (R3 HF); destruct (r_out r); congruence|].
  split.
  { split.
    - intros Hw. destruct (r_out r) eqn:EO; auto; try discriminate. exfalso. destruct (R2 eq_refl) as [A B].
      destruct (r_status r); try congruence; destruct B as [B|B]; try discriminate; injection Hw; lia.
    - intros EO. rewrite EO. rewrite R1 by auto. auto. }
  split.
  { intros [kk Hk]. split; [|intros EO; apply R1; auto]. intros ES. destruct (r_out r) eqn:EO; auto; try discriminate.
    destruct (R2 eq_refl). congruence. }
  cbn [wb]. destruct (c_long x) eqn:X; auto. rewrite (t_len _ _ _ _ _ T').
  pose proof (t_len _ _ _ _ _ HT) as Y. unfold b in Y. auto.
Qed.

Lemma call_stage m s x Q : 1 <= m -> WI s -> c_long x = wuse s -> stage m s (call_lll s x) Q.
Proof.
  intros Hm HW HX. destruct (call_ok s x HW HX) as [s' [w [y [E [A [B [C [D [_ [_ [_ [F [G [_ [_ H]]]]]]]]]]]]]]].
  exists s', w. split; auto. split; auto. split; auto. split; auto. split.
  { exists [y]. split; auto. }
  auto.
Qed.

Lemma stage_bind m1 m2 s r f Q1 Q2 : stage m1 s r Q1 ->
  (forall s1 kk, WI s1 -> wuse s1 = wuse s -> wmax s1 = wmax s -> stage m2 s1 (f s1 kk) Q2) ->
  stage (m1 + m2) s (wbind r f) (Q1 /\ Q2).
Proof.
  intros [s1 [w [-> [A [B [C [D [E1 [F G]]]]]]]]] Hf. destruct w as [kk|o|]; cbn [wbind].
  - destruct (Hf s1 kk A B C) as [s2 [w2 [E2 [A2 [B2 [C2 [D2 [E3 [F2 G2]]]]]]]]].
    exists s2, w2. split; auto. split; auto. split; [congruence|]. split; [congruence|].
    split; [eapply ext_trans; eauto|]. split; [tauto|]. split; auto. congruence.
  - exists s1, (WStop o). split; auto. split; auto. split; auto. split; auto. split; [apply (ext_le m1); [lia|auto]|].
    split; [discriminate|]. auto.
  - exists s1, WLoop. split; auto. split; auto. split; auto. split; auto. split; [apply (ext_le m1); [lia|auto]|].
    split; [tauto|]. auto.
Qed.

Lemma stage_mono m1 m2 s r (Q1 Q2 : Prop) : m1 <= m2 -> (Q2 -> Q1) -> stage m1 s r Q1 -> stage m2 s r Q2.
Proof.
  intros Hm HQ [s1 [w [-> [A [B [C [D [E1 F]]]]]]]]. exists s1, w. split; auto. split; auto. split; auto. split; auto.
  split; [eapply ext_le; eauto|]. auto.
Qed.

Lemma stage_ret m s w Q : WI s -> w <> WLoop -> w <> WStop OFuel -> stage m s (Some (s, w)) Q.
Proof. intros H1 H2 H3. exists s, w. repeat split; auto; try apply H1; auto using ext_refl. Qed.

(** recursion depth that suffices for the precision loops *)
Definition depth_ok (k : nat) (p : Z) : Prop :=
  1 <= k /\ (good_prec <= p \/ (0 < p /\ good_prec <= p * 2 ^ (Z.of_nat k - 1)))%Z.

Lemma depth_step k p : depth_ok (S k) p -> (p < good_prec)%Z -> depth_ok k (increase_prec good_prec p).
Proof. clear Hn Hd HT0.
  intros [_ H] Hp. destruct H as [H|[H1 H2]]; [lia|].
  replace (Z.of_nat (S k) - 1)%Z with (Z.of_nat k) in H2 by lia.
  assert (1 <= k).
  { destruct k; [|lia]. rewrite Z.pow_0_r in H2. lia. }
  split; auto. unfold increase_prec. destruct (Z.min_spec (p * 2) good_prec) as [[A ->]|[A ->]]; [right|left; lia].
  split; [lia|]. replace (p * 2 * 2 ^ (Z.of_nat k - 1))%Z with (p * 2 ^ (Z.of_nat k))%Z; auto.
  replace (Z.of_nat k) with (Z.succ (Z.of_nat k - 1)) at 1 by lia. rewrite Z.pow_succ_r by lia. lia.
Qed.

Lemma proved_loop_stage : forall k s p, WI s -> wuse s = false ->
  stage k s (proved_loop k s p) (depth_ok k p).
Proof.
  induction k as [|k IH]; intros s p HW HU; cbn [WrapperModel.proved_loop].
  - exists s, WLoop. repeat split; auto; try apply HW; auto using ext_refl; [intros [X _]; lia|discriminate].
  - apply stage_mono with (m1 := 1 + k) (Q1 := True /\ (p < good_prec -> depth_ok k (increase_prec good_prec p))%Z); [lia| |].
    { intros X. split; auto. intros. apply depth_step; auto. }
    apply stage_bind.
    + unfold proved_lll.
      repeat match goal with |- context [if ?c then _ else _] => destruct c end; apply call_stage; auto.
    + intros s1 kk W1 U1 M1. destruct (kk =? 0)%Z; [apply stage_ret; auto; discriminate|].
      destruct (Z.ltb_spec p good_prec).
      * apply stage_mono with (m1 := k) (Q1 := depth_ok k (increase_prec good_prec p)); auto. apply IH; auto. congruence.
      * apply stage_ret; auto; discriminate.
Qed.

Lemma heuristic_loop_stage : forall k s p, WI s -> wuse s = false ->
  stage k s (heuristic_loop k s p) (depth_ok (k - 1) p).
Proof.
  induction k as [|k IH]; intros s p HW HU; cbn [WrapperModel.heuristic_loop].
  - exists s, WLoop. repeat split; auto; try apply HW; auto using ext_refl; [intros [X _]; lia|discriminate].
  - apply stage_mono with (m1 := 1 + k) (Q1 := True /\ (depth_ok k p /\ ((p < good_prec)%Z -> depth_ok (k - 1) (increase_prec good_prec p)))); [lia| |].
    { replace (S k - 1) with k by lia. intros X. split; auto. split; auto. intros.
      destruct k; [destruct X; lia|]. replace (S k - 1) with k by lia. apply depth_step; auto. }
    apply stage_bind.
    + unfold heuristic_lll.
      repeat match goal with |- context [if ?c then _ else _] => destruct c end; apply call_stage; auto.
    + intros s1 kk W1 U1 M1. destruct (kk =? 0)%Z; [apply stage_ret; auto; discriminate|].
      destruct (Z.ltb_spec p good_prec); [destruct (little kk p)|]; cbn [andb negb].
      * apply stage_mono with (m1 := k) (Q1 := depth_ok k p); [lia|tauto|]. apply proved_loop_stage; auto. congruence.
      * apply stage_mono with (m1 := k) (Q1 := depth_ok (k - 1) (increase_prec good_prec p)); [lia|tauto|]. apply IH; auto. congruence.
      * apply stage_mono with (m1 := k) (Q1 := depth_ok k p); [lia|tauto|]. apply proved_loop_stage; auto. congruence.
Qed.

(** the depth used for the whole wrapper *)
Definition wdepth : nat := 2 + Z.to_nat (Z.log2_up good_prec).
Lemma wdepth_ok p : (0 < p \/ good_prec <= p)%Z -> depth_ok (wdepth - 1) p.
Proof. clear Hn Hd HT0.
  intros Hp. unfold wdepth. replace (2 + Z.to_nat (Z.log2_up good_prec) - 1) with (1 + Z.to_nat (Z.log2_up good_prec)) by lia.
  split; [lia|]. destruct (Z.le_gt_cases good_prec p); [auto|]. right. split; [lia|].
  replace (Z.of_nat (1 + Z.to_nat (Z.log2_up good_prec)) - 1)%Z with (Z.log2_up good_prec) by (pose proof (Z.log2_up_nonneg good_prec); lia).
  destruct (Z.le_gt_cases good_prec 1).
  - pose proof (Z.pow_pos_nonneg 2 (Z.log2_up good_prec) ltac:(lia) (Z.log2_up_nonneg _)). nia.
  - pose proof (Z.log2_up_spec good_prec ltac:(lia)). nia.
Qed.
Lemma depth_up k p : depth_ok k p -> depth_ok (S k) p.
Proof. clear Hn Hd HT0.
  intros [H1 H2]. split; [lia|]. destruct H2 as [H2|[H2 H3]]; [left; auto|right]. split; auto.
  etransitivity; [exact H3|]. apply Z.mul_le_mono_nonneg_l; [lia|]. apply Z.pow_le_mono_r; lia.
Qed.

Lemma large_stage_stage s : WI s -> wuse s = false -> stage (3 + wdepth) s (large_stage wdepth s) True.
Proof.
  intros HW HU. unfold WrapperModel.large_stage, fast_lll.
  apply stage_mono with (m1 := 1 + (1 + (1 + wdepth))) (Q1 := True /\ (True /\ (True /\ True))); [lia|tauto|].
  apply stage_bind; [apply call_stage; auto|]. intros s1 k1 W1 U1 M1.
  apply stage_bind; [destruct (_ && _); [apply call_stage; auto; cbn; congruence|apply stage_ret; auto; discriminate]|]. intros s2 k2 W2 U2 M2.
  apply stage_bind; [destruct (_ && _); [apply call_stage; auto; cbn; congruence|apply stage_ret; auto; discriminate]|]. intros s3 k3 W3 U3 M3.
  cbv zeta. destruct (k3 =? 0)%Z; cbn [negb]; [apply stage_ret; auto; discriminate|].
  destruct (little k3 _).
  - apply stage_mono with (m1 := wdepth) (Q1 := depth_ok wdepth DBL_DIGITS); [lia| |apply proved_loop_stage; auto; congruence].
    intros _. pose proof (wdepth_ok DBL_DIGITS ltac:(left; reflexivity)) as X. apply depth_up in X.
    replace (S (wdepth - 1)) with wdepth in X by (unfold wdepth; lia). auto.
  - apply stage_mono with (m1 := wdepth) (Q1 := depth_ok (wdepth - 1) (increase_prec good_prec DBL_DIGITS)); [lia| |apply heuristic_loop_stage; auto; congruence].
    intros _. apply wdepth_ok. unfold increase_prec, DBL_DIGITS. lia.
Qed.

(** ** Conversion to long is exact on the path where it is used *)
Lemma zexp_bound x e : (zexponent x <= e)%Z -> (0 <= e)%Z -> (Z.abs x < 2 ^ e)%Z.
Proof.
  unfold zexponent. destruct (Z.eqb_spec x 0) as [->|H]; intros H1 H2; [cbn; apply Z.pow_pos_nonneg; lia|].
  pose proof (Z.log2_spec (Z.abs x) ltac:(lia)) as [_ H3]. eapply Z.lt_le_trans; [exact H3|]. apply Z.pow_le_mono_r; lia.
Qed.
Lemma fold_max_row row : forall m, (m <= fold_left (fun m x => Z.max m (zexponent x)) row m)%Z /\
  forall x, In x row -> (zexponent x <= fold_left (fun m x => Z.max m (zexponent x)) row m)%Z.
Proof.
  induction row as [|a row IH]; intros m; cbn [fold_left In]; [split; [lia|tauto]|].
  destruct (IH (Z.max m (zexponent a))) as [A B]. split; [lia|]. intros x [->|Hx]; [lia|auto].
Qed.
Lemma fold_max_mat b : forall m, (m <= fold_left (fun m row => fold_left (fun m x => Z.max m (zexponent x)) row m) b m)%Z /\
  forall row x, In row b -> In x row -> (zexponent x <= fold_left (fun m row => fold_left (fun m x => Z.max m (zexponent x)) row m) b m)%Z.
Proof.
  induction b as [|r b IH]; intros m; cbn [fold_left In]; [split; [lia|tauto]|].
  destruct (fold_max_row r m) as [A B]. destruct (IH (fold_left (fun m x => Z.max m (zexponent x)) r m)) as [C D].
  split; [lia|]. intros row x [->|Hr] Hx; [specialize (B x Hx); lia|eauto].
Qed.
Lemma get_si_exact b : (get_max_exp b < 62)%Z -> map (map get_si) b = b.
Proof.
  intros H. destruct (fold_max_mat b 0%Z) as [A B]. fold (get_max_exp b) in A, B.
  rewrite <- (map_id b) at 2. apply map_ext_in. intros row Hr. rewrite <- (map_id row) at 2. apply map_ext_in. intros x Hx.
  pose proof (zexp_bound x 61 ltac:(specialize (B row x Hr Hx); lia) ltac:(lia)) as Y.
  unfold get_si. replace (in_long x) with true; auto. symmetry. unfold in_long.
  apply andb_true_intro. change (2 ^ 61)%Z with 2305843009213693952%Z in Y. split; apply Z.leb_le; lia.
Qed.

(** ** The whole wrapper *)
Definition last_spec (s : wst) (r : option (wst * wres)) : Prop :=
  exists s' w y, r = Some (s', w) /\ WI s' /\ wuse s' = wuse s /\
    wlogs s' = wlogs s ++ [y] /\ c_meth (l_call y) = LM_PROVED /\ l_env y = envs (l_call y) (length (wlogs s)) /\ wstat s' = r_status (l_res y) /\
    w <> WLoop /\ (enough fuel -> w <> WStop OFuel) /\
    (w = WK 0%Z <-> r_out (l_res y) = OTrue) /\
    ((exists kk, w = WK kk) -> (wstat s' = RED_SUCCESS <-> r_out (l_res y) = OTrue)).
Lemma last_call s s1 x : WI s -> WI s1 -> wuse s1 = wuse s -> wlogs s1 = wlogs s ->
  c_long x = wuse s -> c_meth x = LM_PROVED -> last_spec s (call_lll s1 x).
Proof.
  intros HW HW1 HU HL HX HM.
  destruct (call_ok s1 x HW1 ltac:(congruence)) as [s' [w [y [E [A [B [C [D [F [EV [G [H [I [J [K _]]]]]]]]]]]]]]].
  exists s', w, y. repeat split; auto; try apply A; try congruence; try apply J; try apply K; auto.
Qed.
Lemma last_ok s : WI s -> last_spec s (last_lll s).
Proof.
  intros HW. unfold WrapperModel.last_lll, proved_lll. destruct (wuse s) eqn:HU.
  - destruct (wi_long _ HW HU) as [Z _]. rewrite Z. cbn [andb].
    repeat match goal with |- context [if ?c then _ else _] => destruct c end; apply last_call; auto.
  - rewrite andb_false_r.
    assert (WM : forall x, WI (set_max s x)) by (intros x; destruct HW; split; auto).
    cbv zeta.
    repeat match goal with |- context [if ?c then _ else _] => destruct c end; apply last_call; auto.
Qed.

Lemma use_long_ok s v : WI s -> (v = true -> zlong = true /\ (wuse s = false -> map (map get_si) (wb s) = wb s) /\ wu s = [] /\ wui s = []) ->
  WI (set_use_long zlong s v) /\ wlogs (set_use_long zlong s v) = wlogs s /\ wuse (set_use_long zlong s v) = (v && zlong) /\
  cur (set_use_long zlong s v) = cur s /\ wu (set_use_long zlong s v) = wu s /\ wui (set_use_long zlong s v) = wui s /\
  wstat (set_use_long zlong s v) = wstat s.
Proof.
  intros HW HV. pose proof HW as [HC HL]. unfold set_use_long. destruct zlong eqn:Z.
  - assert (EC : cur (mkwst (if wuse s && negb v then wbl s else wb s) (wu s) (wui s)
          (if negb (wuse s) && v then map (map get_si) (wb s) else wbl s) v (wstat s) (wer s) (wmax s) (wlogs s)) = cur s).
    { unfold cur. cbn [wuse wb wbl]. destruct v, (wuse s) eqn:U; cbn [andb negb]; auto. apply HV; auto. }
    split; [|cbn [wlogs wuse wu wui wstat]; rewrite andb_true_r; auto 10].
    split; [rewrite EC; exact HC|]. cbn. intros ->. split; auto. apply HV; auto.
  - split; [exact HW|]. rewrite andb_false_r. repeat split; auto. destruct (wuse s); auto. destruct (HL eq_refl); discriminate.
Qed.

Lemma wrapper_top s : wb s = b0 -> wu s = u0 -> wui s = ui0 -> wuse s = false -> wlogs s = [] ->
  wmax s = max_exponent lg n b0 -> (0 <= lg (length b0) n)%Z ->
  exists s' w, wrapper_lll wdepth s = Some (s', w) /\ w <> WLoop /\ (enough fuel -> w <> WStop OFuel) /\
    length (wlogs s') <= 4 + wdepth /\
    ((exists o, w = WStop o) \/
     exists L y, wlogs s' = L ++ [y] /\ c_meth (l_call y) = LM_PROVED /\ l_env y = envs (l_call y) (length L) /\
       chain b0 u0 ui0 (L ++ [y]) (wb s') (wu s') (wui s') /\
       wstat s' = r_status (l_res y) /\ (w = WK 1%Z \/ w = WK 0%Z) /\
       (w = WK 1%Z <-> r_out (l_res y) = OTrue) /\ (wstat s' = RED_SUCCESS <-> r_out (l_res y) = OTrue)).
Proof.
  intros Eb Eu Eui EU EL EM Hlg. unfold WrapperModel.wrapper_lll.
  assert (HW : WI s).
  { split; [|congruence]. unfold cur. rewrite EU, Eb, Eu, Eui, EL. constructor. }
  replace (emptyb (wb s)) with false by (unfold emptyb; rewrite Eb; symmetry; apply Nat.eqb_neq; lia).
  replace (n =? 0) with false by (symmetry; apply Nat.eqb_neq; lia). cbn [orb]. cbv zeta.
  set (ee := emptyb (wu s) && emptyb (wui s)).
  set (hl := zlong && (wmax s <? 61)%Z && ee). set (pl := zlong && (2 * wmax s <? 61)%Z && ee).
  assert (HE : ee = true -> wu s = [] /\ wui s = []).
  { unfold ee, emptyb. intros X. apply andb_prop in X. destruct X as [X Y]. apply Nat.eqb_eq in X, Y.
    split; apply length_zero_iff_nil; auto. }
  assert (Hhl : hl = true -> zlong = true /\ map (map get_si) (wb s) = wb s /\ wu s = [] /\ wui s = []).
  { unfold hl. intros X. apply andb_prop in X. destruct X as [X Y]. apply andb_prop in X. destruct X as [X Z]. apply Z.ltb_lt in Z.
    split; auto. split; [|apply HE; auto]. apply get_si_exact. rewrite EM in Z. unfold max_exponent in Z. rewrite Eb. lia. }
  assert (Hpl : pl = true -> hl = true).
  { unfold pl, hl. intros X. apply andb_prop in X. destruct X as [X Y]. apply andb_prop in X. destruct X as [X Z]. apply Z.ltb_lt in Z.
    rewrite X, Y. rewrite andb_true_r. apply Z.ltb_lt.
    destruct (fold_max_mat b0 0%Z) as [A _]. fold (get_max_exp b0) in A. unfold max_exponent in EM. lia. }
  (* first stage *)
  assert (S1 : exists s1 w1, (if hl then heuristic_lll envs fuel early siegel n (set_use_long zlong s true) true TDouble 0 else large_stage wdepth s) = Some (s1, w1) /\
     WI s1 /\ wuse s1 = hl /\ ext (3 + wdepth) s s1 /\ w1 <> WLoop /\ (enough fuel -> w1 <> WStop OFuel)).
  { destruct hl eqn:H.
    - destruct (Hhl eq_refl) as [Z [G [U V]]].
      destruct (use_long_ok s true HW) as [W1 [L1 [U1 _]]]; [auto|]. rewrite Z in U1 at 2. cbn [andb] in U1.
      destruct (call_stage 1 (set_use_long zlong s true) (mkcall LM_HEURISTIC TDouble 0 true) True) as [s1 [w1 [A [B [C [D [E [F [G1 _]]]]]]]]]; [lia|auto|cbn [c_long]; congruence|].
      exists s1, w1. unfold heuristic_lll. split; auto. split; auto. split; [congruence|].
      split; [|auto]. destruct E as [L [E1 E2]]. exists L. rewrite <- L1. split; [auto|lia].
    - destruct (large_stage_stage s HW EU) as [s1 [w1 [A [B [C [D [E [F [G1 _]]]]]]]]]. exists s1, w1. split; auto. split; auto. split; [congruence|].
      auto. }
  destruct S1 as [s1 [w1 [-> [W1 [U1 [X1 [NL1 NF1]]]]]]]. cbn [wbind].
  destruct w1 as [k1|o|]; [|exists s1, (WStop o); repeat split; auto; [destruct X1 as [L [X1 X2]]; rewrite X1, EL; cbn [app]; lia|left; eauto]|congruence].
  destruct (use_long_ok s1 pl W1) as [W2 [L2 [U2 [C2 [Z2 [V2 _]]]]]].
  { intros X. pose proof (Hpl X) as Y. split; [apply Hhl; auto|]. split; [intros; congruence|].
    destruct (wi_long _ W1) as [_ ?]; [congruence|auto]. }
  destruct (last_ok _ W2) as [s3 [w3 [y [-> [W3 [U3 [L3 [M3 [V3 [S3 [NL3 [NF3 [O3 K3]]]]]]]]]]]]]. cbn [wbind].
  assert (LL : length (wlogs s3) <= 4 + wdepth).
  { rewrite L3, L2, app_length. destruct X1 as [L [X1 X2]]. rewrite X1, EL. cbn [app length]. lia. }
  destruct w3 as [k3|o|]; [|exists s3, (WStop o); repeat split; auto; left; eauto|congruence].
  destruct (use_long_ok s3 false W3) as [W4 [L4 [U4 [C4 [Z4 [V4 T4]]]]]]; [discriminate|].
  eexists _, _. split; [reflexivity|]. split; [discriminate|]. split; [discriminate|]. split; [rewrite L4; auto|]. right.
  exists (wlogs s1), y. rewrite L4, L3, L2. split; auto. split; auto. split; [rewrite V3, L2; auto|]. split.
  { destruct W4 as [HC _]. rewrite L4, L3, L2 in HC. unfold cur in HC. rewrite U4 in HC. exact HC. }
  rewrite T4. split; auto. split; [destruct (k3 =? 0)%Z; auto|]. split.
  - rewrite <- O3. destruct (Z.eqb_spec k3 0) as [->|Hk]; [tauto|]. split; [discriminate|]. intros X. injection X. lia.
  - apply K3. eauto.
Qed.
End Calls.
