(** Properties of lattice enumeration in exact arithmetic: C18, C19, C20, C21, and C22 in any
    arithmetic. *)
From Coq Require Import List ZArith QArith Qcanon Arith Bool Lia Permutation Sorted.
From Verif Require Import Util QcUtil GsoQ LatticeSpec LllSpec LllSpecFacts QGs EnumModel EnumPure EnumRefine EnumIter EnumTop EnumExact
  EnumTree EnumSpec EnumLink EnumNorm EvalModel EvalProofs EnumCall.
Import ListNotations.
Local Open Scope Qc_scope.

(** one call of enumerate with one of the library's evaluators (strategy, number of solutions, callback) *)
Definition enum_run (rec : bool) (fuel : nat) (ne : Z) (cb : list Z -> bool) (strat : strategy) (N : nat) (inp : einput qe_ops) :
  option (est qe_ops (evst (q_fops ne))) :=
  run_enum qe_ops (eval_sol_cb (q_fops ne) cb strat N) (eval_sub (q_fops ne)) (no_rst qe_ops) rec fuel inp (ev_init (q_fops ne)).
(** all reported solutions (x, reported length, bound in force), newest first *)
Definition reported {EV} (s : est qe_ops EV) : list (list Z * Qc * Qc) := sols (g_log (s_g s)).
(** the evaluator's container at the end, (length, x), longest first *)
Definition kept {ne} (s : est qe_ops (evst (q_fops ne))) : list (Qc * list Z) := ev_sols (g_ev (s_g s)).

(** number of times [x] is reported *)
Definition times {EV} (x : list Z) (s : est qe_ops EV) : nat := count_occ (list_eq_dec Z.eq_dec) (map vecof (reported s)) x.

Lemma root_zero d mu r t : plen d mu r t (root_vec d []) (d - 0) = 0.
Proof. apply plen_end. lia. Qed.
Lemma neg_neg x : neg (neg x) = x.
Proof. unfold neg. rewrite map_map. rewrite <- (map_id x) at 2. apply map_ext. intros. apply Z.opp_involutive. Qed.

(** ** C19 *)
(** Every solution handed to the evaluator extends the given subtree coordinates, is non-zero when
    searching for short vectors, carries its true squared length (after undoing the normalisation), which is
    within the bound left by the previous reports and each of whose projections is within the
    corresponding pruning bound; for every strategy, callback, target, subtree and both implementations. *)
Theorem enum_reports_true d mu r target subtree findsub prune R ne cb strat N rec fuel s :
  (length subtree < d)%nat -> (forall k, (k < d)%nat -> 0 < r k) ->
  (forall k, (k < d)%nat -> 0 <= prune_at prune k) -> prune_at prune 0 <= 1 -> (1 <= N)%nat -> 0 <= R ->
  enum_run rec fuel ne cb strat N (enum_input d mu r target subtree findsub prune R ne) = Some s ->
  forall later x nd m earlier, reported s = later ++ (x, nd, m) :: earlier ->
    length x = d /\ skipn (d - length subtree) x = subtree /\
    (target = None -> (forall i, nth i subtree 0%Z = 0%Z) -> nonzero x) /\
    nd * pow2 ne = plen d mu r (tgt target) x 0 /\
    nd <= prune_at prune 0 * m /\
    (forall k, (k < d - length subtree)%nat -> plen d mu r (tgt target) x k <= prune_at prune k * R) /\
    m = snd (eval_all (q_fops ne) strat N (filter (fun p => cb (fst p)) (reports earlier)) (ev_init (q_fops ne)) (R * pow2 (- ne))).
Proof.
  intros Hl Hr Hp Hp0 HN HR H later x nd m earlier HS.
  set (inp := enum_input d mu r target subtree findsub prune R ne) in *.
  destruct (Qclt_le_dec R (plen d mu r (tgt target) (root_vec d subtree) (d - length subtree))) as [RO|RI].
  { exfalso. assert (L : g_log (s_g s) = []).
    { eapply (root_outside inp); [reflexivity|exact Hl| |exact H]. 
      change (R * pow2 (- ne) < plen d (imu inp) (i_rdiag inp) (itgt inp) (root_vec d subtree) (d - length subtree)). unfold inp. rewrite inp_PL.
      apply Qcnot_le_lt. intros LE. apply scale_le in LE. apply (Qclt_not_le _ _ RO). exact LE. }
    unfold reported in HS. rewrite L in HS. destruct later; discriminate HS. }
  assert (HI : SInv ne strat (ev_init (q_fops ne)) (R * pow2 (- ne))).
  { apply SInv_init. pose proof (pow2_pos (- ne)) as P. revert HR P. generalize (pow2 (- ne)). intros. qcnra. }
  destruct (call_spec d mu r target subtree findsub prune R ne Hl Hr Hp Hp0 _ _ (no_rst qe_ops) (SInv ne strat) _
     (fun v nd m ev => SInv_sol ne cb strat N HN v nd m ev) (fun ev m (K : SInv ne strat ev m) => proj1 K)
     (fun off v nd m ev => SInv_sub ne strat off v nd m ev) HI RI rec fuel s H) as [F1 F2 F3 F4 F5 [F6 F7]].
  assert (Hin : In (x, nd, m) (sols (g_log (s_g s)))).
  { unfold reported in HS. rewrite HS. apply in_or_app. right. now left. }
  destruct (F1 x nd m Hin) as (A1 & A2 & A3 & A4 & A5 & A6).
  split; [exact A1|]. split; [exact A2|]. split.
  - intros T SB. apply nonzero_allz. apply tpos_nz. apply A6. subst target. cbn. unfold allz. apply forallb_forall.
    intros z Hz. apply (In_nth _ _ 0%Z) in Hz as (i & _ & <-). rewrite SB. reflexivity.
  - split; [exact A3|]. split; [exact A4|]. split; [exact A5|].
    destruct (log_bound _ _ _ _ _ _ _ _ _ _ F7 HS) as (l' & <- & ->).
    apply (replay_filter ne cb strat N (ev_init (q_fops ne)) (R * pow2 (- ne)) l').
Qed.

(** ** C20 *)
Section Complete.
Variables (d : nat) (mu : nat -> nat -> Qc) (r : nat -> Qc) (findsub : bool) (prune : option (nat -> Qc)) (R : Qc) (ne : Z).
Context {EV : Type}.
Variable evalS : list Z -> Qc -> Qc -> EV -> EV * Qc.
Variable evalSub : nat -> list Z -> Qc -> EV -> EV.
Variables (ev0 : EV) (rec : bool).
Hypothesis Hd : (0 < d)%nat.
Hypothesis Hr : forall k, (k < d)%nat -> 0 < r k.
Hypothesis Hp : forall k, (k < d)%nat -> 0 <= prune_at prune k.
Hypothesis Hp0 : prune_at prune 0 <= 1.
Hypothesis HR : 0 <= R.
(** the evaluator leaves the bound alone *)
Hypothesis Hfix : forall v nd m ev, snd (evalS v nd m ev) = m.

(** within the pruned radius *)
Definition within (t : nat -> Qc) (x : list Z) : Prop := forall k, (k < d)%nat -> plen d mu r t x k <= prune_at prune k * R.

Lemma fix_facts target fuel s :
  run_enum qe_ops evalS evalSub (no_rst qe_ops) rec fuel (enum_input d mu r target [] findsub prune R ne) ev0 = Some s ->
  call_facts d mu r target [] prune R ne evalS evalSub (fun _ m => m = R * pow2 (- ne)) ev0 (s_g s).
Proof.
  intros H. eapply (call_spec d mu r target [] findsub prune R ne); eauto.
  - intros v nd m ev -> _ _. rewrite Hfix. split; [reflexivity|apply Qcle_refl].
  - intros ev m ->. pose proof (pow2_pos (- ne)) as P. revert HR P. generalize (pow2 (- ne)). intros. qcnra.
  - cbn [length]. rewrite root_zero. exact HR.
Qed.

(** Short vectors: every non-zero coefficient vector within the bound is reported exactly once up to sign (so
    never together with its negative), everything else is not reported at all. *)
Theorem enum_complete_svp fuel s :
  run_enum qe_ops evalS evalSub (no_rst qe_ops) rec fuel (enum_input d mu r None [] findsub prune R ne) ev0 = Some s ->
  forall x, length x = d ->
    (nonzero x /\ within no_target x -> (times x s + times (neg x) s = 1)%nat) /\
    (~ (nonzero x /\ within no_target x) -> times x s = 0%nat).
Proof.
  intros H x Hx. destruct (fix_facts None fuel s H) as [F1 F2 F3 F4 F5 F6]. cbn [length] in *. rewrite Nat.sub_0_r in *.
  set (cnt := count_occ (list_eq_dec Z.eq_dec)).
  assert (ND : forall y, (times y s <= 1)%nat) by (intros y; apply (proj1 (NoDup_count_occ (list_eq_dec Z.eq_dec) _) F2)).
  assert (SND : forall y, (0 < times y s)%nat -> tpos y = true /\ within no_target y).
  { intros y Hy. apply count_occ_In in Hy. apply in_map_iff in Hy as ([[v nd] m] & E & Hy). cbn in E. subst v.
    destruct (F1 y nd m Hy) as (_ & _ & _ & _ & W & T). split; [apply T; reflexivity|]. exact W. }
  split.
  - intros [NZ W].
    assert (IN : forall y, length y = d -> within no_target y -> tpos y = true -> (0 < times y s)%nat).
    { intros y L Wy T. apply count_occ_In. apply F3; auto.
      - apply skipn_all2. lia.
      - intros k Hk. rewrite F5, unscale. apply Wy. exact Hk. }
    assert (WN : within no_target (neg x)) by (intros k Hk; rewrite plen_neg; auto).
    assert (LN : length (neg x) = d) by (unfold neg; now rewrite map_length).
    destruct (tpos_or_opp x) as [T|T]; [now apply nonzero_allz| |].
    + pose proof (IN x Hx W T). pose proof (ND x). destruct (times (neg x) s) eqn:E; [lia|].
      exfalso. apply (tpos_not_both x T). apply (SND (neg x)). lia.
    + pose proof (IN (neg x) LN WN T). pose proof (ND (neg x)). destruct (times x s) eqn:E; [lia|].
      exfalso. apply (tpos_not_both x); auto. apply SND. lia.
  - intros NW. destruct (times x s) eqn:E; auto. exfalso. apply NW. destruct (SND x) as [T W]; [lia|].
    split; auto. apply nonzero_allz. now apply tpos_nz.
Qed.

(** Close vectors: every coefficient vector within the bound is reported exactly once. *)
Theorem enum_complete_cvp t fuel s :
  run_enum qe_ops evalS evalSub (no_rst qe_ops) rec fuel (enum_input d mu r (Some t) [] findsub prune R ne) ev0 = Some s ->
  forall x, length x = d -> (within t x -> times x s = 1%nat) /\ (~ within t x -> times x s = 0%nat).
Proof.
  intros H x Hx. destruct (fix_facts (Some t) fuel s H) as [F1 F2 F3 F4 F5 F6]. cbn [length] in *. rewrite Nat.sub_0_r in *.
  assert (ND : forall y, (times y s <= 1)%nat) by (intros y; apply (proj1 (NoDup_count_occ (list_eq_dec Z.eq_dec) _) F2)).
  split.
  - intros W. assert (0 < times x s)%nat.
    { apply count_occ_In. apply F3; auto.
      - apply skipn_all2. lia.
      - intros k Hk. rewrite F5, unscale. apply W. exact Hk.
      - discriminate. }
    specialize (ND x). lia.
  - intros NW. destruct (times x s) eqn:E; auto. exfalso. apply NW.
    assert (Hy : (0 < times x s)%nat) by lia. apply count_occ_In in Hy. apply in_map_iff in Hy as ([[v nd] m] & EE & Hy). cbn in EE. subst v.
    destruct (F1 x nd m Hy) as (_ & _ & _ & _ & W & _). exact W.
Qed.

(** and the search ends *)
Theorem enum_fixed_terminates target : exists fuel s,
  run_enum qe_ops evalS evalSub (no_rst qe_ops) rec fuel (enum_input d mu r target [] findsub prune R ne) ev0 = Some s.
Proof.
  eapply (call_terminates d mu r target [] findsub prune R ne) with (EInv := fun _ m => m = R * pow2 (- ne)); eauto.
  - intros v nd m ev -> _ _. rewrite Hfix. split; [reflexivity|apply Qcle_refl].
  - intros ev m ->. pose proof (pow2_pos (- ne)) as P. revert HR P. generalize (pow2 (- ne)). intros. qcnra.
  - cbn [length]. rewrite root_zero. exact HR.
Qed.
End Complete.

(** ** C18 *)
Definition accept_all : list Z -> bool := fun _ => true.
Section Best.
Variables (d : nat) (mu : nat -> nat -> Qc) (r : nat -> Qc) (findsub : bool) (R : Qc) (ne : Z) (N : nat).
Hypothesis Hd : (0 < d)%nat.
Hypothesis Hr : forall k, (k < d)%nat -> 0 < r k.
Hypothesis HR : 0 <= R.
Hypothesis HN : (1 <= N)%nat.
Notation len x := (vlen d mu r x).
Notation inp target := (enum_input d mu r target [] findsub None R ne).

Lemma best_facts target rec fuel s : enum_run rec fuel ne accept_all BestN N (inp target) = Some s ->
  call_facts d mu r target [] None R ne (eval_sol_cb (q_fops ne) accept_all BestN N) (eval_sub (q_fops ne)) (SInv ne BestN) (ev_init (q_fops ne)) (s_g s).
Proof.
  intros H. apply (call_spec d mu r target [] findsub None R ne) with (rst := no_rst qe_ops) (rec := rec) (fuel := fuel); auto.
  - intros k Hk. cbn. discriminate.
  - apply Qcle_refl.
  - intros. apply SInv_sol; auto.
  - intros ev m K. apply K.
  - intros. now apply SInv_sub.
  - apply SInv_init. pose proof (pow2_pos (- ne)) as P. revert HR P. generalize (pow2 (- ne)). intros. qcnra.
  - cbn [length]. rewrite root_zero. exact HR.
Qed.

(** the container at the end, from the reports *)
Lemma best_store target rec fuel s : enum_run rec fuel ne accept_all BestN N (inp target) = Some s ->
  exists dropped,
    Permutation (kept s ++ dropped) (map (fun p => (snd (fst p) * pow2 ne, vecof p)) (reported s)) /\
    length (kept s) = Nat.min N (length (reported s)) /\
    (forall k q, In k (kept s) -> In q dropped -> fst k <= fst q) /\
    ((length (kept s) < N)%nat -> g_max (s_g s) = R * pow2 (- ne)) /\
    ((length (kept s) = N)%nat -> forall k, In k (kept s) -> fst k <= g_max (s_g s) * pow2 ne).
Proof.
  intros H. destruct (best_facts target rec fuel s H) as [F1 F2 F3 F4 F5 [F6 F7]].
  pose proof (replay_filter ne accept_all BestN N (ev_init (q_fops ne)) (R * pow2 (- ne)) (g_log (s_g s))) as K. cbn zeta in K.
  assert (FA : filter (fun p : list Z * Qc => accept_all (fst p)) (reports (sols (g_log (s_g s)))) = reports (sols (g_log (s_g s)))).
  { generalize (reports (sols (g_log (s_g s)))). induction l; cbn; congruence. }
  rewrite FA in K. rewrite F6 in K. cbn [fst snd] in K. destruct K as (K1 & _ & K3).
  set (l := reports (sols (g_log (s_g s)))) in *.
  assert (ST : store_ok (q_fops ne) N (fst (eval_all (q_fops ne) BestN N l (ev_init (q_fops ne)) (R * pow2 (- ne)))) (items (q_fops ne) l)).
  { apply (store_all (q_fops ne) (q_asym ne) (q_trans ne) N HN BestN l ltac:(discriminate) (ev_init (q_fops ne)) (R * pow2 (- ne)) []). apply store_init; auto. }
  assert (BD : bound_ok (q_fops ne) N (fst (eval_all (q_fops ne) BestN N l (ev_init (q_fops ne)) (R * pow2 (- ne)))) (R * pow2 (- ne))
     (snd (eval_all (q_fops ne) BestN N l (ev_init (q_fops ne)) (R * pow2 (- ne))))).
  { apply (bound_all (q_fops ne) (q_asym ne) (q_trans ne) N HN l (ev_init (q_fops ne)) _ _ []); [apply store_init; auto|].
    unfold bound_ok. cbn [ev_sols ev_init length]. destruct (Nat.ltb_spec 0 N); [auto|lia]. }
  destruct ST as [S1 (dr & P & L & D)]. unfold bound_ok in BD. rewrite <- K1 in *. rewrite <- K3 in *. fold (kept s) in *.
  change (if Nat.ltb (length (kept s)) N then g_max (s_g s) = R * pow2 (- ne)
          else match kept s with [] => False | p :: _ => g_max (s_g s) = f_bnd (q_fops ne) (fst p) end) in BD.
  assert (IT : Permutation (items (q_fops ne) l) (map (fun p => (snd (fst p) * pow2 ne, vecof p)) (reported s))).
  { unfold items, l, reports. rewrite map_rev. rewrite <- Permutation_rev. rewrite map_map. apply Permutation_refl. }
  exists dr. split; [exact (perm_trans P IT)|]. split.
  - etransitivity; [exact L|]. rewrite (Permutation_length IT), map_length. reflexivity.
  - split; [|split].
    + intros k q Hk Hq. specialize (D k q Hk Hq). apply eltb_ge in D. exact D.
    + intros LT. destruct (Nat.ltb_spec (length (kept s)) N); [exact BD|lia].
    + intros LE k Hk. destruct (Nat.ltb_spec (length (kept s)) N); [lia|].
      change (ev_sols (g_ev (s_g s))) with (kept s) in *. destruct (kept s) as [|p t]; [contradiction|]. rewrite BD. cbn [f_bnd q_fops]. rewrite unscale.
      destruct Hk as [<-|Hk]; [apply Qcle_refl|]. pose proof (sorted_hd (q_fops ne) p t S1 k Hk) as X. apply eltb_ge in X. exact X.
Qed.

(** With the best-N strategy the container ends up with at most N non-zero vectors, pairwise distinct up to
    sign, with their true lengths, all within the radius; any other vector within the radius is at least
    as long as each of them, and is left out only if N are held. *)
Theorem enum_best_n rec fuel s : enum_run rec fuel ne accept_all BestN N (inp None) = Some s ->
  (length (kept s) <= N)%nat /\
  (forall l x, In (l, x) (kept s) -> length x = d /\ nonzero x /\ l = len x /\ len x <= R /\ ~ In (neg x) (map snd (kept s))) /\
  NoDup (map snd (kept s)) /\
  (forall y, length y = d -> nonzero y -> len y <= R -> ~ In y (map snd (kept s)) -> ~ In (neg y) (map snd (kept s)) ->
     length (kept s) = N /\ forall l x, In (l, x) (kept s) -> len x <= len y).
Proof.
  intros H. destruct (best_facts None rec fuel s H) as [F1 F2 F3 F4 F5 [F6 F7]].
  destruct (best_store None rec fuel s H) as (dr & P & L & D & B1 & B2).
  cbn [length] in *. rewrite Nat.sub_0_r in *.
  assert (KIN : forall l x, In (l, x) (kept s ++ dr) -> length x = d /\ tpos x = true /\ l = len x /\ len x <= R).
  { intros l x Hin. apply (Permutation_in _ P) in Hin. apply in_map_iff in Hin as ([[v nd] m] & E & Hin). cbn in E. injection E as <- <-.
    destruct (F1 v nd m Hin) as (A1 & A2 & A3 & A4 & A5 & A6). specialize (A6 eq_refl) as [A6 A7].
    split; auto. split; auto. split; [exact A3|]. specialize (A5 0%nat Hd). cbn in A5. rewrite Qcmult_1_l in A5. exact A5. }
  assert (ND : NoDup (map snd (kept s ++ dr))).
  { apply (Permutation_NoDup (l := map vecof (reported s))); [|exact F2]. apply Permutation_sym. etransitivity; [apply Permutation_map; exact P|].
    rewrite map_map. apply Permutation_refl. }
  rewrite map_app in ND.
  split; [lia|]. split; [|split].
  - intros l x Hin. destruct (KIN l x) as (A1 & A2 & A3 & A4); [apply in_or_app; auto|].
    split; auto. split; [apply nonzero_allz; now apply tpos_nz|]. split; auto. split; auto.
    intros HN'. apply in_map_iff in HN' as ([l' x'] & E & Hin'). cbn in E. subst x'. destruct (KIN l' (neg x)) as (_ & T & _); [apply in_or_app; auto|].
    exact (tpos_not_both x A2 T).
  - clear -ND. induction (map snd (kept s)); [constructor|]. inversion ND; subst. constructor; auto. intros I. apply H1. apply in_or_app; auto.
  - assert (MAIN : forall y, length y = d -> tpos y = true -> len y <= R -> ~ In y (map snd (kept s)) ->
       length (kept s) = N /\ forall l x, In (l, x) (kept s) -> len x <= len y).
    { intros y Ly Ty Ry Ny.
      assert (LNK : forall l x, In (l, x) (kept s) -> l = len x) by (intros l x Hin; apply (KIN l x); apply in_or_app; auto).
      destruct (Qclt_le_dec (g_max (s_g s) * pow2 ne) (len y)) as [LT|LE].
      - assert (LN : length (kept s) = N).
        { destruct (Nat.lt_ge_cases (length (kept s)) N) as [X|X]; [|lia]. exfalso.
          rewrite (B1 X), unscale in LT. apply (Qclt_not_le _ _ LT). exact Ry. }
        split; auto. intros l x Hin. pose proof (B2 LN _ Hin) as Y. cbn [fst] in Y. rewrite (LNK l x Hin) in Y.
        eapply Qcle_trans; [exact Y|]. now apply Qclt_le_weak.
      - assert (IN : In y (map vecof (sols (g_log (s_g s))))).
        { apply F3; auto.
          - apply skipn_all2. lia.
          - intros k Hk. cbn [prune_at]. rewrite Qcmult_1_l. eapply Qcle_trans; [|exact LE].
            apply plen_anti; [|lia]. intros i Hi. apply Qclt_le_weak. auto. }
        assert (IK : In y (map snd (kept s ++ dr))).
        { apply (Permutation_in (l := map vecof (reported s))); [|exact IN]. apply Permutation_sym. etransitivity; [apply Permutation_map; exact P|].
          rewrite map_map. apply Permutation_refl. }
        rewrite map_app in IK. apply in_app_or in IK as [IK|IK]; [contradiction|].
        apply in_map_iff in IK as ([ly y'] & E & IK). cbn in E. subst y'.
        destruct (KIN ly y) as (_ & _ & -> & _); [apply in_or_app; auto|].
        split.
        + pose proof (Permutation_length P) as PL. rewrite app_length, map_length in PL. destruct dr; [destruct IK|]. cbn [length] in PL. lia.
        + intros l x Hin. rewrite <- (LNK l x Hin). apply (D (l, x) (len y, y)); auto. }
    intros y Ly NZ Ry N1 N2. destruct (tpos_or_opp y) as [T|T]; [now apply nonzero_allz|apply MAIN; auto|].
    assert (LY : len (neg y) = len y) by apply plen_neg. rewrite <- LY. apply MAIN; auto.
    + unfold neg. now rewrite map_length.
    + rewrite LY. exact Ry.
Qed.
End Best.

(** Best-solution enumeration (one solution): if the radius admits a non-zero vector, exactly one
    vector is returned, and it is a shortest non-zero one; otherwise nothing is returned. *)
Theorem enum_shortest d mu r findsub R ne rec fuel s :
  (0 < d)%nat -> (forall k, (k < d)%nat -> 0 < r k) -> 0 <= R ->
  enum_run rec fuel ne accept_all BestN 1 (enum_input d mu r None [] findsub None R ne) = Some s ->
  ((exists y, length y = d /\ nonzero y /\ vlen d mu r y <= R) ->
    exists x, kept s = [(vlen d mu r x, x)] /\ length x = d /\ nonzero x /\
      forall y, length y = d -> nonzero y -> vlen d mu r x <= vlen d mu r y) /\
  ((forall y, length y = d -> nonzero y -> R < vlen d mu r y) -> kept s = []).
Proof.
  intros Hd Hr HR H. destruct (enum_best_n d mu r findsub R ne 1 Hd Hr HR ltac:(lia) rec fuel s H) as (A & B & _ & C).
  split.
  - intros (y0 & Y1 & Y2 & Y3).
    destruct (kept s) as [|[l x] [|? ?]] eqn:K; [exfalso; destruct (C y0 Y1 Y2 Y3) as [X _]; [intros []|intros []|discriminate X]| |cbn in A; lia].
    destruct (B l x (or_introl eq_refl)) as (B1 & B2 & -> & B4 & _). exists x. split; auto. split; auto. split; auto.
    intros y L1 L2. destruct (Qclt_le_dec R (vlen d mu r y)) as [LT|LE].
    + eapply Qcle_trans; [exact B4|]. now apply Qclt_le_weak.
    + destruct (list_eq_dec Z.eq_dec y x) as [->|N1]; [apply Qcle_refl|].
      destruct (list_eq_dec Z.eq_dec (neg y) x) as [<-|N2]; [unfold vlen; rewrite plen_neg; apply Qcle_refl|].
      destruct (C y L1 L2 LE) as [_ X]; [intros [E|[]]; auto|intros [E|[]]; auto|]. eapply X. now left.
  - intros HALL. destruct (kept s) as [|[l x] t] eqn:K; auto. exfalso.
    destruct (B l x (or_introl eq_refl)) as (B1 & B2 & _ & B4 & _). apply (Qclt_not_le _ _ (HALL x B1 B2)). exact B4.
Qed.
Theorem enum_best_terminates d mu r target findsub R ne N rec :
  (0 < d)%nat -> (forall k, (k < d)%nat -> 0 < r k) -> 0 <= R -> (1 <= N)%nat ->
  exists fuel s, enum_run rec fuel ne accept_all BestN N (enum_input d mu r target [] findsub None R ne) = Some s.
Proof.
  intros Hd Hr HR HN. apply (call_terminates d mu r target [] findsub None R ne) with (EInv := SInv ne BestN); auto.
  - intros k Hk. cbn. discriminate.
  - apply Qcle_refl.
  - intros. apply SInv_sol; auto.
  - intros ev m K. apply K.
  - intros. now apply SInv_sub.
  - apply SInv_init. pose proof (pow2_pos (- ne)) as P. revert HR P. generalize (pow2 (- ne)). intros. qcnra.
  - cbn [length]. rewrite root_zero. exact HR.
Qed.

(** In terms of the lattice: the enumerator is given the exact Gram-Schmidt data of an independent basis
    (all Gram-Schmidt vectors non-zero); the vector returned is a shortest non-zero vector of the
    lattice in the Euclidean norm. *)
Theorem enum_shortest_lattice c B bs mu findsub R ne rec fuel s :
  (0 < length B)%nat -> gso_of c B (length B) bs mu -> (forall i, (i < length B)%nat -> 0 < norm2 c (bs i)) ->
  let d := length B in
  enum_run rec fuel ne accept_all BestN 1 (enum_input d mu (fun i => norm2 c (bs i)) None [] findsub None R ne) = Some s ->
  (exists y, length y = d /\ nonzero y /\ norm2 c (comb B y) <= R) ->
  exists x, kept s = [(norm2 c (comb B x), x)] /\ length x = d /\ nonzero x /\
    forall y, length y = d -> nonzero y -> norm2 c (comb B x) <= norm2 c (comb B y).
Proof.
  intros Hd G Hr d H HE.
  assert (HR : 0 <= R).
  { destruct HE as (y & _ & _ & Hy). eapply Qcle_trans; [|exact Hy]. unfold norm2, ip. apply qsum_nonneg. intros. apply Qcsq_nonneg. }
  destruct (enum_shortest d mu (fun i => norm2 c (bs i)) findsub R ne rec fuel s Hd Hr HR H) as [A _].
  assert (V : forall x, vlen d mu (fun i => norm2 c (bs i)) x = norm2 c (comb B x)) by (intros x; now apply vlen_norm).
  destruct A as (x & X1 & X2 & X3 & X4).
  - destruct HE as (y & Y1 & Y2 & Y3). exists y. rewrite V. auto.
  - exists x. rewrite V in X1. split; auto. split; auto. split; auto. intros y Y1 Y2. rewrite <- !V. auto.
Qed.

(** Closest vectors without resets: the closest lattice vector to the target with Gram-Schmidt
    coordinates [t] is returned if the radius admits any. *)
Theorem enum_closest d mu r t findsub R ne rec fuel s :
  (0 < d)%nat -> (forall k, (k < d)%nat -> 0 < r k) -> 0 <= R ->
  enum_run rec fuel ne accept_all BestN 1 (enum_input d mu r (Some t) [] findsub None R ne) = Some s ->
  (exists y, length y = d /\ plen d mu r t y 0 <= R) ->
  exists x, kept s = [(plen d mu r t x 0, x)] /\ length x = d /\ forall y, length y = d -> plen d mu r t x 0 <= plen d mu r t y 0.
Proof.
  intros Hd Hr HR H (y0 & Y1 & Y2).
  destruct (best_facts d mu r findsub R ne 1 Hd Hr HR ltac:(lia) (Some t) rec fuel s H) as [F1 F2 F3 F4 F5 [F6 F7]].
  destruct (best_store d mu r findsub R ne 1 Hd Hr HR ltac:(lia) (Some t) rec fuel s H) as (dr & P & L & D & B1 & B2).
  cbn [length] in *. rewrite Nat.sub_0_r in *.
  assert (KIN : forall l x, In (l, x) (kept s ++ dr) -> length x = d /\ l = plen d mu r t x 0 /\ plen d mu r t x 0 <= R).
  { intros l x Hin. apply (Permutation_in _ P) in Hin. apply in_map_iff in Hin as ([[v nd] m] & E & Hin). cbn in E. injection E as <- <-.
    destruct (F1 v nd m Hin) as (A1 & A2 & A3 & A4 & A5 & A6).
    split; auto. split; [exact A3|]. specialize (A5 0%nat Hd). cbn in A5. rewrite Qcmult_1_l in A5. exact A5. }
  assert (FND : forall y, length y = d -> plen d mu r t y 0 <= g_max (s_g s) * pow2 ne -> In y (map snd (kept s ++ dr))).
  { intros y Ly Hy. apply (Permutation_in (l := map vecof (reported s))).
    - apply Permutation_sym. etransitivity; [apply Permutation_map; exact P|]. rewrite map_map. apply Permutation_refl.
    - apply F3; auto.
      + apply skipn_all2. lia.
      + intros k Hk. cbn [prune_at]. rewrite Qcmult_1_l. eapply Qcle_trans; [|exact Hy]. apply plen_anti; [|lia]. intros i Hi. apply Qclt_le_weak. auto.
      + discriminate. }
  pose proof (Permutation_length P) as PL. rewrite app_length, map_length in PL.
  destruct (kept s) as [|[l x] [|? ?]] eqn:K; [exfalso| |cbn [length] in L; lia].
  - assert (G : g_max (s_g s) = R * pow2 (- ne)) by (apply B1; cbn; lia).
    destruct dr; [|cbn [length] in *; lia]. apply (FND y0); auto. rewrite G, unscale. exact Y2.
  - destruct (KIN l x) as (K1 & -> & K3); [now left|]. exists x. split; auto. split; auto. intros y Ly.
    destruct (Qclt_le_dec (g_max (s_g s) * pow2 ne) (plen d mu r t y 0)) as [LT|LE].
    + eapply Qcle_trans; [apply (B2 eq_refl _ (or_introl eq_refl))|]. now apply Qclt_le_weak.
    + pose proof (FND y Ly LE) as IN. cbn [app map] in IN. destruct IN as [<-|IN]; [apply Qcle_refl|].
      apply in_map_iff in IN as ([ly y'] & E & IN). cbn in E. subst y'.
      destruct (KIN ly y) as (_ & -> & _); [now right|]. apply (D _ _ (or_introl eq_refl) IN).
Qed.
(** In terms of Euclidean distance to an arbitrary rational point [tau] (not necessarily in the span). *)
Theorem enum_closest_lattice c B bs mu tau findsub R ne rec fuel s :
  (0 < length B)%nat -> gso_of c B (length B) bs mu -> (forall i, (i < length B)%nat -> 0 < norm2 c (bs i)) -> 0 <= R ->
  let d := length B in
  let r := fun i => norm2 c (bs i) in
  let t := fun i => ip c tau (bs i) / norm2 c (bs i) in
  enum_run rec fuel ne accept_all BestN 1 (enum_input d mu r (Some t) [] findsub None R ne) = Some s ->
  (exists y, length y = d /\ plen d mu r t y 0 <= R) ->
  exists x l, kept s = [(l, x)] /\ length x = d /\ forall y, length y = d -> dist2 c B tau x <= dist2 c B tau y.
Proof.
  intros Hd G Hr HR d r t H HE.
  destruct (enum_closest d mu r t findsub R ne rec fuel s Hd Hr HR H HE) as (x & X1 & X2 & X3).
  exists x, (plen d mu r t x 0). split; auto. split; auto. intros y Ly.
  destruct (gso_coords c B bs mu G tau Hr) as [T1 T2]. cbn zeta in T1, T2.
  rewrite (plen_dist c B bs mu G tau t _ x T1 T2), (plen_dist c B bs mu G tau t _ y T1 T2).
  specialize (X3 y Ly). fold d r. revert X3. generalize (plen d mu r t x 0) (plen d mu r t y 0). intros. apply Qcplus_le_compat; [assumption|apply Qcle_refl].
Qed.

(** ** C21 *)
(** n-th candidate at level [kk] from state [s] *)
Definition nth_cand {EV} (c : ecfg qe_ops) (kk n : nat) (s : est qe_ops EV) : Z := s_x (Nat.iter n (step_x qe_ops c kk) s) kk.
Lemma step_pd {EV} (c : ecfg qe_ops) kk (s : est qe_ops EV) : s_partdist (step_x qe_ops c kk s) = s_partdist s.
Proof. unfold step_x. destruct (_ || _); reflexivity. Qed.
Lemma iter_pd {EV} (c : ecfg qe_ops) kk n (s : est qe_ops EV) : s_partdist (Nat.iter n (step_x qe_ops c kk) s) = s_partdist s.
Proof. induction n; cbn [Nat.iter nat_rect]; auto. rewrite <- IHn. apply step_pd. Qed.
Lemma zigzag_iter {EV} (c : ecfg qe_ops) kk (s : est qe_ops EV) : (c_svp c = false \/ s_partdist s kk <> 0) -> forall n,
  let s' := Nat.iter n (step_x qe_ops c kk) s in
  (s_x s' kk, s_dx s' kk, s_ddx s' kk) = ziter n (s_x s kk, s_dx s kk, s_ddx s kk).
Proof.
  intros H. induction n; [reflexivity|]. cbn [Nat.iter nat_rect]. cbn zeta in IHn. cbn [ziter]. rewrite <- IHn.
  set (s1 := nat_rect _ _ _ n) in *. assert (P1 : s_partdist s1 = s_partdist s) by (apply iter_pd).
  unfold step_x. rewrite P1.
  assert (B : negb (c_svp c) || negb (is0 qe_ops (s_partdist s kk)) = true).
  { destruct H as [->|H]; [reflexivity|]. apply orb_true_intro. right. unfold is0. cbn [e_le e_zero qe_ops].
    destruct (eleb (s_partdist s kk) 0) eqn:E1; [|reflexivity]. destruct (eleb 0 (s_partdist s kk)) eqn:E2; [|reflexivity].
    exfalso. apply H. apply Qcle_antisym; now apply eleb_le. }
  rewrite B. cbn [s_x s_dx s_ddx zigzag zstep]. rewrite !fset_eq. reflexivity.
Qed.
(** At a level entered with centre [ce], candidate round(ce) and step of the sign of ce - round(ce): the
    candidates are all integers, each once, in order of non-decreasing distance from the centre, hence of
    non-decreasing partial length. *)
Definition entered {EV} (s : est qe_ops EV) (kk : nat) (ce : Qc) : Prop :=
  s_center s kk = ce /\ s_x s kk = qround ce /\ s_dx s kk = s_ddx s kk /\ s_dx s kk = (if eleb (Qcz (qround ce)) ce then 1 else -1)%Z.
Theorem zigzag_order {EV} (c : ecfg qe_ops) kk (s : est qe_ops EV) ce : entered s kk ce -> (c_svp c = false \/ s_partdist s kk <> 0) ->
  (forall z, exists n, nth_cand c kk n s = z /\ forall n', nth_cand c kk n' s = z -> n' = n) /\
  (forall n m, (n <= m)%nat -> (Qcz (nth_cand c kk n s) - ce) * (Qcz (nth_cand c kk n s) - ce) <=
                               (Qcz (nth_cand c kk m s) - ce) * (Qcz (nth_cand c kk m s) - ce)) /\
  (forall n m pd r b, (n <= m)%nat -> 0 <= r -> b < e_dist qe_ops pd (e_alpha qe_ops (nth_cand c kk n s) ce) r ->
     b < e_dist qe_ops pd (e_alpha qe_ops (nth_cand c kk m s) ce) r).
Proof.
  intros (E1 & E2 & E3 & E4) H.
  destruct (dx0_facts ce) as (D1 & D2 & D3). unfold dx0 in *. cbn [e_gez qe_ops] in *. rewrite <- E4 in *.
  set (s0 := s_dx s kk) in *.
  assert (X : forall n, nth_cand c kk n s = zx (ziter n (qround ce, s0, s0))).
  { intros n. pose proof (zigzag_iter c kk s H n) as Z. cbn zeta in Z. rewrite E2, <- E3 in Z. fold s0 in Z. rewrite <- Z. reflexivity. }
  assert (MONO : forall n m, (n <= m)%nat -> (Qcz (nth_cand c kk n s) - ce) * (Qcz (nth_cand c kk n s) - ce) <=
                               (Qcz (nth_cand c kk m s) - ce) * (Qcz (nth_cand c kk m s) - ce)).
  { intros n m Hn. rewrite !X. apply zz_mono; auto. }
  split; [|split; [exact MONO|]].
  - intros z. destruct (zz_cover (qround ce) s0 D1 z) as [n Hn]. exists n. rewrite X. split; auto.
    intros n' Hn'. rewrite X in Hn'. apply (zz_inj (qround ce) s0 D1). congruence.
  - intros n m pd r b Hnm Hr Hb. cbn [e_dist e_alpha qe_ops] in *. eapply Qclt_le_trans; [exact Hb|].
    apply Qcplus_le_compat; [apply Qcle_refl|]. apply Qcmult_le_compat_r; auto.
Qed.
(** Searching for short vectors below an all-zero path only the non-negative integers are
    visited, in increasing order (the other half is the mirror image). *)
Theorem half_line_order {EV} (c : ecfg qe_ops) kk (s : est qe_ops EV) : entered s kk 0 -> c_svp c = true -> s_partdist s kk = 0 ->
  forall n, nth_cand c kk n s = Z.of_nat n.
Proof.
  intros (E1 & E2 & _) HS HP n. unfold nth_cand. induction n; [cbn; now rewrite E2|].
  cbn [Nat.iter nat_rect]. set (s1 := nat_rect _ _ _ n) in *. assert (P1 : s_partdist s1 = s_partdist s) by (apply iter_pd).
  unfold Nat.iter in IHn. fold s1 in IHn.
  unfold step_x. rewrite P1, HP, HS. cbn [negb orb]. change (is0 qe_ops 0) with true. cbn [negb incr s_x]. rewrite fset_eq, IHn. lia.
Qed.
(** every level is entered that way: from above on the first visit, on later visits, and at the top *)
Theorem descend_entered {EV} (c : ecfg qe_ops) p nd (s : est qe_ops EV) :
  (exists ce, entered (descend_full qe_ops c p nd s) p ce) /\ (exists ce, entered (descend_one qe_ops c p nd s) p ce) /\
  s_partdist (descend_full qe_ops c p nd s) p = nd /\ s_partdist (descend_one qe_ops c p nd s) p = nd.
Proof.
  split; [|split; [|split]].
  - eexists. unfold entered, descend_full. cbn [s_center s_x s_dx s_ddx]. rewrite !fset_eq. split; [reflexivity|]. repeat split; reflexivity.
  - eexists. unfold entered, descend_one. cbn [s_center s_x s_dx s_ddx]. rewrite !fset_eq. split; [reflexivity|]. repeat split; reflexivity.
  - apply fset_eq.
  - apply fset_eq.
Qed.

(** ** C22 *)
Section Cache.
(** any arithmetic, any evaluator, any target, subtree, pruning, dual or primal *)
Context (o : eops) {EV : Type}.
Variable evalS : list Z -> E o -> E o -> EV -> EV * E o.
Variable evalSub : nat -> list Z -> E o -> EV -> EV.
Variable rst : list Z -> nat -> option (option (list Z * E o)).
Variable inp : einput o.
Hypothesis Hlen : (length (i_subtree inp) < i_d inp)%nat.
Hypothesis Hz : e_le o (e_zero o) (e_zero o) = true.

(** The recursive implementation, with its lazily updated centre sums, computes exactly what the
    description without any cache computes: same reports, same node counts, same evaluator calls, and it runs
    out of fuel exactly when that description does. *)
Theorem recursive_equals_cache_free fuel ev k0 q : prepared o inp = (k0, q) -> (k0 < i_d inp - length (i_subtree inp))%nat ->
  option_map (fun s => s_g s) (run_enum o evalS evalSub rst true fuel inp ev) = pure_run o evalS evalSub rst inp true fuel k0 ev.
Proof.
  intros H Hk. pose proof (run_rec_pure o evalS evalSub rst inp ltac:(lia) fuel ev k0 q H Hk) as R.
  destruct (pure_run o evalS evalSub rst inp true fuel k0 ev) as [g|]; [destruct R as (s & -> & <-); reflexivity|now rewrite R].
Qed.

(** states at the head of the iterative loop *)
Inductive loop_head (q : pst o) (k0 : nat) (ev : EV) : nat -> est o EV -> Prop :=
| lh_start : loop_head q k0 ev (i_d inp - length (i_subtree inp) - 1) (loop_init o (cfg_of o inp q) k0 (init_state o inp q ev))
| lh_step k s k' s' : loop_head q k0 ev k s ->
    iter_step o evalS evalSub (cfg_of o inp q) rst k s = Some (inr (k', s')) -> loop_head q k0 ev k' s'.
(** At every iteration of the iterative implementation the centre of the current level, and of each
    level above, is the one recomputed from all coordinates above it. *)
Theorem iterative_centre_fresh k0 q ev k s : prepared o inp = (k0, q) -> (k0 < i_d inp - length (i_subtree inp))%nat ->
  loop_head q k0 ev k s -> forall j, (k <= j < i_d inp - length (i_subtree inp))%nat ->
  s_center s j = cen o (cfg_of o inp q) j (map (s_x s) (seq (S j) (i_d inp - length (i_subtree inp) - S j))).
Proof.
  intros H Hk HL.
  assert (INV : linv o (cfg_of o inp q) s k /\ s_partdist s (i_d inp - length (i_subtree inp)) = e_zero o).
  { induction HL as [|k s k' s' HL IH HS].
    - destruct (entry_ok o inp ltac:(lia) k0 q ev H Hk) as (kk & Hkk & CI & AL & CE & SF & TL & PD & X & DX & DDX & G & PT).
      rewrite (cfg_same o inp q k0) by (apply prepared_facts; auto; lia).
      replace (i_d inp - length (i_subtree inp) - 1)%nat with kk by lia. split; [|exact PT].
      destruct CI as [C1 C2 C3]. change (c_kend (ecfg0 o inp)) with (i_d inp - length (i_subtree inp))%nat in *.
      constructor; auto; change (c_kend (ecfg0 o inp)) with (i_d inp - length (i_subtree inp))%nat in *; try lia.
      + intros i j Hij Hm. apply C3; auto; lia.
      + intros j Hj. replace j with kk by lia. exact CE.
    - destruct IH as [I1 I2]. apply (iter_step_linv o evalS evalSub (cfg_of o inp q) rst ltac:(cbn; lia) Hz k s k' s' I1 I2 HS). }
  intros j Hj. apply (li_ce _ _ _ _ (proj1 INV) j). exact Hj.
Qed.
(** The iterative implementation ends exactly when the cache-free description of the iterative search does, with the
    same reports, node counts and evaluator calls. *)
Theorem iterative_equals_cache_free ev k0 q g : prepared o inp = (k0, q) -> (k0 < i_d inp - length (i_subtree inp))%nat ->
  (exists fuel, pure_run o evalS evalSub rst inp false fuel k0 ev = Some g) <->
  (exists fuel s, run_enum o evalS evalSub rst false fuel inp ev = Some s /\ s_g s = g).
Proof.
  intros H Hk. split.
  - intros [fuel P]. eapply run_iter_pure; eauto. lia.
  - intros (fuel & s & HR & <-). exists fuel. eapply run_iter_pure_inv; eauto. lia.
Qed.
End Cache.
(** In exact arithmetic that centre is t_j - sum_{l > j} x_l mu(l, j). *)
Theorem centre_value d mu r target findsub prune R ne q (x : nat -> Z) j : (j < d)%nat ->
  prepared qe_ops (enum_input d mu r target [] findsub prune R ne) = (0%nat, q) ->
  cen qe_ops (cfg_of qe_ops (enum_input d mu r target [] findsub prune R ne) q) j (map x (seq (S j) (d - S j))) =
  tgt target j - qsum d (fun l => if Nat.ltb j l then Qcz (x l) * mu l j else 0).
Proof.
  intros Hj HP. set (inp := enum_input d mu r target [] findsub prune R ne) in *.
  rewrite (cfg_same qe_ops inp q 0%nat) by (apply prepared_facts; [cbn; lia|exact HP|cbn; lia]).
  set (v := map x (seq 0 d)).
  assert (V : map x (seq (S j) (d - S j)) = firstn (d - S j) (skipn (S j) v)).
  { unfold v. rewrite firstn_all2 by (rewrite skipn_length, map_length, seq_length; lia).
    rewrite skipn_map. f_equal. replace (seq 0 d) with (seq 0 (S j) ++ seq (S j) (d - S j)) by (rewrite <- seq_app; f_equal; lia).
    rewrite skipn_app, seq_length, Nat.sub_diag, skipn_all2 by (rewrite seq_length; lia). reflexivity. }
  rewrite V. unfold cen.
  rewrite (csum_link inp eq_refl eq_refl ltac:(cbn; lia) v) with (n := (d - S j)%nat).
  - assert (T : itgt inp j = tgt target j) by (unfold itgt, tgt, inp; cbn [i_target enum_input]; destruct target; reflexivity).
    rewrite T. match goal with |- ?a = ?b => change (@eq Qc a b) end. f_equal. f_equal. unfold tsum, sfrom. apply qsum_ext. intros l Hl.
    unfold Nat.ltb. destruct (Nat.leb (S j) l); auto. f_equal. f_equal. unfold v.
    rewrite (nth_indep _ 0%Z (x 0%nat)) by (rewrite map_length, seq_length; exact Hl). rewrite map_nth, seq_nth by exact Hl. reflexivity.
  - apply skipn_all2. unfold v. rewrite map_length, seq_length. cbn. lia.
  - unfold v. rewrite map_length, seq_length. reflexivity.
  - cbn. lia.
  - cbn. lia.
Qed.

(** ** Examples *)
(** a three-dimensional lattice with r = (4, 3, 5/2), mu = (1/2; 1/4, -1/3) *)
Definition ex_mu (i j : nat) : Qc := match i, j with 1%nat, 0%nat => Q2Qc (1#2) | 2%nat, 0%nat => Q2Qc (1#4) | 2%nat, 1%nat => Q2Qc (-1#3) | _, _ => 0 end.
Definition ex_r (i : nat) : Qc := match i with 0%nat => Qcz 4 | 1%nat => Qcz 3 | _ => Q2Qc (5#2) end.
Definition ex_p (i : nat) : Qc := match i with 2%nat => Q2Qc (2#3) | _ => 1 end.
Definition ex_t (i : nat) : Qc := match i with 0%nat => Q2Qc (7#5) | 1%nat => Q2Qc (-3#7) | _ => Q2Qc (9#4) end.
Lemma ex_r_pos k : (k < 3)%nat -> 0 < ex_r k.
Proof. destruct k as [|[|[|k]]]; intros; try lia; reflexivity. Qed.
Lemma ex_p_ok k : (k < 3)%nat -> 0 <= prune_at (Some ex_p) k.
Proof. destruct k as [|[|[|k]]]; intros; try lia; cbn; discriminate. Qed.
Definition show (l : list (list Z * Qc * Qc)) : list (list Z * Q * Q) := map (fun p => (vecof p, this (snd (fst p)), this (snd p))) l.
Definition showk (l : list (Qc * list Z)) : list (Q * list Z) := map (fun p => (this (fst p), snd p)) l.

(** C18: hypotheses and result; normalisation exponent 3; both implementations *)
Definition ex_run (rec : bool) := enum_run rec (if rec then 50 else 500)%nat 3 accept_all BestN 1 (enum_input 3 ex_mu ex_r None [] false None (Qcz 6) 3).
Example enum_shortest_ex :
  option_map (fun s => showk (kept s)) (ex_run true) = option_map (fun s => showk (kept s)) (ex_run false) /\
  option_map (fun s => showk (kept s)) (ex_run true) = Some [((37#12)%Q, [0; 0; 1]%Z)] /\
  (exists y, length y = 3%nat /\ nonzero y /\ eleb (vlen 3 ex_mu ex_r y) (Qcz 6) = true).
Proof. split; [vm_compute; reflexivity|]. split; [vm_compute; reflexivity|]. exists [1; 0; 0]%Z. split; [reflexivity|]. split; [exists 0%nat; discriminate|vm_compute; reflexivity]. Qed.
(** three shortest *)
Example enum_best_n_ex :
  option_map (fun s => showk (kept s)) (enum_run true 50 3 accept_all BestN 3 (enum_input 3 ex_mu ex_r None [] false None (Qcz 12) 3)) =
  option_map (fun s => showk (kept s)) (enum_run false 500 3 accept_all BestN 3 (enum_input 3 ex_mu ex_r None [] false None (Qcz 12) 3)) /\
  option_map (fun s => length (kept s)) (enum_run true 50 3 accept_all BestN 3 (enum_input 3 ex_mu ex_r None [] false None (Qcz 12) 3)) = Some 3%nat.
Proof. split; vm_compute; reflexivity. Qed.
(** C19: reports with pruning, a subtree and a callback *)
Example enum_reports_ex :
  option_map (fun s => length (reported s)) (enum_run true 50 (-1) (fun v => Z.even (hd 0%Z v)) OppN 2 (enum_input 3 ex_mu ex_r None [] true (Some ex_p) (Qcz 12) (-1))) = Some 4%nat /\
  option_map (fun s => length (reported s)) (enum_run false 500 0 accept_all FirstN 2 (enum_input 3 ex_mu ex_r (Some ex_t) [1%Z] true (Some ex_p) (Qcz 20) 0)) = Some 2%nat.
Proof. split; vm_compute; reflexivity. Qed.
(** C20: fixed bound (callback rejecting everything): all 16 vectors up to sign of squared length at most 12 *)
Example enum_complete_ex :
  option_map (fun s => length (reported s)) (enum_run true 50 0 (fun _ => false) BestN 1 (enum_input 3 ex_mu ex_r None [] false None (Qcz 12) 0)) = Some 16%nat /\
  option_map (fun s => length (reported s)) (enum_run false 500 0 (fun _ => false) BestN 1 (enum_input 3 ex_mu ex_r None [] false None (Qcz 12) 0)) = Some 16%nat /\
  option_map (fun s => length (reported s)) (enum_run true 50 0 (fun _ => false) BestN 1 (enum_input 3 ex_mu ex_r (Some ex_t) [] false None (Qcz 12) 0)) = Some 31%nat.
Proof. split; [|split]; vm_compute; reflexivity. Qed.
Example fixed_bound_hyp ne v nd m ev : snd (eval_sol_cb (q_fops ne) (fun _ => false) BestN 1 v nd m ev) = m.
Proof. reflexivity. Qed.
(** a lattice given by an integer basis and its exact Gram-Schmidt data *)
Definition ex_B : list (list Z) := [[3; 1; 0]; [1; 2; 2]; [0; -2; 5]]%Z.
Definition ex_lat (rec : bool) (target : option (nat -> Qc)) :=
  enum_run rec (if rec then 50 else 500)%nat 2 accept_all BestN 1 (enum_input 3 (qM 3 ex_B) (fun i => norm2 3 (qS 3 ex_B i)) target [] false None (Qcz 10) 2).
Example enum_shortest_lattice_ex :
  gso_of 3 ex_B 3 (qS 3 ex_B) (qM 3 ex_B) /\ (forall i, (i < 3)%nat -> eltb 0 (norm2 3 (qS 3 ex_B i)) = true) /\
  option_map (fun s => showk (kept s)) (ex_lat true None) = Some [((9#1)%Q, [0; 1; 0]%Z)] /\
  option_map (fun s => showk (kept s)) (ex_lat false None) = Some [((9#1)%Q, [0; 1; 0]%Z)] /\
  eleb (norm2 3 (comb ex_B [0; 1; 0]%Z)) (Qcz 10) = true.
Proof.
  split; [apply qS_gso|]. split; [intros [|[|[|i]]] Hi; try lia; vm_compute; reflexivity|].
  split; [|split]; vm_compute; reflexivity.
Qed.
Example enum_closest_ex :
  let t := fun i => ip 3 (fun k => Q2Qc (7 # 3) * Qcz (Z.of_nat k) + 1) (qS 3 ex_B i) / norm2 3 (qS 3 ex_B i) in
  option_map (fun s => showk (kept s)) (ex_lat true (Some t)) = option_map (fun s => showk (kept s)) (ex_lat false (Some t)) /\
  option_map (fun s => map snd (kept s)) (ex_lat true (Some t)) = Some [[-1; 3; 0]%Z].
Proof. split; vm_compute; reflexivity. Qed.
(** C21, C22: a search state *)
Example entered_ex : let s := descend_full qe_ops (cfg_of qe_ops (enum_input 3 ex_mu ex_r None [] false None (Qcz 6) 0) (junkp qe_ops (enum_input 3 ex_mu ex_r None [] false None (Qcz 6) 0)))
    0 (Q2Qc (1#2)) (loop_init qe_ops (cfg_of qe_ops (enum_input 3 ex_mu ex_r None [] false None (Qcz 6) 0) (junkp qe_ops (enum_input 3 ex_mu ex_r None [] false None (Qcz 6) 0))) 0
     (init_state qe_ops (enum_input 3 ex_mu ex_r None [] false None (Qcz 6) 0) (junkp qe_ops (enum_input 3 ex_mu ex_r None [] false None (Qcz 6) 0)) tt)) in
  s_partdist s 0 <> 0 /\ map (fun n => nth_cand (cfg_of qe_ops (enum_input 3 ex_mu ex_r None [] false None (Qcz 6) 0) (junkp qe_ops (enum_input 3 ex_mu ex_r None [] false None (Qcz 6) 0))) 0 n s) [0; 1; 2; 3; 4]%nat = [0; 1; -1; 2; -2]%Z.
Proof. split; [vm_compute; discriminate|vm_compute; reflexivity]. Qed.
Example prepared_ex : fst (prepared qe_ops (enum_input 3 ex_mu ex_r (Some ex_t) [] false None (Qcz 6) 0)) = 0%nat.
Proof. vm_compute. reflexivity. Qed.

Print Assumptions enum_reports_true.
Print Assumptions enum_complete_svp.
Print Assumptions enum_complete_cvp.
Print Assumptions enum_fixed_terminates.
Print Assumptions enum_best_n.
Print Assumptions enum_shortest.
Print Assumptions enum_best_terminates.
Print Assumptions enum_shortest_lattice.
Print Assumptions enum_closest_lattice.
Print Assumptions zigzag_order.
Print Assumptions half_line_order.
Print Assumptions descend_entered.
Print Assumptions recursive_equals_cache_free.
Print Assumptions iterative_centre_fresh.
Print Assumptions iterative_equals_cache_free.
Print Assumptions centre_value.
