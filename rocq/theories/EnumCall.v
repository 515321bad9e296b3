(** One call of enumerate in exact arithmetic with the library's evaluators. *)
From Coq Require Import List ZArith QArith Qpower Qcanon Arith Bool Lia Permutation Sorted.
From Verif Require Import Util QcUtil GsoQ EnumModel EnumRefine EnumTop EnumExact EnumTree EnumSpec EnumLink EvalModel EvalProofs.
Import ListNotations.
Local Open Scope Qc_scope.

(** exact lengths with normalisation exponent [ne] (evaluator.h:114-119, 184-185) *)
Definition q_fops (ne : Z) : fops Qc :=
  {| FT := Qc; f_lt := eltb; f_of := fun x => x * pow2 ne; f_bnd := fun x => x * pow2 (- ne); f_nul := 0; f_z := 0 |}.
Lemma q_asym ne a b : f_lt (q_fops ne) a b = true -> f_lt (q_fops ne) b a = false.
Proof. cbn. rewrite eltb_lt, eltb_ge. apply Qclt_le_weak. Qed.
Lemma q_trans ne a b c : f_lt (q_fops ne) b a = false -> f_lt (q_fops ne) c b = false -> f_lt (q_fops ne) c a = false.
Proof. cbn. rewrite !eltb_ge. apply Qcle_trans. Qed.

(** enumerate.cpp:58-143 for the primal lattice: GSO data [mu], [r] of the block (mut[i][j] = mu(j, i),
    enumerate.cpp:133-140), squared radius [R] = fmaxdist * 2^fmaxdistexpo; r and R are normalised
    by 2^-[ne] (enumerate.cpp:91-131; the code takes for [ne] the largest exponent of the r_i, here any [ne]) *)
Definition enum_input (d : nat) (mu : nat -> nat -> Qc) (r : nat -> Qc) (target : option (nat -> Qc)) (subtree : list Z)
  (findsub : bool) (prune : option (nat -> Qc)) (R : Qc) (ne : Z) : einput qe_ops :=
  Build_einput qe_ops d (fun i j => mu j i) (fun i => r i * pow2 (- ne)) target subtree false false findsub [] d prune (R * pow2 (- ne)).

Lemma pow2_pos k : 0 < pow2 k.
Proof. unfold pow2, Qclt. rewrite !this_Q2Qc. apply Qpower_0_lt. reflexivity. Qed.
Lemma pow2_inv a : pow2 a * pow2 (- a) = 1.
Proof. rewrite <- pow2_add, Z.add_opp_diag_r. reflexivity. Qed.
Lemma scale_le ne a b : a * pow2 (- ne) <= b * pow2 (- ne) <-> a <= b.
Proof.
  pose proof (pow2_pos (- ne)) as P. generalize dependent (pow2 (- ne)). intros s P. split; intros H.
  - apply Qcnot_lt_le. intros L. apply (Qcmult_lt_compat_r _ _ s P) in L. revert H L. generalize (a * s) (b * s). intros. qclra.
  - apply Qcmult_le_compat_r; auto. now apply Qclt_le_weak.
Qed.
Lemma unscale ne a : a * pow2 (- ne) * pow2 ne = a.
Proof. rewrite <- Qcmult_assoc, (Qcmult_comm (pow2 (- ne))), pow2_inv. ring. Qed.
Lemma rescale ne a : a * pow2 ne * pow2 (- ne) = a.
Proof. rewrite <- Qcmult_assoc, pow2_inv. ring. Qed.
Lemma plen_scale d mu r s t x k : plen d mu (fun i => r i * s) t x k = plen d mu r t x k * s.
Proof. unfold plen. rewrite <- qsum_scal_r. apply qsum_ext. intros i Hi. destruct (Nat.leb k i); ring. Qed.

(** ** the invariant of the three strategies, with any callback *)
Section Strat.
Variable ne : Z.
Notation f := (q_fops ne).
Variables (cb : list Z -> bool) (strat : strategy) (N : nat).
Hypothesis HN : (1 <= N)%nat.
Notation evalS := (eval_sol_cb f cb strat N).
Notation evalSub := (eval_sub f).

Definition SInv (ev : evst f) (m : Qc) : Prop :=
  0 <= m /\ (strat = BestN -> sorted f (ev_sols ev) /\ forall p, In p (ev_sols ev) -> 0 <= f_bnd f (fst p) /\ f_bnd f (fst p) <= m).

Lemma sub_sols off v nd ev : ev_sols (evalSub off v nd ev) = ev_sols ev.
Proof. unfold eval_sub. destruct (_ || _); reflexivity. Qed.
Lemma SInv_sub off v nd m ev : SInv ev m -> SInv (evalSub off v nd ev) m.
Proof. unfold SInv. now rewrite sub_sols. Qed.
Lemma SInv_init m : 0 <= m -> SInv (ev_init f) m.
Proof. intros H. split; auto. intros _. split; [constructor|]. intros p []. Qed.

Lemma bnd_of nd : f_bnd f (f_of f nd) = nd.
Proof. apply rescale. Qed.
Lemma bnd_mono a b : a <= b -> f_bnd f a <= f_bnd f b.
Proof. intros H. apply scale_le. exact H. Qed.

Lemma head_bound (l : list (Qc * list Z)) m : l <> [] -> sorted f l -> (forall p, In p l -> 0 <= f_bnd f (fst p) /\ f_bnd f (fst p) <= m) ->
  let b := match l with p :: _ => f_bnd f (fst p) | [] => m end in
  0 <= b /\ b <= m /\ forall p, In p l -> 0 <= f_bnd f (fst p) /\ f_bnd f (fst p) <= b.
Proof.
  intros Nl Sl Al. destruct l as [|q l]; [congruence|]. cbn zeta. destruct (Al q (or_introl eq_refl)) as [A1 A2].
  split; [exact A1|]. split; [exact A2|]. intros p Hp. split; [now apply Al|].
  destruct Hp as [<-|Hp]; [apply Qcle_refl|]. apply bnd_mono. pose proof (sorted_hd f q l Sl p Hp) as K. apply eltb_ge in K. exact K.
Qed.

Lemma SInv_sol v nd m ev : SInv ev m -> 0 <= nd -> nd <= m ->
  SInv (fst (evalS v nd m ev)) (snd (evalS v nd m ev)) /\ snd (evalS v nd m ev) <= m.
Proof.
  intros [M0 SB] N0 NM. unfold eval_sol_cb. destruct (cb v); [|cbn [fst snd]; split; [split; auto|apply Qcle_refl]].
  unfold eval_sol, process_sol. cbn zeta. set (p := (f_of f nd, v)).
  pose proof (emplace_perm f p (ev_sols ev)) as EP. unfold SInv. destruct strat.
  - destruct (SB eq_refl) as [S1 S2].
    pose proof (emplace_sorted f (q_asym ne) (q_trans ne) p _ S1) as ES.
    assert (AL : forall q, In q (emplace f p (ev_sols ev)) -> 0 <= f_bnd f (fst q) /\ f_bnd f (fst q) <= m).
    { intros q Hq. apply (Permutation_in _ EP) in Hq. destruct Hq as [<-|Hq]; auto. unfold p, fst. rewrite bnd_of. auto. }
    destruct (Nat.ltb_spec (length (emplace f p (ev_sols ev))) N).
    + cbn [fst snd ev_sols]. repeat split; auto; try apply Qcle_refl; now apply AL.
    + cbn [fst snd ev_sols]. set (l := if Nat.ltb N _ then _ else _).
      assert (L : l <> [] /\ sorted f l /\ forall q, In q l -> In q (emplace f p (ev_sols ev))).
      { unfold l. destruct (Nat.ltb_spec N (length (emplace f p (ev_sols ev)))).
        - destruct (emplace f p (ev_sols ev)) as [|a [|b t]]; cbn [length List.tl] in *; try lia.
          split; [discriminate|]. split; [now apply (sorted_tl f (a :: b :: t))|]. intros q Hq. now right.
        - destruct (emplace f p (ev_sols ev)); [cbn in *; lia|]. split; [discriminate|]. auto. }
      destruct L as (L1 & L2 & L3).
      destruct (head_bound l m L1 L2 ltac:(intros q Hq; apply AL; auto)) as (B1 & B2 & B3). auto.
  - destruct (Nat.leb _ N); cbn [fst snd]; rewrite bnd_of; (split; [split; [auto|intros X; discriminate X]|auto]).
  - destruct (Nat.ltb _ N); cbn [fst snd f_z q_fops]; (split; [split; [auto; apply Qcle_refl|intros X; discriminate X]|auto; apply Qcle_refl]).
Qed.
End Strat.

(** ** a run in terms of unscaled lengths *)
Section Facts.
Variables (d : nat) (mu : nat -> nat -> Qc) (r : nat -> Qc) (target : option (nat -> Qc)) (subtree : list Z)
  (findsub : bool) (prune : option (nat -> Qc)) (R : Qc) (ne : Z).
Notation inp := (enum_input d mu r target subtree findsub prune R ne).
Notation kend := (d - length subtree)%nat.
Definition tgt (target : option (nat -> Qc)) : nat -> Qc := match target with None => no_target | Some t => t end.
Notation PL x k := (plen d mu r (tgt target) x k).
Definition prune_at (prune : option (nat -> Qc)) (k : nat) : Qc := match prune with None => 1 | Some p => p k end.
Definition svp_call (target : option (nat -> Qc)) (subtree : list Z) : bool := match target with None => allz subtree | Some _ => false end.

Hypothesis Hlen : (length subtree < d)%nat.
Hypothesis Hr : forall k, (k < d)%nat -> 0 < r k.
Hypothesis Hpr : forall k, (k < d)%nat -> 0 <= prune_at prune k.
Hypothesis Hpr0 : prune_at prune 0 <= 1.

Lemma inp_PL x k : plen d (imu inp) (i_rdiag inp) (itgt inp) x k = PL x k * pow2 (- ne).
Proof. rewrite <- plen_scale. unfold itgt. cbn [i_target enum_input]. destruct target; reflexivity. Qed.
Lemma inp_bound m k : ibound inp m k = prune_at prune k * m.
Proof. unfold ibound, prune_at. cbn [i_prune enum_input]. destruct prune; [reflexivity|ring]. Qed.

Context {EV : Type}.
Variable evalS : list Z -> Qc -> Qc -> EV -> EV * Qc.
Variable evalSub : nat -> list Z -> Qc -> EV -> EV.
Variable rst : list Z -> nat -> option (option (list Z * Qc)).
Variable EInv : EV -> Qc -> Prop.
Variable ev0 : EV.
Hypothesis Hev : forall v nd m ev, EInv ev m -> 0 <= nd -> nd <= m -> EInv (fst (evalS v nd m ev)) (snd (evalS v nd m ev)) /\ snd (evalS v nd m ev) <= m.
Hypothesis Hev0 : forall ev m, EInv ev m -> 0 <= m.
Hypothesis HevS : forall off v nd m ev, EInv ev m -> EInv (evalSub off v nd ev) m.
Hypothesis HE0 : EInv ev0 (R * pow2 (- ne)).

(** the coordinates of the subtree alone *)
Definition root_vec : list Z := repeat 0%Z kend ++ subtree.
Hypothesis Hroot : PL root_vec kend <= R.

Record call_facts (g : gst qe_ops EV) : Prop := {
  cf_sound : forall x nd m, In (x, nd, m) (sols (g_log g)) -> length x = d /\ skipn kend x = subtree /\
     nd * pow2 ne = PL x 0 /\ nd <= prune_at prune 0 * m /\
     (forall k, (k < kend)%nat -> PL x k <= prune_at prune k * R) /\
     (svp_call target subtree = true -> tpos x = true /\ 0 < nd);
  cf_nodup : NoDup (map vecof (sols (g_log g)));
  cf_complete : forall x, length x = d -> skipn kend x = subtree ->
     (forall k, (k < kend)%nat -> PL x k <= prune_at prune k * (g_max g * pow2 ne)) ->
     (svp_call target subtree = true -> tpos x = true) -> In x (map vecof (sols (g_log g)));
  cf_max : g_max g <= R * pow2 (- ne);
  cf_inv : EInv (g_ev g) (g_max g);
  cf_replay : replayed qe_ops evalS evalSub ev0 (R * pow2 (- ne)) g }.

Lemma call_hyps :
  (forall k, (k < i_d inp)%nat -> 0 < i_rdiag inp k) /\
  (forall p, i_prune inp = Some p -> forall k, (k < i_d inp - length (i_subtree inp))%nat -> 0 <= p k) /\
  (forall v nd m ev, EInv ev m -> 0 <= nd -> nd <= ibound inp m 0 -> (isvp inp = true -> 0 < nd) ->
    EInv (fst (evalS v nd m ev)) (snd (evalS v nd m ev)) /\ snd (evalS v nd m ev) <= m) /\
  plen d (imu inp) (i_rdiag inp) (itgt inp) (xz inp) kend <= i_maxdist inp.
Proof.
  split; [|split; [|split]].
  - intros k Hk. cbn [i_d i_rdiag enum_input] in *. specialize (Hr k Hk). pose proof (pow2_pos (- ne)). cbn. revert H Hr. generalize (pow2 (- ne)) (r k). intros. qcnra.
  - intros p Hp k Hk. cbn [i_prune enum_input i_d i_subtree] in *. specialize (Hpr k ltac:(lia)). subst prune. exact Hpr.
  - intros v nd m ev H1 H2 H3 _. apply Hev; auto. rewrite inp_bound in H3. pose proof (Hev0 _ _ H1) as M. eapply Qcle_trans; [exact H3|].
    revert M Hpr0. generalize (prune_at prune 0). intros. qcnra.
  - rewrite inp_PL. cbn [i_maxdist enum_input]. apply scale_le. exact Hroot.
Qed.

Theorem call_spec rec fuel s : run_enum qe_ops evalS evalSub rst rec fuel inp ev0 = Some s -> call_facts (s_g s).
Proof.
  intros H. destruct call_hyps as (C1 & C2 & C3 & C4).
  destruct (run_spec inp eq_refl eq_refl Hlen C1 evalS evalSub rst EInv ev0 eq_refl C2 C3 HevS HE0 C4 rec fuel s H) as [F1 F2 F3 F4 F5 F6].
  constructor; auto.
  - intros x nd m Hin. destruct (F1 x nd m Hin) as ([A1 A1'] & A2 & A3 & A4 & A5 & A6). cbn [i_d i_subtree enum_input] in *.
    rewrite inp_PL in A2. rewrite inp_bound in A3.
    split; [exact A1|]. split; [exact A1'|]. split; [rewrite A2; apply unscale|]. split; [exact A3|]. split.
    + intros k Hk. specialize (A5 k Hk). rewrite inp_PL, inp_bound in A5. cbn [i_maxdist enum_input] in A5.
      rewrite Qcmult_assoc in A5. now apply scale_le in A5.
    + intros S. apply A6. unfold isvp. cbn [i_target enum_input i_subtree]. unfold svp_call in S. destruct target; auto.
  - intros x X1 X2 X3 X4. apply F3; [split; assumption| |].
    + intros k Hk. specialize (X3 k Hk). rewrite inp_PL, inp_bound. apply (scale_le ne) in X3. eapply Qcle_trans; [exact X3|].
      rewrite Qcmult_assoc, rescale. apply Qcle_refl.
    + intros S. apply X4. unfold isvp in S. cbn [i_target enum_input i_subtree] in S. unfold svp_call. destruct target; auto.
Qed.
Theorem call_terminates rec : exists fuel s, run_enum qe_ops evalS evalSub rst rec fuel inp ev0 = Some s.
Proof.
  destruct call_hyps as (C1 & C2 & C3 & C4).
  exact (run_terminates inp eq_refl Hlen C1 evalS evalSub rst EInv ev0 eq_refl C2 C3 HevS HE0 C4 rec).
Qed.
End Facts.
Arguments cf_sound {d mu r target subtree prune R ne EV evalS evalSub EInv ev0 g}.

(** ** the evaluator calls of a log are the reports, oldest first *)
Definition reports (l : list (list Z * Qc * Qc)) : list (list Z * Qc) := rev (map fst l).
Lemma replay_eval_all ne strat N ev0 m0 l :
  let f := q_fops ne in
  let a := replay qe_ops (eval_sol f strat N) (eval_sub f) ev0 m0 l in
  let b := eval_all f strat N (reports (sols l)) ev0 m0 in
  ev_sols (fst a) = ev_sols (fst b) /\ ev_count (fst a) = ev_count (fst b) /\ snd a = snd b.
Proof.
  cbn zeta. induction l as [|e l IH]; [cbn; auto|].
  destruct IH as (I1 & I2 & I3). destruct e as [v nd m|off v nd].
  - change (sols (EvSol v nd m :: l)) with ((v, nd, m) :: sols l). unfold reports. cbn [map rev fst]. fold (reports (sols l)).
    rewrite eval_all_app. cbn [replay].
    destruct (eval_all (q_fops ne) strat N (reports (sols l)) ev0 m0) as [e1 m1]. cbn [fst snd] in *.
    destruct (replay qe_ops _ _ ev0 m0 l) as [e2 m2]. cbn [fst snd] in *. subst m2. cbn [eval_all].
    unfold eval_sol, process_sol. cbn zeta. rewrite I1, I2.
    destruct strat; [destruct (Nat.ltb _ N)|destruct (Nat.leb _ N)|destruct (Nat.ltb _ N)]; cbn; auto.
  - change (sols (EvSub off v nd :: l)) with (sols l). cbn [replay fst snd]. rewrite sub_sols. split; [auto|]. split; auto.
    rewrite <- I2. unfold eval_sub. destruct (_ || _); reflexivity.
Qed.

(** the same with a callback: only accepted reports reach the store *)
Lemma replay_filter ne cb strat N ev0 m0 l :
  let f := q_fops ne in
  let a := replay qe_ops (eval_sol_cb f cb strat N) (eval_sub f) ev0 m0 l in
  let b := eval_all f strat N (filter (fun p => cb (fst p)) (reports (sols l))) ev0 m0 in
  ev_sols (fst a) = ev_sols (fst b) /\ ev_count (fst a) = ev_count (fst b) /\ snd a = snd b.
Proof.
  cbn zeta. induction l as [|e l IH]; [cbn; auto|].
  destruct IH as (I1 & I2 & I3). destruct e as [v nd m|off v nd].
  - change (sols (EvSol v nd m :: l)) with ((v, nd, m) :: sols l). unfold reports. cbn [map rev fst]. fold (reports (sols l)).
    rewrite filter_app. cbn [filter fst]. rewrite eval_all_app. cbn [replay].
    destruct (eval_all (q_fops ne) strat N (filter _ (reports (sols l))) ev0 m0) as [e1 m1]. cbn [fst snd] in *.
    destruct (replay qe_ops _ _ ev0 m0 l) as [e2 m2]. cbn [fst snd] in *. subst m2.
    unfold eval_sol_cb. destruct (cb v); [|cbn [eval_all fst snd]; auto]. cbn [eval_all].
    unfold eval_sol, process_sol. cbn zeta. rewrite I1, I2.
    destruct strat; [destruct (Nat.ltb _ N)|destruct (Nat.leb _ N)|destruct (Nat.ltb _ N)]; cbn; auto.
  - change (sols (EvSub off v nd :: l)) with (sols l). cbn [replay fst snd]. rewrite sub_sols. split; [auto|]. split; auto.
    rewrite <- I2. unfold eval_sub. destruct (_ || _); reflexivity.
Qed.
(** the bound recorded with a report is the one left by the reports before it *)
Lemma log_bound {EV} (evalS : list Z -> Qc -> Qc -> EV -> EV * Qc) evalSub ev0 m0 : forall l later x nd m earlier,
  log_ok qe_ops evalS evalSub ev0 m0 l -> sols l = later ++ (x, nd, m) :: earlier ->
  exists l', sols l' = earlier /\ m = snd (replay qe_ops evalS evalSub ev0 m0 l').
Proof.
  induction l as [|e l IH]; intros later x nd m earlier H S.
  - destruct later; discriminate S.
  - destruct e as [v nd' m'|off v nd'].
    + change (sols (EvSol v nd' m' :: l)) with ((v, nd', m') :: sols l) in S. destruct H as [H1 H2].
      destruct later as [|a later]; cbn [app] in S.
      * exists l. inversion S; subst. auto.
      * apply (IH later x nd m earlier H2). now inversion S.
    + change (sols (EvSub off v nd' :: l)) with (sols l) in S. eapply IH; eauto.
Qed.

(** if the subtree alone is outside the bound nothing is enumerated *)
Lemma root_outside (inp : einput qe_ops) {EV} (evalS : list Z -> Qc -> Qc -> EV -> EV * Qc) evalSub rst rec fuel ev0 s :
  i_subreset inp = false -> (length (i_subtree inp) < i_d inp)%nat ->
  i_maxdist inp < plen (i_d inp) (imu inp) (i_rdiag inp) (itgt inp) (xz inp) (i_d inp - length (i_subtree inp)) ->
  run_enum qe_ops evalS evalSub rst rec fuel inp ev0 = Some s -> g_log (s_g s) = [].
Proof.
  intros Hs Hl HB H. unfold run_enum in H. destruct (prepared qe_ops inp) as [k0 q] eqn:P.
  unfold enum_loop in H. cbn [c_kend cfg_of] in H. destruct (Nat.leb_spec (i_d inp - length (i_subtree inp)) k0) as [L|L].
  - injection H as <-. reflexivity.
  - exfalso. unfold prepared in P.
    assert (P' : prep_loop qe_ops (i_d inp - length (i_subtree inp)) (i_mut inp) (i_rdiag inp) (i_dual inp) (i_subtree inp) (i_subreset inp) (i_maxdist inp)
       (i_d inp - length (i_subtree inp) + length (i_subtree inp)) (junkp qe_ops inp) = (k0, q)) by (rewrite <- P; f_equal; lia).
    apply prep_high in P'; auto. fold (qsub qe_ops inp) in P'.
    destruct (xz_facts inp Hl) as [Hx Hxl]. destruct (qsub_inv inp Hs Hl (xz inp) Hx Hxl) as [_ Hnd].
    destruct (i_d inp - length (i_subtree inp))%nat eqn:KE; [lia|]. cbn [prep_loop e_le qe_ops] in P'.
    rewrite Hnd in P'. apply eleb_gt in HB. rewrite HB in P'. injection P' as <- _. lia.
Qed.
