(** The whole call of [enumerate] in exact arithmetic: what is reported, in terms of projected
    lengths of lattice vectors. *)
From Coq Require Import List ZArith QArith Qround Qcanon Arith Bool Lia.
From Verif Require Import Util NumVectProofs QcUtil EnumModel EnumPure EnumRefine EnumIter EnumTop EnumExact EnumTree EnumSpec.
Import ListNotations.

(** ** the evaluator state is determined by the log *)
Section Replay.
Context (o : eops) {EV : Type}.
Notation gst := (gst o EV).
Variable evalS : list Z -> E o -> E o -> EV -> EV * E o.
Variable evalSub : nat -> list Z -> E o -> EV -> EV.
Variable c : ecfg o.
Variable rst : list Z -> nat -> option (option (list Z * E o)).

Section Pres.
Variable I : gst -> Prop.
Hypothesis Iv : forall kk g, I g -> I (gvisit o kk g).
Hypothesis Is : forall kk v nd g, I g -> I (gsubmaybe o evalSub c kk v nd g).
Hypothesis Il : forall v nd g, I g -> I (gsol o evalS c v nd g).
Lemma pnode_pres rec tl below kk sfx first x nd g b g' :
  (forall sfx pd x dx ddx g g', below sfx pd x dx ddx g = Some g' -> I g -> I g') ->
  pnode o evalS evalSub c rst rec tl below kk sfx first x nd g = Some (b, g') -> I g -> I g'.
Proof.
  intros HB H HI. unfold pnode in H.
  set (g2 := if subany rec first then _ else _) in H.
  assert (I2 : I g2) by (unfold g2; destruct (subany rec first); auto).
  assert (PR : forall d s g3, preset o evalS c rst tl nd d s g2 = Some g3 -> I g3).
  { intros d s g3 P. unfold preset in P. destruct (rst (s ++ tl) d) as [[[sol sd]|]|]; try discriminate.
    - destruct (e_lt o _ _); injection P as <-; auto.
    - injection P as <-; auto. }
  destruct kk as [|p].
  - injection H as <- <-. unfold gleaf. destruct (_ || _); auto.
  - destruct (c_reset c && first && rec && _); [|destruct (c_reset c && negb rec && _)].
    + destruct (preset _ _ _ _ _ _ _ _ _) eqn:P; [|discriminate]. injection H as <- <-. eauto.
    + destruct (preset _ _ _ _ _ _ _ _ _) eqn:P; [|discriminate]. injection H as <- <-. eauto.
    + destruct (below _ _ _ _ _ g2) eqn:P; [|discriminate]. injection H as <- <-. eauto.
Qed.
Lemma plev_pres rec tl fuel : forall L sfx pd x dx ddx g g',
  plev o evalS evalSub c rst rec tl fuel L sfx pd x dx ddx g = Some g' -> I g -> I g'.
Proof.
  induction L as [|kk IH]; intros sfx pd x dx ddx g g' H HI; cbn [plev] in H; [congruence|].
  revert H. generalize (S fuel) as n, true as first. intros n.
  revert x dx ddx g HI. induction n; intros x dx ddx g HI first H; [discriminate|]. cbn [ploop] in H.
  destruct (negb _); [congruence|].
  destruct (pnode _ _ _ _ _ _ _ _ _ _ _ _ _ _) as [[b g1]|] eqn:P; [|discriminate].
  apply pnode_pres in P; auto. destruct b; [congruence|]. destruct (pstep _ _ _ _ _ _) as [[x' dx'] ddx']. eauto.
Qed.
End Pres.

(** the evaluator calls of a log (newest first) starting from [ev0] and bound [m0] *)
Fixpoint replay (ev0 : EV) (m0 : E o) (l : list (event o)) : EV * E o :=
  match l with
  | [] => (ev0, m0)
  | EvSol v nd _ :: t => evalS v nd (snd (replay ev0 m0 t)) (fst (replay ev0 m0 t))
  | EvSub off v nd :: t => (evalSub off v nd (fst (replay ev0 m0 t)), snd (replay ev0 m0 t))
  end.
(** the bound recorded with each report is the one in force *)
Fixpoint log_ok (ev0 : EV) (m0 : E o) (l : list (event o)) : Prop :=
  match l with
  | [] => True
  | EvSol _ _ m :: t => m = snd (replay ev0 m0 t) /\ log_ok ev0 m0 t
  | EvSub _ _ _ :: t => log_ok ev0 m0 t
  end.
Definition replayed (ev0 : EV) (m0 : E o) (g : gst) : Prop :=
  replay ev0 m0 (g_log g) = (g_ev g, g_max g) /\ log_ok ev0 m0 (g_log g).
Lemma plev_replayed rec tl fuel ev0 m0 L sfx pd x dx ddx g g' :
  plev o evalS evalSub c rst rec tl fuel L sfx pd x dx ddx g = Some g' -> replayed ev0 m0 g -> replayed ev0 m0 g'.
Proof.
  intros H. revert H. apply plev_pres.
  - intros kk g0 H. exact H.
  - intros kk v nd g0 [A B]. unfold gsubmaybe. destruct (_ && _ && _); [|split; auto].
    split; cbn; auto. now rewrite A.
  - intros v nd g0 [A B]. unfold gsol. destruct (evalS v nd (g_max g0) (g_ev g0)) as [ev m] eqn:EE. split; cbn; rewrite ?A; auto.
Qed.
End Replay.

Local Open Scope Qc_scope.

(** ** sums from an index *)
Definition sfrom (d j : nat) (f : nat -> Qc) : Qc := qsum d (fun l => if Nat.leb j l then f l else 0).
Lemma sfrom_end d j f : (d <= j)%nat -> sfrom d j f = 0.
Proof. intros H. apply qsum_0. intros i Hi. destruct (Nat.leb_spec j i); [lia|auto]. Qed.
Lemma sfrom_step d j f : (j < d)%nat -> sfrom d j f = f j + sfrom d (S j) f.
Proof.
  intros H. unfold sfrom.
  transitivity (qsum d (fun l => (if Nat.eqb j l then f l else 0) + (if Nat.leb (S j) l then f l else 0))).
  - apply qsum_ext. intros i Hi. destruct (Nat.leb_spec j i), (Nat.leb_spec (S j) i), (Nat.eqb_spec j i); try lia; ring.
  - rewrite qsum_plus. f_equal. rewrite (qsum_single d j); auto.
    + now rewrite Nat.eqb_refl.
    + intros i Hi Hne. destruct (Nat.eqb_spec j i); [congruence|auto].
Qed.

Lemma plen_step d mu r t x k : (k < d)%nat ->
  plen d mu r t x k = plen d mu r t x (S k) + gcoord d mu t x k * gcoord d mu t x k * r k.
Proof. intros H. unfold plen. fold (sfrom d k (fun i => gcoord d mu t x i * gcoord d mu t x i * r i)). rewrite sfrom_step by auto. unfold sfrom. ring. Qed.
Lemma plen_end d mu r t x k : (d <= k)%nat -> plen d mu r t x k = 0.
Proof. apply sfrom_end. Qed.
Lemma gcoord_eq d mu t x i : gcoord d mu t x i = Qcz (nth i x 0%Z) - (t i - sfrom d (S i) (fun j => Qcz (nth j x 0%Z) * mu j i)).
Proof. unfold gcoord, sfrom, Nat.ltb. ring. Qed.
Lemma plen_nonneg d mu r t x k : (forall i, (i < d)%nat -> 0 <= r i) -> 0 <= plen d mu r t x k.
Proof.
  intros H. apply qsum_nonneg. intros i Hi. destruct (Nat.leb k i); [|apply Qcle_refl].
  pose proof (Qcsq_nonneg (gcoord d mu t x i)). specialize (H i Hi). revert H H0. generalize (r i). generalize (gcoord d mu t x i * gcoord d mu t x i). intros. qcnra.
Qed.
Lemma plen_anti d mu r t x k k' : (forall i, (i < d)%nat -> 0 <= r i) -> (k <= k')%nat -> plen d mu r t x k' <= plen d mu r t x k.
Proof.
  intros H Hk. apply qsum_le. intros i Hi. destruct (Nat.leb_spec k i), (Nat.leb_spec k' i); try lia; try apply Qcle_refl.
  pose proof (Qcsq_nonneg (gcoord d mu t x i)). specialize (H i Hi). revert H H2. generalize (r i). generalize (gcoord d mu t x i * gcoord d mu t x i). intros. qcnra.
Qed.

Lemma nth_neg x i : nth i (neg x) 0%Z = (- nth i x 0)%Z.
Proof. unfold neg. change 0%Z with (- 0)%Z at 1. apply map_nth. Qed.
Lemma gcoord_neg d mu x i : gcoord d mu no_target (neg x) i = - gcoord d mu no_target x i.
Proof.
  unfold gcoord, no_target. rewrite nth_neg, Qcz_opp.
  replace (qsum d (fun j => if Nat.ltb i j then Qcz (nth j (neg x) 0%Z) * mu j i else 0))
    with (- qsum d (fun j => if Nat.ltb i j then Qcz (nth j x 0%Z) * mu j i else 0)); [ring|].
  replace (- qsum d (fun j => if Nat.ltb i j then Qcz (nth j x 0%Z) * mu j i else 0))
    with ((-(1)) * qsum d (fun j => if Nat.ltb i j then Qcz (nth j x 0%Z) * mu j i else 0)) by ring.
  rewrite <- qsum_scal. apply qsum_ext. intros j Hj. destruct (Nat.ltb i j); [|ring]. rewrite nth_neg, Qcz_opp. ring.
Qed.
Lemma plen_neg d mu r x k : plen d mu r no_target (neg x) k = plen d mu r no_target x k.
Proof. unfold plen. apply qsum_ext. intros i Hi. rewrite gcoord_neg. destruct (Nat.leb k i); ring. Qed.

Lemma allz_nth w : allz w = true -> forall i, nth i w 0%Z = 0%Z.
Proof.
  unfold allz. intros H i. rewrite forallb_forall in H. destruct (nth_in_or_default i w 0%Z) as [Hin|E]; auto.
  apply H in Hin. apply Z.eqb_eq in Hin. auto.
Qed.
Lemma nonzero_allz w : nonzero w <-> allz w = false.
Proof.
  split.
  - intros [i Hi]. destruct (allz w) eqn:A; auto. now rewrite (allz_nth w A) in Hi.
  - induction w as [|x t IH]; [discriminate|]. cbn [allz forallb]. fold (allz t). intros H.
    destruct (Z.eqb_spec 0 x) as [<-|Hx].
    + cbn [andb] in H. destruct (IH H) as [i Hi]. now exists (S i).
    + exists 0%nat. cbn. congruence.
Qed.

(** ** from the cache-free description to projected lengths *)
Section Link.
Variable inp : einput qe_ops.
Notation d := (i_d inp).
Notation kend := (i_d inp - length (i_subtree inp))%nat.
(** mut[i][j] = mu(j, i), enumerate.cpp:133-140 *)
Definition imu (j i : nat) : Qc := i_mut inp i j.
Definition itgt : nat -> Qc := match i_target inp with None => no_target | Some t => t end.
Definition isvp : bool := match i_target inp with None => allz (i_subtree inp) | Some _ => false end.
Notation r := (i_rdiag inp).
Notation PL x k := (plen d imu r itgt x k).
Hypothesis Hdual : i_dual inp = false.
Hypothesis Hreset : i_subreset inp = false.
Hypothesis Hlen : (length (i_subtree inp) < d)%nat.

Notation c := (ecfg0 qe_ops inp).
Notation pd0 := (p_nd (qsub qe_ops inp)).

Definition tsum (x : list Z) (i j : nat) : Qc := sfrom d j (fun l => Qcz (nth l x 0%Z) * imu l i).

Lemma sub0r (a : Qc) : a = a - 0. Proof. ring. Qed.
Lemma nth_sub x m : skipn kend x = i_subtree inp -> nth (kend + m) x 0%Z = nth m (i_subtree inp) 0%Z.
Proof. intros Hx. rewrite <- (nth_skipn_add kend x m 0%Z). now rewrite Hx. Qed.

Lemma hsteps_inv x : skipn kend x = i_subtree inp -> length x = d -> forall m (q : pst qe_ops), (m <= length (i_subtree inp))%nat ->
  (forall i, (i < kend + m)%nat -> p_cp q i = itgt i - tsum x i (kend + m)) -> p_nd q = PL x (kend + m) ->
  let q' := hsteps qe_ops inp m q in
  (forall i, (i < kend)%nat -> p_cp q' i = itgt i - tsum x i kend) /\ p_nd q' = PL x kend /\
  p_svp q' = p_svp q && allz (firstn m (i_subtree inp)).
Proof.
  intros Hx Hxl. induction m; intros q Hm Hcp Hnd; cbn [hsteps].
  - rewrite Nat.add_0_r in *. repeat split; auto. cbn. now rewrite andb_true_r.
  - set (q1 := prep_step _ _ _ _ _ _ _ _ _).
    assert (HX : nth (kend + m) x 0%Z = nth m (i_subtree inp) 0%Z).
    { now apply nth_sub. }
    assert (Q1 : (forall i, (i < kend + m)%nat -> p_cp q1 i = itgt i - tsum x i (kend + m)) /\ p_nd q1 = PL x (kend + m) /\
                 p_svp q1 = p_svp q && Z.eqb (nth m (i_subtree inp) 0%Z) 0).
    { unfold q1, prep_step. destruct (Nat.leb_spec kend (kend + m)); [|lia]. rewrite Hreset. cbn [negb orb].
      replace (kend + m - kend)%nat with m by lia. cbn [p_x p_cp p_nd p_svp e_alpha e_dist e_subx qe_ops].
      split; [|split; auto].
      - intros i Hi. destruct (Nat.ltb_spec i (kend + m)); [|lia].
        change (E qe_ops) with Qc in *. cbn [E qe_ops] in *. rewrite Hcp by lia.
        unfold tsum. rewrite (sfrom_step d (kend + m)) by lia. replace (kend + S m)%nat with (S (kend + m)) by lia.
        rewrite HX. change (i_mut inp i (kend + m)) with (imu (kend + m) i); ring.
      - rewrite EnumRefine.fset_eq. rewrite (plen_step d imu r itgt x (kend + m)) by lia. rewrite Hnd.
        replace (kend + S m)%nat with (S (kend + m)) by lia. rewrite gcoord_eq, HX.
        rewrite (Hcp (kend + m)%nat) by lia. unfold tsum. replace (kend + S m)%nat with (S (kend + m)) by lia. reflexivity. }
    destruct Q1 as (Q1 & Q2 & Q3). destruct (IHm q1 ltac:(lia) Q1 Q2) as (R1 & R2 & R3).
    repeat split; auto. cbn zeta in R3. rewrite R3, Q3. rewrite <- andb_assoc. f_equal.
    assert (F : firstn (S m) (i_subtree inp) = firstn m (i_subtree inp) ++ [nth m (i_subtree inp) 0%Z]).
    { clear -Hm. revert Hm. generalize (i_subtree inp) as l. induction m; intros [|a l] H; cbn in *; try lia; auto. f_equal. apply IHm. lia. }
    rewrite F. unfold allz. rewrite forallb_app. cbn [forallb]. rewrite andb_true_r, andb_comm; f_equal; apply Z.eqb_sym.
Qed.

Lemma qsub_inv x : skipn kend x = i_subtree inp -> length x = d ->
  (forall i, (i < kend)%nat -> c_cps0 c i = itgt i - tsum x i kend) /\ pd0 = PL x kend.
Proof.
  intros Hx Hxl. destruct (hsteps_inv x Hx Hxl (length (i_subtree inp)) (junkp qe_ops inp) (le_n _)) as (A & B & _); auto.
  - intros i Hi. replace (kend + length (i_subtree inp))%nat with d by lia. unfold tsum. rewrite sfrom_end by lia.
    unfold itgt, junkp. cbn [p_cp e_zero qe_ops]. destruct (i_target inp); apply sub0r.
  - replace (kend + length (i_subtree inp))%nat with d by lia. rewrite plen_end by lia. reflexivity.
Qed.
Definition xz : list Z := repeat 0%Z kend ++ i_subtree inp.
Lemma xz_facts : skipn kend xz = i_subtree inp /\ length xz = d.
Proof.
  unfold xz. split.
  - rewrite skipn_app, repeat_length, Nat.sub_diag. rewrite skipn_all2 by (rewrite repeat_length; lia). reflexivity.
  - rewrite app_length, repeat_length. lia.
Qed.
Lemma qsub_svp : c_svp c = isvp.
Proof.
  destruct xz_facts as [Hx Hxl].
  destruct (hsteps_inv xz Hx Hxl (length (i_subtree inp)) (junkp qe_ops inp) (le_n _)) as (_ & _ & C); auto.
  - intros i Hi. replace (kend + length (i_subtree inp))%nat with d by lia. unfold tsum. rewrite sfrom_end by lia.
    unfold itgt, junkp. cbn [p_cp e_zero qe_ops]. destruct (i_target inp); apply sub0r.
  - replace (kend + length (i_subtree inp))%nat with d by lia. rewrite plen_end by lia. reflexivity.
  - cbn zeta in C. change (p_svp (qsub qe_ops inp) = isvp). unfold qsub. rewrite C. rewrite firstn_all. unfold isvp. cbn. destruct (i_target inp); reflexivity.
Qed.

Lemma csum_link x : skipn kend x = i_subtree inp -> length x = d -> forall n i j, (j + n = kend)%nat -> (i < kend)%nat ->
  csum qe_ops c i j (firstn n (skipn j x)) = itgt i - tsum x i j.
Proof.
  intros Hx Hxl. destruct (qsub_inv x Hx Hxl) as [Hcp _].
  induction n; intros i j Hj Hi.
  - cbn [firstn csum]. rewrite Nat.add_0_r in Hj. subst j. auto.
  - rewrite (skipn_S_nth x j 0%Z) by lia. cbn [firstn csum]. cbn [c_dual ecfg0 cfg_of]. rewrite Hdual.
    rewrite IHn by lia. unfold tsum. rewrite (sfrom_step d j) by lia. cbn [e_subx qe_ops c_mut ecfg0 cfg_of]. change (i_mut inp i j) with (imu j i). match goal with |- ?a = ?b => change (@eq Qc a b) end. ring.
Qed.

Lemma sdist_link x : skipn kend x = i_subtree inp -> length x = d -> forall n j, (j + n = kend)%nat ->
  sdist c pd0 j (firstn n (skipn j x)) = PL x j.
Proof.
  intros Hx Hxl. destruct (qsub_inv x Hx Hxl) as [_ Hnd].
  induction n; intros j Hj.
  - cbn [firstn sdist]. rewrite Nat.add_0_r in Hj. subst j. exact Hnd.
  - rewrite (skipn_S_nth x j 0%Z) by lia. cbn [firstn sdist]. rewrite IHn by lia. rewrite (plen_step d imu r itgt x j) by lia.
    unfold cen. rewrite csum_link by (auto; lia). rewrite gcoord_eq. reflexivity.
Qed.
Lemma skipn_firstn_comm' {A} (l : list A) n m : skipn m (firstn (m + n) l) = firstn n (skipn m l).
Proof. revert l. induction m; intros l; auto. destruct l; cbn; [now rewrite firstn_nil|]. apply IHm. Qed.
(** for a full vector [w ++ subtree] *)
Lemma sdist_plen w k : length w = kend -> (k <= kend)%nat -> sdist c pd0 k (skipn k w) = PL (w ++ i_subtree inp) k.
Proof.
  intros Hw Hk.
  assert (Hx : skipn kend (w ++ i_subtree inp) = i_subtree inp).
  { rewrite skipn_app, <- Hw, Nat.sub_diag, skipn_all. reflexivity. }
  assert (Hxl : length (w ++ i_subtree inp) = d) by (rewrite app_length; lia).
  rewrite <- (sdist_link _ Hx Hxl (kend - k) k) by lia. f_equal.
  rewrite skipn_app, Hw. replace (k - kend)%nat with 0%nat by lia. cbn [skipn].
  rewrite firstn_app, skipn_length, Hw, Nat.sub_diag. cbn [firstn]. rewrite app_nil_r.
  rewrite firstn_all2; auto. rewrite skipn_length. lia.
Qed.

(** prepare_enumeration reaches the levels below the subtree iff the subtree's own length is within the bound *)
Hypothesis Hr : forall k, (k < d)%nat -> 0 < r k.
Lemma hsteps_all : forall m (q : pst qe_ops), (m <= length (i_subtree inp))%nat ->
  (forall i, (i < kend + m)%nat -> p_cp q i = itgt i - tsum xz i (kend + m)) -> p_nd q = PL xz (kend + m) ->
  PL xz kend <= i_maxdist inp ->
  prep_loop qe_ops kend (i_mut inp) r (i_dual inp) (i_subtree inp) (i_subreset inp) (i_maxdist inp) (kend + m) q =
  prep_loop qe_ops kend (i_mut inp) r (i_dual inp) (i_subtree inp) (i_subreset inp) (i_maxdist inp) kend (hsteps qe_ops inp m q).
Proof.
  destruct xz_facts as [Hx Hxl].
  induction m; intros q Hm Hcp Hnd HB; [now rewrite Nat.add_0_r|].
  rewrite Nat.add_succ_r. cbn [prep_loop hsteps e_le qe_ops].
  assert (LE : eleb (p_nd q) (i_maxdist inp) = true).
  { apply eleb_le. rewrite Hnd. eapply Qcle_trans; [|exact HB]. apply plen_anti; [|lia]. intros i Hi. apply Qclt_le_weak. auto. }
  rewrite LE. apply IHm; auto; [lia| |].
  - intros i Hi. unfold prep_step. destruct (Nat.leb_spec kend (kend + m)); [|lia]. rewrite Hreset. cbn [negb orb].
    replace (kend + m - kend)%nat with m by lia. cbn [p_x p_cp p_nd p_svp e_alpha e_dist e_subx qe_ops].
    destruct (Nat.ltb_spec i (kend + m)); [|lia].
    rewrite Hcp by lia. unfold tsum. rewrite (sfrom_step d (kend + m)) by lia. replace (kend + S m)%nat with (S (kend + m)) by lia.
    replace (nth (kend + m) xz 0%Z) with (nth m (i_subtree inp) 0%Z) by (symmetry; now apply nth_sub).
    change (i_mut inp i (kend + m)) with (imu (kend + m) i); (match goal with |- ?a = ?b => change (@eq Qc a b) end); ring.
  - unfold prep_step. destruct (Nat.leb_spec kend (kend + m)); [|lia]. rewrite Hreset. cbn [negb orb].
    replace (kend + m - kend)%nat with m by lia. cbn [p_x p_cp p_nd p_svp e_alpha e_dist e_subx qe_ops].
    rewrite EnumRefine.fset_eq. rewrite (plen_step d imu r itgt xz (kend + m)) by lia. rewrite Hnd.
    replace (kend + S m)%nat with (S (kend + m)) by lia. rewrite gcoord_eq.
    replace (nth (kend + m) xz 0%Z) with (nth m (i_subtree inp) 0%Z) by (symmetry; now apply nth_sub).
    rewrite (Hcp (kend + m)%nat) by lia. unfold tsum. replace (kend + S m)%nat with (S (kend + m)) by lia. reflexivity.
Qed.
Lemma prepared_low : PL xz kend <= i_maxdist inp -> exists k0 q, prepared qe_ops inp = (k0, q) /\ (k0 < kend)%nat.
Proof.
  intros HB. unfold prepared.
  destruct (prep_loop qe_ops kend (i_mut inp) r (i_dual inp) (i_subtree inp) (i_subreset inp) (i_maxdist inp) d (junkp qe_ops inp)) as [k0 q] eqn:P.
  exists k0, q. split; auto.
  assert (P' : prep_loop qe_ops kend (i_mut inp) r (i_dual inp) (i_subtree inp) (i_subreset inp) (i_maxdist inp) (kend + length (i_subtree inp)) (junkp qe_ops inp) = (k0, q)) by (rewrite <- P; f_equal; lia).
  clear P. rename P' into P.
  rewrite hsteps_all in P; auto.
  - fold (qsub qe_ops inp) in P.
    destruct xz_facts as [Hx Hxl]. destruct (qsub_inv xz Hx Hxl) as [_ Hnd].
    assert (LE : forall K m q0 k1 q1, prep_loop qe_ops K (i_mut inp) r (i_dual inp) (i_subtree inp) (i_subreset inp) (i_maxdist inp) m q0 = (k1, q1) -> (k1 <= m)%nat).
    { intros K. induction m; intros q0 k1 q1 H; cbn [prep_loop] in H; [injection H as <- <-; lia|].
      destruct (e_le qe_ops (p_nd q0) (i_maxdist inp)); [apply IHm in H; lia|injection H as <- <-; lia]. }
    assert (LT : forall K m (q0 : pst qe_ops) k1 q1, (0 < m)%nat -> p_nd q0 <= i_maxdist inp -> prep_loop qe_ops K (i_mut inp) r (i_dual inp) (i_subtree inp) (i_subreset inp) (i_maxdist inp) m q0 = (k1, q1) -> (k1 < m)%nat).
    { intros K m q0 k1 q1 Hm Hq H. destruct m; [lia|]. cbn [prep_loop e_le qe_ops] in H. apply eleb_le in Hq. rewrite Hq in H. apply LE in H. lia. }
    apply LT in P; auto; [lia|]. rewrite Hnd. exact HB.
  - intros i Hi. replace (kend + length (i_subtree inp))%nat with d by lia. unfold tsum. rewrite sfrom_end by lia.
    unfold itgt, junkp. cbn [p_cp e_zero qe_ops]. destruct (i_target inp); apply sub0r.
  - replace (kend + length (i_subtree inp))%nat with d by lia. rewrite plen_end by lia. reflexivity.
Qed.

(** ** what a run reports *)
Context {EV : Type}.
Variable evalS : list Z -> Qc -> Qc -> EV -> EV * Qc.
Variable evalSub : nat -> list Z -> Qc -> EV -> EV.
Variable rst : list Z -> nat -> option (option (list Z * Qc)).
Variable EInv : EV -> Qc -> Prop.
Variable ev0 : EV.

Definition ibound (m : Qc) (k : nat) : Qc := match i_prune inp with None => m | Some p => p k * m end.
Definition iok (x : list Z) : Prop := length x = d /\ skipn kend x = i_subtree inp.

Hypothesis Hnr : i_maxidx inp = [].
Hypothesis Hpr : forall p, i_prune inp = Some p -> forall k, (k < kend)%nat -> 0 <= p k.
Hypothesis Hev : forall v nd m ev, EInv ev m -> 0 <= nd -> nd <= ibound m 0 -> (isvp = true -> 0 < nd) ->
  EInv (fst (evalS v nd m ev)) (snd (evalS v nd m ev)) /\ snd (evalS v nd m ev) <= m.
Hypothesis HevS : forall off v nd m ev, EInv ev m -> EInv (evalSub off v nd ev) m.
Hypothesis HE0 : EInv ev0 (i_maxdist inp).
Hypothesis Hroot : PL xz kend <= i_maxdist inp.

Record run_facts (g : gst qe_ops EV) : Prop := {
  rf_sound : forall x nd m, In (x, nd, m) (sols (g_log g)) -> iok x /\ nd = PL x 0 /\ nd <= ibound m 0 /\ m <= i_maxdist inp /\
     (forall k, (k < kend)%nat -> PL x k <= ibound (i_maxdist inp) k) /\ (isvp = true -> tpos x = true /\ 0 < nd);
  rf_nodup : NoDup (map vecof (sols (g_log g)));
  rf_complete : forall x, iok x -> (forall k, (k < kend)%nat -> PL x k <= ibound (g_max g) k) -> (isvp = true -> tpos x = true) ->
     In x (map vecof (sols (g_log g)));
  rf_max : g_max g <= i_maxdist inp;
  rf_inv : EInv (g_ev g) (g_max g);
  rf_replay : replayed qe_ops evalS evalSub ev0 (i_maxdist inp) g }.

Lemma tpos_sub w : isvp = true -> tpos (w ++ i_subtree inp) = tpos w.
Proof. intros H. apply tpos_app. unfold isvp in H. destruct (i_target inp); [discriminate|auto]. Qed.

Lemma hsteps_zero : allz (i_subtree inp) = true -> forall m (q : pst qe_ops), (forall i, p_cp q i = 0) -> forall i, p_cp (hsteps qe_ops inp m q) i = 0.
Proof.
  intros A. induction m; intros q H i; cbn [hsteps]; auto. apply IHm. clear i. intros i. unfold prep_step.
  destruct (Nat.leb_spec kend (kend + m)); [|lia]. rewrite Hreset. cbn [negb orb p_cp].
  destruct (Nat.ltb i (kend + m)); auto. cbn [e_subx qe_ops]. rewrite allz_nth by auto. rewrite H. change (Qcz 0) with 0.
  match goal with |- ?a = ?b => change (@eq Qc a b) end. ring.
Qed.
Lemma svp_facts : c_svp c = true -> (forall i, c_cps0 c i = 0) /\ pd0 = 0.
Proof.
  rewrite qsub_svp. intros H. unfold isvp in H. destruct (i_target inp) eqn:T; [discriminate|].
  destruct xz_facts as [Hx Hxl]. destruct (qsub_inv xz Hx Hxl) as [A B].
  assert (Z0 : forall l, nth l xz 0%Z = 0%Z).
  { apply allz_nth. unfold xz, allz. rewrite forallb_app. fold (allz (i_subtree inp)). rewrite H, andb_true_r.
    clear. induction kend; cbn; auto. }
  assert (TS : forall i j, tsum xz i j = 0).
  { intros i j. apply qsum_0. intros l Hl. destruct (Nat.leb j l); auto. rewrite Z0. change (Qcz 0) with 0. ring. }
  split.
  - change (forall i, p_cp (qsub qe_ops inp) i = 0). apply hsteps_zero; auto. intros i. unfold junkp. rewrite T. reflexivity.
  - rewrite B. apply qsum_0. intros i Hi. destruct (Nat.leb kend i); auto. rewrite gcoord_eq. rewrite Z0.
    change (sfrom d (S i) (fun j => Qcz (nth j xz 0%Z) * imu j i)) with (tsum xz i (S i)). rewrite TS.
    unfold itgt. rewrite T. unfold no_target. change (Qcz 0) with 0. ring.
Qed.

Lemma enough_init : exists fuel, enough c fuel (i_maxdist inp).
Proof. apply enough_exists; [cbn; lia|]. intros k Hk. apply Hr. cbn [c_kend ecfg0 cfg_of] in Hk. lia. Qed.

Lemma top_args k0 :
  c_kend c = kend /\ (c_kend c <= c_d c)%nat /\ (forall k, (k < c_kend c)%nat -> 0 < c_rdiag c k) /\ c_reset c = false /\
  0 <= pd0 /\ (forall p, c_prune c = Some p -> forall k, (k < c_kend c)%nat -> 0 <= p k) /\
  ginv c EInv (g_start qe_ops inp k0 ev0) /\ 
  entry c (pred kend) [] (x_top qe_ops inp) (dx_top qe_ops inp) (dx_top qe_ops inp).
Proof.
  split; [reflexivity|]. split; [cbn; lia|]. split; [intros k Hk; apply Hr; cbn in Hk; lia|].
  split; [cbn; now rewrite Hnr|].
  destruct xz_facts as [Hx Hxl]. destruct (qsub_inv xz Hx Hxl) as [_ B].
  split; [rewrite B; apply plen_nonneg; intros i Hi; apply Qclt_le_weak; auto|].
  split; [exact Hpr|].
  split.
  - split; [|exact HE0]. intros k Hk. cbn [g_bounds g_start g_max]. unfold set_bounds, Bm. cbn [c_prune ecfg0 cfg_of c_d e_mul qe_ops].
    cbn [c_kend ecfg0 cfg_of] in Hk.
    destruct (i_prune inp); destruct (Nat.ltb_spec k d); auto; lia.
  - unfold entry. cbn [cen csum]. change (cen qe_ops c (pred kend) []) with (p_cp (qsub qe_ops inp) (pred kend)).
    unfold dx_top, x_top. replace (kend - 1)%nat with (pred kend) by lia. cbn [e_round qe_ops].
    split; [reflexivity|]. split; [reflexivity|].
    destruct (p_svp (qsub qe_ops inp) && Nat.eqb kend 1) eqn:S; [right|now left].
    apply andb_prop in S as [S1 S2]. apply Nat.eqb_eq in S2. rewrite S2. auto.
Qed.

Lemma hev' : forall v nd m ev, EInv ev m -> 0 <= nd -> nd <= Bm c m 0 -> (c_svp c = true -> 0 < nd) ->
  EInv (fst (evalS v nd m ev)) (snd (evalS v nd m ev)) /\ snd (evalS v nd m ev) <= m.
Proof. intros v nd m ev E1 E2 E3 E4. apply Hev; auto. intros S. apply E4. now rewrite qsub_svp. Qed.

Lemma pure_facts rec fuel k0 g : pure_run qe_ops evalS evalSub rst inp rec fuel k0 ev0 = Some g -> run_facts g.
Proof.
  intros H. unfold pure_run in H. destruct (top_args k0) as (A1 & A2 & A3 & A4 & A5 & A6 & A7 & A8).
  assert (HB : forall m k, Bm c m k = ibound m k) by reflexivity.
  destruct (plev_post evalS evalSub c rst rec (i_subtree inp) pd0 EInv A2 A3 A4 svp_facts A5 A6 hev' HevS fuel kend [] _ _ _ _ g
     ltac:(lia) ltac:(cbn; lia) A7 A8 ltac:(now left) H) as [new P].
  - destruct P as [P1 P2 P3 P4 P5 P6]. cbn [g_log g_start] in P1. change (sols []) with (@nil (list Z * Qc * Qc)) in P1. rewrite app_nil_r in P1.
    constructor.
    + intros x nd m Hin. rewrite P1 in Hin. destruct (P2 x nd m Hin) as (w & -> & W1 & W2 & _ & W3 & W4 & W5 & W6 & W7 & W8).
      rewrite A1 in W1. split; [|split; [|split; [|split; [|split]]]]; auto.
      * split; [rewrite app_length; lia|]. rewrite skipn_app, <- W1, Nat.sub_diag, skipn_all. reflexivity.
      * rewrite W3. change w with (skipn 0 w) at 1. apply sdist_plen; [exact W1|lia].
      * intros k Hk. rewrite <- sdist_plen by (auto; lia). specialize (W6 k Hk).
        rewrite (proj1 A7 k) in W6 by (rewrite A1; lia). exact W6.
      * intros S. split; [|apply W8; now rewrite qsub_svp]. rewrite tpos_sub by auto. apply W7. now rewrite qsub_svp.
    + now rewrite P1.
    + intros x [X1 X2] X3 X4. rewrite P1.
      assert (XX : x = firstn kend x ++ i_subtree inp) by (rewrite <- (firstn_skipn kend x) at 1; now rewrite X2).
      assert (XL : length (firstn kend x) = kend) by (rewrite firstn_length; lia).
      rewrite XX at 1. apply P4; auto.
      * now rewrite skipn_all2 by lia.
      * intros k Hk. rewrite (proj1 P5 k) by (rewrite A1; lia). rewrite HB. rewrite sdist_plen by (auto; lia). rewrite <- XX. auto.
      * intros S. rewrite qsub_svp in S. rewrite <- tpos_sub by auto. rewrite <- XX. auto.
    + exact P6.
    + apply P5.
    + eapply plev_replayed; [exact H|]. split; cbn; auto.
Qed.

Theorem run_spec rec fuel s : run_enum qe_ops evalS evalSub rst rec fuel inp ev0 = Some s -> run_facts (s_g s).
Proof.
  intros H. destruct (prepared_low Hroot) as (k0 & q & HP & Hk).
  destruct rec.
  - pose proof (run_rec_pure qe_ops evalS evalSub rst inp ltac:(lia) fuel ev0 k0 q HP Hk) as R.
    destruct (pure_run qe_ops evalS evalSub rst inp true fuel k0 ev0) as [g|] eqn:PR; [|congruence].
    destruct R as (s' & R1 & R2). assert (s' = s) by congruence. subst s'. rewrite R2. eapply pure_facts; eauto.
  - destruct (enough_init) as [fu EF]. destruct (top_args k0) as (A1 & A2 & A3 & A4 & A5 & A6 & A7 & A8).
    destruct (plev_term evalS evalSub c rst false (i_subtree inp) pd0 EInv A2 A3 A4 svp_facts A5 A6 hev' HevS fu (i_maxdist inp) EF kend [] _ _ _ _ ltac:(lia) ltac:(cbn; lia) A7 (Qcle_refl _) A8 ltac:(now left)) as [g PR].
    destruct (run_iter_pure qe_ops evalS evalSub rst inp ltac:(lia) fu ev0 k0 q g) as (f & s' & R1 & R2); auto.
      assert (s = s') by (eapply run_iter_det; eauto). subst s'. rewrite R2. eapply pure_facts; eauto.
Qed.
Theorem run_terminates rec : exists fuel s, run_enum qe_ops evalS evalSub rst rec fuel inp ev0 = Some s.
Proof.
  destruct (prepared_low Hroot) as (k0 & q & HP & Hk).
  destruct (enough_init) as [fu EF]. destruct (top_args k0) as (A1 & A2 & A3 & A4 & A5 & A6 & A7 & A8).
  destruct (plev_term evalS evalSub c rst rec (i_subtree inp) pd0 EInv A2 A3 A4 svp_facts A5 A6 hev' HevS fu (i_maxdist inp) EF kend [] _ _ _ _ ltac:(lia) ltac:(cbn; lia) A7 (Qcle_refl _) A8 ltac:(now left)) as [g PR].
  destruct rec.
    + pose proof (run_rec_pure qe_ops evalS evalSub rst inp ltac:(lia) fu ev0 k0 q HP Hk) as R.
      unfold pure_run in R. cbn [sdist] in PR. rewrite PR in R. destruct R as (s & R1 & _). eauto.
    + destruct (run_iter_pure qe_ops evalS evalSub rst inp ltac:(lia) fu ev0 k0 q g) as (f & s' & R1 & R2); eauto.
Qed.
End Link.
