(** The iterative closest-vector enumeration with resets finds the minimum. *)
From Coq Require Import List ZArith QArith Qcanon Arith Bool Lia.
From Verif Require Import Util QcUtil GsoQ EnumModel EnumPure EnumRefine EnumIter EnumTop EnumExact EnumTree EnumSpec EnumLink
  EvalModel EvalProofs EnumCall EnumReset WrapperProofs NumVectProofs RotateSpec.
Import ListNotations.
Local Open Scope Qc_scope.

Section Min.
Variable ne : Z.
Notation f := (q_fops ne).
Notation EV := (evst f).
Notation gst := (gst qe_ops EV).
Variable c : ecfg qe_ops.
Variable rst : list Z -> nat -> option (option (list Z * Qc)).
Variable tl : list Z.
Variable pd0 M0 : Qc.
Notation ke := (c_kend c).
Notation r := (c_rdiag c).
Notation cn := (cen qe_ops c).
Notation sd := (sdist c pd0).
Notation evalS := (eval_sol f BestN 1).
Notation evalSub := (eval_sub f).
Hypothesis Hke : (ke <= c_d c)%nat.
Hypothesis Hr : forall k, (k < ke)%nat -> 0 < r k.
Hypothesis Hsvp : c_svp c = false.
Hypothesis Hpr : c_prune c = None.
Hypothesis Hpd0 : 0 <= pd0.
(** what the sub-enumeration returns *)
Definition rst_ok (partial : list Z) (depth : nat) (res : option (list Z * Qc)) : Prop :=
  forall sfx, partial = sfx ++ tl -> length sfx = (ke - S depth)%nat ->
  match res with
  | None => False
  | Some (sol, l) =>
      sd 0 (map (fun i => nth i sol 0%Z) (seq 0 (S depth)) ++ sfx) = l + sd (S depth) sfx /\
      forall w, length w = ke -> skipn (S depth) w = sfx -> l + sd (S depth) sfx <= sd 0 w
  end.
Hypothesis Hrst : forall partial depth res, (S depth < ke)%nat -> rst partial depth = Some res -> rst_ok partial depth res.

Definition EOk (ev : EV) (m : Qc) : Prop :=
  (ev_sols ev = [] /\ m = M0) \/ exists w, length w = ke /\ m = sd 0 w /\ ev_sols ev = [(m * pow2 ne, w ++ tl)].
Record mg (g : gst) : Prop := {
  mg_b : forall k, (k < ke)%nat -> g_bounds g k = g_max g;
  mg_e : EOk (g_ev g) (g_max g);
  mg_l : forall v nd m, In (v, nd, m) (sols (g_log g)) -> exists w, v = w ++ tl /\ length w = ke /\ nd = sd 0 w /\ nd <= m }.

Lemma eok_sol w m ev : length w = ke -> EOk ev m -> sd 0 w <= m ->
  EOk (fst (evalS (w ++ tl) (sd 0 w) m ev)) (sd 0 w) /\ snd (evalS (w ++ tl) (sd 0 w) m ev) = sd 0 w.
Proof.
  intros Hw HE HM. unfold eval_sol, process_sol. destruct HE as [[-> ->]|(w' & W1 & W2 & ->)].
  - cbn [emplace length Nat.ltb Nat.leb fst snd ev_sols f_of f_bnd q_fops]. split; [|apply rescale].
    right. exists w. auto.
  - cbn [emplace f_lt f_of q_fops fst].
    destruct (eltb (m * pow2 ne) (sd 0 w * pow2 ne)) eqn:L; cbn [length Nat.ltb Nat.leb List.tl fst snd ev_sols f_bnd q_fops].
    + exfalso. apply eltb_lt in L. apply (Qclt_not_le _ _ L). apply Qcmult_le_compat_r; auto. apply Qclt_le_weak, pow2_pos.
    + split; [|apply rescale]. right. exists w. auto.
Qed.

Record mpost (g g' : gst) (sel : list Z -> Prop) : Prop := {
  mp_g : mg g'; mp_m : g_max g' <= g_max g; mp_s : forall w, length w = ke -> sel w -> g_max g' <= sd 0 w }.

Lemma gsol_post w g : length w = ke -> mg g -> sd 0 w <= g_max g ->
  mpost g (gsol qe_ops evalS c (w ++ tl) (sd 0 w) g) (fun w' => sd 0 w <= sd 0 w').
Proof.
  intros Hw [G1 G2 G3] HM. destruct (eok_sol w (g_max g) (g_ev g) Hw G2 HM) as [A B].
  unfold gsol. destruct (evalS (w ++ tl) (sd 0 w) (g_max g) (g_ev g)) as [ev m]. cbn [fst snd] in A, B. subst m.
  split; [split|auto|auto]; cbn [g_bounds g_max g_ev g_log]; auto.
  - intros k Hk. unfold set_bounds. rewrite Hpr. destruct (Nat.ltb_spec k (c_d c)); [reflexivity|lia].
  - intros v nd m Hin. unfold sols in Hin. cbn [flat_map app] in Hin. destruct Hin as [E|Hin]; [|auto]. injection E as <- <- <-. exists w. auto.
Qed.

Lemma sd_anti w : length w = ke -> forall n k, (k + n <= ke)%nat -> sd (k + n) (skipn (k + n) w) <= sd k (skipn k w).
Proof.
  intros Hw. induction n; intros k Hk; [rewrite Nat.add_0_r; apply Qcle_refl|].
  eapply Qcle_trans; [replace (k + S n)%nat with (S k + n)%nat by lia; apply IHn; lia|].
  rewrite (skipn_S_nth w k 0%Z) by lia. cbn [sdist]. pose proof (Qcsq_nonneg (Qcz (nth k w 0%Z) - cn k (skipn (S k) w))) as N.
  pose proof (Hr k ltac:(lia)) as R. generalize dependent ((Qcz (nth k w 0%Z) - cn k (skipn (S k) w)) * (Qcz (nth k w 0%Z) - cn k (skipn (S k) w))).
  intros a N. generalize (sd (S k) (skipn (S k) w)). revert R. generalize (r k). intros. qcnra.
Qed.

Lemma preset_post p sfx g g' : (S p < ke)%nat -> length sfx = (ke - S p)%nat -> mg g ->
  preset qe_ops evalS c rst tl (sd (S p) sfx) p sfx g = Some g' -> mpost g g' (fun w => skipn (S p) w = sfx).
Proof.
  intros Hp Hl G. unfold preset. destruct (rst (sfx ++ tl) p) as [res|] eqn:R; [|discriminate].
  pose proof (Hrst _ _ _ Hp R sfx eq_refl Hl) as K. destruct res as [[sol l]|]; [|contradiction].
  destruct K as [K1 K2]. cbn [e_add e_lt qe_ops]. set (u := map _ _) in *.
  rewrite (mg_b g G 0%nat) by lia.
  destruct (eltb (l + sd (S p) sfx) (g_max g)) eqn:L; intros H; injection H as <-.
  - apply eltb_lt in L. rewrite <- K1. rewrite app_assoc.
    assert (UL : length (u ++ sfx) = ke) by (unfold u; rewrite app_length, map_length, seq_length; lia).
    destruct (gsol_post (u ++ sfx) g UL G) as [A B C]; [rewrite K1; now apply Qclt_le_weak|].
    split; auto. intros w Hw Hs. apply C; auto. rewrite K1. auto.
  - apply eltb_ge in L. split; auto; [apply Qcle_refl|]. intros w Hw Hs. eapply Qcle_trans; [exact L|]. auto.
Qed.

Lemma mg_visit kk g : mg g -> mg (gvisit qe_ops kk g).
Proof. intros [A B C]. split; auto. Qed.
Lemma mg_sub kk v nd g : mg g -> mg (gsubmaybe qe_ops evalSub c kk v nd g) /\ g_max (gsubmaybe qe_ops evalSub c kk v nd g) = g_max g.
Proof.
  intros [A B C]. unfold gsubmaybe. destruct (_ && _ && _); [|split; [split|]; auto]. split; [|reflexivity].
  split; cbn [gsub g_bounds g_max g_ev g_log]; auto. unfold EOk. rewrite sub_sols. exact B.
Qed.

Lemma mpost_refl_pre g g1 g' sel : g_max g1 = g_max g -> mpost g1 g' sel -> mpost g g' sel.
Proof. intros E [A B C]. split; auto. now rewrite <- E. Qed.

(** one node of the iterative search *)
Lemma pnode_post below kk sfx first x g b g' : (kk < ke)%nat -> (S kk + length sfx = ke)%nat -> mg g -> sd kk (x :: sfx) <= g_max g ->
  (forall g1 g2 p, kk = S p -> mg g1 -> 
     below (x :: sfx) (sd kk (x :: sfx)) (qround (cn p (x :: sfx))) (dx0 qe_ops (cn p (x :: sfx)) (qround (cn p (x :: sfx))))
       (dx0 qe_ops (cn p (x :: sfx)) (qround (cn p (x :: sfx)))) g1 = Some g2 -> mpost g1 g2 (fun w => skipn kk w = x :: sfx)) ->
  pnode qe_ops evalS evalSub c rst false tl below kk sfx first x (sd kk (x :: sfx)) g = Some (b, g') ->
  b = false /\ mpost g g' (fun w => skipn kk w = x :: sfx).
Proof.
  intros Hkk Hlen G HM Hbelow H. unfold pnode in H. unfold subany in H. rewrite orb_true_r in H.
  destruct (mg_sub kk (repeat 0%Z kk ++ x :: sfx ++ tl) (sd kk (x :: sfx)) (gvisit qe_ops kk g) (mg_visit kk g G)) as [G2 E2].
  set (g2 := gsubmaybe _ _ _ _ _ _ _) in *. change (g_max (gvisit qe_ops kk g)) with (g_max g) in E2.
  rewrite andb_false_r, andb_false_l in H.
  destruct kk as [|p].
  - injection H as <- <-. split; auto. apply (mpost_refl_pre g g2); auto. unfold gleaf. rewrite Hsvp. cbn [negb orb].
    assert (L : length (x :: sfx) = ke) by (cbn [length]; lia).
    destruct (gsol_post (x :: sfx) g2 L G2) as [A B C]; [now rewrite E2|].
    split; auto. intros w Hw Hs. apply C; auto. cbn [skipn] in Hs. subst w. apply Qcle_refl.
  - rewrite andb_true_r in H. destruct (c_reset c && (Z.of_nat p <? c_rdepth c)%Z) eqn:RS.
    + destruct (preset _ _ _ _ _ _ _ _ g2) as [g3|] eqn:P; cbn [option_map] in H; [|discriminate]. injection H as <- <-. split; auto.
      apply (mpost_refl_pre g g2); auto. apply preset_post in P; auto. cbn [length]. lia.
    + destruct (below _ _ _ _ _ g2) as [g3|] eqn:Bl; cbn [option_map] in H; [|discriminate]. injection H as <- <-. split; auto.
      apply (mpost_refl_pre g g2); auto. eapply (Hbelow g2 g3 p); eauto.
Qed.

Lemma mloop_post below kk sfx t0 :
  (kk < ke)%nat -> (S kk + length sfx = ke)%nat ->
  cands c kk sfx (fun i => zx (st c (sd (S kk) sfx) t0 i)) ->
  (forall x g g' p, kk = S p -> mg g ->
     below (x :: sfx) (sd kk (x :: sfx)) (qround (cn p (x :: sfx))) (dx0 qe_ops (cn p (x :: sfx)) (qround (cn p (x :: sfx))))
       (dx0 qe_ops (cn p (x :: sfx)) (qround (cn p (x :: sfx)))) g = Some g' -> mpost g g' (fun w => skipn kk w = x :: sfx)) ->
  forall n i first g g', mg g ->
  ploop qe_ops evalS evalSub c rst false tl below kk sfx (sd (S kk) sfx) n first
     (fst (fst (st c (sd (S kk) sfx) t0 i))) (snd (fst (st c (sd (S kk) sfx) t0 i))) (snd (st c (sd (S kk) sfx) t0 i)) g = Some g' ->
  mpost g g' (fun w => skipn (S kk) w = sfx /\ exists j, (i <= j)%nat /\ nth kk w 0%Z = zx (st c (sd (S kk) sfx) t0 j)).
Proof.
  intros Hkk Hlen CA Hbelow. set (pd := sd (S kk) sfx) in *.
  set (xs := fun i => zx (st c pd t0 i)) in *.
  induction n; intros i first g g' GI H; [discriminate|].
  cbn [ploop] in H.
  change (fst (fst (st c pd t0 i))) with (xs i) in H.
  set (nd := e_dist qe_ops pd (e_alpha qe_ops (xs i) (cn kk sfx)) (r kk)) in H.
  assert (Hnd : nd = sd kk (xs i :: sfx)) by (cbn; reflexivity).
  cbn [e_le qe_ops] in H. rewrite (mg_b g GI kk) in H by auto.
  destruct (eleb nd (g_max g)) eqn:Hle; cbn [negb] in H.
  2:{ injection H as <-. apply eleb_gt in Hle. split; auto; [apply Qcle_refl|].
      intros w Hw [Hsk (j & Hij & Hx)]. eapply Qcle_trans; [|apply (sd_anti w Hw kk 0%nat); lia].
      cbn [Nat.add]. rewrite (nth_skip_eq c Hke w kk sfx) by auto. rewrite Hx. fold (xs j).
      pose proof (ca_mono _ _ _ _ CA i j Hij) as M.
      cbn [sdist]. fold pd. rewrite Hnd in Hle. cbn [sdist] in Hle. fold pd in Hle.
      pose proof (Hr kk Hkk) as R. fold (xs i) in M. fold (xs j) in M.
      revert M Hle. generalize ((Qcz (xs i) - cn kk sfx) * (Qcz (xs i) - cn kk sfx)), ((Qcz (xs j) - cn kk sfx) * (Qcz (xs j) - cn kk sfx)).
      intros a b M Hle. revert R M Hle. generalize (r kk), (g_max g). intros. qcnra. }
  apply eleb_le in Hle.
  destruct (pnode qe_ops evalS evalSub c rst false tl below kk sfx first (xs i) nd g) as [[b g1]|] eqn:PN; [|discriminate].
  rewrite Hnd in PN, Hle.
  destruct (pnode_post below kk sfx first (xs i) g b g1 Hkk Hlen GI Hle (Hbelow (xs i)) PN) as [-> [P1 P2 P3]].
  specialize (IHn (S i) false g1 g' P1).
  cbn [st] in IHn. unfold pst3 in IHn.
  destruct (st c pd t0 i) as [[x dx] ddx] eqn:Est. cbn [fst snd] in *.
  assert (HXi : xs i = x) by (unfold xs; rewrite Est; reflexivity). rewrite HXi in *.
  destruct (pstep qe_ops c pd x dx ddx) as [[x' dx'] ddx'] eqn:Epst. cbn [fst snd] in IHn.
  destruct (IHn H) as [Q1 Q2 Q3].
  split; auto; [eapply Qcle_trans; eauto|].
  intros w Hw [Hsk (j & Hij & Hx)]. destruct (Nat.eq_dec i j) as [<-|Hne].
  - eapply Qcle_trans; [exact Q2|]. apply P3; auto. rewrite (nth_skip_eq c Hke w kk sfx) by auto. rewrite Hx. fold (xs i). now rewrite HXi.
  - apply Q3; auto. split; auto. exists j. split; auto. lia.
Qed.

Lemma svp_void : c_svp c = true -> (forall i, c_cps0 c i = 0) /\ pd0 = 0.
Proof. rewrite Hsvp. discriminate. Qed.
Lemma ok_void sfx : c_svp c = true -> allz sfx = true \/ tpos sfx = true.
Proof. rewrite Hsvp. discriminate. Qed.

Lemma mcands kk sfx x dx ddx : (kk < ke)%nat -> (S kk + length sfx = ke)%nat -> entry c kk sfx x dx ddx ->
  cands c kk sfx (fun i => zx (st c (sd (S kk) sfx) (x, dx, ddx) i)).
Proof.
  intros H1 H2 H3. apply (entry_cands evalS c pd0 (fun _ _ => False)); auto.
  - apply svp_void.
  - intros v nd m ev [].
  - apply ok_void.
Qed.

Lemma mlev_post fuel : forall L sfx x dx ddx g g', (0 < L)%nat -> (L + length sfx = ke)%nat -> mg g ->
  entry c (pred L) sfx x dx ddx ->
  plev qe_ops evalS evalSub c rst false tl fuel L sfx (sd L sfx) x dx ddx g = Some g' ->
  mpost g g' (fun w => skipn L w = sfx).
Proof.
  induction L as [|kk IH]; intros sfx x dx ddx g g' HL Hlen GI EN H; [lia|]. clear HL.
  cbn [pred] in EN. cbn [plev] in H.
  pose proof (mcands kk sfx x dx ddx ltac:(lia) Hlen EN) as CA.
  assert (P := mloop_post (plev qe_ops evalS evalSub c rst false tl fuel kk) kk sfx (x, dx, ddx) ltac:(lia) Hlen CA).
  destruct (P) with (n := S fuel) (i := 0%nat) (first := true) (g := g) (g' := g') as [A B C]; auto.
  - intros y g1 g2 p -> GI1 Bl. apply IH in Bl; auto; [lia| |].
    + cbn [length]. lia.
    + cbn [pred]. repeat split; auto.
  - split; auto. intros w Hw Hs. apply C; auto. split; auto.
    destruct (ca_cover _ _ _ _ CA w Hw Hs) as [i Hi]; [intros S; rewrite Hsvp in S; discriminate|]. exists i. split; [lia|]. exact Hi.
Qed.

(** rounding every centre gives a point at distance at most a quarter of the sum of the squared Gram-Schmidt norms *)
Lemma babai_point : forall n, (n <= ke)%nat -> exists sfx, length sfx = n /\ Qcz 4 * sd (ke - n) sfx + qsum (ke - n) r <= Qcz 4 * pd0 + qsum ke r.
Proof.
  induction n; intros Hn.
  - exists []. cbn [sdist length]. rewrite Nat.sub_0_r. split; auto. apply Qcle_refl.
  - destruct IHn as (sfx & L & A); [lia|]. set (k := (ke - S n)%nat). replace (ke - n)%nat with (S k) in A by lia.
    exists (qround (cn k sfx) :: sfx). split; [cbn [length]; lia|].
    cbn [sdist]. cbn [qsum] in A. pose proof (Hr k ltac:(lia)) as R. destruct (qround_half (cn k sfx)) as [B1 B2].
    assert (SQ : Qcz 4 * ((Qcz (qround (cn k sfx)) - cn k sfx) * (Qcz (qround (cn k sfx)) - cn k sfx)) <= 1).
    { revert B1 B2. replace (cn k sfx - Qcz (qround (cn k sfx))) with (- (Qcz (qround (cn k sfx)) - cn k sfx)) by ring.
      generalize (Qcz (qround (cn k sfx)) - cn k sfx). change (Qcz 2) with (1+1). change (Qcz 4) with (1+1+1+1). intros z B1 B2.
      assert (C1 : 0 <= 1 - (1+1) * z) by qclra. assert (C2 : 0 <= 1 + (1+1) * z) by qclra.
      assert (C3 : 0 <= (1 - (1+1) * z) * (1 + (1+1) * z)) by (revert C1 C2; generalize (1 - (1+1) * z), (1 + (1+1) * z); intros; qcnra).
      replace ((1 - (1+1) * z) * (1 + (1+1) * z)) with (1 - (1+1+1+1) * (z * z)) in C3 by ring. qclra. }
    revert SQ A R. generalize ((Qcz (qround (cn k sfx)) - cn k sfx) * (Qcz (qround (cn k sfx)) - cn k sfx)).
    generalize (sd (S k) sfx), (qsum k r), (r k), (Qcz 4 * pd0 + qsum ke r). change (Qcz 4) with (1+1+1+1). intros a b' rr m z SQ A R.
    assert ((1+1+1+1) * (z * rr) <= rr). { replace ((1+1+1+1) * (z * rr)) with (((1+1+1+1) * z) * rr) by ring. revert SQ. generalize ((1+1+1+1) * z). intros. qcnra. }
    qclra.
Qed.
End Min.

Lemma sdist_shift c pd : forall sfx k, sdist c pd k sfx = pd + sdist c 0 k sfx.
Proof. induction sfx as [|x t IH]; intros k; cbn [sdist]; [ring|]. rewrite IH. ring. Qed.

(** ** from the tree to the input *)
Section Inp.
Variables (fuel d : nat) (mu : nat -> nat -> Qc) (r t : nat -> Qc) (maxidx : list Z) (ne : Z).
Hypothesis Hr : forall k, (k < d)%nat -> 0 < r k.
Notation inp := (reset_input d mu r t None maxidx ne).
Notation PL x k := (plen d mu r t x k).
Notation s := (pow2 (- ne)).

Lemma hsteps_sub subtree R R' : forall m (q q' : pst qe_ops), p_cp q = p_cp q' -> p_svp q = p_svp q' ->
  p_cp (hsteps qe_ops (inp subtree true R) m q) = p_cp (hsteps qe_ops (inp subtree false R') m q') /\
  p_svp (hsteps qe_ops (inp subtree true R) m q) = p_svp (hsteps qe_ops (inp subtree false R') m q') /\
  p_nd (hsteps qe_ops (inp subtree true R) m q) = p_nd q.
Proof.
  induction m; intros q q' A B; cbn [hsteps]; auto.
  cbn [reset_input i_d i_subtree i_mut i_rdiag i_dual i_subreset] in *.
  edestruct IHm as (I1 & I2 & I3); [| |split; [exact I1|split; [exact I2|rewrite I3]]].
  - unfold prep_step. destruct (Nat.leb_spec (d - length subtree) (d - length subtree + m)); [|lia].
    destruct (negb true || _), (negb false || _); cbn [p_cp]; rewrite ?A; reflexivity.
  - unfold prep_step. destruct (Nat.leb_spec (d - length subtree) (d - length subtree + m)); [|lia].
    destruct (negb true || _), (negb false || _); cbn [p_svp]; rewrite ?B; reflexivity.
  - unfold prep_step. destruct (Nat.leb_spec (d - length subtree) (d - length subtree + m)); [|lia].
    cbn [negb orb]. destruct (Nat.ltb_spec (d - length subtree + m) (d - length subtree)); [lia|]. reflexivity.
Qed.
Lemma cfg_sub subtree R R' : ecfg0 qe_ops (inp subtree true R) = ecfg0 qe_ops (inp subtree false R').
Proof.
  unfold ecfg0, cfg_of. unfold qsub.
  destruct (hsteps_sub subtree R R' (length subtree) (junkp qe_ops (inp subtree true R)) (junkp qe_ops (inp subtree false R')) eq_refl eq_refl) as (A & B & _).
  cbn [reset_input i_d i_subtree i_mut i_rdiag i_dual i_findsub i_maxidx i_last i_prune] in *. rewrite A, B. reflexivity.
Qed.
Lemma nd_sub subtree R : p_nd (qsub qe_ops (inp subtree true R)) = 0.
Proof. unfold qsub. destruct (hsteps_sub subtree R R (length subtree) (junkp qe_ops (inp subtree true R)) (junkp qe_ops (inp subtree true R)) eq_refl eq_refl) as (_ & _ & C). exact C. Qed.

Lemma plen_tail x y k : (forall i, (k <= i)%nat -> nth i x 0%Z = nth i y 0%Z) -> PL x k = PL y k.
Proof.
  intros H. unfold plen. apply qsum_ext. intros i Hi. destruct (Nat.leb_spec k i); auto.
  assert (G : gcoord d mu t x i = gcoord d mu t y i).
  { rewrite !gcoord_eq, H by lia. f_equal. f_equal. unfold sfrom. apply qsum_ext. intros j Hj. destruct (Nat.leb_spec (S i) j); auto. rewrite H by lia. reflexivity. }
  now rewrite G.
Qed.

Section One.
Variables (subtree : list Z) (sub : bool) (R : Qc).
Notation kend := (d - length subtree)%nat.
Notation c := (ecfg0 qe_ops (inp subtree sub R)).
Notation pd := (p_nd (qsub qe_ops (inp subtree sub R))).
Hypothesis Hlen : (length subtree < d)%nat.
(** the part of the distance that the subtree contributes and a sub-enumeration leaves out *)
Definition off : Qc := if sub then PL (repeat 0%Z kend ++ subtree) kend else 0.

Lemma off_eq w : length w = kend -> (if sub then PL (w ++ subtree) kend else 0) = off.
Proof.
  intros Hw. unfold off. destruct sub; auto. apply plen_tail. intros i Hi. rewrite !app_nth2; rewrite ?repeat_length; try lia. now rewrite Hw.
Qed.
Lemma sd_plen w k : length w = kend -> (k <= kend)%nat -> sdist c pd k (skipn k w) = (PL (w ++ subtree) k - off) * s.
Proof.
  intros Hw Hk. pose proof (off_eq w Hw) as O.
  assert (F : forall R', sdist (ecfg0 qe_ops (inp subtree false R')) (p_nd (qsub qe_ops (inp subtree false R'))) k (skipn k w) = PL (w ++ subtree) k * s).
  { intros R'. rewrite (sdist_plen (inp subtree false R') eq_refl eq_refl Hlen) by auto. exact (plen_scale d mu r s t (w ++ subtree) k). }
  destruct sub.
  - rewrite nd_sub. rewrite (cfg_sub subtree R R). rewrite <- O. specialize (F R). rewrite sdist_shift in F.
    assert (N : p_nd (qsub qe_ops (inp subtree false R)) = PL (w ++ subtree) kend * s).
    { destruct (qsub_inv (inp subtree false R) eq_refl Hlen (w ++ subtree)) as [_ N].
      - cbn [reset_input i_d i_subtree]. rewrite skipn_app, <- Hw, Nat.sub_diag, skipn_all. reflexivity.
      - cbn [reset_input i_d]. rewrite app_length. lia.
      - rewrite N. exact (plen_scale d mu r s t (w ++ subtree) kend). }
    rewrite N in F. revert F. generalize (sdist (ecfg0 qe_ops (inp subtree false R)) 0 k (skipn k w)). intros b F.
    match goal with |- ?a = ?b => change (@eq Qc a b) end.
    transitivity (PL (w ++ subtree) kend * s + b - PL (w ++ subtree) kend * s); [ring|]. rewrite F. ring.
  - rewrite F, <- O. ring.
Qed.
End One.

(** prepare_enumeration reaches the levels below the subtree *)
Lemma loop_le subtree sub R : forall m q0 k1 q1,
  prep_loop qe_ops (d - length subtree) (fun i j => mu j i) (fun i => r i * s) false subtree sub (R * s) m q0 = (k1, q1) -> (k1 <= m)%nat.
Proof.
  induction m; intros q0 k1 q1 H; cbn [prep_loop] in H; [injection H as <- <-; lia|].
  destruct (e_le qe_ops (p_nd q0) (R * s)); [apply IHm in H; lia|injection H as <- <-; lia].
Qed.
Lemma loop_lt subtree sub R m (q0 : pst qe_ops) k1 q1 : (0 < m)%nat -> p_nd q0 <= R * s ->
  prep_loop qe_ops (d - length subtree) (fun i j => mu j i) (fun i => r i * s) false subtree sub (R * s) m q0 = (k1, q1) -> (k1 < m)%nat.
Proof.
  intros Hm Hq H. destruct m; [lia|]. cbn [prep_loop e_le qe_ops] in H. apply eleb_le in Hq. rewrite Hq in H. apply loop_le in H. lia.
Qed.
Lemma loop_high subtree R : 0 <= R * s -> forall m (q : pst qe_ops), p_nd q = 0 ->
  prep_loop qe_ops (d - length subtree) (fun i j => mu j i) (fun i => r i * s) false subtree true (R * s) (d - length subtree + m) q =
  prep_loop qe_ops (d - length subtree) (fun i j => mu j i) (fun i => r i * s) false subtree true (R * s) (d - length subtree) (hsteps qe_ops (inp subtree true R) m q).
Proof.
  intros HR. induction m; intros q Hq; [now rewrite Nat.add_0_r|].
  rewrite Nat.add_succ_r. cbn [prep_loop hsteps e_le qe_ops]. rewrite Hq. apply eleb_le in HR. rewrite HR. apply IHm.
  cbn [reset_input i_d i_subtree i_mut i_rdiag i_dual i_subreset]. unfold prep_step. destruct (Nat.leb_spec (d - length subtree) (d - length subtree + m)); [|lia].
  cbn [negb orb]. destruct (Nat.ltb_spec (d - length subtree + m) (d - length subtree)); [lia|]. exact Hq.
Qed.
Lemma prepared_sub subtree R : (length subtree < d)%nat -> 0 <= R ->
  exists k0 q, prepared qe_ops (inp subtree true R) = (k0, q) /\ (k0 < d - length subtree)%nat.
Proof.
  intros Hl HR. assert (HS : 0 <= R * s). { pose proof (pow2_pos (- ne)) as P. revert HR P. generalize s. intros. qcnra. }
  unfold prepared. cbn [reset_input i_d i_subtree i_mut i_rdiag i_dual i_subreset i_maxdist].
  destruct (prep_loop _ _ _ _ _ _ _ _ d _) as [k0 q] eqn:P. exists k0, q. split; auto.
  replace d with (d - length subtree + length subtree)%nat in P at 2 by lia. rewrite loop_high in P; auto.
  apply loop_lt in P; [lia|lia|]. change (hsteps qe_ops (inp subtree true R) (length subtree) (junkp qe_ops (inp subtree true R))) with (qsub qe_ops (inp subtree true R)).
  rewrite nd_sub. exact HS.
Qed.
Lemma prepared_top R : (0 < d)%nat -> 0 <= R -> exists k0 q, prepared qe_ops (inp [] false R) = (k0, q) /\ (k0 < d - 0)%nat.
Proof.
  intros Hl HR. assert (HS : 0 <= R * s). { pose proof (pow2_pos (- ne)) as P. revert HR P. generalize s. intros. qcnra. }
  unfold prepared. cbn [reset_input i_d i_subtree i_mut i_rdiag i_dual i_subreset i_maxdist].
  destruct (prep_loop _ _ _ _ _ _ _ _ d _) as [k0 q] eqn:P. exists k0, q. split; auto.
  apply loop_lt in P; [lia|lia|exact HS].
Qed.

(** what a sub-enumeration must return *)
Definition rst_good (partial : list Z) (depth : nat) (res : option (list Z * Qc)) : Prop :=
  match res with
  | None => False
  | Some (sol, l) =>
      l = (PL (firstn (S depth) sol ++ partial) 0 - PL (firstn (S depth) sol ++ partial) (S depth)) * s /\ length (firstn (S depth) sol) = S depth /\
      forall u, length u = S depth -> l <= (PL (u ++ partial) 0 - PL (u ++ partial) (S depth)) * s
  end.

(** one run of the iterative search: the bound ends at the minimum *)
Lemma run_min subtree sub R rst s1 : (length subtree < d)%nat -> 0 <= R -> (sub = false -> subtree = []) ->
  (forall partial depth res, (S depth < d - length subtree)%nat -> length partial = (d - S depth)%nat -> rst partial depth = Some res -> rst_good partial depth res) ->
  run_enum qe_ops (eval_sol (q_fops ne) BestN 1) (eval_sub (q_fops ne)) rst false fuel (inp subtree sub R) (ev_init (q_fops ne)) = Some s1 ->
  let kend := (d - length subtree)%nat in
  let D := fun w => (PL (w ++ subtree) 0 - off subtree sub) * s in
  (forall w, length w = kend -> g_max (s_g s1) <= D w) /\
  (forall v nd m, In (v, nd, m) (sols (g_log (s_g s1))) -> exists w, v = w ++ subtree /\ length w = kend /\ nd = D w /\ nd <= m) /\
  ((ev_sols (g_ev (s_g s1)) = [] /\ g_max (s_g s1) = R * s) \/
   exists w, length w = kend /\ g_max (s_g s1) = D w /\ ev_sols (g_ev (s_g s1)) = [(D w * pow2 ne, w ++ subtree)]).
Proof.
  intros Hl HR Hsub Hrst H kend D.
  assert (PR : exists k0 q, prepared qe_ops (inp subtree sub R) = (k0, q) /\ (k0 < kend)%nat).
  { destruct sub; [now apply prepared_sub|]. unfold kend. rewrite (Hsub eq_refl). apply prepared_top; auto. lia. }
  destruct PR as (k0 & q & PR & Hk0).
  apply (run_iter_pure_inv qe_ops _ _ _ (inp subtree sub R) ltac:(cbn; lia) fuel _ k0 q s1 eq_refl PR Hk0) in H.
  unfold pure_run in H.
  set (c := ecfg0 qe_ops (inp subtree sub R)) in *. set (pd := p_nd (qsub qe_ops (inp subtree sub R))) in *.
  assert (SD : forall w k, length w = kend -> (k <= kend)%nat -> sdist c pd k (skipn k w) = (PL (w ++ subtree) k - off subtree sub) * s).
  { intros w k Hw Hk. now apply sd_plen. }
  assert (SDD : forall w, length w = kend -> sdist c pd 0 w = D w) by (intros w Hw; apply (SD w 0%nat Hw); lia).
  assert (Hrs : forall k, (k < c_kend c)%nat -> 0 < c_rdiag c k).
  { intros k Hk. cbn in Hk |- *. specialize (Hr k ltac:(lia)). pose proof (pow2_pos (- ne)) as P. revert Hr P. generalize s, (r k). intros. qcnra. }
  assert (Hpd : 0 <= pd).
  { unfold pd. destruct sub; [rewrite nd_sub; apply Qcle_refl|]. rewrite (Hsub eq_refl). apply Qcle_refl. }
  assert (Hsv : c_svp c = false).
  { change (p_svp (qsub qe_ops (inp subtree sub R)) = false). unfold qsub.
    assert (X : forall m (q0 : pst qe_ops), p_svp q0 = false -> p_svp (hsteps qe_ops (inp subtree sub R) m q0) = false).
    { induction m; intros q0 H0; cbn [hsteps]; auto. apply IHm. unfold prep_step.
      destruct (Nat.leb _ _); destruct (_ || _); cbn [p_svp]; rewrite H0; reflexivity. }
    apply X. reflexivity. }
  assert (G0 : mg ne c subtree pd (R * s) (g_start qe_ops (inp subtree sub R) k0 (ev_init (q_fops ne)))).
  { split; cbn [g_start g_bounds g_max g_ev g_log].
    - intros k Hk. unfold set_bounds. cbn [c_prune ecfg0 cfg_of reset_input i_prune c_d i_d i_maxdist]. destruct (Nat.ltb_spec k d); [reflexivity|]. cbn in Hk. lia.
    - left. split; reflexivity.
    - intros v nd m []. }
  assert (EN : entry c (pred kend) [] (x_top qe_ops (inp subtree sub R)) (dx_top qe_ops (inp subtree sub R)) (dx_top qe_ops (inp subtree sub R))).
  { unfold entry. change (cen qe_ops c (pred kend) []) with (p_cp (qsub qe_ops (inp subtree sub R)) (pred kend)).
    unfold dx_top, x_top. change (p_svp (qsub qe_ops (inp subtree sub R))) with (c_svp c). rewrite Hsv. cbn [andb].
    cbn [reset_input i_d i_subtree]. replace (d - length subtree - 1)%nat with (pred kend) by (unfold kend; lia). cbn [e_round qe_ops]. auto. }
  assert (RO : forall partial depth res, (S depth < c_kend c)%nat -> rst partial depth = Some res -> rst_ok c subtree pd partial depth res).
  { intros partial depth res Hd HRs sfx -> Hsf. cbn [c_kend c ecfg0 cfg_of reset_input i_d i_subtree] in Hd, Hsf. fold kend in Hd, Hsf.
    assert (LP : length (sfx ++ subtree) = (d - S depth)%nat) by (rewrite app_length; unfold kend in *; lia).
    pose proof (Hrst _ _ _ Hd LP HRs) as K. unfold rst_good in K. destruct res as [[sol l]|]; [|exact K].
    destruct K as (K1 & K2 & K3).
    assert (U : map (fun i => nth i sol 0%Z) (seq 0 (S depth)) = firstn (S depth) sol).
    { apply (nth_ext _ _ 0%Z 0%Z); [rewrite map_length, seq_length; auto|]. intros i Hi. rewrite map_length, seq_length in Hi.
      rewrite (map_nth_lt (fun j => nth j sol 0%Z) _ _ 0%nat) by (rewrite seq_length; auto). rewrite seq_nth by auto. cbn [Nat.add]. symmetry. apply nth_firstn_lt. auto. }
    rewrite U. set (u := firstn (S depth) sol) in *.
    assert (UP : forall u', length u' = S depth -> sdist c pd (S depth) sfx = (PL (u' ++ sfx ++ subtree) (S depth) - off subtree sub) * s).
    { intros u' Hu. rewrite app_assoc. rewrite <- (SD (u' ++ sfx) (S depth)) by (rewrite ?app_length; lia).
      rewrite skipn_app, <- Hu, Nat.sub_diag, skipn_all. reflexivity. }
    assert (UQ : forall u', length u' = S depth -> sdist c pd 0 (u' ++ sfx) = (PL (u' ++ sfx ++ subtree) 0 - off subtree sub) * s).
    { intros u' Hu. rewrite SDD by (rewrite app_length; lia). unfold D. now rewrite <- app_assoc. }
    split.
    - rewrite (UP u K2), (UQ u K2), K1. ring.
    - intros w Hw Hs. cbn [c_kend c ecfg0 cfg_of reset_input i_d i_subtree] in Hw. fold kend in Hw.
      assert (HU : length (firstn (S depth) w) = S depth) by (rewrite firstn_length; lia).
      rewrite <- (firstn_skipn (S depth) w), Hs. rewrite (UP _ HU), (UQ _ HU). specialize (K3 _ HU).
      revert K3. match goal with |- l <= (?a - ?b) * ?e -> l + (?b - ?o) * ?e <= (?a - ?o) * ?e => generalize a, b, o, e end. intros. qclra. }
  pose proof (mlev_post ne c rst subtree pd (R * s) ltac:(cbn; lia) Hrs Hsv eq_refl Hpd RO fuel kend [] _ _ _ _ (s_g s1) ltac:(unfold kend; lia) ltac:(cbn; lia) G0 EN H) as [[M1 M2 M3] M4 M5].
  split; [|split].
  - intros w Hw. rewrite <- SDD by auto. apply M5; auto. apply skipn_all2. rewrite Hw. apply le_n.
  - intros v nd m Hin. destruct (M3 v nd m Hin) as (w & W1 & W2 & W3 & W4). exists w. rewrite <- SDD by auto. auto.
  - destruct M2 as [[A B]|(w & W1 & W2 & W3)]; [left; auto|]. right. exists w. rewrite <- SDD by auto. rewrite <- W2. auto.
Qed.

Lemma babai_quarter partial depth : (S depth <= d)%nat -> length partial = (d - S depth)%nat ->
  exists w, length w = S depth /\ Qcz 4 * (PL (w ++ partial) 0 - PL (w ++ partial) (S depth)) <= qsum (S depth) r.
Proof.
  intros Hd Hp. assert (KE : (d - length partial = S depth)%nat) by lia.
  set (c := ecfg0 qe_ops (inp partial true 0)).
  assert (Hrs : forall k, (k < c_kend c)%nat -> 0 < c_rdiag c k).
  { intros k Hk. cbn in Hk |- *. specialize (Hr k ltac:(lia)). pose proof (pow2_pos (- ne)) as P. revert Hr P. generalize s, (r k). intros. qcnra. }
  assert (KC : c_kend c = S depth) by (cbn; lia).
  destruct (babai_point c 0 ltac:(cbn; lia) Hrs (S depth) ltac:(lia)) as (w & W1 & W3).
  exists w. split; auto. rewrite KC, Nat.sub_diag in W3.
  pose proof (sd_plen partial true 0 ltac:(lia) w 0%nat ltac:(lia) ltac:(lia)) as P. fold c in P. rewrite nd_sub in P. cbn [skipn] in P.
  rewrite P in W3. rewrite <- (off_eq partial true ltac:(lia) w ltac:(lia)) in W3. rewrite KE in W3.
  change (c_rdiag c) with (fun i => r i * s) in W3.
  assert (QE : qsum (S depth) (fun i => r i * s) = qsum (S depth) r * s) by (rewrite <- qsum_scal_r; reflexivity). rewrite QE in W3.
  change (qsum 0 (fun i => r i * s)) with 0%Qc in W3. change (qsum 0 (fun i : nat => r i)) with 0%Qc in W3.
  apply (scale_le ne).
  revert W3. generalize (PL (w ++ partial) 0 - PL (w ++ partial) (S depth)), (Qcz 4), (qsum (S depth) r * s). intros a f b W3.
  replace (f * a * s) with (f * (a * s) + 0 * s) by ring. replace b with (f * 0 + b) by ring.
  first [exact W3 | replace (f * (a*s) + 0 * s) with (f * (a * s) + 0) by ring; exact W3].
Qed.
Lemma babai_inp partial depth : (S depth <= d)%nat -> length partial = (d - S depth)%nat ->
  exists w, length w = S depth /\ (PL (w ++ partial) 0 - PL (w ++ partial) (S depth)) * s < qsum (S depth) r * s.
Proof.
  intros Hd Hp. destruct (babai_quarter partial depth Hd Hp) as (w & W1 & W2). exists w. split; auto.
  apply Qcmult_lt_compat_r; [apply pow2_pos|].
  assert (P : 0 < qsum (S depth) r).
  { cbn [qsum]. assert (0 <= qsum depth r) by (apply qsum_nonneg; intros; apply Qclt_le_weak, Hr; lia). pose proof (Hr depth ltac:(lia)). revert H H0. generalize (qsum depth r), (r depth). intros. qclra. }
  revert W2 P. generalize (PL (w ++ partial) 0 - PL (w ++ partial) (S depth)), (qsum (S depth) r). change (Qcz 4) with (1+1+1+1). intros. qclra.
Qed.

Lemma reset_good : forall n partial depth res, (S depth <= d)%nat -> length partial = (d - S depth)%nat ->
  reset_sub false fuel d mu r t None maxidx ne n partial depth = Some res -> rst_good partial depth res.
Proof.
  induction n; intros partial depth res Hd Hp H; [discriminate|].
  cbn [reset_sub] in H. destruct (run_enum _ _ _ _ _ _ _ _) as [s1|] eqn:RN; [|discriminate].
  assert (KE : (d - length partial = S depth)%nat) by lia.
  assert (R0 : 0 <= qsum (S depth) r). { apply qsum_nonneg. intros i Hi. apply Qclt_le_weak. apply Hr. lia. }
  destruct (run_min partial true (qsum (S depth) r) (reset_sub false fuel d mu r t None maxidx ne n) s1 ltac:(lia) R0 ltac:(discriminate)) as (A & _ & B); auto.
  { intros p' d' r' H1 H2 H3. apply IHn; auto. lia. }
  cbn zeta in A, B. rewrite KE in A, B.
  assert (OF : forall w, length w = S depth -> off partial true = PL (w ++ partial) (S depth)).
  { intros w Hw. rewrite <- (off_eq partial true ltac:(lia) w) by lia. now rewrite KE. }
  destruct B as [[B1 B2]|(w & W1 & W2 & W3)].
  - exfalso. destruct (babai_inp partial depth Hd Hp) as (w & W1 & W2). specialize (A w W1). rewrite (OF w W1), B2 in A.
    apply (Qclt_not_le _ _ W2). exact A.
  - injection H as <-. rewrite W3. unfold rst_good. rewrite rescale.
    assert (FU : firstn (S depth) (w ++ partial) = w) by (rewrite firstn_app, <- W1, Nat.sub_diag, firstn_all; cbn; apply app_nil_r).
    rewrite FU. split; [now rewrite (OF w W1)|]. split; auto.
    intros u Hu. rewrite <- (OF u Hu). rewrite <- W2. auto.
Qed.

Theorem cvp_min n R s1 : (0 < d)%nat -> 0 <= R -> cvp_run false fuel d mu r t None maxidx ne n R = Some s1 ->
  (forall v nd m, In (v, nd, m) (sols (g_log (s_g s1))) -> length v = d /\ nd * pow2 ne = PL v 0 /\ nd <= m) /\
  (forall w, length w = d -> g_max (s_g s1) * pow2 ne <= PL w 0) /\
  ((ev_sols (g_ev (s_g s1)) = [] /\ g_max (s_g s1) * pow2 ne = R) \/
   exists w, length w = d /\ g_max (s_g s1) * pow2 ne = PL w 0 /\ ev_sols (g_ev (s_g s1)) = [(PL w 0, w)]).
Proof.
  intros Hd HR H. unfold cvp_run in H.
  destruct (run_min [] false R (reset_sub false fuel d mu r t None maxidx ne n) s1 Hd HR ltac:(auto)) as (A & B & C); auto.
  { intros p' d' r' H1 H2 H3. apply (reset_good n); auto. cbn [length] in H1. lia. }
  cbn zeta in A, B, C. unfold off in *. cbn [length] in *. rewrite Nat.sub_0_r in *.
  assert (DD : forall w, (PL (w ++ []) 0 - 0) * s * pow2 ne = PL w 0) by (intros w; rewrite unscale, app_nil_r; ring).
  split; [|split].
  - intros v nd m Hin. destruct (B v nd m Hin) as (w & -> & W1 & -> & W2). rewrite app_nil_r in *. split; auto. split; auto.
    specialize (DD w). rewrite app_nil_r in DD. exact DD.
  - intros w Hw. rewrite <- (DD w). apply Qcmult_le_compat_r; auto. apply Qclt_le_weak, pow2_pos.
  - destruct C as [[C1 C2]|(w & W1 & W2 & W3)]; [left; rewrite C2; split; auto; apply unscale|].
    right. exists w. split; auto. rewrite W2, W3. rewrite DD. split; auto. now rewrite app_nil_r.
Qed.
End Inp.
