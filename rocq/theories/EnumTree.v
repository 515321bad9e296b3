(** Exact enumeration: soundness, completeness up to sign and termination of the cache-free
    description, for any evaluator that never enlarges the bound. *)
From Coq Require Import List ZArith QArith Qround Qcanon Arith Bool Lia.
From Verif Require Import Util QcUtil EnumModel EnumPure EnumExact.
Import ListNotations.
Local Open Scope Qc_scope.

(** coordinates: [allz] all zero; [tpos]: the highest non-zero coordinate is positive *)
Definition allz (w : list Z) : bool := forallb (Z.eqb 0) w.
Fixpoint tpos (w : list Z) : bool :=
  match w with [] => false | x :: t => if allz t then Z.ltb 0 x else tpos t end.

Lemma tpos_nz w : tpos w = true -> allz w = false.
Proof.
  induction w as [|x t IH]; cbn [tpos allz forallb]; [discriminate|].
  fold (allz t). destruct (allz t) eqn:A; intros H.
  - destruct (Z.eqb_spec 0 x); auto. apply Z.ltb_lt in H. lia.
  - apply andb_false_r.
Qed.
Lemma allz_opp w : allz (map Z.opp w) = allz w.
Proof. induction w as [|x t IH]; cbn [map allz forallb]; auto. fold (allz t) (allz (map Z.opp t)). rewrite IH. f_equal. destruct (Z.eqb_spec 0 x), (Z.eqb_spec 0 (- x)); auto; lia. Qed.
Lemma tpos_or_opp w : allz w = false -> tpos w = true \/ tpos (map Z.opp w) = true.
Proof.
  induction w as [|x t IH]; cbn [tpos allz forallb map]; [discriminate|].
  fold (allz t). rewrite allz_opp. destruct (allz t) eqn:A; intros H; [|auto].
  rewrite andb_true_r in H. apply Z.eqb_neq in H.
  destruct (Z.ltb_spec 0 x); auto. right. apply Z.ltb_lt. lia.
Qed.
Lemma tpos_not_both w : tpos w = true -> tpos (map Z.opp w) = true -> False.
Proof.
  induction w as [|x t IH]; cbn [tpos map]; [discriminate|].
  rewrite allz_opp. destruct (allz t); auto. rewrite !Z.ltb_lt. lia.
Qed.
Lemma tpos_app a b : allz b = true -> tpos (a ++ b) = tpos a.
Proof.
  intros H. induction a as [|x t IH]; cbn [app tpos].
  - destruct b as [|y b]; auto. cbn [allz forallb] in H. apply andb_prop in H as [H1 H2]. cbn [tpos]. fold (allz b) in H2. rewrite H2.
    apply Z.eqb_eq in H1. subst y. reflexivity.
  - rewrite IH. unfold allz. rewrite forallb_app. fold (allz t) (allz b). rewrite H, andb_true_r. reflexivity.
Qed.

Lemma skipn_S_nth {A} (l : list A) k d : (k < length l)%nat -> skipn k l = nth k l d :: skipn (S k) l.
Proof.
  revert k. induction l as [|a l IH]; intros k H; cbn in H; [lia|].
  destruct k; auto. cbn [skipn nth]. rewrite IH by lia. reflexivity.
Qed.
Lemma skipn_cons_inv {A} (l : list A) k x t d : skipn k l = x :: t -> nth k l d = x /\ skipn (S k) l = t.
Proof.
  intros H. assert (k < length l)%nat.
  { destruct (le_lt_dec (length l) k); auto. rewrite skipn_all2 in H by lia. discriminate. }
  rewrite (skipn_S_nth l k d) in H by auto. inversion H. auto.
Qed.

Lemma NoDup_app_iff_local {A} (l1 l2 : list A) : NoDup l1 -> NoDup l2 -> (forall x, In x l1 -> In x l2 -> False) -> NoDup (l1 ++ l2).
Proof.
  induction l1 as [|a l1 IH]; cbn; auto. intros H1 H2 D. inversion H1; subst. constructor.
  - intros I. apply in_app_or in I as [I|I]; auto. apply (D a); auto.
  - apply IH; auto. intros x X1 X2. apply (D x); auto.
Qed.

Section Tree.
Context {EV : Type}.
Notation gst := (gst qe_ops EV).
Variable evalS : list Z -> Qc -> Qc -> EV -> EV * Qc.
Variable evalSub : nat -> list Z -> Qc -> EV -> EV.
Variable c : ecfg qe_ops.
Variable rst : list Z -> nat -> option (option (list Z * Qc)).
Variable rec : bool.
Variable tl : list Z.
(** distance contributed by the subtree *)
Variable pd0 : Qc.
Notation ke := (c_kend c).
Notation r := (c_rdiag c).
Notation cn := (cen qe_ops c).

(** squared length of the projection of the vector orthogonally to the first j basis vectors *)
Fixpoint sdist (j : nat) (sfx : list Z) : Qc :=
  match sfx with
  | [] => pd0
  | x :: t => sdist (S j) t + (Qcz x - cn j t) * (Qcz x - cn j t) * r j
  end.

(** the bound of level k when [maxdist = m] *)
Definition Bm (m : Qc) (k : nat) : Qc := match c_prune c with None => m | Some p => p k * m end.

Variable EInv : EV -> Qc -> Prop.
Hypothesis Hke : (ke <= c_d c)%nat.
Hypothesis Hr : forall k, (k < ke)%nat -> 0 < r k.
Hypothesis Hnr : c_reset c = false.
Hypothesis Hsvp : c_svp c = true -> (forall i, c_cps0 c i = 0) /\ pd0 = 0.
Hypothesis Hpd0 : 0 <= pd0.
Hypothesis Hpr : forall p, c_prune c = Some p -> forall k, (k < ke)%nat -> 0 <= p k.
Hypothesis Hev : forall v nd m ev, EInv ev m -> 0 <= nd -> nd <= Bm m 0 -> (c_svp c = true -> 0 < nd) ->
  EInv (fst (evalS v nd m ev)) (snd (evalS v nd m ev)) /\ snd (evalS v nd m ev) <= m.
Hypothesis HevS : forall off v nd m ev, EInv ev m -> EInv (evalSub off v nd ev) m.

Definition ginv (g : gst) : Prop :=
  (forall k, (k < ke)%nat -> g_bounds g k = Bm (g_max g) k) /\ EInv (g_ev g) (g_max g).

Lemma Bm_mono m m' k : (k < ke)%nat -> m' <= m -> Bm m' k <= Bm m k.
Proof.
  intros Hk H. unfold Bm. destruct (c_prune c) as [p|] eqn:P; auto.
  assert (0 <= p k) by (apply (Hpr p); auto). generalize dependent (p k). intros q Hq. qcnra.
Qed.

Definition sols (l : list (event qe_ops)) : list (list Z * Qc * Qc) :=
  flat_map (fun e => match e with EvSol v nd m => [(v, nd, m)] | EvSub _ _ _ => [] end) l.
Definition vecof (s : list Z * Qc * Qc) : list Z := fst (fst s).

Definition okv (w : list Z) : Prop := c_svp c = true -> tpos w = true.

Record post (L : nat) (sfx : list Z) (g g' : gst) (sel : list Z -> Prop) (new : list (list Z * Qc * Qc)) : Prop := {
  po_log : sols (g_log g') = new ++ sols (g_log g);
  po_sound : forall v nd m, In (v, nd, m) new -> exists w, v = w ++ tl /\ length w = ke /\ skipn L w = sfx /\ sel w /\
      nd = sdist 0 w /\ nd <= Bm m 0 /\ m <= g_max g /\ (forall k, (k < L)%nat -> sdist k (skipn k w) <= g_bounds g k) /\
      okv w /\ (c_svp c = true -> 0 < nd);
  po_nodup : NoDup (map vecof new);
  po_compl : forall w, length w = ke -> skipn L w = sfx -> sel w ->
      (forall k, (k < L)%nat -> sdist k (skipn k w) <= g_bounds g' k) -> okv w -> In (w ++ tl) (map vecof new);
  po_inv : ginv g';
  po_max : g_max g' <= g_max g }.

Lemma bounds_le g g' k : ginv g -> ginv g' -> g_max g' <= g_max g -> (k < ke)%nat -> g_bounds g' k <= g_bounds g k.
Proof. intros [A _] [B _] H Hk. rewrite A, B by auto. now apply Bm_mono. Qed.

Lemma ginv_visit kk g : ginv g -> ginv (gvisit qe_ops kk g).
Proof. intros H; exact H. Qed.
Lemma gsub_facts kk v nd (g : gst) : ginv g -> let g2 := gsubmaybe qe_ops evalSub c kk v nd g in
  ginv g2 /\ g_max g2 = g_max g /\ g_bounds g2 = g_bounds g /\ sols (g_log g2) = sols (g_log g).
Proof.
  intros [A B]. unfold gsubmaybe. destruct (_ && _ && _); cbn zeta; (repeat split; auto); cbn; auto.
Qed.

Lemma eltb0 (nd : Qc) : eltb 0 nd = true <-> 0 < nd. Proof. apply eltb_lt. Qed.

Lemma sdist_nonneg : forall sfx j, (j + length sfx <= ke)%nat -> 0 <= sdist j sfx.
Proof.
  induction sfx as [|x t IH]; intros j H; cbn [sdist]; auto.
  cbn [length] in H. assert (A := IH (S j) ltac:(lia)). assert (B := Hr j ltac:(lia)).
  pose proof (Qcsq_nonneg (Qcz x - cn j t)).
  generalize dependent (sdist (S j) t). generalize dependent ((Qcz x - cn j t) * (Qcz x - cn j t)). generalize dependent (r j).
  intros a A b B d D. qcnra.
Qed.
Lemma csum_zero : c_svp c = true -> forall t i j, allz t = true -> csum qe_ops c i j t = 0.
Proof.
  intros SV t. destruct (Hsvp SV) as [Z0 _]. induction t as [|x t IH]; intros i j H; cbn [csum]; [apply Z0|].
  cbn [allz forallb] in H. apply andb_prop in H as [H1 H2]. apply Z.eqb_eq in H1. subst x. fold (allz t) in H2.
  rewrite !IH by auto. cbn [e_subx e_suba e_alpha qe_ops]. change (Qcz 0) with 0. match goal with |- ?a = ?b => change (@eq Qc a b) end. destruct (c_dual c); ring.
Qed.
Lemma sdist_zero : c_svp c = true -> forall t j, allz t = true -> sdist j t = 0.
Proof.
  intros SV. induction t as [|x t IH]; intros j H; cbn [sdist]; [apply Hsvp; auto|].
  cbn [allz forallb] in H. apply andb_prop in H as [H1 H2]. apply Z.eqb_eq in H1. subst x. fold (allz t) in H2.
  rewrite IH by auto. unfold cen. rewrite csum_zero by auto. change (Qcz 0) with 0. ring.
Qed.
Lemma sdist_allz : c_svp c = true -> forall t j, (j + length t <= ke)%nat -> sdist j t = 0 -> allz t = true.
Proof.
  intros SV. induction t as [|x t IH]; intros j H; cbn [sdist]; auto.
  cbn [length] in H. intros E.
  assert (A := sdist_nonneg t (S j) ltac:(lia)). assert (B := Hr j ltac:(lia)).
  pose proof (Qcsq_nonneg (Qcz x - cn j t)) as N.
  assert (X : sdist (S j) t = 0 /\ (Qcz x - cn j t) * (Qcz x - cn j t) = 0).
  { generalize dependent (sdist (S j) t). generalize dependent ((Qcz x - cn j t) * (Qcz x - cn j t)). generalize dependent (r j).
    intros a A b B d E D. 
    assert (0 <= b * a) by qcnra. assert (d = 0) by qclra. split; auto. subst d. assert (b * a = 0) by qclra.
    destruct (Qcmult_integral _ _ H1); auto. subst a. discriminate A. }
  destruct X as [X1 X2]. assert (T := IH (S j) ltac:(lia) X1).
  cbn [allz forallb]. fold (allz t). rewrite T, andb_true_r. apply Qcsq_0 in X2.
  unfold cen in X2. rewrite csum_zero in X2 by auto. apply Z.eqb_eq. apply Qcz_inj. change (Qcz 0) with 0.
  replace (Qcz x) with (Qcz x - 0) by ring. auto.
Qed.

(** the leaf *)
Lemma leaf_post w g : ginv g -> length w = ke -> sdist 0 w <= g_bounds g 0 -> (0 < ke)%nat ->
  (c_svp c = true -> allz w = true \/ tpos w = true) ->
  exists new, post 0 w g (gleaf qe_ops evalS c (w ++ tl) (sdist 0 w) g) (fun _ => True) new.
Proof.
  intros [GB GE] Hw Hb Hk Hs. unfold gleaf. cbn [e_lt e_zero qe_ops].
  destruct (negb (c_svp c) || eltb 0 (sdist 0 w)) eqn:HR.
  - assert (N0 : 0 <= sdist 0 w) by (apply sdist_nonneg; lia).
    assert (POS : c_svp c = true -> 0 < sdist 0 w).
    { intros SV. rewrite SV in HR. cbn in HR. now apply eltb_lt. }
    unfold gsol. 
    pose proof (Hev (w ++ tl) (sdist 0 w) (g_max g) (g_ev g) GE N0) as V.
    rewrite <- GB in V by lia. specialize (V Hb POS).
    destruct (evalS (w ++ tl) (sdist 0 w) (g_max g) (g_ev g)) as [ev' m'] eqn:EE. cbn [fst snd] in V. destruct V as [V1 V2].
    exists [(w ++ tl, sdist 0 w, g_max g)]. constructor; cbn.
    + reflexivity.
    + intros v nd m [X|[]]. inversion X; subst v nd m. exists w. repeat split; auto.
      * rewrite <- GB by lia. auto.
      * apply Qcle_refl.
      * intros k Hk0. lia.
      * intros SV. destruct (Hs SV) as [Az|]; auto. specialize (POS SV). rewrite sdist_zero in POS by auto. discriminate.
    + constructor; [intros []|constructor].
    + intros w' Hw' ->; auto.
    + split; auto. intros k Hk0. cbn. unfold set_bounds, Bm. destruct (c_prune c); destruct (Nat.ltb_spec k (c_d c)); auto; lia.
    + auto.
  - exists []. constructor; cbn; auto.
    + intros v nd m [].
    + constructor.
    + intros w' Hw' E _ _ O. subst w'. apply orb_false_elim in HR as [R1 R2]. apply negb_false_iff in R1.
      apply eltb_ge in R2. specialize (O R1). apply tpos_nz in O.
      assert (Z0 : sdist 0 w = 0).
      { apply Qcle_antisym; auto. apply sdist_nonneg. lia. }
      apply sdist_allz in Z0; auto; [congruence|lia].
    + split; auto.
    + apply Qcle_refl.
Qed.

(** iterates of the step *)
Definition pst3 (pd : Qc) (t : Z * Z * Z) : Z * Z * Z := let '(x, dx, ddx) := t in pstep qe_ops c pd x dx ddx.
Fixpoint st (pd : Qc) (t0 : Z * Z * Z) (i : nat) : Z * Z * Z := match i with O => t0 | S j => pst3 pd (st pd t0 j) end.

Record cands (kk : nat) (sfx : list Z) (xs : nat -> Z) : Prop := {
  ca_inj : forall i j, xs i = xs j -> i = j;
  ca_mono : forall i j, (i <= j)%nat -> (Qcz (xs i) - cn kk sfx) * (Qcz (xs i) - cn kk sfx) <= (Qcz (xs j) - cn kk sfx) * (Qcz (xs j) - cn kk sfx);
  ca_cover : forall w, length w = ke -> skipn (S kk) w = sfx -> okv w -> exists i, nth kk w 0%Z = xs i;
  ca_ok : forall i, c_svp c = true -> allz (xs i :: sfx) = true \/ tpos (xs i :: sfx) = true;
  ca_far : forall i, Qcz (Z.of_nat i) <= Qcz 4 * ((Qcz (xs i) - cn kk sfx) * (Qcz (xs i) - cn kk sfx)) }.

Lemma nth_skip_eq w kk sfx : (kk < ke)%nat -> length w = ke -> skipn (S kk) w = sfx -> skipn kk w = nth kk w 0%Z :: sfx.
Proof. intros H Hw <-. apply skipn_S_nth. lia. Qed.

Lemma ploop_post below kk sfx t0 :
  (kk < ke)%nat -> (S kk + length sfx = ke)%nat ->
  cands kk sfx (fun i => zx (st (sdist (S kk) sfx) t0 i)) ->
  (forall x g g' p, kk = S p -> ginv g -> (c_svp c = true -> allz (x :: sfx) = true \/ tpos (x :: sfx) = true) ->
     below (x :: sfx) (sdist kk (x :: sfx)) (qround (cn p (x :: sfx))) (dx0 qe_ops (cn p (x :: sfx)) (qround (cn p (x :: sfx))))
       (dx0 qe_ops (cn p (x :: sfx)) (qround (cn p (x :: sfx)))) g = Some g' ->
     exists new, post kk (x :: sfx) g g' (fun _ => True) new) ->
  forall n i first g g', ginv g ->
  ploop qe_ops evalS evalSub c rst rec tl below kk sfx (sdist (S kk) sfx) n first
     (fst (fst (st (sdist (S kk) sfx) t0 i))) (snd (fst (st (sdist (S kk) sfx) t0 i))) (snd (st (sdist (S kk) sfx) t0 i)) g = Some g' ->
  exists new, post (S kk) sfx g g' (fun w => exists j, (i <= j)%nat /\ nth kk w 0%Z = zx (st (sdist (S kk) sfx) t0 j)) new.
Proof.
  intros Hkk Hlen CA Hbelow. set (pd := sdist (S kk) sfx) in *.
  set (xs := fun i => zx (st pd t0 i)) in *.
  induction n; intros i first g g' GI H; [discriminate|].
  cbn [ploop] in H. 
  change (fst (fst (st pd t0 i))) with (xs i) in H.
  set (nd := e_dist qe_ops pd (e_alpha qe_ops (xs i) (cn kk sfx)) (r kk)) in H.
  assert (Hnd : nd = sdist kk (xs i :: sfx)) by (cbn; reflexivity).
  cbn [e_le qe_ops] in H.
  destruct (eleb nd (g_bounds g kk)) eqn:Hle; cbn [negb] in H.
  2:{ injection H as <-. exists []. apply eleb_gt in Hle. constructor; auto.
      - intros v nd' m [].
      - constructor.
      - intros w Hw Hsk (j & Hij & Hx) Hbd _. exfalso.
        specialize (Hbd kk ltac:(lia)). rewrite (nth_skip_eq w kk sfx) in Hbd by auto. rewrite Hx in Hbd.
        pose proof (ca_mono _ _ _ CA i j Hij) as M. fold (xs j) in Hbd.
        cbn [sdist] in Hbd. fold pd in Hbd. rewrite Hnd in Hle. cbn [sdist] in Hle. fold pd in Hle.
        pose proof (Hr kk Hkk) as R.
        revert M Hbd Hle. generalize ((Qcz (xs i) - cn kk sfx) * (Qcz (xs i) - cn kk sfx)), ((Qcz (xs j) - cn kk sfx) * (Qcz (xs j) - cn kk sfx)).
        intros a b M Hbd Hle. revert R M Hbd Hle. generalize (r kk), (g_bounds g kk). intros. qcnra.
      - apply Qcle_refl. }
  apply eleb_le in Hle.
  destruct (pnode qe_ops evalS evalSub c rst rec tl below kk sfx first (xs i) nd g) as [[b g1]|] eqn:PN; [|discriminate].
  assert (NODE : b = false /\ exists new, post kk (xs i :: sfx) g g1 (fun _ => True) new).
  { unfold pnode in PN. rewrite Hnr in PN. cbn [andb] in PN.
    set (g2 := if subany rec first then _ else _) in PN.
    assert (G2 : ginv g2 /\ g_max g2 = g_max g /\ g_bounds g2 = g_bounds g /\ sols (g_log g2) = sols (g_log g)).
    { unfold g2. destruct (subany rec first).
      - apply (gsub_facts kk (repeat 0%Z kk ++ xs i :: sfx ++ tl) nd (gvisit qe_ops kk g)). exact GI.
      - repeat split; try apply GI; auto. }
    destruct G2 as (G2 & G2m & G2b & G2l).
    assert (TR : forall g1 , (exists new, post kk (xs i :: sfx) g2 g1 (fun _ => True) new) -> exists new, post kk (xs i :: sfx) g g1 (fun _ => True) new).
    { intros g1' [new P]. exists new. destruct P as [P1 P2 P3 P4 P5 P6]. constructor; auto.
      - now rewrite <- G2l.
      - intros v nd' m Hin. destruct (P2 v nd' m Hin) as (w & W). exists w. rewrite <- G2m, <- G2b. exact W.
      - now rewrite <- G2m. }
    destruct kk as [|p].
    - injection PN as <- <-. split; auto. apply TR.
      rewrite Hnd. change (xs i :: sfx ++ tl) with ((xs i :: sfx) ++ tl). apply leaf_post; auto.
      + rewrite <- Hnd. rewrite G2b. exact Hle.
      + apply (ca_ok _ _ _ CA).
    - destruct (below (xs i :: sfx) nd _ _ _ g2) as [g3|] eqn:Bl; cbn [option_map] in PN; [|discriminate].
      injection PN as <- <-. split; auto. apply TR. apply (Hbelow (xs i) g2 g3 p); auto.
      apply (ca_ok _ _ _ CA). }
  destruct NODE as [-> [new1 P1]].
  specialize (IHn (S i) false g1 g').
  cbn [st] in IHn. unfold pst3 in IHn.
  destruct (st pd t0 i) as [[x dx] ddx] eqn:Est. cbn [fst snd] in *.
  replace (xs i) with x in * by (unfold xs; rewrite Est; reflexivity).
  destruct (pstep qe_ops c pd x dx ddx) as [[x' dx'] ddx'] eqn:Epst. cbn [fst snd] in IHn.
  destruct (IHn (po_inv _ _ _ _ _ _ P1) H) as [new2 P2].
  exists (new2 ++ new1). 
  assert (HXi : xs i = x) by (unfold xs; rewrite Est; reflexivity).
  constructor.
  - rewrite (po_log _ _ _ _ _ _ P2), (po_log _ _ _ _ _ _ P1). now rewrite app_assoc.
  - intros v nd' m Hin. apply in_app_or in Hin as [Hin|Hin].
    + destruct (po_sound _ _ _ _ _ _ P2 v nd' m Hin) as (w & A1 & A2 & A3 & (j & A4 & A5) & A6 & A7 & A8 & A9 & A10 & A11).
      exists w. repeat split; auto.
      * exists j. split; auto. lia.
      * eapply Qcle_trans; [exact A8|]. apply (po_max _ _ _ _ _ _ P1).
      * intros k Hk. eapply Qcle_trans; [apply A9; auto|]. apply bounds_le; auto. apply (po_inv _ _ _ _ _ _ P1). apply (po_max _ _ _ _ _ _ P1). lia.
    + destruct (po_sound _ _ _ _ _ _ P1 v nd' m Hin) as (w & A1 & A2 & A3 & _ & A6 & A7 & A8 & A9 & A10 & A11).
      destruct (skipn_cons_inv w kk x sfx 0%Z A3) as [B1 B2].
      exists w. repeat split; auto.
      * exists i. split; auto. rewrite B1. fold (xs i). auto.
      * intros k Hk. destruct (Nat.eq_dec k kk) as [->|]; [|apply A9; lia].
        rewrite A3. rewrite <- Hnd. exact Hle.
  - rewrite map_app. apply NoDup_app_iff_local.
    + apply (po_nodup _ _ _ _ _ _ P2).
    + apply (po_nodup _ _ _ _ _ _ P1).
    + intros v Hv1 Hv2. apply in_map_iff in Hv1 as ([[v1 n1] m1] & E1 & I1). apply in_map_iff in Hv2 as ([[v2 n2] m2] & E2 & I2).
      cbn in E1, E2. subst v1 v2.
      destruct (po_sound _ _ _ _ _ _ P2 _ _ _ I1) as (w & A1 & A2 & A3 & (j & A4 & A5) & _).
      destruct (po_sound _ _ _ _ _ _ P1 _ _ _ I2) as (w' & B1 & B2 & B3 & _).
      assert (w = w').
      { apply (app_inv_tail tl). congruence. }
      subst w'. destruct (skipn_cons_inv w kk x sfx 0%Z B3) as [C1 C2].
      rewrite C1 in A5. rewrite <- HXi in A5. fold (xs j) in A5. apply (ca_inj _ _ _ CA) in A5. lia.
  - intros w Hw Hsk (j & Hij & Hx) Hbd Hok. rewrite map_app. apply in_or_app.
    destruct (Nat.eq_dec i j) as [<-|Hne].
    + right. apply (po_compl _ _ _ _ _ _ P1); auto.
      * rewrite (nth_skip_eq w kk sfx) by auto. rewrite Hx. fold (xs i). now rewrite HXi.
      * intros k Hk. eapply Qcle_trans; [apply Hbd; lia|]. apply bounds_le; try lia. apply (po_inv _ _ _ _ _ _ P1). apply (po_inv _ _ _ _ _ _ P2). apply (po_max _ _ _ _ _ _ P2).
    + left. apply (po_compl _ _ _ _ _ _ P2); auto. exists j. split; auto. lia.
  - apply (po_inv _ _ _ _ _ _ P2).
  - eapply Qcle_trans; [apply (po_max _ _ _ _ _ _ P2)|apply (po_max _ _ _ _ _ _ P1)].
Qed.

(** ** the candidates of a level *)
Lemma is0_iff (pd : Qc) : is0 qe_ops pd = true <-> pd = 0.
Proof.
  unfold is0. cbn [e_le e_zero qe_ops]. rewrite andb_true_iff, !eleb_le. split.
  - intros [A B]. now apply Qcle_antisym.
  - intros ->. split; apply Qcle_refl.
Qed.

Lemma tpos_skip : forall k w, allz (skipn k w) = false -> tpos w = tpos (skipn k w).
Proof.
  induction k; intros w H; auto. destruct w as [|x w]; cbn [skipn] in *; auto.
  cbn [tpos]. rewrite <- (IHk w H). destruct (allz w) eqn:A; auto.
  exfalso. clear -A H. revert k H. induction w as [|y w IH]; intros k H; [rewrite skipn_nil in H; discriminate|].
  destruct k; [cbn [skipn] in H; congruence|]. cbn [skipn] in H. cbn [allz forallb] in A. apply andb_prop in A as [_ A]. eapply IH; eauto.
Qed.

Definition entry (kk : nat) (sfx : list Z) (x dx ddx : Z) : Prop :=
  let s := dx0 qe_ops (cn kk sfx) (qround (cn kk sfx)) in
  dx = s /\ ddx = s /\ (x = qround (cn kk sfx) \/ (c_svp c = true /\ kk = 0%nat /\ sfx = [] /\ x = 1%Z)).

Lemma st_zig pd t0 : (c_svp c = true -> pd <> 0) -> forall i, st pd t0 i = ziter i t0.
Proof.
  intros H. induction i; auto. cbn [st ziter]. rewrite IHi. destruct (ziter i t0) as [[x dx] ddx]. unfold pst3, pstep, zstep.
  destruct (c_svp c) eqn:SV; cbn [negb orb]; auto.
  destruct (is0 qe_ops pd) eqn:I0; auto. apply is0_iff in I0. exfalso. now apply H.
Qed.
Lemma st_incr x dx ddx : c_svp c = true -> forall i, zx (st 0 (x, dx, ddx) i) = (x + Z.of_nat i)%Z.
Proof.
  intros SV i. assert (A : st 0 (x, dx, ddx) i = (x + Z.of_nat i, dx, ddx)%Z).
  { induction i; [cbn; rewrite Z.add_0_r; auto|]. cbn [st]. rewrite IHi. unfold pst3, pstep. rewrite SV. cbn [negb orb].
    replace (is0 qe_ops 0) with true by reflexivity. cbn [negb]. repeat match goal with |- (_, _) = (_, _) => apply f_equal2 end; lia. }
  now rewrite A.
Qed.

Lemma entry_cands kk sfx x dx ddx : (kk < ke)%nat -> (S kk + length sfx = ke)%nat -> entry kk sfx x dx ddx ->
  (c_svp c = true -> allz sfx = true \/ tpos sfx = true) ->
  cands kk sfx (fun i => zx (st (sdist (S kk) sfx) (x, dx, ddx) i)).
Proof.
  intros Hkk Hlen (-> & -> & HX) Hok.
  destruct (c_svp c && allz sfx) eqn:CASE.
  - apply andb_prop in CASE as [SV AZ].
    rewrite (sdist_zero SV sfx (S kk) AZ).
    assert (C0 : cn kk sfx = 0) by (unfold cen; now apply csum_zero).
    rewrite C0 in HX. rewrite qround_0 in HX.
    assert (X01 : (x = 0 \/ (x = 1 /\ kk = 0%nat /\ sfx = []))%Z) by (destruct HX as [->|(_ & -> & -> & ->)]; auto).
    constructor; intros *; rewrite ?st_incr by auto; try rewrite C0.
    + lia.
    + intros Hij. replace (Qcz (x + Z.of_nat i) - 0) with (Qcz (x + Z.of_nat i)) by ring. replace (Qcz (x + Z.of_nat j) - 0) with (Qcz (x + Z.of_nat j)) by ring.
      rewrite <- !Qcz_mul. apply Qcz_le. nia.
    + intros Hw Hsk O. specialize (O SV).
      set (a := nth kk w 0%Z).
      assert (HA : skipn kk w = a :: sfx) by (apply nth_skip_eq; auto).
      assert (Ha : (0 <= a)%Z).
      { destruct (Z.le_gt_cases 0 a); auto. exfalso.
        assert (AZ' : allz (skipn kk w) = false).
        { rewrite HA. cbn [allz forallb]. apply andb_false_intro1. apply Z.eqb_neq. lia. }
        rewrite (tpos_skip kk w AZ'), HA in O. cbn [tpos] in O. rewrite AZ in O. apply Z.ltb_lt in O. lia. }
      destruct X01 as [->|(-> & -> & ->)].
      * exists (Z.to_nat a). rewrite st_incr by auto. lia.
      * exists (Z.to_nat (a - 1)). rewrite st_incr by auto.
        assert (0 < a)%Z. { cbn [skipn] in HA. rewrite HA in O. cbn in O. apply Z.ltb_lt in O. auto. }
        lia.
    + intros _. cbn [allz forallb tpos]. fold (allz sfx). rewrite AZ, andb_true_r.
      destruct (Z.eqb_spec 0 (x + Z.of_nat i)); auto. right. apply Z.ltb_lt. lia.
    + replace (Qcz (x + Z.of_nat i) - 0) with (Qcz (x + Z.of_nat i)) by ring. rewrite <- !Qcz_mul. apply Qcz_le. nia.
  - assert (NZ : c_svp c = true -> sdist (S kk) sfx <> 0).
    { intros SV Z0. rewrite SV in CASE. cbn in CASE. apply sdist_allz in Z0; auto; [congruence|lia]. }
    assert (XQ : x = qround (cn kk sfx)).
    { destruct HX as [HX|(SV & _ & -> & _)]; auto. rewrite SV in CASE. discriminate. }
    subst x. destruct (dx0_facts (cn kk sfx)) as (F1 & F2 & F3).
    set (x0 := qround (cn kk sfx)) in *. set (s := dx0 qe_ops (cn kk sfx) x0) in *.
    constructor; intros *; rewrite ?st_zig by auto.
    + apply zz_inj; auto.
    + intros Hij. apply zz_mono; auto.
    + intros Hw Hsk O. destruct (zz_cover x0 s F1 (nth kk w 0%Z)) as [n Hn]. exists n. rewrite st_zig; auto.
    + intros SV. right. cbn [tpos]. rewrite SV in CASE. cbn in CASE. rewrite CASE. destruct (Hok SV); [congruence|auto].
    + pose proof (zz_far x0 s F1 (cn kk sfx) F2 F3 i) as FF.
      eapply Qcle_trans; [|exact FF]. rewrite <- Qcz_mul. apply Qcz_le. nia.
Qed.

Lemma post_sel L sfx g g' (P Q : list Z -> Prop) new : (forall w, length w = ke -> skipn L w = sfx -> okv w -> Q w -> P w) -> (forall w, P w -> Q w) ->
  post L sfx g g' P new -> post L sfx g g' Q new.
Proof.
  intros HQ HP [A1 A2 A3 A4 A5 A6]. constructor; auto.
  intros v nd m Hin. destruct (A2 v nd m Hin) as (w & B1 & B2 & B3 & B4 & B5). exists w. repeat (split; auto).
Qed.

Lemma plev_post fuel : forall L sfx x dx ddx g g', (0 < L)%nat -> (L + length sfx = ke)%nat -> ginv g ->
  entry (pred L) sfx x dx ddx -> (c_svp c = true -> allz sfx = true \/ tpos sfx = true) ->
  plev qe_ops evalS evalSub c rst rec tl fuel L sfx (sdist L sfx) x dx ddx g = Some g' ->
  exists new, post L sfx g g' (fun _ => True) new.
Proof.
  induction L as [|kk IH]; intros sfx x dx ddx g g' HL Hlen GI EN Hok H; [lia|]. clear HL.
  cbn [pred] in EN. cbn [plev] in H.
  pose proof (entry_cands kk sfx x dx ddx ltac:(lia) Hlen EN Hok) as CA.
  destruct (ploop_post (plev qe_ops evalS evalSub c rst rec tl fuel kk) kk sfx (x, dx, ddx) ltac:(lia) Hlen CA) with (n := S fuel) (i := 0%nat) (first := true) (g := g) (g' := g') as [new P]; auto.
  - intros y g1 g2 p -> GI1 OK1 B. apply IH in B; auto; [lia| |].
    + cbn [length]. lia.
    + cbn [pred]. repeat split; auto.
  - exists new. revert P. apply post_sel; auto. intros w Hw Hs O _.
    destruct (ca_cover _ _ _ CA w Hw Hs O) as [i Hi]. exists i. split; [lia|]. exact Hi.
Qed.

(** ** termination *)
Definition enough (fuel : nat) (m : Qc) : Prop := forall k, (k < ke)%nat -> Qcz 4 * Bm m k < Qcz (Z.of_nat fuel) * r k.

Lemma enough_mono fuel m m' : enough fuel m -> m' <= m -> enough fuel m'.
Proof.
  intros H Hm k Hk. eapply Qcle_lt_trans; [|apply (H k Hk)]. 
  assert (B := Bm_mono m m' k Hk Hm). revert B. generalize (Bm m' k), (Bm m k). change (Qcz 4) with (1+1+1+1). intros. qclra.
Qed.

Lemma ploop_term below kk sfx t0 fuel M :
  (kk < ke)%nat -> (S kk + length sfx = ke)%nat -> enough fuel M ->
  cands kk sfx (fun i => zx (st (sdist (S kk) sfx) t0 i)) ->
  (forall x g p, kk = S p -> ginv g -> g_max g <= M -> (c_svp c = true -> allz (x :: sfx) = true \/ tpos (x :: sfx) = true) ->
     exists g', below (x :: sfx) (sdist kk (x :: sfx)) (qround (cn p (x :: sfx))) (dx0 qe_ops (cn p (x :: sfx)) (qround (cn p (x :: sfx))))
       (dx0 qe_ops (cn p (x :: sfx)) (qround (cn p (x :: sfx)))) g = Some g' /\ exists new, post kk (x :: sfx) g g' (fun _ => True) new) ->
  forall n i first g, (fuel < n + i)%nat -> (0 < n)%nat -> ginv g -> g_max g <= M ->
  exists g', ploop qe_ops evalS evalSub c rst rec tl below kk sfx (sdist (S kk) sfx) n first
     (fst (fst (st (sdist (S kk) sfx) t0 i))) (snd (fst (st (sdist (S kk) sfx) t0 i))) (snd (st (sdist (S kk) sfx) t0 i)) g = Some g'.
Proof.
  intros Hkk Hlen EN CA Hbelow. set (pd := sdist (S kk) sfx) in *.
  set (xs := fun i => zx (st pd t0 i)) in *.
  induction n; intros i first g Hni Hn GI GM; [lia|].
  cbn [ploop]. 
  change (fst (fst (st pd t0 i))) with (xs i).
  set (nd := e_dist qe_ops pd (e_alpha qe_ops (xs i) (cn kk sfx)) (r kk)).
  assert (Hnd : nd = sdist kk (xs i :: sfx)) by (cbn; reflexivity).
  cbn [e_le qe_ops].
  destruct (eleb nd (g_bounds g kk)) eqn:Hle; cbn [negb]; [|eauto].
  apply eleb_le in Hle.
  assert (Hi : (i < fuel)%nat).
  { destruct (le_lt_dec fuel i) as [Hfi|]; auto. exfalso.
    pose proof (ca_far _ _ _ CA i) as F. rewrite Hnd in Hle. cbn [sdist] in Hle. fold pd in Hle.
    rewrite (proj1 GI kk Hkk) in Hle.
    assert (B := Bm_mono M (g_max g) kk Hkk GM). specialize (EN kk Hkk).
    assert (P0 : 0 <= pd) by (apply sdist_nonneg; lia).
    assert (R := Hr kk Hkk). change (zx (st pd t0 i)) with (xs i) in F.
    assert (FI : Qcz (Z.of_nat fuel) <= Qcz (Z.of_nat i)) by (apply Qcz_le; lia).
    revert F Hle B EN P0 R FI. generalize ((Qcz (xs i) - cn kk sfx) * (Qcz (xs i) - cn kk sfx)). intros a.
    generalize (Bm (g_max g) kk), (Bm M kk), (Qcz (Z.of_nat fuel)), (Qcz (Z.of_nat i)), (r kk). 
    change (Qcz 4) with (1+1+1+1). intros b b' f ii rr F Hle B EN P0 R FI.
    assert (f * rr <= (1+1+1+1) * (a * rr)).
    { assert (f <= (1+1+1+1) * a) by (eapply Qcle_trans; eauto). replace ((1+1+1+1) * (a * rr)) with (((1+1+1+1) * a) * rr) by ring. qcnra. }
    assert (a * rr <= b') by qclra. qclra. }
  assert (NODE : exists g1, pnode qe_ops evalS evalSub c rst rec tl below kk sfx first (xs i) nd g = Some (false, g1) /\ ginv g1 /\ g_max g1 <= g_max g).
  { unfold pnode. rewrite Hnr. cbn [andb].
    set (g2 := if subany rec first then _ else _).
    assert (G2 : ginv g2 /\ g_max g2 = g_max g /\ g_bounds g2 = g_bounds g /\ sols (g_log g2) = sols (g_log g)).
    { unfold g2. destruct (subany rec first).
      - apply (gsub_facts kk (repeat 0%Z kk ++ xs i :: sfx ++ tl) nd (gvisit qe_ops kk g)). exact GI.
      - repeat split; try apply GI; auto. }
    destruct G2 as (G2 & G2m & G2b & G2l).
    destruct kk as [|p].
    - eexists. split; [reflexivity|]. rewrite Hnd. change (xs i :: sfx ++ tl) with ((xs i :: sfx) ++ tl). 
      destruct (leaf_post (xs i :: sfx) g2) as [new P]; auto.
      + rewrite <- Hnd. rewrite G2b. exact Hle.
      + apply (ca_ok _ _ _ CA).
      + destruct P. rewrite <- G2m. auto.
    - destruct (Hbelow (xs i) g2 p) as (g3 & B1 & new & B2); auto.
      + now rewrite G2m.
      + apply (ca_ok _ _ _ CA).
      + cbn [e_round qe_ops]. rewrite <- Hnd in B1. rewrite B1. cbn [option_map]. exists g3. split; auto. destruct B2. rewrite <- G2m. auto. }
  destruct NODE as (g1 & -> & GI1 & GM1).
  specialize (IHn (S i) false g1). cbn [st] in IHn. unfold pst3 in IHn.
  destruct (st pd t0 i) as [[x dx] ddx] eqn:Est. cbn [fst snd] in *.
  replace (xs i) with x in * by (unfold xs; rewrite Est; reflexivity).
  destruct (pstep qe_ops c pd x dx ddx) as [[x' dx'] ddx'] eqn:Epst. cbn [fst snd] in IHn.
  apply IHn; auto; try lia. eapply Qcle_trans; eauto.
Qed.

Lemma plev_term fuel M : enough fuel M -> forall L sfx x dx ddx g, (0 < L)%nat -> (L + length sfx = ke)%nat -> ginv g -> g_max g <= M ->
  entry (pred L) sfx x dx ddx -> (c_svp c = true -> allz sfx = true \/ tpos sfx = true) ->
  exists g', plev qe_ops evalS evalSub c rst rec tl fuel L sfx (sdist L sfx) x dx ddx g = Some g'.
Proof.
  intros EF. induction L as [|kk IH]; intros sfx x dx ddx g HL Hlen GI GM EN Hok; [lia|]. clear HL.
  cbn [pred] in EN. cbn [plev].
  pose proof (entry_cands kk sfx x dx ddx ltac:(lia) Hlen EN Hok) as CA.
  apply (ploop_term (plev qe_ops evalS evalSub c rst rec tl fuel kk) kk sfx (x, dx, ddx) fuel M) with (n := S fuel) (i := 0%nat) (first := true) (g := g); auto; try lia.
  intros y g1 p -> GI1 GM1 OK1.
  destruct (IH (y :: sfx) (qround (cn p (y :: sfx))) (dx0 qe_ops (cn p (y :: sfx)) (qround (cn p (y :: sfx))))
       (dx0 qe_ops (cn p (y :: sfx)) (qround (cn p (y :: sfx)))) g1) as [g2 H2]; auto; try lia.
  - cbn [length]. lia.
  - cbn [pred]. repeat split; auto.
  - exists g2. split; auto. eapply plev_post; eauto; [lia| |].
    + cbn [length]. lia.
    + cbn [pred]. repeat split; auto.
Qed.

(** some fuel is always enough *)
Lemma enough_exists m : exists fuel, enough fuel m.
Proof.
  assert (HH : forall n, (n <= ke)%nat -> exists fuel, forall k, (k < n)%nat -> Qcz 4 * Bm m k < Qcz (Z.of_nat fuel) * r k).
  { induction n; intros Hn; [exists 0%nat; intros; lia|].
    destruct IHn as [f Hf]; [lia|].
    assert (R := Hr n ltac:(lia)).
    set (q := Qcz 4 * Bm m n / r n).
    exists (Nat.max f (Z.to_nat (Qfloor (this q) + 1))). intros k Hk.
    assert (M : forall a b, (a <= b)%nat -> 0 < r k -> Qcz (Z.of_nat a) * r k <= Qcz (Z.of_nat b) * r k).
    { intros a b Hab Hrk. assert (Qcz (Z.of_nat a) <= Qcz (Z.of_nat b)) by (apply Qcz_le; lia). revert H Hrk. generalize (r k), (Qcz (Z.of_nat a)), (Qcz (Z.of_nat b)). intros. qcnra. }
    destruct (Nat.eq_dec k n) as [->|].
    - eapply Qclt_le_trans; [|apply (M (Z.to_nat (Qfloor (this q) + 1))); auto; lia].
      assert (Q1 : q < Qcz (Z.of_nat (Z.to_nat (Qfloor (this q) + 1)))).
      { apply Qclt_le_trans with (Qcz (Qfloor (this q) + 1)).
        - unfold Qclt. rewrite Qcz_Q. apply Qlt_floor.
        - apply Qcz_le. lia. }
      assert (E : Qcz 4 * Bm m n = q * r n).
      { unfold q. field. intros Z0. rewrite Z0 in R. discriminate. }
      rewrite E. revert Q1 R. generalize (r n), q, (Qcz (Z.of_nat (Z.to_nat (Qfloor (this q) + 1)))). intros. qcnra.
    - eapply Qclt_le_trans; [apply Hf; lia|]. apply M; [lia|]. apply Hr. lia. }
  destruct (HH ke (le_n _)) as [f Hf]. exists f. auto.
Qed.
End Tree.
