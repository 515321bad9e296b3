(** Which radius a thread uses: the signals of ParEnumModel.v within one batch. *)
From Coq Require Import List ZArith Arith Bool Lia Permutation.
From Verif Require Import Util EvalModel EvalProofs PropEval ParEnumModel PropPool ParEnumProofs.
Import ListNotations.

Section Fresh.
Variable N : nat.
Hypothesis HN : 1 <= N.
Notation f := z_fops.
Variable nsig : nat.

Definition has_id (t : thr) : bool := match t_pc t with TStart | TCopied => false | _ => true end.
Definition nid (t : thr) : nat := if has_id t then 1 else 0.
Definition loading (t : thr) : bool := match t_pc t with TLoad _ | TOwnL _ => true | _ => false end.
Definition sigb (s : shr f) (id : nat) : bool := nth id (gsig f s) false.
(** [u] is going to set signal [id] *)
Definition pend_t (A : Z) (u : thr) (id : nat) : Prop :=
  match t_pc u with TCmp _ => A <> t_loc u | TSet j _ => j <= id | _ => False end.
Definition pend (y : sys f) (id : nat) : Prop := exists i u, nth_error (ths f y) i = Some u /\ pend_t (gA f (sh f y)) u id.

Definition fresh (y : sys f) (t : thr) : Prop :=
  sigb (sh f y) (t_id t) = true \/ t_loc t = gA f (sh f y) \/ loading t = true \/ pend y (t_id t).

Record Inv3 (y : sys f) : Prop := {
  F_len : length (gsig f (sh f y)) = nsig;
  F_n : length (ths f y) <= nsig;
  F_gid : gid f (sh f y) = lsum nid (ths f y);
  F_idlt : forall t, In t (ths f y) -> has_id t = true -> t_id t < gid f (sh f y);
  F_ids : forall i j t u, nth_error (ths f y) i = Some t -> nth_error (ths f y) j = Some u -> i <> j ->
            has_id t = true -> has_id u = true -> t_id t <> t_id u;
  F_thr : forall t, In t (ths f y) -> has_id t = true -> fresh y t;
  F_new : forall id, gid f (sh f y) <= id < nsig -> sigb (sh f y) id = true \/ mA f (sh f y) = gA f (sh f y) \/ pend y id;
  F_cop : forall t, In t (ths f y) -> t_pc t = TCopied -> t_loc t = mA f (sh f y) }.

Lemma nid_le l : lsum nid l <= length l.
Proof. clear. induction l as [|t l IH]; cbn; [lia|]. unfold nid at 1. destruct (has_id t); lia. Qed.

Lemma nth_error_upd_same {A} (l : list A) i (a b : A) : nth_error l i = Some a -> nth_error (upd l i b) i = Some b.
Proof.
  intro H. rewrite nth_error_upd, Nat.eqb_refl. assert (L : i < length l) by (apply nth_error_Some; rewrite H; discriminate).
  apply Nat.ltb_lt in L. rewrite L. reflexivity.
Qed.
Lemma nth_error_upd_other {A} (l : list A) i j (b : A) : j <> i -> nth_error (upd l i b) j = nth_error l j.
Proof. intro H. rewrite nth_error_upd. apply Nat.eqb_neq in H. rewrite H. reflexivity. Qed.
Lemma In_upd_nth {A} (l : list A) i (a b u : A) : nth_error l i = Some a -> In u (upd l i b) ->
  u = b \/ exists j, j <> i /\ nth_error l j = Some u.
Proof.
  intros Hi Hu. apply In_nth_error in Hu. destruct Hu as (j & Hj). destruct (Nat.eq_dec j i) as [->|Ne].
  - rewrite (nth_error_upd_same _ _ _ _ Hi) in Hj. left. congruence.
  - rewrite nth_error_upd_other in Hj by exact Ne. right. eauto.
Qed.

Lemma lift y i t s' t' :
  nth_error (ths f y) i = Some t -> Inv3 y ->
  gA f s' = gA f (sh f y) -> mA f s' = mA f (sh f y) -> gid f s' = gid f (sh f y) -> length (gsig f s') = nsig ->
  (forall id, id < nsig -> sigb (sh f y) id = true ->
     sigb s' id = true \/ (has_id t = true /\ id = t_id t)) ->
  (forall id, id < nsig -> pend_t (gA f s') t id -> pend_t (gA f s') t' id \/ sigb s' id = true) ->
  has_id t' = has_id t -> (has_id t = true -> t_id t' = t_id t) ->
  (has_id t = true -> sigb s' (t_id t) = true \/ t_loc t' = gA f s' \/ loading t' = true \/ pend_t (gA f s') t' (t_id t) \/
     (t_loc t' = t_loc t /\ loading t = false /\ gsig f s' = gsig f (sh f y))) ->
  (t_pc t' = TCopied -> t_loc t' = mA f (sh f y)) ->
  Inv3 (mkY f s' (upd (ths f y) i t') (more f y) (past f y)).
Proof.
  intros Hn [L1 L2 L3 L4 L5 L6 L7 L8] EA EM EG EL HS HP HI HJ HT HC.
  pose proof (nth_error_In _ _ Hn) as Hin.
  assert (Pd : forall id, id < nsig -> pend y id -> pend (mkY f s' (upd (ths f y) i t') (more f y) (past f y)) id \/ sigb s' id = true).
  { intros id Hid (j & u & Hu & Pu). destruct (Nat.eq_dec j i) as [->|Ne].
    - assert (u = t) by congruence. subst u. rewrite <- EA in Pu. destruct (HP id Hid Pu) as [P|S]; [left|right; exact S].
      exists i, t'. split; [cbn; eapply nth_error_upd_same; eauto|exact P].
    - left. exists j, u. split; [cbn; rewrite nth_error_upd_other by exact Ne; exact Hu|cbn; rewrite EA; exact Pu]. }
  assert (Lt : forall u, In u (ths f y) -> has_id u = true -> t_id u < nsig).
  { intros u Hu Iu. specialize (L4 u Hu Iu). pose proof (nid_le (ths f y)). lia. }
  constructor; cbn [sh ths].
  - exact EL.
  - rewrite upd_length. exact L2.
  - rewrite EG, L3. pose proof (lsum_upd nid _ _ _ t' Hn) as E. unfold nid in E at 2 4. rewrite HI in E. lia.
  - intros u Hu Iu. rewrite EG. destruct (In_upd_nth _ _ _ _ _ Hn Hu) as [->|(j & Hj & Hu')].
    + rewrite HI in Iu. rewrite HJ by exact Iu. apply L4; auto.
    + apply L4; [eapply nth_error_In; eauto|exact Iu].
  - intros a b ta tb Ha Hb Hab Ia Ib. destruct (Nat.eq_dec a i) as [->|Na]; destruct (Nat.eq_dec b i) as [->|Nb]; try contradiction.
    + rewrite (nth_error_upd_same _ _ _ _ Hn) in Ha. injection Ha as <-. rewrite nth_error_upd_other in Hb by exact Nb.
      rewrite HI in Ia. rewrite HJ by exact Ia. eapply L5; eauto.
    + rewrite (nth_error_upd_same _ _ _ _ Hn) in Hb. injection Hb as <-. rewrite nth_error_upd_other in Ha by exact Na.
      rewrite HI in Ib. rewrite HJ by exact Ib. eapply L5; eauto.
    + rewrite nth_error_upd_other in Ha, Hb by assumption. eapply L5; eauto.
  - intros u Hu Iu. unfold fresh. cbn [sh]. destruct (In_upd_nth _ _ _ _ _ Hn Hu) as [->|(j & Hj & Hu')].
    + rewrite HI in Iu. rewrite HJ by exact Iu. destruct (HT Iu) as [S|[S|[S|[S|(S1 & S2 & S3)]]]]; auto.
      * right. right. right. exists i, t'. split; [cbn; eapply nth_error_upd_same; eauto|exact S].
      * destruct (L6 t Hin Iu) as [F|[F|[F|F]]].
        -- left. unfold sigb in *. rewrite S3. exact F.
        -- right. left. rewrite S1, EA. exact F.
        -- congruence.
        -- destruct (Pd (t_id t) (Lt t Hin Iu) F) as [P|P]; auto.
    + pose proof (nth_error_In _ _ Hu') as Hu2. destruct (L6 u Hu2 Iu) as [F|[F|[F|F]]].
      * destruct (HS _ (Lt u Hu2 Iu) F) as [S|(It & E)]; [left; exact S|]. exfalso. apply (L5 j i u t Hu' Hn Hj Iu It). exact E.
      * right. left. rewrite EA. exact F.
      * right. right. left. exact F.
      * destruct (Pd (t_id u) (Lt u Hu2 Iu) F) as [P|P]; auto.
  - rewrite EG. intros id Hid. destruct (L7 id Hid) as [F|[F|F]].
    + destruct (HS id ltac:(lia) F) as [S|(It & E)]; [left; exact S|]. exfalso. specialize (L4 t Hin It). lia.
    + right. left. rewrite EM, EA. exact F.
    + destruct (Pd id ltac:(lia) F) as [P|P]; auto.
  - intros u Hu Eu. rewrite EM. destruct (In_upd_nth _ _ _ _ _ Hn Hu) as [->|(j & Hj & Hu')]; [auto|].
    apply L8; [eapply nth_error_In; eauto|exact Eu].
Qed.

Lemma sig_upd (s : shr f) j b id : nth id (upd (gsig f s) j b) false = if (id =? j) && (j <? length (gsig f s)) then b else sigb s id.
Proof. unfold sigb. rewrite nth_upd. reflexivity. Qed.

Lemma sig_set_true (s : shr f) j id : j < length (gsig f s) -> sigb s id = true \/ id = j -> sigb (set_sig f s j true) id = true.
Proof.
  intros H Hor. unfold sigb at 1. cbn [gsig set_sig]. rewrite sig_upd. apply Nat.ltb_lt in H. rewrite H.
  destruct (Nat.eqb_spec id j) as [->|Ne]; cbn [andb]; [reflexivity|]. destruct Hor; [assumption|contradiction].
Qed.
Lemma sig_clr (s : shr f) j id : id <> j -> sigb s id = true -> sigb (set_sig f s j false) id = true.
Proof.
  intros H Hs. unfold sigb at 1. cbn [gsig set_sig]. rewrite sig_upd. apply Nat.eqb_neq in H. rewrite H. exact Hs.
Qed.

(** only one thread is in the critical section *)
Lemma only_one y i t : Inv1 f y -> nth_error (ths f y) i = Some t -> tlk t = 1 ->
  forall j u, j <> i -> nth_error (ths f y) j = Some u -> tlk u = 0.
Proof.
  intros I Hn Ht j u Hj Hu. pose proof (V_lock f y I) as E.
  pose proof (lsum_upd tlk _ _ _ fresh_thr Hn) as E1.
  pose proof (lsum_ge tlk (upd (ths f y) i fresh_thr) j u) as E2.
  rewrite nth_error_upd_other in E2 by exact Hj. specialize (E2 Hu). cbn in E1.
  destruct (glock f (sh f y)); lia.
Qed.

Lemma pend_lk A u id : pend_t A u id -> tlk u = 1.
Proof. unfold pend_t, tlk. destruct (t_pc u); tauto. Qed.

Lemma Inv3_thread A0 y i t s' t' :
  nth_error (ths f y) i = Some t -> tstep f BestN N (sh f y) t s' t' -> Inv1 f y -> Inv2 N A0 y -> Inv3 y ->
  Inv3 (mkY f s' (upd (ths f y) i t') (more f y) (past f y)).
Proof.
  intros Hn St I1 I2 I3.
  pose proof (Inv2_thread N HN A0 y i t s' t' Hn St I2) as [_ Mono].
  pose proof (nth_error_In _ _ Hn) as Hin.
  pose proof (W_loc N A0 y I2 t Hin) as Wl.
  pose proof (F_len y I3) as EL.
  remember (sh f y) as s0 eqn:Es in St. destruct St; subst s.
  - (* T_copy *) apply lift with (t := mkT TStart i0 a h); auto; cbn; try discriminate; try tauto; try (unfold pend_t; cbn; tauto).
  - (* T_id *) destruct I3 as [L1 L2 L3 L4 L5 L6 L7 L8].
    assert (Gl : gid f (sh f y) < nsig).
    { pose proof (lsum_upd nid _ _ _ (mkT TFetch 0 a h) Hn) as E. pose proof (nid_le (upd (ths f y) i (mkT TFetch 0 a h))) as E2.
      rewrite upd_length in E2. cbn in E. lia. }
    assert (Pd : forall id, pend y id -> pend (mkY f (inc_id f (sh f y)) (upd (ths f y) i (mkT TFetch (gid f (sh f y)) a h)) (more f y) (past f y)) id).
    { intros id (j & u & Hu & Pu). destruct (Nat.eq_dec j i) as [->|Ne].
      - assert (u = mkT TCopied i0 a h) by congruence. subst u. destruct Pu.
      - exists j, u. split; [cbn; rewrite nth_error_upd_other by exact Ne; exact Hu|exact Pu]. }
    constructor; cbn [sh ths].
    + exact L1.
    + rewrite upd_length. exact L2.
    + cbn. pose proof (lsum_upd nid _ _ _ (mkT TFetch (gid f (sh f y)) a h) Hn) as E. cbn in E. lia.
    + intros u Hu Iu. cbn. destruct (In_upd_nth _ _ _ _ _ Hn Hu) as [->|(j & Hj & Hu')]; [cbn; lia|].
      specialize (L4 u (nth_error_In _ _ Hu') Iu). lia.
    + intros p r tp tr Ha Hb Hab Ia Ib. destruct (Nat.eq_dec p i) as [->|Na]; destruct (Nat.eq_dec r i) as [->|Nb]; try contradiction.
      * rewrite (nth_error_upd_same _ _ _ _ Hn) in Ha. injection Ha as <-. rewrite nth_error_upd_other in Hb by exact Nb.
        specialize (L4 tr (nth_error_In _ _ Hb) Ib). cbn. lia.
      * rewrite (nth_error_upd_same _ _ _ _ Hn) in Hb. injection Hb as <-. rewrite nth_error_upd_other in Ha by exact Na.
        specialize (L4 tp (nth_error_In _ _ Ha) Ia). cbn. lia.
      * rewrite nth_error_upd_other in Ha, Hb by assumption. eapply L5; eauto.
    + intros u Hu Iu. unfold fresh. cbn [sh]. destruct (In_upd_nth _ _ _ _ _ Hn Hu) as [->|(j & Hj & Hu')].
      * cbn [t_id t_loc]. destruct (L7 (gid f (sh f y)) ltac:(lia)) as [F|[F|F]].
        -- left. exact F.
        -- right. left. pose proof (L8 _ Hin eq_refl) as E. cbn in E. cbn. congruence.
        -- right. right. right. auto.
      * destruct (L6 u (nth_error_In _ _ Hu') Iu) as [F|[F|[F|F]]]; auto.
    + intros id Hid. cbn in Hid. destruct (L7 id ltac:(lia)) as [F|[F|F]]; auto.
    + intros u Hu Eu. destruct (In_upd_nth _ _ _ _ _ Hn Hu) as [->|(j & Hj & Hu')]; [discriminate|].
      apply L8; [eapply nth_error_In; eauto|exact Eu].
  - apply lift with (t := mkT TFetch i0 a h); auto; cbn; try discriminate; try tauto; try (unfold pend_t; cbn; tauto); try (intros _; right; right; right; right; auto; fail).
  - apply lift with (t := mkT TFetch i0 a h); auto; cbn; try discriminate; try tauto; try (unfold pend_t; cbn; tauto); try (intros _; right; right; right; right; auto; fail).
  - apply lift with (t := mkT (TSig ls) i0 a h); auto; cbn; try discriminate; try tauto; try (unfold pend_t; cbn; tauto); try (intros _; right; right; right; right; auto; fail).
  - apply lift with (t := mkT (TSig ls) i0 a h); auto; cbn; try discriminate; try tauto; try (unfold pend_t; cbn; tauto); try (intros _; right; right; right; right; auto; fail).
  - (* T_clr *) apply lift with (t := mkT (TClr ls) i0 a h); auto; cbn; try discriminate; try tauto; try (unfold pend_t; cbn; tauto).
    + rewrite upd_length. exact EL.
    + intros id Hid S. destruct (Nat.eq_dec id i0) as [->|Ne]; [right; auto|left; apply sig_clr; auto].
  - (* T_load *) apply lift with (t := mkT (TLoad ls) i0 a h); auto; cbn; try discriminate; try tauto; try (unfold pend_t; cbn; tauto).
  - apply lift with (t := mkT (TRun (l :: ls)) i0 a h); auto; cbn; try discriminate; try tauto; try (unfold pend_t; cbn; tauto); try (intros _; right; right; right; right; auto; fail).
  - apply lift with (t := mkT (TRun (l :: ls)) i0 a h); auto; cbn; try discriminate; try tauto; try (unfold pend_t; cbn; tauto); try (intros _; right; right; right; right; auto; fail).
  - apply lift with (t := mkT (TRun []) i0 a h); auto; cbn; try discriminate; try tauto; try (unfold pend_t; cbn; tauto); try (intros _; right; right; right; right; auto; fail).
  - apply lift with (t := mkT (TWait l ls) i0 a h); auto; cbn; try discriminate; try tauto; try (unfold pend_t; cbn; tauto); try (intros _; right; right; right; right; auto; fail).
  - (* T_sol *)
    cbn [gA set_A] in Mono. cbn in Wl. specialize (Wl eq_refl).
    assert (NP : forall id, ~ pend y id).
    { intros id (j & u & Hu & Pu). destruct (Nat.eq_dec j i) as [->|Ne].
      - assert (u = mkT (TCrit l ls) i0 a h) by congruence. subst u. destruct Pu.
      - pose proof (only_one y i _ I1 Hn eq_refl j u Ne Hu) as Z. rewrite (pend_lk _ _ _ Pu) in Z. discriminate. }
    destruct (Z.eq_dec a' (gA f (sh f y))) as [Eq|Neq].
    + subst a'. apply lift with (t := mkT (TCrit l ls) i0 a h); auto; cbn; try discriminate; try tauto; try (unfold pend_t; cbn; tauto).
    + assert (Ne : a' <> a) by lia.
      destruct I3 as [L1 L2 L3 L4 L5 L6 L7 L8].
      assert (Pd : forall id, pend (mkY f (set_A f (sh f y) ev' a' l) (upd (ths f y) i (mkT (TCmp ls) i0 a h)) (more f y) (past f y)) id).
      { intros id. exists i, (mkT (TCmp ls) i0 a h). split; [cbn; eapply nth_error_upd_same; eauto|exact Ne]. }
      constructor; cbn [sh ths].
      * exact L1.
      * rewrite upd_length. exact L2.
      * cbn. pose proof (lsum_upd nid _ _ _ (mkT (TCmp ls) i0 a h) Hn) as E. cbn in E. lia.
      * intros u Hu Iu. cbn. destruct (In_upd_nth _ _ _ _ _ Hn Hu) as [->|(j & Hj & Hu')].
        -- apply (L4 _ Hin). reflexivity.
        -- apply L4; [eapply nth_error_In; eauto|exact Iu].
      * intros p r tp tr Ha Hb Hab Ia Ib. destruct (Nat.eq_dec p i) as [->|Na]; destruct (Nat.eq_dec r i) as [->|Nb]; try contradiction.
        -- rewrite (nth_error_upd_same _ _ _ _ Hn) in Ha. injection Ha as <-. rewrite nth_error_upd_other in Hb by exact Nb.
           exact (L5 i r _ tr Hn Hb Hab eq_refl Ib).
        -- rewrite (nth_error_upd_same _ _ _ _ Hn) in Hb. injection Hb as <-. rewrite nth_error_upd_other in Ha by exact Na.
           exact (L5 p i tp _ Ha Hn Hab Ia eq_refl).
        -- rewrite nth_error_upd_other in Ha, Hb by assumption. eapply L5; eauto.
      * intros u Hu Iu. right. right. right. apply Pd.
      * intros id Hid. right. right. apply Pd.
      * intros u Hu Eu. cbn. destruct (In_upd_nth _ _ _ _ _ Hn Hu) as [->|(j & Hj & Hu')]; [discriminate|].
        apply L8; [eapply nth_error_In; eauto|exact Eu].
  - (* T_same *) apply lift with (t := mkT (TCmp ls) i0 a h); auto; cbn; try discriminate; try tauto; try (unfold pend_t; cbn; tauto).
  - (* T_diff *) apply lift with (t := mkT (TCmp ls) i0 a h); auto; cbn; try discriminate; try tauto; try (unfold pend_t; cbn; tauto).
    + intros id _ _. left. unfold pend_t. cbn. lia.
  - (* T_set *) apply lift with (t := mkT (TSet j ls) i0 a h); auto; cbn [t_pc t_id t_loc has_id]; try discriminate.
    + cbn. rewrite upd_length. exact EL.
    + intros id Hid S. left. apply sig_set_true; auto.
    + unfold pend_t. cbn [t_pc]. intros id Hid P. destruct (Nat.eq_dec id j) as [->|Ne]; [right|left; lia].
      apply sig_set_true; auto.
    + intros _. destruct (F_thr y I3 _ Hin eq_refl) as [F|[F|[F|F]]]; cbn [t_id t_loc] in F.
      * left. apply sig_set_true; auto.
      * right. left. exact F.
      * discriminate.
      * destruct F as (k & u & Hu & Pu). destruct (Nat.eq_dec k i) as [->|Ne].
        -- assert (u = mkT (TSet j ls) i0 a h) by congruence. subst u. unfold pend_t in Pu. cbn [t_pc] in Pu.
           destruct (Nat.eq_dec i0 j) as [->|Nj].
           ++ left. apply sig_set_true; auto.
           ++ right. right. right. left. unfold pend_t. cbn [t_pc]. lia.
        -- pose proof (only_one y i _ I1 Hn eq_refl k u Ne Hu) as Z. rewrite (pend_lk _ _ _ Pu) in Z. discriminate.
  - (* T_setend *) apply lift with (t := mkT (TSet j ls) i0 a h); auto; cbn; try discriminate; try tauto; try (unfold pend_t; cbn; tauto).
    + unfold pend_t. cbn. intros id Hid P. rewrite EL in H. lia.
  - apply lift with (t := mkT (TOwn ls) i0 a h); auto; cbn; try discriminate; try tauto; try (unfold pend_t; cbn; tauto); try (intros _; right; right; right; right; auto; fail).
  - apply lift with (t := mkT (TOwn ls) i0 a h); auto; cbn; try discriminate; try tauto; try (unfold pend_t; cbn; tauto); try (intros _; right; right; right; right; auto; fail).
  - (* T_ownc *) apply lift with (t := mkT (TOwnC ls) i0 a h); auto; cbn; try discriminate; try tauto; try (unfold pend_t; cbn; tauto).
    + rewrite upd_length. exact EL.
    + intros id Hid S. destruct (Nat.eq_dec id i0) as [->|Ne]; [right; auto|left; apply sig_clr; auto].
  - apply lift with (t := mkT (TOwnL ls) i0 a h); auto; cbn; try discriminate; try tauto; try (unfold pend_t; cbn; tauto).
  - apply lift with (t := mkT TMerge i0 a h); auto; cbn; try discriminate; try tauto; try (unfold pend_t; cbn; tauto); try (intros _; right; right; right; right; auto; fail).
  - apply lift with (t := mkT TMergeC i0 a h); auto; cbn; try discriminate; try tauto; try (unfold pend_t; cbn; tauto); try (intros _; right; right; right; right; auto; fail).
Qed.

Lemma Inv3_init n A0 b m : n <= nsig -> Inv3 (par_init f nsig n A0 b m).
Proof.
  intro Hn. constructor; cbn.
  - apply repeat_length.
  - rewrite repeat_length. exact Hn.
  - symmetry. apply lsum_repeat. reflexivity.
  - intros t Ht It. apply repeat_spec in Ht. subst t. discriminate.
  - intros i j t u Hi Hj _ It _. apply nth_error_In, repeat_spec in Hi. subst t. discriminate.
  - intros t Ht It. apply repeat_spec in Ht. subst t. discriminate.
  - intros id _. right. left. reflexivity.
  - intros t Ht Et. apply repeat_spec in Ht. subst t. discriminate.
Qed.
End Fresh.
