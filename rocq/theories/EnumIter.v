(** The iterative enumeration loop (FPLLL_WITH_RECURSIVE_ENUM undefined): same refinement as
    EnumRefine.v, and the invariant of the cached centre sums at every loop head. *)
From Coq Require Import List ZArith Arith Bool Lia.
From Verif Require Import Util EnumModel EnumPure EnumRefine.
Import ListNotations.

Section Iter.
Context (o : eops) {EV : Type}.
Notation E := (E o).
Notation gst := (gst o EV).
Notation est := (est o EV).
Variable evalS : list Z -> E -> E -> EV -> EV * E.
Variable evalSub : nat -> list Z -> E -> EV -> EV.
Variable c : ecfg o.
Variable rst : list Z -> nat -> option (option (list Z * E)).
Hypothesis Hkd : c_kend c <= c_d c.
Notation ke := (c_kend c).
Notation plevI := (plev o evalS evalSub c rst false).
Notation ploopI := (ploop o evalS evalSub c rst false).
Notation iter := (enum_iter o evalS evalSub c rst).

Definition resume (f : nat) (L : nat) (s : est) : option est :=
  match next_pos o c L s with None => Some s | Some (k, s') => iter f k s' end.

Lemma next_pos_step L (s : est) : L < ke -> next_pos o c L s = Some (L, step_x o c L s).
Proof.
  intros H. unfold next_pos, step_x. destruct (is0 o (s_partdist s L)); cbn [negb orb].
  - destruct (Nat.leb_spec ke L); [lia|]. rewrite orb_false_r. destruct (c_svp c); auto.
  - rewrite orb_true_r. auto.
Qed.

Lemma iter_mono : forall f k (s r : est) m, iter f k s = Some r -> iter (f + m) k s = Some r.
Proof.
  induction f; intros k s r m H; [discriminate|].
  cbn [enum_iter Nat.add] in *. destruct (iter_step o evalS evalSub c rst k s) as [[?|[? ?]]|]; auto.
Qed.
(** [po] is the result of the cache-free description; if that is still unfinished with the given
    fuel, so is the loop within fewer than [B] iterations *)
Definition iterto (B : nat) (kk : nat) (s : est) (po : option gst) : Prop :=
  match po with
  | None => forall f, f < B -> iter f kk s = None
  | Some g => exists m s', (forall f, iter (m + f) kk s = resume f (S kk) s') /\
      s_g s' = g /\ frame o (S kk) s s' /\ cinv o c s' kk
  end.
Definition IHiter (fuel L : nat) : Prop := forall kk s, L = S kk -> L <= ke -> cinv o c s kk -> alok o c s (S kk) ->
  s_center s kk = cen o c kk (suf o c s (S kk)) ->
  iterto (S fuel) kk s (plevI (tlof o c s) fuel (S kk) (suf o c s (S kk)) (s_partdist s kk) (s_x s kk) (s_dx s kk) (s_ddx s kk) (s_g s)).

Lemma iter_loop_ok fuel kk : kk < ke -> (forall p, kk = S p -> IHiter fuel kk) ->
  forall n b (s : est) sfx, sfx = suf o c s (S kk) -> cinv o c s kk -> alok o c s (S kk) -> s_center s kk = cen o c kk sfx ->
  iterto (Nat.min n (S fuel)) kk s (ploopI (tlof o c s) (plevI (tlof o c s) fuel kk) kk sfx (s_partdist s kk) n b (s_x s kk) (s_dx s kk) (s_ddx s kk) (s_g s)).
Proof.
  intros Hkk IH. induction n; intros b s sfx Hs HC HA Hce; [intros f Hf; lia|].
  cbn [ploop].
  set (a := e_alpha o (s_x s kk) (cen o c kk sfx)) in *.
  set (nd := e_dist o (s_partdist s kk) a (c_rdiag c kk)) in *.
  destruct (e_le o nd (g_bounds (s_g s) kk)) eqn:Hle; cbn [negb].
  2:{ exists 1, s. split; [|split; [auto|split; [apply frame_refl|exact HC]]].
      intros f. cbn [Nat.add enum_iter]. unfold iter_step. rewrite Hce. fold a. fold nd. rewrite Hle.
      unfold resume. destruct (next_pos o c (S kk) s) as [[? ?]|]; auto. }
  set (s1 := visit o kk a s).
  set (s2 := setg o (gsubmaybe o evalSub c kk (vec_of o c (s_x s1)) nd (s_g s1)) s1).
  assert (F2 : frame o (S kk) s s2).
  { constructor; intros; auto. cbn. rewrite fset_neq by lia. auto. }
  assert (S2 : suf o c s2 (S kk) = sfx) by (symmetry; exact Hs).
  assert (T2 : tlof o c s2 = tlof o c s) by reflexivity.
  assert (G2 : s_g s2 = gsubmaybe o evalSub c kk (repeat 0%Z kk ++ s_x s kk :: sfx ++ tlof o c s) nd (gvisit o kk (s_g s))).
  { cbn [s2 setg s_g]. apply gsubmaybe_eq; auto. rewrite Hs. reflexivity. }
  assert (AL2 : alok o c s2 kk).
  { intros j Hj. destruct (Nat.eq_dec j kk) as [->|Hne].
    - rewrite S2. cbn. now rewrite fset_eq.
    - cbn. rewrite fset_neq by auto. rewrite HA by lia. reflexivity. }
  assert (CI2 : cinv o c s2 kk) by (destruct HC as [Hb Hc Hf]; constructor; auto).
  (* continuation: once the levels below are done in state s', level kk steps and loops *)
  assert (CONT : forall s' f0, 1 <= f0 -> (forall f, iter (f0 + f) kk s = resume f kk s') ->
            (forall j, kk <= j -> s_x s' j = s_x s j) -> (forall j, kk <= j -> s_dx s' j = s_dx s j) -> (forall j, kk <= j -> s_ddx s' j = s_ddx s j) ->
            (forall j, kk <= j -> s_center s' j = s_center s j) -> (forall j, kk <= j -> s_partdist s' j = s_partdist s j) ->
            (forall j, kk < j -> s_alpha s' j = s_alpha s j) -> (forall j, kk < j -> s_cpb s' j = s_cpb s j) -> 
            (forall i j, kk <= i -> s_cps s' i j = s_cps s i j) ->
            cinv o c (step_x o c kk s') kk ->
            iterto (Nat.min (S n) (S fuel)) kk s (let '(x', dx', ddx') := pstep o c (s_partdist s kk) (s_x s kk) (s_dx s kk) (s_ddx s kk) in
                         ploopI (tlof o c s) (plevI (tlof o c s) fuel kk) kk sfx (s_partdist s kk) n false x' dx' ddx' (s_g s'))).
  { intros s' f0 Hf0 HI Hx Hdx Hddx Hcen Hpd Hal Hcpb Hcps HCI.
    destruct (step_x_facts o c kk s') as (X1 & X2 & X3 & X4 & X5 & X6 & X7 & X8 & X9 & X10).
    rewrite Hpd, Hx, Hdx, Hddx in X10 by lia. rewrite X10.
    set (s3 := step_x o c kk s') in *.
    assert (S3 : suf o c s3 (S kk) = sfx).
    { rewrite Hs. apply suf_ext.
intros a0 Ha0. rewrite X1, Hx by lia. auto. }
    assert (F3 : frame o (S kk) s s3).
    { constructor; intros.
      - rewrite X1, Hx by lia; auto.
      - rewrite X2, Hdx by lia; auto.
      - rewrite X3, Hddx by lia; auto.
      - rewrite X4, Hcen by lia; auto.
      - rewrite X5, Hpd by lia; auto.
      - rewrite X6, Hal by lia; auto.
      - rewrite X8, Hcpb by lia; auto.
      - rewrite X7, Hcps by lia; auto. }
    specialize (IHn false s3 sfx (eq_sym S3) HCI).
    assert (T3 : tlof o c s3 = tlof o c s).
    { apply tl_ext. intros a0 Ha0. apply (fr_x _ _ _ _ F3). lia. }
    assert (P2 : alok o c s3 (S kk)).
    { apply (alok_ext _ _ s); auto; intros j Hj; [apply (fr_x _ _ _ _ F3); lia|apply (fr_al _ _ _ _ F3); lia]. }
    assert (P3 : s_center s3 kk = cen o c kk sfx) by (rewrite (fr_ce _ _ _ _ F3) by lia; auto).
    specialize (IHn P2 P3).
    rewrite T3, X9 in IHn. rewrite X5 in IHn. rewrite Hpd in IHn by lia.
    unfold iterto in IHn |- *.
    match type of IHn with match ?p with _ => _ end => destruct p eqn:Hp end.
    2:{ intros f Hf. destruct (le_lt_dec f0 f) as [Hge|Hlt].
        - replace f with (f0 + (f - f0)) by lia. rewrite HI. unfold resume. rewrite next_pos_step by lia. fold s3. apply IHn. lia.
        - destruct (iter f kk s) as [r|] eqn:It; auto. apply (iter_mono _ _ _ _ (f0 - f)) in It.
          replace (f + (f0 - f)) with (f0 + 0) in It by lia. rewrite HI in It. unfold resume in It. rewrite next_pos_step in It by lia. discriminate It. }
    destruct IHn as (m & s'' & A & B & C & D).
    exists (f0 + m), s''. split.
    - intros f. rewrite <- Nat.add_assoc, HI. unfold resume. rewrite next_pos_step by lia. fold s3. apply A.
    - split; auto. split; auto. eapply frame_trans; eauto. }
  destruct kk as [|p].
  - cbn [pnode]. unfold subany. cbn [negb]. rewrite orb_true_r.
    rewrite <- G2.
    set (s3 := setg o (gleaf o evalS c (vec_of o c (s_x s2)) nd (s_g s2)) s2).
    assert (G3 : s_g s3 = gleaf o evalS c (s_x s 0 :: sfx ++ tlof o c s) nd (s_g s2)).
    { cbn [s3 setg s_g]. f_equal. rewrite vec_zero by auto. rewrite (suf_cons _ _ s2 0) by lia. rewrite S2. reflexivity. }
    rewrite <- G3. apply (CONT s3 1); auto.
    + intros f. cbn [Nat.add enum_iter]. unfold iter_step. rewrite Hce. fold a. fold nd. rewrite Hle.
      unfold resume. fold s1. fold s2. fold s3. destruct (next_pos o c 0 s3) as [[? ?]|]; auto.
    + intros j Hj. cbn. rewrite fset_neq by lia. auto.
    + destruct (step_x_facts o c 0 s3) as (X1 & X2 & X3 & X4 & X5 & X6 & X7 & X8 & X9 & X10).
      destruct CI2 as [Hb Hc Hf]. constructor.
      * intros. rewrite X7. apply Hb. auto.
      * intros. rewrite X8. apply Hc. auto.
      * intros. lia.
  - unfold pnode at 1. unfold subany. cbn [negb]. rewrite orb_true_r, andb_false_r, andb_true_r. cbn [andb]. rewrite <- G2.
    destruct (c_reset c && (Z.of_nat p <? c_rdepth c)%Z) eqn:Hres.
    + pose proof (do_reset_ok o evalS c rst Hkd s2 nd p (s_x s (S p) :: sfx) ltac:(lia)) as DR.
      rewrite T2 in DR. specialize (DR ltac:(rewrite suf_cons by lia; rewrite S2; reflexivity)).
      destruct (preset o evalS c rst (tlof o c s) nd p (s_x s (S p) :: sfx) (s_g s2)) as [g|]; cbn [option_map].
      2:{ intros f Hf. destruct f; auto. cbn [enum_iter]. unfold iter_step. rewrite Hce. fold a. fold nd. rewrite Hle.
          rewrite Hres. fold s1. fold s2. rewrite DR. reflexivity. }
      destruct DR as (s' & A & B & C1 & C2 & C3 & C4 & C5 & C6 & C7 & C8).
      rewrite <- B. apply (CONT s' 1); [lia|..].
      * intros f. cbn [Nat.add enum_iter]. unfold iter_step. rewrite Hce. fold a. fold nd. rewrite Hle.
        rewrite Hres. fold s1. fold s2. rewrite A. unfold resume. destruct (next_pos o c (S p) s') as [[? ?]|]; auto.
      * intros j Hj. rewrite C1 by lia. reflexivity.
      * intros. now rewrite C2.
      * intros. now rewrite C3.
      * intros. now rewrite C4.
      * intros. now rewrite C5.
      * intros. rewrite C6. cbn. rewrite fset_neq by lia. auto.
      * intros. now rewrite C8.
      * intros. now rewrite C7.
      * destruct (step_x_facts o c (S p) s') as (X1 & X2 & X3 & X4 & X5 & X6 & X7 & X8 & X9 & X10).
        destruct CI2 as [Hb Hc Hf]. constructor.
        -- intros. rewrite X7, C7. apply Hb. auto.
        -- intros. rewrite X8, C8. apply Hc. auto.
        -- intros i j Hi Hj Hm. rewrite X8, C8 in Hm.
           assert (s_cpb s2 (S p) < j) by (apply Hm; lia). assert (S p <= s_cpb s2 (S p)) by (apply Hc; lia).
           apply (fresh_ext _ _ s2).
           ++ intros b0 Hb0. rewrite X1 by lia. apply C1. lia.
           ++ now rewrite X7, C7.
           ++ apply Hf; auto.
    + set (s3 := descend_full o c p nd s2).
      assert (R3 : ready o c s3 p nd) by (apply descend_full_ready; auto).
      assert (X3 : forall b, S p <= b -> s_x s3 b = s_x s b) by (intros b0 Hb; unfold s3; rewrite descend_full_x by lia; reflexivity).
      assert (SP : suf o c s3 (S p) = s_x s (S p) :: sfx).
      { rewrite suf_cons by lia. rewrite X3 by lia. f_equal. rewrite Hs. apply suf_ext. intros; apply X3; lia. }
      assert (T3 : tlof o c s3 = tlof o c s) by (apply tl_ext; intros b0 Hb; apply X3; lia).
      assert (F3 : frame o (S (S p)) s s3) by (eapply frame_trans; [exact F2|]; apply descend_full_frame).
      pose proof (IH p eq_refl p s3 eq_refl ltac:(lia) (rd_inv _ _ _ _ _ R3) (rd_al _ _ _ _ _ R3) (rd_ce _ _ _ _ _ R3)) as REC.
      rewrite SP, T3, (rd_pd _ _ _ _ _ R3), (rd_x _ _ _ _ _ R3), (rd_dx _ _ _ _ _ R3), (rd_ddx _ _ _ _ _ R3), (rd_x _ _ _ _ _ R3), (rd_ce _ _ _ _ _ R3), SP in REC.
      change (s_g s3) with (s_g s2) in REC.
      cbv zeta.
      destruct (plevI (tlof o c s) fuel (S p) (s_x s (S p) :: sfx) nd _ _ _ _) as [g'|]; cbn [option_map].
      2:{ intros f Hf. destruct f; auto. cbn [enum_iter]. unfold iter_step. rewrite Hce. fold a. fold nd. rewrite Hle.
          rewrite Hres. fold s1. fold s2. fold s3. apply REC. lia. }
      destruct REC as (m & s' & A & B & C & D).
      rewrite <- B. apply (CONT s' (S m)); [lia|..].
      * intros f. cbn [Nat.add enum_iter]. unfold iter_step. rewrite Hce. fold a. fold nd. rewrite Hle.
        rewrite Hres. fold s1. fold s2. fold s3. apply A.
      * intros j Hj. rewrite (fr_x _ _ _ _ C) by lia. apply X3. lia.
      * intros j Hj. rewrite (fr_dx _ _ _ _ C) by lia. cbn. rewrite fset_neq by lia. auto.
      * intros j Hj. rewrite (fr_ddx _ _ _ _ C) by lia. cbn. rewrite fset_neq by lia. auto.
      * intros j Hj. rewrite (fr_ce _ _ _ _ C) by lia. cbn. rewrite fset_neq by lia. auto.
      * intros j Hj. rewrite (fr_pd _ _ _ _ C) by lia. cbn. rewrite fset_neq by lia. auto.
      * intros j Hj. rewrite (fr_al _ _ _ _ C) by lia. cbn. rewrite fset_neq by lia. auto.
      * intros j Hj. rewrite (fr_cpb _ _ _ _ C) by lia. apply (fr_cpb _ _ _ _ F3). lia.
      * intros i j Hi. rewrite (fr_row _ _ _ _ C) by lia. apply (fr_row _ _ _ _ F3). lia.
      * destruct (step_x_facts o c (S p) s') as (Y1 & _ & _ & _ & _ & _ & Y7 & Y8 & _).
        destruct (cinv_up o c s3 s' (step_x o c (S p) s') p nd) as [Q _]; auto. intros b0 Hb. apply Y1. lia.
Qed.

Theorem enum_iter_ok fuel : forall L, IHiter fuel L.
Proof.
  induction L as [|kk0 IH]; intros kk s HL Hke HC HA Hce; [lia|].
  injection HL as ->. cbn [plev].
  pose proof (iter_loop_ok fuel kk Hke (fun p _ => IH) (S fuel) true s _ eq_refl HC HA Hce) as X.
  rewrite Nat.min_id in X. exact X.
Qed.

Lemma iter_det f f' k (s r r' : est) : iter f k s = Some r -> iter f' k s = Some r' -> r = r'.
Proof.
  intros H H'. apply (iter_mono _ _ _ _ f') in H. apply (iter_mono _ _ _ _ f) in H'.
  rewrite Nat.add_comm in H'. congruence.
Qed.

(** ** the invariant at every loop head of the iterative version *)
Record linv (s : est) (k : nat) : Prop := {
  li_k : k < ke;
  li_base : forall i, i < ke -> s_cps s i ke = c_cps0 c i;
  li_cpb : forall m, m <= k -> m <= s_cpb s m < ke;
  li_up : forall m, k < m < ke -> s_cpb s m = m;
  li_fresh : forall i j, i < j < ke -> (forall m, i < m <= k -> s_cpb s m < j) -> fresh o c s i j;
  li_al : alok o c s (S k);
  li_ce : forall j, k <= j < ke -> s_center s j = cen o c j (suf o c s (S j)) }.

Lemma linv_step (s : est) k k' : linv s k -> k' < ke -> (k' = k \/ k' = S k) -> linv (step_x o c k' s) k'.
Proof.
  intros [Lk Lb Lc Lu Lf La Le] Hk' Hor.
  destruct (step_x_facts o c k' s) as (X1 & X2 & X3 & X4 & X5 & X6 & X7 & X8 & X9 & X10).
  assert (HS : forall j, k' < j -> suf o c (step_x o c k' s) j = suf o c s j).
  { intros j Hj. apply suf_ext. intros a Ha. apply X1. lia. }
  constructor; auto.
  - intros. rewrite X7. auto.
  - intros m Hm. rewrite X8. destruct Hor as [->| ->]; auto.
    destruct (Nat.eq_dec m (S k)) as [->|]; [rewrite Lu; lia|apply Lc; lia].
  - intros m Hm. rewrite X8. apply Lu. lia.
  - intros i j Hij Hm. rewrite X8 in Hm.
    assert (Hj : k' < j).
    { destruct (le_lt_dec k' i); [lia|]. assert (s_cpb s k' < j) by (apply Hm; lia).
      destruct Hor as [->| ->]. { assert (k <= s_cpb s k) by (apply Lc; lia). lia. } rewrite Lu in H by lia. lia. }
    apply (fresh_ext _ _ s).
    + intros a Ha. apply X1. lia.
    + now rewrite X7.
    + apply Lf; auto. intros m Hm2. apply Hm. lia.
  - apply (alok_ext _ _ s); [intros a Ha; apply X1; lia|intros; now rewrite X6|].
    intros j Hj. apply La. lia.
  - intros j Hj. rewrite X4. rewrite HS by lia. apply Le. lia.
Qed.

Lemma linv_next (s : est) k k' r : linv s k -> (k' = k \/ k' = S k) -> next_pos o c k' s = Some r -> k' < ke -> linv (snd r) (fst r).
Proof.
  intros L Hor H Hk. rewrite next_pos_step in H by auto. injection H as <-. now apply (linv_step s k).
Qed.

Lemma linv_visit (s : est) k a nd g : linv s k -> a = e_alpha o (s_x s k) (s_center s k) ->
  linv (setg o g (visit o k a s)) k /\ alok o c (setg o g (visit o k a s)) k /\ (nd = nd :> E).
Proof.
  intros [Lk Lb Lc Lu Lf La Le] ->. split; [|split]; auto.
  - constructor; auto. intros j Hj. cbn. rewrite fset_neq by lia. apply La. lia.
  - intros j Hj. cbn. destruct (Nat.eq_dec j k) as [->|Hne].
    + rewrite fset_eq. rewrite Le by lia. reflexivity.
    + rewrite fset_neq by auto. apply La. lia.
Qed.

Lemma linv_descend (s : est) p nd : linv s (S p) -> alok o c s (S p) -> linv (descend_full o c p nd s) p.
Proof.
  intros [Lk Lb Lc Lu Lf La Le] HA.
  assert (CI : cinv o c s (S p)).
  { constructor; auto. intros i j Hi Hj Hm. apply Lf; auto.
    assert (s_cpb s (S p) < j) by (apply Hm; lia). assert (S p <= s_cpb s (S p)) by (apply Lc; lia). lia. }
  pose proof (descend_full_ready o c s p nd Lk CI HA) as R.
  assert (SX : forall j, S p <= j -> suf o c (descend_full o c p nd s) j = suf o c s j).
  { intros j Hj. apply suf_ext. intros a Ha. apply descend_full_x. lia. }
  constructor; try lia.
  - apply (ci_base _ _ _ _ (rd_inv _ _ _ _ _ R)).
  - apply (ci_cpb _ _ _ _ (rd_inv _ _ _ _ _ R)).
  - intros m Hm. destruct (Nat.eq_dec m (S p)) as [->|]; [apply (rd_cpb _ _ _ _ _ R)|].
    rewrite (fr_cpb _ _ _ _ (descend_full_frame o c s p nd)) by lia. apply Lu. lia.
  - intros i j Hij Hm. destruct (lt_eq_lt_dec i p) as [[Hlt|Heq]|Hgt].
    + apply (ci_fresh _ _ _ _ (rd_inv _ _ _ _ _ R)); auto; lia.
    + subst i. apply (rd_row _ _ _ _ _ R). lia.
    + apply (fresh_ext _ _ s).
      * intros a Ha. apply descend_full_x. lia.
      * apply (fr_row _ _ _ _ (descend_full_frame o c s p nd)). lia.
      * apply Lf; auto. intros m Hm2. assert (i < S p) by lia. lia.
  - exact (rd_al _ _ _ _ _ R).
  - intros j Hj. destruct (Nat.eq_dec j p) as [->|]; [apply (rd_ce _ _ _ _ _ R)|].
    rewrite (fr_ce _ _ _ _ (descend_full_frame o c s p nd)) by lia. rewrite SX by lia. apply Le. lia.
Qed.

Hypothesis Hz : e_le o (e_zero o) (e_zero o) = true.

Lemma iter_step_linv k (s : est) k' s' : linv s k -> s_partdist s ke = e_zero o ->
  iter_step o evalS evalSub c rst k s = Some (inr (k', s')) -> linv s' k' /\ s_partdist s' ke = e_zero o.
Proof.
  intros L Hp H.
  assert (SX : forall (s0 : est) k0, s_partdist (step_x o c k0 s0) = s_partdist s0) by (intros; apply step_x_facts).
  assert (TOP : forall (s0 : est) k0 kn, linv s0 k0 -> (kn = k0 \/ kn = S k0) -> s_partdist s0 ke = e_zero o ->
     match next_pos o c kn s0 with None => True | Some ks => linv (snd ks) (fst ks) /\ s_partdist (snd ks) ke = e_zero o end).
  { intros s0 k0 kn L0 Hor Hp0.
    destruct (le_lt_dec ke kn) as [Hge|Hlt].
    - pose proof (li_k _ _ L0). assert (kn = ke) by lia. subst kn. unfold next_pos. rewrite Hp0. unfold is0. rewrite Hz. cbn.
      now rewrite Nat.leb_refl.
    - rewrite next_pos_step by auto. cbn [fst snd]. split; [now apply (linv_step s0 k0)|rewrite SX; auto]. }
  unfold iter_step in H.
  set (a := e_alpha o (s_x s k) (s_center s k)) in *.
  set (nd := e_dist o (s_partdist s k) a (c_rdiag c k)) in *.
  destruct (e_le o nd (g_bounds (s_g s) k)).
  2:{ specialize (TOP s k (S k) L (or_intror eq_refl) Hp). destruct (next_pos o c (S k) s) as [ks|]; inversion H; subst; auto. }
  set (s1 := visit o k a s) in *.
  set (s2 := setg o (gsubmaybe o evalSub c k (vec_of o c (s_x s1)) nd (s_g s1)) s1) in *.
  destruct (linv_visit s k a nd (gsubmaybe o evalSub c k (vec_of o c (s_x s1)) nd (s_g s1)) L eq_refl) as (L2 & A2 & _).
  fold s1 in L2, A2. fold s2 in L2, A2.
  destruct k as [|p].
  - set (s3 := setg o (gleaf o evalS c (vec_of o c (s_x s2)) nd (s_g s2)) s2) in *.
    assert (L3 : linv s3 0) by (destruct L2; constructor; auto).
    specialize (TOP s3 0 0 L3 (or_introl eq_refl) Hp). destruct (next_pos o c 0 s3) as [ks|]; inversion H; subst; auto.
  - destruct (c_reset c && (Z.of_nat p <? c_rdepth c)%Z).
    + pose proof (li_k _ _ L) as Hk.
      pose proof (do_reset_ok o evalS c rst Hkd s2 nd p (suf o c s2 (S p)) ltac:(lia) eq_refl) as DR.
      destruct (preset o evalS c rst (tlof o c s2) nd p (suf o c s2 (S p)) (s_g s2)) as [g|]; [|rewrite DR in H; discriminate].
      destruct DR as (s3 & A & B & C1 & C2 & C3 & C4 & C5 & C6 & C7 & C8).
      rewrite A in H.
      assert (L3 : linv s3 (S p)).
      { destruct L2 as [Lk Lb Lc Lu Lf La Le].
        assert (HS : forall j, S p <= j -> suf o c s3 j = suf o c s2 j) by (intros j Hj; apply suf_ext; intros b Hb; apply C1; lia).
        constructor; auto.
        - intros; rewrite C7; auto.
        - intros; rewrite C8; auto.
        - intros; rewrite C8; auto.
        - intros i j Hij Hm. rewrite C8 in Hm.
          assert (S p <= j).
          { destruct (le_lt_dec (S p) i); [lia|]. assert (s_cpb s2 (S p) < j) by (apply Hm; lia).
            assert (S p <= s_cpb s2 (S p)) by (apply Lc; lia). lia. }
          apply (fresh_ext _ _ s2); [intros b Hb; apply C1; lia|now rewrite C7|]. apply Lf; auto.
        - apply (alok_ext _ _ s2); auto; [intros b Hb; apply C1; lia|intros; now rewrite C6].
        - intros j Hj. rewrite C4, HS by lia. apply Le. lia. }
      specialize (TOP s3 (S p) (S p) L3 (or_introl eq_refl)). rewrite C5 in TOP. specialize (TOP Hp).
      destruct (next_pos o c (S p) s3) as [ks|]; inversion H; subst; auto.
    + inversion H; subst. split; [now apply linv_descend|].
      cbn. rewrite fset_neq by (pose proof (li_k _ _ L); lia). exact Hp.
Qed.
End Iter.
