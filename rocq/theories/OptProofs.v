(** Proofs about the optimiser model: outcomes, enforce, saving and loading. *)
From Coq Require Import List ZArith Reals Lra Lia Arith Bool.
From Verif Require Import Util MatrixModel MatrixProofs HouseProofs PrunerModel PropPruner PruneVolModel PropPruneVol PruneCostModel PropPruneCost OptModel.
Import ListNotations.
Local Open Scope R_scope.

Lemma rlt_spec x y : if rlt x y then x < y else y <= x.
Proof. unfold rlt. destruct (Rlt_dec x y); lra. Qed.
Lemma rlt_true x y : rlt x y = true <-> x < y.
Proof. unfold rlt. destruct (Rlt_dec x y); split; intros; try easy; lra. Qed.
Lemma rlt_false x y : rlt x y = false <-> y <= x.
Proof. unfold rlt. destruct (Rlt_dec x y); split; intros; try easy; lra. Qed.
Lemma rle_true x y : rle x y = true <-> x <= y.
Proof. unfold rle. rewrite negb_true_iff. apply rlt_false. Qed.
Lemma rle_false x y : rle x y = false <-> y < x.
Proof. unfold rle. rewrite negb_false_iff. apply rlt_true. Qed.

Lemma nth_error_en (b : list R) i : (i < length b)%nat -> nth_error b i = Some (en b i).
Proof. intros H. apply nth_error_nth'. auto. Qed.
Lemma en_ext (b1 b2 : list R) : length b1 = length b2 -> (forall i, (i < length b1)%nat -> en b1 i = en b2 i) -> b1 = b2.
Proof. intros L H. apply (nth_ext b1 b2 0 0 L H). Qed.

(** ** enforce *)

(** non-decreasing *)
Definition rnondec (b : list R) : Prop := forall i, (S i < length b)%nat -> en b i <= en b (S i).
(** the minimal coefficient that belongs to entry [i] of a vector of length [dn] *)
Definition rmin_for (mins : list R) (dn i : nat) : option R :=
  nth_error mins (if (dn =? length mins)%nat then i else (i / 2)%nat).
(** what the pruner expects of a coefficient vector *)
Definition rvalid (mins b : list R) : Prop :=
  rnondec b /\
  forall i, (i < length b)%nat ->
    en b i <= 1 /\ forall m, rmin_for mins (length b) i = Some m -> m <= en b i.
(** [x] cut to the interval from the minimal coefficient to one *)
Definition rcut (m : option R) (x : R) : R :=
  let y := if rlt 1 x then 1 else x in
  match m with Some m => if rlt y m then m else y | None => y end.

Lemma rnondec_le b : rnondec b -> forall i k, (i <= k < length b)%nat -> en b i <= en b k.
Proof.
  intros H i k. revert i. induction k as [|k IH]; intros i Hk.
  - replace i with 0%nat by lia. apply Rle_refl.
  - destruct (Nat.eq_dec i (S k)) as [->|N]; [apply Rle_refl|].
    eapply Rle_trans; [apply IH; lia|apply H; lia].
Qed.

Section Enf.

  Lemma rcut_bounds m x : (forall y, m = Some y -> y <= 1) -> rcut m x <= 1 /\ forall y, m = Some y -> y <= rcut m x.
  Proof.
    intros H. unfold rcut.
    assert (H1 : (if rlt 1 x then 1 else x) <= 1).
    { generalize (rlt_spec 1 x). destruct (rlt 1 x); intros; lra. }
    destruct m as [m|]; [|split; [auto|discriminate]].
    specialize (H m eq_refl). generalize (rlt_spec (if rlt 1 x then 1 else x) m).
    destruct (rlt (if rlt 1 x then 1 else x) m); intros G; split; auto; intros y E; injection E as <-; lra.
  Qed.

  (** the entry the first loop leaves at [i] *)
  Definition rcutv (mins : list R) (dn i : nat) (x : R) : R := rcut (rmin_for mins dn i) x.

  Lemma clip_loop mins b st :
    exists b' st', ofor (seq 0 (length b)) (eclip (length mins) mins (if length b =? length mins then 1 else 2)%nat) (b, st)
      = Some (b', st') /\ length b' = length b /\
      (forall i, (i < length b)%nat -> en b' i = rcutv mins (length b) i (en b i)) /\
      (st' = st || existsb (fun i => rlt (10001 / 10000) (en b i)) (seq 0 (length b))).
  Proof.
    set (c := (if length b =? length mins then 1 else 2)%nat).
    destruct (ofor_inv (fun k (s : list R * bool) => length (fst s) = length b /\
        (forall i, (i < k)%nat -> en (fst s) i = rcutv mins (length b) i (en b i)) /\
        (forall i, (k <= i)%nat -> en (fst s) i = en b i) /\
        (snd s = st || existsb (fun i => rlt (10001 / 10000) (en b i)) (seq 0 k)))
      (eclip (length mins) mins c) (length b) 0 (b, st)) as (s' & E & P).
    - simpl. repeat split; auto; try lia. now rewrite orb_false_r.
    - intros k [v s] Hk (L & P1 & P2 & P3). simpl in L, P1, P2, P3. unfold OptModel.eclip.
      rewrite (nth_error_en v k) by lia. cbn [obind]. rewrite (P2 k) by lia.
      set (y := if rlt 1 (en b k) then 1 else en b k).
      assert (MF : rmin_for mins (length b) k = nth_error mins (k / c)).
      { unfold rmin_for, c. destruct (length b =? length mins)%nat; auto. now rewrite Nat.div_1_r. }
      assert (ST : snd (v, s) || rlt (10001 / 10000) (en b k) = st || existsb (fun i => rlt (10001 / 10000) (en b i)) (seq 0 (S k))).
      { simpl snd. rewrite P3, seq_S, existsb_app. simpl. now rewrite orb_false_r, orb_assoc. }
      assert (G : forall z, z = rcutv mins (length b) k (en b k) ->
        exists s', (b0 <- vset v k z;; Some (b0, s || rlt (10001 / 10000) (en b k))) = Some s' /\
          length (fst s') = length b /\
          (forall i, (i < S k)%nat -> en (fst s') i = rcutv mins (length b) i (en b i)) /\
          (forall i, (S k <= i)%nat -> en (fst s') i = en b i) /\
          snd s' = st || existsb (fun i => rlt (10001 / 10000) (en b i)) (seq 0 (S k))).
      { intros z Hz. rewrite vset_at by lia. cbn [obind]. eexists. split; [reflexivity|]. cbn [fst snd].
        repeat split.
        - rewrite upd_length. auto.
        - intros i Hi. rewrite en_upd by lia. destruct (i =? k)%nat eqn:Ei.
          + apply Nat.eqb_eq in Ei. subst i. auto.
          + apply Nat.eqb_neq in Ei. apply P1. lia.
        - intros i Hi. rewrite en_upd by lia. destruct (i =? k)%nat eqn:Ei.
          + apply Nat.eqb_eq in Ei. lia.
          + apply P2. lia.
        - auto. }
      destruct (k / c <? length mins)%nat eqn:Ec.
      + apply Nat.ltb_lt in Ec. rewrite (nth_error_en mins _ Ec). cbn [obind]. apply G.
        unfold rcutv, rcut. rewrite MF, (nth_error_en mins _ Ec). fold y.
        unfold rle. generalize (rlt_spec y (en mins (k/c))) (rlt_spec (en mins (k/c)) y).
        destruct (rlt y (en mins (k/c))), (rlt (en mins (k/c)) y); simpl; intros; auto; lra.
      + apply Nat.ltb_ge in Ec. apply G. unfold rcutv, rcut. rewrite MF.
        destruct (nth_error mins (k / c)) eqn:En; auto.
        assert (k / c < length mins)%nat by (apply nth_error_Some; congruence). lia.
    - destruct s' as [v s]. simpl in P. destruct P as (L & P1 & P2 & P3).
      exists v, s. split; auto.
  Qed.

  Lemma raise_loop b st j : (j <= length b - 1)%nat -> (0 < length b)%nat ->
    exists b' st', ofor (seq j (length b - 1 - j)) eraise (b, st) = Some (b', st') /\
      length b' = length b /\
      (forall i, (i < j)%nat -> en b' i = en b i) /\
      (forall i, (j <= i < length b)%nat ->
         (forall t, (j <= t <= i)%nat -> en b t <= en b' i) /\
         exists t, (j <= t <= i)%nat /\ en b' i = en b t).
  Proof.
    intros Hj Hl.
    destruct (ofor_inv (fun k (s : list R * bool) => length (fst s) = length b /\
      (forall i, (i < j)%nat -> en (fst s) i = en b i) /\
      (forall i, (k < i)%nat -> en (fst s) i = en b i) /\
      (forall i, (j <= i <= k)%nat -> (forall t, (j <= t <= i)%nat -> en b t <= en (fst s) i) /\
         exists t, (j <= t <= i)%nat /\ en (fst s) i = en b t))
      eraise (length b - 1 - j) j (b, st)) as (s' & E & P).
    - simpl. repeat split; auto.
      + intros t Ht. replace t with i by lia. apply Rle_refl.
      + exists i. split; auto; lia.
    - intros k [v s] Hk (L & P1 & P2 & P3). simpl in L, P1, P2, P3. unfold OptModel.eraise.
      rewrite (nth_error_en v k), (nth_error_en v (S k)) by lia. cbn [obind].
      destruct (P3 k) as (Q1 & t0 & Q2 & Q3); [lia|].
      assert (N : en v (S k) = en b (S k)) by (apply P2; lia).
      destruct (rlt (en v (S k)) (en v k)) eqn:Eq.
      + apply rlt_true in Eq. rewrite vset_at by lia. cbn [obind]. eexists. split; [reflexivity|]. cbn [fst].
        repeat split.
        * rewrite upd_length. auto.
        * intros i Hi. rewrite en_upd by lia. destruct (i =? S k)%nat eqn:Ei.
          { apply Nat.eqb_eq in Ei. lia. } apply P1. auto.
        * intros i Hi. rewrite en_upd by lia. destruct (i =? S k)%nat eqn:Ei.
          { apply Nat.eqb_eq in Ei. lia. } apply P2. lia.
        * intros t Ht. rewrite en_upd by lia. destruct (i =? S k)%nat eqn:Ei.
          { apply Nat.eqb_eq in Ei. subst i. destruct (Nat.eq_dec t (S k)) as [->|Nt].
            - rewrite <- N. lra.
            - apply Q1. lia. }
          apply Nat.eqb_neq in Ei. apply (P3 i); lia.
        * rewrite en_upd by lia. destruct (i =? S k)%nat eqn:Ei.
          { apply Nat.eqb_eq in Ei. subst i. exists t0. split; [lia|auto]. }
          apply Nat.eqb_neq in Ei. apply (P3 i). lia.
      + apply rlt_false in Eq. eexists. split; [reflexivity|]. cbn [fst].
        repeat split; auto.
        * intros i Hi. apply P2. lia.
        * intros t Ht. destruct (Nat.eq_dec i (S k)) as [->|Ni].
          { destruct (Nat.eq_dec t (S k)) as [->|Nt].
            - rewrite N. apply Rle_refl.
            - eapply Rle_trans; [apply Q1; lia|auto]. }
          apply (P3 i); lia.
        * destruct (Nat.eq_dec i (S k)) as [->|Ni].
          { exists (S k). split; [lia|auto]. }
          apply (P3 i). lia.
    - destruct s' as [v s]. cbn [fst] in P. destruct P as (L & P1 & P2 & P3). exists v, s.
      repeat split; auto; apply (P3 i); lia.
  Qed.

  Lemma lower_loop b st m : (m < length b)%nat ->
    exists b' st', ofor (rev (seq 0 m)) elower (b, st) = Some (b', st') /\
      length b' = length b /\
      (forall i, (m <= i)%nat -> en b' i = en b i) /\
      (forall i, (i <= m)%nat ->
         (forall t, (i <= t <= m)%nat -> en b' i <= en b t) /\
         exists t, (i <= t <= m)%nat /\ en b' i = en b t).
  Proof.
    intros Hm.
    destruct (ofor_down (fun k (s : list R * bool) => length (fst s) = length b /\
      (forall i, (m <= i)%nat -> en (fst s) i = en b i) /\
      (forall i, (i < k)%nat -> en (fst s) i = en b i) /\
      (forall i, (k <= i <= m)%nat -> (forall t, (i <= t <= m)%nat -> en (fst s) i <= en b t) /\
         exists t, (i <= t <= m)%nat /\ en (fst s) i = en b t))
      elower m (b, st)) as (s' & E & P).
    - simpl. repeat split; auto.
      + intros t Ht. replace t with i by lia. apply Rle_refl.
      + exists i. split; auto; lia.
    - intros k [v s] Hk (L & P1 & P2 & P3). simpl in L, P1, P2, P3. unfold OptModel.elower.
      rewrite (nth_error_en v k), (nth_error_en v (S k)) by lia. cbn [obind].
      destruct (P3 (S k)) as (Q1 & t0 & Q2 & Q3); [lia|].
      assert (N : en v k = en b k) by (apply P2; lia).
      destruct (rlt (en v (S k)) (en v k)) eqn:Eq.
      + apply rlt_true in Eq. rewrite vset_at by lia. cbn [obind]. eexists. split; [reflexivity|]. cbn [fst].
        repeat split.
        * rewrite upd_length. auto.
        * intros i Hi. rewrite en_upd by lia. destruct (i =? k)%nat eqn:Ei.
          { apply Nat.eqb_eq in Ei. lia. } apply P1. auto.
        * intros i Hi. rewrite en_upd by lia. destruct (i =? k)%nat eqn:Ei.
          { apply Nat.eqb_eq in Ei. lia. } apply P2. lia.
        * intros t Ht. rewrite en_upd by lia. destruct (i =? k)%nat eqn:Ei.
          { apply Nat.eqb_eq in Ei. subst i. destruct (Nat.eq_dec t k) as [->|Nt].
            - rewrite <- N. lra.
            - apply Q1. lia. }
          apply Nat.eqb_neq in Ei. apply (P3 i); lia.
        * rewrite en_upd by lia. destruct (i =? k)%nat eqn:Ei.
          { apply Nat.eqb_eq in Ei. subst i. exists t0. split; [lia|auto]. }
          apply Nat.eqb_neq in Ei. apply (P3 i). lia.
      + apply rlt_false in Eq. eexists. split; [reflexivity|]. cbn [fst].
        repeat split; auto.
        * intros t Ht. destruct (Nat.eq_dec i k) as [->|Ni].
          { destruct (Nat.eq_dec t k) as [->|Nt].
            - rewrite N. apply Rle_refl.
            - eapply Rle_trans; [exact Eq|apply Q1; lia]. }
          apply (P3 i); lia.
        * destruct (Nat.eq_dec i k) as [->|Ni].
          { exists k. split; [lia|auto]. }
          apply (P3 i). lia.
    - destruct s' as [v s]. cbn [fst] in P. destruct P as (L & P1 & P2 & P3). exists v, s.
      repeat split; auto; apply (P3 i); lia.
  Qed.

  (** the vector after the test of the last coefficient *)
  Definition last_fixed (b : list R) (j : nat) : list R :=
    if rlt (en b (length b - 1)) (999 / 1000) && negb (j =? length b - 1)%nat
    then upd b (length b - 1) 1 else b.

  (** ** the result of enforce, entry by entry: from position [j] on it is
      the running maximum of the rcut entries, before [j] the running minimum
      (towards the front) *)
  Lemma enforce_entries mins b j :
    (j < length b)%nat ->
    exists b' st, enforce (length mins) mins b j = Some (b', st) /\ length b' = length b /\
      let cv i := rcut (rmin_for mins (length b) i) (en (last_fixed b j) i) in
      (forall i, (j <= i < length b)%nat ->
         (forall t, (j <= t <= i)%nat -> cv t <= en b' i) /\
         exists t, (j <= t <= i)%nat /\ en b' i = cv t) /\
      (forall i, (i <= j)%nat ->
         (forall t, (i <= t <= j)%nat -> en b' i <= cv t) /\
         exists t, (i <= t <= j)%nat /\ en b' i = cv t).
  Proof.
    intros Hj. unfold OptModel.enforce.
    rewrite osub_le by lia. cbn [obind]. rewrite nth_error_en by lia. cbn [obind].
    assert (S1 : exists st1, (if rlt (en b (length b - 1)) (999 / 1000) && negb (j =? length b - 1)%nat
        then b0 <- vset b (length b - 1) 1;; Some (b0, true) else Some (b, false)) = Some (last_fixed b j, st1)).
    { unfold last_fixed. destruct (rlt (en b (length b - 1)) (999 / 1000) && negb (j =? length b - 1)%nat).
      - rewrite vset_at by lia. eexists. reflexivity.
      - eexists. reflexivity. }
    destruct S1 as (st1 & ->). cbn [obind].
    assert (L1 : length (last_fixed b j) = length b).
    { unfold last_fixed. destruct (_ && _); auto. apply upd_length. }
    destruct (clip_loop mins (last_fixed b j) st1) as (b2 & st2 & E2 & L2 & V2 & _).
    rewrite L1 in E2, L2, V2. rewrite E2. cbn [obind].
    destruct (raise_loop b2 st2 j) as (b3 & st3 & E3 & L3 & V3 & W3); [lia|lia|].
    rewrite L2 in E3, W3. rewrite E3. cbn [obind].
    replace (Nat.min j (length b - 1)) with j by lia.
    destruct (lower_loop b3 st3 j) as (b4 & st4 & E4 & L4 & V4 & W4); [lia|].
    exists b4, st4. split; auto. split; [congruence|]. cbn zeta.
    assert (J3 : en b3 j = en b2 j).
    { destruct (W3 j) as (_ & t & Ht & E); [lia|]. rewrite E. f_equal. lia. }
    split; intros i Hi.
    - destruct (W3 i Hi) as (A & t & Ht & E). rewrite (V4 i) by lia. split.
      + intros u Hu. specialize (A u Hu). rewrite V2 in A by lia. exact A.
      + exists t. split; auto. rewrite E, V2 by lia. reflexivity.
    - destruct (W4 i) as (A & t & Ht & E); [lia|].
      assert (B : forall u, (u <= j)%nat -> en b3 u = rcut (rmin_for mins (length b) u) (en (last_fixed b j) u)).
      { intros u Hu. transitivity (en b2 u).
        - destruct (Nat.eq_dec u j) as [->|Nu]; auto. apply V3. lia.
        - apply V2. lia. }
      split.
      + intros u Hu. rewrite <- B by lia. apply A. lia.
      + exists t. split; auto. rewrite E, B by lia. reflexivity.
  Qed.

  (** ** enforce yields a valid vector.  Called without a position (j = 0)
      for all minimal coefficients up to one; called with a position the
      minimal coefficients must be non-decreasing. *)
  Lemma enforce_valid mins b j :
    (j < length b)%nat ->
    (forall m, In m mins -> m <= 1) ->
    (j = 0%nat \/ rnondec mins /\ (length b = length mins \/ (j < 2 * length mins)%nat)) ->
    exists b' st, enforce (length mins) mins b j = Some (b', st) /\ length b' = length b /\
      rvalid mins b'.
  Proof.
    intros Hj Hm Hc. destruct (enforce_entries mins b j Hj) as (b' & st & E & L & A & B).
    exists b', st. split; auto. split; auto.
    set (cv := fun i => rcut (rmin_for mins (length b) i) (en (last_fixed b j) i)) in *.
    assert (CB : forall i, cv i <= 1 /\ forall m, rmin_for mins (length b) i = Some m -> m <= cv i).
    { intros i. apply rcut_bounds. intros y Hy. apply Hm. unfold rmin_for in Hy. eapply nth_error_In; eauto. }
    split.
    - intros i Hi. rewrite L in Hi.
      destruct (le_lt_dec j i) as [G|G].
      + destruct (A i) as (_ & t & Ht & Et); [lia|]. rewrite Et.
        apply (proj1 (A (S i) ltac:(lia))). lia.
      + destruct (B (S i)) as (_ & t & Ht & Et); [lia|]. rewrite Et.
        apply (proj1 (B i ltac:(lia))). lia.
    - intros i Hi. rewrite L in Hi. rewrite L.
      destruct (le_lt_dec j i) as [G|G].
      + destruct (A i) as (U & t & Ht & Et); [lia|]. split.
        * rewrite Et. apply CB.
        * intros m Em. eapply Rle_trans; [apply (proj2 (CB i) m Em)|apply U; lia].
      + destruct (B i) as (U & t & Ht & Et); [lia|]. split.
        * rewrite Et. apply CB.
        * intros m Em. rewrite Et. destruct Hc as [->|[Hc Hs]]; [lia|].
          assert (Q : exists mt, rmin_for mins (length b) t = Some mt /\ m <= mt).
          { unfold rmin_for in *. 
            set (q := fun i => if (length b =? length mins)%nat then i else (i / 2)%nat).
            assert (Q : (q i <= q t < length mins)%nat).
            { unfold q. destruct (length b =? length mins)%nat eqn:El.
              - apply Nat.eqb_eq in El. lia.
              - apply Nat.eqb_neq in El. split; [apply Nat.div_le_mono; lia|].
                apply Nat.div_lt_upper_bound; lia. }
            exists (en mins (q t)). split; [apply (nth_error_en mins (q t)); lia|].
            fold (q i) in Em. apply nth_error_nth with (d := 0) in Em. rewrite <- Em.
            apply (rnondec_le mins Hc); lia. }
          destruct Q as (mt & E1 & E2). eapply Rle_trans; [exact E2|]. apply (proj2 (CB t) mt E1).
  Qed.

  (** ** ... whose last entry is at least .999, except when the position
      is the last one *)
  Lemma enforce_last mins b j :
    (999 / 1000) <= 1 ->
    (j < length b - 1)%nat ->
    exists b' st, enforce (length mins) mins b j = Some (b', st) /\
      length b' = length b /\ (999 / 1000) <= en b' (length b - 1).
  Proof.
    intros Hc Hj. destruct (enforce_entries mins b j) as (b' & st & E & L & A & _); [lia|].
    exists b', st. split; auto. split; auto.
    destruct (A (length b - 1)%nat) as (U & _); [lia|].
    eapply Rle_trans; [|apply (U (length b - 1)%nat); lia].
    assert (G : (999 / 1000) <= en (last_fixed b j) (length b - 1)).
    { unfold last_fixed. destruct (rlt (en b (length b - 1)) (999 / 1000)) eqn:Eq.
      - replace (j =? length b - 1)%nat with false by (symmetry; apply Nat.eqb_neq; lia). cbn [negb andb].
        rewrite en_upd, Nat.eqb_refl by lia. auto.
      - cbn [andb]. apply rlt_false. auto. }
    set (x := en (last_fixed b j) (length b - 1)) in *. unfold rcut.
    assert (G1 : (999 / 1000) <= (if rlt 1 x then 1 else x)) by (destruct (rlt 1 x); auto).
    destruct (rmin_for mins (length b) (length b - 1)) as [m|]; auto.
    generalize (rlt_spec (if rlt 1 x then 1 else x) m).
    destruct (rlt (if rlt 1 x then 1 else x) m); intros; auto. lra.
  Qed.

  (** ** a valid vector with last entry at least .999 is left alone, and
      enforce says so; in particular enforcing twice changes nothing more *)
  Lemma enforce_fixed mins b j :
    1 <= (10001 / 10000) ->
    (j < length b)%nat ->
    rvalid mins b -> (j = length b - 1)%nat \/ (999 / 1000) <= en b (length b - 1) ->
    enforce (length mins) mins b j = Some (b, false).
  Proof.
    intros Hc Hj (M & V) Hl. unfold OptModel.enforce.
    rewrite osub_le by lia. cbn [obind]. rewrite nth_error_en by lia. cbn [obind].
    assert (T : rlt (en b (length b - 1)) (999 / 1000) && negb (j =? length b - 1)%nat = false).
    { destruct Hl as [->|Hl].
      - rewrite Nat.eqb_refl. apply andb_false_r.
      - apply rlt_false in Hl. rewrite Hl. auto. }
    rewrite T. cbn [obind].
    destruct (clip_loop mins b false) as (b2 & st2 & E2 & L2 & V2 & S2). rewrite E2. cbn [obind].
    assert (b2 = b) as ->.
    { apply en_ext; auto. intros i Hi. rewrite L2 in Hi. rewrite V2 by auto. unfold rcutv, rcut.
      destruct (V i Hi) as (V1 & V3).
      replace (rlt 1 (en b i)) with false by (symmetry; apply rlt_false; auto).
      destruct (rmin_for mins (length b) i) as [m|] eqn:Em; auto.
      replace (rlt (en b i) m) with false; auto. symmetry. apply rlt_false. auto. }
    assert (st2 = false) as ->.
    { rewrite S2. cbn [orb]. apply not_true_iff_false. intros H. apply existsb_exists in H.
      destruct H as (i & Hi & Hq). apply in_seq in Hi. apply rlt_true in Hq.
      destruct (V i) as (V1 & _); [lia|]. lra. }
    rewrite (ofor_same eraise (b, false)).
    - cbn [obind]. apply ofor_same. intros i Hi. apply in_rev, in_seq in Hi.
      unfold OptModel.elower. rewrite (nth_error_en b i), (nth_error_en b (S i)) by lia. cbn [obind].
      replace (rlt (en b (S i)) (en b i)) with false; auto. symmetry. apply rlt_false. apply M. lia.
    - intros i Hi. apply in_seq in Hi.
      unfold OptModel.eraise. rewrite (nth_error_en b i), (nth_error_en b (S i)) by lia. cbn [obind].
      replace (rlt (en b (S i)) (en b i)) with false; auto. symmetry. apply rlt_false. apply M. lia.
  Qed.

End Enf.

(** ** saving and loading *)


(** what save_profile stores for a half vector *)
Lemma save_half_entries n d pr0 b :
  length b = d -> (2 * d <= n)%nat -> (0 < n)%nat ->
  exists pr, save_profile n d pr0 b = Some pr /\ length pr = n /\ en pr 0 = 1 /\
    forall k, (0 < k)%nat -> (n - 2 * d <= k < n)%nat -> en pr k = en b ((n - 1 - k) / 2).
Proof.
  intros L H2 Hn. unfold save_profile. rewrite L, Nat.eqb_refl.
  destruct (ofor_inv (fun i (p : list R) => length p = n /\
     forall k, (n - 2 * i <= k < n)%nat -> en p k = en b ((n - 1 - k) / 2))
    (fun i pr => x <- nth_error b i;; k1 <- osub n (1 + 2 * i);; pr <- vset pr k1 x;;
                 k2 <- osub n (2 + 2 * i);; vset pr k2 x) d 0 (rresize n pr0)) as (p & E & Lp & P).
  - split; [apply rresize_len|]. intros k Hk. lia.
  - intros i p Hi (Lp & P). rewrite (nth_error_en b i) by lia. cbn [obind].
    rewrite (osub_le n (1 + 2 * i)) by lia. cbn [obind]. rewrite vset_at by lia. cbn [obind].
    rewrite osub_le by lia. cbn [obind]. rewrite vset_at by (rewrite upd_length; lia).
    eexists. split; [reflexivity|]. split; [now rewrite !upd_length|].
    intros k Hk. rewrite en_upd by (rewrite upd_length; lia). rewrite en_upd by lia.
    destruct (k =? n - (2 + 2 * i))%nat eqn:E2; [|destruct (k =? n - (1 + 2 * i))%nat eqn:E1].
    + apply Nat.eqb_eq in E2. f_equal. replace (n - 1 - k)%nat with (1 + i * 2)%nat by lia.
      rewrite Nat.div_add by lia. reflexivity.
    + apply Nat.eqb_eq in E1. f_equal. replace (n - 1 - k)%nat with (0 + i * 2)%nat by lia.
      rewrite Nat.div_add by lia. reflexivity.
    + apply Nat.eqb_neq in E1, E2. apply P. lia.
  - rewrite E. cbn [obind]. rewrite vset_at by lia. eexists. split; [reflexivity|].
    split; [now rewrite upd_length|]. split; [rewrite en_upd by lia; reflexivity|].
    intros k K0 Hk. rewrite en_upd by lia. replace (k =? 0)%nat with false by (symmetry; apply Nat.eqb_neq; lia).
    apply P. lia.
Qed.

(** what save_profile stores for a full vector *)
Lemma save_full_entries n d pr0 b :
  length b = n -> n <> d -> (0 < n)%nat ->
  exists pr, save_profile n d pr0 b = Some pr /\ length pr = n /\ en pr 0 = 1 /\
    forall k, (0 < k < n)%nat -> en pr k = en b (n - 1 - k).
Proof.
  intros L Hd Hn. unfold save_profile. rewrite L.
  replace (n =? d)%nat with false by (symmetry; apply Nat.eqb_neq; auto).
  destruct (ofor_inv (fun i (p : list R) => length p = n /\
     forall k, (n - i <= k < n)%nat -> en p k = en b (n - 1 - k))
    (fun i pr => x <- nth_error b i;; k <- osub n (1 + i);; vset pr k x) n 0 (rresize n pr0))
    as (p & E & Lp & P).
  - split; [apply rresize_len|]. intros k Hk. lia.
  - intros i p Hi (Lp & P). rewrite (nth_error_en b i) by lia. cbn [obind].
    rewrite osub_le by lia. cbn [obind]. rewrite vset_at by lia.
    eexists. split; [reflexivity|]. split; [now rewrite upd_length|].
    intros k Hk. rewrite en_upd by lia. destruct (k =? n - (1 + i))%nat eqn:E2.
    + apply Nat.eqb_eq in E2. f_equal. lia.
    + apply Nat.eqb_neq in E2. apply P. lia.
  - rewrite E. cbn [obind]. rewrite vset_at by lia. eexists. split; [reflexivity|].
    split; [now rewrite upd_length|]. split; [rewrite en_upd by lia; reflexivity|].
    intros k Hk. rewrite en_upd by lia. replace (k =? 0)%nat with false by (symmetry; apply Nat.eqb_neq; lia).
    apply P. lia.
Qed.

(** what load_coefficients reads *)
Lemma load_entries n d dn pr :
  (dn = d /\ (2 * d <= n)%nat \/ dn = n /\ n <> d) -> length pr = n ->
  exists b, load_profile n d dn pr = Some b /\ length b = dn /\
    forall i, (i < dn)%nat -> en b i = en pr (n - 1 - (if (dn =? d)%nat then 2 * i else i)).
Proof.
  intros H Lp. unfold load_profile.
  set (c := if (dn =? d)%nat then 2%nat else 1%nat).
  assert (C : forall i, (i < dn)%nat -> (c * i + 1 <= n)%nat).
  { intros i Hi. unfold c. destruct H as [[H1 H]|[H1 H]]; subst dn.
    - rewrite Nat.eqb_refl. lia.
    - replace (n =? d)%nat with false by (symmetry; apply Nat.eqb_neq; auto). lia. }
  destruct (ofor_inv (fun k (b : list R) => length b = dn /\
      forall i, (i < k)%nat -> en b i = en pr (n - (c * i + 1)))
    (fun i b => k <- osub n (c * i + 1);; x <- nth_error pr k;; vset b i x) dn 0 (repeat 0 dn))
    as (b & E & Lb & P).
  - split; [apply repeat_length|]. intros i Hi. lia.
  - intros k b Hk (Lb & P). rewrite osub_le by (apply C; lia). cbn [obind].
    specialize (C k ltac:(lia)). rewrite (nth_error_en pr) by lia. cbn [obind].
    rewrite vset_at by lia. eexists. split; [reflexivity|]. split; [now rewrite upd_length|].
    intros i Hi. rewrite en_upd by lia. destruct (i =? k)%nat eqn:Ei.
    + apply Nat.eqb_eq in Ei. subst i. reflexivity.
    + apply Nat.eqb_neq in Ei. apply P. lia.
  - exists b. split; auto. split; auto. intros i Hi. rewrite P by lia. f_equal. specialize (C i Hi).
    unfold c in *. destruct (dn =? d)%nat; lia.
Qed.

(** ** Outcomes *)

(** an outcome that is allowed: a value with [P], or the exception for a cost or
    metric that is not a number *)
Definition fine {A} (P : A -> Prop) (r : out A) : Prop :=
  match r with Ret a => P a | Throw Range => True | _ => False end.

(** [f] terminates: its outcome does not depend on the fuel as soon as there is
    enough of it; and the outcome is allowed *)
Definition does {A} (P : A -> Prop) (f : nat -> out A) : Prop :=
  exists r K, (forall fuel, (K <= fuel)%nat -> f fuel = r) /\ fine P r.

Lemma fine_weak {A} (P Q : A -> Prop) r : fine P r -> (forall a, P a -> Q a) -> fine Q r.
Proof. destruct r as [a|[]| |]; cbn; auto. Qed.
Lemma does_weak {A} (P Q : A -> Prop) f : does P f -> (forall a, P a -> Q a) -> does Q f.
Proof. intros (r & K & H & G) W. exists r, K. split; auto. eapply fine_weak; eauto. Qed.
Lemma does_fine {A} (P : A -> Prop) r : fine P r -> does P (fun _ => r).
Proof. intros H. exists r, O. split; auto. Qed.
Lemma does_ret {A} (P : A -> Prop) a : P a -> does P (fun _ => Ret a).
Proof. intros H. apply does_fine. exact H. Qed.
Lemma does_ext {A} (P : A -> Prop) f g : does P f -> (forall fu, g fu = f fu) -> does P g.
Proof. intros (r & K & H & G) E. exists r, K. split; auto. intros fu L. rewrite E. auto. Qed.

Lemma fine_bnd {A B} (Q : A -> Prop) (P : B -> Prop) x f :
  fine Q x -> (forall a, Q a -> fine P (f a)) -> fine P (obnd x f).
Proof. destruct x as [a|[]| |]; cbn; auto; contradiction. Qed.
Lemma does_bnd {A B} (Q : A -> Prop) (P : B -> Prop) x (f : A -> nat -> out B) :
  does Q x -> (forall a, Q a -> does P (f a)) -> does P (fun fu => obnd (x fu) (fun a => f a fu)).
Proof.
  intros (r & K & H & G) W. destruct r as [a|e| |]; cbn in G; try contradiction.
  - destruct (W a G) as (r2 & K2 & H2 & G2). exists r2, (Nat.max K K2). split; auto.
    intros fu L. rewrite H by lia. cbn [obnd]. apply H2. lia.
  - exists (Throw e), K. split; [|exact G]. intros fu L. rewrite H by lia. auto.
Qed.
Lemma fine_ub {A} (P : A -> Prop) o a : o = Some a -> P a -> fine P (ub o).
Proof. intros -> H. exact H. Qed.
Lemma fine_call {A} (P : A -> Prop) o : (forall a, o = Some a -> P a) -> fine P (call o).
Proof. destruct o; cbn; auto. Qed.

Lemma fine_collect {A} (P : nat -> A -> Prop) f k : forall s,
  (forall i, (s <= i < s + k)%nat -> fine (P i) (f i)) ->
  fine (fun l => length l = k /\ forall i dflt, (i < k)%nat -> P (s + i)%nat (nth i l dflt)) (collect f (seq s k)).
Proof.
  induction k as [|k IH]; intros s H; cbn [seq collect].
  - cbn. split; auto. intros. lia.
  - apply (fine_bnd (P s)); [apply H; lia|]. intros a Pa.
    eapply fine_bnd; [apply (IH (S s)); intros i Hi; apply H; lia|]. intros l (L & Pl). cbn. split; [lia|].
    intros [|i] dflt Hi; [rewrite Nat.add_0_r; auto|]. replace (s + S i)%nat with (S s + i)%nat by lia. apply Pl. lia.
Qed.
Lemma does_each {S} (Inv : nat -> S -> Prop) (f : nat -> nat -> S -> out S) k : forall s0 s,
  Inv s0 s -> (forall i s, (s0 <= i < s0 + k)%nat -> Inv i s -> does (Inv (Datatypes.S i)) (fun fu => f fu i s)) ->
  does (Inv (s0 + k)%nat) (fun fu => each (seq s0 k) (f fu) s).
Proof.
  induction k as [|k IH]; intros s0 s Hs Hf; cbn [seq each].
  - apply does_ret. now rewrite Nat.add_0_r.
  - apply (does_bnd (Inv (Datatypes.S s0)) _ _ (fun a fu => each (seq (Datatypes.S s0) k) (f fu) a)); [apply Hf; auto; lia|].
    intros a Ia. replace (s0 + Datatypes.S k)%nat with (Datatypes.S s0 + k)%nat by lia.
    apply IH; auto. intros i s' Hi. apply Hf. lia.
Qed.
Lemma does_each_any {S} (Inv : S -> Prop) (f : nat -> nat -> S -> out S) l : forall s,
  Inv s -> (forall i s, In i l -> Inv s -> does Inv (fun fu => f fu i s)) ->
  does Inv (fun fu => each l (f fu) s).
Proof.
  induction l as [|i l IH]; intros s Hs Hf; cbn [each]; [apply does_ret; auto|].
  apply (does_bnd Inv _ _ (fun a fu => each l (f fu) a)); [apply Hf; auto; now left|].
  intros a Ia. apply IH; auto. intros k s' Hk. apply Hf. now right.
Qed.
Lemma fine_each {S} (Inv : nat -> S -> Prop) (f : nat -> S -> out S) k s0 s :
  Inv s0 s -> (forall i s, (s0 <= i < s0 + k)%nat -> Inv i s -> fine (Inv (Datatypes.S i)) (f i s)) ->
  fine (Inv (s0 + k)%nat) (each (seq s0 k) f s).
Proof.
  revert s0 s. induction k as [|k IH]; intros s0 s Hs Hf; cbn [seq each].
  - cbn. now rewrite Nat.add_0_r.
  - apply (fine_bnd (Inv (Datatypes.S s0))); [apply Hf; auto; lia|].
    intros a Ia. replace (s0 + Datatypes.S k)%nat with (Datatypes.S s0 + k)%nat by lia.
    apply IH; auto. intros i s' Hi. apply Hf. lia.
Qed.

(** a loop whose states have a measure that goes down *)
Lemma does_wloop {S A} (Inv : nat -> S -> Prop) (P : A -> Prop) (body : nat -> S -> out (S + A)) :
  (forall k s, Inv k s ->
     does (fun r => match r with inl s' => exists k', (k' < k)%nat /\ Inv k' s' | inr a => P a end) (fun fu => body fu s)) ->
  forall k s, Inv k s -> does P (fun fu => wloop body fu s).
Proof.
  intros H k. induction k as [k IH] using lt_wf_ind. intros s Hs.
  destruct (H k s Hs) as (r & K & E & G). destruct r as [[s'|a]|e| |]; cbn in G; try contradiction.
  - destruct G as (k' & Lk & Is). destruct (IH k' Lk s' Is) as (r' & K' & E' & G').
    exists r', (Datatypes.S (Nat.max K K')). split; auto. intros [|fu] L; [lia|]. cbn [wloop].
    rewrite E by lia. cbn [obnd]. apply E'. lia.
  - exists (Ret a), (Datatypes.S K). split; auto. intros [|fu] L; [lia|]. cbn [wloop]. rewrite E by lia. auto.
  - exists (Throw e), (Datatypes.S K). split; auto. intros [|fu] L; [lia|]. cbn [wloop]. rewrite E by lia. auto.
Qed.

(** a positive number falls below any positive bound after finitely many reductions by
    half a percent *)
Lemma budget c m : 0 < m -> exists k, c * (995 / 1000) ^ k < m.
Proof.
  intros Hm. destruct (pow_lt_1_zero (995 / 1000)) with (y := m / (Rabs c + 1)) as (N & HN).
  - rewrite Rabs_pos_eq; lra.
  - apply Rdiv_lt_0_compat; [lra|]. generalize (Rabs_pos c). lra.
  - exists N. specialize (HN N (Nat.le_refl N)). assert (P : 0 < (995 / 1000) ^ N) by (apply pow_lt; lra).
    rewrite Rabs_pos_eq in HN by lra. generalize (Rabs_pos c) (RRle_abs c). intros A1 A2.
    apply (Rmult_lt_compat_r (Rabs c + 1)) in HN; [|lra].
    unfold Rdiv in HN. rewrite (Rmult_assoc m), Rinv_l, Rmult_1_r in HN by lra. nra.
Qed.
Lemma sqrt2_steps x y : 0 < x -> exists k, y < x * step_factor ^ k.
Proof.
  intros Hx. assert (S2 : 1 < step_factor).
  { unfold step_factor. rewrite <- sqrt_1 at 1. apply sqrt_lt_1; lra. }
  destruct (Pow_x_infinity step_factor) with (b := (Rabs y + 1) / x) as (N & HN); [rewrite Rabs_pos_eq; lra|].
  exists N. specialize (HN N (Nat.le_refl N)). rewrite Rabs_pos_eq in HN by (apply pow_le; lra).
  apply Rge_le in HN. apply (Rmult_le_compat_l x) in HN; [|lra].
  replace (x * ((Rabs y + 1) / x)) with (Rabs y + 1) in HN by (field; lra). generalize (RRle_abs y). lra.
Qed.
