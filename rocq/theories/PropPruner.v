(** C48: pruning coefficient vectors survive save/load and are enforced to be
    valid; the greedy starting point is valid. *)
From Coq Require Import List ZArith QArith Qcanon Lia Arith Bool.
From Verif Require Import Util QcUtil MatrixModel MatrixProofs HouseProofs PrunerModel.
Import ListNotations.
Local Open Scope nat_scope.
Local Open Scope Qc_scope.

(** ** Spec *)

(** entry [i] of a vector *)
Definition at_ (b : list Qc) (i : nat) : Qc := nth i b 0.

(** non-decreasing *)
Definition nondec (b : list Qc) : Prop :=
  forall i, (S i < length b)%nat -> at_ b i <= at_ b (S i).

(** the minimal coefficient that belongs to entry [i] of a vector of length
    [dn]: one per entry for half vectors, one per pair for full vectors (the
    last entry of a full vector of odd length has none) *)
Definition min_for (mins : list Qc) (dn i : nat) : option Qc :=
  nth_error mins (if (dn =? length mins)%nat then i else (i / 2)%nat).

(** what the pruner expects of a coefficient vector *)
Definition valid_coeffs (mins b : list Qc) : Prop :=
  nondec b /\
  forall i, (i < length b)%nat ->
    at_ b i <= 1 /\ forall m, min_for mins (length b) i = Some m -> m <= at_ b i.

(** [x] cut to the interval from the minimal coefficient to one *)
Definition cut (m : option Qc) (x : Qc) : Qc :=
  let y := if qltb 1 x then 1 else x in
  match m with Some m => if qltb y m then m else y | None => y end.

(** ** Facts about the model *)

Lemma qltb_spec x y : if qltb x y then x < y else y <= x.
Proof. unfold qltb. destruct (Qclt_le_dec x y); auto. Qed.

Lemma qltb_true x y : qltb x y = true <-> x < y.
Proof.
  unfold qltb. destruct (Qclt_le_dec x y) as [H|H]; split; auto; try discriminate.
  intros H1. exfalso. qclra.
Qed.

Lemma qltb_false x y : qltb x y = false <-> y <= x.
Proof.
  unfold qltb. destruct (Qclt_le_dec x y) as [H|H]; split; auto; try discriminate.
  intros H1. exfalso. qclra.
Qed.

Lemma vset_at {A} (v : list A) i x : (i < length v)%nat -> vset v i x = Some (upd v i x).
Proof.
  intros H. unfold vset. destruct (nth_error v i) eqn:E; auto.
  apply nth_error_None in E. lia.
Qed.

Lemma nth_error_at (b : list Qc) i : (i < length b)%nat -> nth_error b i = Some (at_ b i).
Proof. intros H. apply nth_error_nth'. auto. Qed.

Lemma at_upd b i x k : (i < length b)%nat -> at_ (upd b i x) k = if (k =? i)%nat then x else at_ b k.
Proof.
  intros H. unfold at_. rewrite nth_upd. apply Nat.ltb_lt in H. rewrite H, andb_true_r. auto.
Qed.

Lemma at_ext b1 b2 : length b1 = length b2 -> (forall i, (i < length b1)%nat -> at_ b1 i = at_ b2 i) -> b1 = b2.
Proof. intros L H. apply (nth_ext b1 b2 0 0 L H). Qed.

Lemma osub_le a b : (b <= a)%nat -> osub a b = Some (a - b)%nat.
Proof. intros H. unfold osub. apply Nat.leb_le in H. rewrite H. auto. Qed.

Lemma ofor_same {S} (f : nat -> S -> option S) s l : (forall i, In i l -> f i s = Some s) -> ofor l f s = Some s.
Proof.
  induction l as [|a l IH]; simpl; auto.
  intros H. rewrite H by auto. simpl. apply IH. auto.
Qed.

Lemma ofor_app {S} (f : nat -> S -> option S) l1 l2 s :
  ofor (l1 ++ l2) f s = (s' <- ofor l1 f s;; ofor l2 f s').
Proof.
  revert s. induction l1 as [|a l1 IH]; simpl; auto.
  intros s. destruct (f a s); simpl; auto.
Qed.

Lemma ofor_down {S} (P : nat -> S -> Prop) (f : nat -> S -> option S) n : forall s,
  P n s ->
  (forall k s, (k < n)%nat -> P (Datatypes.S k) s -> exists s', f k s = Some s' /\ P k s') ->
  exists s', ofor (rev (seq 0 n)) f s = Some s' /\ P 0%nat s'.
Proof.
  induction n as [|n IH]; intros s H0 Hs.
  - exists s. auto.
  - rewrite seq_S, rev_app_distr. simpl rev. simpl app. cbn [ofor].
    destruct (Hs n s) as (s1 & E1 & P1); auto.
    replace (0 + n)%nat with n by lia. rewrite E1. cbn [obind].
    apply IH; auto.
Qed.

Lemma nondec_le b : nondec b -> forall i k, (i <= k < length b)%nat -> at_ b i <= at_ b k.
Proof.
  intros H i k. revert i. induction k as [|k IH]; intros i Hk.
  - replace i with 0%nat by lia. apply Qcle_refl.
  - destruct (Nat.eq_dec i (S k)) as [->|N]; [apply Qcle_refl|].
    eapply Qcle_trans; [apply IH; lia|apply H; lia].
Qed.

Section Enf.
  Variable c999 c10001 : Qc.
  Variable plus_eps : Qc -> Qc.
  Notation enforce := (enforce c999 c10001 plus_eps).
  Notation clip_step := (clip_step c10001).
  Notation raise_step := (raise_step plus_eps).
  Notation lower_step := (lower_step plus_eps).

  Lemma cut_bounds m x : (forall y, m = Some y -> y <= 1) -> cut m x <= 1 /\ forall y, m = Some y -> y <= cut m x.
  Proof.
    intros H. unfold cut.
    assert (H1 : (if qltb 1 x then 1 else x) <= 1).
    { generalize (qltb_spec 1 x). destruct (qltb 1 x); intros; qclra. }
    destruct m as [m|]; [|split; [auto|discriminate]].
    specialize (H m eq_refl). generalize (qltb_spec (if qltb 1 x then 1 else x) m).
    destruct (qltb (if qltb 1 x then 1 else x) m); intros G; split; auto; intros y E; injection E as <-; qclra.
  Qed.

  (** the entry the first loop leaves at [i] *)
  Definition cutv (mins : list Qc) (dn i : nat) (x : Qc) : Qc := cut (min_for mins dn i) x.

  Lemma clip_loop mins b st :
    exists b' st', ofor (seq 0 (length b)) (clip_step (length mins) (if length b =? length mins then 1 else 2)%nat mins) (b, st)
      = Some (b', st') /\ length b' = length b /\
      (forall i, (i < length b)%nat -> at_ b' i = cutv mins (length b) i (at_ b i)) /\
      (st' = st || existsb (fun i => qltb c10001 (at_ b i)) (seq 0 (length b))).
  Proof.
    set (c := (if length b =? length mins then 1 else 2)%nat).
    destruct (ofor_inv (fun k (s : list Qc * bool) => length (fst s) = length b /\
        (forall i, (i < k)%nat -> at_ (fst s) i = cutv mins (length b) i (at_ b i)) /\
        (forall i, (k <= i)%nat -> at_ (fst s) i = at_ b i) /\
        (snd s = st || existsb (fun i => qltb c10001 (at_ b i)) (seq 0 k)))
      (clip_step (length mins) c mins) (length b) 0 (b, st)) as (s' & E & P).
    - simpl. repeat split; auto; try lia. now rewrite orb_false_r.
    - intros k [v s] Hk (L & P1 & P2 & P3). simpl in L, P1, P2, P3. unfold PrunerModel.clip_step.
      rewrite (nth_error_at v k) by lia. cbn [obind]. rewrite (P2 k) by lia.
      set (y := if qltb 1 (at_ b k) then 1 else at_ b k).
      assert (MF : min_for mins (length b) k = nth_error mins (k / c)).
      { unfold min_for, c. destruct (length b =? length mins)%nat; auto. now rewrite Nat.div_1_r. }
      assert (ST : snd (v, s) || qltb c10001 (at_ b k) = st || existsb (fun i => qltb c10001 (at_ b i)) (seq 0 (S k))).
      { simpl snd. rewrite P3, seq_S, existsb_app. simpl. now rewrite orb_false_r, orb_assoc. }
      assert (G : forall z, z = cutv mins (length b) k (at_ b k) ->
        exists s', (b0 <- vset v k z;; Some (b0, s || qltb c10001 (at_ b k))) = Some s' /\
          length (fst s') = length b /\
          (forall i, (i < S k)%nat -> at_ (fst s') i = cutv mins (length b) i (at_ b i)) /\
          (forall i, (S k <= i)%nat -> at_ (fst s') i = at_ b i) /\
          snd s' = st || existsb (fun i => qltb c10001 (at_ b i)) (seq 0 (S k))).
      { intros z Hz. rewrite vset_at by lia. cbn [obind]. eexists. split; [reflexivity|]. cbn [fst snd].
        repeat split.
        - rewrite upd_length. auto.
        - intros i Hi. rewrite at_upd by lia. destruct (i =? k)%nat eqn:Ei.
          + apply Nat.eqb_eq in Ei. subst i. auto.
          + apply Nat.eqb_neq in Ei. apply P1. lia.
        - intros i Hi. rewrite at_upd by lia. destruct (i =? k)%nat eqn:Ei.
          + apply Nat.eqb_eq in Ei. lia.
          + apply P2. lia.
        - auto. }
      destruct (k / c <? length mins)%nat eqn:Ec.
      + apply Nat.ltb_lt in Ec. rewrite (nth_error_at mins _ Ec). cbn [obind]. apply G.
        unfold cutv, cut. rewrite MF, (nth_error_at mins _ Ec). fold y.
        unfold qleb. generalize (qltb_spec y (at_ mins (k/c))) (qltb_spec (at_ mins (k/c)) y).
        destruct (qltb y (at_ mins (k/c))), (qltb (at_ mins (k/c)) y); simpl; intros; auto; qclra.
      + apply Nat.ltb_ge in Ec. apply G. unfold cutv, cut. rewrite MF.
        destruct (nth_error mins (k / c)) eqn:En; auto.
        assert (k / c < length mins)%nat by (apply nth_error_Some; congruence). lia.
    - destruct s' as [v s]. simpl in P. destruct P as (L & P1 & P2 & P3).
      exists v, s. split; auto.
  Qed.

  Lemma raise_loop b st j : (j <= length b - 1)%nat -> (0 < length b)%nat ->
    exists b' st', ofor (seq j (length b - 1 - j)) raise_step (b, st) = Some (b', st') /\
      length b' = length b /\
      (forall i, (i < j)%nat -> at_ b' i = at_ b i) /\
      (forall i, (j <= i < length b)%nat ->
         (forall t, (j <= t <= i)%nat -> at_ b t <= at_ b' i) /\
         exists t, (j <= t <= i)%nat /\ at_ b' i = at_ b t).
  Proof.
    intros Hj Hl.
    destruct (ofor_inv (fun k (s : list Qc * bool) => length (fst s) = length b /\
      (forall i, (i < j)%nat -> at_ (fst s) i = at_ b i) /\
      (forall i, (k < i)%nat -> at_ (fst s) i = at_ b i) /\
      (forall i, (j <= i <= k)%nat -> (forall t, (j <= t <= i)%nat -> at_ b t <= at_ (fst s) i) /\
         exists t, (j <= t <= i)%nat /\ at_ (fst s) i = at_ b t))
      raise_step (length b - 1 - j) j (b, st)) as (s' & E & P).
    - simpl. repeat split; auto.
      + intros t Ht. replace t with i by lia. apply Qcle_refl.
      + exists i. split; auto; lia.
    - intros k [v s] Hk (L & P1 & P2 & P3). simpl in L, P1, P2, P3. unfold PrunerModel.raise_step.
      rewrite (nth_error_at v k), (nth_error_at v (S k)) by lia. cbn [obind].
      destruct (P3 k) as (Q1 & t0 & Q2 & Q3); [lia|].
      assert (N : at_ v (S k) = at_ b (S k)) by (apply P2; lia).
      destruct (qltb (at_ v (S k)) (at_ v k)) eqn:Eq.
      + apply qltb_true in Eq. rewrite vset_at by lia. cbn [obind]. eexists. split; [reflexivity|]. cbn [fst].
        repeat split.
        * rewrite upd_length. auto.
        * intros i Hi. rewrite at_upd by lia. destruct (i =? S k)%nat eqn:Ei.
          { apply Nat.eqb_eq in Ei. lia. } apply P1. auto.
        * intros i Hi. rewrite at_upd by lia. destruct (i =? S k)%nat eqn:Ei.
          { apply Nat.eqb_eq in Ei. lia. } apply P2. lia.
        * intros t Ht. rewrite at_upd by lia. destruct (i =? S k)%nat eqn:Ei.
          { apply Nat.eqb_eq in Ei. subst i. destruct (Nat.eq_dec t (S k)) as [->|Nt].
            - rewrite <- N. qclra.
            - apply Q1. lia. }
          apply Nat.eqb_neq in Ei. apply (P3 i); lia.
        * rewrite at_upd by lia. destruct (i =? S k)%nat eqn:Ei.
          { apply Nat.eqb_eq in Ei. subst i. exists t0. split; [lia|auto]. }
          apply Nat.eqb_neq in Ei. apply (P3 i). lia.
      + apply qltb_false in Eq. eexists. split; [reflexivity|]. cbn [fst].
        repeat split; auto.
        * intros i Hi. apply P2. lia.
        * intros t Ht. destruct (Nat.eq_dec i (S k)) as [->|Ni].
          { destruct (Nat.eq_dec t (S k)) as [->|Nt].
            - rewrite N. apply Qcle_refl.
            - eapply Qcle_trans; [apply Q1; lia|auto]. }
          apply (P3 i); lia.
        * destruct (Nat.eq_dec i (S k)) as [->|Ni].
          { exists (S k). split; [lia|auto]. }
          apply (P3 i). lia.
    - destruct s' as [v s]. cbn [fst] in P. destruct P as (L & P1 & P2 & P3). exists v, s.
      repeat split; auto; apply (P3 i); lia.
  Qed.

  Lemma lower_loop b st m : (m < length b)%nat ->
    exists b' st', ofor (rev (seq 0 m)) lower_step (b, st) = Some (b', st') /\
      length b' = length b /\
      (forall i, (m <= i)%nat -> at_ b' i = at_ b i) /\
      (forall i, (i <= m)%nat ->
         (forall t, (i <= t <= m)%nat -> at_ b' i <= at_ b t) /\
         exists t, (i <= t <= m)%nat /\ at_ b' i = at_ b t).
  Proof.
    intros Hm.
    destruct (ofor_down (fun k (s : list Qc * bool) => length (fst s) = length b /\
      (forall i, (m <= i)%nat -> at_ (fst s) i = at_ b i) /\
      (forall i, (i < k)%nat -> at_ (fst s) i = at_ b i) /\
      (forall i, (k <= i <= m)%nat -> (forall t, (i <= t <= m)%nat -> at_ (fst s) i <= at_ b t) /\
         exists t, (i <= t <= m)%nat /\ at_ (fst s) i = at_ b t))
      lower_step m (b, st)) as (s' & E & P).
    - simpl. repeat split; auto.
      + intros t Ht. replace t with i by lia. apply Qcle_refl.
      + exists i. split; auto; lia.
    - intros k [v s] Hk (L & P1 & P2 & P3). simpl in L, P1, P2, P3. unfold PrunerModel.lower_step.
      rewrite (nth_error_at v k), (nth_error_at v (S k)) by lia. cbn [obind].
      destruct (P3 (S k)) as (Q1 & t0 & Q2 & Q3); [lia|].
      assert (N : at_ v k = at_ b k) by (apply P2; lia).
      destruct (qltb (at_ v (S k)) (at_ v k)) eqn:Eq.
      + apply qltb_true in Eq. rewrite vset_at by lia. cbn [obind]. eexists. split; [reflexivity|]. cbn [fst].
        repeat split.
        * rewrite upd_length. auto.
        * intros i Hi. rewrite at_upd by lia. destruct (i =? k)%nat eqn:Ei.
          { apply Nat.eqb_eq in Ei. lia. } apply P1. auto.
        * intros i Hi. rewrite at_upd by lia. destruct (i =? k)%nat eqn:Ei.
          { apply Nat.eqb_eq in Ei. lia. } apply P2. lia.
        * intros t Ht. rewrite at_upd by lia. destruct (i =? k)%nat eqn:Ei.
          { apply Nat.eqb_eq in Ei. subst i. destruct (Nat.eq_dec t k) as [->|Nt].
            - rewrite <- N. qclra.
            - apply Q1. lia. }
          apply Nat.eqb_neq in Ei. apply (P3 i); lia.
        * rewrite at_upd by lia. destruct (i =? k)%nat eqn:Ei.
          { apply Nat.eqb_eq in Ei. subst i. exists t0. split; [lia|auto]. }
          apply Nat.eqb_neq in Ei. apply (P3 i). lia.
      + apply qltb_false in Eq. eexists. split; [reflexivity|]. cbn [fst].
        repeat split; auto.
        * intros t Ht. destruct (Nat.eq_dec i k) as [->|Ni].
          { destruct (Nat.eq_dec t k) as [->|Nt].
            - rewrite N. apply Qcle_refl.
            - eapply Qcle_trans; [exact Eq|apply Q1; lia]. }
          apply (P3 i); lia.
        * destruct (Nat.eq_dec i k) as [->|Ni].
          { exists k. split; [lia|auto]. }
          apply (P3 i). lia.
    - destruct s' as [v s]. cbn [fst] in P. destruct P as (L & P1 & P2 & P3). exists v, s.
      repeat split; auto; apply (P3 i); lia.
  Qed.

  (** the vector after the test of the last coefficient *)
  Definition last_fixed (b : list Qc) (j : nat) : list Qc :=
    if qltb (at_ b (length b - 1)) c999 && negb (j =? length b - 1)%nat
    then upd b (length b - 1) 1 else b.

  (** ** C48: the result of enforce, entry by entry: from position [j] on it is
      the running maximum of the cut entries, before [j] the running minimum
      (towards the front) *)
  Theorem enforce_entries mins b j :
    (j < length b)%nat ->
    exists b' st, enforce (length mins) mins b j = Some (b', st) /\ length b' = length b /\
      let cv i := cut (min_for mins (length b) i) (at_ (last_fixed b j) i) in
      (forall i, (j <= i < length b)%nat ->
         (forall t, (j <= t <= i)%nat -> cv t <= at_ b' i) /\
         exists t, (j <= t <= i)%nat /\ at_ b' i = cv t) /\
      (forall i, (i <= j)%nat ->
         (forall t, (i <= t <= j)%nat -> at_ b' i <= cv t) /\
         exists t, (i <= t <= j)%nat /\ at_ b' i = cv t).
  Proof.
    intros Hj. unfold PrunerModel.enforce.
    rewrite osub_le by lia. cbn [obind]. rewrite nth_error_at by lia. cbn [obind].
    assert (S1 : exists st1, (if qltb (at_ b (length b - 1)) c999 && negb (j =? length b - 1)%nat
        then b0 <- vset b (length b - 1) 1;; Some (b0, true) else Some (b, false)) = Some (last_fixed b j, st1)).
    { unfold last_fixed. destruct (qltb (at_ b (length b - 1)) c999 && negb (j =? length b - 1)%nat).
      - rewrite vset_at by lia. eexists. reflexivity.
      - eexists. reflexivity. }
    destruct S1 as (st1 & ->). cbn [obind].
    assert (L1 : length (last_fixed b j) = length b).
    { unfold last_fixed. destruct (_ && _); auto. apply upd_length. }
    destruct (clip_loop mins (last_fixed b j) st1) as (b2 & st2 & E2 & L2 & V2 & _).
    rewrite L1 in E2, L2, V2. rewrite E2. cbn [obind].
    destruct (raise_loop b2 st2 j) as (b3 & st3 & E3 & L3 & V3 & W3); [lia|lia|].
    rewrite L2 in E3, W3. rewrite E3. cbn [obind].
    replace (Nat.min j (length b - 1)) with j by lia.
    destruct (lower_loop b3 st3 j) as (b4 & st4 & E4 & L4 & V4 & W4); [lia|].
    exists b4, st4. split; auto. split; [congruence|]. cbn zeta.
    assert (J3 : at_ b3 j = at_ b2 j).
    { destruct (W3 j) as (_ & t & Ht & E); [lia|]. rewrite E. f_equal. lia. }
    split; intros i Hi.
    - destruct (W3 i Hi) as (A & t & Ht & E). rewrite (V4 i) by lia. split.
      + intros u Hu. specialize (A u Hu). rewrite V2 in A by lia. exact A.
      + exists t. split; auto. rewrite E, V2 by lia. reflexivity.
    - destruct (W4 i) as (A & t & Ht & E); [lia|].
      assert (B : forall u, (u <= j)%nat -> at_ b3 u = cut (min_for mins (length b) u) (at_ (last_fixed b j) u)).
      { intros u Hu. transitivity (at_ b2 u).
        - destruct (Nat.eq_dec u j) as [->|Nu]; auto. apply V3. lia.
        - apply V2. lia. }
      split.
      + intros u Hu. rewrite <- B by lia. apply A. lia.
      + exists t. split; auto. rewrite E, B by lia. reflexivity.
  Qed.

  (** ** C48: enforce yields a valid vector.  Called without a position (j = 0)
      for all minimal coefficients up to one; called with a position the
      minimal coefficients must be non-decreasing. *)
  Theorem enforce_valid mins b j :
    (j < length b)%nat ->
    (forall m, In m mins -> m <= 1) ->
    (j = 0%nat \/ nondec mins /\ (length b = length mins \/ (j < 2 * length mins)%nat)) ->
    exists b' st, enforce (length mins) mins b j = Some (b', st) /\ length b' = length b /\
      valid_coeffs mins b'.
  Proof.
    intros Hj Hm Hc. destruct (enforce_entries mins b j Hj) as (b' & st & E & L & A & B).
    exists b', st. split; auto. split; auto.
    set (cv := fun i => cut (min_for mins (length b) i) (at_ (last_fixed b j) i)) in *.
    assert (CB : forall i, cv i <= 1 /\ forall m, min_for mins (length b) i = Some m -> m <= cv i).
    { intros i. apply cut_bounds. intros y Hy. apply Hm. unfold min_for in Hy. eapply nth_error_In; eauto. }
    split.
    - intros i Hi. rewrite L in Hi.
      destruct (le_lt_dec j i) as [G|G].
      + destruct (A i) as (_ & t & Ht & Et); [lia|]. rewrite Et.
        apply (proj1 (A (S i) ltac:(lia))). lia.
      + destruct (B (S i)) as (_ & t & Ht & Et); [lia|]. rewrite Et.
        apply (proj1 (B i ltac:(lia))). lia.
    - intros i Hi. rewrite L in Hi. rewrite L.
      destruct (le_lt_dec j i) as [G|G].
      + destruct (A i) as (U & t & Ht & Et); [lia|]. split.
        * rewrite Et. apply CB.
        * intros m Em. eapply Qcle_trans; [apply (proj2 (CB i) m Em)|apply U; lia].
      + destruct (B i) as (U & t & Ht & Et); [lia|]. split.
        * rewrite Et. apply CB.
        * intros m Em. rewrite Et. destruct Hc as [->|[Hc Hs]]; [lia|].
          assert (Q : exists mt, min_for mins (length b) t = Some mt /\ m <= mt).
          { unfold min_for in *. 
            set (q := fun i => if (length b =? length mins)%nat then i else (i / 2)%nat).
            assert (Q : (q i <= q t < length mins)%nat).
            { unfold q. destruct (length b =? length mins)%nat eqn:El.
              - apply Nat.eqb_eq in El. lia.
              - apply Nat.eqb_neq in El. split; [apply Nat.div_le_mono; lia|].
                apply Nat.div_lt_upper_bound; lia. }
            exists (at_ mins (q t)). split; [apply (nth_error_at mins (q t)); lia|].
            fold (q i) in Em. apply nth_error_nth with (d := 0) in Em. rewrite <- Em.
            apply (nondec_le mins Hc); lia. }
          destruct Q as (mt & E1 & E2). eapply Qcle_trans; [exact E2|]. apply (proj2 (CB t) mt E1).
  Qed.

  (** ** C48: ... whose last entry is at least .999, except when the position
      is the last one *)
  Theorem enforce_last mins b j :
    c999 <= 1 ->
    (j < length b - 1)%nat ->
    exists b' st, enforce (length mins) mins b j = Some (b', st) /\
      length b' = length b /\ c999 <= at_ b' (length b - 1).
  Proof.
    intros Hc Hj. destruct (enforce_entries mins b j) as (b' & st & E & L & A & _); [lia|].
    exists b', st. split; auto. split; auto.
    destruct (A (length b - 1)%nat) as (U & _); [lia|].
    eapply Qcle_trans; [|apply (U (length b - 1)%nat); lia].
    assert (G : c999 <= at_ (last_fixed b j) (length b - 1)).
    { unfold last_fixed. destruct (qltb (at_ b (length b - 1)) c999) eqn:Eq.
      - replace (j =? length b - 1)%nat with false by (symmetry; apply Nat.eqb_neq; lia). cbn [negb andb].
        rewrite at_upd, Nat.eqb_refl by lia. auto.
      - cbn [andb]. apply qltb_false. auto. }
    set (x := at_ (last_fixed b j) (length b - 1)) in *. unfold cut.
    assert (G1 : c999 <= (if qltb 1 x then 1 else x)) by (destruct (qltb 1 x); auto).
    destruct (min_for mins (length b) (length b - 1)) as [m|]; auto.
    generalize (qltb_spec (if qltb 1 x then 1 else x) m).
    destruct (qltb (if qltb 1 x then 1 else x) m); intros; auto. qclra.
  Qed.

  (** ** C48: a valid vector with last entry at least .999 is left alone, and
      enforce says so; in particular enforcing twice changes nothing more *)
  Theorem enforce_fixed mins b j :
    1 <= c10001 ->
    (j < length b)%nat ->
    valid_coeffs mins b -> (j = length b - 1)%nat \/ c999 <= at_ b (length b - 1) ->
    enforce (length mins) mins b j = Some (b, false).
  Proof.
    intros Hc Hj (M & V) Hl. unfold PrunerModel.enforce.
    rewrite osub_le by lia. cbn [obind]. rewrite nth_error_at by lia. cbn [obind].
    assert (T : qltb (at_ b (length b - 1)) c999 && negb (j =? length b - 1)%nat = false).
    { destruct Hl as [->|Hl].
      - rewrite Nat.eqb_refl. apply andb_false_r.
      - apply qltb_false in Hl. rewrite Hl. auto. }
    rewrite T. cbn [obind].
    destruct (clip_loop mins b false) as (b2 & st2 & E2 & L2 & V2 & S2). rewrite E2. cbn [obind].
    assert (b2 = b) as ->.
    { apply at_ext; auto. intros i Hi. rewrite L2 in Hi. rewrite V2 by auto. unfold cutv, cut.
      destruct (V i Hi) as (V1 & V3).
      replace (qltb 1 (at_ b i)) with false by (symmetry; apply qltb_false; auto).
      destruct (min_for mins (length b) i) as [m|] eqn:Em; auto.
      replace (qltb (at_ b i) m) with false; auto. symmetry. apply qltb_false. auto. }
    assert (st2 = false) as ->.
    { rewrite S2. cbn [orb]. apply not_true_iff_false. intros H. apply existsb_exists in H.
      destruct H as (i & Hi & Hq). apply in_seq in Hi. apply qltb_true in Hq.
      destruct (V i) as (V1 & _); [lia|]. qclra. }
    rewrite (ofor_same raise_step (b, false)).
    - cbn [obind]. apply ofor_same. intros i Hi. apply in_rev, in_seq in Hi.
      unfold PrunerModel.lower_step. rewrite (nth_error_at b i), (nth_error_at b (S i)) by lia. cbn [obind].
      replace (qltb (at_ b (S i)) (at_ b i)) with false; auto. symmetry. apply qltb_false. apply M. lia.
    - intros i Hi. apply in_seq in Hi.
      unfold PrunerModel.raise_step. rewrite (nth_error_at b i), (nth_error_at b (S i)) by lia. cbn [obind].
      replace (qltb (at_ b (S i)) (at_ b i)) with false; auto. symmetry. apply qltb_false. apply M. lia.
  Qed.

  (** C48: an empty vector (dimension 1: d = 0) makes enforce read b[-1] *)
  Theorem enforce_empty_refuted : exists mins j, enforce (length mins) mins [] j = None.
  Proof. exists [], 0%nat. reflexivity. Qed.
End Enf.

(** ** Concrete cases and refutations.  The literals: *)
Definition q (a b : Z) : Qc := Q2Qc (Qmake a (Z.to_pos b)).
Definition std := enforce (q 999 1000) (q 10001 10000) (fun x => x + q 1 1000000).
(** plain data to compare with *)
Definition show (r : option (list Qc * bool)) : option (list (Z * Z) * bool) :=
  match r with
  | Some (b, s) => Some (map (fun x : Qc => (Qnum (this x), Zpos (Qden (this x)))) b, s)
  | None => None
  end.

(** half vector, d = 4: cut to [min,1], raised to the running maximum *)
Example enforce_half :
  show (std 4 [q 1 10; q 1 10; q 2 10; q 2 10] [q 1 20; q 7 10; q 3 10; q 1 2] 0)
  = Some ([(1,10); (7,10); (7,10); (1,1)]%Z, true).
Proof. vm_compute. reflexivity. Qed.

(** the same vector, position 2: the entries in front are lowered *)
Example enforce_half_pos :
  show (std 4 [q 1 10; q 1 10; q 2 10; q 2 10] [q 1 20; q 7 10; q 3 10; q 1 2] 2)
  = Some ([(1,10); (3,10); (3,10); (1,1)]%Z, true).
Proof. vm_compute. reflexivity. Qed.

(** full vector, n = 5, d = 2 *)
Example enforce_full :
  show (std 2 [q 1 10; q 1 2] [q 1 20; q 1 5; q 1 4; q 3 4; q 3 5] 1)
  = Some ([(1,10); (1,5); (1,2); (3,4); (1,1)]%Z, true).
Proof. vm_compute. reflexivity. Qed.

(** the hypotheses of [enforce_fixed] are met by that result *)
Example enforce_fixed_case :
  show (std 2 [q 1 10; q 1 2] [q 1 10; q 1 5; q 1 2; q 3 4; q 1 1] 1)
  = Some ([(1,10); (1,5); (1,2); (3,4); (1,1)]%Z, false).
Proof. vm_compute. reflexivity. Qed.

(** C48: with a position, minimal coefficients that are not non-decreasing are
    not respected *)
Theorem enforce_position_min_refuted :
  exists mins b b' st, (forall m, In m mins -> m <= 1) /\
    std (length mins) mins b 1 = Some (b', st) /\ ~ valid_coeffs mins b'.
Proof.
  exists [q 1 2; q 1 10; q 1 10], [q 1 2; q 1 5; q 1 1], [q 1 5; q 1 5; q 1 1], true.
  split; [|split].
  - intros m [<-|[<-|[<-|[]]]]; apply Qclt_le_weak; reflexivity.
  - vm_compute. repeat (f_equal; try (apply Qc_ext; reflexivity)).
  - intros (_ & V). destruct (V 0%nat) as (_ & V0); [simpl; lia|].
    specialize (V0 (q 1 2) eq_refl). vm_compute in V0. apply V0. reflexivity.
Qed.

(** C48: "the last coefficient being 1" is not established for d = 1
    (dimensions 2 and 3): position 0 is the last one *)
Theorem enforce_last_refuted :
  exists mins b b' st, length b = length mins /\ (0 < length b)%nat /\
    std (length mins) mins b 0 = Some (b', st) /\ at_ b' (length b - 1) < q 999 1000.
Proof.
  exists [q 0 1], [q 1 2], [q 1 2], false. split; [reflexivity|]. split; [simpl; lia|].
  split; [|reflexivity]. vm_compute. repeat (f_equal; try (apply Qc_ext; reflexivity)).
Qed.

(** C48: full vector of odd length (n = 3, d = 1), position at the last entry:
    that entry has no minimal coefficient, so the entries in front are lowered
    below theirs *)
Theorem enforce_odd_last_refuted :
  exists (mins b b' : list Qc) (st : bool), nondec mins /\ (forall m : Qc, In m mins -> m <= 1) /\
    length b = (2 * length mins + 1)%nat /\
    std (length mins) mins b (length b - 1) = Some (b', st) /\ ~ valid_coeffs mins b'.
Proof.
  exists [q 1 2], [q 1 2; q 1 2; q 1 5], [q 1 5; q 1 5; q 1 5], true.
  split; [|split; [|split; [|split]]].
  - intros i Hi. simpl in Hi. lia.
  - intros m [<-|[]]. apply Qclt_le_weak; reflexivity.
  - reflexivity.
  - vm_compute. repeat (f_equal; try (apply Qc_ext; reflexivity)).
  - intros (_ & V). destruct (V 0%nat) as (_ & V0); [simpl; lia|].
    specialize (V0 (q 1 2) eq_refl). vm_compute in V0. apply V0. reflexivity.
Qed.


(** ** save_coefficients, load_coefficients *)

Lemma vresize_length n pr : length (vresize n pr) = n.
Proof. unfold vresize. rewrite app_length, firstn_length, repeat_length. lia. Qed.

(** C48: what save_coefficients stores for a half vector *)
Lemma save_half_entries n d pr0 b :
  length b = d -> (2 * d <= n)%nat -> (0 < n)%nat ->
  exists pr, save_coefficients n d pr0 b = Some pr /\ length pr = n /\ at_ pr 0 = 1 /\
    forall k, (0 < k)%nat -> (n - 2 * d <= k < n)%nat -> at_ pr k = at_ b ((n - 1 - k) / 2).
Proof.
  intros L H2 Hn. unfold save_coefficients. rewrite L, Nat.eqb_refl.
  destruct (ofor_inv (fun i (p : list Qc) => length p = n /\
     forall k, (n - 2 * i <= k < n)%nat -> at_ p k = at_ b ((n - 1 - k) / 2))
    (fun i pr => x <- nth_error b i;; k1 <- osub n (1 + 2 * i);; pr <- vset pr k1 x;;
                 k2 <- osub n (2 + 2 * i);; vset pr k2 x) d 0 (vresize n pr0)) as (p & E & Lp & P).
  - split; [apply vresize_length|]. intros k Hk. lia.
  - intros i p Hi (Lp & P). rewrite (nth_error_at b i) by lia. cbn [obind].
    rewrite (osub_le n (1 + 2 * i)) by lia. cbn [obind]. rewrite vset_at by lia. cbn [obind].
    rewrite osub_le by lia. cbn [obind]. rewrite vset_at by (rewrite upd_length; lia).
    eexists. split; [reflexivity|]. split; [now rewrite !upd_length|].
    intros k Hk. rewrite at_upd by (rewrite upd_length; lia). rewrite at_upd by lia.
    destruct (k =? n - (2 + 2 * i))%nat eqn:E2; [|destruct (k =? n - (1 + 2 * i))%nat eqn:E1].
    + apply Nat.eqb_eq in E2. f_equal. replace (n - 1 - k)%nat with (1 + i * 2)%nat by lia.
      rewrite Nat.div_add by lia. reflexivity.
    + apply Nat.eqb_eq in E1. f_equal. replace (n - 1 - k)%nat with (0 + i * 2)%nat by lia.
      rewrite Nat.div_add by lia. reflexivity.
    + apply Nat.eqb_neq in E1, E2. apply P. lia.
  - rewrite E. cbn [obind]. rewrite vset_at by lia. eexists. split; [reflexivity|].
    split; [now rewrite upd_length|]. split; [rewrite at_upd by lia; reflexivity|].
    intros k K0 Hk. rewrite at_upd by lia. replace (k =? 0)%nat with false by (symmetry; apply Nat.eqb_neq; lia).
    apply P. lia.
Qed.

(** C48: what save_coefficients stores for a full vector *)
Lemma save_full_entries n d pr0 b :
  length b = n -> n <> d -> (0 < n)%nat ->
  exists pr, save_coefficients n d pr0 b = Some pr /\ length pr = n /\ at_ pr 0 = 1 /\
    forall k, (0 < k < n)%nat -> at_ pr k = at_ b (n - 1 - k).
Proof.
  intros L Hd Hn. unfold save_coefficients. rewrite L.
  replace (n =? d)%nat with false by (symmetry; apply Nat.eqb_neq; auto).
  destruct (ofor_inv (fun i (p : list Qc) => length p = n /\
     forall k, (n - i <= k < n)%nat -> at_ p k = at_ b (n - 1 - k))
    (fun i pr => x <- nth_error b i;; k <- osub n (1 + i);; vset pr k x) n 0 (vresize n pr0))
    as (p & E & Lp & P).
  - split; [apply vresize_length|]. intros k Hk. lia.
  - intros i p Hi (Lp & P). rewrite (nth_error_at b i) by lia. cbn [obind].
    rewrite osub_le by lia. cbn [obind]. rewrite vset_at by lia.
    eexists. split; [reflexivity|]. split; [now rewrite upd_length|].
    intros k Hk. rewrite at_upd by lia. destruct (k =? n - (1 + i))%nat eqn:E2.
    + apply Nat.eqb_eq in E2. f_equal. lia.
    + apply Nat.eqb_neq in E2. apply P. lia.
  - rewrite E. cbn [obind]. rewrite vset_at by lia. eexists. split; [reflexivity|].
    split; [now rewrite upd_length|]. split; [rewrite at_upd by lia; reflexivity|].
    intros k Hk. rewrite at_upd by lia. replace (k =? 0)%nat with false by (symmetry; apply Nat.eqb_neq; lia).
    apply P. lia.
Qed.

Lemma load_entries n d b0 pr :
  (length b0 = d /\ (2 * d <= n)%nat \/ length b0 = n /\ n <> d) -> length pr = n ->
  exists b, load_coefficients n d b0 pr = Some b /\ length b = length b0 /\
    forall i, (i < length b0)%nat ->
      at_ b i = at_ pr (n - 1 - (if (length b0 =? d)%nat then 2 * i else i)).
Proof.
  intros H Lp. unfold load_coefficients.
  set (c := if (length b0 =? d)%nat then 2%nat else 1%nat).
  assert (C : forall i, (i < length b0)%nat -> (c * i + 1 <= n)%nat).
  { intros i Hi. unfold c. destruct H as [[H1 H]|[H1 H]]; rewrite H1 in *.
    - rewrite Nat.eqb_refl. lia.
    - replace (n =? d)%nat with false by (symmetry; apply Nat.eqb_neq; auto). lia. }
  destruct (ofor_inv (fun k (b : list Qc) => length b = length b0 /\
      forall i, (i < k)%nat -> at_ b i = at_ pr (n - (c * i + 1)))
    (fun i b => k <- osub n (c * i + 1);; x <- nth_error pr k;; vset b i x) (length b0) 0 b0)
    as (b & E & Lb & P).
  - split; auto. intros i Hi. lia.
  - intros k b Hk (Lb & P). rewrite osub_le by (apply C; lia). cbn [obind].
    specialize (C k ltac:(lia)). rewrite (nth_error_at pr) by lia. cbn [obind].
    rewrite vset_at by lia. eexists. split; [reflexivity|]. split; [now rewrite upd_length|].
    intros i Hi. rewrite at_upd by lia. destruct (i =? k)%nat eqn:Ei.
    + apply Nat.eqb_eq in Ei. subst i. reflexivity.
    + apply Nat.eqb_neq in Ei. apply P. lia.
  - exists b. split; auto. split; auto. intros i Hi. rewrite P by lia. f_equal. specialize (C i Hi).
    unfold c in *. destruct (length b0 =? d)%nat; lia.
Qed.

(** ** C48: a half vector survives saving and loading, whatever was in the user
    vector before, for every dimension *)
Theorem half_round_trip n pr0 b b0 :
  (0 < n)%nat -> length b = (n / 2)%nat -> length b0 = (n / 2)%nat ->
  exists pr, save_coefficients n (n / 2) pr0 b = Some pr /\ length pr = n /\
    load_coefficients n (n / 2) b0 pr = Some b.
Proof.
  intros Hn L L0. pose proof (Nat.div_mod n 2 ltac:(lia)) as D. pose proof (Nat.mod_upper_bound n 2 ltac:(lia)).
  destruct (save_half_entries n (n / 2) pr0 b L) as (pr & E & Lp & P0 & P); [lia|auto|].
  exists pr. split; auto. split; auto.
  destruct (load_entries n (n / 2) b0 pr) as (b' & E' & L' & Q); auto.
  { left. split; auto. lia. }
  rewrite E'. f_equal. apply at_ext; [congruence|]. intros i Hi. rewrite L' in Hi.
  rewrite Q by auto. rewrite L0, Nat.eqb_refl. rewrite P by lia. f_equal.
  replace (n - 1 - (n - 1 - 2 * i))%nat with (i * 2)%nat by lia. apply Nat.div_mul. lia.
Qed.

(** ** C48: a full vector comes back with its last entry replaced by one, all
    other entries survive *)
Theorem full_round_trip n pr0 b b0 :
  (0 < n)%nat -> length b = n -> length b0 = n ->
  exists pr b', save_coefficients n (n / 2) pr0 b = Some pr /\ length pr = n /\
    load_coefficients n (n / 2) b0 pr = Some b' /\ length b' = n /\
    (forall i, (i < n - 1)%nat -> at_ b' i = at_ b i) /\ at_ b' (n - 1) = 1.
Proof.
  intros Hn L L0. assert (Nd : n <> (n / 2)%nat) by (pose proof (Nat.div_lt n 2); lia).
  destruct (save_full_entries n (n / 2) pr0 b L Nd Hn) as (pr & E & Lp & P0 & P).
  destruct (load_entries n (n / 2) b0 pr) as (b' & E' & L' & Q); auto.
  rewrite L0 in Q. replace (n =? n / 2)%nat with false in Q by (symmetry; apply Nat.eqb_neq; auto).
  exists pr, b'. repeat (split; auto; try congruence).
  - intros i Hi. rewrite Q by lia. rewrite P by lia. f_equal. lia.
  - rewrite Q by lia. rewrite Nat.sub_diag. auto.
Qed.

(** C48: so saving and loading is the identity exactly when the last entry is
    one: enforce only guarantees .999 *)
Corollary full_round_trip_one n pr0 b b0 :
  (0 < n)%nat -> length b = n -> length b0 = n ->
  exists pr b', save_coefficients n (n / 2) pr0 b = Some pr /\
    load_coefficients n (n / 2) b0 pr = Some b' /\ (b' = b <-> at_ b (n - 1) = 1).
Proof.
  intros Hn L L0. destruct (full_round_trip n pr0 b b0 Hn L L0) as (pr & b' & E & Lp & E' & L' & Q & Q1).
  exists pr, b'. split; auto. split; auto. split; intros H; [congruence|].
  apply at_ext; [congruence|]. intros i Hi. destruct (Nat.eq_dec i (n - 1)) as [->|N]; [congruence|].
  apply Q. lia.
Qed.

(** C48: a vector that enforce accepts (no change, status false) does not
    survive saving and loading *)
Theorem full_round_trip_refuted :
  exists n mins b pr b', std (length mins) mins b 0 = Some (b, false) /\
    length b = n /\ length mins = (n / 2)%nat /\
    save_coefficients n (n / 2) [] b = Some pr /\
    load_coefficients n (n / 2) b pr = Some b' /\ b' <> b.
Proof.
  set (b := [q 1 2; q 1 2; q 9995 10000]).
  exists 3%nat, [q 1 10], b.
  destruct (full_round_trip 3 [] b b) as (pr & b' & E & Lp & E' & L' & Q & Q1); [lia|reflexivity|reflexivity|].
  exists pr, b'. split; [|repeat split; auto].
  - vm_compute. repeat (f_equal; try (apply Qc_ext; reflexivity)).
  - intros ->. vm_compute in Q1. discriminate.
Qed.

(** ** C48: the user vector written for a valid coefficient vector is a valid
    pruning vector: it starts with one and never increases *)
Theorem saved_is_pruning_vector n pr0 b mins :
  (0 < n)%nat -> length b = (n / 2)%nat \/ length b = n -> length mins = (n / 2)%nat -> valid_coeffs mins b ->
  exists pr, save_coefficients n (n / 2) pr0 b = Some pr /\ length pr = n /\ at_ pr 0 = 1 /\
    forall k, (S k < n)%nat -> at_ pr (S k) <= at_ pr k.
Proof.
  intros Hn L Lm (M & V). pose proof (Nat.div_mod n 2 ltac:(lia)) as D. pose proof (Nat.mod_upper_bound n 2 ltac:(lia)) as R.
  destruct L as [L|L].
  - destruct (save_half_entries n (n / 2) pr0 b L) as (pr & E & Lp & P0 & P); [lia|auto|].
    exists pr. repeat (split; auto). intros k Hk.
    assert (B : forall k, (0 < k < n)%nat -> ((n - 1 - k) / 2 < length b)%nat).
    { intros k' Hk'. apply Nat.div_lt_upper_bound; lia. }
    destruct k as [|k].
    + rewrite P0, P by lia. apply V. apply B. lia.
    + rewrite !P by lia. apply (nondec_le b M). split; [apply Nat.div_le_mono; lia|apply B; lia].
  - assert (Nd : n <> (n / 2)%nat) by (pose proof (Nat.div_lt n 2); lia).
    destruct (save_full_entries n (n / 2) pr0 b L Nd Hn) as (pr & E & Lp & P0 & P).
    exists pr. repeat (split; auto). intros k Hk. destruct k as [|k].
    + rewrite P0, P by lia. apply V. lia.
    + rewrite !P by lia. apply (nondec_le b M). lia.
Qed.

(** C48: in dimension 0 save_coefficients writes pr[0] of an empty vector *)
Theorem save_empty_refuted : exists n pr0, save_coefficients n (n / 2) pr0 [] = None.
Proof. exists 0%nat, []. reflexivity. Qed.

Definition showv (r : option (list Qc)) : option (list (Z * Z)) :=
  match r with
  | Some b => Some (map (fun x : Qc => (Qnum (this x), Zpos (Qden (this x)))) b)
  | None => None
  end.

(** dimension 5, half vector *)
Example save_half_case :
  showv (save_coefficients 5 2 [] [q 1 4; q 1 2]) = Some [(1,1); (1,2); (1,2); (1,4); (1,4)]%Z /\
  showv (load_coefficients 5 2 [q 0 1; q 0 1] [q 1 1; q 1 2; q 1 2; q 1 4; q 1 4]) = Some [(1,4); (1,2)]%Z.
Proof. split; vm_compute; reflexivity. Qed.

(** dimension 4, full vector *)
Example save_full_case :
  showv (save_coefficients 4 2 [q 3 1] [q 1 8; q 1 4; q 1 2; q 1 1]) = Some [(1,1); (1,2); (1,4); (1,8)]%Z.
Proof. vm_compute; reflexivity. Qed.

(** ** The greedy starting point *)
Section GreedyFacts.
  Variable c9 c001 : Qc.
  Variable up down : Qc -> Qc.
  Variable busy : nat -> list Qc -> bool.
  (** scaling down shrinks and stays positive; 1.1 x is between x and 1 for
      positive x up to .9 *)
  Hypothesis down_ok : forall x : Qc, 0 < x -> x <= 1 -> 0 < down x /\ down x < x.
  Hypothesis up_ok : forall x : Qc, 0 < x -> x <= c9 -> x <= up x /\ up x <= 1.

  (** positive, at most one, non-decreasing up to [i], ones behind *)
  Definition gr (d i : nat) (b : list Qc) : Prop :=
    length b = d /\
    (forall k, (k < d)%nat -> 0 < at_ b k /\ at_ b k <= 1) /\
    (forall k, (S k < i)%nat -> at_ b k <= at_ b (S k)) /\
    (forall k, (i <= k < d)%nat -> at_ b k = 1).

  Lemma cap_below_spec i b : (i < length b)%nat ->
    exists b', cap_below i b = Some b' /\ length b' = length b /\
      (forall k, (i <= k)%nat -> at_ b' k = at_ b k) /\
      (forall k, (k < i)%nat -> at_ b' k = if qltb (at_ b k) (at_ b i) then at_ b k else at_ b i).
  Proof.
    intros Hi. unfold cap_below.
    destruct (ofor_inv (fun k (v : list Qc) => length v = length b /\
      (forall t, (k <= t)%nat -> at_ v t = at_ b t) /\
      (forall t, (t < k)%nat -> at_ v t = if qltb (at_ b t) (at_ b i) then at_ b t else at_ b i))
      (fun k b => x <- nth_error b k;; y <- nth_error b i;; vset b k (if qltb x y then x else y)) i 0 b)
      as (v & E & L & P1 & P2).
    - repeat split; auto. intros t Ht. lia.
    - intros k v Hk (L & P1 & P2). rewrite (nth_error_at v k), (nth_error_at v i) by lia. cbn [obind].
      rewrite vset_at by lia. eexists. split; [reflexivity|]. split; [now rewrite upd_length|]. split; intros t Ht.
      + rewrite at_upd by lia. destruct (t =? k)%nat eqn:Et; [apply Nat.eqb_eq in Et; lia|]. apply P1. lia.
      + rewrite at_upd by lia. destruct (t =? k)%nat eqn:Et.
        * apply Nat.eqb_eq in Et. subst t. rewrite !P1 by lia. reflexivity.
        * apply Nat.eqb_neq in Et. apply P2. lia.
    - exists v. auto.
  Qed.

  Lemma shrink_spec d i : (S i < d)%nat -> forall fuel first b b',
    gr d (S i) b -> shrink c001 down busy fuel first i b = Some b' ->
    gr d (S i) b' /\ (at_ b' i <= at_ b i) /\
    (busy (2 * i + 1)%nat b' = false \/ at_ b' i <= c001).
  Proof.
    intros Hi. induction fuel as [|f IH]; intros first b b' G E; [discriminate|].
    cbn [shrink] in E. destruct G as (L & B & M & O).
    rewrite (nth_error_at b i) in E by lia. cbn [obind] in E.
    destruct ((first || busy (2 * i + 1) b) && qltb c001 (at_ b i)) eqn:T.
    - rewrite vset_at in E by lia. cbn [obind] in E.
      destruct (cap_below_spec i (upd b i (down (at_ b i)))) as (v & Ev & Lv & V1 & V2).
      { rewrite upd_length. lia. }
      rewrite Ev in E. cbn [obind] in E.
      destruct (B i ltac:(lia)) as (Bi1 & Bi2). destruct (down_ok (at_ b i) Bi1 Bi2) as (D1 & D2).
      assert (Vi : at_ v i = down (at_ b i)).
      { rewrite V1 by lia. rewrite at_upd by lia. now rewrite Nat.eqb_refl. }
      assert (Vk : forall k, (k < i)%nat -> at_ v k = if qltb (at_ b k) (down (at_ b i)) then at_ b k else down (at_ b i)).
      { intros k Hk. rewrite V2 by lia. rewrite !at_upd by lia. rewrite Nat.eqb_refl.
        replace (k =? i)%nat with false by (symmetry; apply Nat.eqb_neq; lia). reflexivity. }
      assert (Vg : forall k, (i < k)%nat -> at_ v k = at_ b k).
      { intros k Hk. rewrite V1 by lia. rewrite at_upd by lia.
        replace (k =? i)%nat with false by (symmetry; apply Nat.eqb_neq; lia). reflexivity. }
      assert (Gv : gr d (S i) v).
      { rewrite upd_length in Lv. split; [congruence|]. split; [|split].
        - intros k Hk0. destruct (B k Hk0) as (B1 & B2). destruct (lt_eq_lt_dec k i) as [[Hk|Hk]|Hk].
          + rewrite Vk by auto. destruct (qltb (at_ b k) (down (at_ b i))); split; auto. qclra.
          + subst k. rewrite Vi. split; auto. qclra.
          + rewrite Vg by auto. auto.
        - intros k Hk. rewrite (Vk k) by lia. destruct (Nat.eq_dec (S k) i) as [Ek|Ek].
          + rewrite Ek, Vi. generalize (qltb_spec (at_ b k) (down (at_ b i))).
            destruct (qltb (at_ b k) (down (at_ b i))); intros; qclra.
          + rewrite (Vk (S k)) by lia. specialize (M k ltac:(lia)).
            generalize (qltb_spec (at_ b k) (down (at_ b i))) (qltb_spec (at_ b (S k)) (down (at_ b i))).
            destruct (qltb (at_ b k) (down (at_ b i))), (qltb (at_ b (S k)) (down (at_ b i))); intros; qclra.
        - intros k Hk. rewrite Vg by lia. apply O. auto. }
      destruct (IH false v b' Gv E) as (G' & Le & Ex). split; auto. split; auto.
      rewrite Vi in Le. qclra.
    - injection E as <-. split; [exact (conj L (conj B (conj M O)))|]. split; [apply Qcle_refl|].
      apply andb_false_iff in T. destruct T as [T|T].
      + apply orb_false_iff in T. tauto.
      + right. apply qltb_false. auto.
  Qed.

  Lemma gr_start d : gr d 0 (repeat 1 d).
  Proof.
    assert (A : forall k, (k < d)%nat -> at_ (repeat 1 d) k = 1) by (intros; apply nth_repeat_lt; auto).
      split; [apply repeat_length|]. split; [|split].
      - intros k Hk. rewrite A by auto. split; [reflexivity|apply Qcle_refl].
      - intros k Hk. lia.
      - intros k Hk. apply A. lia.
  Qed.

  Lemma greedy_pre d a b0 : (S a < d)%nat -> gr d a b0 ->
    exists b2, (if (1 <? a)%nat then k <- osub a 1;; x <- nth_error b0 k;; vset b0 a (if qltb c9 x then 1 else up x)
                else Some b0) = Some b2 /\ gr d (S a) b2.
  Proof.
    intros Ha (L & B & M & O).
    destruct (1 <? a)%nat eqn:Ea.
    - apply Nat.ltb_lt in Ea. rewrite osub_le by lia. cbn [obind].
      rewrite (nth_error_at b0) by lia. cbn [obind]. rewrite vset_at by lia.
      eexists. split; [reflexivity|].
      set (x := at_ b0 (a - 1)). pose proof (B (a - 1)%nat ltac:(lia)) as Bx. fold x in Bx.
      assert (Y : x <= (if qltb c9 x then 1 else up x) /\ (if qltb c9 x then 1 else up x) <= 1).
      { generalize (qltb_spec c9 x). destruct (qltb c9 x); intros H.
        - split; [apply Bx|apply Qcle_refl].
        - apply up_ok; auto. apply Bx. }
      set (y := if qltb c9 x then 1 else up x) in *.
      assert (A : forall k, at_ (upd b0 a y) k = if (k =? a)%nat then y else at_ b0 k) by (intros; apply at_upd; lia).
      split; [now rewrite upd_length|]. split; [|split].
      + intros k Hk. rewrite A. destruct (k =? a)%nat; [|apply B; auto]. split; [|apply Y].
        destruct Y as (Y1 & _), Bx as (Bx1 & _). qclra.
      + intros k Hk. rewrite !A. replace (k =? a)%nat with false by (symmetry; apply Nat.eqb_neq; lia).
        destruct (S k =? a)%nat eqn:Ek.
        * apply Nat.eqb_eq in Ek. replace k with (a - 1)%nat by lia. apply Y.
        * apply Nat.eqb_neq in Ek. apply M. lia.
      + intros k Hk. rewrite A. replace (k =? a)%nat with false by (symmetry; apply Nat.eqb_neq; lia).
        apply O. lia.
    - apply Nat.ltb_ge in Ea. exists b0. split; auto. split; auto. split; auto. split.
      + intros k Hk. replace k with 0%nat by lia. rewrite (O 1%nat) by lia. apply B. lia.
      + intros k Hk. apply O. lia.
  Qed.

  (** ** C48: whatever the node counts, greedy produces a valid coefficient
      vector: entries in (0,1], non-decreasing, last entry one.  (The minimal
      coefficients come from greedy, so enforce is only ever called with
      non-decreasing minimal coefficients at most one.) *)
  Theorem greedy_valid fuel d b :
    (0 < d)%nat -> greedy c9 c001 up down busy fuel d = Some b ->
    length b = d /\ nondec b /\ (forall i, (i < d)%nat -> 0 < at_ b i /\ at_ b i <= 1) /\ at_ b (d - 1) = 1.
  Proof.
    intros Hd E. unfold greedy in E.
    assert (G : forall m a b0, (a + m <= d - 1)%nat -> gr d a b0 -> ofor (seq a m) (greedy_step c9 c001 up down busy fuel) b0 = Some b -> gr d (a + m) b).
    { induction m as [|m IH]; intros a b0 Ha G0 E0.
      - cbn in E0. injection E0 as <-. now rewrite Nat.add_0_r.
      - cbn [seq ofor] in E0. destruct (greedy_step c9 c001 up down busy fuel a b0) as [b1|] eqn:E1; [|discriminate].
        cbn [obind] in E0. replace (a + S m)%nat with (S a + m)%nat by lia. apply (IH (S a) b1); auto; [lia|].
        unfold greedy_step in E1. destruct G0 as (L & B & M & O).
        destruct (greedy_pre d a b0 ltac:(lia) (conj L (conj B (conj M O)))) as (b2 & S1 & G2).
        rewrite S1 in E1. cbn [obind] in E1.
        eapply shrink_spec; eauto. lia. }
    pose proof (gr_start d) as G0.
    specialize (G (d - 1)%nat 0%nat _ ltac:(lia) G0 E). destruct G as (L & B & M & O).
    split; auto. split; [|split; auto; apply O; lia].
    intros i Hi. rewrite L in Hi. destruct (Nat.eq_dec (S i) (d - 1)) as [Ei|Ei].
    - rewrite (O (S i)) by lia. apply B. lia.
    - apply M. lia.
  Qed.
End GreedyFacts.

(** the literals of the code *)
Definition std_greedy := greedy (q 9 10) (q 1 1000) (fun x => q 11 10 * x) (fun x => q 98 100 * x).

Lemma Qcpower_add x m n : Qcpower x (m + n) = Qcpower x m * Qcpower x n.
Proof. induction m as [|m IH]; cbn [Nat.add Qcpower]; [ring|]. rewrite IH. ring. Qed.

Lemma Qcpower_bound x n y : 0 <= x -> Qcpower x n <= y ->
  forall k, 0 <= Qcpower x (n * k) /\ Qcpower x (n * k) <= Qcpower y k.
Proof.
  intros Hx Hy.
  assert (N : forall m, 0 <= Qcpower x m).
  { induction m as [|m IH]; cbn [Qcpower]; [apply Qclt_le_weak; reflexivity|]. qcnra. }
  induction k as [|k (I1 & I2)].
  - rewrite Nat.mul_0_r. cbn [Qcpower]. split; [apply Qclt_le_weak; reflexivity|apply Qcle_refl].
  - split; [apply N|]. rewrite Nat.mul_succ_r, Nat.add_comm, Qcpower_add. cbn [Qcpower].
    pose proof (N n) as Nn. set (a := Qcpower x n) in *. set (b := Qcpower x (n * k)) in *.
    set (c := Qcpower y k) in *. clearbody a b c. clear N. 
    apply Qcle_trans with (a * c); qcnra.
Qed.

(** .98^5 <= 113/125, (113/125)^7 <= 1/2, (1/2)^10 <= 1/1000 *)
Lemma pow98 : 0 < Qcpower (q 98 100) 399 /\ Qcpower (q 98 100) 399 <= q 1 1000.
Proof.
  assert (Hp : forall m, 0 < Qcpower (q 98 100) m /\ Qcpower (q 98 100) m <= 1).
  { assert (A : 0 < q 98 100) by reflexivity. assert (B : q 98 100 < 1) by reflexivity.
    induction m as [|m (I1 & I2)]; cbn [Qcpower]; [split; [reflexivity|apply Qcle_refl]|]. split; qcnra. }
  split; [apply Hp|].
  assert (H1 : Qcpower (q 98 100) (5 * 7) <= q 1 2).
  { eapply Qcle_trans; [apply (Qcpower_bound (q 98 100) 5 (q 113 125))|].
    - apply Qclt_le_weak. reflexivity.
    - apply Qclt_le_weak. reflexivity.
    - apply Qclt_le_weak. reflexivity. }
  assert (H2 : Qcpower (q 98 100) (5 * 7 * 10) <= q 1 1000).
  { eapply Qcle_trans; [apply (Qcpower_bound (q 98 100) (5 * 7) (q 1 2))|].
    - apply Qclt_le_weak. reflexivity.
    - exact H1.
    - apply Qclt_le_weak. reflexivity. }
  assert (E : forall m, Qcpower (q 98 100) (5 * 7 * 10 + m) <= q 1 1000).
  { intros m. rewrite Qcpower_add. destruct (Hp (5 * 7 * 10)%nat) as (A1 & A2), (Hp m) as (B1 & B2).
    set (a := Qcpower (q 98 100) (5 * 7 * 10)) in *. set (b := Qcpower (q 98 100) m) in *. clearbody a b.
    eapply Qcle_trans; [|exact H2]. qcnra. }
  exact (E 49%nat).
Qed.

(** ** C48: ... and with exact products .98 x the loops end: 400 turns each are
    enough *)
Theorem greedy_terminates busy d : exists b, std_greedy busy 400 d = Some b.
Proof.
  unfold std_greedy, greedy.
  assert (D : forall x : Qc, 0 < x -> x <= 1 -> 0 < q 98 100 * x /\ q 98 100 * x < x).
  { intros x H _. assert (A : 0 < q 98 100) by reflexivity. assert (B : q 98 100 < 1) by reflexivity.
    split; qcnra. }
  assert (U : forall x : Qc, 0 < x -> x <= q 9 10 -> x <= q 11 10 * x /\ q 11 10 * x <= 1).
  { intros x H H1. assert (A : 1 < q 11 10) by reflexivity. assert (B : q 11 10 * q 9 10 < 1) by reflexivity.
    split; qcnra. }
  assert (SH : forall f first i b, (i < length b)%nat -> at_ b i * Qcpower (q 98 100) f <= q 1 1000 ->
    exists b', shrink (q 1 1000) (fun x => q 98 100 * x) busy (S f) first i b = Some b' /\ length b' = length b).
  { induction f as [|f IH]; intros first i b Hi Hx; cbn [shrink]; rewrite (nth_error_at b i Hi); cbn [obind].
    - cbn [Qcpower] in Hx. rewrite Qcmult_1_r in Hx. apply qltb_false in Hx. rewrite Hx, andb_false_r.
      exists b. auto.
    - destruct ((first || busy (2 * i + 1)%nat b) && qltb (q 1 1000) (at_ b i)); [|exists b; auto].
      rewrite vset_at by auto. cbn [obind].
      destruct (cap_below_spec i (upd b i (q 98 100 * at_ b i))) as (v & Ev & Lv & V1 & _).
      { rewrite upd_length. auto. }
      rewrite Ev. cbn [obind]. rewrite upd_length in Lv.
      destruct (IH false i v) as (b' & E' & L'); [lia| |exists b'; split; [exact E'|congruence]].
      rewrite V1 by lia. rewrite at_upd, Nat.eqb_refl by auto. cbn [Qcpower] in Hx.
      replace (q 98 100 * at_ b i * Qcpower (q 98 100) f) with (at_ b i * (q 98 100 * Qcpower (q 98 100) f)) by ring.
      exact Hx. }
  assert (P : 0 < Qcpower (q 98 100) 399 /\ Qcpower (q 98 100) 399 <= q 1 1000) by apply pow98.
  destruct P as (P0 & P).
  destruct (ofor_inv (fun a (b : list Qc) => gr d a b)
    (greedy_step (q 9 10) (q 1 1000) (fun x => q 11 10 * x) (fun x => q 98 100 * x) busy 400) (d - 1) 0 (repeat 1 d))
    as (b & E & _).
  - apply gr_start.
  - intros k b Hk G. unfold greedy_step.
    destruct (greedy_pre (q 9 10) (fun x => q 11 10 * x) U d k b ltac:(lia) G) as (b2 & E2 & G2).
    rewrite E2. cbn [obind].
    destruct (SH 399%nat true k b2) as (b3 & E3 & L3).
    { destruct G2 as (L2 & _). lia. }
    { destruct G2 as (_ & B2 & _). destruct (B2 k ltac:(lia)) as (B3 & B4).
      eapply Qcle_trans; [|exact P]. clear SH P. set (z := Qcpower _ _) in *. clearbody z. qcnra. }
    exists b3. split; [exact E3|]. eapply shrink_spec with (down := fun x => q 98 100 * x); eauto. lia.
  - exists b. exact E.
Qed.

(** greedy with a tree that is too wide until the first coefficient is below 1/2 *)
Example greedy_case :
  showv (std_greedy (fun j b => (j =? 3)%nat && qltb (q 97 100) (at_ b 1)) 10 4)
  = Some [(2401,2500); (2401,2500); (49,50); (1,1)]%Z.
Proof. vm_compute. reflexivity. Qed.

(** ** C48: the "parabola" in the greedy goal is an integer division that is
    always zero *)
Theorem goal_parabola_zero n j : (0 < j < n)%Z -> goal_parabola n j = 0%Z.
Proof.
  intros H. unfold goal_parabola. apply Z.quot_small.
  pose proof (Z.square_nonneg (n - 2 * j)) as S0.
  assert (A : (4 * j * (n - j) = n * n - (n - 2 * j) * (n - 2 * j))%Z) by ring.
  assert (B : (n * n * 1 < n * n * n)%Z) by (apply Zmult_lt_compat_l; [|lia]; apply Z.mul_pos_pos; lia).
  split; [|lia]. apply Z.mul_nonneg_nonneg; lia.
Qed.

(** C48: so the goal is the same at every level, not "a parabola, with maximum
    at n/2" *)
Theorem goal_parabola_refuted :
  exists n j k, (0 < j < k)%Z /\ (k < n)%Z /\ (4 * j * (n - j) < 4 * k * (n - k))%Z /\
    goal_parabola n j = goal_parabola n k.
Proof. exists 40%Z, 1%Z, 20%Z. repeat split; vm_compute; auto. Qed.

(** ** C48: minimal coefficients made by greedy are respected by enforce at
    every position the code uses *)
Corollary greedy_then_enforce busy fuel d mins b j :
  (0 < d)%nat -> std_greedy busy fuel d = Some mins ->
  (length b = d \/ (2 * d <= length b)%nat) -> (j < length b)%nat -> (length b = d \/ (j < 2 * d)%nat) ->
  exists b' st, std d mins b j = Some (b', st) /\ length b' = length b /\ valid_coeffs mins b'.
Proof.
  intros Hd E Hl Hj Hs. unfold std_greedy in E.
  eapply greedy_valid in E; [destruct E as (L & M & B & _)| | |exact Hd].
  - subst d. apply enforce_valid; auto.
    intros m Hm. apply (In_nth _ _ 0) in Hm. destruct Hm as (i & Hi & <-). apply B. auto.
  - intros x H _. assert (A : 0 < q 98 100) by reflexivity. assert (A' : q 98 100 < 1) by reflexivity.
    split; qcnra.
  - intros x H H1. assert (A : 1 < q 11 10) by reflexivity. assert (A' : q 11 10 * q 9 10 < 1) by reflexivity.
    split; qcnra.
Qed.

Print Assumptions enforce_valid.
Print Assumptions full_round_trip.
Print Assumptions greedy_terminates.
