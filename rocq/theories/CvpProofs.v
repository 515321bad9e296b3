(** Facts about closest_vector. *)
From Coq Require Import List ZArith QArith Qcanon Arith Bool Lia.
From Verif Require Import Util QcUtil GsoQ LatticeSpec LllSpec LllSpecFacts QGs EnumModel EnumPure EnumRefine EnumIter EnumTop EnumExact EnumTree EnumSpec EnumLink EnumNorm
  EvalModel EvalProofs EnumCall PropEnum EnumReset EnumResetProofs CvpModel.
Import ListNotations.
Local Open Scope Qc_scope.

(** ** the reset schedule *)
(** [m] is the first position of the largest of r 0, ..., r i *)
Definition first_max (r : nat -> Qc) (i m : nat) : Prop :=
  (m <= i)%nat /\ (forall j, (j <= i)%nat -> r j <= r m) /\ (forall j, (j < m)%nat -> r j < r m).

Lemma scan_fold (r : nat -> Qc) : forall prev v m, v = r m -> (forall j, (j < prev)%nat -> (j < m)%nat) ->
  (forall j, (prev <= j < m)%nat -> r j < r m) ->
  let m' := snd (fold_left (fun (a : Qc * nat) cur => if eleb (fst a) (r cur) then (r cur, cur) else a) (rev (seq 0 prev)) (v, m)) in
  (m' <= m)%nat /\ r m <= r m' /\ (forall j, (j < m')%nat -> r j < r m') /\ (forall j, (j < prev)%nat -> r j <= r m').
Proof.
  induction prev; intros v m Hv Hm Hl; cbn zeta.
  - cbn. repeat split; auto; try apply Qcle_refl; intros; try lia. apply Hl. lia.
  - rewrite seq_S, rev_app_distr. cbn [rev app Nat.add fold_left fst]. subst v. destruct (eleb (r m) (r prev)) eqn:E.
    + apply eleb_le in E. destruct (IHprev (r prev) prev eq_refl ltac:(auto) ltac:(lia)) as (A & B & C & D). cbn zeta in *.
      repeat split; auto.
      * specialize (Hm prev ltac:(lia)). lia.
      * eapply Qcle_trans; eauto.
      * intros j Hj. destruct (Nat.eq_dec j prev) as [->|]; [exact B|]. apply D. lia.
    + apply eleb_gt in E. destruct (IHprev (r m) m eq_refl) as (A & B & C & D); cbn zeta in *.
      * intros j Hj. apply Hm. lia.
      * intros j Hj. destruct (Nat.eq_dec j prev) as [->|]; auto. apply Hl. lia.
      * repeat split; auto. intros j Hj. destruct (Nat.eq_dec j prev) as [->|]; [|apply D; lia].
        eapply Qcle_trans; [apply Qclt_le_weak, E|exact B].
Qed.
(** first position of the maximum over 0..mi, when mi >= prev - 1 *)
Lemma max_scan_spec r mi prev : (prev <= S mi)%nat -> (mi <= prev)%nat ->
  let m := max_scan r mi prev in (m <= mi)%nat /\ (forall j, (j <= mi)%nat -> r j <= r m) /\ (forall j, (j < m)%nat -> r j < r m).
Proof.
  intros H1 H2. unfold max_scan. destruct (Nat.eq_dec prev (S mi)) as [->|N].
  - rewrite seq_S, rev_app_distr. cbn [rev app Nat.add fold_left fst].
    assert (E : eleb (r mi) (r mi) = true) by (apply eleb_le, Qcle_refl). rewrite E.
    destruct (scan_fold r mi (r mi) mi eq_refl ltac:(auto) ltac:(lia)) as (A & B & C & D). cbn zeta in *. repeat split; auto.
    intros j Hj. destruct (Nat.eq_dec j mi) as [->|]; auto. apply D. lia.
  - assert (prev = mi) by lia. subst prev.
    destruct (scan_fold r mi (r mi) mi eq_refl ltac:(auto) ltac:(lia)) as (A & B & C & D). cbn zeta in *. repeat split; auto.
    intros j Hj. destruct (Nat.eq_dec j mi) as [->|]; auto. apply D. lia.
Qed.

Lemma max_idx_loop_spec r : forall n prev mi out, (mi <= prev)%nat -> (prev <= S mi)%nat -> (S mi <= n)%nat ->
  (forall i, (i < prev)%nat -> out i = 0%Z) -> (mi = prev /\ out prev = 0%Z \/ out prev = Z.of_nat prev) ->
  let o := max_idx_loop n r prev mi out in
  (forall i, (prev < i)%nat -> o i = out i) /\ (o prev = Z.of_nat prev) /\
  (forall i, (i < prev)%nat -> exists m, o i = Z.of_nat m /\ first_max r i m).
Proof.
  induction n; intros prev mi out H1 H2 H3 H4 H5; [lia|]. cbn [max_idx_loop]. cbn zeta.
  destruct (Nat.eqb_spec mi 0) as [->|Hmi].
  - split; auto. split.
    + destruct H5 as [[<- ->]|]; auto.
    + intros i Hi. exists 0%nat. split; [now apply H4|]. assert (i = 0)%nat by lia. subst i. repeat split; auto; try lia.
      intros j Hj. assert (j = 0)%nat by lia. subst. apply Qcle_refl.
  - destruct (max_scan_spec r mi prev H2 H1) as (A & B' & C). cbn zeta in *. set (m := max_scan r mi prev) in *.
    set (out' := fun i => _).
    assert (FM : forall i, (m <= i)%nat -> (i < prev)%nat -> out' i = Z.of_nat m /\ first_max r i m).
    { intros i Hi1 Hi2. unfold out'. destruct (Nat.eqb_spec i prev); [lia|].
      destruct (Nat.leb_spec m i); [|lia]. destruct (Nat.ltb_spec i prev); [|lia]. cbn [andb]. split; auto.
      repeat split; auto. intros j Hj. apply B'. lia. }
    assert (OP : out' prev = Z.of_nat prev) by (unfold out'; now rewrite Nat.eqb_refl).
    assert (OG : forall i, (prev < i)%nat -> out' i = out i).
    { intros i Hi. unfold out'. destruct (Nat.eqb_spec i prev); [lia|]. destruct (Nat.ltb_spec i prev); [lia|]. now rewrite andb_false_r. }
    destruct (Nat.eqb_spec m 0) as [M0|M0].
    + split; auto. split; auto. intros i Hi. exists 0%nat. rewrite M0 in FM. apply FM; lia.
    + destruct (IHn m (m - 1)%nat out') as (I1 & I2 & I3); try lia.
      * intros i Hi. unfold out'. destruct (Nat.eqb_spec i prev); [lia|]. destruct (Nat.leb_spec m i); [lia|]. cbn [andb]. apply H4. lia.
      * right. destruct (Nat.eq_dec m prev) as [->|]; auto. apply FM; lia.
      * cbn zeta in *. split; [|split].
        -- intros i Hi. rewrite I1 by lia. auto.
        -- destruct (Nat.eq_dec m prev) as [E|]; [rewrite E in *; auto|]. rewrite I1 by lia. auto.
        -- intros i Hi. destruct (lt_eq_lt_dec i m) as [[L|L]|L].
           ++ now apply I3.
           ++ subst i. exists m. split; auto. apply FM; lia.
           ++ exists m. rewrite I1 by lia. apply FM; lia.
Qed.

(** C45: entry i (i < d-1) of max_indices is the first position of the largest squared Gram-Schmidt norm
    among the rows 0..i, and the last entry is d-1; in particular all entries are valid row indices. *)
Theorem max_idx_spec d r : (0 < d)%nat ->
  length (max_idx d r) = d /\ nth (d - 1) (max_idx d r) (-1)%Z = Z.of_nat (d - 1) /\
  (forall i, (i < d - 1)%nat -> exists m, nth i (max_idx d r) (-1)%Z = Z.of_nat m /\ first_max r i m).
Proof.
  intros Hd. unfold max_idx. split; [now rewrite map_length, seq_length|].
  assert (NT : forall i, (i < d)%nat -> nth i (map (max_idx_loop d r (d - 1) (d - 1) (fun _ => 0%Z)) (seq 0 d)) (-1)%Z = max_idx_loop d r (d - 1) (d - 1) (fun _ => 0%Z) i).
  { intros i Hi. rewrite (map_nth_lt _ _ _ 0%nat) by (rewrite seq_length; auto). rewrite seq_nth by auto. reflexivity. }
  destruct (max_idx_loop_spec r d (d - 1) (d - 1) (fun _ => 0%Z)) as (A & B & C); try lia; auto. cbn zeta in *.
  split; [rewrite NT by lia; exact B|]. intros i Hi. rewrite NT by lia. auto.
Qed.

(** ** runs without resets do not depend on the sub-enumeration *)
Section NoReset.
Context {EV : Type}.
Variable evalS : list Z -> Qc -> Qc -> EV -> EV * Qc.
Variable evalSub : nat -> list Z -> Qc -> EV -> EV.
Variable c : ecfg qe_ops.
Variables rst1 rst2 : list Z -> nat -> option (option (list Z * Qc)).
Hypothesis Hc : c_reset c = false.
Lemma rec_loop_ext (b1 b2 : est qe_ops EV -> option (est qe_ops EV)) kk : (forall s, b1 s = b2 s) -> forall n s,
  rec_loop qe_ops evalS c b1 kk n s = rec_loop qe_ops evalS c b2 kk n s.
Proof.
  intros Hb. induction n; intros s; cbn [rec_loop]; auto. rewrite Hb. destruct (b2 s); auto. destruct (negb _); auto.
Qed.
Lemma rec_irrel fuel : forall L s, enum_rec qe_ops evalS evalSub c rst1 fuel L s = enum_rec qe_ops evalS evalSub c rst2 fuel L s.
Proof.
  induction L; intros s; cbn [enum_rec]; auto. rewrite Hc. cbn [andb].
  destruct (negb _); auto. destruct L; apply rec_loop_ext; exact IHL.
Qed.
Lemma iter_irrel : forall fuel k s, enum_iter qe_ops evalS evalSub c rst1 fuel k s = enum_iter qe_ops evalS evalSub c rst2 fuel k s.
Proof.
  induction fuel; intros k s; cbn [enum_iter]; auto.
  assert (E : iter_step qe_ops evalS evalSub c rst1 k s = iter_step qe_ops evalS evalSub c rst2 k s) by (unfold iter_step; rewrite Hc; reflexivity).
  rewrite E. match goal with |- match ?t with _ => _ end = _ => destruct t as [[?|[? ?]]|] end; auto.
Qed.
End NoReset.
Lemma run_irrel {EV} evalS evalSub rst1 rst2 rec fuel (inp : einput qe_ops) (ev : EV) : i_maxidx inp = [] ->
  run_enum qe_ops evalS evalSub rst1 rec fuel inp ev = run_enum qe_ops evalS evalSub rst2 rec fuel inp ev.
Proof.
  intros H. unfold run_enum. destruct (prepared qe_ops inp) as [k0 q]. unfold enum_loop.
  assert (c_reset (cfg_of qe_ops inp q) = false) by (cbn; rewrite H; reflexivity).
  destruct (Nat.leb _ _); auto. destruct rec; [now apply rec_irrel|now apply iter_irrel].
Qed.

(** ** gscoords and babai *)
Section Gs.
Variables (c : nat) (B : list (list Z)) (bs : nat -> nat -> Qc) (mu : nat -> nat -> Qc).
Notation d := (length B).
Notation r := (fun i => norm2 c (bs i)).
Hypothesis G : gso_of c B d bs mu.
Hypothesis Hp : forall i, (i < d)%nat -> 0 < norm2 c (bs i).

Lemma gs_raw_ip v : forall n, (n <= d)%nat -> length (gs_raw c B mu v n) = n /\ forall i, (i < n)%nat -> nth i (gs_raw c B mu v n) 0 = ip c v (bs i).
Proof.
  induction n; intros Hn; cbn [gs_raw]; [split; [reflexivity|lia]|].
  destruct IHn as [L E]; [lia|]. split; [rewrite app_length, L; cbn; lia|].
  intros i Hi. destruct (Nat.eq_dec i n) as [->|N].
  - rewrite app_nth2, L, Nat.sub_diag by lia. cbn [nth].
    rewrite (qsum_ext n _ (fun j => mu n j * ip c v (bs j))) by (intros j Hj; now rewrite E).
    destruct G as [G1 _].
    assert (X : ip c v (qrow B n) = ip c v (bs n) + qsum n (fun j => mu n j * ip c v (bs j))).
    { unfold ip. transitivity (qsum c (fun k => v k * bs n k + qsum n (fun j => mu n j * (v k * bs j k)))).
      - apply qsum_ext. intros k Hk. rewrite (G1 n k) by lia.
        rewrite (qsum_ext n (fun j => mu n j * (v k * bs j k)) (fun j => v k * (mu n j * bs j k))) by (intros; ring). rewrite qsum_scal. ring.
      - rewrite qsum_plus. f_equal. rewrite qsum_swap. apply qsum_ext. intros j Hj. now rewrite qsum_scal. }
    rewrite X. ring.
  - rewrite app_nth1 by lia. apply E. lia.
Qed.
Lemma gscoords_eq v i : (i < d)%nat -> gscoords c B mu r v i = ip c v (bs i) / norm2 c (bs i).
Proof. intros Hi. unfold gscoords. now rewrite (proj2 (gs_raw_ip v d (le_n _))). Qed.

Lemma babai_go_spec : forall n tc acc, exists x, length x = n /\ babai_go mu n tc acc = x ++ acc /\
  (forall i, (i < n)%nat -> nth i x 0%Z = qround (tc i - qsum n (fun j => if Nat.ltb i j then Qcz (nth j x 0%Z) * mu j i else 0))).
Proof.
  induction n; intros tc acc; cbn [babai_go].
  - exists []. repeat split; auto. intros; lia.
  - destruct (IHn (fun j => tc j - mu n j * Qcz (qround (tc n))) (qround (tc n) :: acc)) as (x & L & E & F).
    exists (x ++ [qround (tc n)]). split; [rewrite app_length, L; cbn; lia|]. split; [now rewrite E, <- app_assoc|].
    intros i Hi. cbn [qsum].
    assert (NX : nth n (x ++ [qround (tc n)]) 0%Z = qround (tc n)) by (rewrite app_nth2, L, Nat.sub_diag by lia; reflexivity).
    rewrite NX.
    assert (QE : qsum n (fun j => if Nat.ltb i j then Qcz (nth j (x ++ [qround (tc n)]) 0%Z) * mu j i else 0) =
                 qsum n (fun j => if Nat.ltb i j then Qcz (nth j x 0%Z) * mu j i else 0)).
    { apply qsum_ext. intros j Hj. rewrite app_nth1 by lia. reflexivity. }
    rewrite QE. destruct (Nat.eq_dec i n) as [->|N].
    + rewrite NX, Nat.ltb_irrefl. f_equal. rewrite (qsum_0 n) by (intros j Hj; destruct (Nat.ltb_spec n j); [lia|reflexivity]). ring.
    + rewrite app_nth1 by lia. rewrite F by lia. destruct (Nat.ltb_spec i n); [|lia]. f_equal. ring.
Qed.
(** Babai's rounding: every Gram-Schmidt coordinate of the residual is at most 1/2 in absolute value *)
Lemma babai_spec tau : let t := gscoords c B mu r (qvec tau) in let x := babai c B mu r tau in
  length x = d /\ (forall i, (i < d)%nat -> nth i x 0%Z = qround (Qcz (nth i x 0%Z) - gcoord d mu t x i)) /\
  (forall i, (i < d)%nat -> Qcz 2 * gcoord d mu t x i <= 1 /\ - (1) <= Qcz 2 * gcoord d mu t x i).
Proof.
  cbn zeta. unfold babai. destruct (babai_go_spec d (gscoords c B mu r (qvec tau)) []) as (x & L & E & F).
  rewrite E, app_nil_r. split; auto.
  assert (K : forall i, (i < d)%nat -> Qcz (nth i x 0%Z) - gcoord d mu (gscoords c B mu r (qvec tau)) x i =
     gscoords c B mu r (qvec tau) i - qsum d (fun j => if Nat.ltb i j then Qcz (nth j x 0%Z) * mu j i else 0)).
  { intros i Hi. unfold gcoord. ring. }
  split.
  - intros i Hi. rewrite K by auto. auto.
  - intros i Hi. pose proof (qround_half (Qcz (nth i x 0%Z) - gcoord d mu (gscoords c B mu r (qvec tau)) x i)) as [A A'].
    rewrite K in A, A' by auto. rewrite <- F in A, A' by auto. rewrite <- K in A, A' by auto.
    revert A A'. generalize (gcoord d mu (gscoords c B mu r (qvec tau)) x i), (Qcz (nth i x 0%Z)). intros g z A A'.
    replace (z - (z - g)) with g in A by ring. replace (z - g - z) with (- g) in A' by ring. split; auto. change (Qcz 2) with (1+1) in *. qclra.
Qed.

Lemma sub_comb_nth tau x k : (k < c)%nat -> qvec (sub_comb c B tau x) k = qvec tau k - comb B x k.
Proof.
  intros Hk. unfold qvec, sub_comb. rewrite (map_nth_lt _ _ _ 0%nat) by (rewrite seq_length; auto). rewrite seq_nth by auto. cbn [Nat.add].
  rewrite Qcz_sub. f_equal. rewrite Qcz_sum. unfold comb, qrow. apply qsum_ext. intros i Hi. apply Qcz_mul.
Qed.
Lemma add_coord_nth x y i : (i < d)%nat -> nth i (add_coord B x y) 0%Z = (nth i x 0 + nth i y 0)%Z.
Proof. intros Hi. unfold add_coord. rewrite (map_nth_lt _ _ _ 0%nat) by (rewrite seq_length; auto). rewrite seq_nth by auto. reflexivity. Qed.
Lemma add_coord_len x y : length (add_coord B x y) = d.
Proof. unfold add_coord. now rewrite map_length, seq_length. Qed.
Lemma comb_add x y k : comb B (add_coord B x y) k = comb B x k + comb B y k.
Proof. unfold comb. rewrite <- qsum_plus. apply qsum_ext. intros i Hi. rewrite add_coord_nth, Qcz_add by auto. ring. Qed.
Lemma dist_shift tau x y : dist2 c B (qvec (sub_comb c B tau x)) y = dist2 c B (qvec tau) (add_coord B x y).
Proof.
  unfold dist2, norm2, ip. apply qsum_ext. intros k Hk. rewrite sub_comb_nth, comb_add by auto. ring.
Qed.
Lemma dist_ext tau x y : (forall i, (i < d)%nat -> nth i x 0%Z = nth i y 0%Z) -> dist2 c B tau x = dist2 c B tau y.
Proof.
  intros H. unfold dist2, norm2, ip. apply qsum_ext. intros k Hk.
  assert (E : comb B x k = comb B y k) by (unfold comb; apply qsum_ext; intros i Hi; now rewrite H). now rewrite E.
Qed.
Lemma babai_loop_inv tau0 : forall f tau sol tau' sol', babai_loop c B mu r f tau sol = Some (tau', sol') ->
  (forall y, dist2 c B (qvec tau) y = dist2 c B (qvec tau0) (add_coord B sol y)) ->
  (forall y, dist2 c B (qvec tau') y = dist2 c B (qvec tau0) (add_coord B sol' y)).
Proof.
  induction f; intros tau sol tau' sol' H I; [discriminate|]. cbn [babai_loop] in H.
  destruct (small _); [injection H as <- <-; exact I|]. eapply IHf; [exact H|]. intros y. rewrite dist_shift, I. apply dist_ext.
  intros i Hi. rewrite !add_coord_nth by auto. lia.
Qed.
(** subtracting a lattice vector shifts the Gram-Schmidt coordinates *)
Lemma gscoords_sub tau x i : (i < d)%nat -> gscoords c B mu r (qvec (sub_comb c B tau x)) i = - gcoord d mu (gscoords c B mu r (qvec tau)) x i.
Proof.
  intros Hi. rewrite gscoords_eq by auto. unfold gcoord. rewrite gscoords_eq by auto.
  assert (E : ip c (qvec (sub_comb c B tau x)) (bs i) = ip c (qvec tau) (bs i) - ip c (comb B x) (bs i)).
  { unfold ip. rewrite <- qsum_minus. apply qsum_ext. intros k Hk. rewrite sub_comb_nth by auto. ring. }
  rewrite E.
  assert (F : ip c (comb B x) (bs i) = (Qcz (nth i x 0%Z) + qsum d (fun j => if Nat.ltb i j then Qcz (nth j x 0%Z) * mu j i else 0)) * norm2 c (bs i)).
  { transitivity (ip c (fun k => qsum d (fun l => gcoord d mu no_target x l * bs l k)) (bs i)).
    - unfold ip. apply qsum_ext. intros k Hk. now rewrite (comb_gso c B bs mu G).
    - unfold ip. transitivity (qsum c (fun k => qsum d (fun l => gcoord d mu no_target x l * (bs l k * bs i k)))).
      + apply qsum_ext. intros k Hk. rewrite <- qsum_scal_r. apply qsum_ext. intros; ring.
      + rewrite qsum_swap. rewrite (qsum_single d i).
        * rewrite qsum_scal. unfold gcoord, no_target, norm2, ip. ring.
        * auto.
        * intros l Hl Hne. rewrite qsum_scal. destruct G as [_ G2].
          assert (Z : qsum c (fun k => bs l k * bs i k) = 0).
          { destruct (lt_eq_lt_dec l i) as [[C|C]|C]; [|lia|].
            - transitivity (ip c (bs i) (bs l)); [unfold ip; apply qsum_ext; intros; ring|]. now apply G2.
            - now apply (G2 l i). }
          rewrite Z. ring. }
  rewrite F. pose proof (Hp i Hi) as P. field. intros Z. rewrite Z in P. exact (Qclt_not_eq _ _ P eq_refl).
Qed.
Lemma qround_small q : Qcz 2 * q < 1 -> - (1) < Qcz 2 * q -> qround q = 0%Z.
Proof.
  intros H1 H2. destruct (qround_half q) as [A A'].
  assert (L : Qcz (qround q) < Qcz 1) by (revert A H1; generalize (Qcz (qround q)); change (Qcz 2) with (1+1); change (Qcz 1) with 1%Qc; intros; qclra).
  assert (L' : Qcz (-1) < Qcz (qround q)) by (revert A' H2; generalize (Qcz (qround q)); change (Qcz 2) with (1+1); change (Qcz (-1)) with (-(1))%Qc; intros; qclra).
  pose proof (proj1 (Qcz_lt _ _) L). pose proof (proj1 (Qcz_lt _ _) L'). lia.
Qed.
(** without exact ties the loop ends after at most two passes *)
Lemma two_passes tau sol : (forall i, (i < d)%nat -> let g := gcoord d mu (gscoords c B mu r (qvec tau)) (babai c B mu r tau) i in Qcz 2 * g <> 1 /\ Qcz 2 * g <> - (1)) ->
  exists res, babai_loop c B mu r 2 tau sol = Some res.
Proof.
  intros H. cbn [babai_loop]. destruct (small (babai c B mu r tau)) eqn:S1; [eexists; reflexivity|].
  destruct (babai_spec tau) as (L & _ & R). cbn zeta in *. set (x := babai c B mu r tau) in *. set (tau1 := sub_comb c B tau x).
  assert (Z : forall i, (i < d)%nat -> Qcz 2 * gscoords c B mu r (qvec tau1) i < 1 /\ - (1) < Qcz 2 * gscoords c B mu r (qvec tau1) i).
  { intros i Hi. unfold tau1. rewrite gscoords_sub by auto. destruct (R i Hi) as [R1 R2]. destruct (H i Hi) as [N1 N2].
    revert R1 R2 N1 N2. generalize (gcoord d mu (gscoords c B mu r (qvec tau)) x i). intros g R1 R2 N1 N2.
    replace (Qcz 2 * - g) with (- (Qcz 2 * g)) by ring.
    assert (Qcz 2 * g < 1). { destruct (Qclt_le_dec (Qcz 2 * g) 1); auto. exfalso. apply N1. now apply Qcle_antisym. }
    assert (- (1) < Qcz 2 * g). { destruct (Qclt_le_dec (- (1)) (Qcz 2 * g)); auto. exfalso. apply N2. now apply Qcle_antisym. }
    revert H0 H1. generalize (Qcz 2 * g). intros. split; qclra. }
  enough (S2 : small (babai c B mu r tau1) = true) by (rewrite S2; eexists; reflexivity).
  unfold babai. destruct (babai_go_spec d (gscoords c B mu r (qvec tau1)) []) as (y & L2 & E2 & F2). rewrite E2, app_nil_r.
  assert (Y0 : forall n i, (d <= i + n)%nat -> (i < d)%nat -> nth i y 0%Z = 0%Z).
  { induction n; intros i Hn Hi; [lia|]. rewrite F2 by auto. destruct (Z i Hi).
    rewrite qsum_0; [replace (gscoords c B mu r (qvec tau1) i - 0) with (gscoords c B mu r (qvec tau1) i) by ring; now apply qround_small|].
    intros j Hj. destruct (Nat.ltb_spec i j); auto. rewrite IHn by lia. change (Qcz 0) with 0%Qc. ring. }
  unfold small. apply forallb_forall. intros z Hz. apply In_nth with (d := 0%Z) in Hz as (i & Hi & <-). rewrite (Y0 d i) by lia. reflexivity.
Qed.
End Gs.
