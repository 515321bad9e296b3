(** C90: the number of threads. *)
From Coq Require Import List ZArith Lia Bool Arith Permutation.
From Verif Require Import ThreadsModel.
Import ListNotations.
Local Open Scope nat_scope.

(** ** Specification *)
(** the numbers of threads asked for that are possible *)
Definition granted (hw th r : Z) : Prop :=
  ((1 <= th <= hw)%Z -> r = th) /\ ((hw < th)%Z \/ th = (-1)%Z -> r = Z.max 1 hw) /\ ((th < 1)%Z -> th <> (-1)%Z -> r = 1%Z).
(** no worker has been told to stop, workers have different numbers, below the next one *)
Definition sound (p : pool) : Prop :=
  Forall (fun w => snd w = false) (workers p) /\ NoDup (map fst (workers p)) /\ Forall (fun w => fst w < next p) (workers p).
(** the numbers of the workers *)
Definition ids (p : pool) : list nat := map fst (workers p).
(** what a worker finds: it is told to stop, woken up and waited for, in this order *)
Definition stopped_properly (ev : list event) (w : nat) : Prop :=
  exists a b c d, ev = a ++ SetStop w :: b ++ NotifyAll :: c ++ Join w :: d.

Lemma start_spec k : forall p, exists l, l = seq (next p) k /\
  start k p = (mkpool (workers p ++ map (fun i => (i, false)) l) (next p + k), map Start l).
Proof.
  induction k as [|k IH]; intros p.
  - exists []. split; auto. cbn. rewrite app_nil_r. destruct p; cbn. now rewrite Nat.add_0_r.
  - eexists. split; [reflexivity|]. cbn [start]. destruct (IH (mkpool (workers p ++ [(next p, false)]) (S (next p)))) as (l & -> & ->).
    cbn [workers next seq map]. rewrite <- app_assoc. cbn [app]. replace (next p + S k) with (S (next p + k)) by lia. reflexivity.
Qed.

Lemma firstn_flag n ws : n <= length ws -> firstn n (flag_from n ws) = firstn n ws.
Proof. intros H. unfold flag_from. rewrite firstn_app, firstn_firstn, Nat.min_id, firstn_length, Nat.min_l by auto. rewrite Nat.sub_diag. cbn. apply app_nil_r. Qed.
Lemma skipn_flag n ws : n <= length ws -> map fst (skipn n (flag_from n ws)) = skipn n (map fst ws).
Proof.
  intros H. unfold flag_from. rewrite skipn_app, firstn_length, Nat.min_l, Nat.sub_diag by auto.
  rewrite skipn_all2 by (rewrite firstn_length; lia). cbn [app skipn]. rewrite map_map. cbn [fst]. rewrite skipn_map. reflexivity.
Qed.

Lemma NoDup_app_inv {A} (a b : list A) : NoDup (a ++ b) -> NoDup a /\ forall x, In x a -> ~ In x b.
Proof.
  induction a as [|x a IH]; cbn; intros H; [split; [constructor|intros ? []]|]. inversion H; subst. destruct (IH H3) as [I1 I2].
  split; [constructor; auto; intros C; apply H2, in_or_app; auto|]. intros y [<-|Hy]; auto. intros C. apply H2, in_or_app. auto.
Qed.
Lemma NoDup_app_intro {A} (a b : list A) : NoDup a -> NoDup b -> (forall x, In x b -> ~ In x a) -> NoDup (a ++ b).
Proof.
  induction a as [|x a IH]; cbn; intros Ha Hb H; auto. inversion Ha; subst. constructor.
  - intros C. apply in_app_or in C. destruct C as [C|C]; auto. apply (H x C). now left.
  - apply IH; auto. intros y Hy C. apply (H y Hy). now right.
Qed.
Lemma in_map_event (f : nat -> event) l e : In e (map f l) -> exists w, e = f w /\ In w l.
Proof. intros H. apply in_map_iff in H. destruct H as (w & <- & H). eauto. Qed.

(** * After resize there are n workers: the first ones stay the same, the others were told to stop,
    woken up and waited for, or new ones were started after all tasks were done *)
Theorem resize_right : forall n p, sound p ->
  let '(p', ev) := resize n p in
  sound p' /\ size p' = n /\ firstn (Nat.min n (size p)) (ids p') = firstn (Nat.min n (size p)) (ids p) /\
  (forall w, In w (ids p) -> ~ In w (ids p') -> stopped_properly ev w) /\
  (forall w, In (SetStop w) ev \/ In (Join w) ev -> In w (ids p) /\ ~ In w (ids p')) /\
  (forall w, In (Start w) ev <-> In w (ids p') /\ ~ In w (ids p)) /\
  (size p < n -> hd_error ev = Some WaitWork) /\ (size p = n -> p' = p /\ ev = []).
Proof.
  intros n p S. pose proof S as (S1 & S2 & S3). unfold resize, ids, size. destruct (Nat.ltb_spec n (length (workers p))) as [L|L].
  - rewrite firstn_flag, skipn_flag by lia. unfold sound. cbn [workers next].
    assert (SP : map fst (workers p) = firstn n (map fst (workers p)) ++ skipn n (map fst (workers p))) by (symmetry; apply firstn_skipn).
    pose proof S2 as S2'. rewrite SP in S2'. apply NoDup_app_inv in S2'. destruct S2' as [N1 ND].
    assert (FN : forall (Q : worker -> Prop), Forall Q (workers p) -> Forall Q (firstn n (workers p))).
    { intros Q H. rewrite <- (firstn_skipn n (workers p)), Forall_app in H. apply H. }
    rewrite <- !firstn_map. rewrite firstn_length, !Nat.min_l by lia. rewrite firstn_firstn, Nat.min_id.
    set (kept := firstn n (map fst (workers p))) in *. set (gone := skipn n (map fst (workers p))) in *.
    split; [auto|]. split; [auto|]. split; [auto|]. split; [|split; [|split; [|split]]].
    + intros w Hi Hn. rewrite SP in Hi. apply in_app_or in Hi. destruct Hi as [Hi|Hi]; [contradiction|].
      apply in_split in Hi. destruct Hi as (l1 & l2 & ->). exists (map SetStop l1), (map SetStop l2), (map Join l1), (map Join l2).
      rewrite !map_app. cbn [map]. rewrite <- !app_assoc. reflexivity.
    + intros w Hw. assert (In w gone) as Hg.
      { destruct Hw as [Hw|Hw]; apply in_app_or in Hw; destruct Hw as [Hw|[Hw|Hw]]; try discriminate Hw;
          apply in_map_event in Hw; destruct Hw as (x & E & Hx); congruence. }
      split; [rewrite SP; apply in_or_app; auto|]. intros Hk. exact (ND w Hk Hg).
    + intros w. split.
      * intros Hw. exfalso. apply in_app_or in Hw. destruct Hw as [Hw|[Hw|Hw]]; try discriminate Hw; apply in_map_event in Hw; destruct Hw as (x & E & _); discriminate E.
      * intros [H1 H2]. exfalso. apply H2. rewrite SP. apply in_or_app. auto.
    + lia.
    + lia.
  - destruct (Nat.ltb_spec (length (workers p)) n) as [G|G].
    + destruct (start_spec (n - length (workers p)) p) as (l & El & ->). unfold sound. cbn [workers next]. rewrite map_app, map_map. cbn [fst]. rewrite map_id.
      assert (Ll : length l = n - length (workers p)) by (rewrite El; apply seq_length).
      assert (NL : forall w, In w l -> ~ In w (map fst (workers p))).
      { intros w Hw Hi. rewrite El in Hw. apply in_seq in Hw. apply in_map_iff in Hi. destruct Hi as (x & <- & Hx).
        rewrite Forall_forall in S3. specialize (S3 _ Hx). lia. }
      split; [split; [|split]|].
      * apply Forall_app. split; auto. apply Forall_forall. intros x Hx. apply in_map_iff in Hx. now destruct Hx as (i & <- & _).
      * apply NoDup_app_intro; auto. rewrite El. apply seq_NoDup.
      * apply Forall_app. split; [apply Forall_forall; intros x Hx; rewrite Forall_forall in S3; specialize (S3 _ Hx); lia|].
        apply Forall_forall. intros x Hx. apply in_map_iff in Hx. destruct Hx as (i & <- & Hi). rewrite El in Hi. apply in_seq in Hi. cbn. lia.
      * rewrite app_length, map_length, Ll. split; [lia|]. rewrite Nat.min_r by lia.
        split; [rewrite firstn_app, map_length, Nat.sub_diag; cbn; apply app_nil_r|].
        split; [intros w H1 H2; exfalso; apply H2, in_or_app; auto|]. split; [|split; [|split; [reflexivity|lia]]].
        -- intros w [[Hw|Hw]|[Hw|Hw]]; try discriminate Hw; apply in_map_event in Hw; destruct Hw as (x & E & _); discriminate E.
        -- intros w. split.
           ++ intros [Hw|Hw]; [discriminate Hw|]. apply in_map_event in Hw. destruct Hw as (x & E & Hx). injection E as <-. split; [apply in_or_app; auto|auto].
           ++ intros [H1 H2]. right. apply in_map. apply in_app_or in H1. tauto.
    + split; auto. split; [lia|]. split; auto. split; [intros w H1 H2; contradiction|].
      split; [intros w [[]|[]]|]. split; [|split; [lia|auto]]. intros w. split; [intros []|intros [H1 H2]; contradiction].
Qed.

(** * set_threads: the number granted, which get_threads then returns *)
Theorem set_threads_right : forall hw th p, (0 <= hw < 2 ^ 31)%Z -> sound p ->
  let '(r, p', ev) := set_threads hw th p in
  granted hw th r /\ get_threads p' = r /\ sound p' /\ (Z.of_nat (size p') = r - 1)%Z /\ (1 <= r)%Z.
Proof.
  intros hw th p Hhw S. unfold set_threads. cbv zeta.
  set (t := if (hw <? th)%Z || (th =? -1)%Z then hw else th). set (t1 := if (t <? 1)%Z then 1%Z else t).
  pose proof (resize_right (Z.to_nat (t1 - 1)) p S) as R. destruct (resize (Z.to_nat (t1 - 1)) p) as [p' ev].
  destruct R as (R1 & R2 & _). unfold get_threads. rewrite R2.
  assert (T : t1 = Z.max 1 t) by (unfold t1; destruct (Z.ltb_spec t 1); lia).
  assert (G : (Z.of_nat (Z.to_nat (t1 - 1)) + 1 = t1)%Z) by lia. rewrite G. split; [|split; [auto|split; [auto|split; lia]]].
  unfold granted, t in *. destruct (Z.ltb_spec hw th), (Z.eqb_spec th (-1)); cbn [orb] in *; rewrite T; repeat split; intros; lia.
Qed.

(** * Only the last call counts *)
Theorem set_threads_last : forall hw a b p q, (0 <= hw < 2 ^ 31)%Z -> sound p -> sound q ->
  fst (fst (set_threads hw b (snd (fst (set_threads hw a p))))) = fst (fst (set_threads hw b q)).
Proof.
  intros hw a b p q Hhw Sp Sq. pose proof (set_threads_right hw a p Hhw Sp) as A. destruct (set_threads hw a p) as [[r p'] ev].
  destruct A as (_ & _ & Sp' & _). cbn [fst snd].
  assert (X : forall p, sound p -> fst (fst (set_threads hw b p)) = Z.max 1 (if (hw <? b)%Z || (b =? -1)%Z then hw else b)).
  { intros p0 S0. unfold set_threads. cbv zeta. set (t := if (hw <? b)%Z || (b =? -1)%Z then hw else b).
    set (t1 := if (t <? 1)%Z then 1%Z else t). pose proof (resize_right (Z.to_nat (t1 - 1)) p0 S0) as R.
    destruct (resize (Z.to_nat (t1 - 1)) p0) as [p1 e1]. destruct R as (_ & R2 & _). cbn [fst]. unfold get_threads. rewrite R2.
    unfold t1. destruct (Z.ltb_spec t 1); lia. }
  rewrite (X p' Sp'), (X q Sq). reflexivity.
Qed.

(** * "as many threads as asked for, if it is a positive number" is false: never more than the cores,
    and only one thread where the number of cores is not known *)
Theorem set_threads_cores_refuted : exists th p, (1 < th)%Z /\ sound p /\ fst (fst (set_threads 0 th p)) = 1%Z /\ fst (fst (set_threads 4 8 p)) = 4%Z.
Proof. exists 8%Z, (mkpool [] 0). split; [lia|]. split; [split; [constructor|split; constructor]|]. split; reflexivity. Qed.

(** * run: the job is run by t threads, each number below t is used once, and by the caller the last *)
Theorem run_right : forall p threads,
  let t := run_threads p threads in
  (1 <= t <= Z.of_nat (size p) + 1)%Z /\ ((1 <= threads <= Z.of_nat (size p) + 1)%Z -> t = threads) /\
  ((threads < 1)%Z \/ (Z.of_nat (size p) + 1 < threads)%Z -> t = (Z.of_nat (size p) + 1)%Z) /\
  Z.of_nat (run0 p threads) = (t - 1)%Z /\
  Permutation (snd (run1 p threads) :: fst (run1 p threads)) (map Z.of_nat (seq 0 (Z.to_nat t))) /\
  Permutation (snd (run2 p threads) :: fst (run2 p threads)) (map (fun i => (Z.of_nat i, t)) (seq 0 (Z.to_nat t))) /\
  snd (run1 p threads) = (t - 1)%Z.
Proof.
  intros p threads t. unfold run0, run1, run2. cbv zeta. fold t.
  assert (B : (1 <= t <= Z.of_nat (size p) + 1)%Z /\ ((1 <= threads <= Z.of_nat (size p) + 1)%Z -> t = threads) /\
    ((threads < 1)%Z \/ (Z.of_nat (size p) + 1 < threads)%Z -> t = (Z.of_nat (size p) + 1)%Z)).
  { unfold t, run_threads. destruct (Z.ltb_spec threads 1), (Z.ltb_spec (Z.of_nat (size p) + 1) threads); cbn [orb]; repeat split; intros; lia. }
  destruct B as (B1 & B2 & B3). split; auto. split; auto. split; auto. split; [lia|]. cbn [fst snd].
  replace (Z.to_nat t) with (S (Z.to_nat (t - 1))) by lia. rewrite !seq_S, !map_app. cbn [map].
  replace (Z.of_nat (0 + Z.to_nat (t - 1))) with (t - 1)%Z by lia.
  split; [apply Permutation_cons_append|]. split; [apply Permutation_cons_append|auto].
Qed.

(** instances *)
Example threads_ex : let p := mkpool [(0, false); (1, false); (2, false)] 3 in
  sound p /\ set_threads 8 2 p = (2%Z, mkpool [(0, false)] 3, [SetStop 1; SetStop 2; NotifyAll; Join 1; Join 2]) /\
  set_threads 8 (-1) p = (8%Z, mkpool [(0, false); (1, false); (2, false); (3, false); (4, false); (5, false); (6, false)] 7,
    [WaitWork; Start 3; Start 4; Start 5; Start 6]) /\
  set_threads 8 (-7) p = (1%Z, mkpool [] 3, [SetStop 0; SetStop 1; SetStop 2; NotifyAll; Join 0; Join 1; Join 2]) /\
  run2 p 3 = ([(0, 3); (1, 3)], (2, 3))%Z /\ run1 p 0 = ([0; 1; 2], 3)%Z /\ run0 p 100 = 3.
Proof.
  cbv zeta. split; [|repeat split]. split; [repeat constructor|]. split; [|repeat constructor].
  cbn. repeat constructor; cbn; intuition discriminate.
Qed.

Print Assumptions resize_right.
Print Assumptions set_threads_right.
Print Assumptions set_threads_last.
Print Assumptions set_threads_cores_refuted.
Print Assumptions run_right.
