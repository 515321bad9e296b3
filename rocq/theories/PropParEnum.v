(** C26 (every subtree explored exactly once) and C27 (the shared radius) of the parallel
    enumeration, for the transition system of ParEnumModel.v: every number of threads, every
    schedule. *)
From Coq Require Import List ZArith Arith Bool Lia Permutation.
From Verif Require Import Util EvalModel EvalProofs PropEval ParEnumModel PropPool ParEnumProofs ParEnumFresh.
Import ListNotations.

(** ** C26, part 1: the batches contain every start node once *)
Section Batches.
Context {I : Type} (expand : I -> list I) (buf frac : nat).

Lemma fill_spec s0 : forall s1 r s, fill expand buf s0 s1 = (r, s) ->
  exists u, s0 = u ++ r /\ s = s1 ++ flat_map expand u /\ (s0 <> [] -> length s1 < buf -> u <> []).
Proof.
  induction s0 as [|x t IH]; intros s1 r s H; cbn [fill] in H.
  - injection H as <- <-. exists []. cbn. rewrite app_nil_r. repeat split; auto.
  - destruct (Nat.ltb_spec (length s1) buf) as [L|L].
    + destruct (IH _ _ _ H) as (u & E1 & E2 & _). exists (x :: u). cbn. rewrite E1, E2, <- app_assoc. repeat split; auto. discriminate.
    + injection H as <- <-. exists []. cbn. rewrite app_nil_r. repeat split; auto. intros _ H'. lia.
Qed.

(** As the library calls it (activeswirly = false): the concatenation of the batches is exactly the
    list of all nodes below the elements of swirlys[0], in order, whatever the buffer size. *)
Theorem batches_all reorder fuel : forall s0 bs,
  batches expand reorder false buf frac fuel s0 [] = Some bs -> concat bs = flat_map expand s0.
Proof.
  induction fuel as [|fuel IH]; intros s0 bs H.
  - destruct s0; cbn in H; [|discriminate]. injection H as <-. reflexivity.
  - destruct s0 as [|x t]; [cbn in H; injection H as <-; reflexivity|].
    cbn [batches] in H. destruct (fill expand buf (x :: t) []) as [r s] eqn:E.
    destruct (fill_spec _ _ _ _ E) as (u & E1 & E2 & _). cbn [app] in E2. subst s.
    rewrite skipn_all, firstn_all in H.
    destruct (batches expand reorder false buf frac fuel r []) as [bs'|] eqn:EB; [|discriminate].
    injection H as <-. cbn [concat]. rewrite (IH _ _ EB), E1, flat_map_app. reflexivity.
Qed.

(** The loop ends: one iteration per element of swirlys[0] is enough (the buffer is not empty). *)
Theorem batches_end reorder fuel : forall s0, 1 <= buf -> length s0 <= fuel ->
  exists bs, batches expand reorder false buf frac fuel s0 [] = Some bs.
Proof.
  induction fuel as [|fuel IH]; intros s0 Hb Hf.
  - destruct s0; [eexists; reflexivity|cbn in Hf; lia].
  - destruct s0 as [|x t]; [eexists; reflexivity|].
    cbn [batches]. destruct (fill expand buf (x :: t) []) as [r s] eqn:E.
    destruct (fill_spec _ _ _ _ E) as (u & E1 & E2 & E3). rewrite skipn_all, firstn_all.
    destruct (IH r) as (bs & EB); [exact Hb| |].
    { destruct u as [|z u]; [exfalso; apply E3; [discriminate|cbn; lia|reflexivity]|].
      apply (f_equal (@length I)) in E1. rewrite app_length in E1. cbn in E1, Hf. lia. }
    rewrite EB. eexists; reflexivity.
Qed.
End Batches.

Example batches_case :
  batches (fun n => [n; n + 10; n + 20]) (fun l => l) false 4 2 5 [1; 2; 3] [] =
    Some [[1; 11; 21; 2; 12; 22]; [3; 13; 23]].
Proof. reflexivity. Qed.

(** With activeswirly = true (unused by the library, which sets it to false) the loop 426 ends as
    soon as swirlys[0] is exhausted although swirlys[1] still holds the nodes beyond the first 64:
    with the library's buffer sizes the start nodes 64..99 of this tree are never explored. *)
Theorem batches_active_refuted :
  exists bs, batches (fun n => map (fun i => n + i) (seq 0 100)) (fun l => l) true 1024 64 1 [0] [] = Some bs /\
             ~ In 64 (concat bs) /\ In 64 (flat_map (fun n => map (fun i => n + i) (seq 0 100)) [0]).
Proof.
  eexists. split; [vm_compute; reflexivity|]. split.
  - vm_compute. intuition discriminate.
  - vm_compute. tauto.
Qed.

(** ** C26, part 2: the threads *)
Definition all_done {f} (y : sys f) : Prop := forall t, In t (ths f y) -> t_pc t = TDone.

Lemma done_sum {f} (y : sys f) (g : thr -> nat) : all_done y -> (forall t, t_pc t = TDone -> g t = 0) -> lsum g (ths f y) = 0.
Proof.
  unfold all_done. intros Hd Hg. induction (ths f y) as [|t l IH]; cbn; [reflexivity|].
  rewrite Hg by (apply Hd; left; reflexivity). rewrite IH; [reflexivity|]. intros u Hu. apply Hd. right. exact Hu.
Qed.

Lemma done_next {f strat N nsig n A0 b m} (y : sys f) : 1 <= n -> yreach f strat N (par_init f nsig n A0 b m) y -> all_done y ->
  length (gitems f (sh f y)) <= gnext f (sh f y).
Proof.
  intros Hn R Hd. pose proof (Inv1_reach f strat N nsig n A0 b m y Hn R) as I.
  pose proof (reach_length f strat N _ _ R) as L. cbn in L. rewrite repeat_length in L.
  destruct (ths f y) as [|t l] eqn:E; [cbn in L; lia|].
  apply (V_out f y I t); [rewrite E; left; reflexivity|]. unfold left_loop. rewrite (Hd t); [reflexivity|]. rewrite E. left. reflexivity.
Qed.

(** Any strategy, any number of threads, any schedule: when the threads have finished, the items of
    the batch have been finished once each, and at no time is an item taken by two threads. *)
Theorem par_items_once f strat N nsig n A0 b m y :
  1 <= n -> yreach f strat N (par_init f nsig n A0 b m) y ->
  (forall i, cnt i (gfin f (sh f y)) + lsum (hand i) (ths f y) <= 1) /\
  (all_done y -> Permutation (gfin f (sh f y)) (seq 0 (length (gitems f (sh f y))))).
Proof.
  intros Hn R. pose proof (Inv1_reach f strat N nsig n A0 b m y Hn R) as I. split.
  - intro i. rewrite <- (V_idx f y I i). unfold cnt. apply (NoDup_count_occ Nat.eq_dec). apply seq_NoDup.
  - intro Hd. apply (Permutation_count_occ Nat.eq_dec). intro i.
    pose proof (V_idx f y I i) as E. pose proof (done_next y Hn R Hd) as L.
    rewrite Nat.min_r in E by exact L. rewrite (done_sum y (hand i) Hd) in E.
    2:{ intros t Et. unfold hand. rewrite Et. reflexivity. }
    unfold cnt in E. lia.
Qed.

(** Every leaf of the batches handed out is either passed to process_sol or pruned, exactly once,
    when the threads have finished. *)
Theorem par_leaves_once f strat N nsig n A0 b m y :
  1 <= n -> yreach f strat N (par_init f nsig n A0 b m) y -> all_done y ->
  Permutation (past f y) (glog f (sh f y) ++ gskip f (sh f y)).
Proof.
  intros Hn R Hd. pose proof (Inv1_reach f strat N nsig n A0 b m y Hn R) as I.
  apply (Permutation_count_occ leaf_eq_dec). intro l.
  pose proof (V_leaf f y I l) as E. pose proof (done_next y Hn R Hd) as L.
  rewrite skipn_all2 in E by exact L. rewrite (done_sum y (ltodo l) Hd) in E.
  2:{ intros t Et. unfold ltodo, todo. rewrite Et. reflexivity. }
  cbn [concat] in E. rewrite lc_nil in E. fold (lc l (past f y)). fold (lc l (glog f (sh f y) ++ gskip f (sh f y))).
  rewrite lc_app. lia.
Qed.

Lemma past_all f strat N nsig n A0 b m y : yreach f strat N (par_init f nsig n A0 b m) y ->
  past f y ++ concat (map (@concat leaf) (more f y)) = concat b ++ concat (map (@concat leaf) m).
Proof.
  induction 1 as [|y y' R IH St]; [reflexivity|].
  destruct St as [y i t s' t' Ht St|y b' m' Hd Hm]; cbn [past more]; [exact IH|].
  rewrite <- IH, Hm. cbn [map concat]. rewrite app_assoc. reflexivity.
Qed.

(** ** C26, part 3: the result does not depend on threads and schedule *)

(** The whole search is over. *)
Definition finished {f} (y : sys f) : Prop := all_done y /\ more f y = [].

Definition within (A : Z) (l : leaf) : bool := (lf_d l <=? A)%Z.

Lemma filter_all {A} (p : A -> bool) l : (forall x, In x l -> p x = true) -> filter p l = l.
Proof. induction l as [|a l IH]; cbn; intro H; [reflexivity|]. rewrite (H a) by auto. f_equal. auto. Qed.
Lemma filter_none {A} (p : A -> bool) l : (forall x, In x l -> p x = false) -> filter p l = [].
Proof. induction l as [|a l IH]; cbn; intro H; [reflexivity|]. rewrite (H a) by auto. auto. Qed.
Lemma Permutation_filter' {A} (p : A -> bool) l l' : Permutation l l' -> Permutation (filter p l) (filter p l').
Proof.
  induction 1; cbn; auto.
  - destruct (p x); auto.
  - destruct (p x), (p y); auto. apply perm_swap.
  - eapply perm_trans; eauto.
Qed.

(** Strategy BestN (the one of SVP, CVP and BKZ), no pruning: whatever the number of threads and the
    schedule, the solutions kept at the end are the [N] shortest of all leaves within the initial
    radius -- the same for one thread. *)
Theorem par_result_best N nsig n A0 b m y :
  1 <= N -> 1 <= n -> (forall l, In l (concat b ++ concat (map (@concat leaf) m)) -> lf_need l = lf_d l) ->
  yreach z_fops BestN N (par_init z_fops nsig n A0 b m) y -> finished y ->
  shortest_of z_fops N (ev_sols (gev z_fops (sh z_fops y)))
    (items z_fops (map report (filter (within A0) (concat b ++ concat (map (@concat leaf) m))))).
Proof.
  intros HN Hn Hneed R [Hd Hm].
  pose proof (Inv2_reach N HN A0 nsig n b m y R) as [Wm We Wg Wh Wo Ws WA].
  pose proof (par_leaves_once _ _ _ _ _ _ _ _ _ Hn R Hd) as HP.
  pose proof (past_all _ _ _ _ _ _ _ _ _ R) as Epast. rewrite Hm in Epast. cbn in Epast. rewrite app_nil_r in Epast.
  rewrite <- Epast in *.
  set (log := glog z_fops (sh z_fops y)) in *. set (skip := gskip z_fops (sh z_fops y)) in *. set (ev := gev z_fops (sh z_fops y)) in *.
  set (A := gA z_fops (sh z_fops y)) in *.
  assert (Hskip : forall l, In l skip -> (A < lf_d l)%Z).
  { intros l Hl. rewrite <- Hneed; [apply Ws; exact Hl|]. apply (Permutation_in l (Permutation_sym HP)), in_or_app. right. exact Hl. }
  assert (HF : Permutation (filter (within A0) (past z_fops y)) (log ++ filter (within A0) skip)).
  { rewrite (Permutation_filter' _ _ _ HP), filter_app. apply Permutation_app; [|reflexivity].
    rewrite filter_all; [reflexivity|]. intros l Hl. unfold within. apply Z.leb_le. apply Wg. exact Hl. }
  destruct (eval_log N HN A0 log ev A We) as [[HS (dr & P1 & P2 & P3)] HB].
  assert (IT : Permutation (items z_fops (map report (filter (within A0) (past z_fops y))))
                           (items z_fops (map report (rev log)) ++ items z_fops (map report (filter (within A0) skip)))).
  { unfold items. rewrite <- map_app, <- map_app. apply Permutation_map, Permutation_map. rewrite HF.
    apply Permutation_app; [apply Permutation_rev|reflexivity]. }
  assert (LL : length (items z_fops (map report (rev log))) = length log) by (unfold items; rewrite !map_length, rev_length; reflexivity).
  unfold bound_ok in HB.
  destruct (Nat.ltb_spec (length (ev_sols ev)) N) as [H|H].
  - assert (E0 : filter (within A0) skip = []).
    { apply filter_none. intros l Hl. unfold within. apply Z.leb_gt. specialize (Hskip l Hl). rewrite HB in Hskip. exact Hskip. }
    rewrite E0 in IT. cbn in IT. rewrite app_nil_r in IT.
    exists dr. split; [rewrite P1; symmetry; exact IT|]. split; [|exact P3].
    pose proof (Permutation_length IT) as PL. cbn in P2, PL |- *. lia.
  - exists (dr ++ items z_fops (map report (filter (within A0) skip))). split; [|split].
    + rewrite app_assoc. rewrite (Permutation_app_tail _ P1). symmetry. exact IT.
    + pose proof (Permutation_length IT) as PL. rewrite app_length in PL. cbn in P2, PL, H |- *. lia.
    + intros k d Hk Hdr. apply in_app_or in Hdr. destruct Hdr as [Hdr|Hdr]; [apply P3; assumption|].
      unfold items in Hdr. apply in_map_iff in Hdr. destruct Hdr as (q & <- & Hq). apply in_map_iff in Hq.
      destruct Hq as (l & <- & Hl). apply filter_In in Hl. destruct Hl as [Hl _]. specialize (Hskip l Hl).
      unfold key_le. cbn. apply Z.ltb_ge.
      destruct (ev_sols ev) as [|h tl] eqn:Es; [contradiction|]. cbn in HB.
      assert (fst k <= fst h)%Z.
      { destruct Hk as [<-|Hk]; [apply Z.le_refl|]. pose proof (sorted_hd z_fops _ _ HS k Hk) as K. unfold key_le in K. cbn in K.
        apply Z.ltb_ge in K. exact K. }
      rewrite HB in Hskip. exact (Z.le_trans _ _ _ H0 (Z.lt_le_incl _ _ Hskip)).
Qed.

(** With pruning (leaf reached only with a bound of at least [lf_need]) no leaf is lost that the
    final radius admits. *)
Theorem par_complete N nsig n A0 b m y l :
  1 <= N -> 1 <= n -> yreach z_fops BestN N (par_init z_fops nsig n A0 b m) y -> finished y ->
  In l (concat b ++ concat (map (@concat leaf) m)) -> (lf_need l <= gA z_fops (sh z_fops y))%Z ->
  In l (glog z_fops (sh z_fops y)).
Proof.
  intros HN Hn R [Hd Hm] Hl Hle.
  pose proof (Inv2_reach N HN A0 nsig n b m y R) as [Wm We Wg Wh Wo Ws WA].
  pose proof (par_leaves_once _ _ _ _ _ _ _ _ _ Hn R Hd) as HP.
  pose proof (past_all _ _ _ _ _ _ _ _ _ R) as Epast. rewrite Hm in Epast. cbn in Epast. rewrite app_nil_r in Epast.
  rewrite <- Epast in Hl. apply (Permutation_in _ HP) in Hl. apply in_app_or in Hl. destruct Hl as [Hl|Hl]; [exact Hl|].
  specialize (Ws l Hl). lia.
Qed.

(** ** C27 *)

(** The shared radius never grows (BestN), over any number of batches. *)
Theorem par_radius_nonincreasing N nsig n A0 b m y y' :
  1 <= N -> yreach z_fops BestN N (par_init z_fops nsig n A0 b m) y -> ystep z_fops BestN N y y' ->
  (gA z_fops (sh z_fops y') <= gA z_fops (sh z_fops y))%Z.
Proof.
  intros HN R St. pose proof (Inv2_reach N HN A0 nsig n b m y R) as I.
  apply (Inv2_step N HN A0 y y' St I).
Qed.

(** Every solution passed to process_sol was inside the thread's own radius, which is never smaller
    than the shared one and never larger than the initial one. *)
Theorem par_own_radius N nsig n A0 b m y t :
  1 <= N -> yreach z_fops BestN N (par_init z_fops nsig n A0 b m) y -> In t (ths z_fops y) -> copied t = true ->
  (gA z_fops (sh z_fops y) <= t_loc t <= A0)%Z.
Proof. intros HN R Ht Hc. exact (W_loc N A0 y (Inv2_reach N HN A0 nsig n b m y R) t Ht Hc). Qed.

Lemma more_len f strat N y0 y : yreach f strat N y0 y -> length (more f y) <= length (more f y0).
Proof.
  induction 1 as [|y y' R IH St]; [lia|]. destruct St as [y i t s' t' Ht St|y b' m' Hd Hm]; cbn [more]; [exact IH|].
  rewrite Hm in IH. cbn in IH. lia.
Qed.

Lemma Inv3_reach N nsig n A0 b m y : 1 <= N -> 1 <= n -> n <= nsig ->
  yreach z_fops BestN N (par_init z_fops nsig n A0 b m) y -> more z_fops y = m -> Inv3 nsig y.
Proof.
  intros HN Hn Hs R. induction R as [|y y' R IH St]; intro E; [apply Inv3_init; exact Hs|].
  destruct St as [y i t s' t' Ht St|y b' m' Hd Hm]; cbn [more] in E.
  - apply (Inv3_thread N HN nsig A0 y i t s' t' Ht St).
    + exact (Inv1_reach _ _ _ _ _ _ _ _ _ Hn R).
    + exact (Inv2_reach N HN A0 _ _ _ _ _ R).
    + exact (IH E).
  - exfalso. apply more_len in R. rewrite Hm in R. cbn in R. subst m'. lia.
Qed.

(** Within the first batch (and with at most 256 threads) every thread works with the newest radius
    unless its signal is set or some thread is just publishing a radius; and a thread starting an
    item while nobody is publishing starts it with the newest radius. *)
Definition publishing (y : sys z_fops) : Prop := exists id, pend y id.

Theorem par_fresh_first_batch N nsig n A0 b m y t :
  1 <= N -> 1 <= n -> n <= nsig -> yreach z_fops BestN N (par_init z_fops nsig n A0 b m) y -> more z_fops y = m ->
  In t (ths z_fops y) -> has_id t = true -> ~ publishing y ->
  nth (t_id t) (gsig z_fops (sh z_fops y)) false = true \/ loading t = true \/ t_loc t = gA z_fops (sh z_fops y).
Proof.
  intros HN Hn Hs R E Ht Hi Hp. pose proof (Inv3_reach N nsig n A0 b m y HN Hn Hs R E) as I.
  destruct (F_thr nsig y I t Ht Hi) as [F|[F|[F|F]]]; auto. exfalso. apply Hp. exists (t_id t). exact F.
Qed.

Theorem par_item_newest N nsig n A0 b m y i t s' t' ls :
  1 <= N -> 1 <= n -> n <= nsig -> yreach z_fops BestN N (par_init z_fops nsig n A0 b m) y -> more z_fops y = m ->
  nth_error (ths z_fops y) i = Some t -> (t_pc t = TSig ls \/ t_pc t = TLoad ls) ->
  tstep z_fops BestN N (sh z_fops y) t s' t' -> t_pc t' = TRun ls -> ~ publishing y ->
  t_loc t' = gA z_fops s'.
Proof.
  intros HN Hn Hs R E Ht Hpc St Ht' Hp.
  remember (sh z_fops y) as s0 eqn:Es in St.
  destruct St; subst s; destruct Hpc as [Hpc|Hpc]; try discriminate; cbn in Ht'; try discriminate.
  - pose proof (Inv3_reach N nsig n A0 b m y HN Hn Hs R E) as I.
    destruct (F_thr nsig y I _ (nth_error_In _ _ Ht) eq_refl) as [F|[F|[F|F]]].
    + cbn in F. unfold sigb in F. rewrite (nth_error_nth _ _ false H) in F. discriminate.
    + exact F.
    + discriminate.
    + exfalso. apply Hp. exists i0. exact F.
  - reflexivity.
Qed.

(** *** What C27 claims but the code does not do *)
Lemma yreach_fwd f strat N y0 y y' : ystep f strat N y0 y -> yreach f strat N y y' -> yreach f strat N y0 y'.
Proof.
  intros St R. induction R as [|a b R IH St']; [|eapply YR_step; eauto].
  eapply YR_step; [apply YR_refl|exact St].
Qed.

Lemma yreach_trans f strat N y0 y y' : yreach f strat N y0 y -> yreach f strat N y y' -> yreach f strat N y0 y'.
Proof. intros R1 R2. induction R2 as [|a b R2 IH St]; [exact R1|]. eapply YR_step; eauto. Qed.

(** the loop 295-296 *)
Lemma reach_set f strat N k : forall (y : sys f) i j ls id a h,
  nth_error (ths f y) i = Some (mkT (TSet j ls) id a h) -> length (gsig f (sh f y)) = j + k ->
  yreach f strat N y (mkY f (mkS f (gA f (sh f y)) (gev f (sh f y)) (firstn j (gsig f (sh f y)) ++ repeat true k) (glock f (sh f y))
     (gnext f (sh f y)) (gid f (sh f y)) (mA f (sh f y)) (gitems f (sh f y)) (glog f (sh f y)) (gskip f (sh f y)) (gfin f (sh f y)))
     (upd (ths f y) i (mkT (TOwn ls) id a h)) (more f y) (past f y)).
Proof.
  induction k as [|k IH]; intros y i j ls id a h Hn Hl.
  - cbn [repeat]. rewrite firstn_all2 by lia. rewrite app_nil_r.
    eapply yreach_fwd; [eapply (Y_thread _ _ _ y i); [exact Hn|apply T_setend; lia]|].
    destruct y as [s th mo pa]; destruct s; cbn. apply YR_refl.
  - eapply yreach_fwd; [eapply (Y_thread _ _ _ y i); [exact Hn|apply T_set; lia]|].
    specialize (IH (mkY f (set_sig f (sh f y) j true) (upd (ths f y) i (mkT (TSet (S j) ls) id a h)) (more f y) (past f y)) i (S j) ls id a h).
    cbn [ths sh more past] in IH. rewrite upd_upd in IH. cbn [gsig set_sig gA gev glock gnext gid mA gitems glog gskip gfin] in IH.
    rewrite upd_length in IH.
    assert (E : firstn (S j) (upd (gsig f (sh f y)) j true) ++ repeat true k = firstn j (gsig f (sh f y)) ++ repeat true (S k)).
    { clear IH. revert Hl. generalize (gsig f (sh f y)). clear. intros l. revert j. induction l as [|x l IH]; intros j Hl; [cbn in Hl; lia|].
      destruct j as [|j]; [cbn; reflexivity|]. cbn in Hl. specialize (IH j ltac:(lia)). 
      change (x :: (firstn (S j) (upd l j true) ++ repeat true k) = x :: (firstn j l ++ repeat true (S k))). rewrite IH. reflexivity. }
    rewrite E in IH. apply IH; [eapply nth_error_upd_same; eauto|lia].
Qed.

Definition lf (d : Z) : leaf := {| lf_x := [d]; lf_d := d; lf_need := d |}.

Ltac side := cbn; first [reflexivity | lia | discriminate].
Ltac go i c := eapply yreach_fwd; [eapply (Y_thread _ _ _ _ i); [reflexivity|eapply c; side]|cbn [sh ths more past upd set_A set_sig set_lock inc_next inc_id add_skip add_fin gA gev gsig glock gnext gid mA gitems glog gskip gfin app]].
Ltac goset i := eapply yreach_trans; [eapply (reach_set _ _ _ 256 _ i 0); cbn; reflexivity|cbn [sh ths more past upd gA gev gsig glock gnext gid mA gitems glog gskip gfin app firstn]].

(** A leaf is tested against the thread's own radius before the mutex is taken (enumeration.h:283-286)
    and not tested again: with two threads a solution of length 9 is handed to the evaluator although
    the radius is 3 already. *)
Theorem par_accept_outside_refuted :
  exists y t l ls, yreach z_fops BestN 1 (par_init z_fops 256 2 10 [[lf 9]; [lf 3]] []) y /\
    In t (ths z_fops y) /\ t_pc t = TCrit l ls /\ (gA z_fops (sh z_fops y) < lf_d l)%Z.
Proof.
  eexists. exists (mkT (TCrit (lf 9) []) 0 10 [0]), (lf 9), []. split.
  - unfold par_init. cbn [repeat].
    go 0 T_copy. go 0 T_id. go 0 T_fetch. go 1 T_copy. go 1 T_id. go 1 T_fetch.
    go 0 T_sig0. go 0 T_leaf. go 1 T_sig0. go 1 T_leaf. go 1 T_lock.
    go 1 T_sol. go 1 T_diff. goset 1. go 1 T_own1. go 1 T_ownc. go 1 T_ownl. go 0 T_lock. apply YR_refl.
  - cbn. split; [auto|]. split; [reflexivity|lia].
Qed.

(** With the strategy OppN the evaluator then sets the radius to the length of the solution just
    handed over (evaluator.h:139): the shared radius grows from 3 to 9. *)
Theorem par_radius_opp_refuted :
  exists y y', yreach z_fops OppN 1 (par_init z_fops 256 2 10 [[lf 9]; [lf 3]] []) y /\ ystep z_fops OppN 1 y y' /\
    (gA z_fops (sh z_fops y) < gA z_fops (sh z_fops y'))%Z.
Proof.
  eexists. eexists. split; [|split].
  - unfold par_init. cbn [repeat].
    go 0 T_copy. go 0 T_id. go 0 T_fetch. go 1 T_copy. go 1 T_id. go 1 T_fetch.
    go 0 T_sig0. go 0 T_leaf. go 1 T_sig0. go 1 T_leaf. go 1 T_lock.
    go 1 T_sol. go 1 T_diff. goset 1. go 1 T_own1. go 1 T_ownc. go 1 T_ownl. go 0 T_lock. apply YR_refl.
  - eapply (Y_thread _ _ _ _ 0); [reflexivity|apply T_sol; reflexivity].
  - cbn. lia.
Qed.

(** With the strategy FirstN and max_sols = 1 two solutions are kept: the second thread hands its
    solution over although the radius is 0 already. *)
Theorem par_first_n_refuted :
  exists y, yreach z_fops FirstN 1 (par_init z_fops 256 2 10 [[lf 9]; [lf 3]] []) y /\
    length (ev_sols (gev z_fops (sh z_fops y))) = 2.
Proof.
  eexists. split.
  - unfold par_init. cbn [repeat].
    go 0 T_copy. go 0 T_id. go 0 T_fetch. go 1 T_copy. go 1 T_id. go 1 T_fetch.
    go 0 T_sig0. go 0 T_leaf. go 1 T_sig0. go 1 T_leaf. go 1 T_lock.
    go 1 T_sol. go 1 T_diff. goset 1. go 1 T_own1. go 1 T_ownc. go 1 T_ownl. go 0 T_lock. go 0 T_sol. apply YR_refl.
  - reflexivity.
Qed.

(** The radius a thread starts a batch with is this->_A, the radius before the search (copy of 464),
    and its signal was reset in the previous batch: even a single thread works in the second batch
    with the old radius 10 although the shared radius is 3, and its next update (485) does not
    change that -- until some thread finds another solution. *)
Theorem par_stale_radius_refuted :
  exists y t ls, yreach z_fops BestN 1 (par_init z_fops 256 1 10 [[lf 3]] [[[lf 9]]]) y /\
    In t (ths z_fops y) /\ t_pc t = TRun ls /\ ls = [lf 9] /\ ~ publishing y /\
    nth (t_id t) (gsig z_fops (sh z_fops y)) false = false /\
    gA z_fops (sh z_fops y) = 3%Z /\ t_loc t = 10%Z.
Proof.
  eexists. exists (mkT (TRun [lf 9]) 0 10 [0]), [lf 9]. split.
  - unfold par_init. cbn [repeat].
    go 0 T_copy. go 0 T_id. go 0 T_fetch. go 0 T_sig0. go 0 T_leaf. go 0 T_lock.
    go 0 T_sol. go 0 T_diff. goset 0. go 0 T_own1. go 0 T_ownc. go 0 T_ownl.
    go 0 T_end. go 0 T_break. go 0 T_merge. go 0 T_done.
    eapply yreach_fwd; [eapply Y_batch; [cbn; intros t [<-|[]]; reflexivity|reflexivity]|].
    cbn [sh ths more past length repeat gA gev gsig glock mA glog gskip].
    go 0 T_copy. go 0 T_id. go 0 T_fetch. go 0 T_sig0. apply YR_refl.
  - cbn. repeat split; auto.
    intros (id & i & u & Hu & Pu). destruct i as [|[|i]]; cbn in Hu; try discriminate.
    injection Hu as <-. exact Pu.
Qed.

(** ** The signals: 256 of them (enumeration.h:66) *)

(** The threadids of a batch are smaller than the number of threads, so with at most 256 threads
    every access to globals.signal is inside the array ... *)
Record InvId (y : sys z_fops) : Prop := {
  Q_gid : gid z_fops (sh z_fops y) = lsum nid (ths z_fops y);
  Q_lt : forall t, In t (ths z_fops y) -> has_id t = true -> t_id t < gid z_fops (sh z_fops y) }.

Theorem par_signal_bounds strat N nsig n A0 b m y t :
  n <= nsig -> yreach z_fops strat N (par_init z_fops nsig n A0 b m) y -> In t (ths z_fops y) -> has_id t = true ->
  t_id t < length (gsig z_fops (sh z_fops y)).
Proof.
  intros Hs R Ht Hi.
  assert (EL : length (gsig z_fops (sh z_fops y)) = nsig).
  { clear Ht Hi. induction R as [|y y' R IH St]; [cbn; apply repeat_length|].
    destruct St as [y i u s' u' Hu St|y b' m' Hd Hm]; cbn [sh gsig]; [|exact IH].
    destruct St; cbn [gsig set_A set_sig set_lock inc_next inc_id add_skip add_fin]; rewrite ?upd_length; exact IH. }
  assert (IV : InvId y).
  { clear t Ht Hi. induction R as [|y y' R IH St].
    - constructor; cbn; [symmetry; apply lsum_repeat; reflexivity|]. intros t Ht It. apply repeat_spec in Ht. subst t. discriminate.
    - assert (EL' : length (gsig z_fops (sh z_fops y)) = nsig).
      { rewrite <- EL. destruct St as [y i u s' u' Hu St|y b' m' Hd Hm]; cbn [sh gsig]; [|reflexivity].
        destruct St; cbn [gsig set_A set_sig set_lock inc_next inc_id add_skip add_fin]; rewrite ?upd_length; reflexivity. }
      destruct (IH EL') as [Q1 Q2]. destruct St as [y i u s' u' Hu St|y b' m' Hd Hm]; cbn [sh ths].
      + pose proof (lsum_upd nid _ _ _ u' Hu) as E.
        assert (Up : (forall v, In v (ths z_fops y) -> has_id v = true -> t_id v < gid z_fops s') -> (has_id u' = true -> t_id u' < gid z_fops s') ->
                     forall v, In v (upd (ths z_fops y) i u') -> has_id v = true -> t_id v < gid z_fops s').
        { intros H1 H2 v Hv. apply In_upd in Hv. destruct Hv as [->|Hv]; auto. }
        pose proof (Q2 u (nth_error_In _ _ Hu)) as Qu.
        constructor; cbn [sh ths].
        * destruct St; cbn in E |- *; cbn in Q1; lia.
        * apply Up; [|destruct St; cbn in Qu |- *; auto; intros; lia].
          intros v Hv Iv. specialize (Q2 v Hv Iv). destruct St; cbn; lia.
      + constructor; cbn [sh ths gid]; [symmetry; apply lsum_repeat; reflexivity|]. intros t Ht It. apply repeat_spec in Ht. subst t. discriminate. }
  pose proof (Q_lt y IV t Ht Hi) as L. rewrite (Q_gid y IV) in L. pose proof (nid_le (ths z_fops y)) as L2.
  rewrite (reach_length z_fops strat N _ _ R) in L2. cbn in L2. rewrite repeat_length in L2. lia.
Qed.

(** ... and with 257 threads it is not: a thread about to read signal[256]. *)
Lemma start_threads k : forall y m, (forall j, j < m -> nth_error (ths z_fops y) j <> None) -> k <= m ->
  glock z_fops (sh z_fops y) = false -> gid z_fops (sh z_fops y) = 0 ->
  (forall j, j < m -> nth_error (ths z_fops y) j = Some fresh_thr) ->
  exists y', yreach z_fops BestN 1 y y' /\ glock z_fops (sh z_fops y') = false /\ gid z_fops (sh z_fops y') = k /\
    gitems z_fops (sh z_fops y') = gitems z_fops (sh z_fops y) /\ gnext z_fops (sh z_fops y') = gnext z_fops (sh z_fops y) /\
    gsig z_fops (sh z_fops y') = gsig z_fops (sh z_fops y) /\
    (forall j, k <= j -> j < m -> nth_error (ths z_fops y') j = Some fresh_thr).
Proof.
  induction k as [|k IH]; intros y m H0 Hk Hl Hg Hf.
  - exists y. split; [apply YR_refl|]. repeat split; auto.
  - destruct (IH y m H0 ltac:(lia) Hl Hg Hf) as (y1 & R & L1 & G1 & I1 & N1 & S1 & F1).
    pose proof (F1 k (le_n k) ltac:(lia)) as Hn.
    exists (mkY z_fops (inc_id z_fops (sh z_fops y1)) (upd (upd (ths z_fops y1) k (mkT TCopied 0 (mA z_fops (sh z_fops y1)) [])) k
              (mkT TFetch (gid z_fops (sh z_fops y1)) (mA z_fops (sh z_fops y1)) [])) (more z_fops y1) (past z_fops y1)).
    split; [|cbn; repeat split; auto].
    + eapply YR_step; [eapply YR_step; [exact R|eapply (Y_thread _ _ _ y1 k); [exact Hn|apply T_copy]]|].
      eapply (Y_thread _ _ _ (mkY z_fops _ _ _ _) k); cbn [ths sh]; [eapply nth_error_upd_same; exact Hn|apply T_id; exact L1].
    + intros j Hj Hjm. rewrite upd_upd, nth_error_upd_other by lia. apply F1; lia.
Qed.

Theorem par_signal_bounds_refuted :
  exists y t ls, yreach z_fops BestN 1 (par_init z_fops 256 257 10 [[lf 3]] []) y /\
    In t (ths z_fops y) /\ t_pc t = TSig ls /\ length (gsig z_fops (sh z_fops y)) <= t_id t.
Proof.
  set (y0 := par_init z_fops 256 257 10 [[lf 3]] []).
  assert (F0 : forall j, j < 257 -> nth_error (ths z_fops y0) j = Some fresh_thr).
  { intros j Hj. cbn [ths y0 par_init]. change (ths z_fops y0) with (repeat fresh_thr 257). apply nth_error_repeat. exact Hj. }
  destruct (start_threads 256 y0 257) as (y1 & R & L1 & G1 & I1 & N1 & S1 & F1); [|lia|reflexivity|reflexivity|exact F0|].
  { intros j Hj. rewrite F0 by exact Hj. discriminate. }
  pose proof (F1 256 (le_n _) ltac:(lia)) as Hn.
  set (a := mA z_fops (sh z_fops y1)).
  pose (th3 := upd (upd (upd (ths z_fops y1) 256 (mkT TCopied 0 a [])) 256 (mkT TFetch 256 a [])) 256 (mkT (TSig [lf 3]) 256 a [0])).
  exists (mkY z_fops (inc_next z_fops (inc_id z_fops (sh z_fops y1))) th3 (more z_fops y1) (past z_fops y1)), (mkT (TSig [lf 3]) 256 a [0]), [lf 3].
  split; [|split; [|split]].
  - eapply YR_step; [eapply YR_step; [eapply YR_step; [exact R|]|]|].
    + eapply (Y_thread _ _ _ y1 256); [exact Hn|apply T_copy].
    + eapply (Y_thread _ _ _ (mkY z_fops _ _ _ _) 256); cbn [ths sh]; [eapply nth_error_upd_same; exact Hn|apply T_id; exact L1].
    + rewrite G1. fold a. unfold th3.
      assert (N0 : gnext z_fops (sh z_fops y1) = 0) by (rewrite N1; reflexivity).
      pose proof (T_fetch z_fops BestN 1 (inc_id z_fops (sh z_fops y1)) 256 a [] [lf 3]) as TF. cbn [gitems gnext inc_id] in TF.
      rewrite I1, N0 in TF. specialize (TF eq_refl).
      eapply (Y_thread _ _ _ (mkY z_fops _ _ _ _) 256); cbn [ths sh]; [eapply nth_error_upd_same; eapply nth_error_upd_same; exact Hn|exact TF].
  - cbn [ths]. unfold th3. eapply nth_error_In. eapply nth_error_upd_same. eapply nth_error_upd_same. eapply nth_error_upd_same. exact Hn.
  - reflexivity.
  - cbn. rewrite S1. cbn. lia.
Qed.

(** ** A data race *)

(** [auto mylat = *this] (464) reads this->_counts and this->_subsolL without the mutex; a thread
    that has finished writes them (491-498).  A thread may still be before 464 at that time. *)
Definition copy_race (y : sys z_fops) : Prop :=
  exists i j t u, nth_error (ths z_fops y) i = Some t /\ nth_error (ths z_fops y) j = Some u /\ i <> j /\
    t_pc t = TStart /\ t_pc u = TMergeC.

Theorem par_race_free_refuted :
  exists y, yreach z_fops BestN 1 (par_init z_fops 256 2 10 [[lf 3]] []) y /\ copy_race y.
Proof.
  eexists. split.
  - unfold par_init. cbn [repeat].
    go 0 T_copy. go 0 T_id. go 0 T_fetch. go 0 T_sig0. go 0 T_leaf. go 0 T_lock.
    go 0 T_sol. go 0 T_diff. goset 0. go 0 T_own1. go 0 T_ownc. go 0 T_ownl.
    go 0 T_end. go 0 T_break. go 0 T_merge. apply YR_refl.
  - exists 1, 0. eexists. eexists. repeat split; try reflexivity. lia.
Qed.

(** Cases meeting the hypotheses.  Two threads, two batches, run to the end; the leaves 5 and 7 are
    pruned with an improved radius, the final radius is 2. *)
Example par_case :
  exists y, yreach z_fops BestN 1 (par_init z_fops 256 2 10 [[lf 3]; [lf 5]] [[[lf 2; lf 7]]]) y /\ finished y /\
    glog z_fops (sh z_fops y) = [lf 2; lf 3] /\ gskip z_fops (sh z_fops y) = [lf 7; lf 5] /\ gA z_fops (sh z_fops y) = 2%Z /\
    ev_sols (gev z_fops (sh z_fops y)) = [(2%Z, [2%Z])].
Proof.
  eexists. split.
  - unfold par_init. cbn [repeat].
    go 0 T_copy. go 0 T_id. go 0 T_fetch. go 0 T_sig0. go 0 T_leaf. go 0 T_lock.
    go 0 T_sol. go 0 T_diff. goset 0. go 0 T_own1. go 0 T_ownc. go 0 T_ownl. go 0 T_end.
    go 1 T_copy. go 1 T_id. go 1 T_fetch. go 1 T_sig1. go 1 T_clr. go 1 T_load. go 1 T_prune. go 1 T_end.
    go 0 T_break. go 1 T_break. go 0 T_merge. go 0 T_done. go 1 T_merge. go 1 T_done.
    eapply yreach_fwd; [eapply Y_batch; [cbn; intros t [<-|[<-|[]]]; reflexivity|reflexivity]|].
    cbn [sh ths more past length repeat gA gev gsig glock mA glog gskip].
    go 0 T_copy. go 0 T_id. go 0 T_fetch. go 0 T_sig0. go 0 T_leaf. go 0 T_lock.
    go 0 T_sol. go 0 T_diff. goset 0. go 0 T_own1. go 0 T_ownc. go 0 T_ownl. go 0 T_prune. go 0 T_end.
    go 1 T_copy. go 1 T_id. go 1 T_break. go 0 T_break. go 0 T_merge. go 0 T_done. go 1 T_merge. go 1 T_done. apply YR_refl.
  - cbn. repeat split. intros t [<-|[<-|[]]]; reflexivity.
Qed.

(** In the first batch: thread 1 about to load the radius 3 found by thread 0. *)
Example par_newest_case :
  exists y t, yreach z_fops BestN 1 (par_init z_fops 256 2 10 [[lf 3]; [lf 5]] [[[lf 2; lf 7]]]) y /\
    more z_fops y = [[[lf 2; lf 7]]] /\ nth_error (ths z_fops y) 1 = Some t /\ t_pc t = TLoad [lf 5] /\ has_id t = true /\
    ~ publishing y /\ t_loc t = 10%Z /\ gA z_fops (sh z_fops y) = 3%Z.
Proof.
  eexists. eexists. split.
  - unfold par_init. cbn [repeat].
    go 0 T_copy. go 0 T_id. go 0 T_fetch. go 0 T_sig0. go 0 T_leaf. go 0 T_lock.
    go 0 T_sol. go 0 T_diff. goset 0. go 0 T_own1. go 0 T_ownc. go 0 T_ownl. go 0 T_end.
    go 1 T_copy. go 1 T_id. go 1 T_fetch. go 1 T_sig1. go 1 T_clr. apply YR_refl.
  - cbn. repeat split.
    intros (id & i & u & Hu & Pu). destruct i as [|[|[|i]]]; cbn in Hu; try discriminate; injection Hu as <-; exact Pu.
Qed.

Print Assumptions batches_all.
Print Assumptions batches_end.
Print Assumptions batches_active_refuted.
Print Assumptions par_items_once.
Print Assumptions par_leaves_once.
Print Assumptions par_result_best.
Print Assumptions par_complete.
Print Assumptions par_radius_nonincreasing.
Print Assumptions par_own_radius.
Print Assumptions par_fresh_first_batch.
Print Assumptions par_item_newest.
Print Assumptions par_accept_outside_refuted.
Print Assumptions par_radius_opp_refuted.
Print Assumptions par_first_n_refuted.
Print Assumptions par_stale_radius_refuted.
Print Assumptions par_signal_bounds.
Print Assumptions par_signal_bounds_refuted.
Print Assumptions par_race_free_refuted.
