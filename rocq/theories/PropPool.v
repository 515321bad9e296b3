(** C28 (run / wait_work return only after all tasks completed) and C29 (barrier), for the
    transition systems of PoolModel.v: every number of workers and tasks, every interleaving. *)
From Coq Require Import List Arith Bool Lia Permutation.
From Verif Require Import Util PoolModel.
Import ListNotations.

(** ** Sums over lists of threads *)
Fixpoint lsum {A} (f : A -> nat) (l : list A) : nat :=
  match l with [] => 0 | a :: t => f a + lsum f t end.

Lemma lsum_upd {A} (f : A -> nat) l i a b :
  nth_error l i = Some a -> lsum f (upd l i b) + f a = lsum f l + f b.
Proof.
  revert i; induction l as [|x l IH]; intros [|i] H; cbn in *; try discriminate.
  - injection H as ->. lia.
  - specialize (IH i H). lia.
Qed.

Lemma lsum_ge {A} (f : A -> nat) l i a : nth_error l i = Some a -> f a <= lsum f l.
Proof.
  revert i; induction l as [|x l IH]; intros [|i] H; cbn in *; try discriminate.
  - injection H as ->. lia.
  - specialize (IH i H). lia.
Qed.

Lemma lsum_map {A} (f : A -> nat) (g : A -> A) l :
  (forall a, f (g a) = f a) -> lsum f (map g l) = lsum f l.
Proof. intro H. induction l; cbn; [reflexivity|]. rewrite H, IHl. reflexivity. Qed.

Lemma lsum_repeat {A} (f : A -> nat) a n : f a = 0 -> lsum f (repeat a n) = 0.
Proof. intro H. induction n; cbn; lia. Qed.

Lemma lsum_pos {A} (f : A -> nat) l : lsum f l <> 0 -> exists i a, nth_error l i = Some a /\ f a <> 0.
Proof.
  induction l as [|x l IH]; cbn; intro H; [lia|].
  destruct (Nat.eq_dec (f x) 0) as [E|E].
  - destruct IH as (i & a & Hi & Ha); [lia|]. exists (S i), a. auto.
  - exists 0, x. auto.
Qed.

(** ** The invariant *)
Definition cnt (t : nat) (l : list nat) : nat := count_occ Nat.eq_dec l t.
Definition is (t u : nat) : nat := if Nat.eq_dec u t then 1 else 0.

(** threads holding the mutex *)
Definition wlk (w : wst) : nat := match w with WCrit | WInc | WPop _ => 1 | _ => 0 end.
Definition xlk (x : xst) : nat := match x with XCrit | XPop _ => 1 | _ => 0 end.
Definition olk (o : ost) : nat :=
  match o with OPush _ _ | OPushed _ _ | OWorkC _ | OWorkP _ _ | ORunC _ _ _ => 1 | _ => 0 end.
(** workers between ++_threads_busy and --_threads_busy *)
Definition wbz (w : wst) : nat := match w with WInc | WPop _ | WRun _ | WRan => 1 | _ => 0 end.
(** popped, unfinished executions of task [t] *)
Definition whd (t : nat) (w : wst) : nat := match w with WPop u | WRun u => is t u | _ => 0 end.
Definition xhd (t : nat) (x : xst) : nat := match x with XPop u | XRun u => is t u | _ => 0 end.
Definition ohd (t : nat) (o : ost) : nat := match o with OWorkP u _ | OWorkR u _ => is t u | _ => 0 end.
(** the owner has seen the empty queue *)
Definition late (o : ost) : bool := match o with OBusy _ | OSleepB _ | ORet _ => true | _ => false end.
Definition winc (w : wst) : nat := match w with WInc => 1 | _ => 0 end.

Record Inv (s : pst) : Prop := {
  I_lock : lsum wlk (ws s) + lsum xlk (xs s) + olk (own s) = if lock s then 1 else 0;
  I_busy : busy s = lsum wbz (ws s);
  I_task : forall t, cnt t (pushed s) =
             cnt t (tasks s) + lsum (whd t) (ws s) + lsum (xhd t) (xs s) + ohd t (own s) + cnt t (fin s);
  I_late : late (own s) = true -> tasks s = [];
  I_inc : tasks s = [] -> lsum winc (ws s) = 0;
  I_ret : forall k, own s = ORet k -> forall t, lsum (whd t) (ws s) = 0 }.

Lemma cnt_app t l1 l2 : cnt t (l1 ++ l2) = cnt t l1 + cnt t l2.
Proof. apply count_occ_app. Qed.
Lemma cnt_cons t u l : cnt t (u :: l) = is t u + cnt t l.
Proof. unfold cnt, is. cbn. destruct (Nat.eq_dec u t); reflexivity. Qed.
Lemma cnt_nil t : cnt t [] = 0. Proof. reflexivity. Qed.

Lemma wbz_whd t w : wbz w = 0 -> whd t w = 0.
Proof. destruct w; cbn; intro; try reflexivity; discriminate. Qed.
Lemma lsum_whd_0 t l : lsum wbz l = 0 -> lsum (whd t) l = 0.
Proof. induction l as [|w l IH]; cbn; intro H; [reflexivity|]. rewrite (wbz_whd t w), IH by lia. reflexivity. Qed.
Lemma winc_wlk l : lsum winc l <= lsum wlk l.
Proof. induction l as [|w l IH]; cbn; [lia|]. destruct w; cbn; lia. Qed.

Lemma Inv_init n m k : Inv (pool_init n m k).
Proof.
  constructor; cbn; intros; rewrite ?lsum_repeat by reflexivity; try reflexivity; discriminate.
Qed.

Lemma wake_lk l : lsum wlk (wake_all l) = lsum wlk l.
Proof. apply lsum_map. intros []; reflexivity. Qed.
Lemma wake_bz l : lsum wbz (wake_all l) = lsum wbz l.
Proof. apply lsum_map. intros []; reflexivity. Qed.
Lemma wake_hd t l : lsum (whd t) (wake_all l) = lsum (whd t) l.
Proof. apply lsum_map. intros []; reflexivity. Qed.
Lemma wake_inc l : lsum winc (wake_all l) = lsum winc l.
Proof. apply lsum_map. intros []; reflexivity. Qed.

Ltac sums H :=
  repeat match goal with
  | |- context [lsum ?f (upd ?l ?i ?b)] =>
      let E := fresh "E" in pose proof (lsum_upd f l i _ b H) as E; cbn in E;
      let x := fresh "x" in set (x := lsum f (upd l i b)) in *; clearbody x
  end.

Lemma Inv_step ms s s' : step ms s s' -> Inv s -> Inv s'.
Proof.
  intros St [Hl Hb Ht Hq Hi Hr]. destruct St as [s i w b' q' l' w' d Hn St | s i x q' l' x' d Hn St | s q' l' w' o' p d St];
  destruct s as [b qq lk wl xl o pu fi]; cbn [busy tasks lock ws xs own pushed fin] in *.
  - (* worker *)
    pose proof (lsum_ge wlk _ _ _ Hn) as Glk. pose proof (lsum_ge wbz _ _ _ Hn) as Gbz.
    pose proof (lsum_ge winc _ _ _ Hn) as Ginc.
    assert (Gh : forall t, whd t w <= lsum (whd t) wl) by (intro; apply (lsum_ge (whd t) _ _ _ Hn)).
    inversion St; subst; clear St; constructor; cbn [busy tasks lock ws xs own pushed fin app] in *.
    all: try (intro t9; specialize (Ht t9); specialize (Gh t9)).
    all: try (intros kk Ek t9; specialize (Hr kk Ek t9); specialize (Gh t9)).
    all: try (match goal with |- late _ = true -> _ => intro L; specialize (Hq L); try discriminate; try assumption end).
    all: try (match goal with |- ?x = [] -> _ => intro Q0; try discriminate Q0 end).
    all: try specialize (Hi Q0); try specialize (Hi eq_refl).
    all: sums Hn; cbn in Glk, Gbz, Ginc; try (cbn in Gh); rewrite ?cnt_cons in *; try (rewrite ?cnt_cons in Ht).
    all: try lia.
    all: try (destruct lk; lia).
    all: try congruence.
    all: pose proof (winc_wlk wl); try lia.
    (* WPop while the owner has returned: excluded because the queue is empty *)
    all: try (subst o; cbn in Hq; specialize (Hq eq_refl); discriminate).
  - (* other caller of work *)
    pose proof (lsum_ge xlk _ _ _ Hn) as Glk.
    pose proof (winc_wlk wl) as Gw.
    assert (Gh : forall t, xhd t x <= lsum (xhd t) xl) by (intro; apply (lsum_ge (xhd t) _ _ _ Hn)).
    inversion St; subst; clear St; constructor; cbn [busy tasks lock ws xs own pushed fin app] in *; auto.
    all: try (intro t9; specialize (Ht t9); specialize (Gh t9)).
    all: try (match goal with |- late _ = true -> _ => intro L; specialize (Hq L); try discriminate; try assumption end).
    all: try (match goal with |- ?x = [] -> _ => intro Q0; try discriminate Q0 end).
    all: sums Hn; cbn in Glk; try (cbn in Gh); rewrite ?cnt_cons in *; try (rewrite ?cnt_cons in Ht).
    all: try lia.
    all: try (destruct lk; lia).
  - (* owner *)
    pose proof (winc_wlk wl) as Gw.
    inversion St; subst; clear St; constructor; cbn [busy tasks lock ws xs own pushed fin app late olk ohd] in *;
      rewrite ?wake_lk, ?wake_bz, ?wake_inc.
    all: try (intro t9; specialize (Ht t9); rewrite ?wake_hd).
    all: try (intros kk Ek; try discriminate Ek; intro t9; rewrite ?wake_hd).
    all: try (match goal with |- _ = true -> _ => intro L; try discriminate L; try (apply Hq; reflexivity); try reflexivity end).
    all: try (match goal with |- ?x = [] -> _ => intro Q0; try (destruct qq; discriminate Q0); try discriminate Q0 end).
    all: try (match goal with H : nth_error _ _ = Some WSleep |- _ => sums H end).
    all: rewrite ?cnt_app, ?cnt_cons, ?cnt_nil in *.
    all: cbn in *; try lia; auto.
    all: try (specialize (Hi Q0); lia).
    all: try (specialize (Hi eq_refl); lia).
    all: try (apply lsum_whd_0; lia).
    all: try (destruct lk; lia).
Qed.

Lemma Inv_reach ms s0 s : reach ms s0 s -> Inv s0 -> Inv s.
Proof. induction 1; auto. intro. eapply Inv_step; eauto. Qed.

Arguments cnt : simpl never.

(** The tasks a list of calls hands to the pool (for run: including the copy the owner executes). *)
Fixpoint cmd_tasks (k : list cmd) : list nat :=
  match k with
  | [] => []
  | CPush t :: k => t :: cmd_tasks k
  | CWaitWork :: k => cmd_tasks k
  | CRun ts s :: k => ts ++ s :: cmd_tasks k
  end.

(** the tasks still to be handed over *)
Definition rest (o : ost) : list nat :=
  match o with
  | OCmd k | OPushed _ k | ONotify1 k | OWork k | OWorkC k | OWorkP _ k | OWorkR _ k | OBusy k
  | OSize k | OSleepB k | ORet k => cmd_tasks k
  | OPush t k => t :: cmd_tasks k
  | ORunC ts s k => ts ++ s :: cmd_tasks k
  | ONotify s k | OSelf s k => s :: cmd_tasks k
  end.

Lemma rest_step ms s s' t : step ms s s' -> cnt t (pushed s') + cnt t (rest (own s')) = cnt t (pushed s) + cnt t (rest (own s)).
Proof.
  intros St. destruct St as [s i w b' q' l' w' d Hn St | s i x q' l' x' d Hn St | s q' l' w' o' p d St];
    destruct s as [b qq lk wl xl o pu fi]; cbn [busy tasks lock ws xs own pushed fin] in *; try reflexivity.
  inversion St; subst; cbn [rest cmd_tasks app]; rewrite ?cnt_app, ?cnt_cons, ?cnt_nil; try lia.
  cbn [app]. rewrite ?cnt_cons, ?cnt_app, ?cnt_cons. lia.
Qed.

Lemma rest_reach ms s0 s t : reach ms s0 s -> cnt t (pushed s) + cnt t (rest (own s)) = cnt t (pushed s0) + cnt t (rest (own s0)).
Proof. induction 1 as [|s s' H IH St]; [reflexivity|]. rewrite (rest_step _ _ _ t St). exact IH. Qed.

(** ** C28 *)

(** When wait_work or run returns to the owner, then -- whatever the number of workers, the calls
    made so far, the interleaving, spurious wake-ups and stopping workers -- the executions
    completed are exactly the tasks of the calls already made: every one has finished, each
    exactly as often as it was pushed. *)
Theorem pool_wait_complete ms n k k' s :
  reach ms (pool_init n 0 k) s -> own s = ORet k' ->
  Permutation (fin s ++ cmd_tasks k') (cmd_tasks k).
Proof.
  intros R Ho. apply (Permutation_count_occ Nat.eq_dec). intro t.
  pose proof (Inv_reach _ _ _ R (Inv_init n 0 k)) as [Hl Hb Ht Hq Hi Hr].
  pose proof (rest_reach _ _ _ t R) as E. cbn in E; rewrite ?cnt_nil in E.
  specialize (Ht t). rewrite (Hr _ Ho) in Ht. rewrite Ho in *. cbn in Ht, Hq, E.
  rewrite (Hq eq_refl) in Ht. cbn in Ht. rewrite ?cnt_nil in Ht.
  assert (X : xs s = []).
  { clear -R. assert (G : forall s', reach ms (pool_init n 0 k) s' -> xs s' = []).
    { induction 1 as [|a b R' IH St]; [reflexivity|].
      destruct St; cbn [xs] in *; auto. rewrite IH in H. destruct i; discriminate. }
    apply G, R. }
  rewrite X in Ht. cbn in Ht. fold (cnt t (fin s ++ cmd_tasks k')). fold (cnt t (cmd_tasks k)).
  rewrite cnt_app. lia.
Qed.

(** Distinct tasks are executed at most once at every moment of every schedule, also when other
    threads call work(). *)
Theorem pool_at_most_once ms n m k s :
  reach ms (pool_init n m k) s -> NoDup (cmd_tasks k) -> NoDup (fin s).
Proof.
  intros R Hd. apply (NoDup_count_occ Nat.eq_dec). intro t.
  pose proof (proj1 (NoDup_count_occ Nat.eq_dec _) Hd t) as D. fold (cnt t (cmd_tasks k)) in D. fold (cnt t (fin s)).
  pose proof (Inv_reach _ _ _ R (Inv_init n m k)) as [Hl Hb Ht Hq Hi Hr].
  pose proof (rest_reach _ _ _ t R) as E. cbn in E; rewrite ?cnt_nil in E. specialize (Ht t). lia.
Qed.

(** With [m] other threads calling work() on the pool, the tasks those threads are executing are
    the only ones that can be unfinished when wait_work or run returns ... *)
Theorem pool_wait_other_callers ms n m k k' s t :
  reach ms (pool_init n m k) s -> own s = ORet k' ->
  cnt t (cmd_tasks k) = cnt t (fin s) + lsum (xhd t) (xs s) + cnt t (cmd_tasks k').
Proof.
  intros R Ho.
  pose proof (Inv_reach _ _ _ R (Inv_init n m k)) as [Hl Hb Ht Hq Hi Hr].
  pose proof (rest_reach _ _ _ t R) as E. cbn in E; rewrite ?cnt_nil in E.
  specialize (Ht t). rewrite (Hr _ Ho) in Ht. rewrite Ho in *. cbn in Ht, Hq, E.
  rewrite (Hq eq_refl) in Ht. cbn in Ht. rewrite ?cnt_nil in Ht. lia.
Qed.

Lemma reach_fwd ms s0 s s' : step ms s0 s -> reach ms s s' -> reach ms s0 s'.
Proof.
  intros St R. induction R as [|a b R IH St']; [|eapply R_step; eauto].
  eapply R_step; [apply R_refl|exact St].
Qed.

Ltac own_ := eapply reach_fwd; [eapply S_owner; cbn [busy tasks lock ws xs own]; econstructor; fail | cbn [busy tasks lock ws xs own pushed fin app]].
Ltac work_ i := eapply reach_fwd; [eapply (S_worker _ _ i); cbn [busy tasks lock ws xs own]; [reflexivity|econstructor; fail] | cbn [busy tasks lock ws xs own pushed fin app upd pred]].
Ltac other_ i := eapply reach_fwd; [eapply (S_other _ _ i); cbn [busy tasks lock ws xs own]; [reflexivity|econstructor; fail] | cbn [busy tasks lock ws xs own pushed fin app upd]].
Ltac none_ := eapply reach_fwd; [eapply S_owner; cbn [busy tasks lock ws xs own]; eapply O_notify_none; cbn; intuition discriminate | cbn [busy tasks lock ws xs own pushed fin app]].

(** ... and such an unfinished task is reachable: work() does not count itself in _threads_busy
    (thread_pool.hpp:186-198), so the owner returns while its task is still running elsewhere. *)
Theorem pool_wait_other_callers_refuted :
  exists s, reach false (pool_init 0 1 [CPush 7; CWaitWork]) s /\ own s = ORet [] /\ ~ In 7 (fin s).
Proof.
  eexists. split.
  - unfold pool_init; cbn [repeat].
    own_. own_. own_. none_. other_ 0. other_ 0. other_ 0. own_. own_. own_. own_. apply R_refl.
  - cbn. auto.
Qed.

(** Non-vacuity of the theorems above: one worker executes task 1, the owner task 2. *)
Example pool_wait_case :
  exists s, reach false (pool_init 1 0 [CPush 1; CPush 2; CWaitWork; CPush 3]) s /\
            own s = ORet [CPush 3] /\ fin s = [1; 2].
Proof.
  eexists. split.
  - unfold pool_init; cbn [repeat].
    own_. own_. own_. none_. work_ 0. work_ 0. work_ 0. work_ 0. own_. own_. own_. none_.
    own_. own_. own_. own_. own_. work_ 0. work_ 0. own_. own_. own_. apply R_refl.
  - cbn. auto.
Qed.


(** The same for run with one worker, which sleeps when the task arrives. *)
Example pool_run_case :
  exists s, reach false (pool_init 1 0 [CRun [1] 2]) s /\ own s = ORet [] /\ fin s = [1; 2].
Proof.
  eexists. split.
  - unfold pool_init; cbn [repeat].
    work_ 0. work_ 0. own_. own_. own_. own_. cbn [wake_all map].
    work_ 0. work_ 0. work_ 0. work_ 0. own_. work_ 0. work_ 0. own_. own_. apply R_refl.
  - cbn. auto.
Qed.

(** wait_sleep reads _tasks.size() without the mutex (thread_pool.hpp:210) while a worker that
    holds the mutex pops the same queue (336-337): the two accesses are not ordered, which the
    C++ memory model calls a data race (undefined behaviour).  The theorems above describe run
    under the assumption that this read returns a value the queue has at that moment. *)
Definition racy (s : pst) : Prop :=
  (exists k, own s = OSize k) /\ exists i, nth_error (ws s) i = Some WInc.

Theorem run_race_free_refuted : exists s, reach false (pool_init 1 0 [CRun [1] 2]) s /\ racy s.
Proof.
  eexists. split.
  - unfold pool_init; cbn [repeat].
    own_. own_. own_. own_. cbn [wake_all map]. own_. work_ 0. work_ 0. apply R_refl.
  - split; [eexists; reflexivity|exists 0; reflexivity].
Qed.

(** wait_work has no such race: whoever touches the queue holds the mutex, and only one thread does. *)
Theorem pool_mutex ms n m k s :
  reach ms (pool_init n m k) s ->
  lsum wlk (ws s) + lsum xlk (xs s) + olk (own s) <= 1.
Proof.
  intro R. pose proof (I_lock _ (Inv_reach _ _ _ R (Inv_init n m k))). destruct (lock s); lia.
Qed.

(** ** No deadlock *)
Record Live (n : nat) (s : pst) : Prop := {
  L_len : length (ws s) = n;
  L_xs : xs s = [];
  L_exit : ~ In WExit (ws s);
  L_awake : (exists k, own s = OSize k) \/ (exists t k, own s = OSelf t k) -> tasks s = [] \/ ~ In WSleep (ws s) }.

Lemma In_upd {A} (l : list A) i a x : In x (upd l i a) -> x = a \/ In x l.
Proof.
  revert i; induction l as [|y l IH]; intros [|i]; cbn; intuition.
  destruct (IH i); auto.
Qed.

Lemma Live_step n s s' : step false s s' -> Inv s -> Live n s -> Live n s'.
Proof.
  intros St IV [H1 H2 H3 H4]. destruct St as [s i w b' q' l' w' d Hn St | s i x q' l' x' d Hn St | s q' l' w' o' p d St];
  destruct s as [b qq lk wl xl o pu fi]; cbn [busy tasks lock ws xs own pushed fin] in *.
  - constructor; cbn [busy tasks lock ws xs own pushed fin].
    + rewrite upd_length. exact H1.
    + exact H2.
    + intro Hx. apply In_upd in Hx. destruct Hx as [E|Hx]; [|auto]. subst w'. inversion St. discriminate.
    + intro Ho. specialize (H4 Ho).
      inversion St; subst; auto; try (destruct H4 as [Hq|Hs]; [discriminate Hq|]);
        try (destruct H4 as [->|Hs]; [left; reflexivity|]);
        right; intro Hx; apply In_upd in Hx; destruct Hx as [E|Hx]; try discriminate; auto.
  - subst xl. destruct i; discriminate.
  - constructor; cbn [busy tasks lock ws xs own pushed fin].
    + inversion St; subst; auto; rewrite ?upd_length; auto. unfold wake_all. rewrite map_length. auto.
    + exact H2.
    + inversion St; subst; auto.
      * intro Hx. apply In_upd in Hx. destruct Hx as [E|Hx]; [discriminate|auto].
      * unfold wake_all. intro Hx. apply in_map_iff in Hx. destruct Hx as (y & Ey & Hy).
        destruct y; try discriminate. auto.
    + intro Ho. inversion St; subst; auto; try (destruct Ho as [[? Ho]|[? [? Ho]]]; discriminate Ho).
      * right. unfold wake_all. intro Hx. apply in_map_iff in Hx. destruct Hx as (y & Ey & Hy). destruct y; discriminate.
      * apply H4. right. eauto.
      * left. exact (I_late _ IV eq_refl).
Qed.

Lemma Live_reach n k s : reach false (pool_init n 0 k) s -> Live n s.
Proof.
  intro R. assert (G : Inv s /\ Live n s); [|tauto].
  induction R as [|s s' R IH St].
  - split; [apply Inv_init|]. constructor; cbn.
    + apply repeat_length.
    + reflexivity.
    + intro H. apply repeat_spec in H. discriminate.
    + left. reflexivity.
  - destruct IH as [I1 I2]. split; [eapply Inv_step; eauto|eapply Live_step; eauto].
Qed.

(** A worker that holds the mutex, or is awake while the mutex is free, or runs a task, can go on. *)
Definition can_go (s : pst) : Prop := exists s', step false s s' /\ s' <> s.

Lemma worker_can b qq lk wl xl o pu fi i w :
  nth_error wl i = Some w ->
  match w with
  | WLock => lk = false
  | WCrit | WPop _ => lk = true
  | WInc => lk = true /\ qq <> []
  | WRun _ | WRan => True
  | WSleep | WExit => False
  end -> can_go (mkP b qq lk wl xl o pu fi).
Proof.
  intros Hn H.
  assert (D : forall b' q' l' w' d, w' <> w -> mkP b' q' l' (upd wl i w') xl o pu (d ++ fi) <> mkP b qq lk wl xl o pu fi).
  { intros b' q' l' w' d Hw E. injection E as _ _ _ E _. apply Hw.
    assert (N : nth_error (upd wl i w') i = Some w) by (rewrite E; exact Hn).
    rewrite nth_error_upd in N. rewrite Nat.eqb_refl in N.
    destruct (i <? length wl) eqn:L; cbn in N; [congruence|].
    apply Nat.ltb_ge in L. rewrite (proj2 (nth_error_None wl i) L) in Hn. discriminate. }
  destruct w; try contradiction.
  - subst lk. eexists. split; [eapply (S_worker _ _ i); cbn; [exact Hn|apply W_acquire]|apply D; discriminate].
  - subst lk. destruct qq.
    + eexists. split; [eapply (S_worker _ _ i); cbn; [exact Hn|apply W_wait]|apply D; discriminate].
    + eexists. split; [eapply (S_worker _ _ i); cbn; [exact Hn|apply W_inc]|apply D; discriminate].
  - destruct H as [-> H]. destruct qq; [congruence|].
    eexists. split; [eapply (S_worker _ _ i); cbn; [exact Hn|apply W_pop]|apply D; discriminate].
  - subst lk. eexists. split; [eapply (S_worker _ _ i); cbn; [exact Hn|apply W_unlock]|apply D; discriminate].
  - eexists. split; [eapply (S_worker _ _ i); cbn; [exact Hn|apply W_run]|apply D; discriminate].
  - eexists. split; [eapply (S_worker _ _ i); cbn; [exact Hn|apply W_dec]|apply D; discriminate].
Qed.

Lemma no_cmd_fix (c : cmd) k : c :: k <> k.
Proof. intro E. apply (f_equal (@length cmd)) in E. cbn in E; rewrite ?cnt_nil in E. lia. Qed.

(** With at least one worker nothing is ever stuck: as long as the owner has calls to make, some
    thread can take a step that changes the state (lost notifications are impossible). *)
Theorem pool_no_deadlock n k s :
  1 <= n -> reach false (pool_init n 0 k) s -> own s = OCmd [] \/ can_go s.
Proof.
  intros Hn R. pose proof (Live_reach _ _ _ R) as [H1 H2 H3 H4].
  pose proof (Inv_reach _ _ _ R (Inv_init n 0 k)) as [Hl Hb Ht Hq Hi Hr].
  destruct s as [b qq lk wl xl o pu fi]; cbn [busy tasks lock ws xs own pushed fin] in *. subst xl. cbn in Hl.
  (* a worker holding the mutex can go on *)
  destruct (Nat.eq_dec (lsum wlk wl) 0) as [W0|W0].
  2:{ right. destruct (lsum_pos _ _ W0) as (i & w & Hw & Hw1).
      assert (lk = true) by (destruct lk; [reflexivity|lia]). subst lk.
      eapply worker_can; [exact Hw|]. destruct w; cbn in Hw1; try lia; auto.
      split; [reflexivity|]. intro Q0. pose proof (lsum_ge winc _ _ _ Hw) as G. cbn in G. specialize (Hi Q0). lia. }
  rewrite W0 in Hl. cbn in Hl.
  assert (G : forall q' l' w' o' p d, ostep b qq lk wl o q' l' w' o' p d -> o' <> o -> can_go (mkP b qq lk wl [] o pu fi)).
  { intros q' l' w' o' p d So Hne. eexists. split; [eapply S_owner; exact So|]. intro E. injection E. intros. congruence. }
  (* busy workers can go on *)
  assert (GB : b <> 0 -> can_go (mkP b qq lk wl [] o pu fi)).
  { intro B0. subst b. destruct (lsum_pos _ _ B0) as (i & w & Hw & Hw1).
    pose proof (lsum_ge wlk _ _ _ Hw) as Gl.
    eapply worker_can; [exact Hw|]. destruct w; cbn in Hw1, Gl; try lia; auto. }
  destruct o; cbn [olk late] in *.
  all: try (assert (lk = true) by (destruct lk; [reflexivity|lia]); subst lk).
  all: try (assert (lk = false) by (destruct lk; [lia|reflexivity]); subst lk).
  - destruct k0 as [|c k0]; [left; reflexivity|right]. destruct c.
    + eapply G; [eapply O_push_lock|discriminate].
    + eapply G; [eapply O_wait|discriminate].
    + eapply G; [eapply O_run_lock|discriminate].
  - right. eapply G; [eapply O_emplace|discriminate].
  - right. eapply G; [eapply O_push_unlock|discriminate].
  - right. destruct (in_dec (fun a b : wst => ltac:(decide equality; apply Nat.eq_dec)) WSleep wl) as [Hin|Hin].
    + apply In_nth_error in Hin. destruct Hin as (i & Hi'). eapply G; [eapply O_notify_one; exact Hi'|discriminate].
    + eapply G; [eapply O_notify_none; exact Hin|discriminate].
  - right. eapply G; [eapply O_work_lock|discriminate].
  - right. destruct qq; [eapply G; [eapply O_work_empty|discriminate]|eapply G; [eapply O_work_pop|discriminate]].
  - right. eapply G; [eapply O_work_unlock|discriminate].
  - right. eapply G; [eapply O_work_run|discriminate].
  - right. destruct (Nat.eq_dec b 0) as [->|B0]; [|auto]. eapply G; [eapply O_busy_done|discriminate].
  - right. destruct ts as [|t ts].
    + eapply G; [eapply O_run_unlock|discriminate].
    + eapply G; [eapply O_run_emplace|]. intro E. injection E as E. apply (f_equal (@length nat)) in E. cbn in E; rewrite ?cnt_nil in E. lia.
  - right. eapply G; [eapply O_notify_all|discriminate].
  - right. eapply G; [eapply O_self|discriminate].
  - right. destruct qq as [|t qq]; [eapply G; [eapply O_size_zero|discriminate]|].
    destruct wl as [|w wl]; [cbn in H1; lia|].
    destruct H4 as [H4|H4]; [left; eauto|discriminate|].
    eapply (worker_can _ _ _ _ _ _ _ _ 0); [reflexivity|].
    cbn in W0. destruct w; cbn in W0; try lia; auto; [apply H4|apply H3]; left; reflexivity.
  - right. destruct (Nat.eq_dec b 0) as [->|B0]; [|auto]. eapply G; [eapply O_sleep_done|discriminate].
  - right. eapply G; [eapply O_next|]. discriminate.
Qed.

Example pool_no_deadlock_case : 1 <= 1 /\ reach false (pool_init 1 0 [CRun [1] 2]) (pool_init 1 0 [CRun [1] 2]).
Proof. split; [lia|apply R_refl]. Qed.

(** Without workers (one thread) run never returns when a task pushed before is still queued:
    wait_sleep (thread_pool.hpp:208-212) waits for a queue nobody empties. *)
Theorem run_without_workers_refuted :
  exists s, reach false (pool_init 0 0 [CPush 1; CRun [] 2]) s /\ own s <> ORet [] /\
            forall s', reach false s s' -> s' = s.
Proof.
  eexists. split; [|split].
  - unfold pool_init; cbn [repeat].
    own_. own_. own_. none_. own_. own_. own_. own_. apply R_refl.
  - discriminate.
  - induction 1 as [|a c R IH St]; [reflexivity|]. subst a.
    inversion St; cbn in *; subst.
    + destruct i; discriminate.
    + destruct i; discriminate.
    + match goal with H : ostep _ _ _ _ _ _ _ _ _ _ _ |- _ => inversion H; subst end. reflexivity.
Qed.

(** ** C29: the barrier *)

(** Calls of wait() a thread has completed / entered. *)
Definition left_ (t : bst) : nat := match t with BOut p | BWait p | BLast p | BWoken p => p end.
Definition entered (t : bst) : nat := match t with BOut p => p | BWait p | BLast p | BWoken p => S p end.

(** Nobody has left a phase that somebody has not entered. *)
Definition barrier_ok (s : bar) : Prop :=
  forall t u, In t (b_ts s) -> In u (b_ts s) -> left_ t <= entered u.

Definition okA (P : nat) (t : bst) : Prop := t = BOut P \/ t = BWait P \/ (0 < P /\ t = BWoken (pred P)).
Definition bw (t : bst) : nat := match t with BWait _ => 1 | _ => 0 end.

Definition BInv (n : nat) (s : bar) : Prop :=
  b_count s = n /\ length (b_ts s) = n /\
  exists P, (Forall (okA P) (b_ts s) /\ b_i s = lsum bw (b_ts s)) \/
            (b_i s = 0 /\ exists i, nth_error (b_ts s) i = Some (BLast P) /\
               forall j t, j <> i -> nth_error (b_ts s) j = Some t -> t = BWait P).

Lemma lsum_bw_le l : lsum bw l <= length l.
Proof. induction l as [|t l IH]; cbn; [lia|]. destruct t; cbn; lia. Qed.

Lemma lsum_bw_full l i t : nth_error l i = Some t -> bw t = 0 -> length l <= S (lsum bw l) ->
  forall j u, j <> i -> nth_error l j = Some u -> bw u = 1.
Proof.
  revert i; induction l as [|x l IH]; intros [|i] Hi Ht Hs j u Hj Hu; cbn in *; try discriminate.
  - injection Hi as ->. destruct j as [|j]; [lia|].
    assert (Hf : lsum bw l = length l) by (pose proof (lsum_bw_le l); lia).
    clear -Hf Hu. cbn in Hu. revert j Hu Hf. induction l as [|y l IH]; intros [|j] Hu Hf; cbn in *; try discriminate.
    + injection Hu as ->. pose proof (lsum_bw_le l). destruct u; cbn in *; lia.
    + pose proof (lsum_bw_le l). assert (bw y <= 1) by (destruct y; cbn; lia). eapply IH; [exact Hu|lia].
  - destruct j as [|j].
    + cbn in Hu. injection Hu as ->. pose proof (lsum_bw_le l).
      assert (bw u <= 1) by (destruct u; cbn; lia).
      assert (G : lsum bw l < length l).
      { clear -Hi Ht. revert i Hi. induction l as [|y l IH]; intros [|i] Hi; cbn in *; try discriminate.
        - injection Hi as ->. pose proof (lsum_bw_le l). lia.
        - specialize (IH i Hi). assert (bw y <= 1) by (destruct y; cbn; lia). lia. }
      lia.
    + cbn in Hu. assert (bw x <= 1) by (destruct x; cbn; lia).
      eapply (IH i Hi Ht); [lia| |exact Hu]. lia.
Qed.

Lemma okA_nth P l i t : Forall (okA P) l -> nth_error l i = Some t -> okA P t.
Proof. intros F H. eapply Forall_forall; [exact F|]. eapply nth_error_In; eauto. Qed.

Lemma BInv_step n s s' : bstep false s s' -> BInv n s -> BInv n s'.
Proof.
  intros St (Hc & Hlen & P & [(HF & Hi)|(Hi & i0 & H0 & Hw)]).
  - destruct St as [s i p Hn Hg | s i p Hn Hg | s i p Hn | s i p Hn | s i p Hs Hn]; try discriminate;
      unfold BInv; cbn [b_i b_count b_ts] in *; pose proof (okA_nth _ _ _ _ HF Hn) as Hok.
    + assert (p = P) by (destruct Hok as [E|[E|[_ E]]]; congruence). subst p.
      split; [exact Hc|]. split; [rewrite upd_length; exact Hlen|]. exists P. right. split; [reflexivity|].
      exists i. split.
      { rewrite nth_error_upd, Nat.eqb_refl.
        assert (L : i < length (b_ts s)) by (apply nth_error_Some; rewrite Hn; discriminate).
        apply Nat.ltb_lt in L. rewrite L. reflexivity. }
      intros j t Hj Ht. rewrite nth_error_upd in Ht.
      destruct (j =? i) eqn:E; [apply Nat.eqb_eq in E; contradiction|].
      pose proof (okA_nth _ _ _ _ HF Ht) as Ot.
      assert (bw t = 1) by (eapply (lsum_bw_full (b_ts s) i); [exact Hn|reflexivity|lia|exact Hj|exact Ht]).
      destruct Ot as [->|[->|[_ ->]]]; cbn in *; congruence.
    + assert (p = P) by (destruct Hok as [E|[E|[_ E]]]; congruence). subst p.
      split; [exact Hc|]. split; [rewrite upd_length; exact Hlen|]. exists P. left. split.
      * apply Forall_upd; [exact HF|]. right. left. reflexivity.
      * pose proof (lsum_upd bw _ _ _ (BWait P) Hn) as E. cbn in E; rewrite ?cnt_nil in E. lia.
    + destruct Hok as [E|[E|[_ E]]]; discriminate.
    + assert (0 < P /\ p = pred P) as [HP ->] by (destruct Hok as [E|[E|[HP E]]]; try discriminate; injection E as ->; auto).
      split; [exact Hc|]. split; [rewrite upd_length; exact Hlen|]. exists P. left. split.
      * apply Forall_upd; [exact HF|]. left. f_equal. lia.
      * pose proof (lsum_upd bw _ _ _ (BOut (S (pred P))) Hn) as E. cbn in E; rewrite ?cnt_nil in E. lia.
  - assert (Only : forall i t, nth_error (b_ts s) i = Some t -> (i = i0 /\ t = BLast P) \/ t = BWait P).
    { intros i t Ht. destruct (Nat.eq_dec i i0) as [->|Ne]; [left; split; congruence|right; eauto]. }
    destruct St as [s i p Hn Hg | s i p Hn Hg | s i p Hn | s i p Hn | s i p Hs Hn]; try discriminate;
      unfold BInv; cbn [b_i b_count b_ts] in *; destruct (Only _ _ Hn) as [[Ei E]|E]; try discriminate.
    injection E as ->. subst i. unfold bwake.
    split; [exact Hc|]. split; [rewrite map_length, upd_length; exact Hlen|].
    exists (S P). left. split.
    + apply Forall_forall. intros t Ht. apply in_map_iff in Ht. destruct Ht as (y & <- & Hy).
      apply In_nth_error in Hy. destruct Hy as (j & Hj). rewrite nth_error_upd in Hj.
      destruct (j =? i0) eqn:E.
      * apply Nat.eqb_eq in E. subst j.
        assert (L : i0 < length (b_ts s)) by (apply nth_error_Some; rewrite H0; discriminate).
        apply Nat.ltb_lt in L. rewrite L in Hj. cbn in Hj. injection Hj as <-. left. reflexivity.
      * cbn [andb] in Hj. destruct (Only _ _ Hj) as [[Ej _]| ->]; [apply Nat.eqb_neq in E; contradiction|]. right. right. split; [lia|reflexivity].
    + rewrite Hi. symmetry. generalize (upd (b_ts s) i0 (BOut (S P))). intro l. induction l as [|x l IH]; cbn; [reflexivity|].
      rewrite IH. destruct x; reflexivity.
Qed.

(** Without spurious wake-ups the barrier keeps its promise, for every number of threads, over any
    number of phases. *)
Theorem barrier_phases n s : breach false (bar_init n) s -> barrier_ok s.
Proof.
  intro R. assert (I : BInv n s).
  { induction R as [|s s' R IH St]; [|eapply BInv_step; eauto].
    split; [reflexivity|]. split; [cbn; apply repeat_length|]. exists 0. left. split.
    - apply Forall_forall. intros t Ht. apply repeat_spec in Ht. left. exact Ht.
    - cbn. symmetry. apply lsum_repeat. reflexivity. }
  destruct I as (_ & _ & P & [(HF & _)|(_ & i0 & H0 & Hw)]); intros t u Ht Hu.
  - rewrite Forall_forall in HF. pose proof (HF _ Ht) as A. pose proof (HF _ Hu) as B.
    destruct A as [->|[->|[? ->]]]; destruct B as [->|[->|[? ->]]]; cbn; lia.
  - assert (Only : forall t, In t (b_ts s) -> t = BLast P \/ t = BWait P).
    { intros v Hv. apply In_nth_error in Hv. destruct Hv as (j & Hj).
      destruct (Nat.eq_dec j i0) as [->|Ne]; [left; congruence|right; eauto]. }
    destruct (Only _ Ht) as [->| ->]; destruct (Only _ Hu) as [->| ->]; cbn; lia.
Qed.

Lemma breach_fwd sp s0 s s' : bstep sp s0 s -> breach sp s s' -> breach sp s0 s'.
Proof.
  intros St R. induction R as [|a b R IH St']; [|eapply BR_step; eauto].
  eapply BR_step; [apply BR_refl|exact St].
Qed.

(** condition.wait of 373 is not guarded by a predicate, so the full statement (which includes the
    spurious wake-ups the C++ standard allows) is false: one of two threads passes the barrier
    although the other has never entered it. *)
Theorem barrier_spurious_refuted :
  exists s, breach true (bar_init 2) s /\ ~ barrier_ok s.
Proof.
  eexists. split.
  - eapply breach_fwd; [eapply (B_wait _ _ 0); cbn; [reflexivity|lia]|].
    eapply breach_fwd; [eapply (B_spurious _ _ 0); cbn; reflexivity|].
    eapply breach_fwd; [eapply (B_leave _ _ 0); cbn; reflexivity|]. apply BR_refl.
  - cbn. intro H. specialize (H (BOut 1) (BOut 0)). cbn in H. specialize (H (or_introl eq_refl) (or_intror (or_introl eq_refl))). lia.
Qed.

(** Non-vacuity: two threads pass a whole phase and one starts the next. *)
Example barrier_phases_case :
  exists s, breach false (bar_init 2) s /\ b_ts s = [BWait 1; BWoken 0].
Proof.
  eexists. split.
  - eapply breach_fwd; [eapply (B_wait _ _ 1); cbn; [reflexivity|lia]|].
    eapply breach_fwd; [eapply (B_last _ _ 0); cbn; [reflexivity|lia]|].
    eapply breach_fwd; [eapply (B_notify _ _ 0); cbn; reflexivity|].
    eapply breach_fwd; [eapply (B_wait _ _ 0); cbn; [reflexivity|lia]|]. apply BR_refl.
  - reflexivity.
Qed.

Print Assumptions pool_wait_complete.
Print Assumptions pool_at_most_once.
Print Assumptions pool_wait_other_callers.
Print Assumptions pool_wait_other_callers_refuted.
Print Assumptions run_race_free_refuted.
Print Assumptions pool_mutex.
Print Assumptions pool_no_deadlock.
Print Assumptions run_without_workers_refuted.
Print Assumptions barrier_phases.
Print Assumptions barrier_spurious_refuted.
