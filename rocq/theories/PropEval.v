(** C24, C25: what the evaluators keep, for every sequence of reported solutions. *)
From Coq Require Import List ZArith Arith Bool Lia Permutation Sorted.
From Verif Require Import Util EvalModel EvalProofs.
Import ListNotations.

(** integer lengths, no scaling; used by the examples and counterexamples *)
Definition z_fops : fops Z :=
  {| FT := Z; f_lt := Z.ltb; f_of := fun x => x; f_bnd := fun x => x; f_nul := 0%Z; f_z := 0%Z |}.
Lemma z_asym a b : f_lt z_fops a b = true -> f_lt z_fops b a = false.
Proof. cbn. rewrite Z.ltb_lt, Z.ltb_ge. lia. Qed.
Lemma z_trans a b c : f_lt z_fops b a = false -> f_lt z_fops c b = false -> f_lt z_fops c a = false.
Proof. cbn. rewrite !Z.ltb_ge. lia. Qed.

Section Evaluators.
Context {E : Type} (f : fops E).
(** [<] on lengths is a strict weak order (no NaN) *)
Hypothesis lt_asym : forall a b, f_lt f a b = true -> f_lt f b a = false.
Hypothesis le_trans : forall a b c, f_lt f b a = false -> f_lt f c b = false -> f_lt f c a = false.

Lemma eval_count strat N l : forall ev m, ev_count (fst (eval_all f strat N l ev m)) = ev_count ev + length l.
Proof.
  induction l as [|[v nd] t IH]; intros ev m; cbn [eval_all length fst]; [lia|].
  unfold eval_sol, process_sol. cbn zeta.
  destruct strat; [destruct (Nat.ltb _ N)|destruct (Nat.leb _ N)|destruct (Nat.ltb _ N)]; rewrite IH; cbn [ev_count]; lia.
Qed.

(** C24.  After any sequence of reports the BestN store consists of the N shortest reports (ties
    broken arbitrarily, all reports if fewer than N); the bound is untouched while fewer than N are held and
    is the largest kept length afterwards. *)
Theorem best_n_keeps_shortest N l m0 : 1 <= N ->
  let ev := fst (eval_all f BestN N l (ev_init f) m0) in
  let m := snd (eval_all f BestN N l (ev_init f) m0) in
  shortest_of f N (ev_sols ev) (items f l) /\
  (length l < N -> m = m0) /\
  (N <= length l -> exists p, In p (ev_sols ev) /\ m = f_bnd f (fst p) /\ forall q, In q (ev_sols ev) -> key_le f q p) /\
  ev_count ev = length l.
Proof.
  intros HN ev m.
  assert (S : store_ok f N ev (items f l)) by (apply (store_all f lt_asym le_trans N HN BestN l ltac:(discriminate) (ev_init f) m0 []); apply store_init; auto).
  assert (B : bound_ok f N ev m0 m).
  { apply (bound_all f lt_asym le_trans N HN l (ev_init f) m0 m0 []); [apply store_init; auto|].
    unfold bound_ok. cbn [ev_sols ev_init length]. destruct (Nat.ltb_spec 0 N); [auto|lia]. }
  destruct S as [S1 S2]. assert (L : length (ev_sols ev) = Nat.min N (length l)).
  { destruct S2 as (? & _ & L & _). unfold items in L. rewrite map_length in L. exact L. }
  split; [exact S2|]. unfold bound_ok in B. split; [|split].
  - intros H. destruct (Nat.ltb_spec (length (ev_sols ev)) N); [auto|lia].
  - intros H. destruct (Nat.ltb_spec (length (ev_sols ev)) N); [lia|]. destruct (ev_sols ev) as [|p t] eqn:EV; [contradiction|].
    exists p. split; [now left|]. split; auto. intros q [<-|Hq]; [|eapply sorted_hd; eauto].
    unfold key_le. destruct (f_lt f (fst p) (fst p)) eqn:X; auto. now rewrite (lt_asym _ _ X) in X.
  - apply eval_count.
Qed.

(** The kept solutions are ordered: begin() of the interface (evaluator.h:95-98) is a shortest one. *)
Theorem best_n_last_is_shortest N l m0 p : 1 <= N ->
  let ev := fst (eval_all f BestN N l (ev_init f) m0) in
  hd_error (rev (ev_sols ev)) = Some p -> forall q, In q (items f l) -> key_le f p q.
Proof.
  intros HN ev HP q Hq.
  assert (S : store_ok f N ev (items f l)) by (apply (store_all f lt_asym le_trans N HN BestN l ltac:(discriminate) (ev_init f) m0 []); apply store_init; auto).
  destruct S as [S1 (dr & P & L & D)].
  assert (EV : exists t, ev_sols ev = t ++ [p]).
  { destruct (rev (ev_sols ev)) as [|a t] eqn:R; [discriminate|]. cbn in HP. injection HP as ->.
    exists (rev t). rewrite <- (rev_involutive (ev_sols ev)), R. reflexivity. }
  destruct EV as [t EV].
  assert (Hin : In p (ev_sols ev)) by (rewrite EV; apply in_or_app; right; now left).
  apply Permutation_sym in P. apply (Permutation_in _ P) in Hq. apply in_app_or in Hq as [Hq|Hq]; [|now apply D].
  rewrite EV in S1, Hq. apply in_app_or in Hq as [Hq|[<-|[]]].
  - clear -S1 Hq. induction t as [|a t IH]; [destruct Hq|]. cbn in S1. inversion S1; subst. destruct Hq as [<-|Hq]; [|auto].
    rewrite Forall_forall in H2. apply H2. apply in_or_app. right. now left.
  - unfold key_le. destruct (f_lt f (fst p) (fst p)) eqn:X; auto. now rewrite (lt_asym _ _ X) in X.
Qed.

(** C25, OppN: the store holds the N shortest reports, the bound is the length of the last report. *)
Theorem opp_n_keeps_shortest N l m0 : 1 <= N ->
  shortest_of f N (ev_sols (fst (eval_all f OppN N l (ev_init f) m0))) (items f l).
Proof.
  intros HN. apply (store_all f lt_asym le_trans N HN OppN l ltac:(discriminate) (ev_init f) m0 []). apply store_init; auto.
Qed.
Theorem opp_n_bound_follows N l v nd m0 :
  snd (eval_all f OppN N (l ++ [(v, nd)]) (ev_init f) m0) = f_bnd f (f_of f nd).
Proof. apply opp_bound. Qed.
(** ... and when each report is no longer than the previous ones (a serial enumeration), the store is exactly
    the N most recent reports, oldest first. *)
Theorem opp_n_keeps_recent N l m0 : 1 <= N -> StronglySorted (fun a b => key_le f b a) (items f l) ->
  ev_sols (fst (eval_all f OppN N l (ev_init f) m0)) = lastn N (items f l).
Proof. intros HN. now apply opp_recent. Qed.

(** C25, FirstN: while at most N solutions arrive, all are stored; from the N-th on the bound is 0. *)
Theorem first_n_store N l m0 : 1 <= N ->
  Permutation (ev_sols (fst (eval_all f FirstN N l (ev_init f) m0))) (items f l) /\
  (length l < N -> snd (eval_all f FirstN N l (ev_init f) m0) = m0) /\
  (N <= length l -> snd (eval_all f FirstN N l (ev_init f) m0) = f_z f).
Proof.
  intros HN. split; [apply (first_perm f N l (ev_init f) m0)|]. rewrite first_bound by auto. cbn [ev_sols ev_init length Nat.add].
  split; intros H.
  - destruct (Nat.ltb_spec (length l) N); [reflexivity|lia].
  - destruct (Nat.ltb_spec (length l) N); [lia|]. destruct (Nat.eqb_spec (length l) 0); [lia|reflexivity].
Qed.

(** A callback that rejects leaves evaluator and bound untouched (evaluator.h:256-257). *)
Theorem callback_reject cb strat N v nd m ev : cb v = false -> eval_sol_cb f cb strat N v nd m ev = (ev, m).
Proof. unfold eval_sol_cb. now intros ->. Qed.
Theorem callback_accept cb strat N v nd m ev : cb v = true ->
  eval_sol_cb f cb strat N v nd m ev = eval_sol f strat N v nd m ev.
Proof. unfold eval_sol_cb. now intros ->. Qed.
End Evaluators.

(** three reports kept out of five, with ties *)
Example best_n_ex :
  let l := [([5], 25); ([3], 9); ([-3], 9); ([1], 1); ([4], 16)]%Z in
  eval_all z_fops BestN 3 l (ev_init z_fops) 100%Z =
  ({| ev_sols := [(9, [3]); (9, [-3]); (1, [1])]%Z : list (FT z_fops * list Z); ev_count := 5; ev_subs := [] |}, 9%Z).
Proof. reflexivity. Qed.
Example best_n_hyps : 1 <= 3 /\ (forall a b, f_lt z_fops a b = true -> f_lt z_fops b a = false) /\
  (forall a b c, f_lt z_fops b a = false -> f_lt z_fops c b = false -> f_lt z_fops c a = false).
Proof. split; [lia|]. split; [exact z_asym|exact z_trans]. Qed.
Example best_n_last_ex :
  let l := [([5], 25); ([3], 9); ([-3], 9); ([1], 1); ([4], 16)]%Z in
  hd_error (rev (ev_sols (fst (eval_all z_fops BestN 3 l (ev_init z_fops) 100%Z)))) = Some (1, [1])%Z.
Proof. reflexivity. Qed.
Example opp_n_ex :
  let l := [([5], 25); ([4], 16); ([3], 9)]%Z in
  StronglySorted (fun a b => key_le z_fops b a) (items z_fops l) /\
  eval_all z_fops OppN 2 l (ev_init z_fops) 100%Z =
  ({| ev_sols := [(16, [4]); (9, [3])]%Z : list (FT z_fops * list Z); ev_count := 3; ev_subs := [] |}, 9%Z).
Proof. split; [|reflexivity]. repeat (constructor; [|repeat constructor]). constructor. Qed.
Example first_n_ex :
  eval_all z_fops FirstN 2 [([5], 25); ([7], 49)]%Z (ev_init z_fops) 100%Z =
  ({| ev_sols := [(49, [7]); (25, [5])]%Z : list (FT z_fops * list Z); ev_count := 2; ev_subs := [] |}, 0%Z).
Proof. reflexivity. Qed.
Example callback_ex : (fun v => Z.eqb (hd 0%Z v) 1) [2%Z] = false /\ (fun v => Z.eqb (hd 0%Z v) 1) [1%Z] = true.
Proof. split; reflexivity. Qed.

(** C25 is false for solutions that arrive after the bound became zero, as they may with the parallel
    enumeration: FirstN drops nothing, so it stores more than N. *)
Theorem first_n_stores_more_refuted : exists N l,
  1 <= N /\ N < length (ev_sols (fst (eval_all z_fops FirstN N l (ev_init z_fops) 100%Z))).
Proof. exists 1, [([5], 25); ([3], 9)]%Z. cbn. lia. Qed.
(** ... and in general it stores every one of them *)
Theorem first_n_unbounded_refuted : forall N k, 1 <= N -> exists l,
  length (ev_sols (fst (eval_all z_fops FirstN N l (ev_init z_fops) 100%Z))) = N + k.
Proof.
  intros N k HN. exists (repeat ([1%Z], 1%Z) (N + k)). rewrite first_len by auto. cbn [ev_sols ev_init length]. now rewrite repeat_length.
Qed.
(** OppN: when a worker reports a longer solution than one already stored (it searched with a stale bound), the
    bound grows again, and the report itself is dropped, so the store is not made of the most recent reports. *)
Theorem opp_n_out_of_order_refuted : exists N l1 p,
  1 <= N /\
  (snd (eval_all z_fops OppN N l1 (ev_init z_fops) 100) < snd (eval_all z_fops OppN N (l1 ++ [p]) (ev_init z_fops) 100))%Z /\
  ~ In (snd p, fst p) (ev_sols (fst (eval_all z_fops OppN N (l1 ++ [p]) (ev_init z_fops) 100%Z))).
Proof.
  exists 1, [([1], 1)]%Z, ([5], 25)%Z. split; [lia|]. split; [reflexivity|]. cbn. intros [H|[]]. discriminate.
Qed.

Print Assumptions best_n_keeps_shortest.
Print Assumptions best_n_last_is_shortest.
Print Assumptions opp_n_keeps_shortest.
Print Assumptions opp_n_bound_follows.
Print Assumptions opp_n_keeps_recent.
Print Assumptions first_n_store.
Print Assumptions first_n_unbounded_refuted.
Print Assumptions opp_n_out_of_order_refuted.
