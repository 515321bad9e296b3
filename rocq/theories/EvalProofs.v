(** What the evaluator stores after a sequence of reports. *)
From Coq Require Import List ZArith Arith Bool Lia Permutation Sorted.
From Verif Require Import Util EvalModel.
Import ListNotations.

Section EP.
Context {E : Type} (f : fops E).
Notation FT := (FT f).
Notation item := (FT * list Z)%type.

(** [a] is not longer than [b] *)
Definition key_le (a b : item) : Prop := f_lt f (fst b) (fst a) = false.
(** longest first *)
Definition sorted (l : list item) : Prop := StronglySorted (fun a b => key_le b a) l.
(** the reports as stored items *)
Definition items (l : list (list Z * E)) : list item := map (fun p => (f_of f (snd p), fst p)) l.

(** [kept] are the [N] shortest of [all] (all of them if there are fewer than [N]) *)
Definition shortest_of (N : nat) (kept all : list item) : Prop :=
  exists dropped, Permutation (kept ++ dropped) all /\ length kept = Nat.min N (length all) /\
    forall k d, In k kept -> In d dropped -> key_le k d.

(** strict weak order: true of [<] on floating-point numbers without NaN *)
Hypothesis lt_asym : forall a b, f_lt f a b = true -> f_lt f b a = false.
Hypothesis le_trans : forall a b c, f_lt f b a = false -> f_lt f c b = false -> f_lt f c a = false.

Lemma key_le_trans a b c : key_le a b -> key_le b c -> key_le a c.
Proof. unfold key_le. intros. eapply le_trans; eauto. Qed.

Lemma emplace_perm p l : Permutation (emplace f p l) (p :: l).
Proof.
  induction l as [|q t IH]; cbn; auto. destruct (f_lt f (fst q) (fst p)); auto.
  rewrite IH. apply perm_swap.
Qed.
Lemma emplace_len p l : length (emplace f p l) = S (length l).
Proof. rewrite (Permutation_length (emplace_perm p l)). reflexivity. Qed.
Lemma emplace_sorted p l : sorted l -> sorted (emplace f p l).
Proof.
  induction l as [|q t IH]; cbn; intros H; [repeat constructor|].
  inversion H; subst. destruct (f_lt f (fst q) (fst p)) eqn:C.
  - constructor; auto. constructor; [now apply lt_asym|].
    eapply Forall_impl; [|exact H3]. intros a Ha. eapply key_le_trans; [exact Ha|]. now apply lt_asym.
  - constructor; [apply IH; auto|]. rewrite Forall_forall in *. intros a Ha.
    apply (Permutation_in _ (emplace_perm p t)) in Ha. destruct Ha as [<-|Ha]; auto.
Qed.
Lemma sorted_tl l : sorted l -> sorted (List.tl l).
Proof. destruct l; cbn; intros H; auto. inversion H; auto. Qed.
Lemma sorted_hd p l : sorted (p :: l) -> forall q, In q l -> key_le q p.
Proof. intros H q Hq. inversion H; subst. rewrite Forall_forall in H3. auto. Qed.

Lemma shortest_snoc_room N kept all p kept' : shortest_of N kept all -> length kept < N ->
  Permutation kept' (p :: kept) -> shortest_of N kept' (all ++ [p]).
Proof.
  intros (dr & P & L & D) HN HP.
  assert (length all = length kept + length dr) by (rewrite <- (Permutation_length P), app_length; auto).
  assert (length dr = 0) by lia. destruct dr; [|discriminate]. clear D. rewrite app_nil_r in P.
  exists []. rewrite app_nil_r. split; [|split].
  - rewrite HP, P. now rewrite Permutation_app_comm.
  - rewrite (Permutation_length HP), app_length. cbn in *. lia.
  - intros k d _ [].
Qed.
Lemma shortest_snoc_full N kept all p x kept' : shortest_of N kept all -> length kept = N -> sorted (x :: kept') ->
  Permutation (x :: kept') (p :: kept) -> shortest_of N kept' (all ++ [p]).
Proof.
  intros (dr & P & L & D) HN HS HP.
  assert (Hlen : length kept' = length kept) by (apply Permutation_length in HP; cbn in HP; lia).
  assert (length all = length kept + length dr) by (rewrite <- (Permutation_length P), app_length; auto).
  exists (x :: dr). split; [|split].
  - rewrite <- Permutation_middle. change (x :: kept' ++ dr) with ((x :: kept') ++ dr). rewrite HP. cbn [app].
    rewrite P. apply Permutation_cons_append.
  - rewrite app_length. cbn. lia.
  - intros k d Hk [<-|Hd]; [eapply sorted_hd; eauto|].
    assert (HK : In k (x :: kept')) by (now right). apply (Permutation_in _ HP) in HK. destruct HK as [<-|HK]; [|now apply D].
    (* k = p : then x is in kept unless x = p *)
    assert (HX : In x (p :: kept)) by (apply (Permutation_in _ HP); now left).
    pose proof (sorted_hd _ _ HS p Hk) as Hpx.
    destruct HX as [<-|HX]; [|eapply key_le_trans; [exact Hpx|now apply D]].
    assert (HP' : Permutation kept' kept) by (eapply Permutation_cons_inv; eauto).
    apply D; auto. now apply (Permutation_in _ HP').
Qed.

Variable N : nat.
Hypothesis HN : 1 <= N.

(** invariant of the store under BestN and OppN *)
Definition store_ok (ev : evst f) (all : list item) : Prop :=
  sorted (ev_sols ev) /\ shortest_of N (ev_sols ev) all.

Lemma store_init : store_ok (ev_init f) [].
Proof. split; [constructor|]. exists []. split; [constructor|]. split; [cbn; lia|]. intros k d []. Qed.

Lemma store_process strat dist v m ev all : strat <> FirstN -> store_ok ev all ->
  store_ok (fst (process_sol f strat N dist v ev m)) (all ++ [(dist, v)]).
Proof.
  intros HST [S1 S2]. set (p := (dist, v)).
  pose proof (emplace_sorted p _ S1) as ES. pose proof (emplace_perm p (ev_sols ev)) as EP. pose proof (emplace_len p (ev_sols ev)) as EL.
  assert (LK : length (ev_sols ev) <= N) by (destruct S2 as (? & _ & L & _); lia).
  destruct strat; [| |contradiction]; unfold process_sol; cbn zeta; fold p.
  - destruct (Nat.ltb_spec (length (emplace f p (ev_sols ev))) N) as [H|H].
    + split; cbn; auto. apply shortest_snoc_room with (kept := ev_sols ev); auto. lia.
    + destruct (Nat.ltb_spec N (length (emplace f p (ev_sols ev)))) as [H'|H']; cbn.
      * split; cbn; [now apply sorted_tl|].
        destruct (emplace f p (ev_sols ev)) as [|x k'] eqn:EE; [cbn in *; lia|]. cbn [List.tl].
        apply shortest_snoc_full with (kept := ev_sols ev) (x := x); auto. cbn in *. lia.
      * split; cbn; auto. apply shortest_snoc_room with (kept := ev_sols ev); auto. lia.
  - destruct (Nat.leb_spec (length (emplace f p (ev_sols ev))) N) as [H|H]; cbn.
    + split; cbn; auto. apply shortest_snoc_room with (kept := ev_sols ev); auto. lia.
    + split; cbn; [now apply sorted_tl|].
      destruct (emplace f p (ev_sols ev)) as [|x k'] eqn:EE; [cbn in *; lia|]. cbn [List.tl].
      apply shortest_snoc_full with (kept := ev_sols ev) (x := x); auto. cbn in *. lia.
Qed.

Lemma store_step strat v nd m ev all : strat <> FirstN -> store_ok ev all ->
  store_ok (fst (eval_sol f strat N v nd m ev)) (all ++ [(f_of f nd, v)]).
Proof. apply store_process. Qed.

Lemma eval_all_app strat l1 : forall l2 ev m, eval_all f strat N (l1 ++ l2) ev m =
  let '(ev', m') := eval_all f strat N l1 ev m in eval_all f strat N l2 ev' m'.
Proof.
  induction l1 as [|[v nd] t IH]; intros l2 ev m; cbn; auto. destruct (eval_sol f strat N v nd m ev) as [ev' m']. apply IH.
Qed.

Lemma store_all strat l : strat <> FirstN -> forall ev m all, store_ok ev all ->
  store_ok (fst (eval_all f strat N l ev m)) (all ++ items l).
Proof.
  intros HS. induction l as [|[v nd] t IH]; intros ev m all H; cbn.
  - now rewrite app_nil_r.
  - pose proof (store_step strat v nd m ev all HS H) as X. destruct (eval_sol f strat N v nd m ev) as [ev' m'] eqn:EE.
    cbn [fst] in X. apply (IH _ m') in X. rewrite <- app_assoc in X. exact X.
Qed.

(** the bound under BestN *)
Definition bound_ok (ev : evst f) (m0 m : E) : Prop :=
  if Nat.ltb (length (ev_sols ev)) N then m = m0
  else match ev_sols ev with [] => False | p :: _ => m = f_bnd f (fst p) end.
Lemma bound_step v nd m m0 ev : length (ev_sols ev) <= N -> bound_ok ev m0 m ->
  bound_ok (fst (eval_sol f BestN N v nd m ev)) m0 (snd (eval_sol f BestN N v nd m ev)).
Proof.
  intros LK B. unfold eval_sol, process_sol. cbn zeta. set (p := (f_of f nd, v)). pose proof (emplace_len p (ev_sols ev)) as EL.
  unfold bound_ok in *.
  destruct (Nat.ltb_spec (length (emplace f p (ev_sols ev))) N) as [H|H].
  - cbn [fst snd ev_sols]. destruct (Nat.ltb_spec (length (emplace f p (ev_sols ev))) N); [|lia].
    destruct (Nat.ltb_spec (length (ev_sols ev)) N); [auto|lia].
  - cbn [fst snd ev_sols]. destruct (Nat.ltb_spec N (length (emplace f p (ev_sols ev)))) as [H'|H'].
    + destruct (emplace f p (ev_sols ev)) as [|x k'] eqn:EE; [cbn in *; lia|]. cbn [List.tl length] in *.
      destruct (Nat.ltb_spec (length k') N); [lia|]. destruct k'; [cbn in *; lia|]. reflexivity.
    + destruct (Nat.ltb_spec (length (emplace f p (ev_sols ev))) N); [lia|].
      destruct (emplace f p (ev_sols ev)) as [|x k'] eqn:EE; [cbn in *; lia|]. reflexivity.
Qed.
Lemma bound_all l : forall ev m m0 all, store_ok ev all -> bound_ok ev m0 m ->
  bound_ok (fst (eval_all f BestN N l ev m)) m0 (snd (eval_all f BestN N l ev m)).
Proof.
  induction l as [|[v nd] t IH]; intros ev m m0 all S B; cbn [eval_all]; [exact B|].
  pose proof (store_step BestN v nd m ev all ltac:(discriminate) S) as X.
  assert (LK : length (ev_sols ev) <= N) by (destruct S as [_ (? & _ & L & _)]; lia).
  pose proof (bound_step v nd m m0 ev LK B) as Y. destruct (eval_sol f BestN N v nd m ev) as [ev' m'].
  cbn [fst snd] in *. eapply IH; eauto.
Qed.

(** the bound under OppN is the length of the last report *)
Lemma opp_bound l v nd ev m : snd (eval_all f OppN N (l ++ [(v, nd)]) ev m) = f_bnd f (f_of f nd).
Proof.
  rewrite eval_all_app. destruct (eval_all f OppN N l ev m) as [ev' m']. cbn. unfold eval_sol, process_sol. cbn zeta.
  destruct (Nat.leb _ N); reflexivity.
Qed.

(** reports in order of strictly decreasing length: OppN keeps the most recent ones *)
Lemma emplace_last p l : Forall (fun q => f_lt f (fst q) (fst p) = false) l -> emplace f p l = l ++ [p].
Proof. induction 1; cbn; auto. rewrite H. now rewrite IHForall. Qed.

Definition lastn {A} (n : nat) (l : list A) : list A := skipn (length l - n) l.
Lemma lastn_snoc {A} n (l : list A) x : 1 <= n ->
  lastn n (l ++ [x]) = (if Nat.leb n (length l) then List.tl (lastn n l) else lastn n l) ++ [x].
Proof.
  intros Hn. unfold lastn. rewrite app_length. cbn [length]. destruct (Nat.leb_spec n (length l)).
  - replace (length l + 1 - n) with (S (length l - n)) by lia.
    rewrite skipn_app. replace (S (length l - n) - length l) with 0 by lia. cbn [skipn]. f_equal.
    generalize (length l - n) as k. clear. induction l as [|a l IH]; intros [|k]; cbn; auto.
  - replace (length l - n) with 0 by lia. replace (length l + 1 - n) with 0 by lia. reflexivity.
Qed.

Lemma opp_recent l m : StronglySorted (fun a b => key_le b a) (items l) ->
  ev_sols (fst (eval_all f OppN N l (ev_init f) m)) = lastn N (items l).
Proof.
  induction l as [|[v nd] l IH] using rev_ind; intros H; [reflexivity|].
  rewrite eval_all_app. unfold items in *. rewrite map_app in *. cbn [map fst snd] in *.
  assert (HS : StronglySorted (fun a b => key_le b a) (map (fun p => (f_of f (snd p), fst p)) l) /\
     Forall (fun q => key_le (f_of f nd, v) q) (map (fun p => (f_of f (snd p), fst p)) l)).
  { clear -H. induction (map (fun p => (f_of f (snd p), fst p)) l) as [|a t IH]; [split; constructor|].
    cbn in H. inversion H; subst. destruct (IH H2) as [A B]. apply Forall_app in H3 as [C D]. split; constructor; auto. inversion D; auto. }
  destruct HS as [HS HF]. specialize (IH HS).
  destruct (eval_all f OppN N l (ev_init f) m) as [ev' m'] eqn:EE. cbn [fst] in IH.
  cbn [eval_all]. unfold eval_sol, process_sol. cbn zeta. rewrite IH.
  set (IL := map (fun p => (f_of f (snd p), fst p)) l) in *.
  rewrite (emplace_last (f_of f nd, v)).
  2:{ unfold lastn. clear -HF. revert HF. generalize (length IL - N) as k. induction IL as [|a t IHt]; intros [|k] HF; cbn; auto.
      inversion HF; auto. }
  rewrite lastn_snoc by auto. rewrite app_length. cbn [length].
  assert (LL : length (lastn N IL) = Nat.min N (length IL)) by (unfold lastn; rewrite skipn_length; lia).
  rewrite LL. destruct (Nat.leb_spec (Nat.min N (length IL) + 1) N); destruct (Nat.leb_spec N (length IL)); try lia; cbn [fst ev_sols]; auto.
  destruct (lastn N IL); [cbn in LL; lia|reflexivity].
Qed.

(** FirstN *)
Lemma first_len l : forall ev m, length (ev_sols (fst (eval_all f FirstN N l ev m))) = length (ev_sols ev) + length l.
Proof.
  induction l as [|[v nd] t IH]; intros ev m; cbn [eval_all length fst]; [lia|].
  unfold eval_sol, process_sol. cbn zeta. destruct (Nat.ltb _ N); rewrite IH; cbn [ev_sols]; rewrite emplace_len; lia.
Qed.
Lemma first_bound l : forall ev m, snd (eval_all f FirstN N l ev m) =
  if Nat.ltb (length (ev_sols ev) + length l) N || Nat.eqb (length l) 0 then m else f_z f.
Proof.
  induction l as [|[v nd] t IH]; intros ev m; [cbn; now rewrite orb_true_r|].
  cbn [eval_all]. unfold eval_sol, process_sol. cbn zeta. rewrite emplace_len.
  destruct (Nat.ltb_spec (S (length (ev_sols ev))) N) as [A|A]; rewrite IH; cbn [ev_sols]; rewrite emplace_len; cbn [length];
  rewrite orb_false_r.
  - destruct (Nat.ltb_spec (length (ev_sols ev) + S (length t)) N) as [B|B]; destruct (Nat.ltb_spec (S (length (ev_sols ev)) + length t) N) as [C|C];
    cbn [orb]; try lia; auto. destruct (Nat.eqb_spec (length t) 0); auto. lia.
  - destruct (Nat.ltb_spec (length (ev_sols ev) + S (length t)) N) as [B|B]; [lia|].
    destruct (Nat.ltb_spec (S (length (ev_sols ev)) + length t) N) as [C|C]; [lia|]. cbn [orb]. destruct (Nat.eqb (length t) 0); auto.
Qed.
Lemma first_perm l : forall ev m, Permutation (ev_sols (fst (eval_all f FirstN N l ev m))) (ev_sols ev ++ items l).
Proof.
  induction l as [|[v nd] t IH]; intros ev m; cbn [eval_all items map].
  - now rewrite app_nil_r.
  - unfold eval_sol, process_sol. cbn zeta. 
    assert (P : Permutation (emplace f (f_of f nd, v) (ev_sols ev) ++ items t) (ev_sols ev ++ (f_of f nd, v) :: items t)).
    { rewrite emplace_perm. cbn [app]. apply Permutation_middle. }
    destruct (Nat.ltb _ N); rewrite IH; cbn [ev_sols]; exact P.
Qed.
End EP.
