(** C57: the sub-solutions kept by the evaluator, for every sequence of reports. *)
From Coq Require Import List ZArith Arith Bool Lia.
From Verif Require Import Util EvalModel EvalProofs NumVectProofs WrapperProofs PropEval.
Import ListNotations.

Section Sub.
Context {E : Type} (f : fops E).
(** [<] on lengths is a strict weak order (no NaN) *)
Hypothesis lt_asym : forall a b, f_lt f a b = true -> f_lt f b a = false.
Hypothesis le_trans : forall a b c, f_lt f b a = false -> f_lt f c b = false -> f_lt f c a = false.

(** A report of the enumeration: offset (level), coordinates, length. *)
Record srep := mkSR { sr_off : nat; sr_x : list Z; sr_d : E }.

Definition sub_all (l : list srep) : evst f :=
  fold_left (fun ev r => eval_sub f (sr_off r) (sr_x r) (sr_d r) ev) l (ev_init f).

(** *** Specification *)

(** [c] is [v] with the coordinates before [o] replaced by 0. *)
Definition cut_below (o : nat) (v c : list Z) : Prop :=
  length c = length v /\ (forall i, i < o -> nth i c 0%Z = 0%Z) /\ (forall i, o <= i -> nth i c 0%Z = nth i v 0%Z).

(** [r] is the first of the shortest reports for offset [o] in [l]. *)
Definition first_shortest (l : list srep) (o : nat) (r : srep) : Prop :=
  exists a b, l = a ++ r :: b /\ sr_off r = o /\
    (forall s, In s a -> sr_off s = o -> f_lt f (f_of f (sr_d r)) (f_of f (sr_d s)) = true) /\
    (forall s, In s b -> sr_off s = o -> f_lt f (f_of f (sr_d s)) (f_of f (sr_d r)) = false).

(** What sub_solutions[o] holds. *)
Definition entry_ok (l : list srep) (o : nat) (e : FT f * list Z) : Prop :=
  ((forall s, In s l -> sr_off s <> o) /\ e = (f_nul f, [])) \/
  (exists r, first_shortest l o r /\ fst e = f_of f (sr_d r) /\ cut_below o (sr_x r) (snd e)).

(** *** Proofs *)
Lemma cut_ok o v : o <= length v -> cut_below o v (repeat 0%Z o ++ skipn o v).
Proof.
  intro H. split; [|split].
  - rewrite app_length, repeat_length, skipn_length. lia.
  - intros i Hi. rewrite app_nth1 by (rewrite repeat_length; exact Hi). apply nth_repeat.
  - intros i Hi. rewrite app_nth2 by (rewrite repeat_length; exact Hi). rewrite repeat_length, nth_skipn_add. f_equal. lia.
Qed.

Lemma nth_grow {A} (l : list A) n d i : nth i (l ++ repeat d n) d = nth i l d.
Proof.
  destruct (Nat.lt_ge_cases i (length l)) as [H|H]; [apply app_nth1; exact H|].
  rewrite app_nth2 by exact H. rewrite nth_repeat, nth_overflow by exact H. reflexivity.
Qed.

Lemma eval_sub_entry o v nd ev i :
  nth i (ev_subs (eval_sub f o v nd ev)) (f_nul f, []) =
  if (i =? o) && ((match snd (nth o (ev_subs ev) (f_nul f, [])) with [] => true | _ => false end)
                  || f_lt f (f_of f nd) (fst (nth o (ev_subs ev) (f_nul f, []))))
  then (f_of f nd, repeat 0%Z o ++ skipn o v) else nth i (ev_subs ev) (f_nul f, []).
Proof.
  unfold eval_sub. rewrite nth_grow.
  set (old := nth o (ev_subs ev) (f_nul f, [])).
  destruct (_ || f_lt f _ _) eqn:C; cbn [ev_subs].
  - rewrite andb_true_r. set (subs := ev_subs ev ++ _).
    assert (L : o < length subs) by (unfold subs; rewrite app_length, repeat_length; lia).
    destruct (Nat.eqb_spec i o) as [->|Ne].
    + rewrite app_nth2; rewrite firstn_length_le by lia; [|lia]. rewrite Nat.sub_diag. reflexivity.
    + rewrite <- (nth_grow (ev_subs ev) (S o - length (ev_subs ev)) (f_nul f, []) i). fold subs.
      destruct (Nat.lt_ge_cases i o) as [H|H].
      * rewrite app_nth1 by (rewrite firstn_length_le by lia; exact H). apply nth_firstn_lt. exact H.
      * rewrite app_nth2 by (rewrite firstn_length_le by lia; exact H). rewrite firstn_length_le by lia.
        destruct (i - o) as [|k] eqn:K; [lia|]. cbn [nth]. rewrite nth_skipn_add. f_equal. lia.
  - rewrite andb_false_r. apply nth_grow.
Qed.

Lemma eval_sub_len o v nd ev : length (ev_subs (eval_sub f o v nd ev)) = Nat.max (length (ev_subs ev)) (S o).
Proof.
  unfold eval_sub. set (subs := ev_subs ev ++ repeat (f_nul f, []) (S o - length (ev_subs ev))).
  assert (L : length subs = Nat.max (length (ev_subs ev)) (S o)) by (unfold subs; rewrite app_length, repeat_length; lia).
  destruct (_ || _); cbn [ev_subs]; [|exact L].
  rewrite app_length. cbn [length]. rewrite firstn_length, skipn_length. lia.
Qed.

(** For every sequence of reports (coordinate vectors long enough for their offset and not empty):
    entry [o] holds the first of the shortest reports for [o], with the coordinates below [o]
    cleared, and is unused iff there was none. *)
Theorem sub_solutions_best l o :
  (forall s, In s l -> sr_off s <= length (sr_x s) /\ sr_x s <> []) ->
  entry_ok l o (nth o (ev_subs (sub_all l)) (f_nul f, [])).
Proof.
  induction l as [|r l IH] using rev_ind; intro Hl.
  - left. split; [intros s []|]. cbn. destruct o; reflexivity.
  - assert (Hl' : forall s, In s l -> sr_off s <= length (sr_x s) /\ sr_x s <> []) by (intros s Hs; apply Hl, in_or_app; left; exact Hs).
    specialize (IH Hl'). assert (Hr : In r (l ++ [r])) by (apply in_or_app; right; left; reflexivity). destruct (Hl r Hr) as [Ho Hx].
    unfold sub_all in *. rewrite fold_left_app. cbn [fold_left]. rewrite eval_sub_entry.
    set (e := nth o (ev_subs (fold_left _ l (ev_init f))) (f_nul f, [])) in *.
    destruct (Nat.eqb_spec o (sr_off r)) as [Eo|Ne]; cbn [andb].
    + rewrite <- Eo. fold e. destruct IH as [[Hn He]|(r0 & (a & b & El & Eo0 & Ha & Hb) & Ef & Ec)].
      * rewrite He. cbn [snd orb]. right. exists r. split; [|split; [reflexivity|apply cut_ok; rewrite Eo; exact Ho]].
        exists l, []. split; [reflexivity|]. split; [auto|]. split; [intros s Hs E0; exfalso; exact (Hn s Hs E0)|intros s []].
      * assert (Ne : snd e <> []).
        { destruct Ec as [Lc _]. intro Z0. rewrite Z0 in Lc. apply (Hl' r0); [rewrite El; apply in_or_app; right; left; reflexivity|].
          destruct (sr_x r0); [reflexivity|discriminate]. }
        destruct (snd e) as [|c0 cs] eqn:Es; [contradiction|]. cbn [orb]. rewrite Ef.
        destruct (f_lt f (f_of f (sr_d r)) (f_of f (sr_d r0))) eqn:C; right.
        -- exists r. split; [|split; [reflexivity|apply cut_ok; rewrite Eo; exact Ho]].
           exists l, []. split; [reflexivity|]. split; [auto|]. split; [|intros s []]. intros s Hs Es0.
           assert (N : f_lt f (f_of f (sr_d s)) (f_of f (sr_d r0)) = false).
           { rewrite El in Hs. apply in_app_or in Hs. destruct Hs as [Hs|[<-|Hs]]; [apply lt_asym, Ha; assumption| |apply Hb; assumption].
             destruct (f_lt f (f_of f (sr_d r0)) (f_of f (sr_d r0))) eqn:X; auto. pose proof (lt_asym _ _ X) as Y. congruence. }
           destruct (f_lt f (f_of f (sr_d r)) (f_of f (sr_d s))) eqn:X; [reflexivity|exfalso].
           pose proof (le_trans _ _ _ N X) as Y. congruence.
        -- exists r0. split; [|split; [exact Ef|rewrite Es; exact Ec]].
           exists a, (b ++ [r]). split; [rewrite El, <- app_assoc; reflexivity|]. repeat split; auto.
           intros s Hs Es0. apply in_app_or in Hs. destruct Hs as [Hs|[<-|[]]]; [apply Hb; assumption|exact C].
    + destruct IH as [[Hn He]|(r0 & (a & b & El & Eo0 & Ha & Hb) & Ef & Ec)].
      * left. split; [|exact He]. intros s Hs. apply in_app_or in Hs. destruct Hs as [Hs|[<-|[]]]; [apply Hn; exact Hs|]. congruence.
      * right. exists r0. split; [|split; assumption].
        exists a, (b ++ [r]). split; [rewrite El, <- app_assoc; reflexivity|]. repeat split; auto.
        intros s Hs Es0. apply in_app_or in Hs. destruct Hs as [Hs|[<-|[]]]; [apply Hb; assumption|congruence].
Qed.

(** The list is exactly long enough for the largest offset reported. *)
Theorem sub_solutions_length l n :
  n <= length (ev_subs (sub_all l)) <-> n = 0 \/ exists s, In s l /\ n <= S (sr_off s).
Proof.
  induction l as [|r l IH] using rev_ind.
  - cbn. split; [lia|]. intros [->|(s & [] & _)]. lia.
  - unfold sub_all in *. rewrite fold_left_app. cbn [fold_left]. rewrite eval_sub_len. split.
    + intro H. destruct (Nat.le_gt_cases n (S (sr_off r))) as [H1|H1].
      * right. exists r. split; [apply in_or_app; right; left; reflexivity|exact H1].
      * destruct (proj1 IH) as [->|(s & Hs & Hn)]; [lia|lia|]. right. exists s. split; [apply in_or_app; left; exact Hs|exact Hn].
    + intros [->|(s & Hs & Hn)]; [lia|]. apply in_app_or in Hs. destruct Hs as [Hs|[<-|[]]]; [|lia].
      assert (n <= length (ev_subs (fold_left (fun ev r => eval_sub f (sr_off r) (sr_x r) (sr_d r) ev) l (ev_init f)))) by (apply IH; right; exists s; auto). lia.
Qed.

(** Sub-solutions do not touch the solutions nor their count. *)
Theorem sub_solutions_separate l : ev_sols (sub_all l) = [] /\ ev_count (sub_all l) = 0.
Proof.
  induction l as [|r l IH] using rev_ind; [split; reflexivity|]. unfold sub_all in *. rewrite fold_left_app. cbn [fold_left].
  unfold eval_sub. destruct (_ || _); cbn [ev_sols ev_count]; exact IH.
Qed.
End Sub.

Arguments mkSR {E}.

(** Three reports for offset 1 (a tie between the two shortest), one for offset 3, none for 2. *)
Example sub_case :
  ev_subs (sub_all z_fops [mkSR 1 [5; 2; 0; 0] 9; mkSR 1 [7; 1; 0; 0] 4; mkSR 3 [1; 2; 3; 4] 16; mkSR 1 [8; -1; 0; 0] 4]%Z) =
  [(0, []); (4, [0; 1; 0; 0]); (0, []); (16, [0; 0; 0; 4])]%Z.
Proof. reflexivity. Qed.
Example sub_case_hyp :
  forall s, In s [mkSR 1 [5; 2; 0; 0] 9; mkSR 1 [7; 1; 0; 0] 4; mkSR 3 [1; 2; 3; 4] 16; mkSR 1 [8; -1; 0; 0] 4]%Z ->
    sr_off s <= length (sr_x s) /\ sr_x s <> [].
Proof. intros s H. cbn in H. destruct H as [<-|[<-|[<-|[<-|[]]]]]; cbn; split; try lia; discriminate. Qed.

Print Assumptions sub_solutions_best.
Print Assumptions sub_solutions_length.
Print Assumptions sub_solutions_separate.
