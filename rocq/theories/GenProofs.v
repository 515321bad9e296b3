(** Tables of writes: what a loop of assignments leaves in a matrix. *)
From Coq Require Import List ZArith Lia Arith Bool.
From Verif Require Import Util NumVectModel NumVectProofs MatrixModel MatrixProofs MatStore GenModel.
Import ListNotations.
Local Open Scope nat_scope.

Section W.
Variables r c : nat.
Definition defd (M : list (list Z)) : Prop := forall i j, i < r -> j < c -> mget M i j <> None.
Definition table := nat -> nat -> option Z.
Definition over (W2 W1 : table) : table := fun x y => match W2 x y with Some v => Some v | None => W1 x y end.
(** f is defined on every r x c matrix and leaves the entries of W, and the old
    entries elsewhere *)
Definition writes (f : list (list Z) -> option (list (list Z))) (W : table) : Prop :=
  forall M, defd M -> exists M', f M = Some M' /\ length M' = length M /\ forall x y, mget M' x y = over W (mget M) x y.

Lemma writes_defd f W M M' : writes f W -> defd M -> f M = Some M' -> defd M'.
Proof.
  intros HW HD E. destruct (HW M HD) as [M1 [E1 [_ G]]]. assert (M1 = M') by congruence. subst M1.
  intros i j Hi Hj. rewrite G. unfold over. destruct (W i j); [congruence|auto].
Qed.
Lemma writes_ext f g W V : writes f W -> (forall M, g M = f M) -> (forall x y, V x y = W x y) -> writes g V.
Proof.
  intros H E1 E2 M HD. destruct (H M HD) as [M' [E [L G]]]. exists M'. rewrite E1. split; auto. split; auto.
  intros x y. rewrite G. unfold over. now rewrite E2.
Qed.
Lemma w_put i j v : i < r -> j < c -> writes (fun M => mset M i j v) (fun x y => if (x =? i) && (y =? j) then Some v else None).
Proof.
  intros Hi Hj M HD. destruct (mset_get M i j v (HD i j Hi Hj)) as [M' [E [L G]]]. exists M'. split; auto. split; auto.
  intros x y. rewrite G. unfold over. destruct (_ && _); auto.
Qed.
Lemma w_seq f g W1 W2 : writes f W1 -> writes g W2 -> writes (fun M => M1 <- f M;; g M1) (over W2 W1).
Proof.
  intros H1 H2 M HD. destruct (H1 M HD) as [M1 [E1 [L1 G1]]]. pose proof (writes_defd _ _ _ _ H1 HD E1) as HD1.
  destruct (H2 M1 HD1) as [M2 [E2 [L2 G2]]]. exists M2. rewrite E1. cbn [obind]. split; auto. split; [congruence|].
  intros x y. rewrite G2. unfold over. rewrite G1. unfold over. destruct (W2 x y); auto.
Qed.
(** a loop whose iterations agree on what they write *)
Lemma w_for a b f W (T : table) :
  (forall i, a <= i < b -> writes (f i) (W i)) ->
  (forall i x y v, a <= i < b -> W i x y = Some v -> T x y = Some v) ->
  (forall x y v, T x y = Some v -> exists i, a <= i < b /\ W i x y = Some v) ->
  writes (gfor a b f) T.
Proof.
  intros Hf H1 H2 M HD. unfold gfor.
  destruct (ofor_inv (fun k (N : list (list Z)) => defd N /\ length N = length M /\ forall x y,
      (exists i v, a <= i < k /\ W i x y = Some v /\ mget N x y = Some v) \/
      ((forall i, a <= i < k -> W i x y = None) /\ mget N x y = mget M x y))
    f (b - a) a M) as [N [E [HN [L G]]]].
  - split; auto. split; auto. intros x y. right. split; auto. intros; lia.
  - intros k N Hk [HN [L G]]. destruct (Hf k ltac:(lia) N HN) as [N' [E [L' G']]]. exists N'. split; auto.
    split; [apply (writes_defd (f k) (W k) N); [apply Hf; lia|exact HN|exact E]|]. split; [congruence|].
    intros x y. rewrite G'. unfold over. destruct (W k x y) as [v|] eqn:Ek.
    + left. exists k, v. split; [lia|]. auto.
    + destruct (G x y) as [[i [v [Hi [Hw Hg]]]]|[Hn Hg]].
      * left. exists i, v. split; [lia|]. auto.
      * right. split; auto. intros i Hi. destruct (Nat.eq_dec i k); [congruence|]. apply Hn. lia.
  - exists N. split; auto. split; auto. intros x y. unfold over. destruct (G x y) as [[i [v [Hi [Hw Hg]]]]|[Hn Hg]].
    + rewrite (H1 i x y v) by (auto; lia). auto.
    + destruct (T x y) as [v|] eqn:ET; auto. destruct (H2 _ _ _ ET) as [i [Hi Hw]]. rewrite Hn in Hw by lia. discriminate.
Qed.
Lemma w_row i a b g : i < r -> b <= c ->
  writes (gfor a b (fun j M => mset M i j (g j))) (fun x y => if (x =? i) && (a <=? y) && (y <? b) then Some (g y) else None).
Proof.
  intros Hi Hb. apply w_for with (W := fun j x y => if (x =? i) && (y =? j) then Some (g j) else None).
  - intros j Hj. apply w_put; lia.
  - intros j x y v Hj. nb; try discriminate; subst; auto.
  - intros x y v. nb; try discriminate. intros [= <-]. exists y. split; [lia|]. subst. nb; auto.
Qed.
Lemma w_col j a b g : j < c -> b <= r ->
  writes (gfor a b (fun i M => mset M i j (g i))) (fun x y => if (y =? j) && (a <=? x) && (x <? b) then Some (g x) else None).
Proof.
  intros Hi Hb. apply w_for with (W := fun i x y => if (x =? i) && (y =? j) then Some (g i) else None).
  - intros i Hj. apply w_put; lia.
  - intros i x y v Hj. nb; try discriminate; subst; auto.
  - intros x y v. nb; try discriminate. intros [= <-]. exists x. split; [lia|]. subst. nb; auto.
Qed.
Lemma w_diag a b v : b <= c -> b <= r ->
  writes (gfor a b (fun i M => mset M i i v)) (fun x y => if (x =? y) && (a <=? x) && (x <? b) then Some v else None).
Proof.
  intros Hi Hb. apply w_for with (W := fun i x y => if (x =? i) && (y =? i) then Some v else None).
  - intros i Hj. apply w_put; lia.
  - intros i x y w Hj. nb; try discriminate; subst; auto.
  - intros x y w. nb; try discriminate. intros [= <-]. exists x. split; [lia|]. subst. nb; auto.
Qed.
Lemma w_rect a b a2 b2 g : b <= r -> b2 <= c ->
  writes (gfor a b (fun i M => gfor a2 b2 (fun j M => mset M i j (g i j)) M))
    (fun x y => if (a <=? x) && (x <? b) && (a2 <=? y) && (y <? b2) then Some (g x y) else None).
Proof.
  intros Hb Hb2. apply w_for with (W := fun i x y => if (x =? i) && (a2 <=? y) && (y <? b2) then Some (g i y) else None).
  - intros i Hi. apply w_row; lia.
  - intros i x y v Hi. nb; try discriminate; subst; auto.
  - intros x y v. nb; try discriminate. intros [= <-]. exists x. split; [lia|]. nb; auto.
Qed.

(** the bodies that write a whole row or column *)
Lemma w_full f T : writes f T -> (forall x y, x < r -> y < c -> T x y <> None) ->
  forall M, defd M -> exists M', f M = Some M' /\ length M' = length M /\ defd M' /\
    forall x y, x < r -> y < c -> mget M' x y = T x y.
Proof.
  intros HW HF M HD. destruct (HW M HD) as [M' [E [L G]]]. exists M'. split; auto. split; auto.
  split; [eapply writes_defd; eauto|]. intros x y Hx Hy. rewrite G. unfold over. specialize (HF x y Hx Hy).
  destruct (T x y); congruence.
Qed.
End W.
