(** Row operations on a block of rows: every row of the block before is an integer combination of the rows of the block
    afterwards, and conversely.  Not part of the model (proofs for PropBkzExact.v, PropBkzDual.v and PropBkzSlide.v). *)
From Coq Require Import List ZArith Lia Arith Bool.
From Verif Require Import Util LatticeSpec LatProj MatrixModel MatrixProofs GsoModel GsoProofs GsoHistory BkzModel BkzProofs PropBkz.
Import ListNotations.
Local Open Scope nat_scope.

(** ** the operations on a block are invertible *)
Lemma act_inv lo hi o a : inb lo hi o -> (lo <= a < hi)%nat ->
  exists p q x y, (lo <= p < hi)%nat /\ (lo <= q < hi)%nat /\ forall f, f a = (x * act o f p + y * act o f q)%Z.
Proof.
  intros HO Ha. destruct o; cbn [inb] in HO; try tauto; cbn [act].
  - destruct (Nat.eq_dec a i) as [->|N].
    + exists i, j, 1%Z, (-1)%Z. split; [lia|]. split; [lia|]. intros f. unfold xset. rewrite Nat.eqb_refl. destruct (Nat.eqb_spec j i); [lia|]. ring.
    + exists a, a, 1%Z, 0%Z. split; [lia|]. split; [lia|]. intros f. unfold xset. destruct (Nat.eqb_spec a i); [lia|]. ring.
  - destruct (Nat.eq_dec a i) as [->|N].
    + exists i, j, 1%Z, 1%Z. split; [lia|]. split; [lia|]. intros f. unfold xset. rewrite Nat.eqb_refl. destruct (Nat.eqb_spec j i); [lia|]. ring.
    + exists a, a, 1%Z, 0%Z. split; [lia|]. split; [lia|]. intros f. unfold xset. destruct (Nat.eqb_spec a i); [lia|]. ring.
  - destruct (Nat.eq_dec a i) as [->|N].
    + exists i, j, 1%Z, (- lx)%Z. split; [lia|]. split; [lia|]. intros f. unfold xset. rewrite Nat.eqb_refl. destruct (Nat.eqb_spec j i); [lia|]. ring.
    + exists a, a, 1%Z, 0%Z. split; [lia|]. split; [lia|]. intros f. unfold xset. destruct (Nat.eqb_spec a i); [lia|]. ring.
  - exists (tr i j a), (tr i j a), 1%Z, 0%Z. assert (T : (lo <= tr i j a < hi)%nat) by (apply tr_in; lia). split; [lia|]. split; [lia|]. intros f.
    replace (tr i j (tr i j a)) with a; [ring|]. unfold tr. destruct (Nat.eqb_spec a i), (Nat.eqb_spec a j); subst; rewrite ?Nat.eqb_refl; auto.
    + destruct (Nat.eqb_spec j i); auto.
    + destruct (Nat.eqb_spec a i); [lia|]. destruct (Nat.eqb_spec a j); [lia|]. auto.
  - assert (T : (lo <= mv new_r old_r a < hi)%nat) by (apply mv_in; lia). exists (mv new_r old_r a), (mv new_r old_r a), 1%Z, 0%Z. split; [lia|]. split; [lia|]. intros f.
    replace (mv old_r new_r (mv new_r old_r a)) with a; [ring|]. unfold mv. cbv zeta.
    destruct (Nat.eqb_spec a old_r) as [->|N].
    + rewrite Nat.eqb_refl. auto.
    + destruct (Nat.ltb_spec a old_r).
      * destruct (Nat.ltb_spec a new_r); [|].
        -- destruct (Nat.eqb_spec a new_r); [lia|]. destruct (Nat.ltb_spec a new_r); [|lia]. destruct (Nat.ltb_spec a old_r); lia.
        -- destruct (Nat.eqb_spec (S a) new_r); [lia|]. destruct (Nat.ltb_spec (S a) new_r); [lia|]. destruct (Nat.ltb_spec (S a - 1) old_r); lia.
      * destruct (Nat.ltb_spec (a - 1) new_r).
        -- destruct (Nat.eqb_spec (a - 1) new_r); [lia|]. destruct (Nat.ltb_spec (a - 1) new_r); [|lia]. destruct (Nat.ltb_spec (a - 1) old_r); lia.
        -- destruct (Nat.eqb_spec (S (a - 1)) new_r); [lia|]. destruct (Nat.ltb_spec (S (a - 1)) new_r); [lia|]. destruct (Nat.ltb_spec (S (a - 1) - 1) old_r); lia.
  - destruct (Nat.eq_dec a i) as [->|N].
    + exists i, i, (-1)%Z, 0%Z. split; [lia|]. split; [lia|]. intros f. unfold xset. rewrite Nat.eqb_refl. ring.
    + exists a, a, 1%Z, 0%Z. split; [lia|]. split; [lia|]. intros f. unfold xset. destruct (Nat.eqb_spec a i); [lia|]. ring.
Qed.
Lemma act_run_inv lo m l : Forall (inb lo (lo + m)) l -> forall a, (a < m)%nat ->
  exists X : nat -> Z, forall f, f (lo + a)%nat = zsum m (fun b => X b * act_run l f (lo + b)%nat)%Z.
Proof.
  induction 1 as [|o l HO HL IH]; intros a Ha.
  - exists (fun b => if (b =? a)%nat then 1%Z else 0%Z). intros f. cbn [act_run fold_left]. rewrite (zsum_single m a); auto; [rewrite Nat.eqb_refl; ring|].
    intros i Hi Hn. destruct (Nat.eqb_spec i a); [congruence|ring].
  - destruct (act_inv lo (lo + m) o (lo + a) HO ltac:(lia)) as [p [q [x [y [Hp [Hq HE]]]]]].
    destruct (IH (p - lo)%nat ltac:(lia)) as [X HX], (IH (q - lo)%nat ltac:(lia)) as [Y HY]. replace (lo + (p - lo))%nat with p in HX by lia. replace (lo + (q - lo))%nat with q in HY by lia.
    exists (fun b => x * X b + y * Y b)%Z. intros f. rewrite act_run_cons, (HE f), (HX (act o f)), (HY (act o f)). rewrite <- !zsum_scal, <- zsum_plus. apply zsum_ext. intros; ring.
Qed.

Lemma act_fwd lo m l : Forall (inb lo (lo + m)) l -> forall a, a < m -> exists X : nat -> Z, forall f, act_run l f (lo + a) = zsum m (fun b => X b * f (lo + b)%nat)%Z.
Proof.
  induction 1 as [|o l HO HL IH]; intros a Ha.
  - exists (fun b => if b =? a then 1%Z else 0%Z). intros f. cbn [act_run fold_left]. rewrite (zsum_single m a); auto; [rewrite Nat.eqb_refl; ring|].
    intros i Hi Hn. destruct (Nat.eqb_spec i a); [congruence|ring].
  - destruct (IH a Ha) as [X HX].
    assert (A : forall b, b < m -> exists Y : nat -> Z, forall f, act o f (lo + b) = zsum m (fun b => Y b * f (lo + b)%nat)%Z).
    { clear X HX a Ha. intros b Hb.
      assert (L2 : forall x y p q, lo <= p < lo + m -> lo <= q < lo + m -> exists Y : nat -> Z, forall f, (x * f p + y * f q = zsum m (fun b => Y b * f (lo + b)%nat))%Z).
      { intros x y p q Hp Hq. exists (fun b => (if (lo + b =? p)%nat then x else 0) + (if (lo + b =? q)%nat then y else 0))%Z. intros f.
        rewrite (zsum_ext m _ (fun b => (if (lo + b =? p)%nat then x else 0) * f (lo + b)%nat + (if (lo + b =? q)%nat then y else 0) * f (lo + b)%nat)%Z) by (intros; ring).
        rewrite zsum_plus. rewrite (zsum_single m (p - lo) (fun b => (if (lo + b =? p)%nat then x else 0) * f (lo + b)%nat)%Z).
        2: lia. 2:{ intros i Hi Hn. destruct (Nat.eqb_spec (lo + i) p); [lia|ring]. }
        rewrite (zsum_single m (q - lo) (fun b => (if (lo + b =? q)%nat then y else 0) * f (lo + b)%nat)%Z).
        2: lia. 2:{ intros i Hi Hn. destruct (Nat.eqb_spec (lo + i) q); [lia|ring]. }
        replace (lo + (p - lo)) with p by lia. replace (lo + (q - lo)) with q by lia. rewrite !Nat.eqb_refl. ring. }
      destruct o; cbn [inb] in HO; try tauto; cbn [act]; unfold xset.
      - destruct (Nat.eqb_spec (lo + b) i) as [E|].
        + destruct (L2 1%Z 1%Z i j ltac:(lia) ltac:(lia)) as [Y HY]. exists Y. intros f. rewrite <- HY. ring.
        + destruct (L2 1%Z 0%Z (lo + b) (lo + b) ltac:(lia) ltac:(lia)) as [Y HY]. exists Y. intros f. rewrite <- HY. ring.
      - destruct (Nat.eqb_spec (lo + b) i) as [E|].
        + destruct (L2 1%Z (-1)%Z i j ltac:(lia) ltac:(lia)) as [Y HY]. exists Y. intros f. rewrite <- HY. ring.
        + destruct (L2 1%Z 0%Z (lo + b) (lo + b) ltac:(lia) ltac:(lia)) as [Y HY]. exists Y. intros f. rewrite <- HY. ring.
      - destruct (Nat.eqb_spec (lo + b) i) as [E|].
        + destruct (L2 1%Z lx i j ltac:(lia) ltac:(lia)) as [Y HY]. exists Y. intros f. rewrite <- HY. ring.
        + destruct (L2 1%Z 0%Z (lo + b) (lo + b) ltac:(lia) ltac:(lia)) as [Y HY]. exists Y. intros f. rewrite <- HY. ring.
      - assert (T : lo <= tr i j (lo + b) < lo + m) by (apply tr_in; lia).
        destruct (L2 1%Z 0%Z _ _ T T) as [Y HY]. exists Y. intros f. rewrite <- HY. ring.
      - assert (T : lo <= mv old_r new_r (lo + b) < lo + m) by (apply mv_in; lia).
        destruct (L2 1%Z 0%Z _ _ T T) as [Y HY]. exists Y. intros f. rewrite <- HY. ring.
      - destruct (Nat.eqb_spec (lo + b) i) as [E|].
        + destruct (L2 (-1)%Z 0%Z i i ltac:(lia) ltac:(lia)) as [Y HY]. exists Y. intros f. rewrite <- HY. ring.
        + destruct (L2 1%Z 0%Z (lo + b) (lo + b) ltac:(lia) ltac:(lia)) as [Y HY]. exists Y. intros f. rewrite <- HY. ring. }
    destruct (fin_choice (fun _ : nat => 0%Z) m (fun b Y => forall f, act o f (lo + b) = zsum m (fun b => Y b * f (lo + b)%nat)%Z) A) as [Y HY].
    exists (fun b' => zsum m (fun b => X b * Y b b')%Z). intros f. rewrite act_run_cons, (HX (act o f)).
    rewrite (zsum_ext m (fun b => X b * act o f (lo + b))%Z (fun b => zsum m (fun b' => X b * Y b b' * f (lo + b')%nat))%Z).
    + rewrite zsum_swap. apply zsum_ext. intros b' Hb'. rewrite <- zsum_scal_r. apply zsum_ext. intros; ring.
    + intros b Hb. rewrite HY by auto. rewrite <- zsum_scal. apply zsum_ext. intros; ring.
Qed.

