(** Facts about the definitions of HlllSpec.v: the R-factor of independent rows
    is unique; independence is kept by unimodular row operations. *)
From Coq Require Import List ZArith Reals Lra Lia Arith Bool Permutation.
From Verif Require Import Util LatticeSpec GsoModel GsoProofs HouseReal HouseRun HlllSpec.
Import ListNotations.
Local Open Scope R_scope.

Lemma rsum_rs n f : rsum n f = rs f 0 n.
Proof.
  unfold rsum. generalize 0%nat. induction n; intros a; cbn [seq map fold_right rs]; auto. rewrite IHn. auto.
Qed.

Lemma rsum_ext n f g : (forall l, (l < n)%nat -> f l = g l) -> rsum n f = rsum n g.
Proof. intros H. rewrite !rsum_rs. apply rs_ext. intros; apply H; lia. Qed.
Lemma rsum_add n f g : rsum n (fun l => f l + g l) = rsum n f + rsum n g.
Proof. rewrite !rsum_rs. apply rs_add. Qed.
Lemma rsum_scal n c f : rsum n (fun l => c * f l) = c * rsum n f.
Proof. rewrite !rsum_rs. apply rs_scal. Qed.
Lemma rsum_0 n f : (forall l, (l < n)%nat -> f l = 0) -> rsum n f = 0.
Proof. intros H. rewrite rsum_rs. apply rs_0. intros; apply H; lia. Qed.
Lemma rsum_S n f : rsum (S n) f = rsum n f + f n.
Proof. rewrite !rsum_rs, rs_last. auto. Qed.
Lemma rsum_delta n k f : (k < n)%nat -> rsum n (fun l => if (l =? k)%nat then f l else 0) = f k.
Proof.
  induction n; intros H; [lia|]. rewrite rsum_S. destruct (Nat.eq_dec k n) as [->|N].
  - rewrite Nat.eqb_refl. rewrite rsum_0; [lra|]. intros l Hl. destruct (Nat.eqb_spec l n); [lia|auto].
  - rewrite IHn by lia. destruct (Nat.eqb_spec n k); [lia|]. lra.
Qed.
Lemma rsum_low n m f : (m <= n)%nat -> (forall l, (m <= l < n)%nat -> f l = 0) -> rsum n f = rsum m f.
Proof.
  intros H H0. rewrite !rsum_rs, (rs_at f m n) by auto. rewrite (rs_0 f m); [lra|]. intros; apply H0; lia.
Qed.
Lemma rsum_comm n m (f : nat -> nat -> R) :
  rsum n (fun i => rsum m (fun j => f i j)) = rsum m (fun j => rsum n (fun i => f i j)).
Proof.
  induction n.
  - symmetry. apply rsum_0. intros; reflexivity.
  - rewrite rsum_S, IHn, <- rsum_add. apply rsum_ext. intros. rewrite rsum_S. auto.
Qed.
Lemma nodup_map {A C} (f : A -> C) l : NoDup l -> (forall x y, In x l -> In y l -> f x = f y -> x = y) -> NoDup (map f l).
Proof.
  induction 1 as [|x l N _ IH]; intros H; cbn [map]; constructor.
  - rewrite in_map_iff. intros [y [E Hy]]. apply N. rewrite (H x y); auto; [left; auto|right; auto].
  - apply IH. intros. apply H; auto; right; auto.
Qed.
Lemma rsum_perm n p q f : perm_ok n p q -> rsum n (fun k => f (p k)) = rsum n f.
Proof.
  intros [H1 H2]. unfold rsum.
  assert (P : Permutation (map (fun k => f (p k)) (seq 0 n)) (map f (seq 0 n))).
  { rewrite <- (map_map p f). apply Permutation_map. apply NoDup_Permutation.
    - apply nodup_map; [apply seq_NoDup|]. intros x y Hx Hy E. apply in_seq in Hx, Hy.
      destruct (H1 x) as [_ <-]; [lia|]. destruct (H1 y) as [_ <-]; [lia|]. congruence.
    - apply seq_NoDup.
    - intros x. rewrite in_map_iff, in_seq. split.
      + intros [y [<- Hy]]. apply in_seq in Hy. destruct (H1 y); lia.
      + intros Hx. destruct (H2 x) as [A B]; [lia|]. exists (q x). rewrite in_seq. split; auto. lia. }
  induction P; cbn [fold_right]; lra.
Qed.
Lemma IZR_zsum n f : IZR (zsum n f) = rsum n (fun l => IZR (f l)).
Proof. induction n; [reflexivity|]. cbn [zsum]. rewrite plus_IZR, IHn, rsum_S. auto. Qed.
Lemma rsum_sq_0 n f : rsum n (fun l => f l * f l) = 0 -> forall l, (l < n)%nat -> f l = 0.
Proof.
  rewrite rsum_rs. intros H l Hl.
  pose proof (rs_zero_inv (fun l => f l * f l) 0 n (fun l _ => Rle_0_sqr (f l)) H l ltac:(lia)) as Z. cbn beta in Z. nra.
Qed.

Section F.
Variables (c : nat) (B : list (list Z)).
Notation d := (length B).

(** the entries of row i against row j <= i *)
Lemma rf_entry r i j : r_factor c B r -> (j <= i)%nat -> (i < d)%nat ->
  r i j * r j j = IZR (inner c (nth i B []) (nth j B [])) - rsum j (fun l => r i l * r j l).
Proof.
  intros [L P G] Hj Hi. rewrite <- G by lia. rewrite (rsum_low d (S j)); [rewrite rsum_S; lra|lia|].
  intros l Hl. rewrite (L j l) by lia. lra.
Qed.

(** a positive diagonal determines the R-factor *)
Theorem r_factor_unique r r' : r_factor c B r -> r_factor c B r' ->
  (forall i, (i < d)%nat -> 0 < r i i) -> forall i j, (i < d)%nat -> r' i j = r i j.
Proof.
  intros F F' Hp.
  assert (C : forall j i, (j <= i)%nat -> (i < d)%nat -> r' i j = r i j).
  { induction j as [j IH] using lt_wf_ind. intros i Hj Hi.
    assert (Q : forall i, (j <= i)%nat -> (i < d)%nat -> r' i j * r' j j = r i j * r j j).
    { intros a Ha Hd. rewrite (rf_entry r a j), (rf_entry r' a j) by auto. f_equal. apply rsum_ext. intros l Hl.
      rewrite !IH by lia. auto. }
    assert (D : r' j j = r j j).
    { specialize (Q j (le_n j) ltac:(lia)). pose proof (rf_pos _ _ _ F' j ltac:(lia)). specialize (Hp j ltac:(lia)). nra. }
    specialize (Q i Hj Hi). rewrite D in Q. specialize (Hp j ltac:(lia)).
    apply (Rmult_eq_reg_r (r j j)); lra. }
  intros i j Hi. destruct (le_lt_dec j i); [auto|]. rewrite (rf_low _ _ _ F), (rf_low _ _ _ F') by auto. auto.
Qed.

(** a triangular system with nonzero diagonal has a solution *)
Lemma tri_solve (r : nat -> nat -> R) k (t : nat -> R) :
  (forall i j, (i < j)%nat -> r i j = 0) -> (forall i, (i < k)%nat -> r i i <> 0) ->
  exists a : nat -> R, forall l, (l < k)%nat -> rsum k (fun i => a i * r i l) = t l.
Proof.
  intros L. revert t. induction k; intros t P.
  - exists (fun _ => 0). intros; lia.
  - set (x := t k / r k k).
    destruct (IHk (fun l => t l - x * r k l)) as [a Ha]; [intros; apply P; lia|].
    exists (fun i => if (i =? k)%nat then x else a i). intros l Hl. rewrite rsum_S, Nat.eqb_refl.
    rewrite (rsum_ext k _ (fun i => a i * r i l)) by (intros i Hi; destruct (Nat.eqb_spec i k); [lia|auto]).
    destruct (Nat.eq_dec l k) as [->|N].
    + rewrite rsum_0; [|intros i Hi; rewrite L by lia; lra]. unfold x. field. apply P. lia.
    + rewrite Ha by lia. lra.
Qed.

(** independent rows: every R-factor has a positive diagonal *)
Theorem r_factor_positive r : rows_independent c B -> r_factor c B r ->
  forall i, (i < d)%nat -> 0 < r i i.
Proof.
  intros HI F. induction i as [i IH] using lt_wf_ind. intros Hi.
  pose proof F as [L P G].
  destruct (Rle_lt_or_eq_dec 0 (r i i)) as [|Z]; [apply P; auto|auto|]. exfalso.
  destruct (tri_solve r i (fun l => - r i l)) as [a Ha]; auto.
  { intros j Hj. specialize (IH j Hj ltac:(lia)). lra. }
  set (a' := fun j => if (j <? i)%nat then a j else if (j =? i)%nat then 1 else 0).
  assert (A0 : forall j, (i < j)%nat -> a' j = 0).
  { intros j Hj. unfold a'. destruct (Nat.ltb_spec j i); [lia|]. destruct (Nat.eqb_spec j i); [lia|auto]. }
  (* the same combination of the rows of r is zero *)
  assert (R0 : forall l, (l < d)%nat -> rsum d (fun j => a' j * r j l) = 0).
  { intros l Hl. rewrite (rsum_low d (S i)); [|lia|intros m Hm; rewrite A0 by lia; lra].
    rewrite rsum_S. unfold a' at 2. rewrite Nat.ltb_irrefl, Nat.eqb_refl.
    rewrite (rsum_ext i _ (fun j => a j * r j l)).
    2:{ intros j Hj. unfold a'. rewrite (proj2 (Nat.ltb_lt j i)) by auto. auto. }
    destruct (le_lt_dec i l) as [H|H].
    - rewrite rsum_0; [|intros j Hj; rewrite L by lia; lra].
      destruct (Nat.eq_dec l i) as [->|N]; [lra|]. rewrite L by lia. lra.
    - rewrite Ha by auto. lra. }
  (* hence so is the combination of the rows of B *)
  assert (N0 : rsum c (fun l => rsum d (fun j => a' j * IZR (ent B j l)) * rsum d (fun j => a' j * IZR (ent B j l))) = 0).
  { transitivity (rsum d (fun p => rsum d (fun q => a' p * a' q * rsum d (fun l => r p l * r q l)))).
    - transitivity (rsum c (fun l => rsum d (fun p => rsum d (fun q => a' p * a' q * (IZR (ent B p l) * IZR (ent B q l)))))).
      + apply rsum_ext. intros l Hl. rewrite <- rsum_scal. apply rsum_ext. intros p Hp.
        rewrite Rmult_comm, <- rsum_scal. apply rsum_ext. intros q Hq. ring.
      + rewrite rsum_comm. apply rsum_ext. intros p Hp. rewrite rsum_comm. apply rsum_ext. intros q Hq.
        rewrite rsum_scal. f_equal. rewrite G by auto. unfold inner. rewrite IZR_zsum. apply rsum_ext. intros l Hl.
        rewrite mult_IZR. reflexivity.
    - transitivity (rsum d (fun l => rsum d (fun p => a' p * r p l) * rsum d (fun q => a' q * r q l))).
      + symmetry. transitivity (rsum d (fun l => rsum d (fun p => rsum d (fun q => a' p * a' q * (r p l * r q l))))).
        * apply rsum_ext. intros l Hl. rewrite <- rsum_scal. apply rsum_ext. intros p Hp.
          rewrite Rmult_comm, <- rsum_scal. apply rsum_ext. intros q Hq. ring.
        * rewrite rsum_comm. apply rsum_ext. intros p Hp. rewrite rsum_comm. apply rsum_ext. intros q Hq.
          apply rsum_scal.
      + apply rsum_0. intros l Hl. rewrite R0 by auto. lra. }
  assert (X : a' i = 0).
  { apply HI; auto. apply rsum_sq_0. exact N0. }
  unfold a' in X. rewrite Nat.ltb_irrefl, Nat.eqb_refl in X. lra.
Qed.

End F.

(** independence survives the changes of a basis made by MatGSOInterface *)
Lemma eff_independent e c B B' : eff_ok (length B) e -> eff_mat e B B' -> rows_independent c B -> rows_independent c B'.
Proof.
  intros HO [HL HM] HI a Ha i Hi. rewrite HL in *. destruct e as [x y z|p q|x|].
  - destruct HO as [Hx [Hy Hn]].
    assert (Q : forall j, (j < length B)%nat -> a j + (if (j =? y)%nat then IZR z * a x else 0) = 0).
    { apply (HI (fun j => a j + (if (j =? y)%nat then IZR z * a x else 0))). intros l Hl. refine (eq_trans _ (Ha l Hl)).
      rewrite (rsum_ext _ _ (fun j => a j * IZR (ent B j l) + (if (j =? y)%nat then IZR z * a x * IZR (ent B j l) else 0)))
        by (intros j Hj; cbn beta; destruct (j =? y)%nat; ring).
      rewrite rsum_add, (rsum_delta _ y (fun j => IZR z * a x * IZR (ent B j l))) by auto. symmetry.
      rewrite (rsum_ext _ _ (fun j => a j * IZR (ent B j l) + (if (j =? x)%nat then IZR z * a j * IZR (ent B y l) else 0))).
      - rewrite rsum_add, (rsum_delta _ x (fun j => IZR z * a j * IZR (ent B y l))) by auto. auto.
      - intros j Hj. rewrite HM, plus_IZR. destruct (j =? x)%nat; rewrite ?mult_IZR; ring. }
    assert (X : a x = 0). { specialize (Q x Hx). destruct (Nat.eqb_spec x y); [lia|]. lra. }
    specialize (Q i Hi). rewrite X in Q. destruct (i =? y)%nat; lra.
  - destruct HO as [H1 H2]. destruct (H1 i Hi) as [Hp Hq]. rewrite <- Hq.
    apply (HI (fun m => a (q m))); auto. intros l Hl.
    rewrite <- (rsum_perm (length B) p q (fun m => a (q m) * IZR (ent B m l))) by (split; auto).
    rewrite <- (Ha l Hl). apply rsum_ext. intros k Hk. destruct (H1 k Hk) as [_ ->]. rewrite HM by auto. auto.
  - cbn in HO.
    assert (Q : forall j, (j < length B)%nat -> (if (j =? x)%nat then - a j else a j) = 0).
    { apply (HI (fun j => if (j =? x)%nat then - a j else a j)). intros l Hl. refine (eq_trans _ (Ha l Hl)).
      apply rsum_ext. intros j Hj. cbn beta. rewrite HM. destruct (j =? x)%nat; rewrite ?opp_IZR; ring. }
    specialize (Q i Hi). destruct (i =? x)%nat; lra.
  - subst B'. apply HI; auto.
Qed.

(** ** rows made triangular by reflections are an R-factor *)
Section Tri.
Variables (d n : nat) (B : list (list Z)) (V : nat -> nat -> R) (sg : nat -> R) (f : nat -> nat -> R)
  (Rm : nat -> nat -> R) (E : nat -> Z).
Hypothesis Hdn : (d <= n)%nat.
Hypothesis Hf : forall i l, (i < d)%nat -> (l < n)%nat -> f i l * p2 (E i) = IZR (ent B i l).
Hypothesis Hd : forall i, (i < d)%nat -> last_ok n i (ah n V sg i (f i)) (V i) (sg i) (Rm i i).
Hypothesis Hl : forall i l, (i < d)%nat -> (l < i)%nat -> Rm i l = ah n V sg i (f i) l.

Definition tri (i j : nat) : R := if (j <=? i)%nat then Rm i j * p2 (E i) else 0.

Lemma trim i : (i < d)%nat -> forall l, (l < n)%nat -> ah n V sg d (f i) l = if (l <=? i)%nat then Rm i l else 0.
Proof.
  intros Hi. destruct (Hd i Hi) as [_ [H1 [H2 _]]].
  assert (T : forall l, (l < n)%nat -> ah n V sg (S i) (f i) l = if (l <=? i)%nat then Rm i l else 0).
  { intros l L. cbn [ah]. destruct (Nat.leb_spec l i); [|apply H2; lia].
    destruct (Nat.eq_dec l i) as [->|N]; [exact H1|].
    rewrite Hl by lia. unfold hs. rewrite (proj2 (Nat.ltb_lt l i)) by lia. reflexivity. }
  intros l L. rewrite (ah_keep n V sg (S i) d); auto.
Qed.

Lemma tri_r_factor : length B = d -> r_factor n B tri.
Proof.
  intros L. constructor.
  - intros i j Hij. unfold tri. destruct (Nat.leb_spec j i); [lia|auto].
  - intros i Hi. rewrite L in Hi. unfold tri. rewrite Nat.leb_refl.
    destruct (Hd i Hi) as [_ [_ [_ [P _]]]]. apply Rmult_le_pos; auto. left. apply p2_pos.
  - rewrite L. intros i j Hi Hj.
    transitivity (rsum n (fun l => tri i l * tri j l)).
    { symmetry. apply rsum_low; auto. intros l H. unfold tri at 1. destruct (Nat.leb_spec l i); [lia|lra]. }
    transitivity (rsum n (fun l => p2 (E i) * p2 (E j) * (ah n V sg d (f i) l * ah n V sg d (f j) l))).
    { apply rsum_ext. intros l H. rewrite !trim by auto. unfold tri. destruct (l <=? i)%nat, (l <=? j)%nat; ring. }
    rewrite rsum_scal, rsum_rs, ah_inner; auto.
    2:{ intros k Hk. destruct (Hd k Hk) as [Vk _]. exact Vk. }
    rewrite <- rs_scal, <- rsum_rs. unfold inner. rewrite IZR_zsum. apply rsum_ext. intros l H.
    rewrite mult_IZR. change (IZR (nth l (nth i B []) 0%Z)) with (IZR (ent B i l)).
    change (IZR (nth l (nth j B []) 0%Z)) with (IZR (ent B j l)).
    rewrite <- !Hf by auto. ring.
Qed.
End Tri.
