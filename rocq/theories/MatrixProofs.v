(** Proofs about MatrixModel. *)
From Coq Require Import List ZArith Lia Arith Bool.
From Verif Require Import Util LatticeSpec NumVectModel NumVectProofs MatrixModel.
Import ListNotations.
Local Open Scope nat_scope.

(** loop rule for [ofor] over a range *)
Lemma ofor_inv {S} (P : nat -> S -> Prop) (f : nat -> S -> option S) n : forall a s,
  P a s ->
  (forall k s, a <= k < a + n -> P k s -> exists s', f k s = Some s' /\ P (Datatypes.S k) s') ->
  exists s', ofor (seq a n) f s = Some s' /\ P (a + n) s'.
Proof.
  induction n; intros a s H0 Hstep; simpl.
  - exists s. rewrite Nat.add_0_r. auto.
  - destruct (Hstep a s) as [s1 [E1 P1]]; [lia|auto|].
    rewrite E1. simpl. destruct (IHn (Datatypes.S a) s1) as [s2 [E2 P2]]; auto.
    + intros k t Hk Pk. apply Hstep; auto; lia.
    + exists s2. split; auto. replace (a + Datatypes.S n) with (Datatypes.S a + n) by lia. auto.
Qed.

Section Mat.
Context {A : Type} (dA : A).

Definition gent (M : list (list A)) (i j : nat) : A := nth j (nth i M []) dA.
(** every one of the R rows has C columns *)
Definition dims (R C : nat) (M : list (list A)) : Prop :=
  length M = R /\ forall i, i < R -> length (nth i M []) = C.

Lemma dims_upd R C M i row : dims R C M -> length row = C -> dims R C (upd M i row).
Proof.
  intros [HR HC] Hr. split; [now rewrite upd_length|].
  intros k Hk. rewrite nth_upd. destruct ((k =? i) && (i <? length M)); auto.
Qed.

Lemma mget_some R C M i j : dims R C M -> i < R -> j < C -> mget M i j = Some (gent M i j).
Proof.
  intros [HR HC] Hi Hj. unfold mget. rewrite (nth_error_nth' M []) by lia. simpl.
  rewrite (nth_error_nth' _ dA) by (rewrite HC; auto). reflexivity.
Qed.

Lemma mset_some R C M i j x : dims R C M -> i < R -> j < C ->
  exists M', mset M i j x = Some M' /\ dims R C M' /\
    forall a b, gent M' a b = if (a =? i) && (b =? j) then x else gent M a b.
Proof.
  intros HD Hi Hj. pose proof HD as [HR HC]. unfold mset. rewrite (nth_error_nth' M []) by lia. simpl.
  rewrite (nth_error_nth' _ dA) by (rewrite HC; auto). simpl.
  eexists; split; [reflexivity|]. split.
  - apply dims_upd; auto. rewrite upd_length; auto.
  - intros a b. unfold gent. rewrite nth_upd.
    assert (i <? length M = true) as -> by (apply Nat.ltb_lt; lia).
    rewrite andb_true_r. destruct (Nat.eqb_spec a i); subst; simpl; auto.
    rewrite nth_upd. rewrite HC by auto.
    assert (j <? C = true) as -> by (apply Nat.ltb_lt; lia).
    rewrite andb_true_r. destruct (b =? j); auto.
Qed.

Lemma mswap_some R C M i j k l : dims R C M -> i < R -> j < C -> k < R -> l < C ->
  exists M', mswap M i j k l = Some M' /\ dims R C M' /\
    forall a b, gent M' a b = if (a =? k) && (b =? l) then gent M i j
                              else if (a =? i) && (b =? j) then gent M k l else gent M a b.
Proof.
  intros HD Hi Hj Hk Hl. unfold mswap.
  rewrite (mget_some R C) by auto. simpl. rewrite (mget_some R C) by auto. simpl.
  destruct (mset_some R C M i j (gent M k l)) as [M1 [E1 [D1 G1]]]; auto. rewrite E1. simpl.
  destruct (mset_some R C M1 k l (gent M i j)) as [M2 [E2 [D2 G2]]]; auto.
  exists M2. split; auto. split; auto. intros a b. rewrite G2, G1. reflexivity.
Qed.

Lemma mrow_rotate_left_some R C M i f l : dims R C M -> i < R -> f <= l < C ->
  exists M', mrow_rotate_left M i f l = Some M' /\ dims R C M' /\
    forall a b, b < C -> gent M' a b = if a =? i then gent M a (rot_left_idx f l b) else gent M a b.
Proof.
  intros HD Hi Hl. pose proof HD as [HR HC].
  unfold mrow_rotate_left. rewrite (nth_error_nth' M []) by lia. simpl.
  destruct (rotate_left_spec (nth i M []) f l) as [row' [E R1]]; [rewrite HC; lia|].
  rewrite E. simpl. eexists; split; [reflexivity|].
  assert (HL : length row' = C) by (destruct R1; rewrite HC in *; auto).
  split; [apply dims_upd; auto|].
  intros a b Hb. unfold gent. rewrite nth_upd.
  assert (i <? length M = true) as -> by (apply Nat.ltb_lt; lia). rewrite andb_true_r.
  destruct (Nat.eqb_spec a i); subst; auto.
  apply reidx_nth; auto; rewrite HC by auto; auto. apply rot_left_lt; lia.
Qed.

Lemma mrow_rotate_right_some R C M i f l : dims R C M -> i < R -> f <= l < C ->
  exists M', mrow_rotate_right M i f l = Some M' /\ dims R C M' /\
    forall a b, b < C -> gent M' a b = if a =? i then gent M a (rot_right_idx f l b) else gent M a b.
Proof.
  intros HD Hi Hl. pose proof HD as [HR HC].
  unfold mrow_rotate_right. rewrite (nth_error_nth' M []) by lia. simpl.
  destruct (rotate_right_spec (nth i M []) f l) as [row' [E R1]]; [rewrite HC; lia|].
  rewrite E. simpl. eexists; split; [reflexivity|].
  assert (HL : length row' = C) by (destruct R1; rewrite HC in *; auto).
  split; [apply dims_upd; auto|].
  intros a b Hb. unfold gent. rewrite nth_upd.
  assert (i <? length M = true) as -> by (apply Nat.ltb_lt; lia). rewrite andb_true_r.
  destruct (Nat.eqb_spec a i); subst; auto.
  apply reidx_nth; auto; rewrite HC by auto; auto. apply rot_right_lt; lia.
Qed.

Lemma rotate_left_dims R C (M : list (list A)) f l : dims R C M -> f <= l < R ->
  exists M', rotate_left_by_swap M f l = Some M' /\ dims R C M' /\
    forall a b, a < R -> gent M' a b = gent M (rot_left_idx f l a) b.
Proof.
  intros [HR HC] Hl. destruct (rotate_left_spec M f l) as [M' [E R1]]; [lia|].
  exists M'. split; auto.
  assert (G : forall a, a < R -> nth a M' [] = nth (rot_left_idx f l a) M []).
  { intros a Ha. apply reidx_nth; auto; try lia. rewrite HR. apply rot_left_lt; lia. }
  split.
  - split; [destruct R1; lia|]. intros i Hi. rewrite G by auto. apply HC. apply rot_left_lt; lia.
  - intros a b Ha. unfold gent. now rewrite G.
Qed.

Lemma rotate_right_dims R C (M : list (list A)) f l : dims R C M -> f <= l < R ->
  exists M', rotate_right_by_swap M f l = Some M' /\ dims R C M' /\
    forall a b, a < R -> gent M' a b = gent M (rot_right_idx f l a) b.
Proof.
  intros [HR HC] Hl. destruct (rotate_right_spec M f l) as [M' [E R1]]; [lia|].
  exists M'. split; auto.
  assert (G : forall a, a < R -> nth a M' [] = nth (rot_right_idx f l a) M []).
  { intros a Ha. apply reidx_nth; auto; try lia. rewrite HR. apply rot_right_lt; lia. }
  split.
  - split; [destruct R1; lia|]. intros i Hi. rewrite G by auto. apply HC. apply rot_right_lt; lia.
  - intros a b Ha. unfold gent. now rewrite G.
Qed.

(** lower-triangular reading of a symmetric matrix *)
Definition sgent (M : list (list A)) (i j : nat) : A :=
  if j <=? i then gent M i j else gent M j i.

Lemma sgent_sym M i j : sgent M i j = sgent M j i.
Proof.
  unfold sgent. destruct (Nat.leb_spec j i); destruct (Nat.leb_spec i j); auto; try lia.
  replace j with i by lia. auto.
Qed.

Ltac gs := bdestr; subst; auto; try (f_equal; lia); try lia.

Theorem rotate_gram_left_spec R C M f l nv :
  dims R C M -> f <= l -> l < nv -> nv <= R -> nv <= C ->
  exists M', rotate_gram_left M f l nv = Some M' /\ dims R C M' /\
    forall i j, i < nv -> j < nv ->
      sgent M' i j = sgent M (rot_left_idx f l i) (rot_left_idx f l j).
Proof.
  intros HD Hfl Hl HR HC. unfold rotate_gram_left.
  destruct (mswap_some R C M f f f l) as [M1 [E1 [D1 G1]]]; auto; try lia.
  rewrite E1. simpl.
  (* second loop *)
  destruct (ofor_inv (fun k Mk => dims R C Mk /\
      forall a b, gent Mk a b =
        if (a =? f) && (f <=? b) && (b <? k) then gent M1 (S b) f
        else if (b =? f) && (f <? a) && (a <? S k) then gent M1 f (a - 1)
        else gent M1 a b)
     (fun i M => mswap M (S i) f f i) (l - f) f M1) as [M2 [E2 [D2 G2]]].
  { split; auto. intros a b. gs. }
  { intros k s Hk [Ds Gs].
    destruct (mswap_some R C s (S k) f f k) as [s' [Es [Ds' Gs']]]; auto; try lia.
    exists s'. split; auto. split; auto. intros a b. rewrite Gs', !Gs.
    destruct (Nat.eqb_spec a f); destruct (Nat.eqb_spec b k); subst;
    gs. }
  rewrite E2. simpl.
  replace (f + (l - f)) with l in * by lia.
  (* third loop *)
  destruct (ofor_inv (fun k Mk => dims R C Mk /\
      forall a b, b < C -> gent Mk a b =
        if (f <=? a) && (a <? k) then gent M2 a (rot_left_idx f (Nat.min l a) b) else gent M2 a b)
     (fun i M => mrow_rotate_left M i f (Nat.min l i)) (nv - f) f M2) as [M3 [E3 [D3 G3]]].
  { split; auto. intros a b Hb. gs. }
  { intros k s Hk [Ds Gs].
    destruct (mrow_rotate_left_some R C s k f (Nat.min l k)) as [s' [Es [Ds' Gs']]]; auto; try lia.
    exists s'. split; auto. split; auto. intros a b Hb. rewrite Gs' by auto.
    destruct (Nat.eqb_spec a k).
    - subst. rewrite Gs by (apply rot_left_lt; lia). gs.
    - rewrite Gs by auto. gs. }
  rewrite E3. simpl.
  replace (f + (nv - f)) with nv in * by lia.
  destruct (rotate_left_dims R C M3 f l) as [M4 [E4 [D4 G4]]]; auto; try lia.
  exists M4. split; auto. split; auto.
  (* final *)
  assert (G : forall a b, a < nv -> b <= a -> gent M4 a b = sgent M (rot_left_idx f l a) (rot_left_idx f l b)).
  { intros a b Ha Hb. rewrite G4 by lia. rewrite G3 by lia.
    assert (X1 : forall x, gent M1 f x = if x =? l then gent M f f else if x =? f then gent M f l else gent M f x).
    { intros x. rewrite G1. rewrite Nat.eqb_refl. simpl. reflexivity. }
    assert (X2 : forall a x, a <> f -> gent M1 a x = gent M a x).
    { intros y x Hy. rewrite G1. apply Nat.eqb_neq in Hy. rewrite Hy. reflexivity. }
    assert (Y1 : forall x, f <= x <= l -> gent M2 f x = if x =? l then gent M f f else gent M (S x) f).
    { intros x Hx. rewrite G2. rewrite Nat.eqb_refl. destruct (Nat.eqb_spec x l).
      - subst. bdestr; rewrite ?X1; gs.
      - bdestr; rewrite ?X2 by lia; gs. }
    assert (Y2 : forall x, x < f -> gent M2 f x = gent M f x).
    { intros x Hx. rewrite G2. rewrite Nat.eqb_refl. bdestr. rewrite X1. gs. }
    assert (Y3 : forall a x, a <> f -> x <> f -> gent M2 a x = gent M a x).
    { intros y x Hy Hx. rewrite G2. bdestr; apply X2; lia. }
    assert (Y4 : forall a, l < a -> gent M2 a f = gent M a f).
    { intros y Hy. rewrite G2. bdestr; apply X2; lia. }
    assert (Y5 : forall a x, a < f -> gent M2 a x = gent M a x).
    { intros y x Hy. rewrite G2. bdestr; apply X2; lia. }
    unfold sgent, rot_left_idx.
    destruct (Nat.leb_spec f a); destruct (Nat.ltb_spec a l); cbn [andb].
    - (* f <= a < l: source row a+1 *)
      destruct (Nat.leb_spec f b).
      + bdestr; rewrite Y3 by lia; auto.
      + bdestr; rewrite Y3 by lia; auto.
    - destruct (Nat.eqb_spec a l).
      + (* a = l: source row f *)
        subst a. rewrite Nat.leb_refl. destruct (Nat.ltb_spec f nv); [|lia]. cbn [andb].
        replace (Nat.min l f) with f by lia.
        destruct (Nat.leb_spec f b).
        * cbn [andb]. replace (if b <? f then S b else if b =? f then f else b) with b by bdestr.
          rewrite Y1 by lia. gs.
        * cbn [andb]. replace (if b =? f then f else b) with b by bdestr.
          rewrite Y2 by lia. gs.
      + (* a > l *)
        replace (Nat.min l a) with l by lia.
        destruct (Nat.leb_spec f a); destruct (Nat.ltb_spec a nv); try lia. cbn [andb].
        destruct (Nat.leb_spec f b); destruct (Nat.ltb_spec b l); cbn [andb].
        * rewrite Y3 by lia. gs.
        * destruct (Nat.eqb_spec b l).
          -- rewrite Y4 by lia. gs.
          -- rewrite Y3 by lia. gs.
        * destruct (Nat.eqb_spec b l); [lia|]. rewrite Y3 by lia. gs.
        * destruct (Nat.eqb_spec b l); [lia|]. lia.
    - destruct (Nat.eqb_spec a l); [lia|].
      destruct (Nat.leb_spec f a); try lia. cbn [andb]. rewrite Y5 by lia. gs.
    - lia. }
  intros i j Hi Hj. unfold sgent at 1. destruct (Nat.leb_spec j i).
  - apply G; lia.
  - rewrite sgent_sym. apply G; lia.
Qed.

Theorem rotate_gram_right_spec R C M f l nv :
  dims R C M -> f <= l -> l < nv -> nv <= R -> nv <= C ->
  exists M', rotate_gram_right M f l nv = Some M' /\ dims R C M' /\
    forall i j, i < nv -> j < nv ->
      sgent M' i j = sgent M (rot_right_idx f l i) (rot_right_idx f l j).
Proof.
  intros HD Hfl Hl HR HC. unfold rotate_gram_right.
  destruct (rotate_right_dims R C M f l) as [M1 [E1 [D1 G1]]]; auto; try lia.
  rewrite E1. simpl.
  destruct (ofor_inv (fun k Mk => dims R C Mk /\
      forall a b, b < C -> gent Mk a b =
        if (f <=? a) && (a <? k) then gent M1 a (rot_right_idx f (Nat.min l a) b) else gent M1 a b)
     (fun i M => mrow_rotate_right M i f (Nat.min l i)) (nv - f) f M1) as [M2 [E2 [D2 G2]]].
  { split; auto. intros a b Hb. gs. }
  { intros k s Hk [Ds Gs].
    destruct (mrow_rotate_right_some R C s k f (Nat.min l k)) as [s' [Es [Ds' Gs']]]; auto; try lia.
    exists s'. split; auto. split; auto. intros a b Hb. rewrite Gs' by auto.
    destruct (Nat.eqb_spec a k).
    - subst. rewrite Gs by (apply rot_right_lt; lia). gs.
    - rewrite Gs by auto. gs. }
  rewrite E2. simpl. replace (f + (nv - f)) with nv in * by lia.
  destruct (ofor_inv (fun k Mk => dims R C Mk /\
      forall a b, gent Mk a b =
        if (a =? f) && (f <=? b) && (b <? k) then gent M2 (S b) f
        else if (b =? f) && (f <? a) && (a <? S k) then gent M2 f (a - 1)
        else gent M2 a b)
     (fun i M => mswap M (S i) f f i) (l - f) f M2) as [M3 [E3 [D3 G3]]].
  { split; auto. intros a b. bdestr. }
  { intros k s Hk [Ds Gs].
    destruct (mswap_some R C s (S k) f f k) as [s' [Es [Ds' Gs']]]; auto; try lia.
    exists s'. split; auto. split; auto. intros a b. rewrite Gs', !Gs.
    destruct (Nat.eqb_spec a f); destruct (Nat.eqb_spec b k); subst;
    gs. }
  rewrite E3. simpl. replace (f + (l - f)) with l in * by lia.
  destruct (mswap_some R C M3 f f f l) as [M4 [E4 [D4 G4]]]; auto; try lia.
  exists M4. split; auto. split; auto.
  assert (G : forall a b, a < nv -> b <= a -> gent M4 a b = sgent M (rot_right_idx f l a) (rot_right_idx f l b)).
  { intros a b Ha Hb.
    (* M2 in terms of M *)
    assert (Z : forall a b, f <= a < nv -> b < C ->
      gent M2 a b = gent M (rot_right_idx f l a) (rot_right_idx f (Nat.min l a) b)).
    { intros x y Hx Hy. rewrite G2 by auto.
      destruct (Nat.leb_spec f x); destruct (Nat.ltb_spec x nv); try lia. cbn [andb].
      rewrite G1 by lia. auto. }
    assert (Z' : forall a b, a < f -> b < C -> gent M2 a b = gent M a b).
    { intros x y Hx Hy. rewrite G2 by auto. destruct (Nat.leb_spec f x); try lia. cbn [andb].
      rewrite G1 by lia. unfold rot_right_idx. gs. }
    assert (RI1 : forall l x, x < f -> rot_right_idx f l x = x) by (intros; unfold rot_right_idx; bdestr).
    assert (RI2 : forall l, rot_right_idx f l f = l) by (intros; unfold rot_right_idx; bdestr).
    assert (RI3 : forall l x, f < x <= l -> rot_right_idx f l x = x - 1) by (intros; unfold rot_right_idx; bdestr).
    assert (RI4 : forall l x, f <= l < x -> rot_right_idx f l x = x) by (intros; unfold rot_right_idx; bdestr).
    assert (SG : forall x y, y <= x -> sgent M x y = gent M x y).
    { intros x y Hxy. unfold sgent. destruct (Nat.leb_spec y x); auto; lia. }
    (* M3 in terms of M2 *)
    assert (T1 : forall x, f <= x < l -> gent M3 f x = gent M2 (S x) f).
    { intros x Hx. rewrite G3. gs. }
    assert (T2 : forall x, x < f \/ l <= x -> gent M3 f x = gent M2 f x).
    { intros x Hx. rewrite G3. gs. }
    assert (T3 : forall x, f < x <= l -> gent M3 x f = gent M2 f (x - 1)).
    { intros x Hx. rewrite G3. gs. }
    assert (T4 : forall x y, x <> f -> y <> f \/ l < x \/ x < f -> gent M3 x y = gent M2 x y).
    { intros x y Hx Hy. rewrite G3. gs. }
    assert (U1 : gent M4 f f = gent M3 f l).
    { rewrite G4. destruct (Nat.eqb_spec f l); gs. }
    assert (U2 : forall x y, x <> f \/ (y <> f /\ y <> l) -> gent M4 x y = gent M3 x y).
    { intros x y Hx. rewrite G4. gs. }
    destruct (Nat.lt_ge_cases a f) as [Haf|Haf].
    { rewrite U2, T4, Z', !RI1, SG by lia. auto. }
    destruct (Nat.eq_dec a f) as [Ea|Ea].
    - subst a. destruct (Nat.eq_dec b f) as [Eb|Eb].
      + subst b. rewrite U1, T2, Z, !RI2, SG by lia.
        destruct (Nat.eq_dec f l) as [El|El].
        * f_equal. rewrite <- El. replace (Nat.min f f) with f by lia. apply RI2.
        * f_equal. replace (Nat.min l f) with f by lia. rewrite RI4; lia.
      + rewrite U2, T2, Z, RI2 by lia. rewrite (RI1 _ b), (RI1 _ b), SG by lia. auto.
    - rewrite U2 by lia. destruct (Nat.le_gt_cases a l) as [Hal|Hal].
      + rewrite (RI3 l a) by lia. destruct (Nat.eq_dec b f) as [Eb|Eb].
        * subst b. rewrite T3, Z, !RI2 by lia.
          replace (Nat.min l f) with f by lia.
          rewrite sgent_sym, SG by lia. f_equal.
          destruct (Nat.eq_dec (a - 1) f) as [Ex|Ex]; [rewrite Ex; apply RI2|apply RI4; lia].
        * rewrite T4, Z by lia. rewrite RI3 by lia. replace (Nat.min l a) with a by lia.
          destruct (Nat.lt_ge_cases b f).
          -- rewrite !RI1, SG by lia. auto.
          -- rewrite !RI3, SG by lia. auto.
      + rewrite T4, Z by lia. rewrite (RI4 l a) by lia. replace (Nat.min l a) with l by lia.
        rewrite SG; auto. unfold rot_right_idx. bdestr. }
  intros i j Hi Hj. unfold sgent at 1. destruct (Nat.leb_spec j i).
  - apply G; lia.
  - rewrite sgent_sym. apply G; lia.
Qed.

(** symmetric get/set *)
Lemma sym_get_some R C M i j : dims R C M -> i < R -> j < R -> i < C -> j < C ->
  sym_get M i j = Some (sgent M i j).
Proof.
  intros. unfold sym_get, sgent. destruct (j <=? i); eapply mget_some; eauto.
Qed.

Lemma sym_set_some R C M i j x : dims R C M -> i < R -> j < R -> i < C -> j < C ->
  exists M', sym_set M i j x = Some M' /\ dims R C M' /\
    forall a b, sgent M' a b =
      if ((a =? i) && (b =? j)) || ((a =? j) && (b =? i)) then x else sgent M a b.
Proof.
  intros HD Hi Hj Hic Hjc. unfold sym_set.
  destruct (Nat.leb_spec j i).
  - destruct (mset_some R C M i j x) as [M' [E [D G]]]; auto. exists M'. split; auto. split; auto.
    intros a b. unfold sgent. rewrite !G.
    destruct (Nat.leb_spec b a); gs; try lia; f_equal; lia.
  - destruct (mset_some R C M j i x) as [M' [E [D G]]]; auto. exists M'. split; auto. split; auto.
    intros a b. unfold sgent. rewrite !G.
    destruct (Nat.leb_spec b a); gs; try lia; f_equal; lia.
Qed.
End Mat.

Lemma mrow_addmul_some R C M i j x n :
  dims R C M -> i < R -> j < R -> n <= C ->
  exists M', mrow_addmul M i j x n = Some M' /\ dims R C M' /\
    forall a b, ent M' a b = (ent M a b + if (a =? i)%nat && (b <? n)%nat then x * ent M j b else 0)%Z.
Proof.
  intros HD Hi Hj Hn. pose proof HD as [HR HC]. unfold mrow_addmul.
  rewrite (nth_error_nth' M []) by lia. simpl. rewrite (nth_error_nth' M []) by lia. simpl.
  destruct (nv_addmul_spec n (nth i M []) (nth j M []) x) as [r [E [L H]]]; rewrite ?HC; auto.
  rewrite E. simpl. eexists; split; [reflexivity|]. split.
  - apply dims_upd; auto. rewrite L, HC; auto.
  - intros a b. rewrite ent_upd by lia. destruct (Nat.eqb_spec a i); subst; cbn [andb].
    + rewrite H. reflexivity.
    + lia.
Qed.

Lemma mrow_addmul_full_some R C M i j x :
  dims R C M -> i < R -> j < R ->
  exists M', mrow_addmul_full M i j x = Some M' /\ dims R C M' /\
    forall a b, ent M' a b = (ent M a b + if (a =? i)%nat then x * ent M j b else 0)%Z.
Proof.
  intros HD Hi Hj. pose proof HD as [HR HC]. unfold mrow_addmul_full.
  rewrite (nth_error_nth' M []) by lia. simpl. rewrite HC by auto.
  destruct (mrow_addmul_some R C M i j x C) as [M' [E [D H]]]; auto.
  exists M'. split; auto. split; auto. intros a b. rewrite H.
  destruct (Nat.eqb_spec a i); cbn [andb]; auto.
  destruct (Nat.ltb_spec b C); auto.
  unfold ent at 3. rewrite (nth_overflow (nth j M [])) by (rewrite HC; auto). lia.
Qed.
