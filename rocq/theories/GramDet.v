(** Gram determinants over Z, by way of the determinant of the Mathematical
    Components library.  Not part of the model: used to bound the number of
    iterations of lll(). *)
From Coq Require Import ZArith QArith Qcanon Lia List.
From Verif Require Import Util QcUtil.
From mathcomp Require Import ssreflect ssrfun ssrbool eqtype ssrnat seq choice fintype bigop ssralg ssrint matrix.
Import GRing.Theory.

(** ** Z and Qc as commutative rings *)
Definition nz (z : Z) : nat * bool := match z with Z0 => (O, false) | Zpos p => (Pos.to_nat p, false) | Zneg p => (Pos.to_nat p, true) end.
Definition zn (x : nat * bool) : Z := if x.2 then Z.opp (Z.of_nat x.1) else Z.of_nat x.1.
Lemma nzK : cancel nz zn.
Proof. by case=> [|p|p] //; rewrite /nz /zn /= ?positive_nat_Z. Qed.
Definition Z_eqMixin := CanEqMixin nzK.
Canonical Z_eqType := EqType Z Z_eqMixin.
Definition Z_choiceMixin := CanChoiceMixin nzK.
Canonical Z_choiceType := ChoiceType Z Z_choiceMixin.
Lemma Zadd_a : associative Z.add. Proof. move=> x y z. lia. Qed.
Lemma Zadd_c : commutative Z.add. Proof. move=> x y. lia. Qed.
Lemma Zadd_0 : left_id Z0 Z.add. Proof. move=> x. lia. Qed.
Lemma Zadd_n : left_inverse Z0 Z.opp Z.add. Proof. move=> x. lia. Qed.
Definition Z_zmodMixin := ZmodMixin Zadd_a Zadd_c Zadd_0 Zadd_n.
Canonical Z_zmodType := ZmodType Z Z_zmodMixin.
Lemma Zmul_a : associative Z.mul. Proof. move=> x y z. lia. Qed.
Lemma Zmul_c : commutative Z.mul. Proof. move=> x y. lia. Qed.
Lemma Zmul_1 : left_id (Zpos 1) Z.mul. Proof. move=> x. lia. Qed.
Lemma Zmul_d : left_distributive Z.mul Z.add. Proof. move=> x y z. lia. Qed.
Lemma Z_one0 : (Zpos 1 : Z) != Z0. Proof. by []. Qed.
Definition Z_ringMixin := ComRingMixin Zmul_a Zmul_c Zmul_1 Zmul_d Z_one0.
Canonical Z_ringType := RingType Z Z_ringMixin.
Canonical Z_comRingType := ComRingType Z Zmul_c.

Definition nq (q : Qc) : Z * nat := (Qnum q, Pos.to_nat (Qden q)).
Definition qn (x : Z * nat) : Qc := Q2Qc (Qmake x.1 (Pos.of_nat x.2)).
Lemma nqK : cancel nq qn.
Proof.
  move=> q. apply Qc_is_canon. unfold qn, nq, Q2Qc. cbn [this]. rewrite Qred_correct /= Pos2Nat.id. by case: q => -[].
Qed.
Definition Qc_eqMixin := CanEqMixin nqK.
Canonical Qc_eqType := EqType Qc Qc_eqMixin.
Definition Qc_choiceMixin := CanChoiceMixin nqK.
Canonical Qc_choiceType := ChoiceType Qc Qc_choiceMixin.
Lemma Qcadd_a : associative Qcplus. Proof. move=> x y z. apply Qcplus_assoc. Qed.
Lemma Qcadd_0 : left_id (Q2Qc 0) Qcplus. Proof. move=> x. apply Qcplus_0_l. Qed.
Lemma Qcadd_n : left_inverse (Q2Qc 0) Qcopp Qcplus. Proof. move=> x. rewrite Qcplus_comm. apply Qcplus_opp_r. Qed.
Definition Qc_zmodMixin := ZmodMixin Qcadd_a Qcplus_comm Qcadd_0 Qcadd_n.
Canonical Qc_zmodType := ZmodType Qc Qc_zmodMixin.
Lemma Qcmul_a : associative Qcmult. Proof. move=> x y z. apply Qcmult_assoc. Qed.
Lemma Qcmul_1 : left_id (Q2Qc 1) Qcmult. Proof. move=> x. apply Qcmult_1_l. Qed.
Lemma Qcmul_d : left_distributive Qcmult Qcplus. Proof. move=> x y z. apply Qcmult_plus_distr_l. Qed.
Lemma Qc_one0 : Q2Qc 1 != Q2Qc 0. Proof. by []. Qed.
Definition Qc_ringMixin := ComRingMixin Qcmul_a Qcmult_comm Qcmul_1 Qcmul_d Qc_one0.
Canonical Qc_ringType := RingType Qc Qc_ringMixin.
Canonical Qc_comRingType := ComRingType Qc Qcmult_comm.

Lemma Qcz_rmorph : rmorphism Qcz.
Proof.
  split; [move=> x y; exact: Qcz_sub|]. split; [move=> x y; exact: Qcz_mul|]. by [].
Qed.
Canonical Qcz_additive := Additive Qcz_rmorph.
Canonical Qcz_rmorphism := RMorphism Qcz_rmorph.

(** ** sums and products as indexed big operators *)
Lemma qsum_big n (f : nat -> Qc) : qsum n f = (\sum_(i < n) f i)%R.
Proof. elim: n => [|n IH]; [by rewrite big_ord0|]. by rewrite big_ord_recr /= IH. Qed.
Lemma zsum_big n (f : nat -> Z) : zsum n f = (\sum_(i < n) f i)%R.
Proof. elim: n => [|n IH]; [by rewrite big_ord0|]. by rewrite big_ord_recr /= IH. Qed.
Fixpoint qprod (n : nat) (f : nat -> Qc) : Qc := match n with O => Q2Qc 1 | S m => Qcmult (qprod m f) (f m) end.
Lemma qprod_big n (f : nat -> Qc) : qprod n f = (\prod_(i < n) f i)%R.
Proof. elim: n => [|n IH]; [by rewrite big_ord0|]. by rewrite big_ord_recr /= IH. Qed.

(** determinant of the leading n x n submatrix *)
Definition gdet (n : nat) (G : nat -> nat -> Z) : Z := (\det (\matrix_(i < n, j < n) G i j))%R.

Lemma gdet_ext n G G' : (forall i j, Peano.lt i n -> Peano.lt j n -> G i j = G' i j) -> gdet n G = gdet n G'.
Proof. move=> H. rewrite /gdet. congr (\det _)%R. apply/matrixP=> i j. rewrite !mxE. by apply: H; apply/ltP. Qed.

(** a product of a unit lower triangular and an upper triangular rational matrix *)
Lemma gdet_tri n G (M R : nat -> nat -> Qc) :
  (forall i j, Peano.lt i n -> Peano.lt j n -> Qcz (G i j) = qsum n (fun k => Qcmult (M i k) (R j k))) ->
  (forall i, Peano.lt i n -> M i i = Q2Qc 1) -> (forall i j, Peano.lt i j -> Peano.lt j n -> M i j = Q2Qc 0) ->
  (forall i j, Peano.lt i j -> Peano.lt j n -> R i j = Q2Qc 0) ->
  Qcz (gdet n G) = qprod n (fun j => R j j).
Proof.
  move=> HG HM1 HM0 HR. rewrite /gdet -(det_map_mx Qcz_rmorphism).
  set A := (\matrix_(i < n, j < n) M i j : 'M[Qc]_n)%R. set B := (\matrix_(i < n, j < n) R i j : 'M[Qc]_n)%R.
  have -> : (map_mx Qcz_rmorphism (\matrix_(i < n, j < n) G i j) = A *m B^T)%R.
  { apply/matrixP=> i j. rewrite !mxE /= HG ?qsum_big; try by apply/ltP. apply: eq_bigr => k _. by rewrite !mxE. }
  rewrite det_mulmx det_tr !det_trig.
  - rewrite qprod_big. rewrite big1 ?mul1r; last by move=> i _; rewrite mxE HM1 //; apply/ltP.
    apply: eq_bigr => i _. by rewrite mxE.
  - apply/is_trig_mxP=> i j ij. rewrite mxE HR //; by apply/ltP.
  - apply/is_trig_mxP=> i j ij. rewrite mxE HM0 //; by apply/ltP.
Qed.

(** change of generators *)
Lemma gdet_congr n G G' (U : nat -> nat -> Z) :
  (forall i j, Peano.lt i n -> Peano.lt j n -> G' i j = zsum n (fun a => Z.mul (U i a) (zsum n (fun b => Z.mul (G a b) (U j b))))) ->
  gdet n G' = Z.mul (Z.mul (gdet n U) (gdet n U)) (gdet n G).
Proof.
  move=> H. rewrite /gdet.
  set A := (\matrix_(i < n, j < n) U i j : 'M[Z]_n)%R. set B := (\matrix_(i < n, j < n) G i j : 'M[Z]_n)%R.
  have -> : (\matrix_(i < n, j < n) G' i j = A *m (B *m A^T))%R.
  { apply/matrixP=> i j. rewrite !mxE H ?zsum_big; try by apply/ltP. apply: eq_bigr => k _. rewrite !mxE zsum_big.
    congr (_ * _)%R. apply: eq_bigr => l _. by rewrite !mxE. }
  rewrite !det_mulmx det_tr. change (Z.mul (Z.mul (\det A)%R (\det A)%R) (\det B)%R) with (\det A * \det A * \det B)%R.
  by rewrite (mulrC (\det B)%R) mulrA.
Qed.

Lemma gdet_equiv n G G' (U V : nat -> nat -> Z) :
  (forall i j, Peano.lt i n -> Peano.lt j n -> G' i j = zsum n (fun a => Z.mul (U i a) (zsum n (fun b => Z.mul (G a b) (U j b))))) ->
  (forall i j, Peano.lt i n -> Peano.lt j n -> G i j = zsum n (fun a => Z.mul (V i a) (zsum n (fun b => Z.mul (G' a b) (V j b))))) ->
  gdet n G' = gdet n G.
Proof.
  move=> /gdet_congr H1 /gdet_congr H2. move: (gdet n U) (gdet n V) (gdet n G) (gdet n G') H1 H2 => u v g h H1 H2.
  clear - H1 H2. destruct (Z.eq_dec g 0) as [->|N]; [rewrite H1; lia|].
  assert (E : Z.mul (Z.mul (Z.mul v v) (Z.mul u u)) g = Z.mul (Zpos 1) g) by (rewrite H1 in H2; lia).
  apply Z.mul_reg_r in E; [|exact N].
  assert (X : Z.mul u u = Zpos 1). { pose proof E as E'. apply Z.mul_eq_1 in E. nia. }
  rewrite H1 X. lia.
Qed.
