(** Specification of dual-reduced blocks (Micciancio-Walter, SD-BKZ), independent of the model of the code. *)
From Coq Require Import List ZArith QArith Qcanon Arith Bool Lia.
From Verif Require Import Util QcUtil LatticeSpec LllSpec.
Import ListNotations.
Local Open Scope Qc_scope.

(** [w] is a vector of the dual of the block of m rows from k, projected orthogonally to the rows before it: in the span of
    the Gram-Schmidt vectors of the block, with integer inner product with every row of the block *)
Definition dual_vec (c : nat) (B : list (list Z)) (bs : nat -> nat -> Qc) (k m : nat) (w : nat -> Qc) : Prop :=
  (exists x : nat -> Qc, forall t, (t < c)%nat -> w t = qsum m (fun i => x i * bs (k + i)%nat t)) /\
  forall i, (i < m)%nat -> exists y : Z, ip c w (qrow B (k + i)) = Qcz y.
(** the block is dual-reduced up to delta: the dual basis vector that belongs to its last row, of squared length
    1 / |bs_{k+m-1}|^2, is a shortest non-zero vector of the dual up to the factor delta on squared lengths *)
Definition dual_reduced (c : nat) (B : list (list Z)) (bs : nat -> nat -> Qc) (delta : Qc) (k m : nat) : Prop :=
  forall w, dual_vec c B bs k m w -> (exists t, (t < c)%nat /\ w t <> 0) -> delta <= norm2 c (bs (k + m - 1)%nat) * norm2 c w.
