(** Specification of LLL-reduced bases, independent of the model of the code:
    Gram-Schmidt orthogonalisation by its characteristic equations. *)
From Coq Require Import List ZArith QArith Qcanon Lia Lqa Arith Bool.
From Verif Require Import Util QcUtil LatticeSpec.
Import ListNotations.
Local Open Scope Qc_scope.

(** inner product of vectors with c rational coordinates *)
Definition ip (c : nat) (v w : nat -> Qc) : Qc := qsum c (fun k => v k * w k).
Definition norm2 (c : nat) (v : nat -> Qc) : Qc := ip c v v.
(** row i of an integer matrix as a rational vector *)
Definition qrow (B : list (list Z)) (i k : nat) : Qc := Qcz (ent B i k).

(** bs and mu are the Gram-Schmidt vectors and coefficients of the first n rows of B *)
Definition gso_of (c : nat) (B : list (list Z)) (n : nat) (bs : nat -> nat -> Qc) (mu : nat -> nat -> Qc) : Prop :=
  (forall i k, (i < n)%nat -> (k < c)%nat -> qrow B i k = bs i k + qsum i (fun j => mu i j * bs j k)) /\
  (forall i j, (j < i)%nat -> (i < n)%nat -> ip c (bs i) (bs j) = 0).

(** the first n rows of B are linearly independent over the rationals *)
Definition independent (c : nat) (B : list (list Z)) (n : nat) : Prop :=
  forall x : nat -> Qc, (forall k, (k < c)%nat -> qsum n (fun i => x i * qrow B i k) = 0) ->
    forall i, (i < n)%nat -> x i = 0.

Definition size_reduced (n : nat) (eta : Qc) (mu : nat -> nat -> Qc) : Prop :=
  forall i j, (j < i)%nat -> (i < n)%nat -> - eta <= mu i j /\ mu i j <= eta.
Definition lovasz (c n : nat) (delta : Qc) (bs : nat -> nat -> Qc) (mu : nat -> nat -> Qc) : Prop :=
  forall i, (S i < n)%nat ->
    delta * norm2 c (bs i) <= norm2 c (bs (S i)) + mu (S i) i * mu (S i) i * norm2 c (bs i).
Definition siegel (c n : nat) (thr : Qc) (bs : nat -> nat -> Qc) : Prop :=
  forall i, (S i < n)%nat -> thr * norm2 c (bs i) <= norm2 c (bs (S i)).

(** The first n rows of B are independent and LLL-reduced (Lovasz version). *)
Definition lll_reduced (c : nat) (B : list (list Z)) (n : nat) (delta eta : Qc) : Prop :=
  exists bs mu, gso_of c B n bs mu /\ (forall i, (i < n)%nat -> 0 < norm2 c (bs i)) /\
    size_reduced n eta mu /\ lovasz c n delta bs mu.
(** The Siegel version. *)
Definition siegel_reduced (c : nat) (B : list (list Z)) (n : nat) (delta eta : Qc) : Prop :=
  exists bs mu, gso_of c B n bs mu /\ (forall i, (i < n)%nat -> 0 < norm2 c (bs i)) /\
    size_reduced n eta mu /\ siegel c n (delta - eta * eta) bs.

(** squared norm of an integer vector *)
Definition znorm2 (c : nat) (v : list Z) : Qc := Qcz (inner c v v).
