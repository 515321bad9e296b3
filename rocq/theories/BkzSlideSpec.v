(** Specification of slide-reduced bases (Gama-Nguyen), independent of the model of the code. *)
From Coq Require Import List ZArith QArith Qcanon Arith Bool Lia.
From Verif Require Import Util QcUtil LatticeSpec LllSpec BkzSpec BkzDualSpec.
Import ListNotations.
Local Open Scope Qc_scope.

(** Up to delta: every primal block [i beta, min((i+1) beta, d)) starts with a shortest vector, and every dual block
    [i beta + 1, (i+1) beta + 1) that fits is dual-reduced. *)
Definition slide_blocks (c : nat) (B : list (list Z)) (d : nat) (bs : nat -> nat -> Qc) (delta : Qc) (beta : nat) : Prop :=
  (forall i, (i * beta < d)%nat -> block_reduced c B bs delta (i * beta) (Nat.min beta (d - i * beta))) /\
  (forall i, ((i + 1) * beta < d)%nat -> dual_reduced c B bs delta (i * beta + 1) beta).
Definition slide_reduced (c : nat) (B : list (list Z)) (d : nat) (delta : Qc) (beta : nat) : Prop :=
  exists bs mu, gso_of c B d bs mu /\ (forall i, (i < d)%nat -> 0 < norm2 c (bs i)) /\ slide_blocks c B d bs delta beta.

(** product of n numbers *)
Fixpoint product (n : nat) (f : nat -> Qc) : Qc := match n with O => 1 | S m => product m f * f m end.
(** q is the product of the squared volumes of the lattices spanned by the first beta, 2 beta, ... rows, as many as are fewer than d *)
Definition slide_potential (c : nat) (B : list (list Z)) (d beta : nat) (q : Qc) : Prop :=
  exists bs mu, gso_of c B d bs mu /\ (forall i, (i < d)%nat -> 0 < norm2 c (bs i)) /\
    q = product ((d - 1) / beta) (fun i => product ((i + 1) * beta) (fun j => norm2 c (bs j))).
