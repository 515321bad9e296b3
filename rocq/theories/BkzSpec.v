(** Specification of HKZ- and BKZ-reduced bases, independent of the model of the code. *)
From Coq Require Import List ZArith QArith Qcanon Arith Bool Lia.
From Verif Require Import Util QcUtil LatticeSpec LllSpec.
Import ListNotations.
Local Open Scope Qc_scope.

(** squared length of the projection of [v] orthogonally to the orthogonal vectors bs_0, ..., bs_{k-1} *)
Definition proj_sq (c : nat) (bs : nat -> nat -> Qc) (k : nat) (v : nat -> Qc) : Qc :=
  norm2 c v - qsum k (fun j => ip c v (bs j) * ip c v (bs j) / norm2 c (bs j)).

(** an integer vector as a rational vector *)
Definition qvec (v : list Z) (t : nat) : Qc := Qcz (nth t v 0%Z).

(** The first d rows of B (all its rows) are independent, and every Gram-Schmidt vector is, up to the factor
    [delta] on squared lengths, a shortest non-zero vector of the projected lattice; with delta = 1: the lengths are
    those of an HKZ-reduced basis (size reduction is stated separately). *)
Definition hkz_lengths (c : nat) (B : list (list Z)) (d : nat) (delta : Qc) : Prop :=
  exists bs mu, gso_of c B d bs mu /\ (forall i, (i < d)%nat -> 0 < norm2 c (bs i)) /\
    forall k v, (k < d)%nat -> in_lattice c B v -> 0 < proj_sq c bs k (qvec v) ->
      delta * norm2 c (bs k) <= proj_sq c bs k (qvec v).

(** rows k, ..., k+m-1 combined with integer coefficients *)
Definition block_vec (B : list (list Z)) (k m : nat) (x : nat -> Z) (t : nat) : Qc :=
  qsum m (fun i => Qcz (x i) * qrow B (k + i) t).
(** the block of m rows from k: its first Gram-Schmidt vector is, up to delta, a shortest non-zero vector of the block
    projected orthogonally to the rows before it *)
Definition block_reduced (c : nat) (B : list (list Z)) (bs : nat -> nat -> Qc) (delta : Qc) (k m : nat) : Prop :=
  forall x : nat -> Z, (exists i, (i < m)%nat /\ x i <> 0%Z) ->
    delta * norm2 c (bs k) <= proj_sq c bs k (block_vec B k m x).
(** BKZ-reduced with block size beta: every block [k, min(k+beta, d)) is *)
Definition bkz_reduced (c : nat) (B : list (list Z)) (d : nat) (delta : Qc) (beta : nat) : Prop :=
  exists bs mu, gso_of c B d bs mu /\ (forall i, (i < d)%nat -> 0 < norm2 c (bs i)) /\
    forall k, (k < d)%nat -> block_reduced c B bs delta k (Nat.min beta (d - k)).

(** every row but the last is size-reduced; the last one with respect to its predecessor only *)
Definition nearly_size_reduced (c : nat) (B : list (list Z)) (d : nat) (eta : Qc) : Prop :=
  exists bs mu, gso_of c B d bs mu /\ (forall i, (i < d)%nat -> 0 < norm2 c (bs i)) /\
    size_reduced (d - 1) eta mu /\ - eta <= mu (d - 1)%nat (d - 2)%nat /\ mu (d - 1)%nat (d - 2)%nat <= eta.

(** A limit on the iterations of LLL that is at least the bound of the classical analysis for every basis with d rows
    (property C70: N bounds the squared lengths of the rows). *)
Definition enough_iterations (c d : nat) (dl : Qc) (limit : list (list Z) -> nat) : Prop :=
  forall B n, length B = d -> independent c B d -> (0 < n <= d)%nat ->
    exists m N, (forall i, (i < n)%nat -> znorm2 c (nth i B []) <= N) /\ N ^ (n * (n - 1) / 2) * dl ^ (m + 1) < 1 /\ (n - 1 + m <= limit B)%nat.
