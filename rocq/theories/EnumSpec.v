(** Specification of lattice enumeration, independent of the model of the code: lengths of
    integer combinations of a basis given by its Gram-Schmidt data, and their
    meaning as Euclidean lengths. *)
From Coq Require Import List ZArith QArith Qcanon Arith Bool Lia.
From Verif Require Import Util QcUtil LatticeSpec LllSpec.
Import ListNotations.
Local Open Scope Qc_scope.

(** i-th Gram-Schmidt coordinate of sum_j x_j b_j - target, where the target has
    Gram-Schmidt coordinates [t] *)
Definition gcoord (d : nat) (mu : nat -> nat -> Qc) (t : nat -> Qc) (x : list Z) (i : nat) : Qc :=
  Qcz (nth i x 0%Z) + qsum d (fun j => if Nat.ltb i j then Qcz (nth j x 0%Z) * mu j i else 0) - t i.

(** squared length of the projection of sum_j x_j b_j - target orthogonally to b_0, ..., b_{k-1};
    [r i] is the squared length of the i-th Gram-Schmidt vector *)
Definition plen (d : nat) (mu : nat -> nat -> Qc) (r : nat -> Qc) (t : nat -> Qc) (x : list Z) (k : nat) : Qc :=
  qsum d (fun i => if Nat.leb k i then gcoord d mu t x i * gcoord d mu t x i * r i else 0).

Definition no_target : nat -> Qc := fun _ => 0.
(** squared length of sum_j x_j b_j *)
Definition vlen (d : nat) (mu : nat -> nat -> Qc) (r : nat -> Qc) (x : list Z) : Qc := plen d mu r no_target x 0.

Definition nonzero (x : list Z) : Prop := exists i, nth i x 0%Z <> 0%Z.
Definition neg (x : list Z) : list Z := map Z.opp x.

(** the lattice vector with coefficients [x] *)
Definition comb (B : list (list Z)) (x : list Z) (k : nat) : Qc := qsum (length B) (fun i => Qcz (nth i x 0%Z) * qrow B i k).
(** squared Euclidean distance between the lattice vector with coefficients [x] and the rational vector [tau] *)
Definition dist2 (c : nat) (B : list (list Z)) (tau : nat -> Qc) (x : list Z) : Qc :=
  norm2 c (fun k => comb B x k - tau k).
