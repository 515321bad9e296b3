(** Specification of the R-factor and of HLLL-reduced bases, independent of the
    model of the code (Morel, Stehle, Villard, ISSAC 2009, Definition 2). *)
From Coq Require Import List ZArith Reals.
From Verif Require Import Util LatticeSpec.
Import ListNotations.
Local Open Scope R_scope.

(** f 0 + ... + f (n-1) *)
Definition rsum (n : nat) (f : nat -> R) : R := fold_right Rplus 0 (map f (seq 0 n)).

(** r is lower triangular with nonnegative diagonal and has the same inner
    products of rows as B: B = r Q with the rows of Q orthonormal *)
Record r_factor (c : nat) (B : list (list Z)) (r : nat -> nat -> R) : Prop := {
  rf_low : forall i j, (i < j)%nat -> r i j = 0;
  rf_pos : forall i, (i < length B)%nat -> 0 <= r i i;
  rf_gram : forall i j, (i < length B)%nat -> (j < length B)%nat ->
    rsum (length B) (fun l => r i l * r j l) = IZR (inner c (nth i B []) (nth j B []))
}.

(** weakly size-reduced: |r_ij| <= eta r_jj + theta r_ii *)
Definition weakly_size_reduced (eta theta : R) (d : nat) (r : nat -> nat -> R) : Prop :=
  forall i j, (j < i < d)%nat -> Rabs (r i j) <= eta * r j j + theta * r i i.

(** Lovasz: delta r_ii^2 <= r_{i+1,i}^2 + r_{i+1,i+1}^2 *)
Definition r_lovasz (delta : R) (d : nat) (r : nat -> nat -> R) : Prop :=
  forall i, (S i < d)%nat -> delta * (r i i * r i i) <= r (S i) i * r (S i) i + r (S i) (S i) * r (S i) (S i).

Definition hlll_reduced (delta eta theta : R) (d : nat) (r : nat -> nat -> R) : Prop :=
  weakly_size_reduced eta theta d r /\ r_lovasz delta d r.

(** linear independence of the rows over the real numbers *)
Definition rows_independent (c : nat) (B : list (list Z)) : Prop :=
  forall a : nat -> R,
    (forall l, (l < c)%nat -> rsum (length B) (fun i => a i * IZR (ent B i l)) = 0) ->
    forall i, (i < length B)%nat -> a i = 0.
