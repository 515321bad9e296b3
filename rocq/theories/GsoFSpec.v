(** Reference values for the Gram-Schmidt coefficients over an arbitrary
    floating-point type: what a direct computation from the basis gives.
    Independent of the caches of the code. *)
From Coq Require Import List ZArith Lia Arith Bool.
From Verif Require Import Util LatticeSpec GsoFModel.
Import ListNotations.
Local Open Scope nat_scope.

Section Spec.
Variable fo : fops.
Variable en_e : bool.
Notation FT := (F fo).
Notation f0 := (f_ofZ fo 0).

(** Conversion of a whole row to floating point, and the exponent of the row. *)
Definition encexp (row : list Z) : Z :=
  if en_e then max_expo (map (fun x => snd (f_exp fo x)) row) else 0%Z.
Definition encrow (row : list Z) : list FT :=
  if en_e then map (fun x => f_mul2 fo (fst (f_exp fo x)) (snd (f_exp fo x) - encexp row)) row
  else map (f_ofZ fo) row.

(** Floating-point inner product over all c columns. *)
Definition fdotall (c : nat) (v w : list FT) : FT :=
  fold_left (fun acc k => f_addmul fo acc (nth k v f0) (nth k w f0)) (seq 1 (c - 1))
            (f_mul fo (nth 0 v f0) (nth 0 w f0)).

(** Gram coefficient of rows i, j of B. *)
Definition gram_ref (int_gram : bool) (c : nat) (B : list (list Z)) (i j : nat) : FT :=
  if int_gram then f_ofZ fo (inner c (nth i B []) (nth j B []))
  else fdotall c (encrow (nth i B [])) (encrow (nth j B [])).

(** r_ij = g_ij - sum_{k<j} mu_jk r_ik,  mu_ij = r_ij / r_jj  ([n] is fuel > j). *)
Fixpoint Rr (G : nat -> nat -> FT) (n i j : nat) : FT :=
  match n with
  | 0 => G i j
  | S n' => fold_left (fun acc k => f_sub fo acc (f_mul fo (f_div fo (Rr G n' j k) (Rr G n' k k)) (Rr G n' i k)))
                      (seq 0 j) (G i j)
  end.
Definition refR (G : nat -> nat -> FT) (i j : nat) : FT := Rr G (S j) i j.
Definition refM (G : nat -> nat -> FT) (i j : nat) : FT := f_div fo (refR G i j) (refR G j j).

Lemma fold_left_ext {A B} (f g : A -> B -> A) l : forall a,
  (forall a k, In k l -> f a k = g a k) -> fold_left f l a = fold_left g l a.
Proof.
  induction l; simpl; auto. intros a0 H. rewrite H by auto. apply IHl. intros; apply H; auto.
Qed.

Lemma Rr_reindex G G' : forall n m i i' j, j < n -> j < m ->
  (forall k, k <= j -> G' i' k = G i k) -> (forall a k, k <= a -> a <= j -> (k < a \/ a < j) -> G' a k = G a k) ->
  Rr G' n i' j = Rr G m i j.
Proof.
  induction n as [|n IH]; intros m i i' j Hn Hm HG HA; [lia|]. destruct m as [|m]; [lia|]. simpl.
  rewrite HG by lia. apply fold_left_ext. intros acc k Hk. apply in_seq in Hk.
  f_equal. f_equal; [f_equal|].
  - apply IH; try lia; intros; apply HA; lia.
  - apply IH; try lia; intros; apply HA; lia.
  - apply IH; try lia; intros; [apply HG|apply HA]; lia.
Qed.

Lemma refR_reindex G G' i i' j :
  (forall k, k <= j -> G' i' k = G i k) -> (forall a k, k <= a -> a <= j -> (k < a \/ a < j) -> G' a k = G a k) ->
  refR G' i' j = refR G i j.
Proof. intros. apply Rr_reindex; auto. Qed.

Lemma refM_reindex G G' i i' j :
  (forall k, k <= j -> G' i' k = G i k) -> (forall a k, k <= a -> a <= j -> G' a k = G a k) ->
  refM G' i' j = refM G i j.
Proof. intros H1 H2. unfold refM. f_equal; apply refR_reindex; auto. Qed.

Lemma Rr_fuel G n i j : j < n -> Rr G n i j = refR G i j.
Proof. intros. apply Rr_reindex; auto. Qed.

Lemma refR_unfold G i j :
  refR G i j = fold_left (fun acc k => f_sub fo acc (f_mul fo (refM G j k) (refR G i k))) (seq 0 j) (G i j).
Proof.
  unfold refR at 1. simpl. apply fold_left_ext. intros acc k Hk. apply in_seq in Hk.
  unfold refM. rewrite !Rr_fuel by lia. auto.
Qed.
End Spec.

(** Laws assumed of the floating-point type: multiplication is commutative, and
    adding the product of a converted zero with anything leaves the sum
    unchanged (true of IEEE numbers up to the sign of a zero sum). *)
Record flaws (fo : fops) (en_e : bool) : Prop := {
  l_mulc : forall a b, f_mul fo a b = f_mul fo b a;
  l_addmulc : forall s a b, f_addmul fo s a b = f_addmul fo s b a;
  l_abs : forall s y, f_addmul fo s (f_ofZ fo 0) y = s;
  l_exp0 : en_e = true -> fst (f_exp fo 0) = f_ofZ fo 0;
  l_mul20 : en_e = true -> forall k, f_mul2 fo (f_ofZ fo 0) k = f_ofZ fo 0;
  l_expmin : en_e = true -> forall x, (snd (f_exp fo 0) <= snd (f_exp fo x))%Z
}.
