(** Exact (rational) instance of the enumeration arithmetic, and the zig-zag order. *)
From Coq Require Import List ZArith QArith Qround Qcanon Arith Bool Lia Lqa.
From Verif Require Import QcUtil EnumModel.
Import ListNotations.
Local Open Scope Qc_scope.

Definition eleb (x y : Qc) : bool := Qle_bool (this x) (this y).
Definition eltb (x y : Qc) : bool := negb (eleb y x).
Lemma eleb_le x y : eleb x y = true <-> x <= y.
Proof. unfold eleb, Qcle. apply Qle_bool_iff. Qed.
Lemma eleb_gt x y : eleb x y = false <-> y < x.
Proof.
  unfold Qclt. rewrite <- not_true_iff_false, eleb_le. unfold Qcle. split; intros H.
  - apply Qnot_le_lt. auto.
  - now apply Qlt_not_le.
Qed.
Lemma eltb_lt x y : eltb x y = true <-> x < y.
Proof. unfold eltb. rewrite negb_true_iff. apply eleb_gt. Qed.
Lemma eltb_ge x y : eltb x y = false <-> y <= x.
Proof. unfold eltb. rewrite negb_false_iff. apply eleb_le. Qed.

(** round(): nearest integer, ties away from zero (enumerate_base.h:33-34) *)
Definition qround (x : Qc) : Z :=
  if eleb 0 x then Qfloor (this x + (1 # 2)) else (- Qfloor (- this x + (1 # 2)))%Z.

(** exact arithmetic *)
Definition qe_ops : eops := {|
  E := Qc; e_zero := 0;
  e_alpha := fun x ce => Qcz x - ce;
  e_dist := fun pd a r => pd + a * a * r;
  e_subx := fun s x m => s - Qcz x * m;
  e_suba := fun s a m => s - a * m;
  e_le := eleb; e_lt := eltb;
  e_add := Qcplus; e_mul := Qcmult;
  e_round := qround;
  e_gez := fun ce x => eleb (Qcz x) ce |}.

(** ** distance of the rounded centre *)
Lemma Qcz_Q x : (this (Qcz x) == inject_Z x)%Q. Proof. apply this_z. Qed.

Lemma qround_half (x : Qc) : (Qcz 2 * (Qcz (qround x) - x) <= 1) /\ (Qcz 2 * (x - Qcz (qround x)) <= 1).
Proof.
  unfold qround. destruct (eleb 0 x) eqn:H.
  - pose proof (Qfloor_le (this x + (1 # 2))) as A. pose proof (Qlt_floor (this x + (1 # 2))) as B.
    rewrite inject_Z_plus in B. change (inject_Z 1) with 1%Q in B.
    pose proof (Qcz_Q (Qfloor (this x + (1 # 2)))) as C. pose proof (Qcz_Q 2) as D. change (inject_Z 2) with 2%Q in D.
    split; qcpush; rewrite C, D; lra.
  - pose proof (Qfloor_le (- this x + (1 # 2))) as A. pose proof (Qlt_floor (- this x + (1 # 2))) as B.
    rewrite inject_Z_plus in B. change (inject_Z 1) with 1%Q in B.
    pose proof (Qcz_Q (- Qfloor (- this x + (1 # 2)))) as C. rewrite inject_Z_opp in C. pose proof (Qcz_Q 2) as D. change (inject_Z 2) with 2%Q in D.
    split; qcpush; rewrite C, D; lra.
Qed.
Lemma qround_0 : qround 0 = 0%Z. Proof. reflexivity. Qed.

(** ** the zig-zag *)
(** x += dx; ddx = -ddx; dx = ddx - dx (enumerate_base.cpp:82-84) *)
Definition zstep (t : Z * Z * Z) : Z * Z * Z := let '(x, dx, ddx) := t in (x + dx, - ddx - dx, - ddx)%Z.
Fixpoint ziter (n : nat) (t : Z * Z * Z) : Z * Z * Z := match n with O => t | S m => zstep (ziter m t) end.
Definition zx (t : Z * Z * Z) : Z := fst (fst t).

Lemma ziter_even x0 s m : ziter (2 * m) (x0, s, s) = (x0 - s * Z.of_nat m, (2 * Z.of_nat m + 1) * s, s)%Z.
Proof.
  induction m.
  - change (2 * 0)%nat with 0%nat. cbn [ziter]. change (Z.of_nat 0) with 0%Z. repeat match goal with |- (_, _) = (_, _) => apply f_equal2 end; lia.
  - replace (2 * S m)%nat with (S (S (2 * m))) by lia. cbn [ziter]. rewrite IHm. cbn [zstep].
    repeat match goal with |- (_, _) = (_, _) => apply f_equal2 end; lia.
Qed.
Lemma ziter_odd x0 s m : ziter (2 * m + 1) (x0, s, s) = (x0 + s * (Z.of_nat m + 1), - (2 * Z.of_nat m + 2) * s, - s)%Z.
Proof.
  replace (2 * m + 1)%nat with (S (2 * m)) by lia. cbn [ziter]. rewrite ziter_even. cbn [zstep].
  repeat match goal with |- (_, _) = (_, _) => apply f_equal2 end; lia.
Qed.
Lemma zx_even x0 s m : zx (ziter (2 * m) (x0, s, s)) = (x0 - s * Z.of_nat m)%Z.
Proof. now rewrite ziter_even. Qed.
Lemma zx_odd x0 s m : zx (ziter (2 * m + 1) (x0, s, s)) = (x0 + s * (Z.of_nat m + 1))%Z.
Proof. now rewrite ziter_odd. Qed.

Lemma par n : exists m, (n = 2 * m)%nat \/ (n = 2 * m + 1)%nat.
Proof. exists (Nat.div2 n). pose proof (Nat.div2_odd n). destruct (Nat.odd n); cbn [Nat.b2n] in H; lia. Qed.

Section ZZ.
Variables (x0 s : Z).
Hypothesis Hs : (s = 1 \/ s = -1)%Z.
Notation X n := (zx (ziter n (x0, s, s))).

Lemma zz_inj n m : X n = X m -> n = m.
Proof.
  destruct (par n) as [a [->| ->]], (par m) as [b [->| ->]]; rewrite ?zx_even, ?zx_odd; destruct Hs as [->| ->]; lia.
Qed.
Lemma zz_cover z : exists n, X n = z.
Proof.
  destruct (Z.le_gt_cases (s * (z - x0)) 0) as [H|H].
  - exists (2 * Z.to_nat (- (s * (z - x0))))%nat. rewrite zx_even. rewrite Z2Nat.id by lia. destruct Hs as [->| ->]; lia.
  - exists (2 * Z.to_nat (s * (z - x0) - 1) + 1)%nat. rewrite zx_odd. rewrite Z2Nat.id by lia. destruct Hs as [->| ->]; lia.
Qed.

Variable ce : Qc.
Hypothesis Ht0 : 0 <= Qcz s * (ce - Qcz x0).
Hypothesis Ht1 : Qcz 2 * (Qcz s * (ce - Qcz x0)) <= 1.
Notation t := (Qcz s * (ce - Qcz x0)).
Notation sq n := ((Qcz (X n) - ce) * (Qcz (X n) - ce)).

Lemma Qcz_ss : Qcz s * Qcz s = 1.
Proof. rewrite <- Qcz_mul. destruct Hs as [->| ->]; reflexivity. Qed.

Lemma sq_even m : sq (2 * m)%nat = (Qcz (Z.of_nat m) + t) * (Qcz (Z.of_nat m) + t).
Proof.
  rewrite zx_even. rewrite Qcz_sub, Qcz_mul.
  transitivity ((Qcz s * Qcz s) * (Qcz (Z.of_nat m) * Qcz (Z.of_nat m)) + Qcz 2 * (Qcz s * Qcz (Z.of_nat m)) * (ce - Qcz x0)
                + (ce - Qcz x0) * (ce - Qcz x0)); [change (Qcz 2) with (1+1); ring|].
  transitivity (Qcz (Z.of_nat m) * Qcz (Z.of_nat m) + Qcz 2 * (Qcz (Z.of_nat m)) * (Qcz s * (ce - Qcz x0))
     + (Qcz s * Qcz s) * ((ce - Qcz x0) * (ce - Qcz x0))); [rewrite Qcz_ss; ring|change (Qcz 2) with (1+1); ring].
Qed.
Lemma sq_odd m : sq (2 * m + 1)%nat = (Qcz (Z.of_nat m) + 1 - t) * (Qcz (Z.of_nat m) + 1 - t).
Proof.
  rewrite zx_odd. rewrite !Qcz_add, Qcz_mul, Qcz_add. change (Qcz 1) with 1.
  set (k := Qcz (Z.of_nat m) + 1).
  transitivity ((Qcz s * Qcz s) * (k * k) - Qcz 2 * (Qcz s * k) * (ce - Qcz x0)
                + (ce - Qcz x0) * (ce - Qcz x0)); [change (Qcz 2) with (1+1); ring|].
  transitivity (k * k - Qcz 2 * k * (Qcz s * (ce - Qcz x0))
     + (Qcz s * Qcz s) * ((ce - Qcz x0) * (ce - Qcz x0))); [rewrite Qcz_ss; ring|change (Qcz 2) with (1+1); ring].
Qed.

Lemma sq_le a b : 0 <= a -> a <= b -> a * a <= b * b.
Proof. intros. qcnra. Qed.
Lemma Qcz_nat_nonneg m : 0 <= Qcz (Z.of_nat m).
Proof. change 0 with (Qcz 0). apply Qcz_le. lia. Qed.
Lemma two_Q : (this (Qcz 2) == 2)%Q. Proof. reflexivity. Qed.

Lemma zz_mono1 n : sq n <= sq (S n).
Proof.
  destruct (par n) as [m [->| ->]].
  - replace (S (2 * m)) with (2 * m + 1)%nat by lia. rewrite sq_even, sq_odd.
    pose proof (Qcz_nat_nonneg m). apply sq_le; pose proof two_Q; generalize dependent (Qcz s * (ce - Qcz x0)); intros u U0 U1; qcpush; nra.
  - replace (S (2 * m + 1)) with (2 * (S m))%nat by lia. rewrite sq_even, sq_odd.
    replace (Z.of_nat (S m)) with (Z.of_nat m + 1)%Z by lia. rewrite Qcz_add. change (Qcz 1) with 1.
    pose proof (Qcz_nat_nonneg m). apply sq_le; pose proof two_Q; generalize dependent (Qcz s * (ce - Qcz x0)); intros u U0 U1; qcpush; nra.
Qed.
Lemma zz_mono n m : (n <= m)%nat -> sq n <= sq m.
Proof.
  induction 1; [apply Qcle_refl|]. eapply Qcle_trans; [exact IHle|]. apply zz_mono1.
Qed.
(** the n-th candidate is at distance at least n/2 *)
Lemma zz_far n : Qcz (Z.of_nat n) * Qcz (Z.of_nat n) <= Qcz 4 * sq n.
Proof.
  destruct (par n) as [m [->| ->]].
  - rewrite sq_even. replace (Z.of_nat (2 * m)) with (2 * Z.of_nat m)%Z by lia. rewrite Qcz_mul.
    pose proof (Qcz_nat_nonneg m). pose proof two_Q. change (Qcz 4) with (Qcz (2 * 2)). rewrite Qcz_mul.
    generalize dependent (Qcz s * (ce - Qcz x0)); intros u U0 U1. generalize dependent (Qcz (Z.of_nat m)). intros k K. 
    change (Qcz 2) with (1+1) in *. qcpush. nra.
  - rewrite sq_odd. replace (Z.of_nat (2 * m + 1)) with (2 * Z.of_nat m + 1)%Z by lia. rewrite Qcz_add, Qcz_mul. change (Qcz 1) with 1.
    pose proof (Qcz_nat_nonneg m). change (Qcz 4) with (Qcz (2 * 2)). rewrite Qcz_mul.
    generalize dependent (Qcz s * (ce - Qcz x0)); intros u U0 U1. generalize dependent (Qcz (Z.of_nat m)). intros k K.
    change (Qcz 2) with (1+1) in *. 
    assert (A : 0 <= (1 + 1) * (k + 1 - u) - ((1 + 1) * k + 1)) by qclra.
    assert (B : 0 <= (1+1) * k + 1) by qclra.
    replace ((1 + 1) * (1 + 1) * ((k + 1 - u) * (k + 1 - u))) with (((1 + 1) * (k + 1 - u)) * ((1 + 1) * (k + 1 - u))) by ring.
    apply sq_le; qclra.
Qed.
End ZZ.

(** the first candidate and step direction of the code satisfy the hypotheses *)
Lemma dx0_facts ce : let x0 := qround ce in let s := dx0 qe_ops ce x0 in
  (s = 1 \/ s = -1)%Z /\ 0 <= Qcz s * (ce - Qcz x0) /\ Qcz 2 * (Qcz s * (ce - Qcz x0)) <= 1.
Proof.
  intros x0 s. destruct (qround_half ce) as [A B]. fold x0 in A, B. unfold s, dx0. cbn [e_gez qe_ops].
  destruct (eleb (Qcz x0) ce) eqn:H.
  - apply eleb_le in H. split; [auto|]. change (Qcz 1) with 1. split; [qclra|]. rewrite Qcmult_1_l. exact B.
  - apply eleb_gt in H. split; [auto|]. change (Qcz (-1)) with (- (1)). split; [qclra|].
    replace (Qcz 2 * (- (1) * (ce - Qcz x0))) with (Qcz 2 * (Qcz x0 - ce)) by ring. exact A.
Qed.
