(** Exact rational arithmetic: canonical rationals Qc (Leibniz equality) with
    automation by reduction to linear / non-linear arithmetic over Q. *)
From Coq Require Import List ZArith QArith Qcanon Lia Lqa Arith Bool Field.
From Verif Require Util.
Import ListNotations.
Local Open Scope Qc_scope.

Definition Qcz (z : Z) : Qc := Q2Qc (inject_Z z).

Lemma this_add x y : (this (x + y) == this x + this y)%Q.
Proof. apply Qred_correct. Qed.
Lemma this_mul x y : (this (x * y) == this x * this y)%Q.
Proof. apply Qred_correct. Qed.
Lemma this_opp x : (this (- x) == - this x)%Q.
Proof. apply Qred_correct. Qed.
Lemma this_sub x y : (this (x - y) == this x - this y)%Q.
Proof. unfold Qcminus. rewrite this_add, this_opp. reflexivity. Qed.
Lemma this_inv x : (this (/ x) == / this x)%Q.
Proof. apply Qred_correct. Qed.
Lemma this_div x y : (this (x / y) == this x / this y)%Q.
Proof. unfold Qcdiv. rewrite this_mul, this_inv. reflexivity. Qed.
Lemma this_Q2Qc q : (this (Q2Qc q) == q)%Q.
Proof. apply Qred_correct. Qed.
Lemma this_z z : (this (Qcz z) == inject_Z z)%Q.
Proof. apply Qred_correct. Qed.
Lemma Qc_ext x y : (this x == this y)%Q -> x = y.
Proof. apply Qc_is_canon. Qed.
Lemma Qc_eqQ (x y : Qc) : x = y -> (this x == this y)%Q.
Proof. intros ->. reflexivity. Qed.

(** push everything to Q *)
Ltac qcpush :=
  repeat match goal with
  | H : ?x = ?y |- _ => match type of x with Qc => apply Qc_eqQ in H end
  | H : ~ (?x = ?y) |- _ =>
      match type of x with Qc =>
        let H' := fresh "Hne" in assert (H' : ~ (this x == this y)%Q) by (intro; apply H; apply Qc_ext; assumption); clear H end
  end;
  unfold Qcle, Qclt in *;
  try match goal with |- ?x = ?y => match type of x with Qc => apply Qc_ext end end;
  repeat match goal with
  | H : context [this (?x + ?y)] |- _ => setoid_rewrite (this_add x y) in H
  | H : context [this (?x - ?y)] |- _ => setoid_rewrite (this_sub x y) in H
  | H : context [this (?x * ?y)] |- _ => setoid_rewrite (this_mul x y) in H
  | H : context [this (- ?x)] |- _ => setoid_rewrite (this_opp x) in H
  | |- context [this (?x + ?y)] => setoid_rewrite (this_add x y)
  | |- context [this (?x - ?y)] => setoid_rewrite (this_sub x y)
  | |- context [this (?x * ?y)] => setoid_rewrite (this_mul x y)
  | |- context [this (- ?x)] => setoid_rewrite (this_opp x)
  end;
  change (this 0) with 0%Q in *; change (this 1) with 1%Q in *.
Ltac qclra := qcpush; lra.
Ltac qcnra := qcpush; nra.

Lemma Qcz_add a b : Qcz (a + b) = Qcz a + Qcz b.
Proof. apply Qc_ext. rewrite this_add, !this_z, inject_Z_plus. reflexivity. Qed.
Lemma Qcz_mul a b : Qcz (a * b) = Qcz a * Qcz b.
Proof. apply Qc_ext. rewrite this_mul, !this_z, inject_Z_mult. reflexivity. Qed.
Lemma Qcz_opp a : Qcz (- a) = - Qcz a.
Proof. apply Qc_ext. rewrite this_opp, !this_z, inject_Z_opp. reflexivity. Qed.
Lemma Qcz_sub a b : Qcz (a - b) = Qcz a - Qcz b.
Proof. unfold Z.sub, Qcminus. now rewrite Qcz_add, Qcz_opp. Qed.
Lemma Qcz_inj a b : Qcz a = Qcz b -> a = b.
Proof. intros H. apply Qc_eqQ in H. rewrite !this_z in H. apply inject_Z_injective. auto. Qed.
Lemma Qcz_le a b : Qcz a <= Qcz b <-> (a <= b)%Z.
Proof. unfold Qcle. rewrite !this_z. rewrite <- Zle_Qle. tauto. Qed.
Lemma Qcz_lt a b : Qcz a < Qcz b <-> (a < b)%Z.
Proof. unfold Qclt. rewrite !this_z. rewrite <- Zlt_Qlt. tauto. Qed.
Lemma Qcz_0 : Qcz 0 = 0. Proof. reflexivity. Qed.
Lemma Qcz_1 : Qcz 1 = 1. Proof. reflexivity. Qed.

Lemma Qcsq_nonneg (x : Qc) : 0 <= x * x.
Proof. qcnra. Qed.
Lemma Qcsq_pos (x : Qc) : x <> 0 -> 0 < x * x.
Proof.
  intros H. qcpush.
  assert (this x < 0 \/ 0 < this x)%Q as [X|X] by (destruct (Q_dec (this x) 0) as [[?|?]|?]; auto; contradiction); nra.
Qed.
Lemma Qcsq_0 (x : Qc) : x * x = 0 -> x = 0.
Proof. intros H. destruct (Qc_eq_dec x 0); auto. apply Qcsq_pos in n. rewrite H in n. discriminate. Qed.

(** ** finite sums *)
Fixpoint qsum (n : nat) (f : nat -> Qc) : Qc :=
  match n with O => 0 | S m => qsum m f + f m end.

Lemma qsum_ext n f g : (forall i, (i < n)%nat -> f i = g i) -> qsum n f = qsum n g.
Proof. induction n; simpl; intros H; auto. rewrite IHn, H; auto. Qed.
Lemma qsum_plus n f g : qsum n (fun i => f i + g i) = qsum n f + qsum n g.
Proof. induction n; simpl; [ring|]. rewrite IHn. ring. Qed.
Lemma qsum_minus n f g : qsum n (fun i => f i - g i) = qsum n f - qsum n g.
Proof. induction n; simpl; [ring|]. rewrite IHn. ring. Qed.
Lemma qsum_scal n c f : qsum n (fun i => c * f i) = c * qsum n f.
Proof. induction n; simpl; [ring|]. rewrite IHn. ring. Qed.
Lemma qsum_scal_r n c f : qsum n (fun i => f i * c) = qsum n f * c.
Proof. induction n; simpl; [ring|]. rewrite IHn. ring. Qed.
Lemma qsum_0 n f : (forall i, (i < n)%nat -> f i = 0) -> qsum n f = 0.
Proof. induction n; simpl; intros H; auto. rewrite IHn, H; auto. Qed.
Lemma qsum_swap n m (f : nat -> nat -> Qc) :
  qsum n (fun i => qsum m (fun j => f i j)) = qsum m (fun j => qsum n (fun i => f i j)).
Proof.
  induction n; simpl.
  - symmetry. apply qsum_0; auto.
  - rewrite IHn, <- qsum_plus. reflexivity.
Qed.
Lemma qsum_split n m f : qsum (n + m) f = qsum n f + qsum m (fun i => f (n + i)%nat).
Proof.
  induction m; simpl; [rewrite Nat.add_0_r; ring|].
  rewrite Nat.add_succ_r. simpl. rewrite IHm. ring.
Qed.
Lemma qsum_single n k f : (k < n)%nat -> (forall i, (i < n)%nat -> i <> k -> f i = 0) -> qsum n f = f k.
Proof.
  induction n; simpl; intros Hk H; [lia|].
  destruct (Nat.eq_dec k n) as [->|Hne].
  - rewrite qsum_0; [ring|]. intros; apply H; lia.
  - rewrite IHn; [|lia|intros; apply H; lia]. rewrite (H n); try lia. ring.
Qed.
Lemma qsum_nonneg n f : (forall i, (i < n)%nat -> 0 <= f i) -> 0 <= qsum n f.
Proof.
  induction n; simpl; intros H; [apply Qcle_refl|].
  assert (0 <= qsum n f) by (apply IHn; auto). assert (0 <= f n) by auto. qclra.
Qed.
Lemma qsum_le n f g : (forall i, (i < n)%nat -> f i <= g i) -> qsum n f <= qsum n g.
Proof.
  induction n; simpl; intros H; [apply Qcle_refl|].
  assert (qsum n f <= qsum n g) by (apply IHn; auto). assert (f n <= g n) by auto. qclra.
Qed.
Lemma qsum_nonneg_0 n f : (forall i, (i < n)%nat -> 0 <= f i) -> qsum n f = 0 -> forall i, (i < n)%nat -> f i = 0.
Proof.
  induction n; simpl; intros H E i Hi; [lia|].
  assert (0 <= qsum n f) by (apply qsum_nonneg; auto). assert (0 <= f n) by auto.
  assert (f n = 0) by qclra. assert (qsum n f = 0) by qclra.
  destruct (Nat.eq_dec i n) as [->|]; auto. apply IHn; auto. lia.
Qed.
Lemma qsum_ge_term n f k : (forall i, (i < n)%nat -> 0 <= f i) -> (k < n)%nat -> f k <= qsum n f.
Proof.
  induction n; simpl; intros H Hk; [lia|].
  assert (0 <= qsum n f) by (apply qsum_nonneg; auto). assert (0 <= f n) by auto.
  destruct (Nat.eq_dec k n) as [->|]; [qclra|].
  assert (f k <= qsum n f) by (apply IHn; auto; lia). qclra.
Qed.

Lemma fold_sub_qsum (h : nat -> Qc) n : forall a, fold_left (fun acc k => acc - h k) (seq 0 n) a = a - qsum n h.
Proof.
  intros a. induction n; [simpl; ring|].
  rewrite seq_S, fold_left_app. cbn [fold_left qsum]. rewrite IHn, Nat.add_0_l. ring.
Qed.

Lemma Qcz_sum n (f : nat -> Z) : Qcz (Util.zsum n f) = qsum n (fun i => Qcz (f i)).
Proof. induction n; [reflexivity|]. cbn [Util.zsum qsum]. rewrite Qcz_add, IHn. reflexivity. Qed.
