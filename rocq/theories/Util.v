(** General lemmas about lists, list update and finite sums.
    Nothing in this file models fplll code. *)
From Coq Require Import List ZArith Lia Arith Bool.
Import ListNotations.
Local Open Scope nat_scope.


(** ** List update *)
Fixpoint upd {A} (l : list A) (i : nat) (x : A) : list A :=
  match l, i with
  | [], _ => []
  | _ :: t, O => x :: t
  | a :: t, S i' => a :: upd t i' x
  end.

Lemma upd_length {A} (l : list A) i x : length (upd l i x) = length l.
Proof. revert i; induction l as [|a l IH]; intros [|i]; simpl; auto. Qed.

Lemma nth_upd {A} (l : list A) i x j d :
  nth j (upd l i x) d = if (j =? i) && (i <? length l) then x else nth j l d.
Proof.
  revert i j; induction l as [|a l IH]; intros i j; simpl.
  - destruct j; destruct i; simpl; rewrite ?andb_false_r; auto.
  - destruct i as [|i]; destruct j as [|j]; simpl; auto.
    rewrite IH. reflexivity.
Qed.

Lemma nth_upd_eq {A} (l : list A) i x d : i < length l -> nth i (upd l i x) d = x.
Proof.
  intros H. rewrite nth_upd, Nat.eqb_refl. apply Nat.ltb_lt in H. rewrite H. reflexivity.
Qed.

Lemma nth_upd_neq {A} (l : list A) i x j d : j <> i -> nth j (upd l i x) d = nth j l d.
Proof. intros H. rewrite nth_upd. apply Nat.eqb_neq in H. rewrite H. reflexivity. Qed.

Lemma nth_error_upd {A} (l : list A) i x j :
  nth_error (upd l i x) j = if (j =? i) && (i <? length l) then Some x else nth_error l j.
Proof.
  revert i j; induction l as [|a l IH]; intros i j; simpl.
  - destruct j; destruct i; simpl; rewrite ?andb_false_r; auto.
  - destruct i as [|i]; destruct j as [|j]; simpl; auto.
    rewrite IH. reflexivity.
Qed.

Lemma list_ext {A} (l1 l2 : list A) d :
  length l1 = length l2 -> (forall i, i < length l1 -> nth i l1 d = nth i l2 d) -> l1 = l2.
Proof. intros H1 H2. apply (nth_ext _ _ d d); auto. Qed.

Lemma upd_same {A} (l : list A) i d : upd l i (nth i l d) = l.
Proof.
  apply list_ext with (d := d); [apply upd_length|].
  intros j _. rewrite nth_upd. destruct (Nat.eqb_spec j i); subst; simpl; auto.
  destruct (i <? length l); auto.
Qed.

Lemma upd_out {A} (l : list A) i x : length l <= i -> upd l i x = l.
Proof.
  revert i; induction l as [|a l IH]; intros [|i] H; simpl in *; auto; try lia.
  f_equal. apply IH. lia.
Qed.

Lemma upd_upd {A} (l : list A) i x y : upd (upd l i x) i y = upd l i y.
Proof. revert i; induction l as [|a l IH]; intros [|i]; simpl; auto. f_equal. apply IH. Qed.

Lemma Forall_upd {A} (P : A -> Prop) l i x : Forall P l -> P x -> Forall P (upd l i x).
Proof.
  intros H Hx. revert i; induction H as [|a l Ha Hl IH]; intros [|i]; simpl; constructor; auto.
Qed.

Lemma map_nth_lt {A B} (f : A -> B) l i d d' :
  i < length l -> nth i (map f l) d' = f (nth i l d).
Proof. intros H. rewrite nth_indep with (d' := f d); [apply map_nth|]. now rewrite map_length. Qed.

Lemma nth_seq_lt n i d : i < n -> nth i (seq 0 n) d = i.
Proof. intros. rewrite seq_nth; auto. Qed.

Lemma nth_map_seq {A} (f : nat -> A) n i d : i < n -> nth i (map f (seq 0 n)) d = f i.
Proof.
  intros H. rewrite map_nth_lt with (d := 0) by (rewrite seq_length; auto).
  now rewrite nth_seq_lt.
Qed.

Lemma map_seq_length {A} (f : nat -> A) n : length (map f (seq 0 n)) = n.
Proof. now rewrite map_length, seq_length. Qed.

(** ** Sums over Z *)
Section ZSum.
Local Open Scope Z_scope.

Fixpoint zsum (n : nat) (f : nat -> Z) : Z :=
  match n with O => 0 | S n' => zsum n' f + f n' end.

Lemma zsum_ext n f g : (forall i, (i < n)%nat -> f i = g i) -> zsum n f = zsum n g.
Proof. induction n; intros H; simpl; auto. rewrite IHn, H by auto. reflexivity. Qed.

Lemma zsum_plus n f g : zsum n (fun i => f i + g i) = zsum n f + zsum n g.
Proof. induction n; simpl; lia. Qed.

Lemma zsum_minus n f g : zsum n (fun i => f i - g i) = zsum n f - zsum n g.
Proof. induction n; simpl; lia. Qed.

Lemma zsum_scal n c f : zsum n (fun i => c * f i) = c * zsum n f.
Proof. induction n; simpl; try ring. rewrite IHn. ring. Qed.

Lemma zsum_scal_r n c f : zsum n (fun i => f i * c) = zsum n f * c.
Proof. induction n; simpl; try ring. rewrite IHn. ring. Qed.

Lemma zsum_0 n f : (forall i, (i < n)%nat -> f i = 0) -> zsum n f = 0.
Proof. induction n; intros H; simpl; auto. rewrite IHn, H; auto. Qed.

Lemma zsum_swap n m (f : nat -> nat -> Z) :
  zsum n (fun i => zsum m (f i)) = zsum m (fun j => zsum n (fun i => f i j)).
Proof.
  induction n; simpl.
  - symmetry. apply zsum_0. auto.
  - rewrite IHn, zsum_plus. reflexivity.
Qed.

(** sum with a single non-zero term *)
Lemma zsum_single n k f :
  (k < n)%nat -> (forall i, (i < n)%nat -> i <> k -> f i = 0) -> zsum n f = f k.
Proof.
  induction n; intros Hk H; [lia|]. simpl.
  destruct (Nat.eq_dec k n) as [->|Hne].
  - rewrite zsum_0; [lia|]. intros i Hi. apply H; lia.
  - rewrite IHn; [|lia|]. rewrite (H n) by lia. lia. intros; apply H; lia.
Qed.

Lemma zsum_delta n k f :
  (k < n)%nat -> zsum n (fun i => if (i =? k)%nat then f i else 0) = f k.
Proof.
  intros Hk. rewrite zsum_single with (k := k); auto.
  - now rewrite Nat.eqb_refl.
  - intros i Hi Hne. apply Nat.eqb_neq in Hne. now rewrite Hne.
Qed.

(** change of one term *)
Lemma zsum_upd n k f g :
  (k < n)%nat -> (forall i, (i < n)%nat -> i <> k -> f i = g i) ->
  zsum n f = zsum n g + (f k - g k).
Proof.
  intros Hk H.
  enough (zsum n (fun i => f i - g i) = f k - g k) by (rewrite zsum_minus in *; lia).
  rewrite zsum_single with (k := k); auto. intros. rewrite H by auto. lia.
Qed.

Lemma zsum_split n m f : zsum (n + m) f = zsum n f + zsum m (fun i => f (n + i)%nat).
Proof.
  induction m; simpl.
  - rewrite Nat.add_0_r. lia.
  - rewrite Nat.add_succ_r. simpl. rewrite IHm. lia.
Qed.

Lemma zsum_trunc n m f :
  (n <= m)%nat -> (forall i, (n <= i < m)%nat -> f i = 0) -> zsum m f = zsum n f.
Proof.
  intros H Hz. replace m with (n + (m - n))%nat by lia. rewrite zsum_split.
  rewrite (zsum_0 (m - n)); [lia|]. intros; apply Hz; lia.
Qed.

Lemma zsum_nonneg n f : (forall i, (i < n)%nat -> 0 <= f i) -> 0 <= zsum n f.
Proof. induction n; intros H; simpl; [lia|]. specialize (IHn (fun i Hi => H i (Nat.lt_lt_succ_r _ _ Hi))). specialize (H n). lia. Qed.

End ZSum.

(** Sum is invariant under transposition of two indices. *)
Definition tr (i j k : nat) : nat := if k =? i then j else if k =? j then i else k.

Lemma tr_lt i j k n : i < n -> j < n -> k < n -> tr i j k < n.
Proof. unfold tr. intros. destruct (k =? i); auto. destruct (k =? j); auto. Qed.

Lemma tr_invol i j k : tr i j (tr i j k) = k.
Proof.
  unfold tr.
  destruct (Nat.eqb_spec k i); subst.
  - destruct (Nat.eqb_spec j i); subst; auto. rewrite Nat.eqb_refl. auto.
  - destruct (Nat.eqb_spec k j); subst.
    + rewrite Nat.eqb_refl. auto.
    + destruct (Nat.eqb_spec k i); try lia. destruct (Nat.eqb_spec k j); lia.
Qed.

Lemma zsum_tr n i j f :
  i < n -> j < n -> zsum n (fun k => f (tr i j k)) = zsum n f.
Proof.
  intros Hi Hj.
  destruct (Nat.eq_dec i j) as [->|Hne].
  { apply zsum_ext. intros k _. unfold tr. destruct (Nat.eqb_spec k j); subst; auto. }
  set (h := fun k => if k =? i then f j else f k).
  rewrite (@zsum_upd n j (fun k => f (tr i j k)) h); auto.
  - rewrite (@zsum_upd n i h f); auto.
    + unfold h, tr. rewrite !Nat.eqb_refl.
      destruct (Nat.eqb_spec j i); lia.
    + intros k Hk Hki. unfold h. destruct (Nat.eqb_spec k i); auto; lia.
  - intros k Hk Hkj. unfold h, tr.
    destruct (Nat.eqb_spec k i); auto. destruct (Nat.eqb_spec k j); auto; lia.
Qed.
