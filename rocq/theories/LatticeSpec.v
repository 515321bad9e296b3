(** Specification vocabulary: integer matrices, lattices, transforms, Gram
    matrices.  Independent of the model of the code. *)
From Coq Require Import List ZArith Lia Arith Bool.
From Verif Require Import Util.
Import ListNotations.
Local Open Scope Z_scope.

(** A matrix is a list of rows. [ent B i j] is the entry at row i, column j. *)
Definition ent (B : list (list Z)) (i j : nat) : Z := nth j (nth i B []) 0.

(** All rows have length n. *)
Definition rect (n : nat) (B : list (list Z)) : Prop :=
  forall i, (i < length B)%nat -> length (nth i B []) = n.

(** v is an integer combination of the rows of B (vectors of length n). *)
Definition in_lattice (n : nat) (B : list (list Z)) (v : list Z) : Prop :=
  length v = n /\
  exists c : nat -> Z, forall j, (j < n)%nat ->
    nth j v 0 = zsum (length B) (fun i => c i * ent B i j).

Definition same_lattice (n : nat) (B B' : list (list Z)) : Prop :=
  forall v, in_lattice n B v <-> in_lattice n B' v.

(** B = U * B0, entry by entry; B0 has d0 rows and n columns. *)
Definition is_product (n : nat) (B U B0 : list (list Z)) : Prop :=
  forall i j, (i < length B)%nat -> (j < n)%nat ->
    ent B i j = zsum (length B0) (fun k => ent U i k * ent B0 k j).

(** Kronecker delta *)
Definition delta (i j : nat) : Z := if (i =? j)%nat then 1 else 0.

(** V is the transpose of the two-sided inverse of the d x d matrix U. *)
Definition inverse_transposed (d : nat) (U V : list (list Z)) : Prop :=
  (forall i j, (i < d)%nat -> (j < d)%nat ->
     zsum d (fun k => ent U i k * ent V j k) = delta i j) /\
  (forall i j, (i < d)%nat -> (j < d)%nat ->
     zsum d (fun k => ent V k i * ent U k j) = delta i j).

(** Inner product of two vectors of length n. *)
Definition inner (n : nat) (v w : list Z) : Z := zsum n (fun k => nth k v 0 * nth k w 0).

(** identity matrix *)
Definition ident (d : nat) : list (list Z) :=
  map (fun i => map (fun j => delta i j) (seq 0 d)) (seq 0 d).

Lemma ident_length d : length (ident d) = d.
Proof. apply map_seq_length. Qed.

Lemma ent_ident d i j : (i < d)%nat -> (j < d)%nat -> ent (ident d) i j = delta i j.
Proof. intros. unfold ent, ident. now rewrite nth_map_seq, nth_map_seq. Qed.

Lemma rect_ident d : rect d (ident d).
Proof. intros i Hi. rewrite ident_length in Hi. unfold ident. now rewrite nth_map_seq, map_seq_length. Qed.

Lemma ent_upd B i v a j :
  (i < length B)%nat ->
  ent (upd B i v) a j = if (a =? i)%nat then nth j v 0 else ent B a j.
Proof.
  intros H. unfold ent. rewrite nth_upd. apply Nat.ltb_lt in H. rewrite H, andb_true_r.
  destruct (a =? i)%nat; auto.
Qed.

Lemma rect_upd n B i v : rect n B -> length v = n -> rect n (upd B i v).
Proof.
  intros H Hv k Hk. rewrite upd_length in Hk. rewrite nth_upd.
  destruct ((k =? i)%nat && (i <? length B)%nat); auto.
Qed.

Lemma same_lattice_refl n B : same_lattice n B B.
Proof. intros v; tauto. Qed.
Lemma same_lattice_sym n B B' : same_lattice n B B' -> same_lattice n B' B.
Proof. intros H v. specialize (H v). tauto. Qed.
Lemma same_lattice_trans n A B C : same_lattice n A B -> same_lattice n B C -> same_lattice n A C.
Proof. intros H1 H2 v. specialize (H1 v). specialize (H2 v). tauto. Qed.

Lemma mat_ext n (A B : list (list Z)) :
  length A = length B -> rect n A -> rect n B ->
  (forall i j, (i < length A)%nat -> (j < n)%nat -> ent A i j = ent B i j) -> A = B.
Proof.
  intros HL HA HB H. apply list_ext with (d := []); auto.
  intros i Hi. apply list_ext with (d := 0).
  - rewrite HA, HB by lia. auto.
  - intros j Hj. rewrite HA in Hj by auto. apply H; auto.
Qed.

(** Elementary facts: replacing row i by row i + x * row j (j <> i), permuting
    rows, negating a row do not change the lattice. *)
Lemma in_lattice_addmul n B B' i j x :
  length B' = length B -> (i < length B)%nat -> (j < length B)%nat -> i <> j ->
  (forall k c, (k < length B)%nat -> (c < n)%nat ->
     ent B' k c = ent B k c + (if (k =? i)%nat then x * ent B j c else 0)) ->
  forall v, in_lattice n B v -> in_lattice n B' v.
Proof.
  intros HL Hi Hj Hij HE v [Hv [c Hc]]. split; auto.
  exists (fun k => c k - (if (k =? j)%nat then x * c i else 0)).
  intros col Hcol. rewrite (Hc col Hcol), HL. symmetry.
  rewrite zsum_ext with (g := fun k => c k * ent B k col +
     ((if (k =? i)%nat then c i * (x * ent B j col) else 0) +
      (if (k =? j)%nat then - (x * c i * ent B j col) else 0))).
  - rewrite zsum_plus, zsum_plus.
    rewrite (zsum_delta _ i (fun _ => c i * (x * ent B j col))) by auto.
    rewrite (zsum_delta _ j (fun _ => - (x * c i * ent B j col))) by auto. ring.
  - intros k Hk. rewrite HE by auto.
    destruct (Nat.eqb_spec k i); destruct (Nat.eqb_spec k j); subst; try lia; ring.
Qed.

Lemma same_lattice_addmul n B B' i j x :
  length B' = length B -> (i < length B)%nat -> (j < length B)%nat -> i <> j ->
  (forall k c, (k < length B)%nat -> (c < n)%nat ->
     ent B' k c = ent B k c + (if (k =? i)%nat then x * ent B j c else 0)) ->
  same_lattice n B B'.
Proof.
  intros HL Hi Hj Hij HE v. split.
  - apply in_lattice_addmul with (i := i) (j := j) (x := x); auto.
  - apply in_lattice_addmul with (i := i) (j := j) (x := -x); try rewrite HL; auto.
    intros k c Hk Hc. rewrite !HE by auto.
    destruct (Nat.eqb_spec k i); destruct (Nat.eqb_spec j i); subst; try lia.
Qed.

(** Row permutation given by index maps p with inverse q. *)
Lemma zsum_perm n p q f :
  (forall k, (k < n)%nat -> (p k < n)%nat /\ q (p k) = k) ->
  (forall k, (k < n)%nat -> (q k < n)%nat /\ p (q k) = k) ->
  zsum n (fun k => f (p k)) = zsum n f.
Proof.
  intros Hp Hq.
  transitivity (zsum n (fun k => zsum n (fun m => if (m =? p k)%nat then f m else 0))).
  { apply zsum_ext. intros k Hk. rewrite zsum_delta; auto. apply Hp; auto. }
  rewrite zsum_swap. apply zsum_ext. intros m Hm.
  rewrite zsum_ext with (g := fun k => if (k =? q m)%nat then f m else 0).
  - apply (zsum_delta n (q m) (fun _ => f m)). apply Hq; auto.
  - intros k Hk. destruct (Nat.eqb_spec m (p k)); destruct (Nat.eqb_spec k (q m)); subst; auto.
    + exfalso. apply n0. symmetry. apply Hp; auto.
    + exfalso. apply n0. symmetry. apply Hq; auto.
Qed.

Lemma in_lattice_perm n B B' p q :
  length B' = length B ->
  (forall k, (k < length B)%nat -> (p k < length B)%nat /\ q (p k) = k) ->
  (forall k, (k < length B)%nat -> (q k < length B)%nat /\ p (q k) = k) ->
  (forall k c, (k < length B)%nat -> (c < n)%nat -> ent B' k c = ent B (p k) c) ->
  forall v, in_lattice n B v -> in_lattice n B' v.
Proof.
  intros HL Hp Hq HE v [Hv [c Hc]]. split; auto.
  exists (fun k => c (p k)). intros j Hj. rewrite Hc by auto. rewrite HL.
  rewrite <- (zsum_perm _ p q (fun i => c i * ent B i j)) by auto.
  apply zsum_ext. intros k Hk. rewrite HE; auto.
Qed.

Lemma same_lattice_perm n B B' p q :
  length B' = length B ->
  (forall k, (k < length B)%nat -> (p k < length B)%nat /\ q (p k) = k) ->
  (forall k, (k < length B)%nat -> (q k < length B)%nat /\ p (q k) = k) ->
  (forall k c, (k < length B)%nat -> (c < n)%nat -> ent B' k c = ent B (p k) c) ->
  same_lattice n B B'.
Proof.
  intros HL Hp Hq HE v. split.
  - apply in_lattice_perm with (p := p) (q := q); auto.
  - apply in_lattice_perm with (p := q) (q := p); try rewrite HL; auto.
    intros k c Hk Hc. rewrite HE; auto; [|apply Hq; auto].
    destruct (Hq k Hk) as [_ ->]. auto.
Qed.

Lemma same_lattice_negate n B B' i :
  length B' = length B -> (i < length B)%nat ->
  (forall k c, (k < length B)%nat -> (c < n)%nat ->
     ent B' k c = if (k =? i)%nat then - ent B k c else ent B k c) ->
  same_lattice n B B'.
Proof.
  intros HL Hi HE v.
  assert (G : forall A A', length A' = length A ->
     (forall k c, (k < length A)%nat -> (c < n)%nat ->
     ent A' k c = if (k =? i)%nat then - ent A k c else ent A k c) ->
     in_lattice n A v -> in_lattice n A' v).
  { clear. intros A A' HL HE [Hv [c Hc]]. split; auto.
    exists (fun k => if (k =? i)%nat then - c k else c k). intros j Hj. rewrite Hc, HL by auto.
    apply zsum_ext. intros k Hk. rewrite HE by auto. destruct (k =? i)%nat; ring. }
  split; apply G; auto. intros k c Hk Hc. rewrite HE by lia. destruct (k =? i)%nat; lia.
Qed.

(** If B = U*B0 and B0 = W*B then both generate the same lattice. *)
Lemma product_in_lattice n B U B0 v :
  is_product n B U B0 -> in_lattice n B v -> in_lattice n B0 v.
Proof.
  intros HP [Hv [c Hc]]. split; auto.
  exists (fun k => zsum (length B) (fun i => c i * ent U i k)).
  intros j Hj. rewrite Hc by auto.
  rewrite zsum_ext with (g := fun i => zsum (length B0) (fun k => c i * ent U i k * ent B0 k j)).
  - rewrite zsum_swap. apply zsum_ext. intros k Hk. rewrite <- zsum_scal_r. reflexivity.
  - intros i Hi. rewrite HP by auto. rewrite <- zsum_scal. apply zsum_ext. intros; ring.
Qed.
