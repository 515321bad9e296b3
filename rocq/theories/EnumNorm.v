(** Projected lengths of EnumSpec are Euclidean lengths: for the Gram-Schmidt data of a basis,
    plen is the squared norm of the projection. *)
From Coq Require Import List ZArith QArith Qcanon Arith Bool Lia.
From Verif Require Import Util QcUtil LatticeSpec LllSpec EnumSpec EnumLink.
Import ListNotations.
Local Open Scope Qc_scope.

Section Norm.
Variable c : nat.
Variable B : list (list Z).
Notation d := (length B).
Variables bs mu : nat -> nat -> Qc.
Hypothesis G : gso_of c B d bs mu.

Notation g0 x := (gcoord d mu no_target x).

Lemma comb_gso x k : (k < c)%nat -> comb B x k = qsum d (fun i => g0 x i * bs i k).
Proof.
  intros Hk. unfold comb.
  transitivity (qsum d (fun i => Qcz (nth i x 0%Z) * bs i k + qsum d (fun j => if Nat.ltb j i then Qcz (nth i x 0%Z) * mu i j * bs j k else 0))).
  - apply qsum_ext. intros i Hi. rewrite (proj1 G i k Hi Hk). rewrite Qcmult_plus_distr_r. f_equal.
    rewrite <- qsum_scal. 
    assert (E : d = (i + (d - i))%nat) by lia. rewrite E at 1. rewrite qsum_split.
    rewrite (qsum_0 (d - i)) by (intros j Hj; destruct (Nat.ltb_spec (i + j) i); [lia|auto]).
    rewrite Qcplus_0_r. apply qsum_ext. intros j Hj. destruct (Nat.ltb_spec j i); [ring|lia].
  - rewrite qsum_plus, qsum_swap. rewrite <- qsum_plus. apply qsum_ext. intros i Hi. unfold gcoord, no_target.
    transitivity (Qcz (nth i x 0%Z) * bs i k + qsum d (fun j => if Nat.ltb i j then Qcz (nth j x 0%Z) * mu j i else 0) * bs i k); [|ring].
    f_equal. rewrite <- qsum_scal_r. apply qsum_ext. intros j Hj. destruct (Nat.ltb i j); ring.
Qed.

(** Pythagoras for orthogonal [bs] plus a vector [e] orthogonal to them *)
Lemma norm_orth : forall n (a : nat -> Qc) (e : nat -> Qc), (n <= d)%nat -> (forall i, (i < n)%nat -> ip c (bs i) e = 0) ->
  norm2 c (fun k => qsum n (fun i => a i * bs i k) - e k) = qsum n (fun i => a i * a i * norm2 c (bs i)) + norm2 c e.
Proof.
  induction n; intros a e Hn He.
  - cbn [qsum]. unfold norm2, ip. rewrite Qcplus_0_l. apply qsum_ext. intros. ring.
  - pose proof (IHn a (fun k => e k - a n * bs n k) ltac:(lia)) as IH.
    transitivity (norm2 c (fun k => qsum n (fun i => a i * bs i k) - (e k - a n * bs n k))).
    { unfold norm2, ip. apply qsum_ext. intros k Hk. cbn [qsum]. ring. }
    rewrite IH.
    + cbn [qsum]. rewrite <- Qcplus_assoc. f_equal. 
      assert (X : norm2 c (fun k => e k - a n * bs n k) = norm2 c e + a n * a n * norm2 c (bs n) - (1+1) * a n * ip c (bs n) e).
      { unfold norm2, ip. rewrite <- !qsum_scal. rewrite <- qsum_plus, <- qsum_minus. apply qsum_ext. intros. ring. }
      rewrite X, He by lia. ring.
    + intros i Hi. 
      transitivity (ip c (bs i) e - a n * ip c (bs n) (bs i)).
      { unfold ip. rewrite <- qsum_scal, <- qsum_minus. apply qsum_ext. intros. ring. }
      rewrite He by lia. rewrite (proj2 G n i) by lia. ring.
Qed.

Notation r := (fun i => norm2 c (bs i)).

Theorem vlen_norm x : vlen d mu r x = norm2 c (comb B x).
Proof.
  transitivity (norm2 c (fun k => qsum d (fun i => g0 x i * bs i k) - 0)).
  - rewrite (norm_orth d (g0 x) (fun _ => 0)); [|lia|].
    + unfold vlen, plen. cbn [Nat.leb]. replace (norm2 c (fun _ => 0)) with 0; [ring|].
      symmetry. unfold norm2, ip. apply qsum_0. intros. ring.
    + intros i Hi. unfold ip. apply qsum_0. intros. ring.
  - unfold norm2, ip. apply qsum_ext. intros k Hk. rewrite comb_gso by auto. ring.
Qed.

(** closest vector: [tau] = sum t_i bs_i + e with [e] orthogonal to the span *)
Theorem plen_dist tau t e x : (forall k, (k < c)%nat -> tau k = qsum d (fun i => t i * bs i k) + e k) ->
  (forall i, (i < d)%nat -> ip c (bs i) e = 0) ->
  dist2 c B tau x = plen d mu r t x 0 + norm2 c e.
Proof.
  intros Ht He. unfold dist2.
  transitivity (norm2 c (fun k => qsum d (fun i => gcoord d mu t x i * bs i k) - e k)).
  - unfold norm2, ip. apply qsum_ext. intros k Hk. rewrite comb_gso, Ht by auto.
    assert (X : qsum d (fun i => gcoord d mu t x i * bs i k) = qsum d (fun i => g0 x i * bs i k) - qsum d (fun i => t i * bs i k)).
    { rewrite <- qsum_minus. apply qsum_ext. intros i Hi. unfold gcoord, no_target. ring. }
    rewrite X. ring.
  - rewrite norm_orth by auto. reflexivity.
Qed.

(** every rational vector decomposes that way when the [bs] are non-zero *)
Theorem gso_coords tau : (forall i, (i < d)%nat -> 0 < norm2 c (bs i)) ->
  let t := fun i => ip c tau (bs i) / norm2 c (bs i) in
  let e := fun k => tau k - qsum d (fun i => t i * bs i k) in
  (forall k, (k < c)%nat -> tau k = qsum d (fun i => t i * bs i k) + e k) /\ (forall i, (i < d)%nat -> ip c (bs i) e = 0).
Proof.
  intros Hp t e. split; [intros; unfold e; ring|]. intros i Hi.
  transitivity (ip c tau (bs i) - qsum d (fun j => t j * ip c (bs i) (bs j))).
  { unfold ip, e. transitivity (qsum c (fun k => tau k * bs i k - qsum d (fun j => t j * (bs i k * bs j k)))).
    - apply qsum_ext. intros k Hk. rewrite (qsum_ext d (fun j => t j * (bs i k * bs j k)) (fun j => bs i k * (t j * bs j k))) by (intros; ring).
      rewrite qsum_scal. ring.
    - rewrite qsum_minus, qsum_swap. f_equal. apply qsum_ext. intros j Hj. now rewrite qsum_scal. }
  assert (OR : forall j, (j < d)%nat -> j <> i -> ip c (bs i) (bs j) = 0).
  { intros j Hj Hne. destruct (Nat.lt_ge_cases j i).
    - apply (proj2 G i j); auto.
    - transitivity (ip c (bs j) (bs i)); [unfold ip; apply qsum_ext; intros; ring|]. apply (proj2 G j i); lia. }
  rewrite (qsum_single d i); [|auto|intros j Hj Hne; rewrite OR by auto; ring].
  unfold t. fold (norm2 c (bs i)). field. intros Z0. specialize (Hp i Hi). rewrite Z0 in Hp. discriminate.
Qed.
End Norm.
