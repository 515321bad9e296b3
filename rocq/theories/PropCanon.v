(** C74: coordinates with respect to the Gram-Schmidt basis and Babai's nearest plane algorithm of the GSO objects. *)
From Coq Require Import List ZArith QArith Qcanon Lia Lqa Arith Bool Field.
From Verif Require Import Util QcUtil LatticeSpec LllSpec EnumExact CanonModel.
Import ListNotations.
Local Open Scope Qc_scope.

(** ** Specification: beside [ip], [norm2], [qrow], [gso_of] of LllSpec.v *)
(** sum of m vectors with coefficients *)
Definition lin (m : nat) (x : nat -> Qc) (u : nat -> nat -> Qc) : nat -> Qc := fun t => qsum m (fun i => x i * u i t).
(** the coordinate of u on b*_i is at most 1/2 in absolute value *)
Definition half_coord (c : nat) (u bsi : nat -> Qc) : Prop := (1 + 1) * ip c u bsi <= norm2 c bsi /\ - norm2 c bsi <= (1 + 1) * ip c u bsi.
(** rounding to a nearest integer *)
Definition nearest (rnd : Qc -> Z) : Prop := forall q, (1 + 1) * (Qcz (rnd q) - q) <= 1 /\ - (1) <= (1 + 1) * (Qcz (rnd q) - q).

(** ** Loops *)
Lemma upto_S {A} a n (f : nat -> A -> A) x : upto a (S n) f x = f (a + n)%nat (upto a n f x).
Proof. unfold upto. rewrite seq_S, fold_left_app. reflexivity. Qed.
Lemma upto_0 {A} a (f : nat -> A -> A) x : upto a 0 f x = x. Proof. reflexivity. Qed.
Lemma upto_sum n (g : nat -> Qc) : forall a, upto 0 n (fun i w => w + g i) a = a + qsum n g.
Proof. induction n as [|n IH]; intros a; [cbn; ring|]. rewrite upto_S, IH. cbn [qsum Nat.add]. ring. Qed.
Lemma aset_same x k v : aset x k v k = v. Proof. unfold aset. now rewrite Nat.eqb_refl. Qed.
Lemma aset_other x k v i : i <> k -> aset x k v i = x i. Proof. intros H. unfold aset. apply Nat.eqb_neq in H. now rewrite H. Qed.
Lemma downto_inv {A} (P : nat -> A -> Prop) (f : nat -> A -> A) : forall n x, P n x -> (forall i x, (i < n)%nat -> P (S i) x -> P i (f i x)) -> P 0%nat (downto n f x).
Proof. induction n as [|n IH]; intros x H S; cbn; auto. Qed.
Lemma upto_inv {A} (P : nat -> A -> Prop) (f : nat -> A -> A) : forall n x, P 0%nat x -> (forall i x, (i < n)%nat -> P i x -> P (S i) (f i x)) -> P n (upto 0 n f x).
Proof. induction n as [|n IH]; intros x H S; [exact H|]. rewrite upto_S. apply S; [lia|]. apply IH; auto. Qed.
Lemma inner_sub (m : nat -> Qc) i a : forall n x k, (forall j, (a <= j < a + n)%nat -> j <> i) ->
  upto a n (fun j x => aset x i (x i - m j * x j)) x k = if Nat.eqb k i then x i - qsum n (fun t => m (a + t)%nat * x (a + t)%nat) else x k.
Proof.
  induction n as [|n IH]; intros x k H.
  - rewrite upto_0. cbn [qsum]. destruct (Nat.eqb_spec k i) as [->|]; ring.
  - rewrite upto_S. unfold aset at 1. rewrite !IH by (intros; apply H; lia). rewrite Nat.eqb_refl.
    destruct (Nat.eqb_spec k i) as [->|N]; [|reflexivity].
    destruct (Nat.eqb_spec (a + n) i) as [E|_]; [exfalso; apply (H (a + n)%nat); [lia|exact E]|]. cbn [qsum]. ring.
Qed.
Lemma qsum_first n f : qsum (S n) f = f 0%nat + qsum n (fun i => f (S i)).
Proof. change (S n) with (1 + n)%nat. rewrite qsum_split. cbn [qsum Nat.add]. ring. Qed.

Section Spec.
Variables (c : nat) (B : list (list Z)) (mu r : nat -> nat -> Qc) (rnd : Qc -> Z) (bs : nat -> nat -> Qc).
Notation d := (length B).

Lemma forward_spec n x : forall k,
  forward_solve mu n x k = if (k <? n)%nat then x k - qsum k (fun j => mu k j * forward_solve mu n x j) else x k.
Proof.
  unfold forward_solve.
  apply (upto_inv (fun n y => forall k, y k = if (k <? n)%nat then x k - qsum k (fun j => mu k j * y j) else x k)).
  - intros k. destruct (Nat.ltb_spec k 0); [lia|reflexivity].
  - intros i y _ H k.
    assert (E : forall k, upto 0 i (fun j x => aset x i (x i - mu i j * x j)) y k = if Nat.eqb k i then y i - qsum i (fun t => mu i t * y t) else y k).
    { intros q. rewrite (inner_sub (mu i) i 0 i y q) by (intros; lia). reflexivity. }
    rewrite E. rewrite (qsum_ext k _ (fun j => if Nat.eqb j i then mu k j * (y i - qsum i (fun t => mu i t * y t)) else mu k j * y j)).
    2: { intros j _. rewrite E. destruct (Nat.eqb j i); reflexivity. }
    destruct (Nat.eqb_spec k i) as [->|N].
    + destruct (Nat.ltb_spec i (S i)); [|lia]. rewrite (H i), Nat.ltb_irrefl. apply (f_equal2 Qcminus); [reflexivity|]. apply qsum_ext. intros j Hj.
      destruct (Nat.eqb_spec j i); [lia|reflexivity].
    + rewrite H. destruct (Nat.ltb_spec k i) as [L|L]; destruct (Nat.ltb_spec k (S i)) as [L'|L']; try lia; [|reflexivity].
      apply (f_equal2 Qcminus); [reflexivity|]. apply qsum_ext. intros j Hj. destruct (Nat.eqb_spec j i); [lia|reflexivity].
Qed.

Lemma scale_spec s dim x : forall k, scale r s dim x k = if ((s <=? k) && (k <? s + dim))%nat then x k / r k k else x k.
Proof.
  unfold scale. apply (upto_inv (fun n y => forall k, y k = if ((s <=? k) && (k <? s + n))%nat then x k / r k k else x k)).
  - intros k. destruct (Nat.leb_spec s k); destruct (Nat.ltb_spec k (s + 0)); try lia; reflexivity.
  - intros i y _ H k. unfold aset. destruct (Nat.eqb_spec k (i + s)) as [->|N].
    + rewrite (Nat.add_comm i s), H. destruct (Nat.leb_spec s (s + i)); [|lia]. destruct (Nat.ltb_spec (s + i) (s + i)); [lia|].
      destruct (Nat.ltb_spec (s + i) (s + S i)); [reflexivity|lia].
    + rewrite H. destruct (Nat.leb_spec s k); destruct (Nat.ltb_spec k (s + i)); destruct (Nat.ltb_spec k (s + S i)); cbn [andb]; try lia; reflexivity.
Qed.

(** tail sums of a triangular system *)
Definition tl_sum (s dim a k : nat) (y : nat -> Qc) : Qc := qsum (dim - a) (fun t => mu (s + (a + t)) (s + k) * y (a + t)%nat).
Lemma tl_sum_step s dim a k y : (a < dim)%nat -> tl_sum s dim a k y = mu (s + a) (s + k) * y a + tl_sum s dim (S a) k y.
Proof.
  intros H. unfold tl_sum. replace (dim - a)%nat with (S (dim - S a)) by lia. rewrite qsum_first, Nat.add_0_r. f_equal.
  apply qsum_ext. intros i _. now rewrite <- Nat.add_succ_comm.
Qed.
Lemma tl_sum_ext s dim a k y y' : (forall j, (a <= j < dim)%nat -> y j = y' j) -> tl_sum s dim a k y = tl_sum s dim a k y'.
Proof. intros H. apply qsum_ext. intros t Ht. rewrite H by lia. reflexivity. Qed.

Lemma back_spec s dim v : let y := back_solve mu s dim v in
  (forall k, (k < dim)%nat -> v k = y k + tl_sum s dim (S k) k y) /\ forall k, (dim <= k)%nat -> y k = v k.
Proof.
  cbv zeta. set (P := fun i (y : nat -> Qc) => (forall k, (k < dim)%nat -> v k = y k + (if (i <=? k)%nat then tl_sum s dim (S k) k y else 0)) /\ forall k, (dim <= k)%nat -> y k = v k).
  enough (H : P 0%nat (back_solve mu s dim v)) by exact H. unfold back_solve. apply downto_inv; subst P; cbv beta.
  - split; [|auto]. intros k Hk. destruct (Nat.leb_spec dim k); [lia|ring].
  - intros i y Hi [H1 H2].
    assert (E : forall k, upto (S i) (dim - S i) (fun j x => aset x i (x i - mu (s + j) (s + i) * x j)) y k = if Nat.eqb k i then y i - tl_sum s dim (S i) i y else y k).
    { intros k. rewrite (inner_sub (fun j => mu (s + j) (s + i)) i (S i) (dim - S i) y k) by (intros; lia). reflexivity. }
    split.
    + intros k Hk. rewrite E, (H1 k Hk). assert (T : tl_sum s dim (S k) k (upto (S i) (dim - S i) (fun j x => aset x i (x i - mu (s + j) (s + i) * x j)) y) = if (i <=? k)%nat then tl_sum s dim (S k) k y
        else tl_sum s dim (S k) k (upto (S i) (dim - S i) (fun j x => aset x i (x i - mu (s + j) (s + i) * x j)) y)).
      { destruct (Nat.leb_spec i k); [|reflexivity]. apply tl_sum_ext. intros j Hj. rewrite E. destruct (Nat.eqb_spec j i); [lia|reflexivity]. }
      destruct (Nat.eqb_spec k i) as [->|N].
      * destruct (Nat.leb_spec (S i) i); [lia|]. destruct (Nat.leb_spec i i); [|lia]. rewrite T. ring.
      * destruct (Nat.leb_spec (S i) k); destruct (Nat.leb_spec i k); try lia; [rewrite T; reflexivity|reflexivity].
    + intros k Hk. rewrite E. destruct (Nat.eqb_spec k i); [lia|]. apply H2. exact Hk.
Qed.

Lemma plane_spec s dim v : let y := plane_loop mu rnd s dim v in
  forall k, (k < dim)%nat -> y k = Qcz (rnd (v k - tl_sum s dim (S k) k y)).
Proof.
  cbv zeta. set (P := fun i (y : nat -> Qc) => (forall k, (i <= k < dim)%nat -> y k = Qcz (rnd (v k - tl_sum s dim (S k) k y))) /\ forall k, (k < i)%nat -> y k = v k - tl_sum s dim i k y).
  enough (H : P 0%nat (plane_loop mu rnd s dim v)) by (intros k Hk; apply (proj1 H); lia). unfold plane_loop. apply downto_inv; subst P; cbv beta.
  - split; [intros; lia|]. intros k Hk. unfold tl_sum. rewrite Nat.sub_diag. cbn [qsum]. ring.
  - intros i y Hi [H1 H2]. set (z := Qcz (rnd (y i))).
    assert (E : forall k, upto 0 i (fun j x => aset x j (x j - mu (s + i) (s + j) * x i)) (aset y i z) k = if Nat.eqb k i then z else if (k <? i)%nat then y k - mu (s + i) (s + k) * z else y k).
    { intros q. set (Q := fun n (x : nat -> Qc) => (n <= i)%nat -> forall k, x k = if Nat.eqb k i then z else if (k <? n)%nat then y k - mu (s + i) (s + k) * z else y k).
      enough (X : Q i (upto 0 i (fun j x => aset x j (x j - mu (s + i) (s + j) * x i)) (aset y i z))) by (apply X; lia).
      apply upto_inv; subst Q; cbv beta.
      - intros _ k. unfold aset. destruct (Nat.ltb_spec k 0); [lia|reflexivity].
      - intros j x Hj IH _ k. specialize (IH ltac:(lia)). unfold aset. destruct (Nat.eqb_spec k j) as [->|N].
        + rewrite !IH. destruct (Nat.eqb_spec j i); [lia|]. rewrite Nat.eqb_refl, Nat.ltb_irrefl. destruct (Nat.ltb_spec j (S j)); [reflexivity|lia].
        + rewrite IH. destruct (Nat.eqb_spec k i); [reflexivity|]. destruct (Nat.ltb_spec k j); destruct (Nat.ltb_spec k (S j)); try lia; reflexivity. }
    set (y' := upto 0 i _ _) in *.
    assert (T : forall k a, (i < a)%nat -> tl_sum s dim a k y' = tl_sum s dim a k y).
    { intros k a Ha. apply tl_sum_ext. intros j Hj. rewrite E. destruct (Nat.eqb_spec j i); [lia|]. destruct (Nat.ltb_spec j i); [lia|reflexivity]. }
    split.
    + intros k Hk. rewrite T by lia. rewrite E. destruct (Nat.eqb_spec k i) as [->|N]; [unfold z; rewrite H2 by lia; reflexivity|].
      destruct (Nat.ltb_spec k i); [lia|]. apply H1. lia.
    + intros k Hk. rewrite tl_sum_step by lia. rewrite T by lia. rewrite !E, Nat.eqb_refl. destruct (Nat.eqb_spec k i); [lia|]. destruct (Nat.ltb_spec k i); [|lia].
      rewrite (H2 k) by lia. ring.
Qed.

(** ** Geometry *)
Hypothesis G : gso_of c B d bs mu.

Lemma ip_sym u v : ip c u v = ip c v u. Proof. unfold ip. apply qsum_ext. intros. ring. Qed.
Lemma ip_ext u u' v : (forall t, (t < c)%nat -> u t = u' t) -> ip c u v = ip c u' v.
Proof. intros H. unfold ip. apply qsum_ext. intros t Ht. now rewrite H. Qed.
Lemma ip_plus u u' v : ip c (fun t => u t + u' t) v = ip c u v + ip c u' v.
Proof. unfold ip. rewrite <- qsum_plus. apply qsum_ext. intros. ring. Qed.
Lemma ip_minus u u' v : ip c (fun t => u t - u' t) v = ip c u v - ip c u' v.
Proof. unfold ip. rewrite <- qsum_minus. apply qsum_ext. intros. ring. Qed.
Lemma ip_lin m x u v : ip c (lin m x u) v = qsum m (fun i => x i * ip c (u i) v).
Proof.
  unfold ip, lin. rewrite (qsum_ext c _ (fun t => qsum m (fun i => x i * (u i t * v t)))).
  2: { intros t _. rewrite <- qsum_scal_r. apply qsum_ext. intros. ring. }
  rewrite qsum_swap. apply qsum_ext. intros i _. now rewrite qsum_scal.
Qed.
Lemma bs_orth i j : (i < d)%nat -> (j < d)%nat -> i <> j -> ip c (bs i) (bs j) = 0.
Proof.
  intros Hi Hj N. destruct G as [_ O]. destruct (lt_dec j i); [apply O; auto|]. rewrite ip_sym. apply O; lia.
Qed.
Lemma ip_row i j : (i < d)%nat -> (j < d)%nat ->
  ip c (qrow B i) (bs j) = if (j <? i)%nat then mu i j * norm2 c (bs j) else if Nat.eqb j i then norm2 c (bs j) else 0.
Proof.
  intros Hi Hj. destruct G as [G1 _].
  rewrite (ip_ext _ (fun t => bs i t + lin i (mu i) bs t)) by (intros t Ht; now apply G1).
  rewrite ip_plus, ip_lin. destruct (Nat.ltb_spec j i) as [L|L].
  - rewrite bs_orth by lia. rewrite (qsum_single i j) by (auto; intros k Hk N; rewrite bs_orth by lia; ring). unfold norm2. ring.
  - rewrite qsum_0 by (intros k Hk; rewrite bs_orth by lia; ring). destruct (Nat.eqb_spec j i) as [->|N]; [unfold norm2; ring|]. rewrite bs_orth by lia. ring.
Qed.
(** coordinates of a combination of rows s .. s + dim - 1 *)
Lemma comb_ip s dim x k : (s + dim <= d)%nat -> (k < dim)%nat ->
  ip c (lin dim x (fun i => qrow B (s + i))) (bs (s + k)) = norm2 c (bs (s + k)) * (x k + tl_sum s dim (S k) k x).
Proof.
  intros Hd Hk. rewrite ip_lin. replace dim with (k + (1 + (dim - S k)))%nat at 1 by lia. rewrite !qsum_split. cbn [qsum].
  rewrite qsum_0. 2: { intros i Hi. rewrite ip_row by lia. destruct (Nat.ltb_spec (s + k) (s + i)); [lia|]. destruct (Nat.eqb_spec (s + k) (s + i)); [lia|ring]. }
  rewrite Nat.add_0_r, ip_row, Nat.ltb_irrefl, Nat.eqb_refl by lia. unfold tl_sum.
  rewrite (qsum_ext (dim - S k) _ (fun t => norm2 c (bs (s + k)) * (mu (s + (S k + t)) (s + k) * x (S k + t)%nat))).
  2: { intros t Ht. replace (k + (1 + t))%nat with (S k + t)%nat by lia. rewrite ip_row by lia. destruct (Nat.ltb_spec (s + k) (s + (S k + t))); [ring|lia]. }
  rewrite qsum_scal. ring.
Qed.
Lemma comb_ip_low s dim x j : (s + dim <= d)%nat -> (s + dim <= j < d)%nat -> ip c (lin dim x (fun i => qrow B (s + i))) (bs j) = 0.
Proof.
  intros Hd Hj. rewrite ip_lin. apply qsum_0. intros i Hi. rewrite ip_row by lia. destruct (Nat.ltb_spec j (s + i)); [lia|]. destruct (Nat.eqb_spec j (s + i)); [lia|ring].
Qed.
Lemma gs_ip s dim v k : (s + dim <= d)%nat -> (k < dim)%nat ->
  ip c (lin dim v (fun i => bs (s + i))) (bs (s + k)) = norm2 c (bs (s + k)) * v k.
Proof.
  intros Hd Hk. rewrite ip_lin. rewrite (qsum_single dim k) by (auto; intros i Hi N; rewrite bs_orth by lia; ring). unfold norm2. ring.
Qed.
(** forward solving gives the inner products with the Gram-Schmidt vectors *)
Lemma forward_ip n u : (n <= d)%nat -> forall k, (k < n)%nat -> forward_solve mu n (fun i => ip c (qrow B i) u) k = ip c u (bs k).
Proof.
  intros Hn. apply (well_founded_induction lt_wf (fun k => (k < n)%nat -> _)). intros k IH Hk. rewrite forward_spec.
  destruct (Nat.ltb_spec k n); [|lia]. rewrite (qsum_ext k _ (fun j => mu k j * ip c (bs j) u)) by (intros j Hj; rewrite IH by lia; now rewrite (ip_sym u)).
  destruct G as [G1 _]. rewrite (ip_ext (qrow B k) (fun t => bs k t + lin k (mu k) bs t)) by (intros t Ht; apply G1; lia).
  rewrite ip_plus, ip_lin. rewrite (ip_sym u). ring.
Qed.

Lemma set_f_z z : set_f (Qcz z) = z.
Proof.
  unfold set_f. assert (E : (this (Qcz z) == inject_Z z)%Q) by apply Qred_correct. unfold Qeq in E. cbn [inject_Z Qnum Qden] in E.
  rewrite Z.mul_1_r in E. rewrite E. apply Z.quot_mul. lia.
Qed.
Lemma nth_map_seq0 {A} (f : nat -> A) n i x : (i < n)%nat -> nth i (map f (seq 0 n)) x = f i.
Proof. intros H. rewrite (nth_indep _ x (f 0%nat)) by (rewrite map_length, seq_length; exact H). rewrite (map_nth f). now rewrite seq_nth. Qed.

Hypothesis R : forall i, (i < d)%nat -> r i i = norm2 c (bs i) /\ norm2 c (bs i) <> 0.

(** the argument dimension: -1 stands for all rows from start on *)
Definition dims (dimension : Z) (start dim : nat) : Prop := dimension = Z.of_nat dim \/ dimension = (-1)%Z /\ dim = (d - start)%nat.
Lemma dims_resolve dimension start dim : dims dimension start dim -> (start + dim <= d)%nat -> resolve B dimension start = Z.of_nat dim.
Proof. intros [-> | [-> ->]] Hd; unfold resolve; [destruct (Z.eqb_spec (Z.of_nat dim) (-1)); lia|cbn; lia]. Qed.
(** ** from_canonical: the coordinates on b*_start, ..., b*_(start + dim - 1) of any vector *)
Theorem from_canonical_ok w start dimension dim : (c <= length w)%nat -> (start + dim <= d)%nat -> dims dimension start dim ->
  exists v, from_canonical c B mu r w start dimension = Some v /\ length v = dim /\
    forall i, (i < dim)%nat -> arr v i * norm2 c (bs (start + i)) = ip c (arr w) (bs (start + i)).
Proof.
  intros Hw Hd HR. apply dims_resolve in HR; [|lia]. unfold from_canonical. rewrite HR. cbv zeta. destruct (Z.ltb_spec (Z.of_nat dim) 0); [lia|]. rewrite Nat2Z.id.
  destruct (Nat.ltb_spec d (start + dim)); [lia|]. destruct (Nat.ltb_spec (length w) c); [lia|]. cbn [andb].
  destruct (existsb _ _) eqn:E.
  { exfalso. apply existsb_exists in E as (i & Hi & E). apply in_seq in Hi. destruct (R (start + i)%nat ltac:(lia)) as [R1 R2]. apply Qc_eq_bool_correct in E. congruence. }
  eexists. split; [reflexivity|]. split; [now rewrite map_length, seq_length|]. intros i Hi. unfold arr at 1. rewrite nth_map_seq0 by exact Hi.
  rewrite scale_spec. destruct (Nat.leb_spec start (start + i)); [|lia]. destruct (Nat.ltb_spec (start + i) (start + dim)); [|lia]. cbn [andb].
  destruct (R (start + i)%nat ltac:(lia)) as [R1 R2]. rewrite R1.
  rewrite <- (forward_ip (start + dim) (arr w) ltac:(lia) (start + i) ltac:(lia)).
  assert (X : forall n k x x', (forall j, x j = x' j) -> forward_solve mu n x k = forward_solve mu n x' k).
  { intros n k x x' H'. revert k. apply (well_founded_induction lt_wf). intros k IH. rewrite !forward_spec. rewrite H'.
    destruct (k <? n)%nat; [|reflexivity]. apply (f_equal2 Qcminus); [reflexivity|]. apply qsum_ext. intros j Hj. now rewrite IH. }
  rewrite (X _ _ _ (fun i => ip c (qrow B i) (arr w))).
  2: { intros j. rewrite (upto_sum c (fun t => Qcz (ent B j t) * arr w t)). rewrite Qcplus_0_l. reflexivity. }
  field. exact R2.
Qed.

(** ** to_canonical *)
Lemma to_canonical_comb v start : let dim := Nat.min (length v) (d - start) in
  exists x, length (to_canonical c B mu v start) = c /\
    (forall t, (t < c)%nat -> arr (to_canonical c B mu v start) t = lin dim x (fun i => qrow B (start + i)) t) /\
    forall k, (k < dim)%nat -> arr v k = x k + tl_sum start dim (S k) k x.
Proof.
  cbv zeta. unfold to_canonical. replace (if (length v <? d - start)%nat then length v else (d - start)%nat) with (Nat.min (length v) (d - start)).
  2: { destruct (Nat.ltb_spec (length v) (d - start)); lia. }
  set (dim := Nat.min _ _). cbv zeta. exists (back_solve mu start dim (arr v)). split; [now rewrite map_length, seq_length|]. split.
  - intros t Ht. unfold arr at 1. rewrite nth_map_seq0 by exact Ht. rewrite (upto_sum dim (fun i => Qcz (ent B (start + i) t) * back_solve mu start dim (arr v) i)).
    unfold lin. rewrite Qcplus_0_l. apply qsum_ext. intros i _. unfold qrow. ring.
  - apply back_spec.
Qed.
(** a rational combination of the rows start, ..., with the given coordinates on b*_start, ..., and none beyond *)
Theorem to_canonical_coords v start : let dim := Nat.min (length v) (d - start) in let w := to_canonical c B mu v start in
  length w = c /\
  (forall i, (i < dim)%nat -> ip c (arr w) (bs (start + i)) = arr v i * norm2 c (bs (start + i))) /\
  (forall j, (start + dim <= j < d)%nat -> ip c (arr w) (bs j) = 0) /\
  exists x, forall t, (t < c)%nat -> arr w t = lin dim x (fun i => qrow B (start + i)) t.
Proof.
  cbv zeta. set (dim := Nat.min _ _). destruct (to_canonical_comb v start) as (x & L & E & T). fold dim in E, T.
  split; auto. split; [|split].
  - intros i Hi. rewrite (ip_ext _ _ _ E), comb_ip by lia. rewrite <- T by auto. ring.
  - intros j Hj. rewrite (ip_ext _ _ _ E). apply comb_ip_low; lia.
  - exists x. exact E.
Qed.
(** span of the rows and coordinates: a combination of all Gram-Schmidt vectors *)
Lemma gs_rows n x : (n <= d)%nat -> forall t, (t < c)%nat -> lin n x (fun i => qrow B i) t = lin n (fun k => x k + tl_sum 0 n (S k) k x) bs t.
Proof.
  intros Hn t Ht. revert x. induction n as [|n IH]; intros x; [reflexivity|]. unfold lin. cbn [qsum]. change (qsum n (fun i => x i * qrow B i t)) with (lin n x (fun i => qrow B i) t).
  rewrite IH by lia. destruct G as [G1 _]. rewrite (G1 n t) by lia.
  assert (T0 : tl_sum 0 (S n) (S n) n x = 0) by (unfold tl_sum; rewrite Nat.sub_diag; reflexivity). rewrite T0.
  rewrite (qsum_ext n (fun i => (x i + tl_sum 0 (S n) (S i) i x) * bs i t) (fun i => (x i + tl_sum 0 n (S i) i x) * bs i t + x n * (mu n i * bs i t))).
  2: { intros i Hi. assert (TT : tl_sum 0 (S n) (S i) i x = tl_sum 0 n (S i) i x + mu n i * x n).
       { unfold tl_sum. replace (S n - S i)%nat with (S (n - S i)) by lia. cbn [qsum]. replace (S i + (n - S i))%nat with n by lia. reflexivity. }
       rewrite TT. ring. }
  rewrite qsum_plus, qsum_scal. unfold lin. ring.
Qed.
(** with start = 0 it is the sum of v_i b*_i, as documented (gso.h:190-197) *)
Theorem to_canonical_gs v : (length v <= d)%nat -> forall t, (t < c)%nat -> arr (to_canonical c B mu v 0) t = lin (length v) (arr v) bs t.
Proof.
  intros L t Ht. destruct (to_canonical_comb v 0) as (x & _ & E & T). rewrite Nat.sub_0_r, Nat.min_l in E, T by lia. rewrite E by auto.
  change (fun i => qrow B (0 + i)) with (fun i => qrow B i). rewrite gs_rows by auto. apply qsum_ext. intros i Hi. now rewrite <- T.
Qed.
(** ** the two are inverse: from after to is the identity for every start *)
Theorem from_to_canonical v start : (start + length v <= d)%nat -> length v <> 0%nat ->
  from_canonical c B mu r (to_canonical c B mu v start) start (Z.of_nat (length v)) = Some v.
Proof.
  intros Hd N0. destruct (to_canonical_coords v start) as (L & C & _ & _). rewrite Nat.min_l in C by lia.
  destruct (from_canonical_ok (to_canonical c B mu v start) start (Z.of_nat (length v)) (length v)) as (v' & E & L' & C'); [lia|lia| |].
  { now left. }
  rewrite E. f_equal. apply (list_ext _ _ 0); [exact L'|]. intros i Hi. rewrite L' in Hi. specialize (C i Hi). specialize (C' i Hi). rewrite C in C'.
  destruct (R (start + i)%nat ltac:(lia)) as [_ R2]. unfold arr in C'. revert C' R2. clear. generalize (nth i v' 0), (nth i v 0), (norm2 c (bs (start + i))). intros a b n E N.
  assert (X : (a - b) * n = 0) by (rewrite Qcmult_comm, <- (Qcplus_opp_r (b * n)), <- E at 1; ring). apply Qcmult_integral in X as [X|X]; [|contradiction].
  replace a with (a - b + b) by ring. rewrite X. ring.
Qed.
(** to after from is the orthogonal projection on the span of the rows: the residual is orthogonal to all of them *)
Theorem to_from_canonical w : (c <= length w)%nat -> exists v, from_canonical c B mu r w 0 (-1) = Some v /\
  let w' := to_canonical c B mu v 0 in
  (forall i, (i < d)%nat -> ip c (fun t => arr w t - arr w' t) (qrow B i) = 0) /\
  (forall x, (forall t, (t < c)%nat -> arr w t = lin d x (fun i => qrow B i) t) -> forall t, (t < c)%nat -> arr w' t = arr w t).
Proof.
  intros Hw. destruct (from_canonical_ok w 0 (-1) d Hw (le_n _)) as (v & E & L & C); [right; split; lia|]. exists v. split; [exact E|]. cbv zeta.
  assert (W : forall t, (t < c)%nat -> arr (to_canonical c B mu v 0) t = lin d (arr v) bs t) by (intros t Ht; rewrite to_canonical_gs by (auto; lia); now rewrite L).
  assert (O : forall i, (i < d)%nat -> ip c (fun t => arr w t - arr (to_canonical c B mu v 0) t) (bs i) = 0).
  { intros i Hi. rewrite ip_minus. rewrite (ip_ext (arr (to_canonical c B mu v 0)) _ (bs i) W). pose proof (gs_ip 0 d (arr v) i (le_n _) Hi) as X. cbn [Nat.add] in X.
    change (lin d (arr v) (fun i => bs i)) with (lin d (arr v) bs) in X. rewrite X. specialize (C i Hi). cbn [Nat.add] in C. rewrite <- C. ring. }
  split.
  - intros i Hi. destruct G as [G1 _]. rewrite ip_sym, (ip_ext (qrow B i) (fun t => bs i t + lin i (mu i) bs t)) by (intros t Ht; now apply G1).
    rewrite ip_plus, ip_lin. rewrite ip_sym, O by auto. rewrite qsum_0; [ring|]. intros j Hj. rewrite ip_sym, O by lia. ring.
  - intros x Hx t Ht. rewrite W, Hx by auto. rewrite gs_rows by auto. apply qsum_ext. intros i Hi. f_equal.
    specialize (C i Hi). cbn [Nat.add] in C. rewrite (ip_ext _ _ _ Hx) in C. pose proof (comb_ip 0 d x i (le_n _) Hi) as X. cbn [Nat.add] in X. rewrite X in C.
    destruct (R i Hi) as [_ R2]. revert C R2. clear. generalize (arr v i), (x i + tl_sum 0 d (S i) i x), (norm2 c (bs i)). intros a b n E N.
    assert (X : (a - b) * n = 0) by (unfold Qcminus; rewrite Qcmult_plus_distr_l, E; ring). apply Qcmult_integral in X as [X|X]; [|contradiction].
    replace a with (a - b + b) by ring. rewrite X. ring.
Qed.

(** ** Babai's nearest plane algorithm *)
Lemma norm_nonneg u : 0 <= norm2 c u.
Proof. unfold norm2, ip. apply qsum_nonneg. intros t _. generalize (u t). intros a. qcnra. Qed.
Hypothesis N : nearest rnd.
Lemma nearest_z z : rnd (Qcz z) = z.
Proof.
  destruct (N (Qcz z)) as [A A']. rewrite <- Qcz_sub in A, A'. change (1 + 1) with (Qcz 2) in *. rewrite <- Qcz_mul in A, A'. change 1 with (Qcz 1) in A.
  change (- (1)) with (Qcz (-1)) in A'. rewrite Qcz_le in A, A'. lia.
Qed.
Lemma babai_gs_eq v start dimension dim : dims dimension start dim -> (dim <= length v)%nat -> (start + dim <= d)%nat ->
  exists w, babai_gs B mu rnd v start dimension = Some w /\ length w = dim /\
    forall k, (k < dim)%nat -> nth k w 0%Z = rnd (arr v k - tl_sum start dim (S k) k (fun i => Qcz (nth i w 0%Z))).
Proof.
  intros HR Hv Hd. apply dims_resolve in HR; [|lia]. unfold babai_gs. rewrite HR. cbv zeta. destruct (Z.ltb_spec (Z.of_nat dim) 0); [lia|]. rewrite Nat2Z.id.
  destruct (Nat.ltb_spec (length v) dim); [lia|]. destruct (Nat.ltb_spec d (start + dim)); [lia|]. rewrite andb_false_r.
  eexists. split; [reflexivity|]. split; [now rewrite map_length, seq_length|].
  pose proof (plane_spec start dim (arr v)) as P. cbv zeta in P. set (y := plane_loop mu rnd start dim (arr v)) in *.
  assert (Y : forall k, (k < dim)%nat -> Qcz (nth k (map (fun i => set_f (y i)) (seq 0 dim)) 0%Z) = y k).
  { intros k Hk. rewrite nth_map_seq0 by auto. rewrite (P k Hk), set_f_z. reflexivity. }
  intros k Hk. apply Qcz_inj. rewrite Y, (P k Hk) by auto. f_equal. f_equal. apply (f_equal2 Qcminus); [reflexivity|]. apply tl_sum_ext. intros j Hj. symmetry. apply Y. lia.
Qed.
(** MatGSOInterface::babai: v B* - w B has coordinates of at most 1/2 on b*_start, ..., b*_(start + dim - 1) *)
Theorem babai_gs_ok v start dimension dim : dims dimension start dim -> (dim <= length v)%nat -> (start + dim <= d)%nat ->
  exists w, babai_gs B mu rnd v start dimension = Some w /\ length w = dim /\
    forall k, (k < dim)%nat -> half_coord c (fun t => lin dim (arr v) (fun i => bs (start + i)) t - lin dim (fun i => Qcz (nth i w 0%Z)) (fun i => qrow B (start + i)) t) (bs (start + k)).
Proof.
  intros HR Hv Hd. destruct (babai_gs_eq v start dimension dim HR Hv Hd) as (w & E & L & P). exists w. split; auto. split; auto. intros k Hk.
  unfold half_coord. rewrite ip_minus, gs_ip, comb_ip by lia. specialize (P k Hk). set (q := arr v k - _) in P.
  assert (V : arr v k = q + tl_sum start dim (S k) k (fun i => Qcz (nth i w 0%Z))) by (unfold q; ring). rewrite V, P.
  pose proof (norm_nonneg (bs (start + k))) as NN. destruct (N q) as [A A']. revert NN A A'. generalize (norm2 c (bs (start + k))), (Qcz (rnd q)), (tl_sum start dim (S k) k (fun i => Qcz (nth i w 0%Z))).
  clearbody q. clear. intros n z s NN A A'.
  replace ((1 + 1) * (n * (q + s) - n * (z + s))) with (- (n * ((1 + 1) * (z - q)))) by ring. revert A A'. generalize ((1 + 1) * (z - q)). intros e A A'. split; qcnra.
Qed.
(** MatGSO::babai without gso: v - w B has such coordinates *)
Theorem babai_can_ok v start dimension dim : dims dimension start dim -> (c <= length v)%nat -> (start + dim <= d)%nat ->
  exists w, babai_can c B mu r rnd v start dimension false = Some w /\ length w = dim /\
    forall k, (k < dim)%nat -> half_coord c (fun t => arr v t - lin dim (fun i => Qcz (nth i w 0%Z)) (fun i => qrow B (start + i)) t) (bs (start + k)).
Proof.
  intros HR Hv Hd. apply dims_resolve in HR; [|lia]. unfold babai_can. rewrite HR. assert (HR' : dims (Z.of_nat dim) start dim) by now left.
  destruct (from_canonical_ok v start (Z.of_nat dim) dim Hv Hd HR') as (x & E & L & C). rewrite E.
  destruct (babai_gs_ok x start (Z.of_nat dim) dim HR' ltac:(lia) Hd) as (w & E' & L' & P). exists w. split; auto. split; auto. intros k Hk.
  specialize (P k Hk). unfold half_coord in *. rewrite ip_minus in *. rewrite gs_ip in P by lia. specialize (C k Hk). rewrite <- C. rewrite (Qcmult_comm (arr x k)). exact P.
Qed.
(** with gso the vector is taken with respect to B* *)
Theorem babai_can_gso v start dimension dim : dims dimension start dim -> (start + dim <= d)%nat ->
  babai_can c B mu r rnd v start dimension true = babai_gs B mu rnd v start (Z.of_nat dim).
Proof. intros HR Hd. unfold babai_can. now rewrite (dims_resolve _ _ _ HR Hd). Qed.
(** an integer combination of the rows is recovered, whatever is added from the span of the rows before start *)
Theorem babai_can_recovers v start dimension dim (x : list Z) (y : nat -> Qc) : dims dimension start dim -> (c <= length v)%nat -> (start + dim <= d)%nat ->
  length x = dim -> (forall t, (t < c)%nat -> arr v t = lin start y (fun i => qrow B i) t + lin dim (fun i => Qcz (nth i x 0%Z)) (fun i => qrow B (start + i)) t) ->
  babai_can c B mu r rnd v start dimension false = Some x.
Proof.
  intros HR Hv Hd Lx Hx. apply dims_resolve in HR; [|lia]. unfold babai_can. rewrite HR. assert (HR' : dims (Z.of_nat dim) start dim) by now left.
  destruct (from_canonical_ok v start (Z.of_nat dim) dim Hv Hd HR') as (v' & E & L & C). rewrite E.
  destruct (babai_gs_eq v' start (Z.of_nat dim) dim HR' ltac:(lia) Hd) as (w & E' & L' & P). rewrite E'. f_equal. apply (list_ext _ _ 0%Z); [lia|]. rewrite L'.
  assert (V : forall k, (k < dim)%nat -> arr v' k = Qcz (nth k x 0%Z) + tl_sum start dim (S k) k (fun i => Qcz (nth i x 0%Z))).
  { intros k Hk. specialize (C k Hk). rewrite (ip_ext _ _ _ Hx), ip_plus in C. pose proof (comb_ip_low 0 start y (start + k) ltac:(lia) ltac:(lia)) as Z0. cbn [Nat.add] in Z0. rewrite Z0, comb_ip in C by lia.
    destruct (R (start + k)%nat ltac:(lia)) as [_ R2]. revert C R2. clear. generalize (arr v' k), (Qcz (nth k x 0%Z) + tl_sum start dim (S k) k (fun i => Qcz (nth i x 0%Z))), (norm2 c (bs (start + k))). intros a b n E M.
    assert (X : (a - b) * n = 0) by (unfold Qcminus; rewrite Qcmult_plus_distr_l, E; ring). apply Qcmult_integral in X as [X|X]; [|contradiction].
    replace a with (a - b + b) by ring. rewrite X. ring. }
  assert (K : forall m k, (dim - k <= m)%nat -> (k < dim)%nat -> nth k w 0%Z = nth k x 0%Z).
  { induction m as [|m IH]; intros k Hm Hk; [lia|]. rewrite P, V by auto. rewrite (tl_sum_ext start dim (S k) k (fun i => Qcz (nth i w 0%Z)) (fun i => Qcz (nth i x 0%Z))).
    - match goal with |- rnd (?a + ?b - ?b) = _ => replace (a + b - b) with a by ring end. apply nearest_z.
    - intros j Hj. f_equal. apply IH; lia. }
  intros i Hi. apply (K dim); lia.
Qed.
(** distance of a target in the span: at most half the square root of the sum of the |b*_i|^2 *)
Lemma norm_gs n e : (n <= d)%nat -> norm2 c (lin n e bs) = qsum n (fun i => e i * e i * norm2 c (bs i)).
Proof.
  intros Hn. unfold norm2. rewrite ip_lin. apply qsum_ext. intros i Hi. rewrite ip_sym, ip_lin. rewrite (qsum_single n i) by (auto; intros j Hj M; rewrite bs_orth by lia; ring). ring.
Qed.
Theorem babai_can_distance v (x : nat -> Qc) : (c <= length v)%nat -> (forall t, (t < c)%nat -> arr v t = lin d x (fun i => qrow B i) t) ->
  exists w, babai_can c B mu r rnd v 0 (-1) false = Some w /\ length w = d /\
    (1 + 1) * ((1 + 1) * norm2 c (fun t => arr v t - lin d (fun i => Qcz (nth i w 0%Z)) (fun i => qrow B i) t)) <= qsum d (fun i => norm2 c (bs i)).
Proof.
  intros Hv Hx. destruct (babai_can_ok v 0 (-1) d ltac:(right; split; lia) Hv (le_n _)) as (w & E & L & P). exists w. split; auto. split; auto.
  set (u := fun t => arr v t - lin d (fun i => Qcz (nth i w 0%Z)) (fun i => qrow B i) t).
  set (z := fun i => x i - Qcz (nth i w 0%Z)). set (e := fun k => z k + tl_sum 0 d (S k) k z).
  assert (U : forall t, (t < c)%nat -> u t = lin d e bs t).
  { intros t Ht. unfold u. rewrite Hx by auto. unfold e. rewrite <- (gs_rows d z (le_n _) t Ht). unfold lin, z. rewrite <- qsum_minus. apply qsum_ext. intros. ring. }
  assert (NU : norm2 c u = norm2 c (lin d e bs)) by (unfold norm2; rewrite (ip_ext _ _ u U), ip_sym, (ip_ext _ _ _ U); reflexivity).
  rewrite NU, norm_gs by auto. rewrite <- !qsum_scal. apply qsum_le. intros i Hi. specialize (P i Hi). unfold half_coord in P. cbn [Nat.add] in P.
  change (fun t => arr v t - lin d (fun i => Qcz (nth i w 0%Z)) (fun i => qrow B i) t) with u in P. rewrite (ip_ext _ _ _ U) in P.
  pose proof (gs_ip 0 d e i (le_n _) Hi) as X. cbn [Nat.add] in X. change (lin d e (fun i => bs i)) with (lin d e bs) in X. rewrite X in P.
  destruct (R i Hi) as [_ R2]. pose proof (norm_nonneg (bs i)) as NN. revert P R2 NN. clearbody e. generalize (norm2 c (bs i)), (e i). clear. intros n a [A A'] M NN.
  assert (PN : 0 < n) by (destruct (Qcle_lt_or_eq _ _ NN) as [|Q]; [assumption|subst; contradiction]).
  assert (H1 : (1 + 1) * a <= 1). { apply Qcnot_lt_le. intros C. enough (n < (1 + 1) * (n * a)) by (now apply (Qclt_not_le n ((1 + 1) * (n * a)))). clear - C PN. qcnra. }
  assert (H2 : - (1) <= (1 + 1) * a). { apply Qcnot_lt_le. intros C. enough ((1 + 1) * (n * a) < - n) by (now apply (Qclt_not_le ((1 + 1) * (n * a)) (- n))). clear - C PN. qcnra. }
  clear A A' M. assert (S : (1 + 1) * a * ((1 + 1) * a) <= 1) by (generalize ((1 + 1) * a) H1 H2; clear; intros; qcnra).
  replace ((1 + 1) * ((1 + 1) * (a * a * n))) with ((1 + 1) * a * ((1 + 1) * a) * n) by ring. generalize ((1 + 1) * a * ((1 + 1) * a)) S. clear - NN. intros; qcnra.
Qed.
End Spec.

(** ** A basis: (2,0), (1,2) *)
Definition exB : list (list Z) := [[2; 0]; [1; 2]]%Z.
Definition ex_mu (i j : nat) : Qc := if ((i =? 1) && (j =? 0))%nat then Q2Qc (1 # 2) else 0.
Definition ex_bs (i k : nat) : Qc := if ((i =? k) && (i <? 2))%nat then Qcz 2 else 0.
Definition ex_r (i j : nat) : Qc := if (i =? j)%nat then Qcz 4 else 0.
Lemma ex_gso : gso_of 2 exB (length exB) ex_bs ex_mu.
Proof.
  split.
  - intros i k Hi Hk. cbn in Hi. destruct i as [|[|]]; [| |lia]; (destruct k as [|[|]]; [| |lia]); apply Qc_is_canon; reflexivity.
  - intros i j Hj Hi. cbn in Hi. destruct i as [|[|]]; [lia| |lia]. destruct j; [|lia]. apply Qc_is_canon; reflexivity.
Qed.
Lemma ex_norm i : (i < length exB)%nat -> ex_r i i = norm2 2 (ex_bs i) /\ norm2 2 (ex_bs i) <> 0.
Proof.
  cbn. intros H. destruct i as [|[|]]; [| |lia]; (split; [apply Qc_is_canon; reflexivity|]); intros C; apply (f_equal this) in C; vm_compute in C; discriminate.
Qed.
Lemma qround_nearest : nearest qround.
Proof. intros q. pose proof (qround_half q) as [A A']. change (Qcz 2) with (1 + 1) in *. revert A A'. generalize (Qcz (qround q)). intros z A A'. split; qclra. Qed.
(** hypotheses met; (5,3) = 1.75 b_0 + 1.5 b_1 goes to 2 b_0 + 2 b_1 (ties away from zero); 3 b_0 - 2 b_1 = (4,-4) is recovered *)
Example babai_case :
  option_map (map this) (from_canonical 2 exB ex_mu ex_r [Qcz 5; Qcz 3] 0 (-1)) = Some [5 # 2; 3 # 2]%Q /\
  babai_can_z 2 exB ex_mu ex_r qround [5; 3]%Z 0 (-1) false = Some [2; 2]%Z /\
  babai_can_z 2 exB ex_mu ex_r qround [4; -4]%Z 0 (-1) false = Some [3; -2]%Z /\
  babai_can_z 2 exB ex_mu ex_r qround [4; -4]%Z 1 1 false = Some [-2]%Z /\
  babai_gs_z exB ex_mu qround [3; 1]%Z 0 (-1) = Some [3; 1]%Z.
Proof. repeat split; vm_compute; reflexivity. Qed.
Example to_canonical_case : map this (to_canonical 2 exB ex_mu [Q2Qc (5 # 2); Q2Qc (3 # 2)] 0) = [5 # 1; 3 # 1]%Q. Proof. reflexivity. Qed.

(** to_canonical with start > 0 does not return v B*: b*_1 = (0,2) becomes (1,2), the row itself *)
Theorem to_canonical_start_refuted : exists c B bs mu v start,
  gso_of c B (length B) bs mu /\ (forall i, (i < length B)%nat -> norm2 c (bs i) <> 0) /\ (start + length v <= length B)%nat /\
  exists t, (t < c)%nat /\ arr (to_canonical c B mu v start) t <> lin (length v) (arr v) (fun i => bs (start + i)%nat) t.
Proof.
  exists 2%nat, exB, ex_bs, ex_mu, [1], 1%nat. split; [exact ex_gso|]. split; [intros i Hi; apply ex_norm, Hi|]. split; [cbn; lia|].
  exists 0%nat. split; [lia|]. intros C. apply (f_equal this) in C. vm_compute in C. discriminate.
Qed.
(** outside the sizes of the arrays: a vector of coordinates shorter than dimension, a target shorter than the rows *)
Theorem babai_short_refuted : exists c B bs mu r,
  gso_of c B (length B) bs mu /\ (forall i, (i < length B)%nat -> r i i = norm2 c (bs i) /\ norm2 c (bs i) <> 0) /\
  babai_can_z c B mu r qround [3]%Z 0 (-1) true = None /\ babai_can_z c B mu r qround [3]%Z 0 (-1) false = None /\
  babai_can_z c B mu r qround [3; 1; 7]%Z 0 (-1) true = babai_can_z c B mu r qround [3; 1]%Z 0 (-1) true.
Proof. exists 2%nat, exB, ex_bs, ex_mu, ex_r. split; [exact ex_gso|]. split; [exact ex_norm|]. repeat split; vm_compute; reflexivity. Qed.

Print Assumptions from_canonical_ok.
Print Assumptions to_canonical_coords.
Print Assumptions to_canonical_gs.
Print Assumptions from_to_canonical.
Print Assumptions to_from_canonical.
Print Assumptions babai_gs_ok.
Print Assumptions babai_can_ok.
Print Assumptions babai_can_recovers.
Print Assumptions babai_can_distance.
Print Assumptions to_canonical_start_refuted.
Print Assumptions babai_short_refuted.
