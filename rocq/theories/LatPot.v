(** Gram determinants of an integer basis and the potential of LLL.  Not part of
    the model: used to bound the number of iterations of lll(). *)
From Coq Require Import List ZArith QArith Qcanon Lia Lqa Arith Bool.
From Verif Require Import Util QcUtil LatticeSpec GsoModel GsoFModel GsoFSpec GsoQ QGs GramDet.
Import ListNotations.
Local Open Scope Qc_scope.

(** determinant of the Gram matrix of the first n rows *)
Definition gram_det (c : nat) (B : list (list Z)) (n : nat) : Z := gdet n (fun i j => inner c (nth i B []) (nth j B [])).
(** product of the Gram determinants of the first i rows, i < d *)
Definition potential (c : nat) (B : list (list Z)) (d : nat) : Qc := qprod d (fun i => Qcz (gram_det c B i)).

Section S.
Variable c : nat.

Lemma gq_z B i j : gq c B i j = Qcz (inner c (nth i B []) (nth j B [])).
Proof.
  unfold gq, qdot, inner. rewrite Qcz_sum. apply qsum_ext. intros k Hk. rewrite Qcz_mul. reflexivity.
Qed.

Lemma mr_sym B i j k : (k < i)%nat -> (k < j)%nat -> qM c B i k * qR c B j k = qM c B j k * qR c B i k.
Proof. intros H1 H2. rewrite (qR_M c B j k), (qR_M c B i k) by auto. ring. Qed.

(** unit lower triangular factor of the Gram matrix *)
Let mm B i k : Qc := if (k <? i)%nat then qM c B i k else if (k =? i)%nat then 1 else 0.
Let rr B j k : Qc := if (k <=? j)%nat then qR c B j k else 0.

Lemma gq_factor_le B n i j : (j <= i)%nat -> (i < n)%nat -> gq c B i j = qsum n (fun k => mm B i k * rr B j k).
Proof.
  intros Hj Hi. pose proof (qR_eq c B i j) as E.
  replace n with (S j + (n - S j))%nat by lia. rewrite qsum_split. cbn [qsum].
  rewrite (qsum_0 (n - S j)).
  2:{ intros k Hk. unfold rr. destruct (Nat.leb_spec (S j + k) j); [lia|]. ring. }
  replace (qsum j (fun k => mm B i k * rr B j k)) with (qsum j (fun k => qM c B j k * qR c B i k)).
  2:{ apply qsum_ext. intros k Hk. unfold mm, rr. destruct (Nat.ltb_spec k i); [|lia]. destruct (Nat.leb_spec k j); [|lia]. symmetry. apply mr_sym; lia. }
  replace (mm B i j * rr B j j) with (qR c B i j).
  2:{ unfold mm, rr. rewrite Nat.leb_refl. destruct (Nat.ltb_spec j i); [apply qR_M; auto|]. assert (j = i) by lia. subst j. rewrite Nat.eqb_refl. ring. }
  rewrite E. ring.
Qed.
Lemma mm_rr_sym B n i j : (i < n)%nat -> (j < n)%nat -> qsum n (fun k => mm B i k * rr B j k) = qsum n (fun k => mm B j k * rr B i k).
Proof.
  intros Hi Hj. apply qsum_ext. intros k Hk. unfold mm, rr.
  destruct (Nat.ltb_spec k i), (Nat.leb_spec k j), (Nat.ltb_spec k j), (Nat.leb_spec k i), (Nat.eqb_spec k i), (Nat.eqb_spec k j); try lia; try ring; subst;
    try (apply mr_sym; auto; fail); try (rewrite <- qR_M by auto; ring); try reflexivity.
Qed.
Lemma gq_factor B n i j : (i < n)%nat -> (j < n)%nat -> gq c B i j = qsum n (fun k => mm B i k * rr B j k).
Proof.
  intros Hi Hj. destruct (Nat.le_ge_cases j i).
  - apply gq_factor_le; auto.
  - rewrite gq_sym, mm_rr_sym by auto. apply gq_factor_le; auto.
Qed.

(** the Gram determinant is the product of the squared norms of the Gram-Schmidt vectors *)
Lemma gram_det_prod B n : Qcz (gram_det c B n) = qprod n (fun j => qR c B j j).
Proof.
  unfold gram_det. rewrite (gdet_tri n _ (mm B) (rr B)).
  - assert (forall m, qprod m (fun j => rr B j j) = qprod m (fun j => qR c B j j)) as ->; auto.
    induction m as [|m IH]; cbn [qprod]; auto. rewrite IH. unfold rr. rewrite Nat.leb_refl. auto.
  - intros i j Hi Hj. rewrite <- gq_z. apply gq_factor; auto.
  - intros i Hi. unfold mm. rewrite Nat.ltb_irrefl, Nat.eqb_refl. reflexivity.
  - intros i j Hi Hj. unfold mm. destruct (Nat.ltb_spec j i); [lia|]. destruct (Nat.eqb_spec j i); [lia|]. reflexivity.
  - intros i j Hi Hj. unfold rr. destruct (Nat.leb_spec j i); [lia|]. reflexivity.
Qed.

(** ** products *)
Lemma qprod_ext n f g : (forall i, (i < n)%nat -> f i = g i) -> qprod n f = qprod n g.
Proof. induction n; cbn [qprod]; intros H; auto. rewrite IHn, H; auto. Qed.
Lemma qprod_pos n f : (forall i, (i < n)%nat -> 0 < f i) -> 0 < qprod n f.
Proof. induction n; cbn [qprod]; intros H; [reflexivity|]. assert (0 < qprod n f) by auto. assert (0 < f n) by auto. qcnra. Qed.
Lemma qprod_le n f g : (forall i, (i < n)%nat -> 0 <= f i /\ f i <= g i) -> 0 <= qprod n f /\ qprod n f <= qprod n g.
Proof.
  induction n; cbn [qprod]; intros H; [split; [discriminate|apply Qcle_refl]|]. destruct IHn as [A1 A2]; [auto|].
  destruct (H n) as [B1 B2]; auto. set (a := qprod n f) in *. set (b := qprod n g) in *. set (x := f n) in *. set (y := g n) in *. clearbody a b x y. split; qcnra.
Qed.
(** a factor delta at every index in (k, k+m] *)
Lemma qprod_drop delta f g k m n : 0 < delta -> (k + m < n)%nat ->
  (forall i, (i < n)%nat -> 0 < f i) -> (forall i, (i < n)%nat -> 0 < g i) ->
  (forall i, (i < n)%nat -> (i <= k \/ k + m < i)%nat -> g i = f i) ->
  (forall i, (k < i <= k + m)%nat -> g i <= delta * f i) -> qprod n g <= delta ^ m * qprod n f.
Proof.
  intros Hd Hn Hf Hg H1 H2.
  assert (A : forall j, (j <= m)%nat -> qprod (k + j + 1) g <= delta ^ j * qprod (k + j + 1) f /\ 0 < delta ^ j).
  { induction j as [|j IH]; intros Hj.
    - rewrite (qprod_ext _ g f) by (intros; apply H1; lia). cbn [Qcpower]. split; [|reflexivity]. rewrite Qcmult_1_l. apply Qcle_refl.
    - destruct IH as [A1 A2]; [lia|]. replace (k + S j + 1)%nat with (S (k + j + 1)) by lia. cbn [qprod Qcpower].
      pose proof (H2 (k + j + 1)%nat ltac:(lia)) as B1. pose proof (Hg (k + j + 1)%nat ltac:(lia)) as B2. pose proof (Hf (k + j + 1)%nat ltac:(lia)) as B3.
      assert (C1 : 0 < qprod (k + j + 1) g) by (apply qprod_pos; intros; apply Hg; lia).
      set (a := qprod (k + j + 1) g) in *. set (b := qprod (k + j + 1) f) in *. set (x := g (k + j + 1)%nat) in *. set (y := f (k + j + 1)%nat) in *. set (p := delta ^ j) in *.
      clearbody a b x y p. split; [|qcnra]. apply Qcle_trans with (p * b * x); [qcnra|]. replace (delta * p * (b * y)) with (p * b * (delta * y)) by ring.
      assert (0 < p * b) by (eapply Qclt_le_trans; eauto). clear A1. set (q := p * b) in *. clearbody q. qcnra. }
  destruct (A m (le_n m)) as [A1 A2]. clear A.
  assert (B : forall j, (k + m + 1 + j <= n)%nat -> qprod (k + m + 1 + j) g <= delta ^ m * qprod (k + m + 1 + j) f).
  { induction j as [|j IH]; intros Hj; [rewrite Nat.add_0_r; auto|].
    replace (k + m + 1 + S j)%nat with (S (k + m + 1 + j)) by lia. cbn [qprod]. specialize (IH ltac:(lia)).
    rewrite (H1 (k + m + 1 + j)%nat) by lia. pose proof (Hf (k + m + 1 + j)%nat ltac:(lia)).
    set (a := qprod (k + m + 1 + j) g) in *. set (b := qprod (k + m + 1 + j) f) in *. set (y := f (k + m + 1 + j)%nat) in *. clearbody a b y. rewrite Qcmult_assoc.
    set (q := delta ^ m * b) in *. clearbody q. qcnra. }
  specialize (B (n - (k + m + 1))%nat ltac:(lia)). replace (k + m + 1 + (n - (k + m + 1)))%nat with n in B by lia. auto.
Qed.

(** ** changes of the basis that keep a Gram determinant *)
Lemma inner_comb n (U : nat -> nat -> Z) (B B' : list (list Z)) i j :
  (forall k, (k < c)%nat -> ent B' i k = zsum n (fun a => U i a * ent B a k)%Z) ->
  (forall k, (k < c)%nat -> ent B' j k = zsum n (fun a => U j a * ent B a k)%Z) ->
  inner c (nth i B' []) (nth j B' []) = zsum n (fun a => U i a * zsum n (fun b => inner c (nth a B []) (nth b B []) * U j b))%Z.
Proof.
  intros H1 H2. unfold inner.
  transitivity (zsum c (fun k => zsum n (fun a => zsum n (fun b => U i a * (ent B a k * ent B b k * U j b))))%Z).
  - apply zsum_ext. intros k Hk. change (nth k (nth i B' []) 0%Z) with (ent B' i k). change (nth k (nth j B' []) 0%Z) with (ent B' j k).
    rewrite H1, H2 by auto. rewrite <- zsum_scal_r. apply zsum_ext. intros a _. rewrite <- zsum_scal. apply zsum_ext. intros b _. ring.
  - rewrite zsum_swap. apply zsum_ext. intros a _.
    transitivity (zsum n (fun b => zsum c (fun k => U i a * (ent B a k * ent B b k * U j b))))%Z; [apply zsum_swap|].
    rewrite <- zsum_scal. apply zsum_ext. intros b _. rewrite <- zsum_scal_r, <- zsum_scal. apply zsum_ext. intros k _. unfold ent. ring.
Qed.

Lemma gram_det_equiv n (U V : nat -> nat -> Z) B B' :
  (forall i k, (i < n)%nat -> (k < c)%nat -> ent B' i k = zsum n (fun a => U i a * ent B a k)%Z) ->
  (forall i k, (i < n)%nat -> (k < c)%nat -> ent B i k = zsum n (fun a => V i a * ent B' a k)%Z) ->
  gram_det c B' n = gram_det c B n.
Proof.
  intros H1 H2. unfold gram_det. apply (gdet_equiv n _ _ U V); intros i j Hi Hj; apply inner_comb; auto.
Qed.

Lemma gram_det_perm n (p q : nat -> nat) B B' :
  (forall i, (i < n)%nat -> (p i < n)%nat /\ q (p i) = i) -> (forall i, (i < n)%nat -> (q i < n)%nat /\ p (q i) = i) ->
  (forall i, (i < n)%nat -> nth i B' [] = nth (p i) B []) -> gram_det c B' n = gram_det c B n.
Proof.
  intros Hp Hq H. apply (gram_det_equiv n (fun i a => if (a =? p i)%nat then 1 else 0)%Z (fun i a => if (a =? q i)%nat then 1 else 0)%Z).
  - intros i k Hi Hk. rewrite (zsum_single n (p i)).
    + rewrite Nat.eqb_refl. unfold ent. rewrite H by auto. ring.
    + apply Hp; auto.
    + intros a _ N. destruct (Nat.eqb_spec a (p i)); [contradiction|]. ring.
  - intros i k Hi Hk. rewrite (zsum_single n (q i)).
    + rewrite Nat.eqb_refl. unfold ent. rewrite H by (apply Hq; auto). destruct (Hq i Hi) as [_ ->]. ring.
    + apply Hq; auto.
    + intros a _ N. destruct (Nat.eqb_spec a (q i)); [contradiction|]. ring.
Qed.

Lemma gram_det_same n B B' : (forall i, (i < n)%nat -> nth i B' [] = nth i B []) -> gram_det c B' n = gram_det c B n.
Proof. intros H. apply (gram_det_perm n (fun i => i) (fun i => i)); auto. Qed.

(** row kappa changed by a combination of the rows before it, all other rows kept *)
Definition row_changed (B B' : list (list Z)) (kappa : nat) : Prop :=
  (forall a, a <> kappa -> (a < length B)%nat -> nth a B' [] = nth a B []) /\
  exists x : nat -> Z, forall k, (k < c)%nat -> ent B' kappa k = (ent B kappa k + zsum kappa (fun a => x a * ent B a k))%Z.

Lemma gram_det_row B B' kappa n : row_changed B B' kappa -> (n <= length B)%nat -> gram_det c B' n = gram_det c B n.
Proof.
  intros [H1 [x Hx]] Hn. destruct (Nat.lt_ge_cases kappa n) as [Hk|Hk]; [|apply gram_det_same; intros; apply H1; lia].
  apply (gram_det_equiv n (fun i a => (if (a =? i)%nat then 1 else 0) + (if (i =? kappa)%nat && (a <? kappa)%nat then x a else 0))%Z
           (fun i a => (if (a =? i)%nat then 1 else 0) - (if (i =? kappa)%nat && (a <? kappa)%nat then x a else 0))%Z).
  - intros i k Hi Hkc.
    rewrite (zsum_ext n _ (fun a => (if (a =? i)%nat then ent B a k else 0) + (if (i =? kappa)%nat && (a <? kappa)%nat then x a * ent B a k else 0)))%Z.
    2:{ intros a Ha. destruct (a =? i)%nat, ((i =? kappa)%nat && (a <? kappa)%nat); ring. }
    rewrite zsum_plus, (zsum_delta n i (fun a => ent B a k)) by auto. destruct (Nat.eqb_spec i kappa) as [->|N]; cbn [andb].
    + rewrite Hx by auto. f_equal. rewrite (zsum_trunc kappa n) by (try lia; intros a Ha; destruct (Nat.ltb_spec a kappa); try lia; auto).
      apply zsum_ext. intros a Ha. destruct (Nat.ltb_spec a kappa); [auto|lia].
    + rewrite zsum_0 by auto. unfold ent. rewrite H1 by lia. ring.
  - intros i k Hi Hkc.
    rewrite (zsum_ext n _ (fun a => (if (a =? i)%nat then ent B' a k else 0) - (if (i =? kappa)%nat && (a <? kappa)%nat then x a * ent B' a k else 0)))%Z.
    2:{ intros a Ha. destruct (a =? i)%nat, ((i =? kappa)%nat && (a <? kappa)%nat); ring. }
    rewrite zsum_minus, (zsum_delta n i (fun a => ent B' a k)) by auto. destruct (Nat.eqb_spec i kappa) as [->|N]; cbn [andb].
    + rewrite Hx by auto. rewrite (zsum_trunc kappa n) by (try lia; intros a Ha; destruct (Nat.ltb_spec a kappa); try lia; auto).
      rewrite (zsum_ext kappa (fun i => if (i <? kappa)%nat then x i * ent B' i k else 0)%Z (fun a => x a * ent B a k)%Z); [ring|].
      intros a Ha. destruct (Nat.ltb_spec a kappa); [|lia]. unfold ent. rewrite H1 by lia. auto.
    + rewrite zsum_0 by auto. unfold ent. rewrite H1 by lia. ring.
Qed.

Lemma row_changed_refl B kappa : row_changed B B kappa.
Proof. split; auto. exists (fun _ => 0%Z). intros k Hk. rewrite zsum_0 by (intros; ring). ring. Qed.
Lemma row_changed_trans B B' B'' kappa : length B' = length B -> (kappa < length B)%nat -> row_changed B B' kappa -> row_changed B' B'' kappa -> row_changed B B'' kappa.
Proof.
  intros HL Hk [A1 [x Hx]] [B1 [y Hy]]. split; [intros; rewrite B1 by (auto; lia); auto|].
  exists (fun a => x a + y a)%Z. intros k Hkc. rewrite Hy, Hx by auto.
  rewrite (zsum_ext kappa (fun a => (x a + y a) * ent B a k)%Z (fun a => x a * ent B a k + y a * ent B a k)%Z) by (intros; ring).
  rewrite zsum_plus. rewrite (zsum_ext kappa (fun a => y a * ent B' a k)%Z (fun a => y a * ent B a k)%Z); [ring|].
  intros a Ha. unfold ent. rewrite A1 by lia. auto.
Qed.

(** ** inserting row old at position k *)
Definition inserted (B B' : list (list Z)) (old k : nat) : Prop :=
  nth k B' [] = nth old B [] /\ (forall a, (a < k)%nat -> nth a B' [] = nth a B []) /\
  (forall a, (k < a <= old)%nat -> nth a B' [] = nth (a - 1) B []) /\
  (forall a, (old < a < length B)%nat -> nth a B' [] = nth a B []).

Lemma gram_det_outside B B' old k n : inserted B B' old k -> (k <= old)%nat -> (n <= length B)%nat -> (n <= k \/ old < n)%nat ->
  gram_det c B' n = gram_det c B n.
Proof.
  intros (I1 & I2 & I3 & I4) Hk Hn [H|H].
  - apply gram_det_same. intros; apply I2; lia.
  - apply (gram_det_perm n (fun i => if (i =? k)%nat then old else if (k <? i)%nat && (i <=? old)%nat then (i - 1)%nat else i)
                           (fun i => if (i =? old)%nat then k else if (k <=? i)%nat && (i <? old)%nat then S i else i)).
    + intros i Hi. destruct (Nat.eqb_spec i k) as [->|N]; [rewrite Nat.eqb_refl; lia|].
      destruct (Nat.ltb_spec k i), (Nat.leb_spec i old); cbn [andb]; split; try lia;
        (destruct (Nat.eqb_spec (i - 1) old), (Nat.eqb_spec i old), (Nat.leb_spec k (i - 1)), (Nat.ltb_spec (i - 1) old), (Nat.leb_spec k i), (Nat.ltb_spec i old); cbn [andb]; lia).
    + intros i Hi. destruct (Nat.eqb_spec i old) as [->|N]; [rewrite Nat.eqb_refl; lia|].
      destruct (Nat.leb_spec k i), (Nat.ltb_spec i old); cbn [andb]; split; try lia;
        (destruct (Nat.eqb_spec (S i) k), (Nat.eqb_spec i k), (Nat.ltb_spec k (S i)), (Nat.leb_spec (S i) old), (Nat.ltb_spec k i), (Nat.leb_spec i old); cbn [andb]; lia).
    + intros i Hi. destruct (Nat.eqb_spec i k) as [->|N]; auto.
      destruct (Nat.ltb_spec k i), (Nat.leb_spec i old); cbn [andb]; try (apply I2; lia); try (apply I3; lia); try (apply I4; lia).
Qed.

Lemma gram_det_inside B B' old k n : inserted B B' old k -> (k < n <= old)%nat -> (old < length B)%nat ->
  Qcz (gram_det c B' n) = Qcz (gram_det c B (n - 1)) * qproj c B old (n - 1).
Proof.
  intros (I1 & I2 & I3 & I4) Hn Ho.
  set (C := map (fun a => nth (if (a <? n - 1)%nat then a else old) B []) (seq 0 n)).
  assert (HC : forall a, (a < n)%nat -> nth a C [] = nth (if (a <? n - 1)%nat then a else old) B []).
  { intros a Ha. unfold C. rewrite map_nth_lt with (d := O) by (rewrite seq_length; lia). rewrite seq_nth by lia. reflexivity. }
  assert (HC1 : forall a, (a < n - 1)%nat -> nth a C [] = nth a B []).
  { intros a Ha. rewrite HC by lia. destruct (Nat.ltb_spec a (n - 1)); [auto|lia]. }
  assert (HC2 : nth (n - 1) C [] = nth old B []). { rewrite HC by lia. rewrite Nat.ltb_irrefl. auto. }
  transitivity (Qcz (gram_det c C n)).
  - f_equal.
    apply (gram_det_perm n (fun i => if (i =? k)%nat then (n - 1)%nat else if (k <? i)%nat then (i - 1)%nat else i)
                           (fun i => if (i =? n - 1)%nat then k else if (k <=? i)%nat then S i else i)).
    + intros i Hi. destruct (Nat.eqb_spec i k) as [->|N]; [rewrite Nat.eqb_refl; lia|].
      destruct (Nat.ltb_spec k i); split; try lia;
        (destruct (Nat.eqb_spec (i - 1) (n - 1)), (Nat.eqb_spec i (n - 1)), (Nat.leb_spec k (i - 1)), (Nat.leb_spec k i); lia).
    + intros i Hi. destruct (Nat.eqb_spec i (n - 1)) as [->|N]; [rewrite Nat.eqb_refl; lia|].
      destruct (Nat.leb_spec k i); split; try lia;
        (destruct (Nat.eqb_spec (S i) k), (Nat.eqb_spec i k), (Nat.ltb_spec k (S i)), (Nat.ltb_spec k i); lia).
    + intros i Hi. destruct (Nat.eqb_spec i k) as [->|N]; [rewrite HC2; auto|].
      destruct (Nat.ltb_spec k i).
      * rewrite HC1 by lia. apply I3. lia.
      * rewrite HC1 by lia. apply I2. lia.
  - rewrite gram_det_prod. replace n with (S (n - 1)) at 1 by lia. cbn [qprod]. rewrite (qR_proj c B C old) by auto.
    f_equal. rewrite gram_det_prod. apply qprod_ext. intros i Hi. apply qR_same; auto. intros a Ha. apply HC1. lia.
Qed.

Lemma gram_det_step B n : Qcz (gram_det c B (S n)) = Qcz (gram_det c B n) * qR c B n n.
Proof. rewrite !gram_det_prod. reflexivity. Qed.

(** projecting on fewer vectors does not shorten *)
Lemma qproj_le B k i j : (i <= j)%nat -> (j <= k)%nat -> qproj c B k j <= qproj c B k i.
Proof.
  intros Hi. induction Hi as [|j Hi IH]; intros Hj; [apply Qcle_refl|]. eapply Qcle_trans; [|apply IH; lia].
  rewrite qproj_S by lia. pose proof (qR_nonneg c B j). set (m := qM c B k j). set (r := qR c B j j) in *. set (p := qproj c B k j). clearbody m r p. qcnra.
Qed.

(** all Gram determinants positive *)
Definition all_pos (B : list (list Z)) (d : nat) : Prop := forall j, (j < d)%nat -> 0 < qR c B j j.

Lemma all_pos_det B d n : all_pos B d -> (n <= d)%nat -> 0 < Qcz (gram_det c B n).
Proof. intros H Hn. rewrite gram_det_prod. apply qprod_pos. intros; apply H; lia. Qed.
Lemma det_all_pos B d : (forall n, (n <= d)%nat -> 0 < Qcz (gram_det c B n)) -> all_pos B d.
Proof.
  intros H j Hj. pose proof (H j ltac:(lia)) as A. pose proof (H (S j) ltac:(lia)) as A'. rewrite gram_det_step in A'.
  pose proof (qR_nonneg c B j). set (x := Qcz _) in *. set (y := qR c B j j) in *. clearbody x y. qcnra.
Qed.
Lemma all_pos_ge1 B d : all_pos B d -> 1 <= potential c B d.
Proof.
  intros H. unfold potential. assert (A : forall n, (n <= d)%nat -> 1 <= qprod n (fun i => Qcz (gram_det c B i))).
  { induction n as [|n IH]; intros Hn; cbn [qprod]; [apply Qcle_refl|]. specialize (IH ltac:(lia)).
    assert (1 <= Qcz (gram_det c B n)). { rewrite <- Qcz_1. apply Qcz_le. pose proof (all_pos_det B d n H ltac:(lia)) as A. rewrite <- Qcz_0 in A. apply (proj1 (Qcz_lt 0 (gram_det c B n))) in A. lia. }
    set (x := qprod _ _) in *. set (y := Qcz _) in *. clearbody x y. qcnra. }
  apply A. auto.
Qed.

Lemma row_changed_pos B B' kappa d : row_changed B B' kappa -> (d <= length B)%nat -> all_pos B d -> all_pos B' d.
Proof. intros H Hd HA. apply det_all_pos. intros n Hn. rewrite (gram_det_row B B' kappa n) by (auto; lia). apply (all_pos_det B d); auto. Qed.
Lemma row_changed_pot B B' kappa d : row_changed B B' kappa -> (d <= length B)%nat -> potential c B' d = potential c B d.
Proof. intros H Hd. unfold potential. apply qprod_ext. intros n Hn. rewrite (gram_det_row B B' kappa n) by (auto; lia). auto. Qed.

Lemma inserted_pos B B' old k d : inserted B B' old k -> (k <= old)%nat -> (old < d)%nat -> (d <= length B)%nat -> all_pos B d -> all_pos B' d.
Proof.
  intros H Hk Ho Hd HA. apply det_all_pos. intros n Hn. destruct (Nat.le_gt_cases n k) as [N|N]; [|destruct (Nat.le_gt_cases n old) as [N2|N2]].
  - rewrite (gram_det_outside B B' old k n) by (auto; lia). apply (all_pos_det B d); auto.
  - rewrite (gram_det_inside B B' old k n) by (auto; lia). pose proof (all_pos_det B d (n - 1) HA ltac:(lia)) as A.
    assert (A2 : 0 < qproj c B old (n - 1)).
    { apply Qclt_le_trans with (qproj c B old old); [rewrite qproj_diag; apply HA; lia|apply qproj_le; lia]. }
    set (x := Qcz _) in *. set (y := qproj _ _ _ _) in *. clearbody x y. qcnra.
  - rewrite (gram_det_outside B B' old k n) by (auto; lia). apply (all_pos_det B d); auto.
Qed.

Lemma inserted_pot delta B B' old k d : 0 < delta -> inserted B B' old k -> (k <= old)%nat -> (old < d)%nat -> (d <= length B)%nat -> all_pos B d ->
  (forall i, (k < i <= old)%nat -> qproj c B old (i - 1) <= delta * qR c B (i - 1) (i - 1)) ->
  potential c B' d <= delta ^ (old - k) * potential c B d.
Proof.
  intros Hdel H Hk Ho Hd HA HP. unfold potential. apply (qprod_drop delta _ _ k); auto; try lia.
  - intros i Hi. apply (all_pos_det B d); auto. lia.
  - intros i Hi. apply (all_pos_det B' d); [|lia]. eapply inserted_pos; eauto.
  - intros i Hi Hr. rewrite (gram_det_outside B B' old k i) by (auto; lia). auto.
  - intros i Hi. rewrite (gram_det_inside B B' old k i) by (auto; lia). specialize (HP i ltac:(lia)).
    replace (gram_det c B i) with (gram_det c B (S (i - 1))) by (f_equal; lia). rewrite gram_det_step.
    pose proof (all_pos_det B d (i - 1) HA ltac:(lia)). set (x := Qcz _) in *. set (y := qproj _ _ _ _) in *. set (r := qR _ _ _ _) in *. clearbody x y r. qcnra.
Qed.

(** ** size of the potential *)
Lemma gram_det_bound B N n : 0 <= N -> (forall i, (i < n)%nat -> gq c B i i <= N) -> Qcz (gram_det c B n) <= N ^ n.
Proof.
  intros HN H. rewrite gram_det_prod. induction n as [|n IH]; cbn [qprod Qcpower]; [apply Qcle_refl|].
  specialize (IH ltac:(auto)).
  assert (A : qR c B n n <= N). { rewrite <- qproj_diag. eapply Qcle_trans; [apply (qproj_le B n 0 n); lia|]. rewrite qproj_0. auto. }
  pose proof (qR_nonneg c B n). assert (0 <= qprod n (fun j => qR c B j j)).
  { apply (qprod_le n _ (fun j => qR c B j j)). intros. split; [apply qR_nonneg|apply Qcle_refl]. }
  set (x := qprod _ _) in *. set (y := qR _ _ _ _) in *. set (p := N ^ n) in *. clearbody x y p. qcnra.
Qed.

Fixpoint tri (n : nat) : nat := match n with O => O | S m => (tri m + m)%nat end.
Lemma tri_eq n : (2 * tri n = n * (n - 1))%nat.
Proof. induction n as [|n IH]; [auto|]. cbn [tri]. destruct n; [auto|]. nia. Qed.

Lemma Qcpower_add (x : Qc) m n : x ^ (m + n) = x ^ m * x ^ n.
Proof. induction m as [|m IH]; cbn [Nat.add Qcpower]; [ring|]. rewrite IH. ring. Qed.

Lemma potential_bound B N d : 0 <= N -> all_pos B d -> (forall i, (i < d)%nat -> gq c B i i <= N) -> potential c B d <= N ^ tri d.
Proof.
  intros HN HA H. unfold potential.
  assert (A : forall n, (n <= d)%nat -> 0 <= qprod n (fun i => Qcz (gram_det c B i)) /\ qprod n (fun i => Qcz (gram_det c B i)) <= N ^ tri n).
  { induction n as [|n IH]; intros Hn; cbn [qprod tri]; [split; [discriminate|apply Qcle_refl]|]. destruct IH as [I1 I2]; [lia|].
    pose proof (gram_det_bound B N n HN ltac:(intros; apply H; lia)) as G. pose proof (all_pos_det B d n HA ltac:(lia)) as G2. rewrite Qcpower_add.
    set (x := qprod _ _) in *. set (y := Qcz _) in *. set (p := N ^ tri n) in *. set (q := N ^ n) in *. clearbody x y p q. split; [qcnra|]. assert (x * y <= p * y) by qcnra. assert (p * y <= p * q) by qcnra. qclra. }
  apply A. auto.
Qed.
End S.
