(** C42: the generators produce matrices of the documented shape, for all random
    streams and whatever the matrix held before. *)
From Coq Require Import List ZArith Lia Arith Bool.
From Verif Require Import Util NumVectModel NumVectProofs MatrixModel MatrixProofs MatStore PropMatrix GenModel GenProofs.
Import ListNotations.
Local Open Scope nat_scope.

(** ** Specification *)
(** m is an r x c matrix with entry (i,j) = f i j *)
Definition is_mat (m : mat (T := Z)) (r c : nat) (f : nat -> nat -> Z) : Prop :=
  mr m = r /\ mc m = c /\ forall i j, i < r -> j < c -> mget (ms m) i j = Some (f i j).

Fixpoint zsum (n : nat) (f : nat -> Z) : Z := match n with 0 => 0%Z | S k => (zsum k f + f k)%Z end.
Fixpoint zprod (n : nat) (f : nat -> Z) : Z := match n with 0 => 1%Z | S k => (zprod k f * f k)%Z end.
(** determinant, by expansion along the first row *)
Definition minor (f : nat -> nat -> Z) (j : nat) : nat -> nat -> Z := fun a b => f (S a) (if b <? j then b else S b).
Fixpoint zdet (n : nat) (f : nat -> nat -> Z) : Z :=
  match n with
  | 0 => 1%Z
  | S k => zsum (S k) (fun j => ((-1) ^ Z.of_nat j * f 0%nat j * zdet k (minor f j))%Z)
  end.
(** the r rows are linearly independent *)
Definition independent (r c : nat) (f : nat -> nat -> Z) : Prop :=
  forall a : nat -> Z, (forall j, j < c -> zsum r (fun i => (a i * f i j)%Z) = 0%Z) -> forall i, i < r -> a i = 0%Z.
Definition kron (i j : nat) (v : Z) : Z := if i =? j then v else 0%Z.

(** ** Determinants of triangular matrices *)
Lemma zsum_ext n f g : (forall i, i < n -> f i = g i) -> zsum n f = zsum n g.
Proof. induction n; intros H; cbn [zsum]; auto. rewrite IHn by (intros; apply H; lia). rewrite H by lia. auto. Qed.
Lemma zsum_zero n f : (forall i, i < n -> f i = 0%Z) -> zsum n f = 0%Z.
Proof. induction n; intros H; cbn [zsum]; auto. rewrite IHn by (intros; apply H; lia). rewrite H by lia. auto. Qed.
Lemma zsum_single n f k : k < n -> (forall i, i < n -> i <> k -> f i = 0%Z) -> zsum n f = f k.
Proof.
  induction n; intros Hk H; [lia|]. cbn [zsum]. destruct (Nat.eq_dec k n).
  - subst. rewrite zsum_zero by (intros; apply H; lia). lia.
  - rewrite IHn by (try lia; intros; apply H; lia). rewrite (H n) by lia. lia.
Qed.
Lemma zprod_ext n f g : (forall i, i < n -> f i = g i) -> zprod n f = zprod n g.
Proof. induction n; intros H; cbn [zprod]; auto. rewrite IHn by (intros; apply H; lia). rewrite H by lia. auto. Qed.
Lemma zprod_head n f : zprod (S n) f = (f 0%nat * zprod n (fun i => f (S i)))%Z.
Proof. induction n; [cbn [zprod]; ring|]. cbn [zprod] in *. rewrite IHn. ring. Qed.
Lemma zprod_const n v : zprod n (fun _ => v) = (v ^ Z.of_nat n)%Z.
Proof. induction n; [reflexivity|]. cbn [zprod]. rewrite IHn, Nat2Z.inj_succ, Z.pow_succ_r by lia. ring. Qed.
Lemma zprod_add a b f : zprod (a + b) f = (zprod a f * zprod b (fun i => f (a + i)%nat))%Z.
Proof. induction b; [cbn [zprod]; rewrite Nat.add_0_r; ring|]. rewrite Nat.add_succ_r. cbn [zprod]. rewrite IHb. ring. Qed.
Lemma zdet_lower n : forall f, (forall i j, i < j < n -> f i j = 0%Z) -> zdet n f = zprod n (fun i => f i i).
Proof.
  induction n; intros f H; auto. cbn [zdet]. rewrite (zsum_single (S n) _ 0); [|lia|].
  - change ((-1) ^ Z.of_nat 0)%Z with 1%Z. rewrite IHn.
    + rewrite zprod_head. unfold minor. rewrite (zprod_ext n _ (fun i => f (S i) (S i))); [ring|]. intros; auto.
    + intros i j Hij. unfold minor. cbn [Nat.ltb Nat.leb]. apply H. lia.
  - intros j Hj Hn. rewrite (H 0 j) by lia. ring.
Qed.
Lemma zdet_zero_col n : forall f k, k < n -> (forall i, i < n -> f i k = 0%Z) -> zdet n f = 0%Z.
Proof.
  induction n; intros f k Hk H; [lia|]. cbn [zdet]. apply zsum_zero. intros j Hj.
  destruct (Nat.eq_dec j k).
  - subst. rewrite H by lia. ring.
  - destruct n; [lia|]. rewrite (IHn (minor f j) (if k <? j then k else k - 1)).
    + ring.
    + destruct (Nat.ltb_spec k j); lia.
    + intros i Hi. unfold minor. rewrite <- (H (S i)) by lia. f_equal. destruct (Nat.ltb_spec k j).
      * destruct (Nat.ltb_spec k j); lia.
      * destruct (Nat.ltb_spec (k - 1) j); lia.
Qed.
Lemma zdet_upper n : forall f, (forall i j, j < i < n -> f i j = 0%Z) -> zdet n f = zprod n (fun i => f i i).
Proof.
  induction n; intros f H; auto. cbn [zdet]. rewrite (zsum_single (S n) _ 0); [|lia|].
  - change ((-1) ^ Z.of_nat 0)%Z with 1%Z. rewrite IHn.
    + rewrite zprod_head. unfold minor. rewrite (zprod_ext n _ (fun i => f (S i) (S i))); [ring|]. intros; auto.
    + intros i j Hij. unfold minor. cbn [Nat.ltb Nat.leb]. apply H. lia.
  - intros j Hj Hn. destruct n; [lia|]. rewrite (zdet_zero_col (S n) (minor f j) 0); [ring|lia|].
    intros i Hi. unfold minor. destruct (Nat.ltb_spec 0 j); [|lia]. apply H. lia.
Qed.

(** check of the definition on a full matrix *)
Example ex_zdet : zdet 3 (fun i j => nth j (nth i [[2; 0; 1]; [1; 3; 2]; [1; 1; 1]]%Z []) 0%Z) = 0%Z /\
  zdet 3 (fun i j => nth j (nth i [[2; -1; 1]; [1; 3; 2]; [1; 1; 1]]%Z []) 0%Z) = (-1)%Z.
Proof. vm_compute. auto. Qed.

(** ** From tables to matrices *)
Lemma stored_defd m : stored m -> defd (mr m) (mc m) (ms m).
Proof. intros [_ H]. exact H. Qed.
Lemma done_of m g T (f : nat -> nat -> Z) : stored m -> writes (mr m) (mc m) g T ->
  (forall i j, i < mr m -> j < mc m -> T i j = Some (f i j)) ->
  exists m', gdone m (g (ms m)) = GDone m' /\ stored m' /\ is_mat m' (mr m) (mc m) f.
Proof.
  intros HS HW HT. destruct (w_full _ _ g T HW) with (M := ms m) as [M' [E [L [D G]]]].
  - intros x y Hx Hy. rewrite HT by auto. congruence.
  - now apply stored_defd.
  - rewrite E. eexists. split; [reflexivity|]. destruct HS as [S1 S2]. split; [split; cbn [mr mc ms]; [lia|exact D]|].
    split; auto. split; auto. intros i j Hi Hj. cbn [ms]. rewrite G by auto. auto.
Qed.
Lemma w_tab r c f W V : writes r c f W -> (forall x y, V x y = W x y) -> writes r c f V.
Proof. intros H E. eapply writes_ext; eauto. Qed.
Ltac use_done m F :=
  match goal with |- context [gdone m ?X] =>
    let g := eval pattern (ms m) in X in
    match g with ?G _ => edestruct (done_of m G) with (f := F) as [m' [E [S' I']]] end
  end.
Lemma draw_range n x : (0 < n)%Z -> (0 <= draw n x < n)%Z.
Proof. intros H. apply Z.mod_pos_bound. auto. Qed.
Lemma pow2_pos b : (0 < 2 ^ Z.of_nat b)%Z.
Proof. apply Z.pow_pos_nonneg; lia. Qed.
Lemma randm_some n x : (0 < n)%Z -> randm n x = Some (draw n x).
Proof. intros H. unfold randm. destruct (Z.leb_spec n 0); [lia|auto]. Qed.

Section Rnd.
Variable rnd : nat -> nat -> Z.

(** ** gen_intrel: [ random | I ] *)
Theorem gen_intrel_shape :
  forall m bits, stored m -> mc m = mr m + 1 ->
    exists m' x, gen_intrel rnd m bits = GDone m' /\ stored m' /\
      is_mat m' (mr m) (mr m + 1) (fun i j => if j =? 0 then x i else kron j (i + 1) 1) /\
      (forall i, 0 <= x i < 2 ^ Z.of_nat bits)%Z /\
      independent (mr m) (mr m + 1) (fun i j => if j =? 0 then x i else kron j (i + 1) 1).
Proof.
  intros m bits HS HC. unfold gen_intrel. replace (mc m =? mr m + 1) with true by (symmetry; now apply Nat.eqb_eq). cbn [negb].
  set (x := fun i => draw (2 ^ Z.of_nat bits) (rnd i 0)).
  set (f := fun i j => if j =? 0 then x i else kron j (i + 1) 1).
  use_done m f.
  - exact HS.
  - apply (w_for (mr m) (mc m)) with (W := fun i => fun a b => if (a =? i) && (b <? mc m) then Some (f i b) else None)
      (T := fun a b => if (a <? mr m) && (b <? mc m) then Some (f a b) else None).
    + intros i Hi. eapply w_tab.
      * eapply w_seq; [apply (w_put _ _ i 0); lia|]. eapply w_seq; [apply (w_row _ _ i 1 (i + 1) (fun _ => 0%Z)); lia|].
        eapply w_seq; [apply (w_put _ _ i (i + 1)); lia|]. apply (w_row _ _ i (i + 2) (mc m) (fun _ => 0%Z)); lia.
      * intros a b. unfold over, f, kron. nb; subst; auto.
    + intros i a b v Hi. nb; try discriminate; subst; auto.
    + intros a b v. nb; try discriminate. intros [= <-]. exists a. split; [lia|]. nb; auto.
  - intros i j Hi Hj. cbn beta. nb; auto.
  - exists m', x. rewrite HC in I'. split; [exact E|]. split; auto. split; auto. split; [intros i; apply draw_range, pow2_pos|].
    intros a Ha i Hi. specialize (Ha (i + 1) ltac:(lia)). rewrite (zsum_single _ _ i) in Ha; auto.
    + unfold kron in Ha. destruct (Nat.eqb_spec (i + 1) 0); [lia|]. rewrite Nat.eqb_refl in Ha. lia.
    + intros k Hk Hn. unfold kron. destruct (Nat.eqb_spec (i + 1) 0); [lia|]. destruct (Nat.eqb_spec (i + 1) (k + 1)); lia.
Qed.

(** ** gen_simdioph.  Column 0 below the first row is never written: the shape
    holds when it is zero before. *)
Theorem gen_simdioph_shape :
  forall m bits bits2, stored m -> mc m = mr m -> 0 < mr m ->
    (forall i, 0 < i < mr m -> mget (ms m) i 0 = Some 0%Z) ->
    exists m' x, gen_simdioph rnd m bits bits2 = GDone m' /\ stored m' /\
      is_mat m' (mr m) (mr m) (fun i j => if i =? 0 then (if j =? 0 then (2 ^ Z.of_nat bits2)%Z else x j) else kron i j (2 ^ Z.of_nat bits)) /\
      (forall i, 0 <= x i < 2 ^ Z.of_nat bits)%Z /\
      zdet (mr m) (fun i j => if i =? 0 then (if j =? 0 then (2 ^ Z.of_nat bits2)%Z else x j) else kron i j (2 ^ Z.of_nat bits)) =
        (2 ^ Z.of_nat bits2 * (2 ^ Z.of_nat bits) ^ Z.of_nat (mr m - 1)%nat)%Z.
Proof.
  intros m bits bits2 HS HC HR HZ. unfold gen_simdioph. replace (mc m =? mr m) with true by (symmetry; now apply Nat.eqb_eq). cbn [negb].
  set (x := fun i => draw (2 ^ Z.of_nat bits) (rnd 0 i)).
  set (f := fun i j => if i =? 0 then (if j =? 0 then (2 ^ Z.of_nat bits2)%Z else x j) else kron i j (2 ^ Z.of_nat bits)).
  assert (W : writes (mr m) (mc m) (fun M0 =>
      M1 <- mset M0 0 0 (2 ^ Z.of_nat bits2)%Z;;
      M2 <- gfor 1 (mr m) (fun i M => mset M 0 i (draw (2 ^ Z.of_nat bits) (rnd 0 i))) M1;;
      gfor 1 (mr m) (fun i M =>
        N1 <- gfor 1 i (fun j M => mset M j i 0%Z) M;;
        N2 <- mset N1 i i (2 ^ Z.of_nat bits)%Z;;
        gfor (i + 1) (mc m) (fun j M => mset M j i 0%Z) N2) M2)
     (fun a b => if (a <? mr m) && (b <? mr m) && ((a =? 0) || (0 <? b)) then Some (f a b) else None)).
  { eapply w_tab.
    - eapply w_seq; [apply (w_put _ _ 0 0); lia|].
      eapply w_seq; [apply (w_row _ _ 0 1 (mr m) (fun i => draw (2 ^ Z.of_nat bits) (rnd 0 i))); lia|].
      apply (w_for (mr m) (mc m)) with (W := fun i => fun a b => if (b =? i) && (1 <=? a) && (a <? mr m) then Some (f a i) else None)
        (T := fun a b => if (1 <=? b) && (b <? mr m) && (1 <=? a) && (a <? mr m) then Some (f a b) else None).
      + intros i Hi. eapply w_tab.
        * eapply w_seq; [apply (w_col _ _ i 1 i (fun _ => 0%Z)); lia|]. eapply w_seq; [apply (w_put _ _ i i); lia|].
          apply (w_col _ _ i (i + 1) (mc m) (fun _ => 0%Z)); lia.
        * intros a b. unfold over, f, kron. nb; subst; auto.
      + intros i a b v Hi. nb; try discriminate; subst; auto.
      + intros a b v. nb; try discriminate. intros [= <-]. exists b. split; [lia|]. nb; auto.
    - intros a b. unfold over, f. nb; subst; auto. }
  destruct (W (ms m) (stored_defd m HS)) as [M' [E [L G]]]. rewrite E. cbn [gdone].
  pose proof (writes_defd _ _ _ _ _ _ W (stored_defd m HS) E) as D.
  eexists. exists x. split; [reflexivity|]. destruct HS as [S1 S2]. split; [split; cbn [mr mc ms]; [lia|exact D]|].
  split; [|split].
  - split; auto. split; auto. intros i j Hi Hj. cbn [ms]. rewrite G. unfold over, f, kron. nb; try reflexivity; subst.
    all: replace j with 0 by lia; apply HZ; lia.
  - intros i. apply draw_range, pow2_pos.
  - rewrite zdet_upper.
    + destruct (mr m) as [|r']; [lia|]. rewrite zprod_head. cbn [Nat.eqb]. f_equal. rewrite Nat.sub_succ, Nat.sub_0_r, <- (zprod_const r' (2 ^ Z.of_nat bits)).
      apply zprod_ext. intros i Hi. unfold kron. now rewrite Nat.eqb_refl.
    + intros i j Hij. destruct (Nat.eqb_spec i 0); [lia|]. unfold kron. destruct (Nat.eqb_spec i j); lia.
Qed.

(** ** gen_uniform *)
Theorem gen_uniform_shape :
  forall m bits, stored m -> mc m = mr m ->
    exists m' x, gen_uniform rnd m bits = GDone m' /\ stored m' /\ is_mat m' (mr m) (mr m) x /\
      (forall i j, 0 <= x i j < 2 ^ Z.of_nat bits)%Z.
Proof.
  intros m bits HS HC. unfold gen_uniform. replace (mc m =? mr m) with true by (symmetry; now apply Nat.eqb_eq). cbn [negb].
  set (x := fun i j => draw (2 ^ Z.of_nat bits) (rnd i j)).
  use_done m x.
  - exact HS.
  - apply (w_rect _ _ 0 (mr m) 0 (mc m) x); lia.
  - intros i j Hi Hj. cbn beta. nb; auto.
  - exists m', x. rewrite HC in I'. split; [exact E|]. split; auto. split; auto. intros i j. apply draw_range, pow2_pos.
Qed.

(** ** The vector h: entries modulo q with h(1) = 0 modulo q *)
Definition is_h (h : list Z) (d : nat) (q : Z) : Prop :=
  length h = d /\ (forall i, i < d -> (0 <= nth i h 0 < q)%Z) /\ (zsum d (fun i => nth i h 0%Z) mod q = 0)%Z.

Lemma zsum_upd0 n h v : 0 < n -> 0 < length h ->
  zsum n (fun i => nth i (upd h 0 v) 0%Z) = (zsum n (fun i => nth i h 0) - nth 0%nat h 0 + v)%Z.
Proof.
  intros Hn Hl. induction n; [lia|]. cbn [zsum]. rewrite (nth_upd h).
  destruct n; [cbn [zsum Nat.eqb andb]; destruct (Nat.ltb_spec 0 (length h)); lia|]. rewrite IHn by lia. cbn [Nat.eqb andb]. lia.
Qed.

Lemma gen_h_ok d q : (0 < q)%Z -> 0 < d -> exists h, gen_h rnd d q = Some h /\ is_h h d q.
Proof.
  intros Hq Hd. unfold gen_h. destruct d as [|d']; [lia|]. set (d := S d') in *. unfold gfor.
  edestruct (ofor_inv (fun k (h : list Z) => length h = d /\ (forall i, i < d -> (0 <= nth i h 0 < q)%Z) /\
     (forall i, k <= i < d -> nth i h 0%Z = 0%Z) /\ (zsum d (fun i => nth i h 0) mod q = 0)%Z)) with (n := d - 1) (a := 1) (s := repeat 0%Z d)
    (f := fun i (h : list Z) => hi <- randm q (rnd i 0);;
      h1 <- (if i <? length h then Some (upd h i hi) else None);;
      h0 <- nth_error h1 0;;
      let x := (h0 - hi)%Z in
      Some (upd h1 0 (if (x <? 0)%Z then (x + q)%Z else x))) as [h [E [L [B [_ S0]]]]].
  - split; [apply repeat_length|]. assert (Z0 : forall i, nth i (repeat 0%Z d) 0%Z = 0%Z) by (intros; apply nth_repeat).
    split; [intros; rewrite Z0; lia|]. split; [auto|]. rewrite zsum_zero by auto. apply Z.mod_0_l. lia.
  - intros k h Hk [L [B [Zk S0]]]. cbn beta. rewrite randm_some by auto. cbn [obind].
    pose proof (draw_range q (rnd k 0) Hq) as Dr. set (hi := draw q (rnd k 0)) in *. rewrite L.
    destruct (Nat.ltb_spec k d); [|lia]. cbn [obind].
    assert (N0 : nth 0 (upd h k hi) 0%Z = nth 0 h 0%Z).
    { rewrite nth_upd. destruct (Nat.eqb_spec 0 k); [lia|auto]. }
    assert (LU : length (upd h k hi) = d) by (now rewrite upd_length).
    rewrite (nth_error_nth' (upd h k hi) 0%Z) by lia. cbn [obind]. rewrite N0.
    set (v := if (nth 0%nat h 0 - hi <? 0)%Z then (nth 0%nat h 0 - hi + q)%Z else (nth 0%nat h 0 - hi)%Z).
    assert (Hv : (0 <= v < q)%Z). { pose proof (B 0 ltac:(lia)). unfold v. destruct (Z.ltb_spec (nth 0 h 0%Z - hi) 0); lia. }
    eexists. split; [reflexivity|]. split; [rewrite upd_length; auto|]. split; [|split].
    + intros i Hi. rewrite !nth_upd. rewrite LU, L.
      destruct ((i =? 0) && (0 <? d)); [auto|]. destruct ((i =? k) && (k <? d)); auto.
    + intros i Hi. rewrite !nth_upd. rewrite LU, L. destruct (Nat.eqb_spec i 0); [lia|]. destruct (Nat.eqb_spec i k); [lia|].
      cbn [andb]. apply Zk. lia.
    + rewrite zsum_upd0 by lia. rewrite N0.
      assert (SU : zsum d (fun i => nth i (upd h k hi) 0%Z) = (zsum d (fun i => nth i h 0) + hi)%Z).
      { assert (Gn : forall n, n <= d -> zsum n (fun i => nth i (upd h k hi) 0%Z) = (zsum n (fun i => nth i h 0) + if (k <? n)%nat then hi else 0)%Z).
        { induction n; intros Hn; [cbn; lia|]. cbn [zsum]. rewrite IHn by lia. rewrite nth_upd, L.
          destruct (Nat.eqb_spec n k); destruct (Nat.ltb_spec k d); destruct (Nat.ltb_spec k n); destruct (Nat.ltb_spec k (S n)); cbn [andb]; try lia.
          subst. rewrite Zk by lia. lia. }
        rewrite Gn by lia. destruct (Nat.ltb_spec k d); lia. }
      rewrite SU. set (s := zsum d (fun i => nth i h 0%Z)) in *.
      assert (V : exists e, (v = nth 0%nat h 0 - hi + e * q)%Z).
      { unfold v. destruct (Z.ltb_spec (nth 0 h 0%Z - hi) 0); [exists 1%Z|exists 0%Z]; lia. }
      destruct V as [e V]. replace (s + hi - nth 0%nat h 0 + v)%Z with (s + e * q)%Z by lia. rewrite Z.mod_add by lia. exact S0.
  - exists h. split; [exact E|]. split; auto.
Qed.

Lemma wrap_ok d : (0 < d)%Z -> forall fuel k, (- k < Z.of_nat fuel)%Z -> (k < d)%Z -> wrap fuel k d = Some (k mod d)%Z.
Proof.
  intros Hd. induction fuel as [|fuel IH]; intros k Hf Hk; cbn [wrap]; destruct (Z.ltb_spec k 0); try lia.
  - now rewrite Z.mod_small by lia.
  - rewrite IH by lia. f_equal. replace (k + d)%Z with (k + 1 * d)%Z by lia. now rewrite Z.mod_add by lia.
  - now rewrite Z.mod_small by lia.
Qed.
Lemma hval_ok h d q k : is_h h d q -> 0 < d -> (k < Z.of_nat d)%Z ->
  hval h k d = Some (nth (Z.to_nat (k mod Z.of_nat d)) h 0%Z).
Proof.
  intros [L _] Hd Hk. unfold hval. rewrite wrap_ok by lia. cbn [obind].
  pose proof (Z.mod_pos_bound k (Z.of_nat d) ltac:(lia)). apply nth_error_nth'. lia.
Qed.

(** the circulant matrix of h: entry (i,j) is h[(j - i) mod d] *)
Definition circ (h : list Z) (d i j : nat) : Z := nth (Z.to_nat ((Z.of_nat j - Z.of_nat i) mod Z.of_nat d)) h 0%Z.

(** ** gen_ntrulike: [[I, H], [0, qI]] *)
Theorem gen_ntrulike_shape :
  forall m d q, stored m -> mr m = 2 * d -> mc m = 2 * d -> 0 < d -> (0 < q)%Z ->
    exists m' h, gen_ntrulike rnd m q = GDone m' /\ stored m' /\ is_h h d q /\
      is_mat m' (2 * d) (2 * d) (fun i j => if i <? d then (if j <? d then kron i j 1 else circ h d i (j - d))
                                            else (if j <? d then 0%Z else kron i j q)) /\
      zdet (2 * d) (fun i j => if i <? d then (if j <? d then kron i j 1 else circ h d i (j - d))
                               else (if j <? d then 0%Z else kron i j q)) = (q ^ Z.of_nat d)%Z.
Proof.
  intros m d q HS HR HC Hd Hq. unfold gen_ntrulike.
  assert (D2 : mr m / 2 = d) by (rewrite HR, Nat.mul_comm; apply Nat.div_mul; lia). rewrite D2.
  replace (mc m =? mr m) with true by (symmetry; apply Nat.eqb_eq; lia).
  replace (mc m =? 2 * d) with true by (symmetry; apply Nat.eqb_eq; lia). cbn [negb orb].
  destruct (gen_h_ok d q Hq Hd) as [h [Eh Hh]]. rewrite Eh. cbn [obind].
  set (f := fun i j => if i <? d then (if j <? d then kron i j 1 else circ h d i (j - d)) else (if j <? d then 0%Z else kron i j q)).
  use_done m f.
  - exact HS.
  - eapply w_seq; [|eapply w_seq; [apply (w_rect _ _ d (mr m) 0 d (fun _ _ => 0%Z)); lia|eapply w_seq]].
    + apply (w_for (mr m) (mc m)) with (W := fun i => fun a b => if (a =? i) && (b <? d) then Some (kron i b 1) else None)
        (T := fun a b => if (a <? d) && (b <? d) then Some (kron a b 1) else None).
      * intros i Hi. eapply w_tab.
        { eapply w_seq; [apply (w_row _ _ i 0 i (fun _ => 0%Z)); lia|]. eapply w_seq; [apply (w_put _ _ i i); lia|].
          apply (w_row _ _ i (i + 1) d (fun _ => 0%Z)); lia. }
        { intros a b. unfold over, kron. nb; subst; auto. }
      * intros i a b v Hi. nb; try discriminate; subst; auto.
      * intros a b v. nb; try discriminate. intros [= <-]. exists a. split; [lia|]. nb; auto.
    + apply (w_for (mr m) (mc m)) with (W := fun i => fun a b => if (a =? i) && (d <=? b) && (b <? mc m) then Some (kron i b q) else None)
        (T := fun a b => if (d <=? a) && (a <? mr m) && (d <=? b) && (b <? mc m) then Some (kron a b q) else None).
      * intros i Hi. eapply w_tab.
        { eapply w_seq; [apply (w_row _ _ i d i (fun _ => 0%Z)); lia|]. eapply w_seq; [apply (w_put _ _ i i); lia|].
          apply (w_row _ _ i (i + 1) (mc m) (fun _ => 0%Z)); lia. }
        { intros a b. unfold over, kron. nb; subst; auto. }
      * intros i a b v Hi. nb; try discriminate; subst; auto.
      * intros a b v. nb; try discriminate. intros [= <-]. exists a. split; [lia|]. nb; auto.
    + apply (w_for (mr m) (mc m)) with (W := fun i => fun a b => if (a =? i) && (d <=? b) && (b <? mc m) then Some (circ h d i (b - d)) else None)
        (T := fun a b => if (a <? d) && (d <=? b) && (b <? mc m) then Some (circ h d a (b - d)) else None).
      * intros i Hi.
        apply (w_for (mr m) (mc m)) with (W := fun j => fun a b => if (a =? i) && (b =? j) then Some (circ h d i (j - d)) else None).
        { intros j Hj. eapply writes_ext; [apply (w_put _ _ i j (circ h d i (j - d))); lia| |reflexivity].
          intros M. rewrite (hval_ok h d q) by (auto; lia). cbn [obind]. unfold circ. repeat f_equal; lia. }
        { intros j a b v Hj. nb; try discriminate; subst; auto. }
        { intros a b v. nb; try discriminate. intros [= <-]. exists b. split; [lia|]. nb; auto. }
      * intros i a b v Hi. nb; try discriminate; subst; auto.
      * intros a b v. nb; try discriminate. intros [= <-]. exists a. split; [lia|]. nb; auto.
  - intros i j Hi Hj. cbn beta. unfold over, f. nb; auto.
  - exists m', h. rewrite HR, HC in I'. split; [exact E|]. split; auto. split; auto. split; auto.
    rewrite zdet_upper.
    + replace (2 * d) with (d + d) by lia. rewrite zprod_add.
      rewrite (zprod_ext d _ (fun _ => 1%Z)), zprod_const.
      * rewrite (zprod_ext d _ (fun _ => q)), zprod_const; [rewrite Z.pow_1_l; lia|].
        intros i Hi. unfold kron. nb; auto.
      * intros i Hi. unfold kron. nb; auto.
    + intros i j Hij. unfold kron. nb; auto.
Qed.

(** ** gen_ntrulike2: [[qI, 0], [H, I]] *)
Theorem gen_ntrulike2_shape :
  forall m d q, stored m -> mr m = 2 * d -> mc m = 2 * d -> 0 < d -> (0 < q)%Z ->
    exists m' h, gen_ntrulike2 rnd m q = GDone m' /\ stored m' /\ is_h h d q /\
      is_mat m' (2 * d) (2 * d) (fun i j => if i <? d then kron i j q
                                            else (if j <? d then circ h d j (i - d) else kron i j 1)) /\
      zdet (2 * d) (fun i j => if i <? d then kron i j q
                               else (if j <? d then circ h d j (i - d) else kron i j 1)) = (q ^ Z.of_nat d)%Z.
Proof.
  intros m d q HS HR HC Hd Hq. unfold gen_ntrulike2.
  assert (D2 : mr m / 2 = d) by (rewrite HR, Nat.mul_comm; apply Nat.div_mul; lia). rewrite D2.
  replace (mc m =? mr m) with true by (symmetry; apply Nat.eqb_eq; lia).
  replace (mc m =? 2 * d) with true by (symmetry; apply Nat.eqb_eq; lia). cbn [negb orb].
  destruct (gen_h_ok d q Hq Hd) as [h [Eh Hh]]. rewrite Eh. cbn [obind].
  set (f := fun i j => if i <? d then kron i j q else (if j <? d then circ h d j (i - d) else kron i j 1)).
  use_done m f.
  - exact HS.
  - eapply w_seq; [apply (w_rect _ _ 0 d 0 (mc m) (fun _ _ => 0%Z)); lia|].
    eapply w_seq; [apply (w_diag _ _ 0 d q); lia|].
    eapply w_seq; [apply (w_rect _ _ d (mr m) d (mc m) (fun _ _ => 0%Z)); lia|].
    eapply w_seq; [apply (w_diag _ _ d (mc m) 1%Z); lia|].
    apply (w_for (mr m) (mc m)) with (W := fun i => fun a b => if (a =? i) && (b <? d) then Some (circ h d b (i - d)) else None)
        (T := fun a b => if (d <=? a) && (a <? mr m) && (b <? d) then Some (circ h d b (a - d)) else None).
    + intros i Hi.
      apply (w_for (mr m) (mc m)) with (W := fun j => fun a b => if (a =? i) && (b =? j) then Some (circ h d j (i - d)) else None).
      * intros j Hj. eapply writes_ext; [apply (w_put _ _ i j (circ h d j (i - d))); lia| |reflexivity].
        intros M. rewrite (hval_ok h d q) by (auto; lia). cbn [obind]. unfold circ. repeat f_equal; lia.
      * intros j a b v Hj. nb; try discriminate; subst; auto.
      * intros a b v. nb; try discriminate. intros [= <-]. exists b. split; [lia|]. nb; auto.
    + intros i a b v Hi. nb; try discriminate; subst; auto.
    + intros a b v. nb; try discriminate. intros [= <-]. exists a. split; [lia|]. nb; auto.
  - intros i j Hi Hj. cbn beta. unfold over, f, kron. nb; auto.
  - exists m', h. rewrite HR, HC in I'. split; [exact E|]. split; auto. split; auto. split; auto.
    rewrite zdet_lower.
    + replace (2 * d) with (d + d) by lia. rewrite zprod_add.
      rewrite (zprod_ext d _ (fun _ => q)), zprod_const.
      * rewrite (zprod_ext d _ (fun _ => 1%Z)), zprod_const; [rewrite Z.pow_1_l; lia|].
        intros i Hi. unfold kron. nb; auto.
      * intros i Hi. unfold kron. nb; auto.
    + intros i j Hij. unfold kron. nb; auto.
Qed.

(** ** gen_qary: [[I, H], [0, qI]], H of dimensions (n - k) x k *)
Theorem gen_qary_shape :
  forall m k q, stored m -> mc m = mr m -> k <= mr m -> (0 < q)%Z ->
    exists m' x, gen_qary rnd m (Z.of_nat k) q = GDone m' /\ stored m' /\
      is_mat m' (mr m) (mr m) (fun i j => if i <? mr m - k then (if j <? mr m - k then kron i j 1 else x i j) else kron i j q) /\
      (forall i j, 0 <= x i j < q)%Z /\
      zdet (mr m) (fun i j => if i <? mr m - k then (if j <? mr m - k then kron i j 1 else x i j) else kron i j q) = (q ^ Z.of_nat k)%Z.
Proof.
  intros m k q HS HC Hk Hq. unfold gen_qary.
  replace (mc m =? mr m) with true by (symmetry; apply Nat.eqb_eq; lia).
  replace (Z.of_nat (mr m) <? Z.of_nat k)%Z with false by (symmetry; apply Z.ltb_ge; lia). cbn [negb orb].
  replace (Z.to_nat (Z.of_nat (mr m) - Z.of_nat k)) with (mr m - k) by lia. set (dk := mr m - k).
  set (x := fun i j => draw q (rnd i j)).
  set (f := fun i j => if i <? dk then (if j <? dk then kron i j 1 else x i j) else kron i j q).
  assert (Hdk : dk <= mr m) by (unfold dk; lia).
  use_done m f.
  - exact HS.
  - eapply w_seq; [apply (w_rect _ _ 0 dk 0 dk (fun _ _ => 0%Z)); lia|].
    eapply w_seq; [apply (w_diag _ _ 0 dk 1%Z); lia|].
    eapply w_seq; [|eapply w_seq; [apply (w_rect _ _ dk (mr m) 0 (mr m) (fun _ _ => 0%Z)); lia|apply (w_diag _ _ dk (mr m) q); lia]].
    eapply writes_ext; [apply (w_rect _ _ 0 dk dk (mr m) x); lia| |reflexivity].
    intros M. unfold randm. replace (q <=? 0)%Z with false by (symmetry; apply Z.leb_gt; lia). reflexivity.
  - intros i j Hi Hj. cbn beta. unfold over, f, kron. nb; auto.
  - exists m', x. rewrite HC in I'. split; [exact E|]. split; auto. split; auto. split; [intros; apply draw_range; auto|].
    rewrite zdet_upper.
    + replace (mr m) with (dk + k) at 1 by (unfold dk; lia). rewrite zprod_add.
      rewrite (zprod_ext dk _ (fun _ => 1%Z)), zprod_const.
      * rewrite (zprod_ext k _ (fun _ => q)), zprod_const; [rewrite Z.pow_1_l; lia|].
        intros i Hi. unfold kron. nb; auto.
      * intros i Hi. unfold kron. nb; auto.
    + intros i j Hij. unfold kron. nb; auto.
Qed.

(** ** gen_trg, gen_trg2: lower triangular *)
Variable sgn : nat -> nat -> bool.

Lemma w_sub r i max : r = r -> i < r -> (0 < max)%Z ->
  writes r r (gfor (i + 1) r (fun j M => sub_entry rnd sgn max i j M))
    (fun a b => if (b =? i) && (i <? a) && (a <? r) then Some (if sgn a i then 0 - draw max (rnd a i) else draw max (rnd a i))%Z
                else if (a =? i) && (i <? b) && (b <? r) then Some 0%Z else None).
Proof.
  intros _ Hi Hm.
  apply w_for with (W := fun j => fun a b => if (a =? i) && (b =? j) then Some 0%Z
     else if (a =? j) && (b =? i) then Some (if sgn j i then 0 - draw max (rnd j i) else draw max (rnd j i))%Z else None).
  - intros j Hj. eapply writes_ext.
    + eapply w_seq; [apply (w_put _ _ j i (if sgn j i then 0 - draw max (rnd j i) else draw max (rnd j i))%Z); lia|].
      apply (w_put _ _ i j 0%Z); lia.
    + intros M. unfold sub_entry. rewrite randm_some by auto. reflexivity.
    + intros a b. unfold over. nb; auto.
  - intros j a b v Hj. nb; try discriminate; subst; auto.
  - intros a b v. nb; try discriminate; intros [= <-].
    + exists a. split; [lia|]. nb; auto.
    + exists b. split; [lia|]. nb; auto.
Qed.

Definition lower (a : nat -> Z) (y : nat -> nat -> Z) (i j : nat) : Z := if i =? j then a i else if i <? j then 0%Z else y i j.
Definition sub_y (mx : nat -> Z) (i j : nat) : Z := if sgn i j then (0 - draw (mx j) (rnd i j))%Z else draw (mx j) (rnd i j).

(** the loop of both generators: diagonal [a i], bound [mx i] of column i *)
Lemma w_trg r (a mx : nat -> Z) f : (forall i, i < r -> (0 < mx i)%Z) ->
  (forall i M, i < r -> f i M = (M1 <- mset M i i (a i);; gfor (i + 1) r (fun j M => sub_entry rnd sgn (mx i) i j M) M1)) ->
  writes r r (gfor 0 r f)
    (fun x z => if (x <? r) && (z <? r) then Some (lower a (sub_y mx) x z) else None).
Proof.
  intros Hm Hf.
  apply w_for with (W := fun i => fun x z => if (i <=? x) && (x <? r) && (z =? i) || (i <? z) && (z <? r) && (x =? i) then
     Some (lower a (sub_y mx) x z) else None).
  - intros i Hi. eapply writes_ext.
    + eapply w_seq; [apply (w_put _ _ i i (a i)); lia|]. apply (w_sub r i (mx i)); auto; try lia. apply Hm; lia.
    + intros M. apply Hf. lia.
    + intros x z. unfold over, lower, sub_y. nb; subst; auto.
  - intros i x z v Hi. nb; try discriminate; auto.
  - intros x z v. nb; try discriminate; intros [= <-].
    destruct (Nat.le_gt_cases z x); [exists z|exists x]; (split; [lia|]); nb; auto.
Qed.

Lemma lower_det n a y : zdet n (lower a y) = zprod n a.
Proof.
  rewrite zdet_lower.
  - apply zprod_ext. intros i Hi. unfold lower. now rewrite Nat.eqb_refl.
  - intros i j Hij. unfold lower. nb; auto.
Qed.

(** diagonal entries in [2, 2^bits]; below the diagonal less than half of it *)
Theorem gen_trg_shape :
  forall m bits, stored m -> mc m = mr m -> (forall i, i < mr m -> 0 < bits i) ->
    exists m' a y, gen_trg rnd sgn m bits = GDone m' /\ stored m' /\ is_mat m' (mr m) (mr m) (lower a y) /\
      (forall i, i < mr m -> (2 <= a i <= 2 ^ Z.of_nat (bits i))%Z) /\
      (forall i j, j < i < mr m -> (2 * Z.abs (y i j) < a j)%Z) /\
      zdet (mr m) (lower a y) = zprod (mr m) a /\ (zprod (mr m) a > 0)%Z.
Proof.
  intros m bits HS HC HB. unfold gen_trg. replace (mc m =? mr m) with true by (symmetry; now apply Nat.eqb_eq). cbn [negb].
  assert (PB : forall i, i < mr m -> (0 < 2 ^ Z.of_nat (bits i) - 1)%Z).
  { intros i Hi. specialize (HB i Hi). replace (Z.of_nat (bits i)) with (Z.succ (Z.of_nat (bits i - 1))) by lia.
    rewrite Z.pow_succ_r by lia. pose proof (pow2_pos (bits i - 1)). lia. }
  set (a := fun i => (draw (2 ^ Z.of_nat (bits i) - 1) (rnd i i) + 2)%Z).
  set (y := sub_y (fun j => a j / 2)%Z).
  assert (Ha : forall i, i < mr m -> (2 <= a i <= 2 ^ Z.of_nat (bits i))%Z).
  { intros i Hi. pose proof (draw_range _ (rnd i i) (PB i Hi)). unfold a. lia. }
  assert (Hh : forall i, i < mr m -> (0 < a i / 2)%Z).
  { intros i Hi. specialize (Ha i Hi). apply Z.div_str_pos. lia. }
  use_done m (lower a y).
  - exact HS.
  - rewrite HC. apply (w_trg (mr m) a (fun j => a j / 2)%Z); [exact Hh|].
    intros i M Hi. rewrite randm_some by (apply PB; lia). reflexivity.
  - intros i j Hi Hj. cbn beta. nb; auto.
  - exists m', a, y. rewrite HC in I'. split; [exact E|]. split; auto. split; auto. split; auto. split; [|split].
    + intros i j Hij. specialize (Hh j ltac:(lia)). pose proof (draw_range (a j / 2) (rnd i j) Hh).
      pose proof (Z.mul_div_le (a j) 2 ltac:(lia)). unfold y, sub_y. destruct (sgn i j); lia.
    + apply lower_det.
    + clear - Ha. induction (mr m) as [|n IH]; [reflexivity|]. cbn [zprod]. pose proof (Ha n ltac:(lia)).
      assert (zprod n a > 0)%Z by (apply IH; intros; apply Ha; lia). nia.
Qed.

(** gen_trg2: the diagonal is w, the entries below at most half of it *)
Theorem gen_trg2_shape :
  forall m w, stored m -> mc m = mr m -> (forall i, i < mr m -> (0 <= w i)%Z) ->
    exists m' y, gen_trg2 rnd sgn m w = GDone m' /\ stored m' /\ is_mat m' (mr m) (mr m) (lower w y) /\
      (forall i j, j < i < mr m -> (2 * Z.abs (y i j) <= w j)%Z) /\
      zdet (mr m) (lower w y) = zprod (mr m) w.
Proof.
  intros m w HS HC HW. unfold gen_trg2. replace (mc m =? mr m) with true by (symmetry; now apply Nat.eqb_eq). cbn [negb].
  set (y := sub_y (fun j => w j / 2 + 1)%Z).
  assert (Hh : forall i, i < mr m -> (0 < w i / 2 + 1)%Z).
  { intros i Hi. specialize (HW i Hi). pose proof (Z.div_pos (w i) 2). lia. }
  use_done m (lower w y).
  - exact HS.
  - rewrite HC. apply (w_trg (mr m) w (fun i => w i / 2 + 1)%Z); [exact Hh|reflexivity].
  - intros i j Hi Hj. cbn beta. nb; auto.
  - exists m', y. rewrite HC in I'. split; [exact E|]. split; auto. split; auto. split.
    + intros i j Hij. specialize (Hh j ltac:(lia)). pose proof (draw_range (w j / 2 + 1) (rnd i j) Hh).
      pose proof (Z.mul_div_le (w j) 2 ltac:(lia)). unfold y, sub_y. destruct (sgn i j); lia.
    + apply lower_det.
Qed.
End Rnd.

(** gen_q: q in [2^(bits-1), 2^bits - 1] *)
Theorem gen_q_range :
  forall bits x, 0 < bits -> (2 ^ Z.of_nat (bits - 1) <= gen_q bits x <= 2 ^ Z.of_nat bits - 1)%Z.
Proof.
  intros bits x Hb. unfold gen_q. pose proof (draw_range _ x (pow2_pos (bits - 1))).
  replace (Z.of_nat bits) with (Z.succ (Z.of_nat (bits - 1))) by lia. rewrite Z.pow_succ_r by lia. lia.
Qed.

(** gen_identity, after any history of the object *)
Theorem gen_identity_shape :
  forall d0 m d, stored m -> exists m', gen_identity d0 m d = Some m' /\ stored m' /\ is_mat m' d d (fun i j => kron i j 1).
Proof.
  intros d0 m d HS. unfold gen_identity.
  assert (HV : shows m (mkview (mr m) (mc m) (fun _ _ => None))).
  { split; auto. split; auto. split; [exact (proj2 HS)|discriminate]. }
  destruct (step_shows d0 m (mkview (mr m) (mc m) (fun _ _ => None)) (OZero d d 0%Z) HS HV I) as [m1 [E1 [S1 [R1 [C1 [_ G1]]]]]].
  cbn [mstep vstep ar ac af] in *. rewrite E1. cbn [obind].
  assert (W : writes d d (gfor 0 d (fun i M => mset M i i 1%Z)) (fun x y => if (x =? y) && (0 <=? x) && (x <? d) then Some 1%Z else None))
    by (apply w_diag; lia).
  assert (D : defd d d (ms m1)). { intros i j Hi Hj. rewrite (G1 i j 0%Z) by auto. congruence. }
  destruct (W _ D) as [M' [E [L G]]]. pose proof (writes_defd _ _ _ _ _ _ W D E) as D'. rewrite E. cbn [obind].
  eexists. split; [reflexivity|]. destruct S1 as [T1 T2]. rewrite R1, C1 in *. split; [split; cbn [mr mc ms]; [lia|exact D']|].
  split; auto. split; auto. intros i j Hi Hj. cbn [ms]. rewrite G. unfold over, kron. rewrite (G1 i j 0%Z) by auto. nb; auto.
Qed.

(** ** Instances *)
Definition ex_rnd (i j : nat) : Z := (Z.of_nat (7 * i + 3 * j) * 12345 + 678)%Z.
Definition ex_sq : mat (T := Z) := mkmat 4 4 [[9; 9; 9; 9]; [9; 9; 9; 9; 9]; [9; 9; 9; 9]; [9; 9; 9; 9]; [1]]%Z.
Example ex_sq_stored : stored ex_sq.
Proof. split; cbn; [lia|]. intros i j Hi Hj. do 4 (destruct i; [do 4 (destruct j; [discriminate|]); lia|]). lia. Qed.
Example ex_ntru : gen_ntrulike ex_rnd ex_sq 97 =
  GDone (mkmat 4 4 [[1; 0; 13; 84]; [0; 1; 84; 13; 9]; [0; 0; 97; 0]; [0; 0; 0; 97]; [1]]%Z).
Proof. vm_compute. reflexivity. Qed.
Example ex_trg : gen_trg ex_rnd (fun i j => Nat.odd (i + j)) ex_sq (fun i => 4 + i) =
  GDone (mkmat 4 4 [[5; 0; 0; 0]; [-1; 6; 0; 0; 9]; [0; 0; 53; 0]; [-1; 0; -23; 63]; [1]]%Z).
Proof. vm_compute. reflexivity. Qed.
Example ex_qary : gen_qary ex_rnd ex_sq 2 97 =
  GDone (mkmat 4 4 [[1; 0; 58; 39]; [0; 1; 46; 27; 9]; [0; 0; 97; 0]; [0; 0; 0; 97]; [1]]%Z).
Proof. vm_compute. reflexivity. Qed.

Example ex_intrel : gen_intrel ex_rnd (mkmat 2 3 [[9; 9; 9]; [9; 9; 9; 9]]%Z) 10 =
  GDone (mkmat 2 3 [[678; 1; 0]; [53; 0; 1; 9]]%Z).
Proof. vm_compute. reflexivity. Qed.
Example ex_simdioph : gen_simdioph ex_rnd (mkmat 3 3 [[0; 0; 0]; [0; 0; 0]; [0; 0; 0]]%Z) 10 5 =
  GDone (mkmat 3 3 [[32; 849; 1020]; [0; 1024; 0]; [0; 0; 1024]]%Z).
Proof. vm_compute. reflexivity. Qed.
Example ex_identity : gen_identity 77%Z (mkmat 1 1 [[5%Z]; [6%Z]; [7%Z]]) 2 = Some (mkmat 2 2 [[1; 0]; [0; 1]; [7]]%Z).
Proof. vm_compute. reflexivity. Qed.

(** ** What does not hold *)
(** gen_simdioph leaves column 0 below the first row as it was: with old contents
    the result is not the documented matrix, and can be singular *)
Theorem gen_simdioph_old_contents_refuted :
  exists rnd m bits bits2 m', stored m /\ mc m = mr m /\ 0 < mr m /\
    gen_simdioph rnd m bits bits2 = GDone m' /\ mget (ms m') 1 0 = Some 4%Z /\
    zdet 2 (fun i j => nth j (nth i (ms m') []) 0%Z) = 0%Z.
Proof.
  exists (fun _ _ => 1%Z), (mkmat 2 2 [[5; 6]; [4; 8]]%Z), 1, 1. eexists.
  split; [|split; [reflexivity|split; [cbn; lia|split; [vm_compute; reflexivity|vm_compute; auto]]]].
  split; cbn; [lia|]. intros i j Hi Hj. do 2 (destruct i; [do 2 (destruct j; [discriminate|]); lia|]). lia.
Qed.
(** the checks let the empty matrix through to matrix[0][0] and h[0] *)
Theorem gen_empty_refuted :
  forall rnd q bits bits2, gen_simdioph rnd mat_empty bits bits2 = GUb /\ gen_ntrulike rnd mat_empty q = GUb /\ gen_ntrulike2 rnd mat_empty q = GUb.
Proof. intros. vm_compute. auto. Qed.
(** gen_qary with a negative k is not refused *)
Theorem gen_qary_negative_k_refuted :
  exists m, stored m /\ mc m = mr m /\ forall rnd, gen_qary rnd m (-1) 5 = GUb.
Proof.
  exists (mkmat 1 1 [[0%Z]]). split; [|split; [reflexivity|intros; vm_compute; reflexivity]].
  split; cbn; [lia|]. intros i j Hi Hj. do 1 (destruct i; [do 1 (destruct j; [discriminate|]); lia|]). lia.
Qed.
(** gen_trg with (int)pow(2d - i, alpha) = 0 (alpha < 0) draws modulo 0 *)
Theorem gen_trg_zero_bits_refuted :
  exists m, stored m /\ mc m = mr m /\ forall rnd sgn, gen_trg rnd sgn m (fun _ => 0) = GUb.
Proof.
  exists (mkmat 1 1 [[0%Z]]). split; [|split; [reflexivity|intros; vm_compute; reflexivity]].
  split; cbn; [lia|]. intros i j Hi Hj. do 1 (destruct i; [do 1 (destruct j; [discriminate|]); lia|]). lia.
Qed.
(** gen_uniform: no rank is guaranteed *)
Theorem gen_uniform_full_rank_refuted :
  exists rnd m bits m', stored m /\ mc m = mr m /\ gen_uniform rnd m bits = GDone m' /\ 0 < bits /\
    zdet 2 (fun i j => nth j (nth i (ms m') []) 0%Z) = 0%Z.
Proof.
  exists (fun _ _ => 1%Z), (mkmat 2 2 [[5; 6]; [1; 8]]%Z), 3. eexists.
  split; [|split; [reflexivity|split; [vm_compute; reflexivity|split; [lia|vm_compute; auto]]]].
  split; cbn; [lia|]. intros i j Hi Hj. do 2 (destruct i; [do 2 (destruct j; [discriminate|]); lia|]). lia.
Qed.

Print Assumptions gen_intrel_shape.
Print Assumptions gen_simdioph_shape.
Print Assumptions gen_uniform_shape.
Print Assumptions gen_ntrulike_shape.
Print Assumptions gen_ntrulike2_shape.
Print Assumptions gen_qary_shape.
Print Assumptions gen_trg_shape.
Print Assumptions gen_trg2_shape.
Print Assumptions gen_q_range.
Print Assumptions gen_identity_shape.
