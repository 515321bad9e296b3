(** The operations of HouseModel.v in exact real arithmetic, and the facts about
    one Householder transformation (householder.cpp:27-184). *)
From Coq Require Import List ZArith Reals Lra Lia Arith Bool.
From Flocq Require Import Core.
From Verif Require Import Util NumVectModel MatrixModel MatrixProofs GsoModel GsoFModel HouseModel HouseProofs.
Import ListNotations.
Local Open Scope R_scope.

(** 2^e *)
Definition p2 (e : Z) : R := powerRZ 2 e.

(** comparisons of real numbers as booleans (FP_NR::cmp, nr_FP_d.inl:85-91) *)
Definition rlt (x y : R) : bool := if Rlt_dec x y then true else false.
(** x == y (nr_FP_d.inl:85-91) *)
Definition req (x y : R) : bool := if Req_EM_T x y then true else false.

(** number of bits of the integer part in get_f_exp (nr_Z_misc.inl:27-60: the
    mantissa lies in [1/2, 1), exponent 0 for 0) *)
Definition bits (z : Z) : Z := if (z =? 0)%Z then 0%Z else (Z.log2 (Z.abs z) + 1)%Z.

(** FP_NR with exact real arithmetic; [dz x] is the value of x / 0 *)
Definition r_hops (dz : R -> R) : hops := {|
  HF := R;
  h_ofZ := IZR;
  h_exp := fun z => (IZR z * p2 (- bits z), bits z);
  h_mul2 := fun x e => x * p2 e;
  h_mul := Rmult; h_add := Rplus; h_sub := Rminus;
  h_div := fun x y => if req y 0 then dz x else x / y;
  h_neg := Ropp; h_sqrt := sqrt; h_abs := Rabs;
  h_addmul := fun r a b => r + a * b;
  h_0 := 0; h_1 := 1; h_m1 := -1; h_tenth := / 10;
  h_lt0 := fun x => rlt x 0;
  h_ne0 := fun x => negb (req x 0);
  h_sgn := fun x => negb (req x 0);
  h_is1 := fun x => req x 1;
  h_ism1 := fun x => req x (-1);
  h_gt := fun x y => rlt y x;
  h_le := fun x y => negb (rlt y x);
  h_rnd := fun x e => IZR (ZnearestE (x * p2 e)) * p2 (- e);
  h_si := fun x e => (Ztrunc (x * p2 e), O);
  h_ze := fun x e => (Ztrunc (x * p2 e), O)
|}.

Lemma rlt_true x y : rlt x y = true <-> x < y.
Proof. unfold rlt. destruct (Rlt_dec x y); split; auto; discriminate. Qed.
Lemma rlt_false x y : rlt x y = false <-> y <= x.
Proof. unfold rlt. destruct (Rlt_dec x y); split; auto; try discriminate; lra. Qed.
Lemma req_true x y : req x y = true <-> x = y.
Proof. unfold req. destruct (Req_EM_T x y); split; auto; discriminate. Qed.
Lemma req_false x y : req x y = false <-> x <> y.
Proof. unfold req. destruct (Req_EM_T x y); split; auto; try discriminate; tauto. Qed.

Lemma p2_pos e : 0 < p2 e. Proof. apply powerRZ_lt. lra. Qed.
Lemma p2_add a b : p2 (a + b) = p2 a * p2 b. Proof. apply powerRZ_add. lra. Qed.
Lemma p2_0 : p2 0 = 1. Proof. reflexivity. Qed.
Lemma p2_opp a : p2 (- a) * p2 a = 1.
Proof. rewrite <- p2_add. replace (- a + a)%Z with 0%Z by lia. reflexivity. Qed.

(** ** sums over an interval of indices *)
Fixpoint rs (f : nat -> R) (a k : nat) : R :=
  match k with 0%nat => 0 | S k' => f a + rs f (S a) k' end.

Lemma rs_ext f g a k : (forall l, (a <= l < a + k)%nat -> f l = g l) -> rs f a k = rs g a k.
Proof.
  revert a. induction k; intros a H; cbn [rs]; auto. rewrite H by lia. f_equal. apply IHk.
  intros. apply H. lia.
Qed.
Lemma rs_0 f a k : (forall l, (a <= l < a + k)%nat -> f l = 0) -> rs f a k = 0.
Proof.
  revert a. induction k; intros a H; cbn [rs]; auto. rewrite H by lia. rewrite IHk; [lra|].
  intros. apply H. lia.
Qed.
Lemma rs_add f g a k : rs (fun l => f l + g l) a k = rs f a k + rs g a k.
Proof. revert a. induction k; intros a; cbn [rs]; [lra|]. rewrite IHk. lra. Qed.
Lemma rs_scal c f a k : rs (fun l => c * f l) a k = c * rs f a k.
Proof. revert a. induction k; intros a; cbn [rs]; [lra|]. rewrite IHk. lra. Qed.
Lemma rs_split f a k m : rs f a (k + m) = rs f a k + rs f (a + k) m.
Proof.
  revert a. induction k; intros a; cbn [rs Nat.add]; [rewrite Nat.add_0_r; lra|].
  rewrite IHk. replace (S a + k)%nat with (a + S k)%nat by lia. lra.
Qed.
Lemma rs_at f j n : (j <= n)%nat -> rs f 0 n = rs f 0 j + rs f j (n - j).
Proof. intros H. replace n with (j + (n - j))%nat at 1 by lia. rewrite rs_split. reflexivity. Qed.
Lemma rs_last f a k : rs f a (S k) = rs f a k + f (a + k)%nat.
Proof. replace (S k) with (k + 1)%nat by lia. rewrite rs_split. cbn [rs]. lra. Qed.
Lemma rs_nonneg f a k : (forall l, (a <= l < a + k)%nat -> 0 <= f l) -> 0 <= rs f a k.
Proof.
  revert a. induction k; intros a H; cbn [rs]; [lra|].
  assert (0 <= f a) by (apply H; lia). assert (0 <= rs f (S a) k) by (apply IHk; intros; apply H; lia). lra.
Qed.
Lemma rs_zero_inv f a k : (forall l, (a <= l < a + k)%nat -> 0 <= f l) -> rs f a k = 0 ->
  forall l, (a <= l < a + k)%nat -> f l = 0.
Proof.
  revert a. induction k; intros a H E l Hl; [lia|]. cbn [rs] in E.
  assert (0 <= f a) by (apply H; lia).
  assert (0 <= rs f (S a) k) by (apply rs_nonneg; intros; apply H; lia).
  destruct (Nat.eq_dec l a) as [->|N]; [lra|]. apply (IHk (S a)); try lia; [intros; apply H; lia|lra].
Qed.

(** entry l of a row *)
Definition en (r : list R) (l : nat) : R := nth l r 0.
Lemma en_upd r i x l : en (upd r i x) l = if ((l =? i) && (i <? length r))%nat%bool then x else en r l.
Proof.
  unfold en. destruct (Nat.eqb_spec l i) as [->|N]; cbn [andb].
  - destruct (Nat.ltb_spec i (length r)); [apply nth_upd_eq; auto|].
    rewrite !nth_overflow; auto. rewrite upd_length. auto.
  - apply nth_upd_neq. auto.
Qed.

Section H.
Variable dz : R -> R.
Notation ho := (r_hops dz).

Lemma hdot_loop_real (v w : list R) cnt : forall i (acc x : R), (i + cnt <= length v)%nat -> (i + cnt <= length w)%nat ->
  hdot_loop ho acc v w i cnt = Some x -> x = acc + rs (fun l => en v l * en w l) i cnt.
Proof.
  induction cnt; intros i acc x Hv Hw E; cbn [hdot_loop] in E.
  - injection E as <-. cbn. lra.
  - change (HF ho) with R in E. rewrite (nth_error_lt v i 0), (nth_error_lt w i 0) in E by lia. cbn [obind] in E.
    apply IHcnt in E; try lia. subst x. cbn [rs h_addmul r_hops]. unfold en. change (HF ho) with R. ring.
Qed.
Lemma hdot_real (v w : list R) beg n (x : R) : (beg < n)%nat -> (n <= length v)%nat -> (n <= length w)%nat ->
  hdot ho v w beg n = Some x -> x = rs (fun l => en v l * en w l) beg (n - beg).
Proof.
  intros H1 H2 H3 E. unfold hdot in E. change (HF ho) with R in E. rewrite (nth_error_lt v beg 0), (nth_error_lt w beg 0) in E by lia.
  cbn [obind] in E. apply hdot_loop_real in E; try lia. rewrite E.
  replace (n - beg)%nat with (S (n - S beg)) by lia. reflexivity.
Qed.

(** ** one transformation: r - <v,r> v on the entries from j on, entry j times sg *)
Definition hs (n j : nat) (v : nat -> R) (sg : R) (f : nat -> R) (l : nat) : R :=
  let t := rs (fun l => v l * f l) j (n - j) in
  if (l <? j)%nat then f l else if (l =? j)%nat then sg * (f l - t * v l) else f l - t * v l.

Lemma apply_house_real n j (vj : list R) (sj : R) (r r' : list R) : (j < n)%nat -> length vj = n -> length r = n ->
  apply_house ho n j vj sj r = Some r' ->
  length r' = n /\ forall l, (l < n)%nat -> en r' l = hs n j (en vj) sj (en r) l.
Proof.
  intros Hj Lv Lr E. unfold apply_house in E. change (HF ho) with R in E.
  destruct (hdot ho vj r j n) as [t|] eqn:Et; cbn [obind] in E; [|discriminate].
  apply hdot_real in Et; try lia.
  destruct (rw2_spec (fun x y => x + y * (- t)) 0 j n r vj) as [r1 [E1 [L1 N1]]]; try lia.
  cbn [h_addmul h_neg r_hops] in E.
  change (HF ho) with R in E. rewrite E1 in E. cbn [obind] in E.
  rewrite (nth_error_lt r1 j 0) in E by lia. cbn [obind] in E. injection E as <-.
  split; [rewrite upd_length; lia|]. intros l Hl. rewrite en_upd.
  unfold hs. rewrite <- Et.
  replace (j <? length r1)%nat with true by (symmetry; apply Nat.ltb_lt; lia). rewrite andb_true_r.
  cbn [h_mul r_hops].
  destruct (Nat.eqb_spec l j) as [->|N].
  - rewrite Nat.ltb_irrefl, N1. rewrite Nat.leb_refl, (proj2 (Nat.ltb_lt j n)) by auto. cbn [andb]. unfold en. ring.
  - unfold en at 1. rewrite N1. rewrite (proj2 (Nat.ltb_lt l n)) by auto. rewrite andb_true_r.
    destruct (Nat.ltb_spec l j); destruct (Nat.leb_spec j l); try lia; unfold en; [auto|ring].
Qed.

(** a transformation vector: zero, or of square norm 2; the sign is 1 or -1 *)
Definition vec_ok (n j : nat) (v : nat -> R) (sg : R) : Prop :=
  (sg = 1 \/ sg = -1) /\
  ((forall l, (j <= l < n)%nat -> v l = 0) \/ rs (fun l => v l * v l) j (n - j) = 2).

Lemma hs_ext n j v sg f g : (j < n)%nat -> (forall l, (l < n)%nat -> f l = g l) ->
  forall l, (l < n)%nat -> hs n j v sg f l = hs n j v sg g l.
Proof.
  intros Hj H l Hl. unfold hs.
  replace (rs (fun l => v l * f l) j (n - j)) with (rs (fun l => v l * g l) j (n - j)).
  - rewrite H; auto.
  - apply rs_ext. intros. rewrite H; auto. lia.
Qed.
Lemma hs_ext_v n j v w sg f : (j < n)%nat -> (forall l, (j <= l < n)%nat -> v l = w l) ->
  forall l, (l < n)%nat -> hs n j v sg f l = hs n j w sg f l.
Proof.
  intros Hj H l Hl. unfold hs.
  replace (rs (fun l => w l * f l) j (n - j)) with (rs (fun l => v l * f l) j (n - j)).
  - destruct (Nat.ltb_spec l j); auto. rewrite H; auto.
  - apply rs_ext. intros. rewrite H; auto. lia.
Qed.

(** the transformation preserves inner products *)
Lemma hs_inner n j v sg f g : (j < n)%nat -> vec_ok n j v sg ->
  rs (fun l => hs n j v sg f l * hs n j v sg g l) 0 n = rs (fun l => f l * g l) 0 n.
Proof.
  intros Hj [Hs Hv].
  assert (S2 : sg * sg = 1) by (destruct Hs as [->| ->]; lra).
  rewrite (rs_at (fun l => hs n j v sg f l * hs n j v sg g l) j n), (rs_at (fun l => f l * g l) j n) by lia. f_equal.
  - apply rs_ext. intros l Hl. unfold hs. destruct (Nat.ltb_spec l j); [auto|lia].
  - set (tf := rs (fun l => v l * f l) j (n - j)). set (tg := rs (fun l => v l * g l) j (n - j)).
    transitivity (rs (fun l => f l * g l + ((- tg) * (v l * f l) + ((- tf) * (v l * g l) + (tf * tg) * (v l * v l)))) j (n - j)).
    { apply rs_ext. intros l Hl. unfold hs. fold tf tg. destruct (Nat.ltb_spec l j); [lia|].
      destruct (l =? j)%nat; [|ring].
      replace (sg * (f l - tf * v l) * (sg * (g l - tg * v l))) with (sg * sg * ((f l - tf * v l) * (g l - tg * v l))) by ring.
      rewrite S2. ring. }
    rewrite !rs_add, !rs_scal. fold tf tg.
    destruct Hv as [Hv|Hv]; [|rewrite Hv; ring].
    assert (Z1 : tf = 0) by (apply rs_0; intros; rewrite Hv by lia; ring).
    assert (Z2 : tg = 0) by (apply rs_0; intros; rewrite Hv by lia; ring).
    rewrite Z1, Z2. ring.
Qed.

(** entries beyond the vector's support stay zero *)
Lemma hs_zero n j v sg f : (forall l, (j <= l < n)%nat -> f l = 0) ->
  forall l, (l < n)%nat -> hs n j v sg f l = f l.
Proof.
  intros H l Hl. unfold hs. rewrite rs_0; [|intros k Hk; rewrite (H k) by lia; ring].
  destruct (Nat.ltb_spec l j); auto. rewrite (H l) by lia. destruct (l =? j)%nat; ring.
Qed.

(** ** householder.cpp:27-146 update_R_last *)
Definition last_ok (n i : nat) (f v : nat -> R) (sg rii : R) : Prop :=
  vec_ok n i v sg /\ hs n i v sg f i = rii /\ (forall l, (i < l < n)%nat -> hs n i v sg f l = 0) /\
  0 <= rii /\ rii = sqrt (rs (fun l => f l * f l) i (n - i)).

(** the reflection that maps f to a multiple of the unit vector *)
Lemma last_math n i (f v : nat -> R) x t3 s sg w :
  (i < n)%nat -> x = f i -> t3 = rs (fun l => f l * f l) (S i) (n - S i) ->
  s = sqrt (x * x + t3) -> (sg = 1 /\ 0 <= x \/ sg = -1 /\ x < 0) ->
  t3 <> 0 -> w = sqrt (- (sg * s) * (- t3 / (x + sg * s))) ->
  v i = - t3 / (x + sg * s) / w -> (forall l, (i < l < n)%nat -> v l = f l / w) ->
  w <> 0 /\ last_ok n i f v sg s.
Proof.
  intros Hi Ex Et Es Hsg Ht Ew Hvi Hvl.
  assert (T0 : 0 < t3).
  { assert (0 <= t3) by (rewrite Et; apply rs_nonneg; intros; nra). lra. }
  assert (X0 : 0 <= x * x) by nra.
  assert (S2 : s * s = x * x + t3) by (rewrite Es; apply sqrt_sqrt; lra).
  assert (S0 : 0 < s) by (rewrite Es; apply sqrt_lt_R0; lra).
  assert (SG : sg * sg = 1) by (destruct Hsg as [[-> _]|[-> _]]; lra).
  assert (SX : 0 < sg * x + s \/ sg * x + s = sg * x + s /\ 0 <= sg * x) by (destruct Hsg as [[-> ?]|[-> ?]]; left; lra).
  assert (D0 : x + sg * s <> 0) by (destruct Hsg as [[-> ?]|[-> ?]]; nra).
  assert (Q : - t3 / (x + sg * s) = x - sg * s).
  { apply (Rmult_eq_reg_r (x + sg * s)); auto. unfold Rdiv. rewrite Rmult_assoc, Rinv_l by auto.
    replace ((x - sg * s) * (x + sg * s)) with (x * x - sg * sg * (s * s)) by ring. rewrite SG, S2. ring. }
  rewrite Q in *.
  assert (W : - (sg * s) * (x - sg * s) = s * s - sg * s * x).
  { replace (- (sg * s) * (x - sg * s)) with (sg * sg * (s * s) - sg * s * x) by ring. rewrite SG. ring. }
  assert (SXx : sg * x * (sg * x) = x * x) by (replace (sg * x * (sg * x)) with (sg * sg * (x * x)) by ring; rewrite SG; ring).
  assert (SXs : sg * x < s).
  { destruct (Rlt_or_le (sg * x) s); auto. exfalso. assert (s * s <= sg * x * (sg * x)) by (apply Rmult_le_compat; lra). lra. }
  assert (W0 : 0 < s * s - sg * s * x) by (replace (s * s - sg * s * x) with (s * (s - sg * x)) by ring; apply Rmult_lt_0_compat; lra).
  rewrite W in Ew.
  assert (W1 : 0 < w) by (rewrite Ew; apply sqrt_lt_R0; auto).
  assert (W2 : w * w = s * s - sg * s * x) by (rewrite Ew; apply sqrt_sqrt; lra).
  split; [lra|].
  replace (n - i)%nat with (S (n - S i)) in *.
  2: lia.
  assert (VV : rs (fun l => v l * v l) (S i) (n - S i) = t3 / (w * w)).
  { transitivity (rs (fun l => / (w * w) * (f l * f l)) (S i) (n - S i)).
    - apply rs_ext. intros l Hl. rewrite Hvl by lia. field. lra.
    - rewrite rs_scal, <- Et. unfold Rdiv. ring. }
  assert (VF : rs (fun l => v l * f l) (S i) (n - S i) = t3 / w).
  { transitivity (rs (fun l => / w * (f l * f l)) (S i) (n - S i)).
    - apply rs_ext. intros l Hl. rewrite Hvl by lia. field. lra.
    - rewrite rs_scal, <- Et. unfold Rdiv. ring. }
  assert (T : rs (fun l => v l * f l) i (n - i) = w).
  { replace (n - i)%nat with (S (n - S i)) by lia. cbn [rs]. rewrite VF, Hvi, <- Ex.
    apply (Rmult_eq_reg_r w); [|lra]. rewrite W2. field_simplify; [|lra].
    replace (s ^ 2) with (x * x + t3) by (rewrite <- S2; ring). ring. }
  unfold last_ok. split; [|split; [|split; [|split]]].
  - split; [tauto|]. right. replace (n - i)%nat with (S (n - S i)) by lia. cbn [rs].
    rewrite VV, Hvi. apply (Rmult_eq_reg_r (w * w)); [|nra].
    replace (((x - sg * s) / w * ((x - sg * s) / w) + t3 / (w * w)) * (w * w)) with ((x - sg * s) * (x - sg * s) + t3) by (field; lra).
    rewrite W2. replace ((x - sg * s) * (x - sg * s)) with (x * x - 2 * (sg * s * x) + sg * sg * (s * s)) by ring.
    rewrite SG, S2. ring.
  - unfold hs. rewrite T, Nat.ltb_irrefl, Nat.eqb_refl, Hvi, <- Ex.
    replace (sg * (x - w * ((x - sg * s) / w))) with (sg * sg * s) by (field; lra). rewrite SG. ring.
  - intros l Hl. unfold hs. rewrite T.
    destruct (Nat.ltb_spec l i); [lia|]. destruct (Nat.eqb_spec l i); [lia|]. rewrite Hvl by lia. field. lra.
  - lra.
  - replace (n - i)%nat with (S (n - S i)) by lia. cbn [rs]. rewrite Es, Et, Ex. reflexivity.
Qed.

Lemma last_trivial n i (f v : nat -> R) sg :
  (i < n)%nat -> (forall l, (i < l < n)%nat -> f l = 0) -> (forall l, (i <= l < n)%nat -> v l = 0) ->
  (sg = 1 /\ 0 <= f i \/ sg = -1 /\ f i < 0) -> last_ok n i f v sg (Rabs (f i)).
Proof.
  intros Hi Hf Hv Hs.
  assert (T : rs (fun l => v l * f l) i (n - i) = 0) by (apply rs_0; intros; rewrite Hv by lia; ring).
  assert (A : sg * f i = Rabs (f i)).
  { destruct Hs as [[-> H]|[-> H]]; [rewrite Rabs_pos_eq by auto|rewrite Rabs_left by auto]; lra. }
  unfold last_ok. split; [|split; [|split; [|split]]].
  - split; [tauto|left; auto].
  - unfold hs. rewrite T, Nat.ltb_irrefl, Nat.eqb_refl. rewrite Rmult_0_l, Rminus_0_r. auto.
  - intros l Hl. unfold hs. rewrite T. destruct (Nat.ltb_spec l i); [lia|]. destruct (Nat.eqb_spec l i); [lia|].
    rewrite Hf by lia. ring.
  - apply Rabs_pos.
  - replace (n - i)%nat with (S (n - S i)) by lia. cbn [rs].
    rewrite rs_0; [|intros l Hl; rewrite Hf by lia; ring]. rewrite Rplus_0_r. symmetry. apply sqrt_Rsqr_abs.
Qed.

Lemma last_row_real i n (r v r' v' : list R) (sg : R) : (i < n)%nat -> length r = n -> length v = n ->
  last_row ho i n r v = Some (r', v', sg) ->
  length r' = n /\ length v' = n /\ last_ok n i (en r) (en v') sg (en r' i) /\
  (forall l, l <> i -> en r' l = en r l).
Proof.
  intros Hi Lr Lv E. unfold last_row in E. change (HF ho) with R in E.
  rewrite (nth_error_lt r i 0) in E by lia. cbn [obind] in E.
  change (nth i r 0) with (en r i) in E.
  cbn [h_lt0 h_m1 h_1 h_0 h_add h_mul h_ne0 h_sqrt h_div h_neg r_hops] in E.
  change (HF ho) with R in E.
  set (sig := if rlt (en r i) 0 then -1 else 1) in E.
  assert (SG : sig = 1 /\ 0 <= en r i \/ sig = -1 /\ en r i < 0).
  { unfold sig. destruct (rlt (en r i) 0) eqn:Q; [apply rlt_true in Q|apply rlt_false in Q]; auto. }
  set (t3 := rs (fun l => en r l * en r l) (S i) (n - S i)).
  assert (E3 : (if (S i =? n)%nat then Some 0 else hdot ho r r (S i) n) = Some t3).
  { destruct (Nat.eqb_spec (S i) n) as [Q|Q].
    - unfold t3. rewrite Q, Nat.sub_diag. reflexivity.
    - destruct (hdot_some ho r r (S i) n) as [x Ex]; change (HF ho) with R in *; try lia. rewrite Ex. f_equal. apply hdot_real in Ex; auto; lia. }
  rewrite E3 in E. cbn [obind] in E. rewrite (nth_error_lt v i 0) in E by lia. cbn [obind] in E.
  assert (P3 : 0 <= t3) by (apply rs_nonneg; intros; nra).
  assert (Z3 : t3 = 0 -> forall l, (i < l < n)%nat -> en r l = 0).
  { intros Q l Hl. pose proof (rs_zero_inv (fun l => en r l * en r l) (S i) (n - S i)) as Z.
    specialize (Z (fun l _ => Rle_0_sqr (en r l)) Q l ltac:(lia)). cbn beta in Z. nra. }
  destruct (req (en r i * en r i + t3) 0) eqn:Q1; cbn [negb] in E.
  - apply req_true in Q1.
    destruct (rw2_spec (fun _ _ : R => 0) 0 (S i) n (upd v i 0) r) as [v2 [E2 [L2 N2]]]; try (rewrite ?upd_length; lia).
    rewrite E2 in E. cbn [obind] in E. injection E as <- <- <-.
    rewrite upd_length. rewrite upd_length in L2. split; [auto|]. split; [lia|].
    assert (X0 : en r i = 0) by nra. assert (T0 : t3 = 0) by nra.
    split; [|intros l Hl; rewrite en_upd; destruct (Nat.eqb_spec l i); [lia|reflexivity]].
    rewrite en_upd, Nat.eqb_refl. rewrite (proj2 (Nat.ltb_lt i (length r))) by lia. cbn [andb].
    assert (LT : last_ok n i (en r) (en v2) sig (Rabs (en r i))); [|rewrite X0, Rabs_R0 in LT; exact LT].
    apply last_trivial; auto. intros l Hl. unfold en. rewrite N2.
    destruct (Nat.leb_spec (S i) l); cbn [andb].
    + rewrite (proj2 (Nat.ltb_lt l n)) by lia. auto.
    + replace l with i by lia. rewrite nth_upd_eq by lia. auto.
  - apply req_false in Q1.
    set (s := sqrt (en r i * en r i + t3)) in *.
    assert (DZ : req (en r i + sig * s) 0 = false).
    { apply req_false. assert (0 < s) by (apply sqrt_lt_R0; nra).
      destruct SG as [[-> ?]|[-> ?]]; lra. }
    rewrite DZ in E.
    assert (T3 : req (- t3 / (en r i + sig * s)) 0 = true <-> t3 = 0).
    { rewrite req_true. apply req_false in DZ. split; intros Q.
      - apply (Rmult_eq_compat_r (en r i + sig * s)) in Q. unfold Rdiv in Q.
        rewrite Rmult_assoc, Rinv_l in Q by auto. lra.
      - rewrite Q. unfold Rdiv. ring. }
    destruct (req (- t3 / (en r i + sig * s)) 0) eqn:Q2; cbn [negb] in E.
    + assert (T0 : t3 = 0) by (apply T3; auto).
      destruct (rw2_spec (fun _ _ : R => 0) 0 (S i) n (upd v i 0) r) as [v2 [E2 [L2 N2]]]; try (rewrite ?upd_length; lia).
      rewrite E2 in E. cbn [obind] in E. injection E as <- <- <-.
      rewrite upd_length in L2.
      assert (V0 : forall l, (i <= l < n)%nat -> en v2 l = 0).
      { intros l Hl. unfold en. rewrite N2. destruct (Nat.leb_spec (S i) l); cbn [andb].
        + rewrite (proj2 (Nat.ltb_lt l n)) by lia. auto.
        + replace l with i by lia. rewrite nth_upd_eq by lia. auto. }
      assert (AB : en (if rlt (en r i) 0 then upd r i (- en r i) else r) i = Rabs (en r i)).
      { destruct (rlt (en r i) 0) eqn:Q; [apply rlt_true in Q|apply rlt_false in Q].
        - rewrite en_upd, Nat.eqb_refl, (proj2 (Nat.ltb_lt i (length r))) by lia. cbn [andb]. rewrite Rabs_left by auto. auto.
        - rewrite Rabs_pos_eq by auto. auto. }
      split; [destruct (rlt (en r i) 0); rewrite ?upd_length; auto|]. split; [lia|]. split.
      * rewrite AB. apply last_trivial; auto.
      * intros l Hl. destruct (rlt (en r i) 0); auto. rewrite en_upd. destruct (Nat.eqb_spec l i); [lia|auto].
    + apply req_false in Q2.
      assert (T0 : t3 <> 0) by (intros Q; apply Q2; rewrite Q; unfold Rdiv; ring).
      set (w := sqrt (- (sig * s) * (- t3 / (en r i + sig * s)))) in E.
      match type of E with context[rw2 (S i) n ?f ?a ?b] =>
        destruct (rw2_spec f 0 (S i) n a b) as [v2 [E2 [L2 N2]]]; [rewrite upd_length; lia|rewrite upd_length; lia|];
        rewrite E2 in E end.
      cbn [obind] in E. injection E as <- <- <-. rewrite upd_length in L2.
      assert (M : w <> 0 -> w <> 0 /\ last_ok n i (en r) (en v2) sig s).
      { intros W. apply (last_math n i (en r) (en v2) (en r i) t3 s sig w); auto.
        - unfold en at 1. rewrite N2. destruct (Nat.leb_spec (S i) i); [lia|]. cbn [andb]. rewrite nth_upd_eq by lia.
          rewrite (proj2 (req_false w 0)) by auto. reflexivity.
        - intros l Hl. unfold en at 1. rewrite N2.
          rewrite (proj2 (Nat.leb_le (S i) l)), (proj2 (Nat.ltb_lt l n)) by lia. cbn [andb].
          rewrite (proj2 (req_false w 0)) by auto. rewrite nth_upd_neq by lia. reflexivity. }
      assert (W : w <> 0).
      { set (v0 := fun l => if (l =? i)%nat then - t3 / (en r i + sig * s) / w else en r l / w).
        apply (last_math n i (en r) v0 (en r i) t3 s sig w); auto.
        - unfold v0. rewrite Nat.eqb_refl. auto.
        - intros l Hl. unfold v0. destruct (Nat.eqb_spec l i); [lia|auto]. }
      destruct (M W) as [_ LO].
      rewrite upd_length. split; [auto|]. split; [lia|]. split.
      * rewrite en_upd, Nat.eqb_refl, (proj2 (Nat.ltb_lt i (length r))) by lia. exact LO.
      * intros l Hl. rewrite en_upd. destruct (Nat.eqb_spec l i); [lia|auto].
Qed.

End H.
