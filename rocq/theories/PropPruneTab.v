(** C84: the tables of the pruner, and the dimensions for which it can work in double
    arithmetic. *)
From Coq Require Import List ZArith Arith Lia Bool Reals Lra.
From Coq Require Import Factorial.
From Flocq Require Import Core BinarySingleNaN.
From Verif Require Import PrunerModel OptModel DblModel ProbDblModel ProbDblProofs FactTable PruneTabModel.
Import ListNotations.
Local Open Scope Z_scope.

(** *** The table of factorials *)
(** Specification: the text with the digits m and the exponent k of the last digit is i! cut
    after 47 digits *)
Definition cut_factorial (i : nat) (x : Z * Z) : Prop :=
  let '(m, k) := x in
  (k < 0 /\ m = Z.of_nat (fact i) * 10 ^ (- k)) \/
  (0 <= k /\ 10 ^ 46 <= m < 10 ^ 47 /\ m * 10 ^ k <= Z.of_nat (fact i) < (m + 1) * 10 ^ k).

(** a check that carries an enclosure of i! with about 60 digits *)
Definition scale (k : Z) : Z := Z.max 0 (k - 12).
Definition entry_ok (x : Z * Z) (lo hi e : Z) : bool :=
  let '(m, k) := x in
  if k <? 0 then (e =? 0) && (lo =? hi) && (m =? lo * 10 ^ (- k))
  else (e <=? k) && (10 ^ 46 <=? m) && (m <? 10 ^ 47) && (m * 10 ^ (k - e) <=? lo) && (hi <? (m + 1) * 10 ^ (k - e)).
Fixpoint table_ok (l : list (Z * Z)) (i : Z) (lo hi e : Z) : bool :=
  match l with
  | [] => true
  | x :: r =>
      let e' := scale (snd x) in
      if e <=? e' then
        let p := 10 ^ (e' - e) in
        let lo' := lo * i / p in
        let hi' := if e' =? e then hi * i else hi * i / p + 1 in
        if entry_ok x lo' hi' e' then table_ok r (i + 1) lo' hi' e' else false
      else false
  end.
Lemma entry_ok_sound : forall x lo hi e i, 0 <= e -> lo * 10 ^ e <= Z.of_nat (fact i) <= hi * 10 ^ e -> entry_ok x lo hi e = true -> cut_factorial i x.
Proof.
  intros [m k] lo hi e i He H E. unfold entry_ok in E. cbn [cut_factorial]. destruct (Z.ltb_spec k 0) as [K|K].
  - left. apply andb_prop in E. destruct E as [E E3]. apply andb_prop in E. destruct E as [E1 E2]. apply Z.eqb_eq in E1, E2, E3. subst e hi. rewrite Z.pow_0_r in H. split; [lia|].
    rewrite E3. replace lo with (Z.of_nat (fact i)) by lia. reflexivity.
  - right. apply andb_prop in E. destruct E as [E E5]. apply andb_prop in E. destruct E as [E E4]. apply andb_prop in E. destruct E as [E E3]. apply andb_prop in E. destruct E as [E1 E2].
    apply Z.leb_le in E1, E2, E4. apply Z.ltb_lt in E3, E5. split; [lia|]. split; [lia|].
    replace (10 ^ k) with (10 ^ (k - e) * 10 ^ e) by (rewrite <- Z.pow_add_r by lia; f_equal; lia).
    assert (0 < 10 ^ e) by (apply Z.pow_pos_nonneg; lia). rewrite !Z.mul_assoc. split; nia.
Qed.
Lemma table_ok_sound : forall l j lo hi e, 0 <= e -> lo * 10 ^ e <= Z.of_nat (fact j) <= hi * 10 ^ e -> table_ok l (Z.of_nat (S j)) lo hi e = true ->
  forall k x, nth_error l k = Some x -> cut_factorial (S j + k) x.
Proof.
  induction l as [|x l IH]; intros j lo hi e He H E k y Hk; [destruct k; discriminate Hk|].
  cbn [table_ok] in E. remember (Z.of_nat (S j)) as i eqn:Ei. set (e' := scale (snd x)) in *. destruct (Z.leb_spec e e') as [L|L]; [|discriminate E].
  set (p := 10 ^ (e' - e)) in *. assert (Hp : 0 < p) by (apply Z.pow_pos_nonneg; lia).
  assert (Pe : 10 ^ e' = p * 10 ^ e) by (unfold p; rewrite <- Z.pow_add_r by lia; f_equal; lia).
  assert (P0 : 0 < 10 ^ e) by (apply Z.pow_pos_nonneg; lia).
  set (lo' := lo * i / p) in *. set (hi' := if e' =? e then hi * i else hi * i / p + 1) in *.
  assert (H' : lo' * 10 ^ e' <= Z.of_nat (fact (S j)) <= hi' * 10 ^ e').
  { replace (Z.of_nat (fact (S j))) with (i * Z.of_nat (fact j)) by (subst i; change (fact (S j)) with (S j * fact j)%nat; lia). rewrite Pe. split.
    - pose proof (Z.mul_div_le (lo * i) p Hp). fold lo' in H0. assert (lo' * (p * 10 ^ e) <= lo * i * 10 ^ e) by nia. assert (0 <= i) by lia. nia.
    - unfold hi'. destruct (Z.eqb_spec e' e) as [Ee|Ee].
      + assert (p = 1) by (unfold p; rewrite Ee, Z.sub_diag; reflexivity). rewrite H0. assert (0 <= i) by lia. nia.
      + pose proof (Z.mul_succ_div_gt (hi * i) p Hp). assert (hi * i * 10 ^ e <= (hi * i / p + 1) * (p * 10 ^ e)) by nia. assert (0 <= i) by lia. nia. }
  destruct (entry_ok x lo' hi' e') eqn:EO; [|discriminate E].
  assert (He' : 0 <= e') by (unfold e', scale; lia).
  destruct k as [|k].
  - cbn in Hk. injection Hk as <-. rewrite Nat.add_0_r. exact (entry_ok_sound x lo' hi' e' (S j) He' H' EO).
  - cbn in Hk. replace (S j + S k)%nat with (S (S j) + k)%nat by lia. apply (IH (S j) lo' hi' e' He' H'); [|exact Hk].
    replace (Z.of_nat (S (S j))) with (i + 1) by lia. exact E.
Qed.
Lemma table_check : table_ok (tl pre_factorial) 1 1 1 0 = true.
Proof. vm_compute. reflexivity. Qed.
(** C84: every entry of factorial.const is the factorial cut after 47 digits (below 40!: exact) *)
Theorem factorial_table_right : length pre_factorial = 2048%nat /\ forall i x, nth_error pre_factorial i = Some x -> cut_factorial i x.
Proof.
  split; [vm_compute; reflexivity|]. intros [|i] x H.
  - injection H as <-. left. split; [lia|reflexivity].
  - apply (table_ok_sound (tl pre_factorial) 0 1 1 0) with (k := i); [lia|cbn; lia|exact table_check|]. exact H.
Qed.

(** *** The table in double arithmetic *)
Lemma fexp_valid : Valid_exp (SpecFloat.fexp 53 1024).
Proof. exact (fexp_correct 53 1024 _). Qed.
Lemma rnd_valid : Valid_rnd (round_mode mode_NE).
Proof. exact (valid_rnd_round_mode mode_NE). Qed.
Lemma d_of_big : forall z, 2 ^ 1024 <= z -> d_of z 0 = B754_infinity false.
Proof.
  intros z Hz. pose proof (binary_normalize_correct 53 1024 _ _ mode_NE z 0 false) as H. cbv zeta in H.
  assert (F : F2R (Float radix2 z 0) = IZR z) by (unfold F2R; cbn; ring). rewrite F in H.
  assert (B : (bpow radix2 1024 <= IZR z)%R) by (change (bpow radix2 1024) with (IZR (2 ^ 1024)); now apply IZR_le).
  assert (L : (bpow radix2 1024 <= round radix2 (SpecFloat.fexp 53 1024) (round_mode mode_NE) (IZR z))%R).
  { apply round_ge_generic; [exact fexp_valid|exact rnd_valid| |]. - apply generic_format_bpow. vm_compute. discriminate. - exact B. }
  rewrite Rlt_bool_false in H by (rewrite Rabs_pos_eq; [exact L|]; apply Rle_trans with (2 := L); apply bpow_ge_0).
  rewrite Rlt_bool_false in H by (apply Rle_trans with (2 := B); apply bpow_ge_0).
  apply B2SF_inj. exact H.
Qed.
Lemma d_of_fin : forall z, 0 <= z <= 2 ^ 1023 -> is_finite (d_of z 0) = true.
Proof.
  intros z Hz. pose proof (binary_normalize_correct 53 1024 _ _ mode_NE z 0 false) as H. cbv zeta in H.
  assert (F : F2R (Float radix2 z 0) = IZR z) by (unfold F2R; cbn; ring). rewrite F in H.
  assert (U : (round radix2 (SpecFloat.fexp 53 1024) (round_mode mode_NE) (IZR z) <= bpow radix2 1023)%R).
  { apply round_le_generic; [exact fexp_valid|exact rnd_valid| |]. - apply generic_format_bpow; vm_compute; discriminate.
    - change (bpow radix2 1023) with (IZR (2 ^ 1023)). apply IZR_le. lia. }
  assert (L : (0 <= round radix2 (SpecFloat.fexp 53 1024) (round_mode mode_NE) (IZR z))%R).
  { apply round_ge_generic; [exact fexp_valid|exact rnd_valid| |]. - apply generic_format_0. - apply IZR_le. lia. }
  rewrite Rlt_bool_true in H. { apply H. }
  rewrite Rabs_pos_eq by exact L. apply Rle_lt_trans with (1 := U). apply bpow_lt. lia.
Qed.
Lemma pow_bounds : 2 ^ 1024 <= 10 ^ 46 * 10 ^ 263 /\ 10 ^ 47 * 10 ^ 260 <= 2 ^ 1023.
Proof. split; apply Z.leb_le; vm_compute; reflexivity. Qed.
Lemma in_first : forall A (l : list A) i k x, nth_error l i = Some x -> (i < k)%nat -> In x (firstn k l).
Proof.
  induction l as [|y l IH]; intros [|i] [|k] x H L; cbn in *; try discriminate H; try lia; [injection H as <-; auto|]. right. apply (IH i); [exact H|lia].
Qed.
Lemma in_rest : forall A (l : list A) i k x, nth_error l i = Some x -> (k <= i)%nat -> In x (skipn k l).
Proof.
  induction l as [|y l IH]; intros i [|k] x H L; cbn [skipn].
  - now apply nth_error_In in H.
  - destruct i; discriminate H.
  - now apply nth_error_In in H.
  - destruct i as [|i]; [lia|]. cbn in H. apply (IH i); [exact H|lia].
Qed.
Lemma large_entries : forallb (fun x => 263 <=? snd x) (skipn 171 pre_factorial) = true.
Proof. vm_compute. reflexivity. Qed.
Lemma small_entries : forallb (fun x => (snd x <=? 260) && (fst x <? 10 ^ 47) && (0 <=? fst x)) (firstn 171 pre_factorial) = true.
Proof. vm_compute. reflexivity. Qed.
(** C84: as a double the factorial is finite exactly below 171! *)
Theorem factorial_double : forall i, (i < max_n)%nat -> exists x, tabulated_factorial i = Some x /\
  ((i <= 170)%nat -> is_finite x = true) /\ ((171 <= i)%nat -> x = B754_infinity false).
Proof.
  intros i Hi. unfold tabulated_factorial. destruct (Nat.ltb_spec i max_n); [|lia].
  destruct factorial_table_right as [HL HT]. destruct (nth_error pre_factorial i) as [x|] eqn:E.
  2: { apply nth_error_None in E. unfold max_n in Hi. lia. }
  exists (entry_dbl x). split; [reflexivity|]. unfold entry_dbl, entry_int. split; intro Hs.
  - pose proof (proj1 (forallb_forall _ _) small_entries x) as S.
    assert (Hin : In x (firstn 171 pre_factorial)) by (apply in_first with i; [exact E|lia]).
    specialize (S Hin). cbv beta in S. apply andb_prop in S. destruct S as [S S3]. apply andb_prop in S. destruct S as [S1 S2]. apply Z.leb_le in S1, S3. apply Z.ltb_lt in S2.
    apply d_of_fin. destruct pow_bounds as [_ B]. destruct (Z.leb_spec 0 (snd x)) as [K|K].
    + assert (10 ^ snd x <= 10 ^ 260) by (apply Z.pow_le_mono_r; lia). assert (0 < 10 ^ snd x) by (apply Z.pow_pos_nonneg; lia). nia.
    + assert (0 < 10 ^ (- snd x)) by (apply Z.pow_pos_nonneg; lia). split; [apply Z.div_pos; lia|].
      apply Z.le_trans with (fst x); [apply Z.div_le_upper_bound; nia|]. assert (0 < 10 ^ 260) by (apply Z.pow_pos_nonneg; lia). nia.
  - pose proof (proj1 (forallb_forall _ _) large_entries x) as S.
    assert (Hin : In x (skipn 171 pre_factorial)) by (apply in_rest with i; [exact E|lia]).
    specialize (S Hin). cbv beta in S. apply Z.leb_le in S. specialize (HT i x E). destruct x as [m k]. cbn [fst snd] in *. destruct HT as [[HT _]|[_ [HT _]]]; [lia|].
    destruct (Z.leb_spec 0 k); [|lia]. apply d_of_big. destruct pow_bounds as [B _].
    assert (10 ^ 263 <= 10 ^ k) by (apply Z.pow_le_mono_r; lia). assert (0 < 10 ^ 46) by (apply Z.pow_pos_nonneg; lia). nia.
Qed.

(** *** Values that are not finite stay so *)
Lemma mul_nf : forall x y : dbl, is_finite y = false -> is_finite (d_mul x y) = false.
Proof. intros [] [] H; try discriminate H; reflexivity. Qed.
Lemma sub_nf : forall x y : dbl, is_finite y = false -> is_finite (d_sub x y) = false.
Proof. intros [] [] H; try discriminate H; cbn; try reflexivity. destruct (Bool.eqb _ _); reflexivity. Qed.
Lemma div_nf : forall x y : dbl, is_finite x = false -> is_finite (d_div x y) = false.
Proof. intros [] [] H; try discriminate H; reflexivity. Qed.

(** *** The loops return *)
Lemma Ret_inj : forall A (x y : A), Ret x = Ret y -> x = y.
Proof. intros A x y H. injection H. auto. Qed.
Lemma each_ret : forall S (I : nat -> S -> Prop) f l k s,
  (forall j i s, nth_error l j = Some i -> I (k + j)%nat s -> exists s', f i s = Ret s' /\ I (k + j + 1)%nat s') -> I k s ->
  exists s', each l f s = Ret s' /\ I (k + length l)%nat s'.
Proof.
  intros S I f. induction l as [|i l IH]; intros k s Hf Hs; cbn [each length].
  - exists s. rewrite Nat.add_0_r. auto.
  - destruct (Hf 0%nat i s eq_refl) as [s' [E Hs']]; [now rewrite Nat.add_0_r|]. rewrite E. cbn [obnd]. rewrite Nat.add_0_r in Hs'.
    destruct (IH (k + 1)%nat s') as [t [Et Ht]].
    + intros j i' s1 Hj H1. destruct (Hf (Datatypes.S j) i' s1 Hj) as [s2 [E2 H2]]; [replace (k + Datatypes.S j)%nat with (k + 1 + j)%nat by lia; exact H1|].
      exists s2. split; auto. replace (k + 1 + j + 1)%nat with (k + Datatypes.S j + 1)%nat by lia. exact H2.
    + exact Hs'.
    + exists t. split; auto. replace (k + Datatypes.S (length l))%nat with (k + 1 + length l)%nat by lia. exact Ht.
Qed.
Lemma collect_ret : forall A (f : nat -> out A) l, (forall i, In i l -> exists x, f i = Ret x) -> exists r, collect f l = Ret r /\ length r = length l.
Proof.
  induction l as [|i l IH]; intros H; cbn [collect]; [exists []; auto|]. destruct (H i (or_introl eq_refl)) as [x ->]. cbn [obnd].
  destruct IH as [r [-> Hr]]; [intros j Hj; apply H; now right|]. cbn [obnd]. exists (x :: r). cbn. auto.
Qed.
Lemma vset_ret : forall A (l : list A) i x, (i < length l)%nat -> exists l', vset l i x = Some l' /\ length l' = length l.
Proof. intros A l i x H. unfold vset. destruct (nth_error l i) eqn:E; [|apply nth_error_None in E; lia]. eexists. split; [reflexivity|]. apply Util.upd_length. Qed.
Lemma nth_ret : forall A (l : list A) i, (i < length l)%nat -> exists x, nth_error l i = Some x.
Proof. intros A l i H. destruct (nth_error l i) eqn:E; [eauto|]. apply nth_error_None in E. lia. Qed.
Lemma rev_seq_lt : forall m j i, nth_error (rev (seq 0 m)) j = Some i -> (i < m)%nat /\ (j < m)%nat.
Proof.
  intros m j i H. split.
  - apply nth_error_In in H. rewrite <- in_rev in H. apply in_seq in H. lia.
  - assert (X : nth_error (rev (seq 0 m)) j <> None) by (rewrite H; discriminate). apply nth_error_Some in X. rewrite rev_length, seq_length in X. exact X.
Qed.
Lemma eval_ret : forall ld p x, (ld < length p)%nat -> exists v, eval_poly ld p x = Ret v.
Proof.
  intros ld p x H. unfold eval_poly. destruct (each_ret _ (fun _ _ => True) (fun i acc => c <~ ub (nth_error p i);; Ret (d_add (d_mul acc x) c)) (rev (seq 0 (S ld))) 0 d_zero) as [v [E _]]; auto.
  - intros j i s Hj _. apply rev_seq_lt in Hj. destruct (nth_ret _ p i) as [c ->]; [lia|]. cbn [ub obnd]. eexists. split; [reflexivity|exact I].
  - exists v. exact E.
Qed.
Lemma integrate_ret : forall ld p, (S ld < length p)%nat -> exists q, integrate_poly ld p = Ret q /\ length q = length p.
Proof.
  intros ld p H. unfold integrate_poly.
  destruct (each_ret _ (fun _ q => length q = length p) (fun i p => c <~ ub (nth_error p i);; ub (vset p (S i) (d_div c (d_add (d_of (Z.of_nat i) 0) d_one)))) (rev (seq 0 (S ld))) 0 p) as [q [E L]]; auto.
  - intros j i s Hj Hs. apply rev_seq_lt in Hj. destruct (nth_ret _ s i) as [c ->]; [lia|]. cbn [ub obnd].
    destruct (vset_ret _ s (S i) (d_div c (d_add (d_of (Z.of_nat i) 0) d_one))) as [q [-> Hq]]; [lia|]. cbn [ub]. exists q. split; [reflexivity|lia].
  - rewrite E. cbn [obnd]. destruct (vset_ret _ q 0 d_zero) as [q' [-> Hq]]; [lia|]. cbn [ub]. exists q'. split; [reflexivity|lia].
Qed.
(** relative_volume returns P[0] rd! up to the sign *)
Lemma relative_volume_ret : forall rd b, (rd < max_n)%nat -> (rd <= length b)%nat ->
  exists c f, tabulated_factorial rd = Some f /\ relative_volume rd b = Ret (if Nat.odd rd then Bopp (d_mul c f) else d_mul c f).
Proof.
  intros rd b Hr Hb. unfold relative_volume.
  destruct (factorial_double rd Hr) as [f [Hf _]].
  match goal with |- context [each ?l ?g ?s0] => destruct (each_ret _ (fun k (s : nat * list dbl) => fst s = k /\ length (snd s) = S rd) g l 0%nat s0) as [[ld p] [E [I1 I2]]] end.
  - intros j i [ld p] Hj [E1 E2]. cbn [fst snd] in E1, E2. apply rev_seq_lt in Hj. cbn [Nat.add] in E1. subst ld.
    destruct (integrate_ret j p) as [q [-> Hq]]; [lia|]. cbn [obnd]. destruct (nth_ret _ b i) as [x ->]; [lia|]. cbn [ub obnd].
    destruct (nth_ret _ b (rd - 1)) as [y ->]; [lia|]. cbn [ub obnd]. destruct (eval_ret (S j) q (d_div x y)) as [v ->]; [lia|]. cbn [obnd].
    destruct (vset_ret _ q 0 (d_mul (d_of (-1) 0) v)) as [q' [-> Hq']]; [lia|]. cbn [ub obnd]. exists (S j, q'). cbn [fst snd]. repeat split; lia.
  - cbn [fst snd length]. now rewrite repeat_length.
  - rewrite E. cbn [obnd snd]. destruct (nth_ret _ p 0) as [c ->]; [cbn [snd] in I2; lia|]. cbn [ub obnd]. rewrite Hf. cbn [ub obnd]. eauto.
Qed.
Lemma relative_volume_nf : forall rd b, (171 <= rd < max_n)%nat -> (rd <= length b)%nat -> exists v, relative_volume rd b = Ret v /\ is_finite v = false.
Proof.
  intros rd b Hr Hb. destruct (relative_volume_ret rd b) as [c [f [Hf E]]]; [lia|exact Hb|]. eexists. split; [exact E|].
  destruct (factorial_double rd) as [x [Hx [_ X]]]; [lia|]. rewrite Hf in Hx. injection Hx as <-. rewrite X by lia.
  destruct (Nat.odd rd); [rewrite is_finite_Bopp|]; now apply mul_nf.
Qed.

(** *** Dimensions from 342 on *)
Section C84.
Variable dpow : dbl -> dbl -> dbl.
Variables dlog dexp : dbl -> dbl.
Notation metric_of := (measure_metric dpow dlog dexp).

Lemma svp_evec_throws : forall n b, (171 <= n / 2 < max_n)%nat -> (n / 2 <= length b)%nat -> svp_probability_evec dpow n b = Throw Range.
Proof.
  intros n b Hd Hb. unfold svp_probability_evec. set (d := (n / 2)%nat) in *.
  match goal with |- context [collect ?g ?l] => destruct (collect_ret _ g l) as [bm [-> Hm]] end.
  { intros i Hi. apply in_seq in Hi. destruct (nth_ret _ b i) as [x ->]; [lia|]. cbn [ub obnd]. eexists. reflexivity. }
  rewrite seq_length in Hm. cbn [obnd]. destruct (relative_volume_nf d b) as [v [-> Hv]]; [lia|lia|]. cbn [obnd].
  destruct (relative_volume_nf d bm) as [v2 [-> Hv2]]; [lia|lia|]. cbn [obnd]. cbv zeta.
  rewrite div_nf; [reflexivity|]. apply sub_nf. exact Hv.
Qed.
Lemma halves_throw : forall n f b, (342 <= n)%nat -> length b = n -> (forall b, length b = (n / 2)%nat -> f b = Throw Range) -> of_halves n f b = Throw Range.
Proof.
  intros n f b Hn Hb Hf. unfold of_halves. set (d := (n / 2)%nat) in *. pose proof (Nat.div_mod n 2 ltac:(lia)) as DM. pose proof (Nat.mod_upper_bound n 2 ltac:(lia)) as MB. fold d in DM.
  destruct (Nat.eqb_spec (length b) d); [apply Hf; exact e|]. unfold half_of. fold d.
  match goal with |- context [collect ?g ?l] => destruct (collect_ret _ g l) as [lo [-> Hl]] end.
  { intros i Hi. apply in_seq in Hi. destruct (nth_ret _ b (2 * i + 0)) as [x E]; [lia|]. rewrite E. cbn [ub obnd]. eexists. reflexivity. }
  rewrite seq_length in Hl. cbn [obnd]. rewrite (Hf lo Hl). reflexivity.
Qed.
(** C84: from dimension 342 on, the probability of success in double arithmetic is never
    computed: an exception is thrown, whatever the coefficients *)
Theorem svp_probability_throws : forall pr, (342 <= length pr < 2 * max_n)%nat -> svp_probability dpow pr = Throw Range.
Proof.
  intros pr Hn. unfold svp_probability. unfold measure_metric at 1.
  pose proof (Nat.div_mod (length pr) 2 ltac:(lia)) as DM. pose proof (Nat.mod_upper_bound (length pr) 2 ltac:(lia)) as MB.
  assert (Hd : (171 <= length pr / 2 < max_n)%nat) by lia.
  destruct (Nat.eqb_spec (length pr) (length pr / 2)); [lia|].
  match goal with |- context [collect ?g ?l] => destruct (collect_ret _ g l) as [b [-> Hb]] end.
  { intros i Hi. apply in_seq in Hi. unfold osub. destruct (Nat.leb_spec (1 * i + 1) (length pr)); [|lia]. cbn [ub obnd].
    destruct (nth_ret _ pr (length pr - (1 * i + 1))) as [x ->]; [lia|]. cbn [ub obnd]. eexists. reflexivity. }
  rewrite seq_length in Hb. cbn [obnd measure]. apply halves_throw; [lia|exact Hb|]. intros b' Hb'. apply svp_evec_throws; [exact Hd|lia].
Qed.

(** +inf or NaN *)
Definition lost (x : dbl) : Prop := x = B754_infinity false \/ x = B754_nan.
Lemma add_lost : forall x y : dbl, lost x -> lost (d_add x y).
Proof. intros x y [-> | ->]; unfold lost; [|destruct y; cbn; auto]. destruct y as [s|s| |s m e p]; cbn; auto. destruct s; cbn; auto. Qed.
(** the C library: log and exp of values that are not finite *)
Definition log_ok : Prop := dlog (B754_infinity false) = B754_infinity false /\ dlog (B754_infinity true) = B754_nan /\ dlog B754_nan = B754_nan.
Definition exp_ok : Prop := dexp (B754_infinity false) = B754_infinity false /\ dexp B754_nan = B754_nan.
(** C84: no metric is computed in double arithmetic from dimension 342 on *)
Theorem metric_never_returns : forall n ipv nr sy bv mt pr e, log_ok -> exp_ok -> (342 <= n)%nat -> metric_of n ipv nr sy bv mt pr <> Ret e.
Proof.
  intros n ipv nr sy bv mt pr e HL HE Hn H.
  pose proof (Nat.div_mod n 2 ltac:(lia)) as DM. pose proof (Nat.mod_upper_bound n 2 ltac:(lia)) as MB.
  assert (RV : forall b v, relative_volume (n / 2) b = Ret v -> is_finite v = false).
  { intros b v Hv. destruct (Nat.le_gt_cases max_n (n / 2)) as [L|L].
    - exfalso. unfold relative_volume in Hv.
      destruct (each (rev (seq 0 (n / 2))) _ _) as [s| | |]; try discriminate Hv. cbn [obnd] in Hv. destruct (ub (nth_error (snd s) 0)); try discriminate Hv. cbn [obnd] in Hv.
      unfold tabulated_factorial in Hv. destruct (Nat.ltb_spec (n / 2) max_n); [lia|]. discriminate Hv.
    - destruct (factorial_double (n / 2) L) as [f [Hf [_ X]]]. unfold relative_volume in Hv.
      destruct (each (rev (seq 0 (n / 2))) _ _) as [s| | |]; try discriminate Hv. cbn [obnd] in Hv. destruct (ub (nth_error (snd s) 0)) as [c| | |]; try discriminate Hv. cbn [obnd] in Hv.
      rewrite Hf in Hv. cbn [ub obnd] in Hv. cbv zeta in Hv. apply Ret_inj in Hv. subst v. rewrite X by lia. destruct (Nat.odd (n / 2)); [rewrite is_finite_Bopp|]; now apply mul_nf. }
  assert (EV : forall b r, match mt with MProbability => svp_probability_evec dpow n b | MSolutions => expected_solutions_evec dlog dexp n ipv nr sy bv b end <> Ret r).
  { intros b r Hr. destruct mt.
    - unfold svp_probability_evec in Hr. destruct (collect _ _) as [bm| | |]; try discriminate Hr. cbn [obnd] in Hr.
      destruct (relative_volume (n / 2) b) as [v| | |] eqn:E1; try discriminate Hr. cbn [obnd] in Hr.
      destruct (relative_volume (n / 2) bm) as [v2| | |] eqn:E2; try discriminate Hr. cbn [obnd] in Hr. cbv zeta in Hr.
      rewrite div_nf in Hr; [discriminate Hr|]. apply sub_nf. apply (RV b). exact E1.
    - unfold expected_solutions_evec in Hr. destruct (relative_volume (n / 2) b) as [v| | |] eqn:E1; try discriminate Hr. cbn [obnd] in Hr.
      destruct (ub (osub (2 * (n / 2)) 1)) as [j| | |]; try discriminate Hr. cbn [obnd] in Hr. destruct (ub (bv (j + 1)%nat)) as [w| | |]; try discriminate Hr. cbn [obnd] in Hr.
      destruct (ub (nth_error b (j / 2))) as [bj| | |]; try discriminate Hr. cbn [obnd] in Hr. destruct (ub (nth_error ipv j)) as [pj| | |]; try discriminate Hr. cbn [obnd] in Hr. cbv zeta in Hr.
      assert (L : lost (dlog v)). { specialize (RV b v E1). destruct HL as [L1 [L2 L3]]. destruct v as [s|s| |s m ex p]; try discriminate RV; [destruct s; [rewrite L2; now right|rewrite L1; now left]|rewrite L3; now right]. }
      match type of Hr with (if is_finite (dexp ?t) then _ else _) = _ => assert (T : lost t) by (repeat apply add_lost; exact L); set (z := t) in * end.
      destruct HE as [X1 X2]. destruct T as [T|T]; rewrite T in Hr; [rewrite X1 in Hr|rewrite X2 in Hr]; discriminate Hr. }
  unfold measure_metric in H. destruct (collect _ _) as [b| | |]; try discriminate H. cbn [obnd] in H. unfold measure, of_halves in H.
  destruct mt.
  - destruct (length b =? n / 2)%nat; [exact (EV b e H)|]. destruct (half_of n 0 b) as [lo| | |]; try discriminate H. cbn [obnd] in H.
    destruct (svp_probability_evec dpow n lo) as [x| | |] eqn:E; try discriminate H. exact (EV lo x E).
  - destruct (length b =? n / 2)%nat; [exact (EV b e H)|]. destruct (half_of n 0 b) as [lo| | |]; try discriminate H. cbn [obnd] in H.
    destruct (expected_solutions_evec dlog dexp n ipv nr sy bv lo) as [x| | |] eqn:E; try discriminate H. exact (EV lo x E).
Qed.
(** C84: prune() in double arithmetic does not return from dimension 342 on, whatever the
    optimisation does *)
Theorem prune_never_returns : forall n ipv nr sy bv opt cost gh mt radius pr r, log_ok -> exp_ok -> (342 <= n)%nat ->
  prune_with dpow dlog dexp n ipv nr sy bv opt cost gh mt radius pr <> Ret r.
Proof.
  intros n ipv nr sy bv opt cost gh mt radius pr r HL HE Hn H. unfold prune_with in H.
  destruct (opt pr) as [pr'| | |]; try discriminate H. cbn [obnd] in H. destruct (cost pr') as [det| | |]; try discriminate H. cbn [obnd] in H.
  destruct gh as [g| | |]; try discriminate H. cbn [obnd] in H. destruct (metric_of n ipv nr sy bv mt pr') as [e| | |] eqn:E; try discriminate H.
  exact (metric_never_returns n ipv nr sy bv mt pr' e HL HE Hn E).
Qed.
(** C84: below 342 the tables are no obstacle: the volumes are P[0] times a finite number *)
Theorem small_dimension_defined : forall rd b, (rd <= 170)%nat -> (rd <= length b)%nat ->
  exists c f, is_finite f = true /\ relative_volume rd b = Ret (if Nat.odd rd then Bopp (d_mul c f) else d_mul c f).
Proof.
  intros rd b Hr Hb. destruct (relative_volume_ret rd b) as [c [f [Hf E]]]; [unfold max_n; lia|exact Hb|].
  exists c, f. split; [|exact E]. destruct (factorial_double rd) as [x [Hx [X _]]]; [unfold max_n; lia|]. rewrite Hf in Hx. injection Hx as <-. now apply X.
Qed.
End C84.

(** the limit PRUNER_MAX_N = 2047 of the source is not reached *)
Theorem max_dimension_refuted : exists n, (n < max_n)%nat /\ forall dpow pr, length pr = n -> svp_probability dpow pr = Throw Range.
Proof. exists 342%nat. split; [unfold max_n; lia|]. intros dpow pr H. apply svp_probability_throws. unfold max_n. lia. Qed.

(** *** The checks of the constructor *)
(** C84: accepted are targets between 0 and 1, for expected solutions positive ones; single and half
    exclude each other *)
Theorem constructor_accepts : forall single half mt t, is_finite t = true ->
  (ctor_accepts single half mt t = true <->
   ~ (single = true /\ half = true) /\
   match mt with Some MProbability => (0 < B2R t < 1)%R | Some MSolutions => (0 < B2R t)%R | None => False end).
Proof.
  intros single half mt t F. destruct one_val as [F1 V1]. unfold ctor_accepts, d_le.
  rewrite (Bleb_correct 53 1024 d_one t F1 F), (Bleb_correct 53 1024 t d_zero F eq_refl), V1. change (B2R d_zero) with 0%R.
  destruct single, half; cbn [andb]; try (split; [intros H; discriminate H|intros [H _]; exfalso; apply H; auto]);
    (destruct mt as [[]|]; [| |split; [intros H; discriminate H|intros [_ []]]]);
    rewrite negb_true_iff; rewrite ?orb_false_iff;
    (split; [intros H; split; [intros [A B]; discriminate A || discriminate B|]|intros [_ H]]).
  all: try (destruct H; destruct (Rle_bool_spec 1 (B2R t)); [discriminate|]; destruct (Rle_bool_spec (B2R t) 0); [discriminate|]; lra).
  all: try (split; [apply Rle_bool_false|apply Rle_bool_false]; lra).
  all: try (destruct (Rle_bool_spec (B2R t) 0); [discriminate H|]; lra).
  all: try (apply Rle_bool_false; lra).
Qed.
(** a NaN is accepted as the target of either metric *)
Theorem nan_target_refuted : exists t : dbl, d_lt d_zero t = false /\ ctor_accepts false false (Some MProbability) t = true /\ ctor_accepts false false (Some MSolutions) t = true.
Proof. exists B754_nan. repeat split. Qed.

(** *** Instances *)
Example table_case : nth_error pre_factorial 50 = Some (30414093201713378043612608166064768844377641568, 18)
  /\ (30414093201713378043612608166064768844377641568 * 10 ^ 18 = 30414093201713378043612608166064768844377641568000000000000000000).
Proof. split; vm_compute; reflexivity. Qed.
(** the probability of four bounds 1 is 1 in double arithmetic, of bounds (1, 1, 1/2, 1/2) a number below 1 *)
Definition pow4 (x y : dbl) : dbl := d_mul (d_mul x x) (d_mul x x).
Definition holds_of (o : out dbl) (P : dbl -> bool) : bool := match o with Ret p => P p | _ => false end.
Example small_case : holds_of (svp_probability pow4 [d_one; d_one; d_one; d_one]) (fun p => negb (d_lt p d_one) && negb (d_lt d_one p)) = true /\
  holds_of (svp_probability pow4 [d_one; d_one; d_of 1 (-1); d_of 1 (-1)]) (fun p => d_lt d_zero p && d_lt p d_one) = true.
Proof. split; vm_compute; reflexivity. Qed.
(** 342 coefficients 1: the exception *)
Example large_case : svp_probability pow4 (repeat d_one 342) = Throw Range.
Proof. apply svp_probability_throws. rewrite repeat_length. unfold max_n. lia. Qed.
(** functions that behave like log and exp on values that are not finite *)
Definition some_log (x : dbl) : dbl := match x with B754_infinity false => x | B754_finite false _ _ _ => d_zero | _ => B754_nan end.
Definition some_exp (x : dbl) : dbl := match x with B754_infinity false => x | B754_nan => x | _ => d_one end.
Example lost_case : log_ok some_log /\ exp_ok some_exp.
Proof. repeat split. Qed.
Example ctor_case : ctor_accepts false true (Some MProbability) (d_of 1 (-1)) = true /\ ctor_accepts true false (Some MSolutions) (d_of 3 0) = true /\
  ctor_accepts true true (Some MSolutions) (d_of 3 0) = false /\ ctor_accepts false false (Some MProbability) d_one = false.
Proof. repeat split; vm_compute; reflexivity. Qed.

Print Assumptions factorial_table_right.
Print Assumptions factorial_double.
Print Assumptions svp_probability_throws.
Print Assumptions metric_never_returns.
Print Assumptions prune_never_returns.
Print Assumptions small_dimension_defined.
Print Assumptions constructor_accepts.
