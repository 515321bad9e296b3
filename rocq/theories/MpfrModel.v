(** The floating-point type FP_NR<mpfr_t> (nr_FP_mpfr.inl) at precision p: every
    operation is the exact one followed by rounding to p significant bits, to
    nearest, ties to even (the default rounding mode GMP_RNDN of the calls).
    A number is m * 2^e.  Not modelled: NaN, infinities, the bounds of mpfr's
    exponent (division by zero and the square root of a negative number give 0
    here; the runs in which the type is used do not reach them). *)
From Coq Require Import List ZArith Lia Bool.
From Verif Require Import HouseModel.
Import ListNotations.
Local Open Scope Z_scope.

(** mantissa and exponent *)
Definition mp := (Z * Z)%type.

(** number of bits of |m| *)
Definition bits (m : Z) : Z := if m =? 0 then 0 else Z.log2 (Z.abs m) + 1.

(** the correctly rounded result of an mpfr operation with exact value m * 2^e (nr_FP_mpfr.inl:141-175) *)
Definition rn (p : Z) (x : mp) : mp :=
  let '(m, e) := x in
  let k := bits m - p in
  if k <=? 0 then (m, e)
  else
    let a := Z.abs m in
    let q := a / 2 ^ k in
    let r := a mod 2 ^ k in
    let up := (2 ^ (k - 1) <? r) || ((2 ^ (k - 1) =? r) && Z.odd q) in
    (Z.sgn m * (if up then q + 1 else q), e + k).

(** exact operations *)
Definition xadd (x y : mp) : mp :=
  let e := Z.min (snd x) (snd y) in
  (fst x * 2 ^ (snd x - e) + fst y * 2 ^ (snd y - e), e).
(** exact product *)
Definition xmul (x y : mp) : mp := (fst x * fst y, snd x + snd y).
(** exact negation *)
Definition xneg (x : mp) : mp := (- fst x, snd x).
(** exact comparison (nr_FP_mpfr.inl cmp) *)
Definition xcmp (x y : mp) : comparison := fst (xadd x (xneg y)) ?= 0.

(** nr_FP_mpfr.inl:177-181 div: a quotient of at least p + 2 bits whose last bit
    says whether the division was inexact rounds like the exact quotient *)
Definition mdiv (p : Z) (x y : mp) : mp :=
  if fst y =? 0 then (0, 0)
  else
    let s := Z.max 0 (p + 2 + bits (fst y) - bits (fst x)) in
    let a := Z.abs (fst x) * 2 ^ s in
    let b := Z.abs (fst y) in
    let q := 2 * (a / b) + (if a mod b =? 0 then 0 else 1) in
    rn p (Z.sgn (fst x) * Z.sgn (fst y) * q, snd x - snd y - s - 1).

(** nr_FP_mpfr.inl:216-219 sqrt: likewise *)
Definition msqrt (p : Z) (x : mp) : mp :=
  if fst x <=? 0 then (0, 0)
  else
    let s0 := Z.max 0 (2 * p + 4 - bits (fst x)) in
    let s := if Z.even (snd x - s0) then s0 else s0 + 1 in
    let a := fst x * 2 ^ s in
    let q := Z.sqrt a in
    rn p (2 * q + (if q * q =? a then 0 else 1), (snd x - s) / 2 - 1).

(** nr_FP_mpfr.inl:240-243 rnd_we: mpfr_round, ties away from zero *)
Definition mround (x : mp) : mp :=
  let '(m, e) := x in
  if 0 <=? e then (m, e)
  else (Z.sgn m * ((2 * Z.abs m + 2 ^ (- e)) / (2 * 2 ^ (- e))), 0).

(** nr_FP_mpfr.inl:45-60 get_si_exp for a value that is an integer *)
Definition mtrunc (x : mp) : Z :=
  let '(m, e) := x in if 0 <=? e then m * 2 ^ e else Z.quot m (2 ^ (- e)).
(** exponent of mpfr: |x| in [2^(e-1), 2^e) *)
Definition mexp (x : mp) : Z := bits (fst x) + snd x.
(** nr_FP_mpfr.inl:45-60 get_si_exp *)
Definition msi (x : mp) : Z * nat :=
  let ex := if fst x =? 0 then 0 else Z.max (mexp x - 63) 0 in
  (mtrunc (fst x, snd x - ex), Z.to_nat ex).

(** the operations at precision p; get_z_exp (nr_FP_mpfr.inl) is only reached
    when [msi] has a positive exponent and returns the mantissa then *)
Definition mpfr_hops (p : Z) : hops :=
  mkhops mp
    (fun z => rn p (z, 0))
    (fun z => (rn p (z, - bits z), bits z))
    (fun x k => (fst x, snd x + k))
    (fun x y => rn p (xmul x y))
    (fun x y => rn p (xadd x y))
    (fun x y => rn p (xadd x (xneg y)))
    (mdiv p)
    xneg
    (msqrt p)
    (fun x => (Z.abs (fst x), snd x))
    (fun x a b => rn p (xadd x (xmul a b)))
    (0, 0) (1, 0) (-1, 0) (rn p (3602879701896397, -55))
    (fun x => fst x <? 0)
    (fun x => negb (fst x =? 0))
    (fun x => negb (fst x =? 0))
    (fun x => match xcmp x (1, 0) with Eq => true | _ => false end)
    (fun x => match xcmp x (-1, 0) with Eq => true | _ => false end)
    (fun x y => match xcmp x y with Gt => true | _ => false end)
    (fun x y => match xcmp x y with Gt => false | _ => true end)
    (fun x _ => mround x)
    (fun x _ => msi x)
    (fun x _ => if 0 <=? snd x then (fst x, Z.to_nat (snd x)) else (mtrunc x, 0%nat)).

(** HLLLReduction's delta, eta, theta: doubles converted to precision p (hlll.h:36-43);
    the values are the doubles 0.99, 0.51 and 0.001 (defs.h:143-149) *)
Definition mpfr_default (p : Z) : hpar (mpfr_hops p) :=
  mkhpar (mpfr_hops p) (rn p (4458563631096791, -52)) (rn p (2296835809958953, -52)) (rn p (1152921504606847, -60)).
(** the same with theta = 0 *)
Definition mpfr_theta0 (p : Z) : hpar (mpfr_hops p) :=
  mkhpar (mpfr_hops p) (rn p (4458563631096791, -52)) (rn p (2296835809958953, -52)) (0, 0).

(** [rn] rounds to a nearest p-bit number: at most p bits (or the next power of
    two), at distance at most half a unit *)
Lemma rn_near p m e : 0 < p ->
  let '(m', e') := rn p (m, e) in
  e <= e' /\ Z.abs m' <= 2 ^ p /\ 2 * Z.abs (m - m' * 2 ^ (e' - e)) <= (if e' =? e then 0 else 2 ^ (e' - e)).
Proof.
  intros Hp. unfold rn. destruct (Z.leb_spec (bits m - p) 0) as [H|H].
  - rewrite Z.sub_diag, Z.eqb_refl, Z.mul_1_r, Z.sub_diag. cbn [Z.abs Z.mul].
    split; [lia|]. split; [|lia]. unfold bits in H. destruct (Z.eqb_spec m 0).
    + subst. cbn. apply Z.pow_nonneg. lia.
    + pose proof (Z.log2_spec (Z.abs m) ltac:(lia)) as [_ L].
      assert (2 ^ Z.succ (Z.log2 (Z.abs m)) <= 2 ^ p) by (apply Z.pow_le_mono_r; lia). lia.
  - set (k := bits m - p) in *. unfold bits in *. destruct (Z.eqb_spec m 0); [lia|].
    assert (K : 0 < 2 ^ k) by (apply Z.pow_pos_nonneg; lia).
    assert (K1 : 2 ^ k = 2 * 2 ^ (k - 1)) by (rewrite <- Z.pow_succ_r by lia; f_equal; lia).
    pose proof (Z.div_mod (Z.abs m) (2 ^ k) ltac:(lia)) as DM.
    pose proof (Z.mod_pos_bound (Z.abs m) (2 ^ k) K) as MB.
    pose proof (Z.log2_spec (Z.abs m) ltac:(lia)) as [_ L].
    set (q := Z.abs m / 2 ^ k) in *. set (r := Z.abs m mod 2 ^ k) in *.
    assert (Q0 : 0 <= q) by (apply Z.div_pos; lia).
    assert (Q : q < 2 ^ p).
    { apply Z.div_lt_upper_bound; auto. rewrite <- Z.pow_add_r by lia.
      replace (k + p) with (Z.succ (Z.log2 (Z.abs m))) by lia. auto. }
    replace (e + k - e) with k by lia. destruct (Z.eqb_spec (e + k) e); [lia|].
    split; [lia|].
    assert (SG : forall y, 0 <= y -> Z.abs (Z.sgn m * y) = y) by (intros; destruct m; cbn [Z.sgn]; lia).
    assert (SD : forall y, Z.abs (m - Z.sgn m * y * 2 ^ k) = Z.abs (Z.abs m - y * 2 ^ k)).
    { intros y. set (t := 2 ^ k). clearbody t. destruct m; cbn [Z.sgn Z.abs]; try lia; f_equal; lia. }
    destruct (_ || _) eqn:E.
    + rewrite SG by lia. rewrite SD. split; [lia|].
      apply orb_true_iff in E. rewrite andb_true_iff, Z.ltb_lt, Z.eqb_eq in E.
      rewrite DM. set (t := 2 ^ k) in *. clearbody t. nia.
    + rewrite SG by lia. rewrite SD. split; [lia|].
      apply orb_false_iff in E. destruct E as [E _]. rewrite Z.ltb_ge in E.
      rewrite DM. set (t := 2 ^ k) in *. clearbody t. nia.
Qed.
