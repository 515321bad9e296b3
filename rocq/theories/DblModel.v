(** The floating-point types FP_NR<double> (nr/nr_FP_d.inl) and FP_NR<dpe_t>
    (nr/nr_FP_dpe.inl, nr/dpe.h).

    A double is an IEEE 754 binary64 datum (Flocq's [binary_float 53 1024]: signed
    zeros, subnormal and normal numbers, infinities, one NaN); the C operations
    + - * / sqrt and ldexp round to nearest, ties to even.  Results of type int
    and long that do not fit are undefined behaviour: [None]. *)
From Coq Require Import List ZArith Lia Bool.
From Flocq Require Import Zaux BinarySingleNaN.
Import ListNotations.
Local Open Scope Z_scope.

(** binary64: 53 bits, exponents below 1024 (nr_FP_d.inl:1-12 F = double) *)
Definition dbl := binary_float 53 1024.
Global Instance prec53 : FLX.Prec_gt_0 53. Proof. reflexivity. Qed.
Global Instance prec53_1024 : Prec_lt_emax 53 1024. Proof. reflexivity. Qed.

(** the C operations on doubles used below (math.h; nr_FP_d.inl:143-185) *)
Definition d_add : dbl -> dbl -> dbl := Bplus mode_NE.
(** y - z *) Definition d_sub : dbl -> dbl -> dbl := Bminus mode_NE.
(** y * z *) Definition d_mul : dbl -> dbl -> dbl := Bmult mode_NE.
(** y / z *) Definition d_div : dbl -> dbl -> dbl := Bdiv mode_NE.
(** sqrt(y) *) Definition d_sqrt : dbl -> dbl := Bsqrt mode_NE.
(** ldexp(y, e) *) Definition d_ldexp : dbl -> Z -> dbl := Bldexp mode_NE.
(** rint, current rounding mode to nearest even *) Definition d_rint : dbl -> dbl := Bnearbyint mode_NE.
(** round, ties away from zero *) Definition d_round : dbl -> dbl := Bnearbyint mode_NA.
(** m * 2^e as a double (a constant, or a conversion that is exact) *)
Definition d_of (m e : Z) : dbl := binary_normalize 53 1024 _ _ mode_NE m e false.
(** the constant 0.0 *) Definition d_zero : dbl := B754_zero false.
(** y < z, y > z, y == z *) Definition d_lt (y z : dbl) : bool := Bltb y z.
(** y == 0.0 *) Definition d_is0 (y : dbl) : bool := match y with B754_zero _ => true | _ => false end.

(** ranges of int and long *)
Definition INT_MIN : Z := - 2 ^ 31.
(** int arithmetic: overflow is undefined *)
Definition i32 (x : Z) : option Z := if (INT_MIN <=? x) && (x <? 2 ^ 31) then Some x else None.
(** long arithmetic: overflow is undefined *)
Definition i64 (x : Z) : option Z := if (- 2 ^ 63 <=? x) && (x <? 2 ^ 63) then Some x else None.
(** conversion of a long to int (the argument of ldexp, nr_FP_d.inl:52, 232): modulo 2^32 *)
Definition to_int (x : Z) : Z := (x + 2 ^ 31) mod 2 ^ 32 - 2 ^ 31.
(** static_cast<long>(y): undefined unless the truncated value fits *)
Definition d_to_long (y : dbl) : option Z := if is_finite y then i64 (Btrunc y) else None.

Section ILogB.
(** ilogb(0) is FP_ILOGB0, either INT_MIN or -INT_MAX, ilogb(NaN) is FP_ILOGBNAN
    (C 7.12): implementation-defined *)
Variables ilogb0 ilogbnan : Z.

(** ilogb (math.h): floor(log2 |y|) for finite non-zero y, INT_MAX for infinities *)
Definition ilogb (y : dbl) : Z :=
  match y with
  | B754_finite _ m e _ => Z.log2 (Zpos m) + e
  | B754_zero _ => ilogb0
  | B754_infinity _ => 2 ^ 31 - 1
  | B754_nan => ilogbnan
  end.

(** nr_FP_d.inl:44 exponent: the addition is in int *)
Definition d_exponent (y : dbl) : option Z := i32 (ilogb y + 1).

(** sequencing: undefined behaviour ends the run *)
Definition bind {A B} (o : option A) (f : A -> option B) : option B := match o with Some a => f a | None => None end.
Notation "x <- e ;; k" := (bind e (fun x => k)) (at level 60, e at next level, right associativity).

(** nr_FP_d.inl:46-53 get_si_exp_we: the returned long and expo *)
Definition d_get_si_exp_we (y : dbl) (expo_add : Z) : option (Z * Z) :=
  expo <- (if d_is0 y then Some 0
           else ex <- d_exponent y;; a <- i64 (ex + expo_add);; b <- i64 (a - 63);; Some (Z.max b 0));;
  sh <- i64 (expo_add - expo);;
  si <- d_to_long (d_ldexp y (to_int sh));;
  Some (si, expo).

(** nr_FP_d.inl:226-233 rnd_we *)
Definition d_rnd_we (y : dbl) (expo_add : Z) : option dbl :=
  ex <- d_exponent y;; a <- i64 (ex + expo_add);;
  if 53 <=? a then Some y
  else neg <- i64 (- expo_add);; Some (d_ldexp (d_rint (d_ldexp y (to_int expo_add))) (to_int neg)).
End ILogB.
Notation "x <- e ;; k" := (bind e (fun x => k)) (at level 60, e at next level, right associativity).

(** ** dpe *)
(** dpe.h:106-110 dpe_struct: significand and exponent (int, dpe.h:95-97) *)
Record dpe := mkdpe { dm : dbl; de : Z }.

(** dpe.h:148-171 dpe_normalize, the branch of x86 processors (dpe.h:54-57
    DPE_LITTLEENDIAN32).  The exponent field of a normal number m * 2^e (m of 53
    bits) is e + 1075, that of a subnormal number is 0; the fraction field is m
    without its leading bit, respectively m.  Storing 1022 into the exponent field
    gives (2^52 + fraction) * 2^-53. *)
Definition dpe_normalize (x : dpe) : option dpe :=
  match dm x with
  | B754_zero _ => Some (mkdpe (dm x) INT_MIN)
  | B754_finite s m e _ =>
      let normal := 2 ^ 52 <=? Zpos m in
      let e_field := if normal then e + 1075 else 0 in
      let fraction := if normal then Zpos m - 2 ^ 52 else Zpos m in
      ex <- i32 (de x + (e_field - 1022));;
      let v := 2 ^ 52 + fraction in
      Some (mkdpe (d_of (if s then - v else v) (-53)) ex)
  | _ => Some x
  end.

(** dpe.h:127-131 dpe_set is the identity; 134-138 dpe_neg *)
Definition dpe_neg (y : dpe) : dpe := mkdpe (Bopp (dm y)) (de y).
(** dpe.h:141-145 dpe_abs *)
Definition dpe_abs (y : dpe) : dpe := mkdpe (if Bleb d_zero (dm y) then dm y else Bopp (dm y)) (de y).
(** dpe.h:203-208 dpe_set_d *)
Definition dpe_set_d (y : dbl) : option dpe := dpe_normalize (mkdpe y 0).

(** dpe.h:175-189 dpe_scale_tab: the decimal constants as mantissa and exponent
    of ten ([dpe_scale_tab_exact] in DblProofs.v: each is closer to 2^-i than
    half of the spacing of doubles, so the compiler's constant is 2^-i) *)
Definition dpe_scale_tab : list (Z * Z) := [
  (10000000000000000000, -19); (5000000000000000000, -19); (2500000000000000000, -19); (1250000000000000000, -19);
  (625000000000000000, -19); (312500000000000000, -19); (156250000000000000, -19); (78125000000000000, -19);
  (39062500000000000, -19); (19531250000000000, -19); (9765625000000000, -19); (4882812500000000, -19);
  (2441406250000000, -19); (1220703125000000, -19); (610351562500000, -19); (305175781250000, -19);
  (152587890625000, -19); (76293945312500000, -22); (38146972656250000, -22); (19073486328125000, -22);
  (95367431640625000, -23); (47683715820312500, -23); (23841857910156250, -23); (11920928955078125, -23);
  (59604644775390625, -24); (29802322387695312, -24); (14901161193847656, -24); (74505805969238281, -25);
  (37252902984619141, -25); (18626451492309570, -25); (93132257461547852, -26); (46566128730773926, -26);
  (23283064365386963, -26); (11641532182693481, -26); (58207660913467407, -27); (29103830456733704, -27);
  (14551915228366852, -27); (72759576141834259, -28); (36379788070917130, -28); (18189894035458565, -28);
  (90949470177292824, -29); (45474735088646412, -29); (22737367544323206, -29); (11368683772161603, -29);
  (56843418860808015, -30); (28421709430404007, -30); (14210854715202004, -30); (71054273576010019, -31);
  (35527136788005009, -31); (17763568394002505, -31); (88817841970012523, -32); (44408920985006262, -32);
  (22204460492503131, -32); (11102230246251565, -32)].

(** dpe.h:192-200 dpe_scale(d, s), -53 <= s <= 0 *)
Definition dpe_scale (d : dbl) (s : Z) : dbl := d_mul d (d_of 1 s).

(** dpe.h:310-333 dpe_add *)
Definition dpe_add (y z : dpe) : option dpe :=
  ez <- i32 (de z + 53);;
  if ez <? de y then Some y
  else
    ey <- i32 (de y + 53);;
    if ey <? de z then Some z
    else
      d <- i32 (de y - de z);;
      if 0 <=? d then dpe_normalize (mkdpe (d_add (dm y) (dpe_scale (dm z) (- d))) (de y))
      else dpe_normalize (mkdpe (d_add (dm z) (dpe_scale (dm y) d)) (de z)).

(** dpe.h:336-359 dpe_sub *)
Definition dpe_sub (y z : dpe) : option dpe :=
  ez <- i32 (de z + 53);;
  if ez <? de y then Some y
  else
    ey <- i32 (de y + 53);;
    if ey <? de z then Some (dpe_neg z)
    else
      d <- i32 (de y - de z);;
      if 0 <=? d then dpe_normalize (mkdpe (d_sub (dm y) (dpe_scale (dm z) (- d))) (de y))
      else dpe_normalize (mkdpe (d_sub (dpe_scale (dm y) d) (dm z)) (de z)).

(** dpe.h:362-367 dpe_mul *)
Definition dpe_mul (y z : dpe) : option dpe :=
  e <- i32 (de y + de z);; dpe_normalize (mkdpe (d_mul (dm y) (dm z)) e).
(** dpe.h:414-419 dpe_div *)
Definition dpe_div (y z : dpe) : option dpe :=
  e <- i32 (de y - de z);; dpe_normalize (mkdpe (d_div (dm y) (dm z)) e).
(** dpe.h:380-385 dpe_addmul *)
Definition dpe_addmul (x y z : dpe) : option dpe := yz <- dpe_mul y z;; dpe_add x yz.
(** dpe.h:388-393 dpe_submul *)
Definition dpe_submul (x y z : dpe) : option dpe := yz <- dpe_mul y z;; dpe_sub x yz.

(** dpe.h:396-410 dpe_sqrt; % and / of C truncate *)
Definition dpe_sqrt (y : dpe) : option dpe :=
  if Z.eqb (Z.rem (de y) 2) 0 then Some (mkdpe (d_sqrt (dm y)) (Z.quot (de y) 2))
  else e <- i32 (de y + 1);; Some (mkdpe (d_sqrt (d_mul (d_of 1 (-1)) (dm y))) (Z.quot e 2)).

(** dpe.h:438-442 dpe_mul_2si; (DPE_EXP_T)e is the conversion to int *)
Definition dpe_mul_2si (y : dpe) (e : Z) : option dpe :=
  ex <- i32 (de y + to_int e);; Some (mkdpe (dm y) ex).

(** dpe.h:116 DPE_SIGN *)
Definition dpe_sign (x : dpe) : Z := if d_lt (dm x) d_zero then -1 else if d_lt d_zero (dm x) then 1 else 0.
(** dpe.h:568-581 dpe_cmp *)
Definition dpe_cmp (x y : dpe) : Z :=
  let sx := dpe_sign x in
  let d := sx - dpe_sign y in
  if negb (d =? 0) then d
  else if de y <? de x then (if 0 <? sx then 1 else -1)
  else if de x <? de y then (if 0 <? sx then -1 else 1)
  else if d_lt (dm x) (dm y) then -1 else if d_lt (dm y) (dm x) then 1 else 0.
(** dpe.h:583-588 dpe_cmp_d, nr_FP_dpe.inl:75 cmp(double) *)
Definition dpe_cmp_d (x : dpe) (d : dbl) : option Z := y <- dpe_set_d d;; Some (dpe_cmp x y).
(** nr_FP_dpe.inl:77 sgn *)
Definition dpe_sgn (x : dpe) : option Z := dpe_cmp_d x d_zero.

(** dpe.h:605-617 dpe_round *)
Definition dpe_round (y : dpe) : option dpe :=
  if de y <? 0 then dpe_set_d d_zero
  else if 53 <=? de y then Some y
  else dpe_set_d (d_round (d_ldexp (dm y) (de y))).

(** dpe.h:252-257 dpe_set_z: mpz_get_d_2exp truncates to 53 bits, d in [1/2,1),
    and gives 0.0 and exponent 0 for 0; (DPE_EXP_T)e converts to int *)
Definition dpe_set_z (z : Z) : dpe :=
  if z =? 0 then mkdpe d_zero 0
  else
    let n := Z.log2 (Z.abs z) + 1 in
    let m := if n <=? 53 then z * 2 ^ (53 - n) else Z.quot z (2 ^ (n - 53)) in
    mkdpe (d_of m (-53)) (to_int n).

(** dpe.h:460-477 dpe_get_si_exp with 64-bit long, nr_FP_dpe.inl:48-62 get_si_exp *)
Definition dpe_get_si_exp (y : dpe) : option (Z * Z) :=
  r <- d_to_long (d_mul (dm y) (d_of 1 63));;
  expo <- i32 (de y - 63);;
  if d_is0 (dm y) then Some (r, 0)
  else if expo <? 0 then
    r' <- d_to_long (d_ldexp (d_of r 0) expo);; Some (r', 0)
  else Some (r, expo).

(** nr_FP_misc.inl:295-299 get_z_exp to Z_NR<mpz_t>; mpz_set_d truncates *)
Definition dpe_get_z_exp (y : dpe) : option (Z * Z) :=
  a <- i32 (de y - 53);;
  let expo := Z.max a 0 in
  sh <- i32 (de y - expo);;
  let d := d_ldexp (dm y) sh in
  if is_finite d then Some (Btrunc d, expo) else None.

(** nr_FP_dpe.inl:232-259 hypot *)
Definition dpe_hypot (a b : dpe) : option dpe :=
  one <- dpe_set_d (d_of 1 0);;
  let x := dpe_abs a in
  let t := dpe_abs b in
  if negb (dpe_cmp x t =? 0) then
    q <- dpe_div x t;; q2 <- dpe_mul q q;; s <- dpe_add q2 one;; r <- dpe_sqrt s;; dpe_mul r t
  else
    q <- dpe_div t x;; q2 <- dpe_mul q q;; s <- dpe_add q2 one;; r <- dpe_sqrt s;; dpe_mul x r.
