(** Conversions of integers to the floating-point types (set_z) and of double-double and quad-double
    numbers back (get_z_exp): nr/nr_FP_misc.inl, with get_d, get_ld (nr_Z_l.inl, nr_Z_mpz.inl) and
    LDConvHelper (nr_Z.inl).

    All numbers that occur are integers, so a double is the integer it holds; a dd_real is the pair
    of its doubles.  [None]: the number is too large for the type, or a conversion to int is
    undefined.  GMP and MPFR are taken with their documented meaning: mpz_get_d truncates, the mpfr
    functions round as told (set_z rounds to nearest by default, nr_FP.inl:127).  Of the library QD
    (not part of the repository) is used: assignment of a long converts it to double, dd_real(hi, lo)
    stores the two doubles, to_double is the first, to_int converts the first to int, comparisons
    are lexicographic.  A long has 64 bits, a long double a mantissa of 64 bits (x87). *)
From Coq Require Import ZArith Bool.
Local Open Scope Z_scope.

(** number of binary digits (mpz_sizeinbase, frexp; nr_Z.inl:285 counts them) *)
Definition digits (z : Z) : Z := if z =? 0 then 0 else Z.log2 (Z.abs z) + 1.
(** weight of the last digit kept when p digits are kept (mpz_get_d, nr_Z_mpz.inl:20) *)
Definition unit_at (p z : Z) : Z := 2 ^ Z.max 0 (digits z - p).
(** the first p digits (mpz_get_d, nr_Z_mpz.inl:20) *)
Definition cut (p z : Z) : Z := Z.sgn z * (Z.abs z / unit_at p z * unit_at p z).
(** p digits, to nearest, ties to even (GMP_RNDN, nr_Z.inl:255; conversion of long, nr_Z_l.inl:20) *)
Definition near (p z : Z) : Z :=
  let u := unit_at p z in
  let q := Z.abs z / u in
  let r := Z.abs z mod u in
  let up := (u <? 2 * r) || ((u =? 2 * r) && Z.odd q) in
  Z.sgn z * ((if up then q + 1 else q) * u).

(** nr_Z_mpz.inl:20 get_d *)
Definition z_get_d (z : Z) : option Z := if Z.abs z <? 2 ^ 1024 then Some (cut 53 z) else None.
(** nr_FP_misc.inl:32-36 set_z, mpz_t to double *)
Definition d_of_mpz (z : Z) : option Z := z_get_d z.
(** nr_FP_misc.inl:17-21 set_z, long to double (nr_Z_l.inl:20) *)
Definition d_of_long (a : Z) : Z := near 53 a.
(** nr_FP_misc.inl:59-65 set_z, mpz_t to long double (nr_Z_mpz.inl:23-26, nr_Z.inl:252-257) *)
Definition ld_of_mpz (z : Z) : option Z :=
  let r := near 64 z in if Z.abs r <? 2 ^ 16384 then Some r else None.
(** nr_FP_misc.inl:43-46 set_z, long to long double (nr_Z_l.inl:23) *)
Definition ld_of_long (a : Z) : Z := near 64 a.
(** nr_FP_misc.inl:116-128 set_z, mpz_t to dd_real *)
Definition dd_of_mpz (z : Z) : option (Z * Z) :=
  match z_get_d z with
  | None => None
  | Some hi => match z_get_d (z - hi) with None => None | Some lo => Some (hi, lo) end
  end.
(** nr_FP_misc.inl:101-104 set_z, long to dd_real *)
Definition dd_of_long (a : Z) : Z * Z := (near 53 a, 0).
(** nr_FP_misc.inl:152-155 set_z, mpz_t to qd_real: the first of the four doubles, the others are 0 *)
Definition qd_of_mpz (z : Z) : option Z := z_get_d z.
(** nr_FP_misc.inl:137-140 set_z, long to qd_real *)
Definition qd_of_long (a : Z) : Z := near 53 a.
(** nr_FP_misc.inl:178-181 set_z, mpz_t to mpfr_t of precision p; 163-166 from long *)
Definition mpfr_of_mpz (p z : Z) : Z := near p z.

(** nr_FP_dd.inl:132-135 operator<: QD compares the first doubles, then the second ones *)
Definition dd_lt (a b : Z * Z) : bool := (fst a <? fst b) || ((fst a =? fst b) && (snd a <? snd b)).
(** nr_FP_dd.inl:55 exponent, nr_FP_qd.inl:51: of the first double; ilogb(0) is far below *)
Definition x_exponent (hi : Z) : Z := if hi =? 0 then - 2 ^ 31 + 1 else digits hi.
(** nr_FP_misc.inl:315-323, 326-332 get_z_exp_we to mpz_t for dd_real and qd_real, expo_add = 0
    (get_z_exp), on a number whose first double is the integer hi *)
Definition x_get_z_exp (hi : Z) : Z * Z :=
  let expo := Z.max (x_exponent hi - 53) 0 in (Z.quot hi (2 ^ expo), expo).
(** nr_FP_misc.inl:337-351 get_z_exp_we to long for dd_real and qd_real, expo_add = 0: to_int *)
Definition x_get_z_exp_long (hi : Z) : option (Z * Z) :=
  if (- 2 ^ 31 <=? hi) && (hi <? 2 ^ 31) then Some (hi, 0) else None.
(** nr_FP_misc.inl:190-197 get_z_exp_we, double to long, expo_add = 0 *)
Definition d_get_z_exp_long (d : Z) : option (Z * Z) :=
  if (- 2 ^ 63 <=? d) && (d <? 2 ^ 63) then Some (d, 0) else None.
