(** A row of integers becomes a row of floating-point numbers with one exponent for the
    row (gso.cpp:24-48 and householder.cpp:195-218, the case enable_row_expo).

    A number of the type is the integer that counts its smallest positive values: v stands
    for v * 2^-low.  Not modelled: exponents that do not fit an int (static_cast<int> in
    mul_2si, nr_FP_d.inl:168), that is integers of more than 2^31 bits. *)
From Coq Require Import List ZArith Bool.
From Verif Require Import SetZModel.
Import ListNotations.
Local Open Scope Z_scope.

(** the conversions in use: mpz_t to double, dd_real, qd_real (nr_Z_misc.inl:114-117,
    134-141); long to the same three (nr_Z_misc.inl:17-22, 41-52); both to long double
    (nr_Z_misc.inl:25-30, 120-123) *)
Inductive form := FMpz | FLong | FLd.
(** digits of the mantissa (nr_Z_misc.inl:114-123) *)
Definition prec (f : form) : Z := match f with FLd => 64 | _ => 53 end.
(** the smallest positive value is 2^-low, of double and of long double (x87) (nr_FP_d.inl:168, nr_FP_ld.inl:181) *)
Definition low (f : form) : Z := match f with FLd => 16445 | _ => 1074 end.
(** the integer with at most prec digits: mpz_get_d_2exp truncates (nr_Z_misc.inl:116),
    static_cast rounds (nr_Z_misc.inl:20), MPFR rounds (nr_Z.inl:265-270) *)
Definition conv (f : form) (z : Z) : Z :=
  match f with FMpz => cut 53 z | FLong => near 53 z | FLd => near 64 z end.
(** get_f_exp, nr_Z_misc.inl:17-22, 114-123: number in [1/2, 1) and exponent; 0 and 0 for 0 *)
Definition get_f_exp (f : form) (z : Z) : Z * Z :=
  let c := conv f z in (Z.quot (c * 2 ^ low f) (2 ^ digits c), digits c).
(** mul_2si, nr_FP_d.inl:166-169, nr_FP_ld.inl:179-182, nr_FP_dd.inl:177-180: ldexp rounds to
    nearest, ties to even, when digits fall below the smallest positive value *)
Definition mul_2si (v k : Z) : Z :=
  if 0 <=? k then v * 2 ^ k
  else let u := 2 ^ (- k) in
       let q := Z.abs v / u in
       let r := Z.abs v mod u in
       Z.sgn v * (if (u <? 2 * r) || ((u =? 2 * r) && Z.odd q) then q + 1 else q).
(** gso.cpp:27-39 and householder.cpp:197-217: row of bf and row_expo; LONG_MIN for an empty row *)
Definition update_bf_row (f : form) (zs : list Z) : list Z * Z :=
  let es := map (get_f_exp f) zs in
  let max_expo := fold_left Z.max (map snd es) (- 2 ^ 63) in
  (map (fun x => mul_2si (fst x) (snd x - max_expo)) es, max_expo).
