(** The iteration limit of LLLReduction::lll: exponents of integers
    (nr/nr_Z_mpz.inl), the largest exponent in a matrix (nr/matrix.cpp) and the
    expression of lll.cpp:78-80, once in real numbers and once as the machine
    computes it in int, long and double. *)
From Coq Require Import List ZArith Reals Bool.
From Flocq Require Import BinarySingleNaN.
From Verif Require Import DblModel.
Import ListNotations.

(** nr_Z_mpz.inl:33-38 exponent: mpz_get_d_2exp stores the e with
    2^(e-1) <= |x| < 2^e, and 0 for x = 0 *)
Definition mpz_exponent (x : Z) : Z := (if x =? 0 then 0 else Z.log2 (Z.abs x) + 1)%Z.

(** matrix.cpp:127-134 get_max_exp (gso.h:272-275 get_max_exp_of_b) *)
Definition get_max_exp (b : list (list Z)) : Z :=
  fold_left (fun m row => fold_left (fun m x => Z.max m (mpz_exponent x)) row m) b 0%Z.

(** lll.cpp:79-80 without rounding: d - 2 d (d+1) ((max_exp + 3) / log(delta)) *)
Definition iter_limit (d e : Z) (delta : R) : R := (IZR d - IZR (2 * d * (d + 1)) * (IZR (e + 3) / ln delta))%R.

(** lll.cpp:79-80 as computed: 2 * d * (d + 1) in int, max_exp + 3 in long, the
    rest in double ([lg] is the value returned by std::log), converted to long
    long (64 bits, as long) *)
Definition iter_limit_dbl (lg : dbl) (d e : Z) : option Z :=
  t <- i32 (2 * d)%Z;; t1 <- i32 (d + 1)%Z;; n <- i32 (t * t1)%Z;;
  s <- i64 (e + 3)%Z;;
  d_to_long (d_sub (d_of d 0) (d_mul (d_of n 0) (d_div (d_of s 0) lg))).
