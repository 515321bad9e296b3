(** The integer types Z_NR<long> (nr/nr_Z_l.inl), Z_NR<mpz_t> (nr/nr_Z_mpz.inl) and Z_NR<double> (nr/nr_Z_d.inl).

    A long has 64 bits.  [None] is undefined behaviour: signed overflow, a shift of a negative number to the left or by 64 bits or
    more (C++11, configure.ac:58), a division by zero.  Shifts of negative numbers to the right and conversions
    of unsigned long to long are implementation-defined; as in every compiler the library supports they are arithmetic and
    modulo 2^64.  An mpz_t is an integer.  The data of Z_NR<double> is a binary64 number (DblModel.v).
    GMP's functions are taken with their documented meaning; memory exhaustion and the limits of GMP on shifts are ignored. *)
From Coq Require Import List ZArith Lia Bool Ascii.
From Flocq Require Import Zaux BinarySingleNaN.
From Verif Require Import DblModel.
From Verif Require IoModel.
Import ListNotations.
Local Open Scope Z_scope.

(** ** Z_NR<long> *)
(** LONG_MIN, LONG_MAX (nr_Z_l.inl:57) *)
Definition lmin : Z := - 2 ^ 63.
(** LONG_MAX (nr_Z_l.inl:57) *)
Definition lmax : Z := 2 ^ 63 - 1.
(** conversion of an unsigned long computation to long (nr_Z_l.inl:142-145, 170-173, 182-185) *)
Definition to_long (x : Z) : Z := (x + 2 ^ 63) mod 2 ^ 64 - 2 ^ 63.

(** nr_Z_l.inl:61-68 cmp *)
Definition l_cmp (a b : Z) : Z := if b <? a then 1 else if a =? b then 0 else -1.
(** nr_Z_l.inl:70-77 sgn *)
Definition l_sgn (a : Z) : Z := if 0 <? a then 1 else if a =? 0 then 0 else -1.
(** nr_Z_l.inl:110-113 add; 115-118 add_ui: the unsigned int is converted to long *)
Definition l_add (a b : Z) : option Z := i64 (a + b).
(** nr_Z_l.inl:120-123 sub; 125-128 sub_ui *)
Definition l_sub (a b : Z) : option Z := i64 (a - b).
(** nr_Z_l.inl:129-132 mod: the % operator truncates; LONG_MIN % -1 is undefined *)
Definition l_mod (a b : Z) : option Z :=
  if b =? 0 then None else if (a =? lmin) && (b =? -1) then None else Some (Z.rem a b).
(** nr_Z_l.inl:133 neg *)
Definition l_neg (a : Z) : option Z := i64 (- a).
(** nr_Z_l.inl:135-138 mul; 140 mul_si *)
Definition l_mul (a b : Z) : option Z := i64 (a * b).
(** nr_Z_l.inl:142-145 mul_ui: both factors are converted to unsigned long *)
Definition l_mul_ui (a b : Z) : option Z := Some (to_long (((a mod 2 ^ 64) * b) mod 2 ^ 64)).
(** a << b (C++11 5.8): defined for 0 <= b < 64, a >= 0 and a 2^b < 2^64 *)
Definition l_shl (a b : Z) : option Z :=
  if (0 <=? b) && (b <? 64) && (0 <=? a) && (a * 2 ^ b <? 2 ^ 64) then Some (to_long (a * 2 ^ b)) else None.
(** a >> b *)
Definition l_shr (a b : Z) : option Z := if (0 <=? b) && (b <? 64) then Some (Z.shiftr a b) else None.
(** nr_Z_l.inl:147-154 mul_2si *)
Definition l_mul_2si (a b : Z) : option Z :=
  if 0 <=? b then l_shl a b else bind (i64 (- b)) (fun nb => l_shr a nb).
(** nr_Z_l.inl:156-163 div_2si *)
Definition l_div_2si (a b : Z) : option Z :=
  if 0 <=? b then l_shr a b else bind (i64 (- b)) (fun nb => l_shl a nb).
(** nr_Z_l.inl:165-168 addmul; 175 addmul_si: value, a, b *)
Definition l_addmul (v a b : Z) : option Z := bind (i64 (a * b)) (fun p => i64 (v + p)).
(** nr_Z_l.inl:170-173 addmul_ui: unsigned long arithmetic *)
Definition l_addmul_ui (v a b : Z) : option Z := Some (to_long ((v mod 2 ^ 64 + (a mod 2 ^ 64) * b) mod 2 ^ 64)).
(** nr_Z_l.inl:177-180 submul *)
Definition l_submul (v a b : Z) : option Z := bind (i64 (a * b)) (fun p => i64 (v - p)).
(** nr_Z_l.inl:182-185 submul_ui *)
Definition l_submul_ui (v a b : Z) : option Z := Some (to_long ((v mod 2 ^ 64 - (a mod 2 ^ 64) * b) mod 2 ^ 64)).
(** nr_Z_l.inl:187 abs: labs *)
Definition l_abs (a : Z) : option Z := i64 (Z.abs a).

(** static_cast<double>(data) (nr_Z_l.inl:20, 43): to nearest, ties to even *)
Definition l_get_d (a : Z) : dbl := d_of a 0.
(** frexp (math.h): fraction and exponent; 0 for the exponent of zero; infinities and NaN do not occur here *)
Definition d_frexp (x : dbl) : dbl * Z :=
  match x with
  | B754_finite s m e B => (d_ldexp x (- (Z.log2 (Zpos m) + 1 + e)), Z.log2 (Zpos m) + 1 + e)
  | _ => (x, 0)
  end.
(** nr_Z_l.inl:30-38 compute_long_exponent: the number of shifts until 0 is reached; std::abs(LONG_MIN) is undefined *)
Fixpoint bits_loop (fuel : nat) (y e : Z) : Z :=
  match fuel with O => e | S n => if y =? 0 then e else bits_loop n (y / 2) (e + 1) end.
(** nr_Z_l.inl:30-38; 64 passes suffice for an unsigned long *)
Definition compute_long_exponent (a : Z) : option Z := bind (i64 (Z.abs a)) (fun y => Some (bits_loop 65 y 0)).
(** nr_Z_l.inl:40-48 exponent; MAX_LONG_FAST = 2^53 (defs.h:134); data is converted to double for the comparison *)
Definition l_exponent (a : Z) : option Z :=
  let fe := d_frexp (l_get_d a) in
  if d_lt (d_of 1 53) (l_get_d a) && (match Bcompare (Babs (fst fe)) (d_of 1 (-1)) with Some Eq => true | _ => false end)
  then compute_long_exponent a
  else Some (snd fe).

(** strtol (stdlib.h), base 10: blanks, a sign, the longest run of digits; 0 if there is none *)
Fixpoint run_digits (s : list ascii) : list ascii :=
  match s with c :: t => if IoModel.is_digit c then c :: run_digits t else [] | [] => [] end.
(** stdlib.h: isspace *)
Fixpoint skip_blanks (s : list ascii) : list ascii :=
  match s with c :: t => if IoModel.is_blank c then skip_blanks t else s | [] => [] end.
(** the integer denoted by the longest prefix that strtol accepts (nr_Z_l.inl:53) *)
Definition strtol_value (s : list ascii) : Z :=
  match skip_blanks s with
  | "-"%char :: t => - IoModel.dec_val (run_digits t)
  | "+"%char :: t => IoModel.dec_val (run_digits t)
  | t => IoModel.dec_val (run_digits t)
  end.
(** nr_Z_l.inl:51-58 set_str: new value and result; [stale] says that errno is ERANGE before the call (it is
    not reset; strtol does not change it on success) *)
Definition l_set_str (stale : bool) (s : list ascii) : Z * bool :=
  let v := strtol_value s in
  let out := (v <? lmin) || (lmax <? v) in
  let data := if v <? lmin then lmin else if lmax <? v then lmax else v in
  (data, negb (((data =? lmax) || (data =? lmin)) && (out || stale))).

(** mpz_get_si: the value if it fits, otherwise its low 63 bits with its sign (nr_Z_mpz.inl:29; nr_Z_l.inl:84, 197) *)
Definition mpz_get_si (z : Z) : Z :=
  if (lmin <=? z) && (z <=? lmax) then z else Z.sgn z * (Z.abs z mod 2 ^ 63).
(** nr_Z_l.inl:192-199 randb: [x] is the number drawn by mpz_urandomb *)
Definition l_randb (x : Z) : Z := mpz_get_si x.
(** nr_Z_l.inl:201-205 randb_si; get_bit() is -1 or 1 (nr_rand.inl:64-72) *)
Definition l_randb_si (x : Z) (bit : bool) : option Z := l_mul (l_randb x) (if bit then 1 else -1).
(** nr_Z_l.inl:225-235 nextprime: mpz_set_ui takes the long as unsigned; [np] is mpz_nextprime; mpz_get_ui takes
    the low 64 bits *)
Definition l_nextprime (np : Z -> Z) (a : Z) : Z := to_long (np (a mod 2 ^ 64) mod 2 ^ 64).

(** ** Z_NR<mpz_t> *)
(** nr_Z_mpz.inl:33-38 exponent: mpz_get_d_2exp truncates, so its exponent is the number of bits *)
Definition m_exponent (a : Z) : Z := if a =? 0 then 0 else Z.log2 (Z.abs a) + 1.
(** nr_Z_mpz.inl:130-133 mod: mpz_mod ignores the sign of the divisor, its result is non-negative; division by zero traps *)
Definition m_mod (a b : Z) : option Z := if b =? 0 then None else Some (a mod Z.abs b).
(** nr_Z_mpz.inl:152-158 mul_2si: mpz_div_2exp rounds down *)
Definition m_mul_2si (a b : Z) : option Z :=
  if 0 <=? b then Some (a * 2 ^ b) else bind (i64 (- b)) (fun nb => Some (Z.shiftr a nb)).
(** nr_Z_mpz.inl:160-166 div_2si *)
Definition m_div_2si (a b : Z) : option Z :=
  if 0 <=? b then Some (Z.shiftr a b) else bind (i64 (- b)) (fun nb => Some (a * 2 ^ nb)).
(** nr_Z_mpz.inl:178-184 addmul_si; -b is computed in long *)
Definition m_addmul_si (v a b : Z) : option Z :=
  if 0 <=? b then Some (v + a * b) else bind (i64 (- b)) (fun nb => Some (v - a * nb)).
(** mpz_set_str(data, s, 10) (GMP 5.2): blanks, '-', a digit, then digits and blanks; [None]: failure *)
Definition mpz_set_str (s : list ascii) : option Z :=
  let body t :=
    match t with
    | c :: _ =>
        if IoModel.is_digit c && forallb (fun c => IoModel.is_digit c || IoModel.is_blank c) t
        then Some (IoModel.dec_val (filter IoModel.is_digit t)) else None
    | [] => None
    end in
  match skip_blanks s with
  | "-"%char :: t => option_map Z.opp (body t)
  | t => body t
  end.
(** nr_Z_mpz.inl:41-44 set_str: on failure mpz_set_str leaves the value alone *)
Definition m_set_str (old : Z) (s : list ascii) : Z * bool :=
  match mpz_set_str s with Some z => (z, true) | None => (old, false) end.

(** nr_Z_mpz.inl:201-209 randb: the number drawn, and the generator seeded anew with a function of it when bits > 32;
    [St] is the type of generator states, [draw] mpz_urandomb, [seed] gmp_randseed_ui *)
Definition reseed_value (x : Z) : Z :=
  let tmp := Z.land (Z.abs x mod 2 ^ 64) (Z.ldiff (2 ^ 64 - 1) (2 ^ 31)) in (tmp * tmp) mod 2 ^ 64.
(** nr_Z_mpz.inl:201-209 *)
Definition m_randb {St} (draw : St -> Z -> Z * St) (seed : Z -> St) (bits : Z) (st : St) : Z * St :=
  let '(x, st') := draw st bits in
  (x, if 32 <? bits then seed (reseed_value x) else st').
(** successive calls of randb *)
Fixpoint m_randbs {St} (draw : St -> Z -> Z * St) (seed : Z -> St) (bits : list Z) (st : St) : list Z :=
  match bits with
  | [] => []
  | b :: t => let '(x, st') := m_randb draw seed b st in x :: m_randbs draw seed t st'
  end.

(** ** Z_NR<double> *)
(** nr_Z_d.inl:29 get_si: rint, then a conversion that is undefined outside the range of long *)
Definition x_get_si (x : dbl) : option Z := d_to_long (d_rint x).
(** nr_Z_d.inl:33-38 exponent *)
Definition x_exponent (x : dbl) : Z := snd (d_frexp x).
(** nr_Z_d.inl:156-159 mod: fmod (math.h) on finite numbers: exact, the sign is the dividend's (a zero result gets the sign +);
    other arguments give NaN *)
Definition x_mod (a b : dbl) : dbl :=
  match a, b with
  | B754_finite sa ma ea _, B754_finite sb mb eb _ =>
      let e := Z.min ea eb in
      let va := (if sa then - Zpos ma else Zpos ma) * 2 ^ (ea - e) in
      d_of (Z.rem va (Zpos mb * 2 ^ (eb - e))) e
  | B754_zero _, B754_finite _ _ _ _ => a
  | _, _ => B754_nan
  end.
(** nr_Z_d.inl:178-181 mul_2si: the long is converted to int for ldexp *)
Definition x_mul_2si (a : dbl) (b : Z) : dbl := d_ldexp a (to_int b).
(** nr_Z_d.inl:183-186 div_2si *)
Definition x_div_2si (a : dbl) (b : Z) : option dbl := bind (i64 (- b)) (fun nb => Some (d_ldexp a (to_int nb))).
(** nr_Z_d.inl:188-191 addmul: two roundings (the product is not fused) *)
Definition x_addmul (v a b : dbl) : dbl := d_add v (d_mul a b).
(** nr_Z_d.inl:203-206 submul *)
Definition x_submul (v a b : dbl) : dbl := d_sub v (d_mul a b).
(** nr_Z_d.inl:193-201 addmul_ui, addmul_si *)
Definition x_addmul_si (v a : dbl) (b : Z) : dbl := d_add v (d_mul a (l_get_d b)).

Global Instance prec24 : FLX.Prec_gt_0 24. Proof. reflexivity. Qed.
Global Instance prec24_128 : Prec_lt_emax 24 128. Proof. reflexivity. Qed.
(** strtof (stdlib.h) on a string denoting the integer n: the nearest binary32 number, widened to double *)
Definition strtof_int (n : Z) : dbl :=
  match binary_normalize 24 128 _ _ mode_NE n 0 false with
  | B754_finite s m e _ => d_of (if s then - Zpos m else Zpos m) e
  | B754_zero s => B754_zero s
  | B754_infinity s => B754_infinity s
  | B754_nan => B754_nan
  end.
(** nr_Z_d.inl:41-49 set_str on a string denoting the integer n: the result of atof is overwritten by that of strtof;
    strtof sets ERANGE when it overflows *)
Definition x_set_str_int (n : Z) : dbl * bool :=
  let v := strtof_int n in
  let inf := match v with B754_infinity _ => true | _ => false end in
  (v, negb inf).

(** ** The operations of the interface with results of the type (nr_Z.inl:149-209); [v] is the value of the object itself *)
Inductive zop :=
| ZAdd (a b : Z) | ZAddUi (a b : Z) | ZSub (a b : Z) | ZSubUi (a b : Z) | ZNeg (a : Z) | ZAbs (a : Z)
| ZMul (a b : Z) | ZMulSi (a b : Z) | ZMulUi (a b : Z)
| ZAddmul (v a b : Z) | ZAddmulSi (v a b : Z) | ZAddmulUi (v a b : Z) | ZSubmul (v a b : Z) | ZSubmulUi (v a b : Z)
| ZMul2si (a b : Z) | ZDiv2si (a b : Z).
(** the operation in Z_NR<long> (nr_Z_l.inl:110-187) *)
Definition l_run (o : zop) : option Z :=
  match o with
  | ZAdd a b | ZAddUi a b => l_add a b
  | ZSub a b | ZSubUi a b => l_sub a b
  | ZNeg a => l_neg a
  | ZAbs a => l_abs a
  | ZMul a b | ZMulSi a b => l_mul a b
  | ZMulUi a b => l_mul_ui a b
  | ZAddmul v a b | ZAddmulSi v a b => l_addmul v a b
  | ZAddmulUi v a b => l_addmul_ui v a b
  | ZSubmul v a b => l_submul v a b
  | ZSubmulUi v a b => l_submul_ui v a b
  | ZMul2si a b => l_mul_2si a b
  | ZDiv2si a b => l_div_2si a b
  end.
(** the operation in Z_NR<mpz_t> (nr_Z_mpz.inl:110-196) *)
Definition m_run (o : zop) : option Z :=
  match o with
  | ZAdd a b | ZAddUi a b => Some (a + b)
  | ZSub a b | ZSubUi a b => Some (a - b)
  | ZNeg a => Some (- a)
  | ZAbs a => Some (Z.abs a)
  | ZMul a b | ZMulSi a b | ZMulUi a b => Some (a * b)
  | ZAddmul v a b | ZAddmulUi v a b => Some (v + a * b)
  | ZAddmulSi v a b => m_addmul_si v a b
  | ZSubmul v a b | ZSubmulUi v a b => Some (v - a * b)
  | ZMul2si a b => m_mul_2si a b
  | ZDiv2si a b => m_div_2si a b
  end.
