(** The multiplier that row_addmul really uses for dd_real and qd_real
    (gso.cpp:236-262, gso_gram.cpp:227-252, nr_FP_dd.inl:57-64, nr_FP_qd.inl:53-60).

    Numbers as in SetZModel.v: all are integers, a double is the integer it holds, a
    dd_real or qd_real is the list of its doubles. The list stands for x * 2^expo_add:
    ldexp is exact and exponent() + expo_add is the exponent of the product. Simplified:
    x * 2^expo_add is taken to be an integer and in the range of double. expo_add need
    not be 0: contrary to gso_interface.h:86-91 the exponents of rows are in use with
    dd_real and qd_real too, by the method "fast" (wrapper.cpp:120-121, wrapper.cpp:331,
    wrapper.cpp:547-548, wrapper.cpp:636-637). *)
From Coq Require Import List ZArith Bool.
From Verif Require Import SetZModel.
Import ListNotations.
Local Open Scope Z_scope.

(** the first double, x[0] and to_double (nr_FP_dd.inl:63, nr_FP_qd.inl:59) *)
Definition first (x : list Z) : Z := match x with [] => 0 | h :: _ => h end.
(** get_si_exp_we, nr_FP_dd.inl:57-64 and nr_FP_qd.inl:53-60: the long and expo; a
    long has 63 digits; None: the conversion to long is undefined *)
Definition si_exp (x : list Z) : option (Z * Z) :=
  let hi := first x in
  let expo := if hi =? 0 then 0 else Z.max (x_exponent hi - 63) 0 in
  let lx := Z.quot hi (2 ^ expo) in
  if (- 2 ^ 63 <=? lx) && (lx <? 2 ^ 63) then Some (lx, expo) else None.
(** row_addmul_we, gso.cpp:236-262 with ZT = mpz_t: the integer c of b[i] += c * b[j];
    row_add, row_sub and row_addmul_si are the cases 1, -1 and another long *)
Definition multiplier (force_long : bool) (x : list Z) : option Z :=
  match si_exp x with
  | None => None
  | Some (lx, expo) =>
    if expo =? 0 then
      Some (if lx =? 1 then 1 else if lx =? -1 then -1 else if negb (lx =? 0) then lx else 0)
    else if force_long then Some (lx * 2 ^ expo)
    else let r := x_get_z_exp (first x) in Some (fst r * 2 ^ snd r)
  end.
(** row_addmul_we with ZT = long (gso.cpp:236-262, nr_FP_misc.inl:337-351) *)
Definition multiplier_long (force_long : bool) (x : list Z) : option Z :=
  match si_exp x with
  | None => None
  | Some (lx, expo) =>
    if expo =? 0 then
      Some (if lx =? 1 then 1 else if lx =? -1 then -1 else if negb (lx =? 0) then lx else 0)
    else if force_long then Some (lx * 2 ^ expo)
    else match x_get_z_exp_long (first x) with Some r => Some (fst r * 2 ^ snd r) | None => None end
  end.
