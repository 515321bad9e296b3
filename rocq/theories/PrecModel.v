(** The precision the proved algorithms ask for: compute_min_prec, gso_min_prec, l2_min_prec, hlll_min_prec (util.cpp:44-202).

    mpfr numbers of 53 bits are reals; every operation is the exact one followed by the rounding given in the code: [up] for
    GMP_RNDU, [dn] for GMP_RNDD; mpfr_log is correctly rounded.  Conversions of doubles, multiplications by powers of two and
    get_d are exact for 53 bits; no overflow of mpfr or double.  The conversion of a NaN, an infinity or a value outside the
    range of int to int is undefined: [PUB].  A failed FPLLL_CHECK is [PAbort] (defs.h:76-85). *)
From Coq Require Import Reals ZArith Bool.
From Flocq Require Import Core.
Local Open Scope R_scope.

Inductive pres (A : Type) := POk (a : A) | PAbort | PUB.
Arguments POk {A}. Arguments PAbort {A}. Arguments PUB {A}.
(** static_cast<int>(ceil(x)) of a finite x (util.cpp:93, 197) *)
Definition to_int_ceil (x : R) : pres Z := let n := Zceil x in if ((- 2 ^ 31 <=? n) && (n <? 2 ^ 31))%Z then POk n else PUB.

Section Prec.
(** GMP_RNDU, GMP_RNDD, the subtraction of doubles *)
Variables (up dn fl : R -> R).

(** util.cpp:55-65 *)
Definition clip_eps (delta eta epsilon : R) : R :=
  let e := if Rlt_dec (fl (eta - / 2)) epsilon then fl (eta - / 2) else epsilon in
  let t := dn (1 - delta) in
  if Rlt_dec t e then t else e.
(** util.cpp:66-70: tmp1 *)
Definition rho_num (eta e : R) : R := let t := up (eta + 1) in let t := up (t * t) in up (t + e).
(** util.cpp:71-73: tmp2 *)
Definition rho_den (delta eta : R) : R := dn (delta - up (eta * eta)).
(** util.cpp:81-92: f_minprec from f_d, f_epsilon, f_rho, all positive *)
Definition min_prec_val (const d e rho : R) : R :=
  let t1 := 2 * up (ln d) in
  let t2 := dn (ln e) in
  let t1 := up (t1 - t2) in
  let t2 := up (ln rho) in
  let t2 := up (d * t2) in
  let t1 := up (t1 + t2) in
  let t2 := dn (ln 2) in
  let t1 := up (t1 / t2) in
  up (t1 + const).
(** util.cpp:44-97 compute_min_prec: rho and the precision; log of 0 is an infinity, log of a negative number a NaN,
    and neither disappears on the way to the conversion (rho > 0 if epsilon > 0) *)
Definition compute_min_prec (l2 : bool) (d : Z) (delta eta epsilon : R) : pres (R * Z) :=
  let e := if l2 then clip_eps delta eta epsilon else epsilon in
  if Rlt_dec 0 (rho_den delta eta) then
    let rho := up (rho_num eta e / rho_den delta eta) in
    if Rle_dec e 0 then PUB else
    if (d <=? 0)%Z then PUB else
    match to_int_ceil (min_prec_val (if l2 then 10 else 5) (IZR d) e rho) with POk n => POk (rho, n) | PAbort => PAbort | PUB => PUB end
  else PAbort.
(** util.cpp:99-102 *)
Definition gso_min_prec (d : Z) (delta eta epsilon : R) : pres (R * Z) := compute_min_prec false d delta eta epsilon.
(** util.cpp:104-108 *)
Definition l2_min_prec (d : Z) (delta eta epsilon : R) : pres Z :=
  match compute_min_prec true d delta eta epsilon with POk (_, n) => POk n | PAbort => PAbort | PUB => PUB end.
End Prec.

(** *** util.cpp:110-202 hlll_min_prec, with exact operations instead of those rounded to nearest *)
Section HPrec.
Variables (d n delta eta theta c : R).
(** util.cpp:128-134 *)
Definition h_disc : R := (1 + theta * theta) * delta - eta * eta.
Definition h_alpha : R := (theta * eta + sqrt h_disc) / (delta - eta * eta).
(** util.cpp:136-161 *)
Definition h_c0 : R :=
  let a := (1 + Rabs (1 - eta - theta) * h_alpha) / ((eta + theta) * (-1 + sqrt (3 / 2))) in
  let b := 4 * sqrt 6 / (1 + eta) * sqrt (1 + d * eta * eta) in
  (if Rle_dec a b then b else a) * n * sqrt d.
(** util.cpp:163-164 *)
Definition h_c1 : R := 8 * d * (n + 9) * h_c0.
(** util.cpp:166-167 *)
Definition h_rho : R := (1 + eta + theta) * h_alpha.
(** util.cpp:169-172; [e] is d_i *)
Definition h_phi (e : nat) : R := h_c1 * (1 + 1 / theta) * h_rho ^ (e + 1).
(** util.cpp:174-183 *)
Definition h_p0 (e : nat) : R := ln (d * d * d * h_phi e * h_alpha ^ e / theta) / ln 2 + 16 + c * d / 2.
(** util.cpp:185-194 *)
Definition h_p (e : nat) : R := h_p0 e + 1 - ln (1 - delta) / ln 2 - ln (eta - theta - / 2) / ln 2.
End HPrec.
(** util.cpp:112-115, 196-201; NaN or infinities: square root of a negative number, division by 0, log of 0 or of a negative number *)
Definition hlll_min_prec (di ni : nat) (delta eta theta c : R) : pres Z :=
  if Rlt_dec delta 1 then if Rle_dec (/ 4) delta then if Rle_dec 0 theta then if Rle_dec (/ 2) eta then if Rlt_dec (/ 2) (eta - theta) then
    let d := INR di in let n := INR ni in
    if Rlt_dec (h_disc delta eta theta) 0 then PUB else
    if Req_EM_T (delta - eta * eta) 0 then PUB else
    if Req_EM_T theta 0 then PUB else
    if Rle_dec (d * d * d * h_phi d n delta eta theta di * h_alpha delta eta theta ^ di / theta) 0 then PUB else
    to_int_ceil (h_p d n delta eta theta c di)
  else PAbort else PAbort else PAbort else PAbort else PAbort.
