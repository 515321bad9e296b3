(** Error bounds of the enumeration: ErrorBoundedEvaluator::init_delta_def and get_max_error_aux,
    FastErrorBoundedEvaluator::get_max_error, ExactErrorBoundedEvaluator::int_dist2Float (enum/evaluator.cpp).

    mpfr numbers are reals; every operation is the exact one followed by the rounding given in the code: [up] for GMP_RNDU, [dn]
    for GMP_RNDD, [nr] for the default GMP_RNDN (nr_FP.inl:248-313).  addmul rounds once (nr_FP_mpfr.inl:189-192).  Multiplications
    by powers of two, absolute values, floor, negation and the assignment of a double are exact (the precision of mpfr is at
    least 53 bits); no overflow or underflow.  [dbl] is the conversion to double (get_d). *)
From Coq Require Import Reals ZArith List Arith.
From Flocq Require Import Core.
Import ListNotations.
Local Open Scope R_scope.

(** numeric_limits<double>::epsilon() * 0.5 (evaluator.cpp:52, 88-89) *)
Definition half_ulp : R := bpow radix2 (-53).

Section Err.
(** GMP_RNDU, GMP_RNDD, GMP_RNDN, get_d *)
Variables (up dn nr dbl : R -> R).
(** dimension, matrices of the evaluator (evaluator.h:285-287) *)
Variables (d : nat) (mu : nat -> nat -> R) (r : nat -> R).

(** ** evaluator.cpp:20-59 init_delta_def; [pw] is mpfr_pow_si rounded upwards *)
Section Init.
Variables (pw : R -> nat -> R) (prec : Z) (rho : R) (enumf : bool).
(** maxRelDR (evaluator.cpp:33-37) *)
Definition max_rel_dr (j : nat) : R := up (INR d * bpow radix2 (2 - prec) * pw rho (S j)).
(** max_dr_diag (evaluator.cpp:38-42, 55) *)
Definition init_dr (j : nat) : R :=
  let t := dn (1 - max_rel_dr j) in
  let t := up (max_rel_dr j / t) in
  let t := nr (t * r j) in
  if enumf then up (t + r j * half_ulp) else t.
(** max_dm_u (evaluator.cpp:44-47, 56) *)
Definition init_dm (j : nat) : R :=
  let t := up (INR d * bpow radix2 (4 - prec) * pw rho (S j)) in
  if enumf then up (t + half_ulp) else t.
End Init.

(** ** evaluator.cpp:75-211 get_max_error_aux *)
(** max_dr_diag, max_dm_u (evaluator.h:292) *)
Variables (dr dm : nat -> R).
(** K (evaluator.cpp:90-91) *)
Definition KK : R := up (1 + half_ulp).
(** maxC, maxCTilde, maxDC *)
Record cst := { m_c : R; m_ct : R; m_dc : R }.
(** evaluator.cpp:111-124, one pass *)
Definition center_step (i : nat) (X : nat -> R) (j : nat) (s : cst) : cst :=
  let max_mu := up (Rabs (mu j i) + dm i) in
  let c := up (m_c s + max_mu * X j) in
  let mu_t := Rabs (dbl (mu j i)) in
  let mtx := up (mu_t * X j) in
  let dc := nr (m_dc s + dm i * X j) in
  let dc := up (dc + mtx * half_ulp) in
  let mtx := up (mtx * KK) in
  let ct := up (m_ct s + mtx * KK) in
  let dc := up (dc + ct * half_ulp) in
  let ct := up (ct * KK) in
  {| m_c := c; m_ct := ct; m_dc := dc |}.
(** evaluator.cpp:96-125: passes for j = d - 1, ..., d - m *)
Fixpoint center_bounds (i : nat) (X : nat -> R) (m : nat) : cst :=
  match m with
  | O => {| m_c := 0; m_ct := 0; m_dc := 0 |}
  | S p => center_step i X (d - S p) (center_bounds i X p)
  end.

(** evaluator.cpp:127-167: bounds of |y~|, |y - y~|, |x| and the factor tmp1; [None]: return false *)
Definition y_bounds (D : R) (exact : bool) (i : nat) (s : cst) : option (R * R * R * R) :=
  if exact then
    let min_r := dn (r i - dr i) in
    if Rle_dec min_r 0 then None else
    let t := up (D / min_r) in
    let y := up (sqrt t) in
    let dy := up (y * half_ulp) in
    let dy := up (dy + m_dc s * KK) in
    let yt := up (y + dy) in
    let x := IZR (Zfloor (dn (y + m_c s))) in
    Some (yt, dy, x, y)
  else
    let t := up (D * KK) in
    let t := up (t / dbl (r i)) in
    let t := up (t * KK) in
    let yt := up (sqrt t) in
    let dy := up (yt * half_ulp) in
    let dy := up (dy + m_dc s) in
    let x := IZR (Zfloor (dn (m_ct s + yt * KK))) in
    Some (yt, dy, x, yt).
(** evaluator.cpp:169-207: the new maxDE *)
Definition de_step (D : R) (i : nat) (yt dy t de : R) : R :=
  let dy2 := nr (dy * t) in
  let dy2 := 2 * dy2 in
  let dy2 := up (dy2 + dy * dy) in
  let y2t := up (yt * yt) in
  let dy2 := up (dy2 + y2t * half_ulp) in
  let y2t := up (y2t * KK) in
  let max_r := up (r i + dr i) in
  let ry2 := up (dbl (r i) * y2t) in
  let dry2 := up (max_r * dy2) in
  let dry2 := up (dry2 + y2t * dr i) in
  let dry2 := up (dry2 + ry2 * half_ulp) in
  let de := up (de + dry2) in
  let de := up (de * KK) in
  up (de + D * half_ulp).
(** evaluator.cpp:94-208: levels d - 1, ..., d - n; maxX and maxDE *)
Fixpoint err_levels (D : R) (exact : bool) (n : nat) : option ((nat -> R) * R) :=
  match n with
  | O => Some (fun _ => 0, 0)
  | S p =>
      match err_levels D exact p with
      | None => None
      | Some (X, de) =>
          let i := (d - S p)%nat in
          match y_bounds D exact i (center_bounds i X p) with
          | None => None
          | Some (yt, dy, x, t) => Some (fun j => if Nat.eqb j i then x else X j, de_step D i yt dy t de)
          end
      end
  end.
(** evaluator.cpp:75-211 *)
Definition get_max_error_aux (D : R) (exact : bool) : option R := option_map snd (err_levels D exact d).

(** evaluator.cpp:247-269 FastErrorBoundedEvaluator::get_max_error; [sols]: there is a solution, input_error_defined *)
Definition get_max_error (sols : bool) (last : R) : option R :=
  if sols then
    match get_max_error_aux last false with
    | None => None
    | Some de =>
        let e := up (last + de) in
        match get_max_error_aux e true with
        | None => None
        | Some ode => let m := dn (last - ode) in Some (up (up (e / m) - 1))
        end
    end
  else None.
(** evaluator.cpp:345-355 int_dist2Float; [None]: a check fails *)
Definition int_dist2Float (z : Z) : option R :=
  let f := up (IZR z) in
  match get_max_error_aux f true with
  | None => None
  | Some de => if Rle_dec de (r 0) then Some (nr (f + de)) else None
  end.
(** svpcvp.cpp:168-174: the radius of the enumeration *)
Definition svp_radius (D : R) : option R :=
  match get_max_error_aux D true with None => None | Some de => Some (up (D + de)) end.
End Err.
