(** Model of the functions that describe the shape of a basis: get_current_slope,
    get_log_det, get_root_det, get_slide_potential, adjust_radius_to_gh_bound
    (fplll/gso_interface.cpp), and of the enumeration radius and the quotient by which
    BKZReduction chooses pruning parameters (fplll/bkz.cpp).

    Floating-point numbers are exact reals; log, exp and pow are the real functions and
    lgamma is an argument.  r_i is the diagonal entry r(i,i) of the up-to-date GSO, given as
    mantissa and exponent (row_expo[i] + row_expo[i], 0 without row exponents); updating the
    rows is dropped.  A division by zero is [None]. *)
From Coq Require Import List ZArith Reals Lia.
Import ListNotations.
Local Open Scope R_scope.

(** division of FT or double *)
Definition fdiv (x y : R) : option R := if Req_EM_T y 0 then None else Some (x / y).

Section Shape.
(** gso_interface.h:705-714 get_r_exp(i, i, expo) *)
Variable rexp : nat -> R * Z.
(** m.d *)
Variable d : Z.

(** gso_interface.h:724-732 get_r(f, i, i) *)
Definition get_r (i : nat) : R := fst (rexp i) * powerRZ 2 (snd (rexp i)).

(** gso_interface.cpp:209-216 the loop; the state is (v1, weight) *)
Definition slope_step (s : R * R) (i : nat) : R * R :=
  (fst s + snd s * (ln (fst (rexp i)) + IZR (snd (rexp i)) * ln 2), snd s + 1).
(** gso_interface.cpp:197-218 get_current_slope for start_row <= stop_row *)
Definition get_current_slope (start_row stop_row : nat) : option R :=
  let n := (Z.of_nat stop_row - Z.of_nat start_row)%Z in
  let v2 := IZR (n + 1) * IZR n * IZR (n - 1) / 12 in
  let weight := (1 - IZR n) / 2 in
  fdiv (fst (fold_left slope_step (seq start_row (stop_row - start_row)) (0, weight))) v2.

(** gso_interface.cpp:230-242 get_log_det *)
Definition get_log_det (start_row end_row : Z) : R :=
  let s := Z.max 0 start_row in
  let e := Z.min d end_row in
  fold_left (fun a i => a + ln (get_r i)) (seq (Z.to_nat s) (Z.to_nat e - Z.to_nat s)) 0.
(** gso_interface.cpp:220-228 get_root_det *)
Definition get_root_det (start_row end_row : Z) : option R :=
  let s := Z.max 0 start_row in
  let e := Z.min d end_row in
  match fdiv (get_log_det s e) (IZR (e - s)) with Some x => Some (exp x) | None => None end.
(** gso_interface.cpp:244-258 get_slide_potential; int division truncates, block_size = 0 is
    undefined *)
Definition get_slide_potential (start_row end_row block_size : Z) : option R :=
  if Z.eq_dec block_size 0 then None
  else
    let p := Z.quot (end_row - start_row) block_size in
    let p := if Z.eq_dec (Z.rem (end_row - start_row) block_size) 0 then (p - 1)%Z else p in
    Some (fold_left (fun a i => a + IZR (p - Z.of_nat i) * get_log_det (Z.of_nat i * block_size) ((Z.of_nat i + 1) * block_size))
            (seq 0 (Z.to_nat p)) 0).

Variable lgamma : R -> R.
(** gso_interface.cpp:260-276 adjust_radius_to_gh_bound *)
Definition adjust_radius (max_dist : R) (max_dist_expo block_size : Z) (root_det gh_factor : R) : R :=
  let t := IZR block_size / 2 + 1 in
  let t := lgamma t in
  let t := exp (t * 2 / IZR block_size) in
  let t := t / PI in
  let f := t * root_det in
  let f := f * powerRZ 2 (- max_dist_expo) in
  let f := f * gh_factor in
  if Rlt_dec f max_dist then f else max_dist.

(** bkz.cpp:91-97 the arguments radius and gh of Strategy::get_pruning *)
Definition pruning_args (kappa block_size : nat) : option (R * R) :=
  let (max_dist, expo) := rexp kappa in
  match get_root_det (Z.of_nat kappa) (Z.of_nat kappa + Z.of_nat block_size) with
  | None => None
  | Some root_det =>
      let gh_max_dist := adjust_radius max_dist expo (Z.of_nat block_size) root_det 1 in
      Some (max_dist * powerRZ 2 expo, gh_max_dist * powerRZ 2 expo)
  end.
(** bkz.cpp:310-323 the enumeration radius (mantissa and exponent); first is kappa or, for the
    dual, kappa + block_size - 1 (bkz.cpp:277) *)
Definition enum_radius (kappa block_size : nat) (dual gh_bnd : bool) (delta gh_factor : R) : option (R * Z) :=
  let first := (if dual then kappa + block_size - 1 else kappa)%nat in
  let (md0, ex0) := rexp first in
  let (md1, ex) := if dual then (/ md0, (ex0 * -1)%Z) else (md0, ex0) in
  let max_dist := md1 * delta in
  if (gh_bnd && (30 <? block_size)%nat)%bool then
    match get_root_det (Z.of_nat kappa) (Z.of_nat kappa + Z.of_nat block_size) with
    | None => None
    | Some root_det => Some (adjust_radius max_dist ex (Z.of_nat block_size) root_det gh_factor, ex)
    end
  else Some (max_dist, ex).
End Shape.
