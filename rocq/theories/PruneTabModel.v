(** Model of what the pruner computes with its tables in double arithmetic: the table of
    factorials (factorial.const, pruner.cpp:190-202), the volume of the even simplex
    (pruner_simplex.h), the probability of success and the expected number of solutions
    (pruner_prob.cpp), the checks of the constructor (pruner.h) and prune() (pruner.cpp).

    pow, log and exp of the C library, the optimisation of the coefficients, the cost and the
    Gaussian heuristic are arguments.  The loops and the doubles are modelled statement by
    statement; the entries of a vector that are not set yet are NaN. *)
From Coq Require Import List ZArith Arith Bool.
From Flocq Require Import BinarySingleNaN.
From Verif Require Import PrunerModel OptModel DblModel ProbDblModel FactTable.
Import ListNotations.
Local Open Scope Z_scope.

(** the integer denoted by an entry of factorial.const; the digits after the point are zeros if
    the exponent of the last digit is negative *)
Definition entry_int (x : Z * Z) : Z := if 0 <=? snd x then fst x * 10 ^ snd x else fst x / 10 ^ (- snd x).
(** nr_FP_d.inl:101-105 operator= for a text, on an entry: strtod, correctly rounded *)
Definition entry_dbl (x : Z * Z) : dbl := d_of (entry_int x) 0.
(** pruner.h:26 PRUNER_MAX_N *)
Definition max_n : nat := 2047.
(** pruner.cpp:190-202 set_tabulated_consts, tabulated_factorial *)
Definition tabulated_factorial (i : nat) : option dbl :=
  if (i <? max_n)%nat then option_map entry_dbl (nth_error pre_factorial i) else None.

(** pruner_simplex.h:5-15 eval_poly *)
Definition eval_poly (ld : nat) (p : list dbl) (x : dbl) : out dbl :=
  each (rev (seq 0 (S ld))) (fun i acc => c <~ ub (nth_error p i);; Ret (d_add (d_mul acc x) c)) d_zero.
(** pruner_simplex.h:17-26 integrate_poly *)
Definition integrate_poly (ld : nat) (p : list dbl) : out (list dbl) :=
  p <~ each (rev (seq 0 (S ld))) (fun i p =>
         c <~ ub (nth_error p i);; ub (vset p (S i) (d_div c (d_add (d_of (Z.of_nat i) 0) d_one)))) p;;
  ub (vset p 0 d_zero).
(** pruner_simplex.h:31-46 relative_volume *)
Definition relative_volume (rd : nat) (b : list dbl) : out dbl :=
  let p0 := d_one :: repeat B754_nan rd in
  s <~ each (rev (seq 0 rd)) (fun i s =>
         let '(ld, p) := (s : nat * list dbl) in
         p <~ integrate_poly ld p;;
         let ld := S ld in
         x <~ ub (nth_error b i);; y <~ ub (nth_error b (rd - 1));;
         v <~ eval_poly ld p (d_div x y);;
         p <~ ub (vset p 0 (d_mul (d_of (-1) 0) v));; Ret (ld, p)) (0%nat, p0);;
  c <~ ub (nth_error (snd s) 0);; f <~ ub (tabulated_factorial rd);;
  let res := d_mul c f in Ret (if Nat.odd rd then Bopp res else res).

Section PruneTab.
(** pow(x, y) (nr_FP_d.inl:191), log, exp (nr_FP_misc.inl) *)
Variable dpow : dbl -> dbl -> dbl.
Variables dlog dexp : dbl -> dbl.
(** pruner.h:598-599 n, d; pruner.h:625, 627 ipv, normalized_radius; pruner.h:617 symmetry_factor;
    tabulated_ball_vol (pruner.h:609) *)
Variable n : nat.
Variable ipv : list dbl.
Variables nradius symm : dbl.
Variable ball_vol : nat -> option dbl.
Let d := (n / 2)%nat.

(** pruner.h:616 shell_ratio *)
Definition shell_ratio : dbl := d_quo 995 1000.
(** pruner_prob.cpp:5-27 svp_probability_evec *)
Definition svp_probability_evec (b : list dbl) : out dbl :=
  let dx := shell_ratio in
  bm <~ collect (fun i => x <~ ub (nth_error b i);;
                   let y := d_div x (d_mul dx dx) in Ret (if d_lt d_one y then d_one else y)) (seq 0 d);;
  vol <~ relative_volume d b;;
  let dxn := dpow dx (d_of (Z.of_nat (2 * d)) 0) in
  v2 <~ relative_volume d bm;;
  let dvol := d_sub (d_mul dxn v2) vol in
  let res := d_div dvol (d_sub dxn d_one) in
  if is_finite res then Ret res else Throw Range.
(** pruner_prob.cpp:32-53 (o = 0: lower, o = 1: upper), 90-112 *)
Definition half_of (o : nat) (b : list dbl) : out (list dbl) := collect (fun i => ub (nth_error b (2 * i + o))) (seq 0 d).
(** pruner_prob.cpp:58-76, 114-130: the metric [f] of a vector of d or n bounds *)
Definition of_halves (f : list dbl -> out dbl) (b : list dbl) : out dbl :=
  if (length b =? d)%nat then f b
  else lo <~ half_of 0 b;; pl <~ f lo;; hi <~ half_of 1 b;; pu <~ f hi;; Ret (d_div (d_add pl pu) (d_of 2 0)).
(** pruner_prob.cpp:78-93 expected_solutions_evec; j = 2 d - 1 *)
Definition expected_solutions_evec (b : list dbl) : out dbl :=
  rv <~ relative_volume d b;;
  j <~ ub (osub (2 * d) 1);;
  v <~ ub (ball_vol (j + 1));; bj <~ ub (nth_error b (j / 2));; w <~ ub (nth_error ipv j);;
  let tmp := d_add (dlog rv) (dlog v) in
  let tmp := d_add tmp (d_mul (d_add (dlog nradius) (d_div (dlog bj) (d_of 2 0))) (d_of (Z.of_nat (j + 1)) 0)) in
  let tmp := d_add tmp (dlog w) in
  let tmp := d_add tmp (dlog symm) in
  let tmp := dexp tmp in
  if is_finite tmp then Ret tmp else Throw Range.

(** defs.h:291-295 PrunerMetric *)
Inductive metric := MProbability | MSolutions.
(** pruner_prob.cpp:132-146 measure_metric, the basis shape is loaded and the metric is known (checked by the
    constructor) *)
Definition measure (mt : metric) (b : list dbl) : out dbl :=
  match mt with
  | MProbability => of_halves svp_probability_evec b
  | MSolutions => of_halves expected_solutions_evec b
  end.
(** pruner.h:578-583 measure_metric of coefficients, with pruner_util.cpp:124-131 *)
Definition measure_metric (mt : metric) (pr : list dbl) : out dbl :=
  b <~ collect (fun i => k <~ ub (osub n ((if (n =? d)%nat then 2 else 1) * i + 1));; ub (nth_error pr k)) (seq 0 n);;
  measure mt b.

(** pruner.h:329-367 = 406-445: the constructors accept the arguments, otherwise
    std::invalid_argument is thrown; [single], [half]: the flags PRUNER_SINGLE, PRUNER_HALF;
    [mt] = None: another value of the enumeration *)
Definition ctor_accepts (single half : bool) (mt : option metric) (target : dbl) : bool :=
  if single && half then false
  else match mt with
       | Some MProbability => negb (d_le d_one target || d_le target d_zero)
       | Some MSolutions => negb (d_le target d_zero)
       | None => false
       end.
(** pruner.cpp:204-216 = 218-230 prune, once the object is constructed; [opt] is
    optimize_coefficients, [cost] is single_enum_cost with the detailed costs, [gh] the Gaussian
    heuristic; what is returned: coefficients, detailed costs, gh_factor, expectation *)
Definition prune_with (opt : list dbl -> out (list dbl)) (cost : list dbl -> out (list dbl)) (gh : out dbl)
    (mt : metric) (radius : dbl) (pr : list dbl) : out (list dbl * list dbl * dbl * dbl) :=
  pr <~ opt pr;; det <~ cost pr;; g <~ gh;; e <~ measure_metric mt pr;;
  Ret (pr, det, d_div radius g, e).
End PruneTab.

(** pruner.cpp:178-188 svp_probability of coefficients, with the constructor pruner.h:282-291 *)
Definition svp_probability (dpow : dbl -> dbl -> dbl) (pr : list dbl) : out dbl :=
  measure_metric dpow (fun x => x) (fun x => x) (length pr) [] d_zero d_zero (fun _ => None) MProbability pr.
