(** The shape of a basis, the estimated cost of an enumeration, the expected
    number of solutions and the target function of the optimiser, Pruner<FT>
    (pruner_util.cpp, pruner_cost.cpp, pruner_prob.cpp).

    Exact real arithmetic instead of FT; the tables of factorials and of ball
    volumes are taken to be exact ([ball]).  "NaN or inf" is reported as [None],
    as is every access outside a vector.  [sqrt] and [ln] of the real numbers are
    total: outside their domain they are not what FT computes, so the theorems
    require positive arguments. *)
From Coq Require Import List Reals Arith Bool.
From Verif Require Import Util MatrixModel PrunerModel PruneVolModel.
Import ListNotations.
Local Open Scope R_scope.

(** pruner_util.cpp:30-32 resize of a vector of FT: kept entries, then zeros *)
Definition rresize (n : nat) (v : list R) : list R := firstn n v ++ repeat 0 (n - length v).

(** pruner.h:624-632 the members that describe the basis *)
Record shape := Shape {
  sh_r : list R;       (** pruner.h:625 r *)
  sh_ipv : list R;     (** pruner.h:626 ipv *)
  sh_nf : R;           (** pruner.h:627 normalization_factor *)
  sh_nr : R;           (** pruner.h:628 normalized_radius *)
  sh_r_old : list R;   (** pruner.h:630 r_old *)
  sh_logvol : R        (** pruner.h:631 logvol *)
}.

(** pruner_util.cpp:33-38 copy the shape, reversed, and sum the logarithms *)
Definition copy_shape (n : nat) (gso_r r r_old : list R) : option (list R * list R * R) :=
  ofor (seq 0 n) (fun i s => let '(r, r_old, lv) := s in
    k <- osub (n - 1) i;; x <- nth_error gso_r k;; r <- vset r i x;;
    y <- nth_error gso_r i;; r_old <- vset r_old i y;;
    Some (r, r_old, lv + ln x)) (r, r_old, 0).

(** pruner_util.cpp:57-62 inverse partial volumes *)
Definition partial_volumes (d : nat) (r ipv : list R) : option (list R * R) :=
  ofor (seq 0 (2 * d)) (fun i s => let '(ipv, tmp) := s in
    x <- nth_error r i;; let tmp := tmp * sqrt x in
    ipv <- vset ipv i (1 / tmp);; Some (ipv, tmp)) (ipv, 1).

(** pruner_util.cpp:24-63 load_basis_shape *)
Definition load_basis_shape (n d : nat) (radius : R) (gso_r : list R) (reset : bool) (s : shape) : option shape :=
  c <- copy_shape n gso_r (rresize n (sh_r s)) (rresize n (sh_r_old s));;
  let '(r, r_old, logvol) := c in
  let nf := if reset then exp (logvol / - INR n) else sh_nf s in
  let nr := if reset then sqrt (radius * nf) else sh_nr s in
  r <- ofor (seq 0 n) (fun i r => x <- nth_error r i;; vset r i (x * nf)) r;;
  p <- partial_volumes d r (rresize n (sh_ipv s));;
  Some (Shape r (fst p) nf nr r_old logvol).

(** pruner_util.cpp:65-91 load_basis_shapes ([None] also for the exception on
    different dimensions) *)
Definition load_basis_shapes (d : nat) (radius : R) (gso_rs : list (list R)) (s : shape) : option shape :=
  g0 <- nth_error gso_rs 0;;
  let n := length g0 in
  st <- ofor (seq 0 (length gso_rs)) (fun k st => let '(s, sum) := st in
      g <- nth_error gso_rs k;;
      if (length g =? n)%nat then
        s <- load_basis_shape n d radius g (k =? 0)%nat s;;
        sum <- ofor (seq 0 n) (fun i sum => x <- nth_error sum i;; y <- nth_error (sh_ipv s) i;;
                                            vset sum i (x + y)) sum;;
        Some (s, sum)
      else None) (s, repeat 0 n);;
  let '(s, sum) := st in
  ipv <- ofor (seq 0 n) (fun i ipv => x <- nth_error sum i;; vset ipv i (x / (1 * INR (length gso_rs)))) (sh_ipv s);;
  Some (Shape (sh_r s) ipv (sh_nf s) (sh_nr s) (sh_r_old s) (sh_logvol s)).

(** pruner_util.cpp:93-96 gaussian_heuristic *)
Definition gaussian_heuristic (n : nat) (ball : list R) (s : shape) : option R :=
  v <- nth_error ball n;; Some (exp (2 * ln v / - INR n) / sh_nf s).

Section Cost.
  (** pruner.h:616 shell_ratio *)
  Variable dx : R.
  (** fresh vectors of relative_volume (pruner_simplex.h:35) *)
  Variable fresh : nat -> list R.
  (** pruner.h:609 tabulated_ball_vol *)
  Variable ball : list R.
  (** pruner.h:617 symmetry_factor: 1/2, or 1 with PRUNER_CVP (pruner.h:317-320) *)
  Variable sym : R.
  (** pruner.h:600-601 n, d *)
  Variables n d : nat.
  (** the loaded shape *)
  Variable sh : shape.

  (** pruner_cost.cpp:21-36 the relative volumes rv *)
  Definition level_volumes (b : list R) : option (list R) :=
    rv <- ofor (seq 0 d) (fun i rv => v <- relative_volume (fresh (S i)) (S i) b;;
                                      vset rv (2 * i + 1) v) (repeat 0 n);;
    rv <- vset rv 0 1;;
    ofor (seq 1 (d - 1)) (fun i rv =>
      x <- nth_error rv (2 * i - 1);; y <- nth_error rv (2 * i + 1);;
      vset rv (2 * i) (sqrt (x * y))) rv.

  (** pruner_cost.cpp:43-61 one turn: cost of level i, written to detailed_cost
      and added to the total *)
  Definition cost_step (b rv : list R) (i : nat) (s : R * R * list R) : option (R * R * list R) :=
    let '(total, rp, det) := s in
    v <- nth_error rv i;; bv <- nth_error ball (i + 1);; bi <- nth_error b (i / 2);;
    ip <- nth_error (sh_ipv sh) i;;
    let tmp := rp * v * bv * sqrt (bi ^ (1 + i)) * ip in
    let tmp := tmp * sym in
    k <- osub (2 * d) (i + 1);; det <- vset det k tmp;;
    Some (total + tmp, rp * sh_nr sh, det).

  (** pruner_cost.cpp:8-67 single_enum_cost_evec: total and detailed_cost ([det]
      is the vector handed in; with a null pointer the second part is ignored) *)
  Definition single_enum_cost_evec (b det : list R) : option (R * list R) :=
    rv <- level_volumes b;;
    s <- ofor (seq 0 (2 * d)) (cost_step b rv) (0, sh_nr sh, rresize n det);;
    let '(total, _, det) := s in Some (total, det).

  (** pruner_cost.cpp:72-81 single_enum_cost_lower *)
  Definition single_enum_cost_lower (b det : list R) : option (R * list R) :=
    v <- every_second d 0 b;; single_enum_cost_evec v det.

  (** pruner_cost.cpp:86-95 single_enum_cost_upper *)
  Definition single_enum_cost_upper (b det : list R) : option (R * list R) :=
    v <- every_second d 1 b;; single_enum_cost_evec v det.

  (** pruner_cost.cpp:100-113 single_enum_cost: both halves write to the same
      detailed_cost *)
  Definition single_enum_cost (b det : list R) : option (R * list R) :=
    if (length b =? d)%nat then single_enum_cost_evec b det
    else l <- single_enum_cost_lower b det;; u <- single_enum_cost_upper b (snd l);;
         Some ((fst l + fst u) / 2, snd u).

  (** pruner_prob.cpp:77-92 expected_solutions_evec *)
  Definition expected_solutions_evec (b : list R) : option R :=
    j <- osub (2 * d) 1;;
    rv <- relative_volume (fresh d) d b;;
    bv <- nth_error ball (j + 1);; bj <- nth_error b (j / 2);; ip <- nth_error (sh_ipv sh) j;;
    let tmp := ln rv in
    let tmp := tmp + ln bv in
    let tmp := tmp + (ln (sh_nr sh) + ln bj / 2) * INR (j + 1) in
    let tmp := tmp + ln ip in
    let tmp := tmp + ln sym in
    Some (exp tmp).

  (** pruner_prob.cpp:94-102 expected_solutions_lower *)
  Definition expected_solutions_lower (b : list R) : option R :=
    v <- every_second d 0 b;; expected_solutions_evec v.

  (** pruner_prob.cpp:104-112 expected_solutions_upper *)
  Definition expected_solutions_upper (b : list R) : option R :=
    v <- every_second d 1 b;; expected_solutions_evec v.

  (** pruner_prob.cpp:114-130 expected_solutions *)
  Definition expected_solutions (b : list R) : option R :=
    if (length b =? d)%nat then expected_solutions_evec b
    else l <- expected_solutions_lower b;; u <- expected_solutions_upper b;; Some ((l + u) / 2).

  (** defs.h:291-295 PrunerMetric *)
  Inductive metric := Probability | Solutions.

  (** pruner_prob.cpp:132-146 measure_metric *)
  Definition measure_metric (m : metric) (b : list R) : option R :=
    match m with Probability => svp_probability dx fresh d b | Solutions => expected_solutions b end.

  (** pruner_cost.cpp:141, 174 log(1 - target) / log(1 - p): a division by
      log(1) is not finite ([None]), log(0) is minus infinity and the quotient 0,
      the logarithm of a negative number is not a number ([None]) *)
  Definition trials_for (target p : R) : option R :=
    if Req_EM_T p 0 then None
    else if Req_EM_T p 1 then Some 0
    else if Rlt_dec 1 p then None
    else Some (ln (1 - target) / ln (1 - p)).

  (** pruner_cost.cpp:147-148 at least one trial; the sum of all costs *)
  Definition repeated (preproc single trials : R) : R :=
    let trials := if Rlt_dec trials 1 then 1 else trials in
    single * trials + preproc * (trials - 1).

  (** pruner_cost.cpp:136-167 target_function *)
  Definition target_function (m : metric) (preproc target : R) (b : list R) : option R :=
    match m with
    | Probability =>
        p <- svp_probability dx fresh d b;; t <- trials_for target p;;
        c <- single_enum_cost b [];; Some (repeated preproc (fst c) t)
    | Solutions =>
        e <- expected_solutions b;;
        t <- (if Req_EM_T e 0 then None else Some (target / e));;
        c <- single_enum_cost b [];; Some (repeated preproc (fst c) t)
    end.

  (** pruner_cost.cpp:169-200 repeated_enum_cost *)
  Definition repeated_enum_cost (m : metric) (preproc target : R) (b : list R) : option R :=
    match m with
    | Probability =>
        p <- svp_probability dx fresh d b;; t <- trials_for target p;;
        c <- single_enum_cost b [];; Some (repeated preproc (fst c) t)
    | Solutions =>
        e <- expected_solutions b;;
        t <- (if Req_EM_T e 0 then None else Some (1 / e));;
        c <- single_enum_cost b [];; Some (repeated preproc (fst c) t)
    end.

  (** pruner_util.cpp:124-139 load_coefficients into a vector of length [dn] *)
  Definition load_profile (dn : nat) (pr : list R) : option (list R) :=
    let c := if (dn =? d)%nat then 2%nat else 1%nat in
    ofor (seq 0 dn) (fun i b => k <- osub n (c * i + 1);; x <- nth_error pr k;; vset b i x) (repeat 0 dn).

  (** pruner.h:552-559 single_enum_cost of external coefficients *)
  Definition public_single_enum_cost (pr det : list R) : option (R * list R) :=
    b <- load_profile d pr;; single_enum_cost b det.

  (** pruner.h:568-573 repeated_enum_cost of external coefficients *)
  Definition public_repeated_enum_cost (m : metric) (preproc target : R) (pr : list R) : option R :=
    b <- load_profile n pr;; repeated_enum_cost m preproc target b.

  (** pruner.h:578-583 measure_metric of external coefficients *)
  Definition public_measure_metric (m : metric) (pr : list R) : option R :=
    b <- load_profile n pr;; measure_metric m b.
End Cost.
