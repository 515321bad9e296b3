(** Volumes and success probability of a pruning profile, Pruner<FT>
    (pruner_simplex.h, pruner_prob.cpp).

    Exact real arithmetic instead of FT, the table of factorials is taken to be
    exact; the "NaN or inf" test of svp_probability_evec can then only fire on a
    division by zero.  Every vector access is checked ([None] if outside).
    [shell_ratio] (pruner.h:616, .995) is a parameter. *)
From Coq Require Import List Reals Arith Bool.
From Verif Require Import Util MatrixModel PrunerModel.
Import ListNotations.
Local Open Scope R_scope.

(** pruner_simplex.h:5-15 eval_poly *)
Definition eval_poly (ld : nat) (p : list R) (x : R) : option R :=
  ofor (rev (seq 0 (S ld))) (fun i acc => c <- nth_error p i;; Some (acc * x + c)) 0.

(** pruner_simplex.h:17-26 integrate_poly *)
Definition integrate_poly (ld : nat) (p : list R) : option (list R) :=
  p <- ofor (rev (seq 0 (S ld))) (fun i p => c <- nth_error p i;; vset p (S i) (c / (INR i + 1))) p;;
  vset p 0 0.

(** pruner_simplex.h:38-43 one turn of the loop of relative_volume *)
Definition volume_step (rd : nat) (b : list R) (i : nat) (s : list R * nat) : option (list R * nat) :=
  let '(P, ld) := s in
  P <- integrate_poly ld P;;
  let ld := S ld in
  bi <- nth_error b i;;
  k <- osub rd 1;; bl <- nth_error b k;;
  e <- eval_poly ld P (bi / bl);;
  P <- vset P 0 (- (1) * e);;
  Some (P, ld).

(** pruner_simplex.h:31-46 relative_volume; [P0] is what the fresh vector of
    size rd + 1 contains *)
Definition relative_volume (P0 : list R) (rd : nat) (b : list R) : option R :=
  P <- vset P0 0 1;;
  s <- ofor (rev (seq 0 rd)) (volume_step rd b) (P, O);;
  c <- nth_error (fst s) 0;;
  let res := c * INR (fact rd) in
  Some (if (rd mod 2 =? 1)%nat then - res else res).

Section Prob.
  (** pruner.h:616 shell_ratio *)
  Variable dx : R.
  (** fresh vectors of relative_volume (pruner_simplex.h:35) *)
  Variable fresh : nat -> list R.

  (** pruner_prob.cpp:9-14 b_minus_db *)
  Definition shrink_shell (b : list R) : list R :=
    map (fun x => let y := x / (dx * dx) in if Rlt_dec 1 y then 1 else y) b.

  (** pruner_prob.cpp:5-26 svp_probability_evec ([d] entries of b are used;
      division by zero: "NaN or inf" is thrown, [None]) *)
  Definition svp_probability_evec (d : nat) (b : list R) : option R :=
    let bm := shrink_shell (firstn d b) in
    vol <- relative_volume (fresh d) d b;;
    let dxn := dx ^ (2 * d) in
    vm <- relative_volume (fresh d) d bm;;
    let dvol := dxn * vm - vol in
    if Req_EM_T (dxn - 1) 0 then None else Some (dvol / (dxn - 1)).

  (** pruner_prob.cpp:31-38, 44-51: every second entry, starting at [o] *)
  Definition every_second (d o : nat) (b : list R) : option (list R) :=
    ofor (seq 0 d) (fun i v => x <- nth_error b (2 * i + o);; vset v i x) (repeat 0 d).

  (** pruner_prob.cpp:31-39 svp_probability_lower *)
  Definition svp_probability_lower (d : nat) (b : list R) : option R :=
    v <- every_second d 0 b;; svp_probability_evec d v.

  (** pruner_prob.cpp:44-52 svp_probability_upper *)
  Definition svp_probability_upper (d : nat) (b : list R) : option R :=
    v <- every_second d 1 b;; svp_probability_evec d v.

  (** pruner_prob.cpp:57-75 svp_probability *)
  Definition svp_probability (d : nat) (b : list R) : option R :=
    if (length b =? d)%nat then svp_probability_evec d b
    else pl <- svp_probability_lower d b;; pu <- svp_probability_upper d b;; Some ((pl + pu) / 2).
End Prob.
