(** Model of the insertion step of BKZ (bkz.cpp:128-272) and of rerandomize_block (bkz.cpp:43-80).
    The control flow depends only on the coefficient vector (respectively the random
    numbers), so each function is modelled by the list of operations it applies to the GSO object. *)
From Coq Require Import List ZArith Lia Arith Bool.
From Verif Require Import Util MatrixModel GsoModel.
Import ListNotations.
Local Open Scope nat_scope.

(** pointwise update: assignment to x[i] in the copy of the solution, bkz.cpp:209, 216, 236, 244, 255 *)
Definition xset (x : nat -> Z) (i : nat) (v : Z) : nat -> Z := fun k => if k =? i then v else x k.

(** bkz.cpp:240-257: the nested while loops for one pair, b = x[k] (row hi), a = x[k-off] (row lo).
    The tests are flattened: x[k-off] is not changed by the inner loop, so testing it before
    each pass is the same.  [None] = more than [fuel] passes. *)
Fixpoint gpair (fuel : nat) (dual : bool) (hi lo : nat) (b a : Z) : option (Z * Z * list gop) :=
  if (a =? 0)%Z then Some (b, a, [])
  else
    match fuel with
    | O => None
    | S f =>
        if (a <=? b)%Z then
          r <- gpair f dual hi lo (b - a)%Z a;;
          let '(b', a', l) := r in Some (b', a', (if dual then ORowSub hi lo else ORowAdd lo hi) :: l)
        else
          r <- gpair f dual hi lo a b;;
          let '(b', a', l) := r in Some (b', a', OSwap lo hi :: l)
    end.

Section Insert.
Variables (kappa : nat) (dual : bool).

(** bkz.cpp:232-258: the body of the inner while for the pair (k, k - off) *)
Definition gbody (x : nat -> Z) (k off : nat) : option ((nat -> Z) * list gop) :=
  let j := k - off in
  if (x k =? 0)%Z && (x j =? 0)%Z then Some (x, [])
  else
    let sw := (x k <? x j)%Z in
    let b := if sw then x j else x k in
    let a := if sw then x k else x j in
    r <- gpair (Z.to_nat (2 * (a + b) + 2)) dual (kappa + k) (kappa + j) b a;;
    let '(b', a', l) := r in
    Some (xset (xset x k b') j a', (if sw then [OSwap (kappa + j) (kappa + k)] else []) ++ l).
(** bkz.cpp:229-260: k = d-1, d-1-2*off, ... while k - off >= 0 *)
Fixpoint glevel (n : nat) (x : nat -> Z) (k off : nat) : option ((nat -> Z) * list gop) :=
  if k <? off then Some (x, [])
  else
    match n with
    | O => None
    | S n' =>
        r <- gbody x k off;;
        let '(x', l) := r in
        if k <? 2 * off then Some (x', l)
        else r2 <- glevel n' x' (k - 2 * off) off;; let '(x2, l2) := r2 in Some (x2, l ++ l2)
    end.
(** bkz.cpp:225-262: off = 1, 2, 4, ... while off < d *)
Fixpoint gtree (n : nat) (x : nat -> Z) (d off : nat) : option ((nat -> Z) * list gop) :=
  if off <? d then
    match n with
    | O => None
    | S n' =>
        r <- glevel d x (d - 1) off;;
        let '(x', l) := r in
        r2 <- gtree n' x' d (2 * off);; let '(x2, l2) := r2 in Some (x2, l ++ l2)
    end
  else Some (x, []).

(** bkz.cpp:212-219: rows with a negative coefficient are negated *)
Definition neg_ops (d : nat) (x : nat -> Z) : list gop :=
  flat_map (fun i => if (x i <? 0)%Z then [ONegate (kappa + i)] else []) (seq 0 d).

(** bkz.cpp:205-272 svp_postprocessing_generic (row_op_begin/row_op_end only invalidate the
    floating-point cache); returns the final coefficients and the operations.
    [None] = a loop did not stop within the counters. *)
Definition generic_run (d : nat) (sol : nat -> Z) : option ((nat -> Z) * list gop) :=
  r <- gtree d (fun i => Z.abs (sol i)) d 1;;
  let '(x, l) := r in
  Some (x, neg_ops d sol ++ l ++ if dual then [] else [OMove (kappa + d - 1) kappa]).
(** bkz.cpp:205-272 the operations of generic_run *)
Definition post_generic (d : nat) (sol : nat -> Z) : option (list gop) := option_map snd (generic_run d sol).

(** bkz.cpp:133-142: number of non-zero coordinates, largest index of a coordinate +-1 (None = -1) *)
Fixpoint scan (n : nat) (sol : nat -> Z) : nat * option nat :=
  match n with
  | O => (0, None)
  | S i =>
      let '(c, v) := scan i sol in
      ((if (sol i =? 0)%Z then c else S c),
       if (Z.abs (sol i) =? 1)%Z then Some i else v)
  end.

(** bkz.cpp:128-203 svp_postprocessing.  [None] = undefined behaviour (move_row of row -1)
    or no termination.  Simplification: the coefficients, and their product with +-1, are converted
    exactly to long (row_addmul, gso_interface.h, with exponent 0). *)
Definition svp_post (d : nat) (sol : nat -> Z) : option (list gop) :=
  let '(nz, iv) := scan d sol in
  let pos := if dual then kappa + d - 1 else kappa in
  if nz =? 1 then
    match iv with
    | Some i => Some [OMove (kappa + i) pos]
    | None => if kappa =? 0 then None else Some [OMove (kappa - 1) pos]  (* i_vector = -1 *)
    end
  else
    match iv with
    | Some v =>
        let s := if dual then (- sol v)%Z else sol v in
        Some (flat_map (fun i => if negb (sol i =? 0)%Z && negb (i =? v)
                 then [if dual then OAddmulWe (kappa + i) (kappa + v) (s * sol i) 0 0 0
                       else OAddmulWe (kappa + v) (kappa + i) (s * sol i) 0 0 0] else []) (seq 0 d)
              ++ [OMove (kappa + v) pos])
    | None => post_generic d sol
    end.
End Insert.

(** ** rerandomize_block *)
(** Random numbers: the n-th call of gmp_urandomm_ui(state, bound) returns [rnd n mod bound]
    (every value below [bound] is possible), bkz.cpp:54, 58, 70, 71. *)
Section Rerandom.
Variable rnd : nat -> nat.
(** one number below the bound, bkz.cpp:54, 58, 70, 71 *)
Definition draw (n bound : nat) : nat := rnd n mod bound.

(** bkz.cpp:55-59: draw b until it differs from a; returns b and the number of draws consumed *)
Fixpoint draw_other (fuel : nat) (n a bound base : nat) : option (nat * nat) :=
  match fuel with
  | O => None
  | S f => let b := draw n bound + base in if b =? a then draw_other f (S n) a bound base else Some (b, S n)
  end.
(** bkz.cpp:52-61: the row permutation *)
Fixpoint perm_ops (fuel cnt n lo hi : nat) : option (list gop * nat) :=
  match cnt with
  | O => Some ([], n)
  | S c =>
      let a := draw n (hi - lo - 1) + lo in
      r <- draw_other fuel (S n) a (hi - lo - 1) lo;;
      let '(b, n1) := r in
      r2 <- perm_ops fuel c n1 lo hi;;
      let '(l, n2) := r2 in Some (OMove b a :: l, n2)
  end.
(** bkz.cpp:68-75: the additions for one row a *)
Fixpoint tri_row (cnt n a hi : nat) : list gop * nat :=
  match cnt with
  | O => ([], n)
  | S c =>
      let b := draw n (hi - (a + 1) - 1) + a + 1 in
      let o := if draw (S n) 2 =? 0 then ORowSub a b else ORowAdd a b in
      let '(l, n') := tri_row c (S (S n)) a hi in (o :: l, n')
  end.
(** bkz.cpp:66-76: rows a = min_row, ..., max_row - 3 *)
Fixpoint tri_ops (rows : list nat) (n hi density : nat) : list gop :=
  match rows with
  | [] => []
  | a :: t => let '(l, n') := tri_row density n a hi in l ++ tri_ops t n' hi density
  end.
(** bkz.cpp:43-80; [fuel] bounds the redraws of one position *)
Definition rerandomize (fuel lo hi density : nat) : option (list gop) :=
  if hi - lo <? 2 then Some []
  else
    r <- perm_ops fuel (4 * (hi - lo)) 0 lo hi;;
    let '(l, n) := r in Some (l ++ tri_ops (seq lo (hi - 2 - lo)) n hi density).
End Rerandom.
