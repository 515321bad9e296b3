(** Pruning coefficient vectors of Pruner<FT>: saving, loading, enforcing and
    the greedy starting point (pruner.h, pruner_util.cpp,
    pruner_optimize_tc.cpp).

    Numbers are canonical rationals.  save/load/enforce only copy and compare
    coefficients, so this is exact for every finite double; the three decimal
    literals of enforce (.999, 1.0001, .000001) are parameters, the last one as
    an arbitrary function (x |-> x + .000001 with whatever rounding).  NaN and
    infinities are not modelled.  FT = double is assumed where the code converts
    with get_d (for wider FT the conversion rounds).
    Every vector access is checked: an access outside the vector gives [None]. *)
From Coq Require Import List ZArith QArith Qcanon Lia Arith Bool.
From Verif Require Import Util QcUtil MatrixModel.
Import ListNotations.
Local Open Scope nat_scope.

(** pruner.h:1022,1028,... [b[i] = x]: write inside a std::vector *)
Definition vset {A} (v : list A) (i : nat) (x : A) : option (list A) :=
  _ <- nth_error v i;; Some (upd v i x).

(** pruner.h:1031, 1037 [<], [<=] on coefficients *)
Definition qltb (x y : Qc) : bool := if Qclt_le_dec x y then true else false.
(** pruner.h:1031 [<=] on coefficients *)
Definition qleb (x y : Qc) : bool := negb (qltb y x).

(** pruner_util.cpp:101 [pr.resize(n)]: keeps a prefix, new entries are 0.0 *)
Definition vresize (n : nat) (pr : list Qc) : list Qc :=
  firstn n pr ++ repeat 0%Qc (n - length pr).

(** pruner_util.cpp:107, 115, 130: indices like [n - 1 - 2i] are computed on
    ints in the code, a negative index is out of bounds *)
Definition osub (a b : nat) : option nat := if b <=? a then Some (a - b) else None.

(** pruner_util.cpp:98-119 save_coefficients *)
Definition save_coefficients (n d : nat) (pr b : list Qc) : option (list Qc) :=
  let pr := vresize n pr in
  pr <- (if length b =? d then
           ofor (seq 0 d) (fun i pr =>
             x <- nth_error b i;;
             k1 <- osub n (1 + 2 * i);; pr <- vset pr k1 x;;
             k2 <- osub n (2 + 2 * i);; vset pr k2 x) pr
         else
           ofor (seq 0 n) (fun i pr =>
             x <- nth_error b i;;
             k <- osub n (1 + i);; vset pr k x) pr);;
  vset pr 0 1%Qc.

(** pruner_util.cpp:124-139 load_coefficients *)
Definition load_coefficients (n d : nat) (b pr : list Qc) : option (list Qc) :=
  let c := if length b =? d then 2 else 1 in
  ofor (seq 0 (length b)) (fun i b =>
    k <- osub n (c * i + 1);; x <- nth_error pr k;; vset b i x) b.

Section Enforce.
  (** pruner.h:1019, 1027, 1039: the literals .999 and 1.0001 and the sum
      [x + .000001] *)
  Variable c999 c10001 : Qc.
  Variable plus_eps : Qc -> Qc.

  (** pruner.h:1025-1033 body of the first loop of enforce; [d] is the half
      length, [mins] is min_pruning_coefficients *)
  Definition clip_step (d c : nat) (mins : list Qc) (i : nat) (s : list Qc * bool)
    : option (list Qc * bool) :=
    let '(b, st) := s in
    x <- nth_error b i;;
    let st := st || qltb c10001 x in
    let x := if qltb 1%Qc x then 1%Qc else x in
    if i / c <? d then
      m <- nth_error mins (i / c);;
      b <- vset b i (if qleb x m then m else x);; Some (b, st)
    else b <- vset b i x;; Some (b, st).

  (** pruner.h:1035-1042 body of the second loop: raise the next entry *)
  Definition raise_step (i : nat) (s : list Qc * bool) : option (list Qc * bool) :=
    let '(b, st) := s in
    x <- nth_error b i;; y <- nth_error b (S i);;
    if qltb y x then b <- vset b (S i) x;; Some (b, st || qltb (plus_eps y) x)
    else Some (b, st).

  (** pruner.h:1044-1051 body of the third loop: lower the entry *)
  Definition lower_step (i : nat) (s : list Qc * bool) : option (list Qc * bool) :=
    let '(b, st) := s in
    x <- nth_error b i;; y <- nth_error b (S i);;
    if qltb y x then b <- vset b i y;; Some (b, st || qltb (plus_eps y) x)
    else Some (b, st).

  (** pruner.h:1012-1053 enforce *)
  Definition enforce (d : nat) (mins b : list Qc) (j : nat) : option (list Qc * bool) :=
    let dn := length b in
    let c := if dn =? d then 1 else 2 in
    k <- osub dn 1;;
    x <- nth_error b k;;
    s <- (if qltb x c999 && negb (j =? k) then b <- vset b k 1%Qc;; Some (b, true)
          else Some (b, false));;
    s <- ofor (seq 0 dn) (clip_step d c mins) s;;
    s <- ofor (seq j (dn - 1 - j)) raise_step s;;
    ofor (rev (seq 0 (Nat.min j (dn - 1)))) lower_step s.
End Enforce.

Section Greedy.
  (** pruner_optimize_tc.cpp:439 the literal .9 and [1.1 * x]; 446 the literal
      .001; 448 [x *= .98]; 446, 453-457 [busy j b]: the computed node count
      exceeds goal_factor * preproc_cost (relative volumes, ball volumes and
      square roots: any outcome of that comparison is allowed) *)
  Variable c9 c001 : Qc.
  Variable up down : Qc -> Qc.
  Variable busy : nat -> list Qc -> bool.

  (** pruner_optimize_tc.cpp:449-452 "Enforcing decreasing by hand" *)
  Definition cap_below (i : nat) (b : list Qc) : option (list Qc) :=
    ofor (seq 0 i) (fun k b =>
      x <- nth_error b k;; y <- nth_error b i;;
      vset b k (if qltb x y then x else y)) b.

  (** pruner_optimize_tc.cpp:446-458 the while loop.  [first]: before the first
      turn nodes = 1 + 1e10 * preproc_cost (444), which exceeds
      goal_factor * preproc_cost for every goal_factor <= 1e10.
      [fuel] bounds the turns, running out of it is [None]. *)
  Fixpoint shrink (fuel : nat) (first : bool) (i : nat) (b : list Qc) : option (list Qc) :=
    match fuel with
    | O => None
    | S f =>
        x <- nth_error b i;;
        if (first || busy (2 * i + 1) b) && qltb c001 x then
          b <- vset b i (down x);; b <- cap_below i b;; shrink f false i b
        else Some b
    end.

  (** pruner_optimize_tc.cpp:434-440, 446-458 one turn of the outer loop, j = 2i+1 *)
  Definition greedy_step (fuel i : nat) (b : list Qc) : option (list Qc) :=
    b <- (if 1 <? i then
            k <- osub i 1;; x <- nth_error b k;;
            vset b i (if qltb c9 x then 1%Qc else up x)
          else Some b);;
    shrink fuel true i b.

  (** pruner_optimize_tc.cpp:418-460 greedy: j = 1, 3, ... < 2d - 1 *)
  Definition greedy (fuel d : nat) : option (list Qc) :=
    ofor (seq 0 (d - 1)) (greedy_step fuel) (repeat 1%Qc d).
End Greedy.

(** pruner_optimize_tc.cpp:442-443 the second summand of goal_factor:
    [4 * j * (n - j) / (n * n * n)], all operands are ints *)
Definition goal_parabola (n j : Z) : Z := Z.quot (4 * j * (n - j)) (n * n * n).
