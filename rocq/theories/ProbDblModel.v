(** The two functions that move a pruning profile to the target metric,
    Pruner<FP_NR<double>>::optimize_coefficients_incr_prob and
    optimize_coefficients_decr_prob (pruner_optimize_tp.cpp), in binary64
    arithmetic: infinities and NaN are values (OptModel has the same functions in
    exact arithmetic).

    measure_metric and the costs of the levels for half of a profile are
    arguments; they may throw.  Writing the costs to detailed_cost, the weights,
    the step, enforce and the comparison with the old profile are modelled
    statement by statement. *)
From Coq Require Import List ZArith Arith Bool.
From Flocq Require Import BinarySingleNaN.
From Verif Require Import PrunerModel OptModel DblModel.
Import ListNotations.

(** the constant 1.0 (pruner_optimize_tp.cpp:42, 55-56) *)
Definition d_one : dbl := d_of 1 0.
(** the constant p/q, rounded to nearest (pruner_optimize_tp.cpp:5 1e-4, pruner.h:1019 .999) *)
Definition d_quo (p q : Z) : dbl := d_div (d_of p 0) (d_of q 0).
(** pruner_optimize_tp.cpp:5 OPTIMIZE_PROB_MINSTEP 1e-4 *)
Definition d_minstep : dbl := d_quo 1 10000.

(** x <= y, y >= x (nr_FP_d.inl:107-119) *)
Definition d_le (x y : dbl) : bool := Bleb x y.
(** nr_FP_d.inl:61-68 cmp: 0 unless one of the two comparisons holds *)
Definition d_cmp (x y : dbl) : Z := if d_lt y x then 1%Z else if d_lt x y then (-1)%Z else 0%Z.
(** nr_FP.inl:160 operator!= *)
Definition d_ne (x y : dbl) : bool := negb (d_cmp x y =? 0)%Z.

(** std::vector::resize (pruner_cost.cpp:19, pruner_util.cpp:101): new entries
    are 0.0 *)
Definition dresize (n : nat) (v : list dbl) : list dbl := firstn n v ++ repeat d_zero (n - length v).

Section ProbDbl.
  (** pruner.h:600-601 n, d *)
  Variables n d : nat.
  (** pruner_prob.cpp:132-146 measure_metric *)
  Variable M : list dbl -> option dbl.
  (** pruner_cost.cpp:8-67 single_enum_cost_evec: the total and the 2 d costs tmp
      of the levels i = 0, ..., 2 d - 1; [None] is the exception *)
  Variable half_cost : list dbl -> option (dbl * list dbl).
  (** pruner.h:595 target *)
  Variable target : dbl.
  (** pruner.h:603 min_pruning_coefficients *)
  Variable mins : list dbl.

  (** pruner_cost.cpp:17-20, 54-57 the writes to detailed_cost *)
  Definition dstore (costs det : list dbl) : out (list dbl) :=
    each (seq 0 (2 * d)) (fun i det =>
      t <~ ub (nth_error costs i);; k <~ ub (osub (2 * d) (i + 1));; ub (vset det k t)) (dresize n det).
  (** pruner_cost.cpp:8-67 with the output detailed_cost *)
  Definition dcost_evec (b det : list dbl) : out (dbl * list dbl) :=
    c <~ call (half_cost b);; det <~ dstore (snd c) det;; Ret (fst c, det).
  (** pruner_cost.cpp:75-79 (o = 0), 89-93 (o = 1) half of the entries *)
  Definition dhalf (o : nat) (b : list dbl) : out (list dbl) :=
    collect (fun i => ub (nth_error b (2 * i + o))) (seq 0 d).
  (** pruner_cost.cpp:100-113 single_enum_cost *)
  Definition dcost (b det : list dbl) : out (dbl * list dbl) :=
    if (length b =? d)%nat then dcost_evec b det
    else
      lo <~ dhalf 0 b;; l <~ dcost_evec lo det;;
      hi <~ dhalf 1 b;; u <~ dcost_evec hi (snd l);;
      Ret (d_div (d_add (fst l) (fst u)) (d_of 2 0), snd u).

  (** pruner_optimize_tp.cpp:37-44, 102-109 a weight before the normalisation *)
  Definition draw (det : list dbl) (dn i : nat) : out dbl :=
    s <~ each (seq i (dn - i)) (fun j a => x <~ ub (nth_error det j);; Ret (d_add a x)) d_zero;;
    let w := d_div d_one s in Ret (if d_lt w d_minstep then d_minstep else w).
  (** pruner_optimize_tp.cpp:34-50, 99-116 the weights *)
  Definition dweights (det : list dbl) (dn : nat) : out (list dbl) :=
    w <~ collect (draw det dn) (seq 0 dn);;
    let total := fold_left d_add w d_zero in Ret (map (fun x => d_div x total) w).

  (** pruner_optimize_tp.cpp:54-56 *)
  Definition dup (x w : dbl) : dbl := let y := d_add x w in if d_le d_one y then d_one else y.
  (** pruner_optimize_tp.cpp:121-123 *)
  Definition ddown (x w : dbl) : dbl := let y := d_sub x w in if d_lt y d_minstep then d_minstep else y.

  (** pruner.h:1025-1033 body of the first loop of enforce; status is not used by
      the callers here *)
  Definition dclip (c i : nat) (b : list dbl) : out (list dbl) :=
    x <~ ub (nth_error b i);;
    let x := if d_lt d_one x then d_one else x in
    if (i / c <? d)%nat then
      m <~ ub (nth_error mins (i / c));; ub (vset b i (if d_le x m then m else x))
    else ub (vset b i x).
  (** pruner.h:1035-1042 body of the second loop *)
  Definition draise (i : nat) (b : list dbl) : out (list dbl) :=
    x <~ ub (nth_error b i);; y <~ ub (nth_error b (S i));;
    if d_lt y x then ub (vset b (S i) x) else Ret b.
  (** pruner.h:1012-1053 enforce with j = 0 (the third loop makes no turn) *)
  Definition denforce (b : list dbl) : out (list dbl) :=
    let dn := length b in
    let c := if (dn =? d)%nat then 1%nat else 2%nat in
    k <~ ub (osub dn 1);; x <~ ub (nth_error b k);;
    b <~ (if d_lt x (d_quo 999 1000) && negb (0 =? k)%nat then ub (vset b k d_one) else Ret b);;
    b <~ each (seq 0 dn) (dclip c) b;;
    each (seq 0 (dn - 1)) draise b.

  (** pruner_optimize_tp.cpp:61-66, 128-133 not_changed *)
  Definition dunchanged (b old : list dbl) : bool :=
    forallb (fun i => negb (d_ne (nth i b d_zero) (nth i old d_zero))) (seq 0 (length b)).

  (** pruner_optimize_tp.cpp:23-69 (up) and 88-138 one turn; the state is (tours,
      b, detailed_cost) *)
  Definition dprob_turn (up : bool) (dn fu : nat) (s : Z * list dbl * list dbl) : out (Z * list dbl * list dbl + list dbl) :=
    let '(tours, b, det) := s in
    if (10000 <? tours)%Z then Ret (inr b)
    else
      p <~ call (M b);;
      if (if up then d_le target p else d_le p target) then Ret (inr b)
      else
        c <~ dcost b det;;
        w <~ dweights (snd c) dn;;
        nb <~ collect (fun i => x <~ ub (nth_error b i);; y <~ ub (nth_error w i);;
                                Ret (if up then dup x y else ddown x y)) (seq 0 dn);;
        nb <~ denforce nb;;
        if dunchanged nb b then Ret (inr nb) else Ret (inl ((tours + 1)%Z, nb, snd c)).

  (** pruner_util.cpp:124-131 load_coefficients *)
  Definition dload (dn : nat) (pr : list dbl) : out (list dbl) :=
    let c := if (dn =? d)%nat then 2%nat else 1%nat in
    collect (fun i => k <~ ub (osub n (c * i + 1));; ub (nth_error pr k)) (seq 0 dn).
  (** pruner_util.cpp:98-119 save_coefficients *)
  Definition dsave (pr b : list dbl) : out (list dbl) :=
    let pr := dresize n pr in
    pr <~ (if (length b =? d)%nat then
             each (seq 0 d) (fun i pr =>
               x <~ ub (nth_error b i);;
               k1 <~ ub (osub n (1 + 2 * i));; pr <~ ub (vset pr k1 x);;
               k2 <~ ub (osub n (2 + 2 * i));; ub (vset pr k2 x)) pr
           else
             each (seq 0 n) (fun i pr =>
               x <~ ub (nth_error b i);; k <~ ub (osub n (1 + i));; ub (vset pr k x)) pr);;
    ub (vset pr 0 d_one).

  (** pruner_optimize_tp.cpp:8-72 (up) optimize_coefficients_incr_prob, 74-140
      optimize_coefficients_decr_prob *)
  Definition dchange_prob (up : bool) (fuel : nat) (pr : list dbl) : out (list dbl) :=
    let dn := length pr in
    b <~ dload dn pr;;
    b <~ wloop (dprob_turn up dn) fuel (0%Z, b, repeat d_zero dn);;
    dsave pr b.
End ProbDbl.
