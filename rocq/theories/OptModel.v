(** The optimiser of the pruning coefficients, Pruner<FT> (pruner_optimize.cpp,
    pruner_optimize_tc.cpp, pruner_optimize_tp.cpp, and enforce of pruner.h,
    target_function_gradient of pruner_cost.cpp).

    Exact real arithmetic instead of FT and double.  target_function,
    measure_metric, single_enum_cost and the node count of greedy are arguments
    (PruneCostModel has models of them); they may throw.  Loops whose number of
    turns depends on numbers take fuel.  Messages (verbosity) are dropped; the
    unsigned turn counter of nelder_mead_step is not bounded. *)
From Coq Require Import List ZArith Reals Arith Bool.
From Verif Require Import Util MatrixModel PrunerModel PruneVolModel PruneCostModel.
Import ListNotations.
Local Open Scope R_scope.

(** the exceptions: a NaN or inf in target_function or measure_metric
    (pruner_cost.cpp:142-146), "Concavity says that should not happen."
    (pruner_optimize_tc.cpp:654-657), "Something certain is false in
    Nelder-Mead." (pruner_optimize_tc.cpp:766-769) *)
Inductive exn := Range | Concavity | Certain.

(** outcome of a function: value, exception, access outside a vector
    (undefined behaviour), more turns than the fuel *)
Inductive out (A : Type) := Ret (a : A) | Throw (e : exn) | Ub | Fuel.
Arguments Ret {A} _. Arguments Throw {A} _. Arguments Ub {A}. Arguments Fuel {A}.

(** sequence of statements *)
Definition obnd {A B} (x : out A) (f : A -> out B) : out B :=
  match x with Ret a => f a | Throw e => Throw e | Ub => Ub | Fuel => Fuel end.
Notation "x <~ e ;; k" := (obnd e (fun x => k)) (at level 60, e at next level, right associativity).

(** vector accesses: [None] is an access outside the vector *)
Definition ub {A} (x : option A) : out A := match x with Some a => Ret a | None => Ub end.
(** calls of target_function, measure_metric, single_enum_cost *)
Definition call {A} (x : option A) : out A := match x with Some a => Ret a | None => Throw Range end.

(** comparisons of FT *)
Definition rlt (x y : R) : bool := if Rlt_dec x y then true else false.
(** [<=] *)
Definition rle (x y : R) : bool := negb (rlt y x).

(** while (1): a turn either goes on with a new state or leaves the loop *)
Fixpoint wloop {S A} (body : nat -> S -> out (S + A)) (fuel : nat) (s : S) : out A :=
  match fuel with
  | O => Fuel
  | Datatypes.S fu => obnd (body fu s) (fun r => match r with inl s' => wloop body fu s' | inr a => Ret a end)
  end.

(** for loops over the given indices that collect a value per index *)
Fixpoint collect {A} (f : nat -> out A) (l : list nat) : out (list A) :=
  match l with
  | [] => Ret []
  | i :: l => x <~ f i;; r <~ collect f l;; Ret (x :: r)
  end.
(** for loops over the given indices that update a state *)
Fixpoint each {S} (l : list nat) (f : nat -> S -> out S) (s : S) : out S :=
  match l with [] => Ret s | i :: l => s' <~ f i s;; each l f s' end.

(** ** enforce *)
Section Enforce.
  (** pruner.h:601 d; pruner.h:603 min_pruning_coefficients *)
  Variable d : nat.
  Variable mins : list R.

  (** pruner.h:1025-1033 body of the first loop *)
  Definition eclip (c i : nat) (s : list R * bool) : option (list R * bool) :=
    let '(b, st) := s in
    x <- nth_error b i;;
    let st := st || rlt (10001 / 10000) x in
    let x := if rlt 1 x then 1 else x in
    if (i / c <? d)%nat then
      m <- nth_error mins (i / c);;
      b <- vset b i (if rle x m then m else x);; Some (b, st)
    else b <- vset b i x;; Some (b, st).

  (** pruner.h:1035-1042 body of the second loop *)
  Definition eraise (i : nat) (s : list R * bool) : option (list R * bool) :=
    let '(b, st) := s in
    x <- nth_error b i;; y <- nth_error b (S i);;
    if rlt y x then b <- vset b (S i) x;; Some (b, st || rlt (y + 1 / 1000000) x)
    else Some (b, st).

  (** pruner.h:1044-1051 body of the third loop *)
  Definition elower (i : nat) (s : list R * bool) : option (list R * bool) :=
    let '(b, st) := s in
    x <- nth_error b i;; y <- nth_error b (S i);;
    if rlt y x then b <- vset b i y;; Some (b, st || rlt (y + 1 / 1000000) x)
    else Some (b, st).

  (** pruner.h:1012-1053 enforce *)
  Definition enforce (b : list R) (j : nat) : option (list R * bool) :=
    let dn := length b in
    let c := if (dn =? d)%nat then 1%nat else 2%nat in
    k <- osub dn 1;;
    x <- nth_error b k;;
    s <- (if rlt x (999 / 1000) && negb (j =? k)%nat then b <- vset b k 1;; Some (b, true)
          else Some (b, false));;
    s <- ofor (seq 0 dn) (eclip c) s;;
    s <- ofor (seq j (dn - 1 - j)) eraise s;;
    ofor (rev (seq 0 (Nat.min j (dn - 1)))) elower s.
End Enforce.

(** ** saving (loading is PruneCostModel.load_profile) *)

(** pruner_util.cpp:98-119 save_coefficients *)
Definition save_profile (n d : nat) (pr b : list R) : option (list R) :=
  let pr := rresize n pr in
  pr <- (if (length b =? d)%nat then
           ofor (seq 0 d) (fun i pr =>
             x <- nth_error b i;;
             k1 <- osub n (1 + 2 * i);; pr <- vset pr k1 x;;
             k2 <- osub n (2 + 2 * i);; vset pr k2 x) pr
         else
           ofor (seq 0 n) (fun i pr =>
             x <- nth_error b i;;
             k <- osub n (1 + i);; vset pr k x) pr);;
  vset pr 0 1.

(** ** greedy *)

(** pruner_optimize_tc.cpp:453-457 the node count of level j *)
Definition greedy_nodes (fresh : nat -> list R) (ball : list R) (sym : R) (sh : shape) (j : nat) (b : list R) : option R :=
  let i := (j / 2)%nat in
  v <- relative_volume (fresh ((j + 1) / 2)%nat) ((j + 1) / 2)%nat b;;
  bv <- nth_error ball (j + 1);; x <- nth_error b i;; ip <- nth_error (sh_ipv sh) j;;
  Some (v * bv * (sh_nr sh * sqrt x) ^ (j + 1) * ip * sym).

Section Greedy.
  (** pruner.h:600-601 n, d *)
  Variables n d : nat.
  (** pruner_optimize_tc.cpp:453-457 *)
  Variable nodes : nat -> list R -> option R.

  (** pruner_optimize_tc.cpp:449-452 "Enforcing decreasing by hand" *)
  Definition gcap (i : nat) (b : list R) : option (list R) :=
    ofor (seq 0 i) (fun k b =>
      x <- nth_error b k;; y <- nth_error b i;;
      vset b k (if rlt x y then x else y)) b.

  (** pruner_optimize_tc.cpp:446-458 one turn of the while loop *)
  Definition gshrink (preproc : R) (j : nat) (fu : nat) (s : R * list R) : out (R * list R + list R) :=
    let i := (j / 2)%nat in
    let '(nd, b) := s in
    let goal := 1 / (3 * INR n) + IZR (goal_parabola (Z.of_nat n) (Z.of_nat j)) in
    x <~ ub (nth_error b i);;
    if rlt (goal * preproc) nd && rlt (1 / 1000) x then
      b <~ ub (vset b i (x * (98 / 100)));; b <~ ub (gcap i b);; nd <~ ub (nodes j b);; Ret (inl (nd, b))
    else Ret (inr b).

  (** pruner_optimize_tc.cpp:434-459 one turn of the outer loop, j = 2i + 1 *)
  Definition gstep (preproc : R) (fuel i : nat) (b : list R) : out (list R) :=
    b <~ (if (1 <? i)%nat then
            x <~ ub (nth_error b (i - 1));;
            ub (vset b i (if rlt (9 / 10) x then 1 else 11 / 10 * x))
          else Ret b);;
    wloop (gshrink preproc (2 * i + 1)) fuel (1 + 10000000000 * preproc, b).

  (** pruner_optimize_tc.cpp:418-460 greedy (with a loaded shape); it also sets
      all entries of min_pruning_coefficients to zero (427) *)
  Definition greedy_profile (preproc : R) (fuel : nat) : out (list R) :=
    each (seq 0 (d - 1)) (gstep preproc fuel) (repeat 1 d).
End Greedy.

(** ** The optimisers *)
Section Opt.
  (** pruner.h:600-601 n, d *)
  Variables n d : nat.
  (** pruner_cost.cpp:136-167 target_function *)
  Variable F : list R -> option R.
  (** pruner_prob.cpp:132-146 measure_metric *)
  Variable M : list R -> option R.
  (** pruner_cost.cpp:100-113 single_enum_cost with detailed_cost *)
  Variable SC : list R -> list R -> option (R * list R).
  (** pruner.h:595 target *)
  Variable target : R.

  (** pruner.h:613-614 min_cf_decrease *)
  Definition min_cf_decrease : R := 995 / 1000.
  (** pruner.h:615 step_factor *)
  Definition step_factor : R := sqrt 2.

  Section Minima.
  (** pruner.h:603 min_pruning_coefficients *)
  Variable mins : list R.
  (** pruner.h:1012-1053 enforce *)
  Definition enf (b : list R) (j : nat) : out (list R * bool) := ub (enforce d mins b j).

  (** pruner_cost.cpp:121-132 one turn: derivative in direction i *)
  Definition slope_at (eps : R) (b : list R) (i : nat) : out R :=
    x <~ ub (nth_error b i);;
    b1 <~ ub (vset b i (x * (1 - eps)));; e1 <~ enf b1 i;; X <~ call (F (fst e1));;
    b2 <~ ub (vset b i (x * (1 + eps)));; e2 <~ enf b2 i;; Y <~ call (F (fst e2));;
    Ret ((ln X - ln Y) / eps).
  (** pruner_cost.cpp:115-134 target_function_gradient *)
  Definition target_function_gradient (eps : R) (b : list R) : out (list R) :=
    k <~ ub (osub (length b) 1);;
    g <~ collect (slope_at eps b) (seq 0 k);; Ret (g ++ [0]).

  (** pruner_optimize_tc.cpp:543-567 one mini-step; the state is (j, step, new_b,
      b, cf); leaving with [None] is "return -1", with [Some j] the break *)
  Definition mini_step (dn : nat) (g : list R) (fu : nat) (s : nat * R * list R * list R * R)
    : out (nat * R * list R * list R * R + option nat * list R * R) :=
    let '(j, step, new_b, b, cf) := s in
    if rlt (INR dn) step then Ret (inr (None, b, cf))
    else
      nb <~ collect (fun i => x <~ ub (nth_error new_b i);; y <~ ub (nth_error g i);; Ret (x + step * y)) (seq 0 dn);;
      e <~ enf nb 0;;
      new_cf <~ call (F (fst e));;
      if rle cf new_cf then Ret (inr (Some j, b, cf))
      else Ret (inl (S j, step * step_factor, fst e, fst e, new_cf)).

  (** pruner_optimize_tc.cpp:500-579 gradient_descent_step *)
  Definition gradient_descent_step (fuel : nat) (eps min_step : R) (b : list R) : out (Z * list R) :=
    let dn := length b in
    cf <~ call (F b);;
    g <~ target_function_gradient eps b;;
    let norm := sqrt (fold_left (fun a x => a + x * x) g 0 / INR dn) in
    if rle norm 0 then Ret (0%Z, b)
    else
      r <~ wloop (mini_step dn (map (fun x => x / norm) g)) fuel (O, min_step, b, b, cf);;
      let '(res, b, new_cf) := r in
      match res with
      | None => Ret ((-1)%Z, b)
      | Some j => if rlt (cf * min_cf_decrease) new_cf then Ret (0%Z, b) else Ret (Z.of_nat j, b)
      end.

  (** pruner_optimize_tc.cpp:472-490 one turn of gradient_descent; the state is
      (epsilon, min_step, trials, b) *)
  Definition descent_turn (fu : nat) (s : R * R * Z * list R) : out (R * R * Z * list R + list R) :=
    let '(eps, ms, trials, b) := s in
    r <~ gradient_descent_step fu eps ms b;;
    let '(ret, b) := r in
    if (ret =? 0)%Z then Ret (inr b)
    else if (ret <? 0)%Z then
      if (5 <=? trials + 1)%Z then Ret (inr b)
      else Ret (inl (eps * (9 / 10), ms * (9 / 10), (trials + 1)%Z, b))
    else Ret (inl (eps, ms, (trials - 1)%Z, b)).
  (** pruner_optimize_tc.cpp:465-495 gradient_descent; pruner.h:611-612 epsilon =
      2^-7, min_step = 2^-6 *)
  Definition gradient_descent (fuel : nat) (b : list R) : out (list R) :=
    wloop descent_turn fuel (/ 2 ^ 7, / 2 ^ 6, 0%Z, b).

  (** ** Nelder-Mead *)

  (** pruner_optimize_tc.cpp:599-608 vertex i of the first simplex and its value *)
  Definition first_vertex (b : list R) (i : nat) : out (list R * R) :=
    v <~ (if (i <? length b)%nat then
            x <~ ub (nth_error b i);; ub (vset b i (x + (if rlt x (1 / 2) then 1 / 100 else - (1 / 100))))
          else Ret b);;
    e <~ enf v 0;; f <~ call (F (fst e));; Ret (fst e, f).

  (** pruner_optimize_tc.cpp:625, 631-634 the indices mini and maxi; the second
      comparison is with fs[mini] *)
  Definition min_max (fs : list R) : nat * nat :=
    fold_left (fun m i =>
      let mini := if rlt (nth i fs 0) (nth (fst m) fs 0) then i else fst m in
      (mini, if rlt (nth mini fs 0) (nth i fs 0) then i else snd m)) (seq 1 (length fs - 1)) (O, O).
  (** pruner_optimize_tc.cpp:648-652 the index maxi2 *)
  Definition second_max (fs : list R) (maxi : nat) : nat :=
    fold_left (fun m i => if rlt (nth m fs 0) (nth i fs 0) && negb (i =? maxi)%nat then i else m)
      (seq 1 (length fs - 1)) (if (maxi =? 0)%nat then 1%nat else 0%nat).
  (** pruner_optimize_tc.cpp:686-690 maxi2 once more *)
  Definition second_max' (fs : list R) (maxi maxi2 : nat) : nat :=
    fold_left (fun m i => if rlt (nth m fs 0) (nth i fs 0) && negb (i =? maxi)%nat then i else m)
      (seq 0 (length fs)) maxi2.
  (** pruner_optimize_tc.cpp:626-627, 631-643 the centroid of all vertices *)
  Definition centroid (dn : nat) (bs : list (list R)) : out (list R) :=
    collect (fun j =>
      s <~ each (seq 1 (length bs - 1)) (fun i a => v <~ ub (nth_error bs i);; x <~ ub (nth_error v j);; Ret (a + x))
             (nth j (nth 0 bs []) 0);;
      Ret (s / INR (length bs))) (seq 0 dn).
  (** a point on the line through p and q: p + t * (q - p) (pruner_optimize_tc.cpp:705,
      733, 774, 803) *)
  Definition along (dn : nat) (p q : list R) (t : R) : out (list R) :=
    collect (fun i => x <~ ub (nth_error p i);; y <~ ub (nth_error q i);; Ret (x + t * (y - x))) (seq 0 dn).
  (** enforce and target_function of a new point *)
  Definition valued (v : list R) : out (list R * R) :=
    e <~ enf v 0;; f <~ call (F (fst e));; Ret (fst e, f).

  (** pruner_optimize_tc.cpp:799-807 vertex j after the shrink; vertex mini is
      the same before and after its own turn only if enforce leaves it alone, so the
      state is the list of all vertices *)
  Definition shrink_one (dn mini j : nat) (s : list (list R) * list R) : out (list (list R) * list R) :=
    let '(bs, fs) := s in
    p <~ ub (nth_error bs mini);; q <~ ub (nth_error bs j);;
    v <~ along dn p q (1 / 2);; r <~ valued v;;
    bs <~ ub (vset bs j (fst r));; fs <~ ub (vset fs j (snd r));; Ret (bs, fs).

  (** pruner_optimize_tc.cpp:623-808 one turn of the main loop; the state is
      (bs, fs, fs_maxi_last, counter); it leaves with bs[mini], fs[mini] *)
  Definition nelder_turn (dn : nat) (fu : nat) (s : list (list R) * list R * R * nat)
    : out (list (list R) * list R * R * nat + list R * R) :=
    let '(bs, fs, last, counter) := s in
    let '(mini, maxi) := min_max fs in
    bo <~ centroid dn bs;;
    let last := if (counter =? 0)%nat then nth maxi fs 0 else last in
    let maxi2 := second_max fs maxi in
    e <~ enf bo 0;;
    if snd e then Throw Concavity
    else
    let bo := fst e in
    let counter := S counter in
    let check := (counter mod length bs =? 0)%nat in
    if check && rlt (last * min_cf_decrease) (nth maxi fs 0) then
      b <~ ub (nth_error bs mini);; Ret (inr (b, nth mini fs 0))
    else
    let last := if check then nth maxi fs 0 else last in
    let maxi2 := second_max' fs maxi maxi2 in
    let replace (r : list R * R) :=
      bs <~ ub (vset bs maxi (fst r));; fs <~ ub (vset fs maxi (snd r));; Ret (inl (bs, fs, last, counter)) in
    bmax <~ ub (nth_error bs maxi);;
    br <~ along dn bo bmax (- (1));; r <~ valued br;;
    if rle (nth mini fs 0) (snd r) && rlt (snd r) (nth maxi2 fs 0) then replace r
    else if rlt (snd r) (nth mini fs 0) then
      be <~ along dn bo (fst r) 2;; x <~ valued be;;
      if rlt (snd x) (snd r) then replace x else replace r
    else if negb (rle (nth maxi2 fs 0) (snd r)) then Throw Certain
    else
      bc <~ along dn bo bmax (1 / 2);; c <~ valued bc;;
      if rlt (snd c) (nth maxi fs 0) then replace c
      else s <~ each (seq 0 (length bs)) (shrink_one dn mini) (bs, fs);; Ret (inl (fst s, snd s, last, counter)).

  (** pruner_optimize_tc.cpp:591-825 nelder_mead_step: improved, and the new b *)
  Definition nelder_mead_step (fuel : nat) (b : list R) : out (bool * list R) :=
    let dn := length b in
    vs <~ collect (first_vertex b) (seq 0 (S dn));;
    let fs := map snd vs in
    let init_cf := nth dn fs 0 in
    r <~ wloop (nelder_turn dn) fuel (map fst vs, fs, nth 0 fs 0, O);;
    Ret (rlt (snd r) (init_cf * min_cf_decrease), fst r).

  (** pruner_optimize_tc.cpp:103-105, 163-165 while (nelder_mead_step(b)) *)
  Definition nelder_mead (fuel : nat) (b : list R) : out (list R) :=
    wloop (fun fu b => r <~ nelder_mead_step fu b;; Ret (if fst r then inl (snd r) else inr (snd r))) fuel b.

  (** pruner_optimize_tc.cpp:74-115 (dn = d) and 131-177 (dn = n) the two cores *)
  Definition core (grad nm : bool) (dn fuel : nat) (pr : list R) : out (list R) :=
    b <~ ub (load_profile n d dn pr);;
    b <~ (if grad then gradient_descent fuel b else Ret b);;
    b <~ (if nm then nelder_mead fuel b else Ret b);;
    ub (save_profile n d pr b).

  (** ** Changing the metric (pruner_optimize_tp.cpp) *)

  (** pruner_optimize_tp.cpp:5 OPTIMIZE_PROB_MINSTEP *)
  Definition minstep : R := 1 / 10000.

  (** pruner_optimize_tp.cpp:37-44, 102-109 a weight before the normalisation *)
  Definition raw_weight (det : list R) (dn i : nat) : out R :=
    s <~ each (seq i (dn - i)) (fun j a => x <~ ub (nth_error det j);; Ret (a + x)) 0;;
    let w := 1 / s in Ret (if rlt w minstep then minstep else w).
  (** pruner_optimize_tp.cpp:34-50, 99-116 the weights *)
  Definition weights (det : list R) (dn : nat) : out (list R) :=
    w <~ collect (raw_weight det dn) (seq 0 dn);;
    let total := fold_left Rplus w 0 in Ret (map (fun x => x / total) w).

  (** pruner_optimize_tp.cpp:54-56, 174-176 the entry plus the step, at most 1 *)
  Definition move_up (x w : R) : R := let y := x + w in if rle 1 y then 1 else y.
  (** pruner_optimize_tp.cpp:121-123, 184-186 the entry minus the step, at least 1e-4 *)
  Definition move_down (x w : R) : R := let y := x - w in if rlt y minstep then minstep else y.

  (** pruner_optimize_tp.cpp:61-66, 128-133, 192-197 not_changed *)
  Definition unchanged (b old : list R) : bool :=
    forallb (fun i => if Req_EM_T (nth i b 0) (nth i old 0) then true else false) (seq 0 (length b)).

  (** pruner_optimize_tp.cpp:23-69 (up) and 88-138 one turn; the state is (tours, b,
      detailed_cost) *)
  Definition prob_turn (up : bool) (dn : nat) (fu : nat) (s : nat * list R * list R) : out (nat * list R * list R + list R) :=
    let '(tours, b, det) := s in
    if (10000 <? Z.of_nat tours)%Z then Ret (inr b)
    else
      p <~ call (M b);;
      if (if up then rle target p else rle p target) then Ret (inr b)
      else
        c <~ call (SC b det);;
        w <~ weights (snd c) dn;;
        nb <~ collect (fun i => x <~ ub (nth_error b i);; y <~ ub (nth_error w i);;
                                Ret (if up then move_up x y else move_down x y)) (seq 0 dn);;
        e <~ enf nb 0;;
        if unchanged (fst e) b then Ret (inr (fst e)) else Ret (inl (S tours, fst e, snd c)).
  (** pruner_optimize_tp.cpp:8-72 optimize_coefficients_incr_prob, 74-140
      optimize_coefficients_decr_prob *)
  Definition change_prob (up : bool) (fuel : nat) (pr : list R) : out (list R) :=
    let dn := length pr in
    b <~ ub (load_profile n d dn pr);;
    b <~ wloop (prob_turn up dn) fuel (O, b, repeat 0 dn);;
    ub (save_profile n d pr b).

  (** pruner_optimize_tp.cpp:157-200 one turn of local_adjust_prob *)
  Definition adjust_turn (dn : nat) (fu : nat) (b : list R) : out (list R + list R) :=
    p <~ call (M b);;
    let ratio := p / target in
    if rlt ratio (105 / 100) && rlt (95 / 100) ratio then Ret (inr b)
    else
      nb <~ collect (fun i => x <~ ub (nth_error b i);;
               Ret (if rlt ratio 1 then move_up x minstep else move_down x minstep)) (seq 0 dn);;
      e <~ enf nb 0;;
      if unchanged (fst e) b then Ret (inr (fst e)) else Ret (inl (fst e)).
  (** pruner_optimize_tp.cpp:142-203 optimize_coefficients_local_adjust_prob *)
  Definition local_adjust_prob (fuel : nat) (pr : list R) : out (list R) :=
    let dn := length pr in
    b <~ ub (load_profile n d dn pr);;
    b <~ wloop (adjust_turn dn) fuel b;;
    ub (save_profile n d pr b).
  End Minima.

  (** ** Local adjustments (pruner_optimize_tc.cpp) *)

  (** pruner_optimize_tc.cpp:218-230 the bottleneck level that may be tried *)
  Definition bottleneck (det : list R) (lasti : Z) (thr : list Z) : nat :=
    snd (fold_left (fun s i =>
      if negb (Z.of_nat i =? Z.of_nat n - lasti - 1)%Z && (0 <? nth (n - i - 1) thr 0)%Z then
        if rlt (fst s) (nth i det 0) then (nth i det 0, i) else s
      else s) (seq 0 n) (0, O)).
  (** pruner_optimize_tc.cpp:203-268 one turn; the state is (b, detailed_cost,
      slices, thresholds, lasti, consecutive_fails) *)
  Definition decr_turn (fu : nat) (s : list R * list R * list R * list Z * Z * nat)
    : out (list R * list R * list R * list Z * Z * nat + list R) :=
    let '(b, det, slices, thr, lasti, fails) := s in
    old_cf <~ call (F b);;
    c <~ call (SC b det);;
    if rlt (fst c) (sqrt old_cf / 10) then Ret (inr b)
    else
      let ind := (n - bottleneck (snd c) lasti thr - 1)%nat in
      if (ind =? 0)%nat then Ret (inr b)
      else
        x <~ ub (nth_error b ind);; y <~ ub (nth_error b (ind - 1));; sl <~ ub (nth_error slices ind);;
        nb <~ ub (vset b ind (x - (x - y) / sl));;
        new_cf <~ call (F nb);;
        if rle (old_cf * (995 / 1000)) new_cf then
          t <~ ub (nth_error thr ind);; thr <~ ub (vset thr ind (t - 1)%Z);;
          let fails := S fails in
          if (10 <? fails)%nat then Ret (inr b)
          else Ret (inl (b, snd c, slices, thr, Z.of_nat ind, fails))
        else
          slices <~ (if rlt sl 1024 then ub (vset slices ind (sl * (105 / 100))) else Ret slices);;
          Ret (inl (nb, snd c, slices, thr, lasti, O)).
  (** pruner_optimize_tc.cpp:183-278 optimize_coefficients_local_adjust_decr_single *)
  Definition local_adjust_decr_single (fuel : nat) (pr : list R) : out (list R) :=
    b <~ ub (load_profile n d n pr);;
    b <~ wloop decr_turn fuel (b, repeat 0 n, repeat 10 n, repeat 3%Z n, (-1)%Z, O);;
    ub (save_profile n d pr b).

  (** pruner_optimize_tc.cpp:336-365 one turn of the inner loop: raise b[i-1] *)
  Definition raise_turn (i : nat) (fu : nat) (s : nat * list R * list R) : out (nat * list R * list R + list R * list R) :=
    let '(trials, b, slices) := s in
    old_cf <~ call (F b);;
    x <~ ub (nth_error b (i - 1));; y <~ ub (nth_error b i);; sl <~ ub (nth_error slices (i - 1));;
    nb <~ ub (vset b (i - 1) (x + (y - x) / sl));;
    new_cf <~ call (F nb);;
    if rle (old_cf * (12 / 10)) new_cf then Ret (inr (b, slices))
    else
      slices <~ (if rlt sl 1024 then ub (vset slices (i - 1) (sl * (12 / 10))) else Ret slices);;
      if (10 <=? S trials)%nat then Ret (inr (nb, slices)) else Ret (inl (S trials, nb, slices)).
  (** pruner_optimize_tc.cpp:327-366 one turn of the for loop *)
  Definition raise_at (fuel i : nat) (s : list R * list R) : out (list R * list R) :=
    let '(b, slices) := s in
    x <~ ub (nth_error b (i - 1));; y <~ ub (nth_error b i);;
    if rle y x then Ret s else wloop (raise_turn i) fuel (O, b, slices).
  (** pruner_optimize_tc.cpp:299-371 one turn of the outer loop; the state is
      (tours, b, detailed_cost, slices) *)
  Definition incr_turn (old_cf0 : R) (fu : nat) (s : nat * list R * list R * list R)
    : out (nat * list R * list R * list R + list R) :=
    let '(tours, b, det, slices) := s in
    let tours := S tours in
    old_cf <~ call (F b);;
    c <~ call (SC b det);;
    let maxi := snd (fold_left (fun s i => if rlt (fst s) (nth i (snd c) 0) then (nth i (snd c) 0, i) else s) (seq 0 n) (0, O)) in
    let ind := (n - maxi - 1)%nat in
    if (ind <=? 1)%nat then Ret (inr b)
    else if rlt (sqrt old_cf / 10) (fst c) then Ret (inr b)
    else
      s <~ each (rev (seq 1 ind)) (raise_at fu) (b, slices);;
      new_cf <~ call (F (fst s));;
      if rlt (old_cf0 * (11 / 10)) new_cf || (4 <? tours)%nat then Ret (inr (fst s))
      else Ret (inl (tours, fst s, snd c, snd s)).
  (** pruner_optimize_tc.cpp:284-381 optimize_coefficients_local_adjust_incr_prob *)
  Definition local_adjust_incr_prob (fuel : nat) (pr : list R) : out (list R) :=
    b <~ ub (load_profile n d n pr);;
    old_cf0 <~ call (F b);;
    b <~ wloop (incr_turn old_cf0) fuel (O, b, repeat 0 n, repeat 10 n);;
    ub (save_profile n d pr b).

  (** pruner_optimize_tc.cpp:395-410 one turn of the smoothing loop *)
  Definition smooth_at (i : nat) (b : list R) : out (list R) :=
    p <~ ub (nth_error b (i - 1));; x <~ ub (nth_error b i);; q <~ ub (nth_error b (S i));;
    let lr := x / p in
    let rr := q / x in
    let x := if rlt (125 / 100) (rr / lr) || rlt (rr / lr) (8 / 10) then sqrt (p * q) else x in
    let th := 1 / INR n in
    let x := if rlt th (q - x) || rlt th (x - p) then (p + q) / 2 else x in
    ub (vset b i x).
  (** pruner_optimize_tc.cpp:387-413 optimize_coefficients_local_adjust_smooth *)
  Definition local_adjust_smooth (pr : list R) : out (list R) :=
    b <~ ub (load_profile n d n pr);;
    b <~ each (seq 1 (n - 2)) smooth_at b;;
    ub (save_profile n d pr b).

  (** ** The whole optimisation (pruner_optimize.cpp) *)

  (** defs.h:297-313 the flags *)
  Record flags := Flags { f_input : bool; f_gradient : bool; f_nelder : bool; f_half : bool; f_single : bool }.

  (** pruner_optimize_tc.cpp:418-460 greedy: fuel and preproc_cost to a vector of length d *)
  Variable greedy : nat -> R -> out (list R).

  (** pruner_optimize_tc.cpp:11-59 optimize_coefficients_preparation: the new
      min_pruning_coefficients and pr; [mins0] are the old ones.  preproc_cost is
      multiplied by .1 and by 10, so it is the same afterwards. *)
  Definition preparation (fl : flags) (preproc : R) (fuel : nat) (mins0 pr : list R) : out (list R * list R) :=
    b <~ (if f_input fl then ub (load_profile n d d pr) else greedy fuel preproc);;
    let mins1 := if f_input fl then mins0 else repeat 0 d in
    mins <~ (if f_gradient fl || f_nelder fl then
               mn <~ greedy fuel (preproc * (1 / 10));;
               if f_single fl then Ret mn
               else
                 pr_min <~ ub (save_profile n d (repeat 0 n) mn);;
                 p <~ call (M mn);;
                 pr_min <~ (if rlt target p then change_prob (repeat 0 d) false fuel pr_min else Ret pr_min);;
                 ub (load_profile n d d pr_min)
             else Ret mins1);;
    pr <~ ub (save_profile n d pr b);;
    Ret (mins, pr).

  (** pruner_optimize.cpp:38-92 one turn of the tours; the state is (tours, pr,
      best_b, min_c); it leaves with best_b *)
  Definition tour_turn (grad nm : bool) (mins : list R) (fu : nat) (s : nat * list R * list R * R)
    : out (nat * list R * list R * R + list R * list R) :=
    let '(tours, pr, best, min_c) := s in
    let tours := S tours in
    b <~ ub (load_profile n d n pr);;
    old_c0 <~ call (F b);;
    pr <~ local_adjust_decr_single fu pr;;
    pr <~ local_adjust_incr_prob fu pr;;
    pr <~ local_adjust_smooth pr;;
    b <~ ub (load_profile n d n pr);;
    old_c1 <~ call (F b);;
    let '(min_c, best) := if rlt old_c1 min_c then (old_c1, b) else (min_c, best) in
    pr <~ core mins grad nm n fu pr;;
    b <~ ub (load_profile n d n pr);;
    new_c <~ call (F b);;
    let '(min_c, best) := if rlt new_c min_c then (new_c, b) else (min_c, best) in
    if rlt (995 / 1000) (new_c / old_c0) && (3 <? tours)%nat then Ret (inr (pr, best))
    else Ret (inl (tours, pr, best, min_c)).
  (** pruner_optimize.cpp:8-99 optimize_coefficients_cost_vary_prob, after the
      preparation *)
  Definition vary_prob (fl : flags) (mins : list R) (fuel : nat) (pr : list R) : out (list R) :=
    pr <~ core mins (f_gradient fl) (f_nelder fl) d fuel pr;;
    b <~ ub (load_profile n d n pr);;
    c0 <~ call (F b);;
    if f_half fl then ub (save_profile n d pr b)
    else
      r <~ wloop (tour_turn (f_gradient fl) (f_nelder fl) mins) fuel (O, pr, b, c0);;
      ub (save_profile n d (fst r) (snd r)).

  (** pruner_optimize.cpp:101-145 optimize_coefficients_cost_fixed_prob, after the
      preparation *)
  Definition fixed_prob (fl : flags) (mins : list R) (fuel : nat) (pr : list R) : out (list R) :=
    pr <~ core mins (f_gradient fl) (f_nelder fl) d fuel pr;;
    pr <~ local_adjust_smooth pr;;
    pr <~ core mins (f_gradient fl) (f_nelder fl) n fuel pr;;
    pr <~ local_adjust_smooth pr;;
    b <~ ub (load_profile n d n pr);;
    p <~ call (M b);;
    pr <~ change_prob mins (rle p target) fuel pr;;
    pr <~ local_adjust_smooth pr;;
    local_adjust_prob mins fuel pr.

  (** pruner_optimize.cpp:150-160 optimize_coefficients *)
  Definition optimize_coefficients (fl : flags) (preproc : R) (fuel : nat) (mins0 pr : list R) : out (list R) :=
    mp <~ preparation fl preproc fuel mins0 pr;;
    if f_single fl then fixed_prob fl (fst mp) fuel (snd mp) else vary_prob fl (fst mp) fuel (snd mp).
End Opt.
