(** Model of the block structure of BKZ: svp_preprocessing, svp_reduction, the tours and the
    final HKZ calls of BKZReduction (fplll/bkz.cpp), with the strategy table of StratModel.v.

    The basis itself is not part of this model.  A run is the list of the calls it makes
    (newest first), and everything that depends on the basis (success of LLL and of size
    reduction, swaps, radius and Gaussian heuristic, whether the enumeration finds a vector,
    the comparisons at the end of a block and of a tour, the tests of the main loop) is
    answered by arbitrary functions of the calls made so far.  Every real run is the run for
    one choice of these functions.

    Outcomes: a value; std::runtime_error; undefined behaviour; a loop that does not end
    (rerandomize_block on two rows, see PropBkz.v); the fuel of the model is used up.
    Simplifications: verbose output, dump_gso and cputime are dropped; int arithmetic does
    not overflow. *)
From Coq Require Import List ZArith Lia Bool Arith.
From Flocq Require Import Zaux BinarySingleNaN.
From Verif Require Import Util DblModel StratModel.
Import ListNotations.
Local Open Scope Z_scope.

(** one call *)
Inductive call :=
| CSize (lo hi start : Z)                    (* lll_obj.size_reduction (lll.h:107) *)
| CLll (kmin kstart kend : Z)                (* lll_obj.lll (lll.cpp:44) *)
| CBlock (kappa bs : Z) (dual : bool)        (* svp_reduction (bkz.cpp:275) *)
| CRerand (lo hi : Z)                        (* rerandomize_block (bkz.cpp:44) *)
| CEnum (first last : Z) (p : pparams) (dual : bool)  (* enumerate (bkz.cpp:330-331) *)
| CPost (kappa bs : Z) (dual : bool).        (* svp_postprocessing (bkz.cpp:129) *)
(** the calls made so far, newest first *)
Definition trace := list call.
(** what a call can end with *)
Inductive res (A : Type) := Ok (a : A) (t : trace) | Throw (t : trace) | Ub (t : trace) | Hang (t : trace) | Fuel (t : trace).
Arguments Ok {A}. Arguments Throw {A}. Arguments Ub {A}. Arguments Hang {A}. Arguments Fuel {A}.
(** a step of the run *)
Definition M A := trace -> res A.
(** the step that returns at once *)
Definition ret {A} (a : A) : M A := fun t => Ok a t.
(** sequencing: any outcome but a value ends the run *)
Definition bnd {A B} (m : M A) (f : A -> M B) : M B := fun t =>
  match m t with
  | Ok a t' => f a t' | Throw t' => Throw t' | Ub t' => Ub t' | Hang t' => Hang t' | Fuel t' => Fuel t'
  end.
Notation "x <~ e ; k" := (bnd e (fun x => k)) (at level 61, e at next level, right associativity).
(** the call is made *)
Definition emit (c : call) : M unit := fun t => Ok tt (c :: t).
(** the basis answers *)
Definition ask {A} (o : trace -> A) : M A := fun t => Ok (o t) t.

(** what the basis decides *)
Record oracle := mkor {
  o_size : trace -> bool;        (* size_reduction returns true *)
  o_lll : trace -> bool;         (* lll returns true *)
  o_swaps : trace -> bool;       (* n_swaps > 0 *)
  o_radius : trace -> dbl * dbl; (* the arguments of get_pruning (bkz.cpp:96-97) *)
  o_found : trace -> bool;       (* !evaluator.empty() *)
  o_clean : trace -> bool;       (* the comparison bkz.cpp:357 *)
  o_pot : trace -> bool;         (* new_potential >= sld_potential (bkz.cpp:515) *)
  o_stop : trace -> bool         (* a break before the tour (bkz.cpp:583-598) *)
}.
Variant mode := MBkz | MSd | MSlide.

(** block_size, min_success_probability, BKZ_BOUNDED_LLL (bkz_param.h:135-181) *)
Record bpar := mkbp { b_bs : Z; b_msp : dbl; b_bounded : bool }.

Section Run.
Variable orc : oracle.
(** param.strategies: the same vector in all parameter objects (bkz_param.h:139, bkz.cpp:121) *)
Variable table : list strat.
(** num_rows (bkz.cpp:35) and m.d, the number of rows of the basis *)
Variables rows md : Z.

(** lll.h:107-122: row k of the range is passed to update_gso_row, which reads
    gso_valid_cols[k] (gso_interface.cpp:141); the trace keeps the call *)
Definition size_red (lo hi start : Z) : M bool := fun t =>
  let t' := CSize lo hi start :: t in
  if (lo <? hi) && ((lo <? 0) || (md <? hi)) then Ub t' else Ok (o_size orc t') t'.
(** bkz.cpp:289-292, 346-349: failure throws *)
Definition size_red_or_throw (lo hi start : Z) : M unit := fun t =>
  match size_red lo hi start t with
  | Ok true t' => Ok tt t' | Ok false t' => Throw t'
  | Throw t' => Throw t' | Ub t' => Ub t' | Hang t' => Hang t' | Fuel t' => Fuel t'
  end.
(** bkz.cpp:109-112, 484-487: lll_obj.lll, failure throws *)
Definition lll_or_throw (kmin kstart kend : Z) : M unit := fun t =>
  let t' := CLll kmin kstart kend :: t in
  if (kmin <? 0) || (md <? kend) then Ub t'
  else if o_lll orc t' then Ok tt t' else Throw t'.

(** strategies[i] (bkz.cpp:89, 117) *)
Definition strategy_at (i : Z) : M strat := fun t =>
  if i <? 0 then Ub t
  else match nth_error table (Z.to_nat i) with Some s => Ok s t | None => Ub t end.
(** bkz.cpp:82-98 get_pruning *)
Definition pruning_at (bs : Z) : M pparams :=
  s <~ strategy_at bs; rg <~ ask (o_radius orc);
  fun t => match get_pruning s (fst rg) (snd rg) with Some p => Ok p t | None => Ub t end.
(** bkz.cpp:43-79 rerandomize_block: no end for two rows *)
Definition rerand (lo hi : Z) : M unit := fun t =>
  let t' := CRerand lo hi :: t in
  if hi - lo =? 2 then Hang t' else Ok tt t'.
(** bkz.cpp:330-331 enumerate; set_bounds reads pruning[i] for i < bs (enumerate.cpp:218-229) *)
Definition enum_block (kappa bs : Z) (p : pparams) (dual : bool) : M unit := fun t =>
  let t' := CEnum kappa (kappa + bs) p dual :: t in
  match pp_coef p with
  | [] => Ok tt t'
  | _ => if Z.of_nat (length (pp_coef p)) <? bs then Ub t' else Ok tt t'
  end.

(** for (kappa = lo; kappa < hi; ++kappa): n values from lo on *)
Fixpoint for_up (n : nat) (lo : Z) (f : Z -> M bool) (clean : bool) : M bool :=
  match n with
  | O => ret clean
  | S n' => c <~ f lo; for_up n' (lo + 1) f (clean && c)
  end.
(** for (kappa = hi; kappa > lo; --kappa): n values from hi on *)
Fixpoint for_down (n : nat) (hi : Z) (f : Z -> M bool) (clean : bool) : M bool :=
  match n with
  | O => ret clean
  | S n' => c <~ f hi; for_down n' (hi - 1) f (clean && c)
  end.

Section Blocks.
(** svp_reduction(kappa, block_size, par, dual) *)
Variable svp : bpar -> Z -> Z -> bool -> M bool.
(** bkz.cpp:386-403 trunc_tour *)
Definition trunc_tour (par : bpar) (min_row max_row : Z) : M bool :=
  for_up (Z.to_nat (max_row - b_bs par - min_row)) min_row (fun k => svp par k (b_bs par) false) true.
(** bkz.cpp:405-417 trunc_dtour *)
Definition trunc_dtour (par : bpar) (min_row max_row : Z) : M bool :=
  for_down (Z.to_nat (max_row - b_bs par - min_row)) (max_row - b_bs par) (fun k => svp par k (b_bs par) true) true.
(** bkz.cpp:419-441 hkz; the result of size_reduction is not used *)
Definition hkz (par : bpar) (min_row max_row : Z) : M bool :=
  c <~ for_up (Z.to_nat (max_row - 1 - min_row)) min_row (fun k => svp par k (max_row - k) false) true;
  _ <~ size_red (max_row - 1) max_row (max_row - 2);
  ret c.
(** bkz.cpp:360-384 tour *)
Definition tour (par : bpar) (min_row max_row : Z) : M bool :=
  c1 <~ trunc_tour par min_row max_row;
  c2 <~ hkz par (Z.max (max_row - b_bs par) 0) max_row;
  ret (c1 && c2).
(** bkz.cpp:443-463 sd_tour *)
Definition sd_tour (par : bpar) (min_row max_row : Z) : M bool :=
  c1 <~ trunc_dtour par min_row max_row;
  c2 <~ trunc_tour par min_row max_row;
  ret (c1 && c2).

(** bkz.cpp:116-123: the tours of the recursive preprocessing; prepar has the default
    min_success_probability 0.5 and the flag BKZ_GH_BND only (bkz_param.h:109-115) *)
Fixpoint pre_tours (pre : list nat) (kappa bs : Z) : M unit :=
  match pre with
  | [] => ret tt
  | p :: rest => _ <~ tour (mkbp (Z.of_nat p) (d_of 1 (-1)) false) kappa (kappa + bs); pre_tours rest kappa bs
  end.
(** bkz.cpp:100-126 svp_preprocessing (the flag it returns is not used) *)
Definition svp_preprocessing (par : bpar) (kappa bs : Z) : M unit :=
  let start := if b_bounded par then kappa else 0 in
  _ <~ lll_or_throw start start (kappa + bs);
  s <~ strategy_at bs;
  pre_tours (st_pre s) kappa bs.

(** bkz.cpp:297-344 the trials; rem is remaining_probability *)
Fixpoint trials (fuel : nat) (par : bpar) (kappa bs : Z) (dual : bool) (rem : dbl) (again : bool) : M unit :=
  if negb (d_lt (d_sub d_one (b_msp par)) rem) then ret tt
  else
    match fuel with
    | O => Fuel
    | S f =>
        _ <~ (if again then rerand (kappa + 1) (kappa + bs) else ret tt);
        _ <~ svp_preprocessing par kappa bs;
        p <~ pruning_at bs;
        _ <~ enum_block kappa bs p dual;
        found <~ ask (o_found orc);
        _ <~ (if found then emit (CPost kappa bs dual) else ret tt);
        trials f par kappa bs dual (d_mul rem (d_sub d_one (pp_exp p))) (negb found)
    end.
(** bkz.cpp:274-358 svp_reduction; a negative row number is an access before the vectors *)
Definition svp_body (tfuel : nat) (par : bpar) (kappa bs : Z) (dual : bool) : M bool :=
  let first := if dual then kappa + bs - 1 else kappa in
  _ <~ emit (CBlock kappa bs dual);
  _ <~ (if (kappa <? 0) || (md <? kappa + bs) then Ub else ret tt);
  _ <~ size_red_or_throw 0 (first + 1) 0;
  _ <~ trials tfuel par kappa bs dual d_one false;
  _ <~ size_red_or_throw 0 (first + 1) 0;
  ask (o_clean orc).

(** bkz.cpp:471-493 the do loop of slide_tour *)
Fixpoint slide_blocks (fuel : nat) (par : bpar) (min_row max_row p : Z) : M unit :=
  match fuel with
  | O => Fuel
  | S f =>
      c <~ for_up (Z.to_nat p) 0
             (fun i => let kappa := min_row + i * b_bs par in svp par kappa (Z.min (max_row - kappa) (b_bs par)) false) true;
      c' <~ (if b_bounded par then
               _ <~ lll_or_throw min_row min_row max_row; s <~ ask (o_swaps orc); ret (c && negb s)
             else ret c);
      if c' : bool then ret tt else slide_blocks f par min_row max_row p
  end.
(** bkz.cpp:465-520 slide_tour *)
Definition slide_tour (fuel : nat) (par : bpar) (min_row max_row : Z) : M bool :=
  let p := (max_row - min_row) / b_bs par + (if (max_row - min_row) mod b_bs par =? 0 then 0 else 1) in
  _ <~ slide_blocks fuel par min_row max_row p;
  _ <~ for_up (Z.to_nat (p - 1)) 0 (fun i => svp par (min_row + i * b_bs par + 1) (b_bs par) true) true;
  ask (o_pot orc).
End Blocks.

(** svp_reduction with at most [depth] nested calls, each with at most [tfuel] trials *)
Fixpoint svp_reduction (depth tfuel : nat) (par : bpar) (kappa bs : Z) (dual : bool) : M bool :=
  match depth with
  | O => Fuel
  | S d => svp_body (svp_reduction d tfuel) tfuel par kappa bs dual
  end.

Variables (depth tfuel : nat).
(** bkz.cpp:600-613: one tour of the selected algorithm *)
Definition one_tour (m : mode) (sfuel : nat) (par : bpar) : M bool :=
  match m with
  | MBkz => tour (svp_reduction depth tfuel) par 0 rows
  | MSd => sd_tour (svp_reduction depth tfuel) par 0 rows
  | MSlide => slide_tour (svp_reduction depth tfuel) sfuel par 0 rows
  end.
(** bkz.cpp:581-622 the main loop *)
Fixpoint main_loop (loops : nat) (m : mode) (sfuel : nat) (par : bpar) : M unit :=
  match loops with
  | O => Fuel
  | S l =>
      stop <~ ask (o_stop orc);
      if stop : bool then ret tt
      else
        c <~ one_tour m sfuel par;
        if c || (rows <=? b_bs par) then ret tt else main_loop l m sfuel par
  end.
(** bkz.cpp:624-665: HKZ reduction of the last window (SD) or of every block (slide) *)
Definition finish (m : mode) (par : bpar) : M unit :=
  match m with
  | MBkz => ret tt
  | MSd => _ <~ hkz (svp_reduction depth tfuel) par (rows - b_bs par) rows; ret tt
  | MSlide =>
      let p := rows / b_bs par + (if rows mod b_bs par =? 0 then 0 else 1) in
      _ <~ for_up (Z.to_nat p) 0
             (fun j => let kappa := j * b_bs par + 1 in
                       hkz (svp_reduction depth tfuel) par kappa (Z.min rows (kappa + b_bs par - 1))) true;
      ret tt
  end.
(** bkz.cpp:522-672 bkz; the result of the LLL before SD tours (575-576) is not used *)
Definition bkz_run (loops : nat) (m : mode) (sfuel : nat) (par : bpar) : M unit :=
  if b_bs par <? 2 then ret tt
  else
    _ <~ match m with MSd => emit (CLll 0 0 rows) | _ => ret tt end;
    _ <~ main_loop loops m sfuel par;
    finish m par.
End Run.
