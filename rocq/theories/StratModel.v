(** Model of the BKZ strategies: Strategy, BKZParam (fplll/bkz_param.h), get_pruning,
    LinearPruningParams and load_strategies_json (fplll/bkz_param.cpp).

    Doubles are binary64 (DblModel.v).  Simplifications: the JSON document is given as the
    list of its entries, each with the members the loader looks at (a document without the
    member block_size or with members of another type is outside the model); the fields
    metric and detailed_cost are dropped; opening the file is dropped; preprocessing block
    sizes are non-negative and fit an int. *)
From Coq Require Import List ZArith Lia Bool Arith.
From Flocq Require Import Zaux BinarySingleNaN.
From Verif Require Import Util DblModel.
From Verif Require MatrixModel PrunerModel.
Import ListNotations.
Local Open Scope nat_scope.

(** pruner.h:31-42 PruningParams: gh_factor, coefficients, expectation *)
Record pparams := mkpp { pp_gh : dbl; pp_coef : list dbl; pp_exp : dbl }.
(** the constant 1.0 *)
Definition d_one : dbl := d_of 1 0.
(** pruner.h:47 the default constructor *)
Definition pp_default : pparams := mkpp d_one [] d_one.

(** bkz_param.h:34-39 Strategy; [None]: block_size is uninitialised (default constructor) *)
Record strat := mkst { st_bs : option nat; st_prun : list pparams; st_pre : list nat }.
(** bkz_param.h:34-39 the implicit default constructor *)
Definition st_new : strat := mkst None [] [].
(** bkz_param.h:48-54 EmptyStrategy *)
Definition empty_strategy (b : nat) : strat := mkst (Some b) [pp_default] [].

(** bkz_param.cpp:68-75 the body of the loop; the state is (closest_dist, best) *)
Definition closer (q : dbl) (a : dbl * pparams) (p : pparams) : dbl * pparams :=
  let dist := Babs (d_sub (pp_gh p) q) in
  if d_lt dist (fst a) then (dist, p) else a.
(** bkz_param.cpp:62-78 Strategy::get_pruning; an empty list dereferences begin() *)
Definition get_pruning (s : strat) (radius gh : dbl) : option pparams :=
  match st_prun s with
  | [] => None
  | p0 :: _ => Some (snd (fold_left (closer (d_div radius gh)) (st_prun s) (d_of 1 80, p0)))
  end.

(** bkz_param.h:124-132 the table after the constructor BKZParam(block_size, strategies):
    the parameter is a reference to the same vector as the member *)
Definition param_table (block_size : Z) (table : list strat) : list strat :=
  match table with
  | [] => map empty_strategy (seq 0 (Z.to_nat (block_size + 1)))
  | _ => table
  end.

(** bkz_param.cpp:11-37 LinearPruningParams: the coefficients.  [None]: undefined behaviour
    (block_size = 0 writes coefficients[0]; int overflow) or std::length_error
    (block_size < 0) *)
Definition linear_pruning (block_size level : Z) : option (list dbl) :=
  match i32 (block_size - level) with
  | None => None
  | Some sd =>
      let sd := if (block_size <? sd)%Z then block_size else sd in
      let sd := if (sd <? 1)%Z then 1%Z else sd in
      if (block_size <? 0)%Z then None
      else
        v <- MatrixModel.ofor (seq 0 (Z.to_nat sd)) (fun k v => PrunerModel.vset v k d_one) (repeat d_zero (Z.to_nat block_size));;
        MatrixModel.ofor (seq 0 (Z.to_nat (block_size - sd)))
          (fun k v => PrunerModel.vset v (Z.to_nat sd + k)
                        (d_div (d_of (block_size - Z.of_nat k - 1) 0) (d_of block_size 0))) v
  end.

(** one entry of the document (bkz_param.cpp:94-144): block_size, and the two optional
    members; a preprocessing entry is a number or an object with a member block_size, both
    carry one number *)
Record jentry := mkje { je_bs : nat; je_pre : option (list nat); je_prun : option (list (dbl * list dbl * dbl)) }.
(** bkz_param.cpp:104-144 the strategy of one entry *)
Definition entry_strategy (e : jentry) : strat :=
  mkst (Some (je_bs e))
       (match je_prun e with None => [] | Some l => map (fun x => mkpp (fst (fst x)) (snd (fst x)) (snd x)) l end)
       (match je_pre e with None => [] | Some l => l end).
(** bkz_param.cpp:98-102, 146: grow the vector, then store *)
Definition store_entry (t : list strat) (e : jentry) : list strat :=
  let t1 := t ++ repeat st_new (S (je_bs e) - length t) in
  upd t1 (je_bs e) (entry_strategy e).
(** bkz_param.cpp:149-154 *)
Definition sound (s : strat) : strat :=
  match st_prun s with [] => mkst (st_bs s) [pp_default] (st_pre s) | _ => s end.
(** bkz_param.cpp:80-157 load_strategies_json *)
Definition load_strategies (doc : list jentry) : list strat :=
  map sound (fold_left store_entry doc []).
