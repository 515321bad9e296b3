(** Model of the evaluators (fplll/enum/evaluator.h): the store of solutions handed over by the
    enumeration and the update of the enumeration bound.

    Generic over the type [FT] of stored lengths and the type [E] (enumf) of the bound. *)
From Coq Require Import List ZArith Arith Bool.
Import ListNotations.

(** evaluator.h:36-56 *)
Inductive strategy := BestN | OppN | FirstN.

(** The operations the evaluators apply to lengths. *)
Record fops (E : Type) := {
  FT : Type;
  f_lt : FT -> FT -> bool;      (* operator< / std::greater of the multimap (evaluator.h:87) *)
  f_of : E -> FT;               (* FT dist = new_partial_dist; mul_2si(dist, normExp)   (evaluator.h:184-185) *)
  f_bnd : FT -> E;              (* calc_enum_bound: mul_2si(dist, -normExp), get_d(RNDU) (evaluator.h:114-119) *)
  f_nul : FT;                   (* value-initialised first component of a new sub-solution entry *)
  f_z : E                       (* max_dist = 0 *)
}.
Arguments FT {E}. Arguments f_lt {E}. Arguments f_of {E}. Arguments f_bnd {E}. Arguments f_nul {E}. Arguments f_z {E}.

Section Eval.
Context {E : Type} (f : fops E).
Notation FT := (FT f).

(** evaluator.h:80-99: solutions in the order of the multimap (longest first), sol_count,
    sub_solutions (an entry whose coordinate vector is empty is unused) *)
Record evst := { ev_sols : list (FT * list Z); ev_count : nat; ev_subs : list (FT * list Z) }.
(** a new evaluator, evaluator.h:80-99 *)
Definition ev_init : evst := {| ev_sols := []; ev_count := 0; ev_subs := [] |}.

(** std::multimap<FT, ..., std::greater<FT>>::emplace: after all keys not smaller than the new one *)
Fixpoint emplace (p : FT * list Z) (l : list (FT * list Z)) : list (FT * list Z) :=
  match l with
  | [] => [p]
  | q :: t => if f_lt f (fst q) (fst p) then p :: q :: t else q :: emplace p t
  end.

(** Evaluator::process_sol, evaluator.h:122-156; returns the evaluator and max_dist.
    [max_sols] is positive by the check of the constructor (evaluator.h:74); with an empty
    map [solutions.begin()->first] would be undefined, and the map is never empty here. *)
Definition process_sol (strat : strategy) (max_sols : nat) (dist : FT) (coord : list Z) (ev : evst) (max_dist : E) : evst * E :=
  let sols := emplace (dist, coord) (ev_sols ev) in
  let mk l := {| ev_sols := l; ev_count := S (ev_count ev); ev_subs := ev_subs ev |} in
  match strat with
  | BestN =>
      if Nat.ltb (length sols) max_sols then (mk sols, max_dist)
      else let sols' := if Nat.ltb max_sols (length sols) then List.tl sols else sols in
           (mk sols', match sols' with p :: _ => f_bnd f (fst p) | [] => max_dist end)
  | OppN =>
      if Nat.leb (length sols) max_sols then (mk sols, f_bnd f dist) else (mk (List.tl sols), f_bnd f dist)
  | FirstN =>
      if Nat.ltb (length sols) max_sols then (mk sols, max_dist) else (mk sols, f_z f)
  end.

(** FastEvaluator::eval_sol, evaluator.h:181-189; argument order of EnumModel ([evalS v nd m ev]).
    FastErrorBoundedEvaluator::eval_sol in mode EVALMODE_SV (evaluator.cpp:213-227) is the same. *)
Definition eval_sol (strat : strategy) (max_sols : nat) (v : list Z) (nd m : E) (ev : evst) : evst * E :=
  process_sol strat max_sols (f_of f nd) v ev m.

(** CallbackEvaluator::eval_sol, evaluator.h:248-260 *)
Definition eval_sol_cb (cb : list Z -> bool) (strat : strategy) (max_sols : nat) (v : list Z) (nd m : E) (ev : evst) : evst * E :=
  if cb v then eval_sol strat max_sols v nd m ev else (ev, m).

(** FastEvaluator::eval_sub_sol, evaluator.h:191-205 *)
Definition eval_sub (offset : nat) (v : list Z) (nd : E) (ev : evst) : evst :=
  let subs := ev_subs ev ++ repeat (f_nul f, []) (S offset - length (ev_subs ev)) in
  let old := nth offset subs (f_nul f, []) in
  if (match snd old with [] => true | _ => false end) || f_lt f (f_of f nd) (fst old) then
    {| ev_sols := ev_sols ev; ev_count := ev_count ev;
       ev_subs := firstn offset subs ++ (f_of f nd, repeat 0%Z offset ++ skipn offset v) :: skipn (S offset) subs |}
  else {| ev_sols := ev_sols ev; ev_count := ev_count ev; ev_subs := subs |}.

(** a sequence of reported solutions (coordinates, length), oldest first *)
Fixpoint eval_all (strat : strategy) (max_sols : nat) (l : list (list Z * E)) (ev : evst) (m : E) : evst * E :=
  match l with
  | [] => (ev, m)
  | (v, nd) :: t => let '(ev', m') := eval_sol strat max_sols v nd m ev in eval_all strat max_sols t ev' m'
  end.
End Eval.
Arguments ev_sols {E f}. Arguments ev_count {E f}. Arguments ev_subs {E f}.
