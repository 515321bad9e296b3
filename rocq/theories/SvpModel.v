(** shortest_vector, shortest_vector_pruning, shortest_vectors (svpcvp.cpp:27-454): preparation of the
    enumeration and, above all, what is handed back to the caller.  Evaluation mode EVALMODE_SV, as used
    by all the public functions; sub-solutions are left out (see PropSub for those). *)
From Coq Require Import List ZArith QArith Qcanon Arith Bool.
From Verif Require Import Util QcUtil LatticeSpec EnumModel EnumExact EvalModel EnumCall.
Import ListNotations.

(** defs.h:230-234 *)
Inductive svp_method := SVPM_FAST | SVPM_PROVED.
(** the two statuses these functions return, defs.h:155 and 160 *)
Inductive svp_status := SvpSuccess | SvpEnumFailure.

(** svpcvp.cpp:32-43 last_useful_index on the diagonal [r] of a matrix with [rows] rows *)
Fixpoint last_useful (r : nat -> Qc) (i : nat) : nat :=
  match i with
  | O => 1
  | S j => if eleb (r i) (Qcz 2 * r 0%nat) then S i else last_useful r j
  end.
(** svpcvp.cpp:32-43; r(0,0) of an empty matrix would be undefined, excluded by the check of line 100/296 *)
Definition last_useful_index (rows : nat) (r : nat -> Qc) : nat := last_useful r (rows - 1).

(** svpcvp.cpp:47-59 and 61-72 get_basis_min, [sq i] = <b_i, b_i> *)
Definition get_basis_min (sq : nat -> Z) (first last : nat) : Z :=
  fold_left (fun m i => if (sq i <? m)%Z then sq i else m) (seq (S first) (last - S first)) (sq first).

Section Svp.
Context {E : Type} (f : fops E).
Notation item := (FT f * list Z)%type.

(** ** ExactErrorBoundedEvaluator *)
(** [sq v] = squared norm of the vector with coordinates v (gso.sqnorm_coordinates, exact);
    [of_int] = int_dist2Float (evaluator.cpp:345-355), [None] when one of its two checks aborts. *)
Variables (sq : list Z -> Z) (of_int : Z -> option (FT f)).

(** evaluator.cpp:277-309 eval_sol, EVALMODE_SV; the state carries int_max_dist; [None] = abort *)
Definition exact_sol (N : nat) (v : list Z) (m : E) (ev : evst f) (imd : Z) : option (evst f * E * Z) :=
  if (imd <? 0)%Z || (sq v <=? imd)%Z then
    match of_int (sq v) with
    | None => None
    | Some l => let '(ev', m') := process_sol f BestN N l v ev m in Some (ev', m', sq v)
    end
  else Some (ev, m, imd).
(** a sequence of calls (the enumeration reports the vectors [l] in this order); evaluator.cpp:277-309 *)
Fixpoint exact_all (N : nat) (l : list (list Z)) (m : E) (ev : evst f) (imd : Z) : option (evst f * E * Z) :=
  match l with
  | [] => Some (ev, m, imd)
  | v :: t =>
      match exact_sol N v m ev imd with
      | None => None
      | Some (ev', m', imd') => exact_all N t m' ev' imd'
      end
  end.

(** ** Returning the result *)
(** Outcome of a call: an FPLLL_CHECK that failed, undefined behaviour, or the status, sol_coord and the final
    contents of the pair (auxsol_coord, auxsol_dist) when the caller passed one. *)
Inductive svp_res :=
| SvpAbort
| SvpUndef
| SvpRet (st : svp_status) (coord : list Z) (aux : option (list item)).

(** svpcvp.cpp:179-196 / 374-391: sol_coord starts as d zeros; begin() is the last element of the container
    (evaluator.h:95) and its first d' coordinates are added.  Reading past its end is undefined. *)
Definition out_coord (d d' : nat) (sols : list item) : option (svp_status * list Z) :=
  match rev sols with
  | [] => Some (SvpEnumFailure, repeat 0%Z d)
  | (_, v) :: _ =>
      if (length v <? d')%nat then None
      else Some (SvpSuccess, map (fun i => if (i <? d')%nat then nth i v 0%Z else 0%Z) (seq 0 d))
  end.

(** svpcvp.cpp:216-236 (there merge_sol_in_aux does not exist: false) and 411-432.  [aux] = what the caller's two vectors
    held before, [None] when no pointers are passed.  [findauxsols] needs max_aux_sols != 0 (93, 286).
    Inner [None]: [++it] on end(), undefined. *)
Definition out_aux (sols : list item) (aux : option (list item)) (max_aux : Z) (merge : bool) : option (option (list item)) :=
  match aux with
  | None => Some None
  | Some old =>
      if (max_aux =? 0)%Z then Some (Some old)
      else if merge then Some (Some (rev sols))
      else match rev sols with [] => None | _ :: t => Some (Some t) end
  end.

(** svpcvp.cpp:179-240 / 374-436 *)
Definition svp_finish (d d' : nat) (sols : list item) (aux : option (list item)) (max_aux : Z) (merge : bool) : svp_res :=
  match out_coord d d' sols, out_aux sols aux max_aux merge with
  | Some (st, x), Some a => SvpRet st x a
  | _, _ => SvpUndef
  end.

(** size_t nr_solutions = max_aux_sols + 1 (svpcvp.cpp:152, 158, 348, 353); int overflow of the sum, at
    max_aux_sols = INT_MAX, is undefined *)
Definition nr_solutions (max_aux : Z) : nat := Z.to_nat ((max_aux + 1) mod 2 ^ 64).

(** shortest_vector_ex, svpcvp.cpp:84-241 (merge = false) and 278-437.  [d], [n]: rows and columns; [d']: the dimension
    after last_useful_index; [found]: the reports of the enumeration, in order, as the evaluator sees them: coordinates
    and (normalised) length; [m0], [imd0]: initial enumeration bound and int_max_dist of the exact evaluator.
    The order of the checks is that of the code: matrix (100-101/296-297), evaluator constructor (evaluator.h:74). *)
Definition shortest_vector_ex (method : svp_method) (d n d' : nat) (found : list (list Z * E)) (m0 : E) (imd0 : Z)
  (aux : option (list item)) (max_aux : Z) (merge : bool) : svp_res :=
  if negb ((0 <? d)%nat && (0 <? n)%nat && (d <=? n)%nat) then SvpAbort
  else if (max_aux =? 2 ^ 31 - 1)%Z then SvpUndef
  else if (nr_solutions max_aux =? 0)%nat then SvpAbort
  else
    match (match method with
           | SVPM_FAST => Some (fst (eval_all f BestN (nr_solutions max_aux) found (ev_init f) m0))
           | SVPM_PROVED =>
               match exact_all (nr_solutions max_aux) (map fst found) m0 (ev_init f) imd0 with
               | Some (ev, _, _) => Some ev
               | None => None
               end
           end) with
    | None => SvpAbort
    | Some ev => svp_finish d d' (ev_sols ev) aux max_aux merge
    end.

(** svpcvp.cpp:243-247, 439-444 and, without auxiliary solutions, 249-254, 456-462 *)
Definition shortest_vector (method : svp_method) (d n d' : nat) (found : list (list Z * E)) (m0 : E) (imd0 : Z) : svp_res :=
  shortest_vector_ex method d n d' found m0 imd0 None 0 false.
(** svpcvp.cpp:265-272 and the same function for a gso object *)
Definition shortest_vector_aux (d n d' : nat) (found : list (list Z * E)) (m0 : E) (old : list item) (max_aux : Z) : svp_res :=
  shortest_vector_ex SVPM_FAST d n d' found m0 0 (Some old) max_aux false.
(** svpcvp.cpp:446-454 shortest_vectors; [old] = contents of sol_coord/sol_dist before the call; the local sol_coord_tmp
    is dropped *)
Definition shortest_vectors (method : svp_method) (d n d' : nat) (found : list (list Z * E)) (m0 : E) (imd0 : Z)
  (old : list item) (max_sols : Z) : svp_res :=
  match shortest_vector_ex method d n d' found m0 imd0 (Some old) (max_sols - 1) true with
  | SvpRet st _ a => SvpRet st [] a
  | x => x
  end.
End Svp.
Arguments SvpAbort {E f}.
Arguments SvpUndef {E f}.
Arguments SvpRet {E f} _ _ _.

(** ** The whole call in exact arithmetic *)
Section Exact.
(** basis [B] with [c] columns; [mu], [r] the exact Gram-Schmidt data; [ne] the normalisation exponent; [infl z] = z plus the
    error bound added by svpcvp.cpp:168-174 and evaluator.cpp:345-355 (any function here; the checks that bound the error
    are taken to hold); flags without SVP_OVERRIDE_BND and SVP_DUAL, no pruning. *)
Variables (c : nat) (B : list (list Z)) (mu : nat -> nat -> Qc) (r : nat -> Qc) (rec : bool) (ne : Z) (fuel : nat) (infl : Z -> Qc).
Notation d := (length B).
Notation f := (q_fops ne).

(** <b_i, b_i> (dot_product, svpcvp.cpp:51 and 55) *)
Definition row_sq (i : nat) : Z := zsum c (fun k => (ent B i k * ent B i k)%Z).
(** gso.h:257-271 sqnorm_coordinates: vector times basis, squared *)
Definition coord_sq (v : list Z) : Z :=
  zsum c (fun k => (zsum d (fun i => nth i v 0 * ent B i k) * zsum d (fun i => nth i v 0 * ent B i k))%Z).

(** the exact evaluator as seen by the enumeration: its state carries int_max_dist; evaluator.cpp:277-309 *)
Definition exact_eval (N : nat) (v : list Z) (nd m : Qc) (st : evst f * Z) : (evst f * Z) * Qc :=
  match exact_sol f coord_sq (fun z => Some (infl z)) N v m (fst st) (snd st) with
  | Some (ev, m', imd) => ((ev, imd), m')
  | None => (st, m)
  end.

(** the solutions held by the evaluator after the enumeration, svpcvp.cpp:119-177 / 313-372 *)
Definition svp_sols (method : svp_method) (max_aux : Z) : option (list (FT f * list Z)) :=
  let d' := last_useful_index d r in
  let imd := get_basis_min row_sq 0 d' in
  let inp := enum_input d' mu r None [] false None (infl imd) ne in
  let N := nr_solutions max_aux in
  match method with
  | SVPM_FAST => option_map (fun s => ev_sols (g_ev (s_g s))) (run_enum qe_ops (eval_sol f BestN N) (eval_sub f) (no_rst qe_ops) rec fuel inp (ev_init f))
  | SVPM_PROVED =>
      option_map (fun s => ev_sols (fst (g_ev (s_g s))))
        (run_enum qe_ops (exact_eval N) (fun off v nd st => (eval_sub f off v nd (fst st), snd st)) (no_rst qe_ops) rec fuel inp (ev_init f, imd))
  end.

(** shortest_vector(b, sol_coord, method), svpcvp.cpp:243-247 and 439-444; [None] = out of fuel *)
Definition svp_exact (method : svp_method) : option (svp_res f) :=
  if negb ((0 <? d)%nat && (0 <? c)%nat && (d <=? c)%nat) then Some SvpAbort
  else match svp_sols method 0 with None => None | Some l => Some (svp_finish f d (last_useful_index d r) l None 0 false) end.
(** shortest_vectors(gso, sol_coord, sol_dist, max_sols, method) for max_sols >= 1, svpcvp.cpp:446-454 *)
Definition svps_exact (method : svp_method) (old : list (FT f * list Z)) (max_sols : Z) : option (svp_res f) :=
  if negb ((0 <? d)%nat && (0 <? c)%nat && (d <=? c)%nat) then Some SvpAbort
  else match svp_sols method (max_sols - 1) with None => None | Some l => Some (svp_finish f d (last_useful_index d r) l (Some old) (max_sols - 1) true) end.
End Exact.
