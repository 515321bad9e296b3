(** Closest-vector enumeration with resets: enumerate.cpp:23-56 started recursively, and the choice of
    the reset levels in closest_vector (svpcvp.cpp:608-634). *)
From Coq Require Import List ZArith QArith Qcanon Arith Bool Lia.
From Verif Require Import QcUtil GsoQ EnumModel EnumExact EvalModel EnumCall.
Import ListNotations.
Local Open Scope Qc_scope.

(** enumerate.cpp:58-143 for a target and a list [maxidx] of reset levels; [sub] = subtree_reset *)
Definition reset_input (d : nat) (mu : nat -> nat -> Qc) (r t : nat -> Qc) (prune : option (nat -> Qc)) (maxidx : list Z) (ne : Z)
  (subtree : list Z) (sub : bool) (R : Qc) : einput qe_ops :=
  Build_einput qe_ops d (fun i j => mu j i) (fun i => r i * pow2 (- ne)) (Some t) subtree sub false false maxidx d prune (R * pow2 (- ne)).

Section Reset.
Variables (rec : bool) (fuel d : nat) (mu : nat -> nat -> Qc) (r t : nat -> Qc) (prune : option (nat -> Qc)) (maxidx : list Z) (ne : Z).
Notation f := (q_fops ne).

(** enumerate.cpp:30-45: the radius is the sum of the first cur_depth+1 squared Gram-Schmidt norms, the evaluator
    keeps the best solution; its length is normalised back.  The sub-enumeration covers the
    same rows 0..d-1, hence the same normalisation exponent.  [n] bounds the nesting. *)
Fixpoint reset_sub (n : nat) (partial : list Z) (depth : nat) : option (option (list Z * Qc)) :=
  match n with
  | O => None
  | S n' =>
      match run_enum qe_ops (eval_sol f BestN 1) (eval_sub f) (reset_sub n') rec fuel
              (reset_input d mu r t prune maxidx ne partial true (qsum (S depth) r)) (ev_init f) with
      | None => None
      | Some s => Some (match ev_sols (g_ev (s_g s)) with [] => None | (l, v) :: _ => Some (v, l * pow2 (- ne)) end)
      end
  end.

(** the outermost call of closest_vector (svpcvp.cpp:637-641): whole tree, squared radius [R], best solution *)
Definition cvp_run (n : nat) (R : Qc) : option (est qe_ops (evst f)) :=
  run_enum qe_ops (eval_sol f BestN 1) (eval_sub f) (reset_sub n) rec fuel (reset_input d mu r t prune maxidx ne [] false R) (ev_init f).
End Reset.

(** svpcvp.cpp:599-606: the initial squared radius *)
Definition cvp_radius (d : nat) (r : nat -> Qc) : Qc := qsum d r - r 0%nat.

(** svpcvp.cpp:620-627: scan cur = prev-1, ..., 0 for the largest r, ties to the lower index *)
Definition max_scan (r : nat -> Qc) (mi prev : nat) : nat :=
  snd (fold_left (fun (a : Qc * nat) cur => if eleb (fst a) (r cur) then (r cur, cur) else a) (rev (seq 0 prev)) (r mi, mi)).
(** svpcvp.cpp:614-633; every pass lowers max_index, so [d] passes suffice *)
Fixpoint max_idx_loop (n : nat) (r : nat -> Qc) (prev mi : nat) (out : nat -> Z) : nat -> Z :=
  match n with
  | O => out
  | S n' =>
      if Nat.eqb mi 0 then out
      else
        let m := max_scan r mi prev in
        let out' := fun i => if Nat.eqb i prev then Z.of_nat prev else if Nat.leb m i && Nat.ltb i prev then Z.of_nat m else out i in
        if Nat.eqb m 0 then out' (* --max_index gives -1 and the loop ends *) else max_idx_loop n' r m (m - 1) out'
  end.
(** svpcvp.cpp:608-634 *)
Definition max_idx (d : nat) (r : nat -> Qc) : list Z := map (max_idx_loop d r (d - 1) (d - 1) (fun _ => 0%Z)) (seq 0 d).
