(** closest_vector (svpcvp.cpp:532-659) over exact arithmetic: Babai reduction of the target, reset
    schedule, enumeration and the returned coordinates. *)
From Coq Require Import List ZArith QArith Qcanon Arith Bool Lia.
From Verif Require Import Util QcUtil GsoQ LatticeSpec LllSpec EnumModel EnumExact EvalModel EnumCall EnumReset.
Import ListNotations.
Local Open Scope Qc_scope.

Section Cvp.
(** [B]: the basis, [c] columns; [mu], [r]: mu matrix and squared Gram-Schmidt norms held by the gso object
    (svpcvp.cpp:558-564, exact) *)
Variables (c : nat) (B : list (list Z)) (mu : nat -> nat -> Qc) (r : nat -> Qc).
Notation d := (length B).

(** svpcvp.cpp:503-510: inner products with the Gram-Schmidt vectors *)
Fixpoint gs_raw (v : nat -> Qc) (n : nat) : list Qc :=
  match n with
  | O => []
  | S i => let l := gs_raw v i in l ++ [ip c v (qrow B i) - qsum i (fun j => mu i j * nth j l 0)]
  end.
(** svpcvp.cpp:491-515 get_gscoords *)
Definition gscoords (v : nat -> Qc) (i : nat) : Qc := nth i (gs_raw v d) 0 / r i.

(** svpcvp.cpp:524-529; rnd on mpfr is mpfr_round, nearest with ties away from zero (nr_FP_mpfr.inl:239) *)
Fixpoint babai_go (n : nat) (tc : nat -> Qc) (acc : list Z) : list Z :=
  match n with
  | O => acc
  | S i => let x := qround (tc i) in babai_go i (fun j => tc j - mu i j * Qcz x) (x :: acc)
  end.
(** entries of an integer vector as rationals (svpcvp.cpp:517-530 set_z) *)
Definition qvec (v : list Z) (k : nat) : Qc := Qcz (nth k v 0%Z).
(** svpcvp.cpp:517-530 babai *)
Definition babai (tau : list Z) : list Z := babai_go d (gscoords (qvec tau)) [].

(** svpcvp.cpp:592-593: int_new_target -= sum_i x_i b_i *)
Definition sub_comb (tau x : list Z) : list Z := map (fun k => (nth k tau 0 - zsum d (fun i => nth i x 0 * ent B i k))%Z) (seq 0 c).
(** svpcvp.cpp:591 and 652: sol_coord += x *)
Definition add_coord (sol x : list Z) : list Z := map (fun i => (nth i sol 0 + nth i x 0)%Z) (seq 0 d).
(** svpcvp.cpp:582-586 *)
Definition small (x : list Z) : bool := forallb (fun z => (-1 <=? z)%Z && (z <=? 1)%Z) x.

(** svpcvp.cpp:571-597, [None] = more than [fuel] passes; returns int_new_target and sol_coord *)
Fixpoint babai_loop (fuel : nat) (tau sol : list Z) : option (list Z * list Z) :=
  match fuel with
  | O => None
  | S f => let x := babai tau in if small x then Some (tau, sol) else babai_loop f (sub_comb tau x) (add_coord sol x)
  end.

(** svpcvp.cpp:532-659.  [proved]: method & CVPM_PROVED; [rec]: FPLLL_WITH_RECURSIVE_ENUM (the default build);
    [ne]: normalisation exponent of the enumeration; outer [None] = out of fuel, [Some None] = RED_ENUM_FAILURE. *)
Definition closest_vector (rec proved : bool) (ne : Z) (fuelB fuel n : nat) (tau : list Z) : option (option (list Z)) :=
  match babai_loop fuelB tau (repeat 0%Z d) with
  | None => None
  | Some (tau', sol) =>
      match cvp_run rec fuel d mu r (gscoords (qvec tau')) None (if proved then max_idx d r else []) ne n (cvp_radius d r) with
      | None => None
      | Some s => Some (match ev_sols (g_ev (s_g s)) with [] => None | (_, x) :: _ => Some (add_coord sol x) end)
      end
  end.
End Cvp.
