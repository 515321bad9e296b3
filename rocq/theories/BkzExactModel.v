(** Model of BKZ and HKZ reduction in exact arithmetic (bkz.cpp:274-441, 522-672): the GSO object and
    LLL of LllModel.v over the rationals, the enumeration of EnumModel.v over the rationals, and the
    insertion of BkzModel.v.  Simplifications: primal blocks only; empty strategies (bkz_param.h:48-54:
    no preprocessing tours, no pruning, expectation 1, so that the loop bkz.cpp:300-343 runs once); no radius from the
    Gaussian heuristic (flag BKZ_GH_BND off, or block size at most 30); the flags BKZ_BOUNDED_LLL, BKZ_VERBOSE,
    BKZ_DUMP_GSO, BKZ_AUTO_ABORT, BKZ_MAX_TIME, BKZ_SD_VARIANT and BKZ_SLD_RED off. *)
From Coq Require Import List ZArith QArith Qcanon Lia Arith Bool.
From Verif Require Import Util QcUtil MatrixModel GsoModel GsoFModel GsoQ QGs LllModel LllQ EnumModel EnumExact EvalModel EnumCall PropEnum BkzModel.
Import ListNotations.
Local Open Scope nat_scope.

(** the values of a list of computations *)
Fixpoint oseq {A} (l : list (option A)) : option (list A) :=
  match l with
  | [] => Some []
  | x :: t => a <- x;; r <- oseq t;; Some (a :: r)
  end.

(** what a function of BKZReduction does: it returns a bool, or throws std::runtime_error (bkz.cpp:109-112, 289-292, 346-349);
    bkz() catches only RedStatus (bkz.cpp:614-617), so the exception leaves it *)
Inductive bout := BRet (clean : bool) | BThrow.

Section Bkz.
Variable rnd : Qc -> Z -> Qc.
Variable si ze : Qc -> Z -> Z * nat.
Variable expo : Qc -> Z.
Notation lo := (lq_ops rnd si ze expo).
Notation fo := qc_ops.
Variable P : lpar lo.
Notation lst := (lst lo).
(** limits on passes of babai (lll.cpp:172-221) and on nodes, limit of lll.cpp:79-80 *)
Variables (fuel efuel : nat) (max_iter : list (list Z) -> nat).
(** enumerate.cpp:92-98 the exponent used for normalisation, a function of the r_i; recursive or iterative enumeration *)
Variable ne : list Qc -> Z.
Variable rec : bool.
(** bkz.cpp:38 this->delta *)
Variable delta : Qc.

(** bkz.cpp:128-272 svp_postprocessing as operations on the GSO object; [FTrans] is
    row_op_begin, row operations, row_op_end (lines 166-197 and 210-262) *)
Definition post_fops (kappa d : nat) (sol : nat -> Z) : option (list (fop fo)) :=
  let '(nz, iv) := scan d sol in
  if nz =? 1 then
    match iv with
    | Some i => Some [FMove (kappa + i) kappa]
    | None => if kappa =? 0 then None else Some [FMove (kappa - 1) kappa]
    end
  else
    match iv with
    | Some v =>
        Some [FTrans (kappa + v) (kappa + v + 1)
                (flat_map (fun i => if negb (sol i =? 0)%Z && negb (i =? v)
                   then [OAddmulWe (kappa + v) (kappa + i) (sol v * sol i)%Z 0 0 0] else []) (seq 0 d));
              FMove (kappa + v) kappa]
    | None =>
        r <- gtree kappa false d (fun i => Z.abs (sol i)) d 1;;
        Some [FTrans kappa (kappa + d) (neg_ops kappa d sol ++ snd r); FMove (kappa + d - 1) kappa]
    end.

(** bkz.cpp:128-203 the call of svp_postprocessing: the operations applied to the GSO object *)
Definition svp_insert (st : lst) (kappa d : nat) (sol : list Z) : option lst :=
  l <- post_fops kappa d (fun i => nth i sol 0%Z);;
  zs <- frun fo (p_e P) (lz st, ls st) l;;
  Some (set_zs st (fst zs) (snd zs)).

(** gso_interface.h:704-714 get_r_exp with the exponent applied, as used in enumerate.cpp:127-142 *)
Definition r_val (st : lst) (i : nat) : option Qc :=
  p <- get_r_exp fo (p_e P) (lz st, ls st) i i;; Some (fst p * pow2 (snd p))%Qc.

(** bkz.cpp:330-333 and enumerate.cpp:58-151: enumeration of the block [kappa, kappa + d) with squared radius R
    and the best-solution evaluator (one solution); the coefficients kept, or none *)
Definition enum_block (st : lst) (kappa d : nat) (R : Qc) : option (option (list Z)) :=
  r <- oseq (map (fun i => r_val st (kappa + i)) (seq 0 d));;
  mu <- oseq (map (fun j => oseq (map (fun i => get_mu fo (p_e P) (lz st, ls st) (kappa + j) (kappa + i)) (seq 0 j))) (seq 0 d));;
  s <- enum_run rec efuel (ne r) accept_all BestN 1
         (enum_input d (fun j i => nth i (nth j mu []) 0%Qc) (fun i => nth i r 0%Qc) None [] false None R (ne r));;
  Some (match kept s with [] => None | p :: _ => Some (snd p) end).

(** bkz.cpp:274-358 svp_reduction(kappa, block_size, par) *)
Definition svp_reduction (st : lst) (kappa d : nat) : option (lst * bout) :=
  r0 <- size_reduction lo P fuel st 0 (S kappa) 0;;
  match snd r0 with
  | OTrue =>
      old <- get_r_exp fo (p_e P) (lz (fst r0), ls (fst r0)) kappa kappa;;
      r1 <- lll lo P fuel max_iter (fst r0) 0 0 (kappa + d) 0;;
      match snd r1 with
      | OTrue =>
          md <- r_val (fst r1) kappa;;
          sol <- enum_block (fst r1) kappa d (md * delta)%Qc;;
          st2 <- (match sol with Some x => svp_insert (fst r1) kappa d x | None => Some (fst r1) end);;
          r3 <- size_reduction lo P fuel st2 0 (S kappa) 0;;
          match snd r3 with
          | OTrue =>
              new <- get_r_exp fo (p_e P) (lz (fst r3), ls (fst r3)) kappa kappa;;
              Some (fst r3, BRet (negb (qltb (fst new * pow2 (snd new - snd old)%Z) (fst old))))
          | OFalse => Some (fst r3, BThrow)
          | _ => None
          end
      | OFalse => Some (fst r1, BThrow)
      | _ => None
      end
  | OFalse => Some (fst r0, BThrow)
  | _ => None
  end.

(** the loops bkz.cpp:391-400 (block size fixed: [size] constant) and 423-433 (size = max_row - kappa):
    svp_reduction for kappa, kappa+1, ... ; clean = conjunction *)
Fixpoint blocks (size : nat -> nat) (cnt : nat) (st : lst) (kappa : nat) (clean : bool) : option (lst * bout) :=
  match cnt with
  | O => Some (st, BRet clean)
  | S n =>
      r <- svp_reduction st kappa (size kappa);;
      match snd r with
      | BRet b => blocks size n (fst r) (S kappa) (clean && b)
      | BThrow => Some r
      end
  end.
(** bkz.cpp:386-403 trunc_tour *)
Definition trunc_tour (st : lst) (beta min_row max_row : nat) : option (lst * bout) :=
  blocks (fun _ => beta) (max_row - beta - min_row) st min_row true.
(** bkz.cpp:419-441 hkz; the result of the last size_reduction is not used *)
Definition hkz (st : lst) (min_row max_row : nat) : option (lst * bout) :=
  r <- blocks (fun kappa => max_row - kappa) (max_row - 1 - min_row) st min_row true;;
  match snd r with
  | BRet b =>
      q <- size_reduction lo P fuel (fst r) (max_row - 1) max_row (max_row - 2);;
      match snd q with
      | OTrue | OFalse => Some (fst q, BRet b)
      | _ => None
      end
  | BThrow => Some r
  end.
(** bkz.cpp:360-384 tour (enable_int_gram is off, as in bkz_reduction_f, bkz.cpp:812-846) *)
Definition tour (st : lst) (beta min_row max_row : nat) : option (lst * bout) :=
  r <- trunc_tour st beta min_row max_row;;
  match snd r with
  | BRet b =>
      q <- hkz (fst r) (max_row - beta) max_row;;
      match snd q with
      | BRet b' => Some (fst q, BRet (b && b'))
      | BThrow => Some q
      end
  | BThrow => Some r
  end.
(** bkz.cpp:579-622 the main loop, [n] = number of tours allowed (max_loops, or a limit of the model):
    with BKZ_MAX_LOOPS the loop stops after max_loops tours *)
Fixpoint bkz_loop (n : nat) (st : lst) (beta num_rows : nat) : option (lst * bout) :=
  match n with
  | O => Some (st, BRet false)
  | S n' =>
      r <- tour st beta 0 num_rows;;
      match snd r with
      | BRet b => if b || (num_rows <=? beta) then Some (fst r, BRet true) else bkz_loop n' (fst r) beta num_rows
      | BThrow => Some r
      end
  end.
(** bkz.cpp:35-37: trailing zero rows are skipped; [n] rows remain to be looked at *)
Fixpoint num_rows (b : list (list Z)) (n : nat) : nat :=
  match n with
  | O => 0
  | S m => if forallb (fun x => (x =? 0)%Z) (nth m b []) then num_rows b m else n
  end.
(** bkz.cpp:522-672 bkz(): [BRet true] = RED_SUCCESS, [BRet false] = RED_BKZ_LOOPS_LIMIT *)
Definition bkz (loops : nat) (st : lst) (beta : nat) : option (lst * bout) :=
  if beta <? 2 then Some (st, BRet true)
  else
    zs <- frun fo (p_e P) (lz st, ls st) (repeat FDiscover (gd (lz st) - nkr (lz st)));;
    bkz_loop loops (set_zs st (fst zs) (snd zs)) beta (num_rows (gb (lz st)) (gd (lz st))).
End Bkz.
