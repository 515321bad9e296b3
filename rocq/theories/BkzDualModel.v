(** Model of dual enumeration (enumerate.cpp:58-159 with dual = true), of the dual SVP reduction of a block (bkz.cpp:128-358 with
    dual = true) and of SD-BKZ (bkz.cpp:405-417, 443-463, 522-672) in exact arithmetic, on top of BkzExactModel.v and with the
    same simplifications (empty strategies, no radius from the Gaussian heuristic, flags BKZ_BOUNDED_LLL, BKZ_VERBOSE,
    BKZ_DUMP_GSO off). *)
From Coq Require Import List ZArith QArith Qcanon Lia Arith Bool.
From Verif Require Import Util QcUtil NumVectModel MatrixModel GsoModel GsoFModel GsoQ QGs LllModel LllQ EnumModel EnumExact EvalModel EnumCall PropEnum BkzModel BkzExactModel.
Import ListNotations.
Local Open Scope nat_scope.

(** enumerate.cpp:58-143 for the dual lattice: GSO data [mu], [r] of the block; rdiag[d-i-1] = 1/r_i (enumerate.cpp:110-115) and
    mut[d-j-1][d-i-1] = -mu(j, i) (enumerate.cpp:116-123), so that the last row comes first; squared radius [R] = fmaxdist * 2^fmaxdistexpo; [ne]: normexp
    after line 102; the radius is divided by 2^ne (line 104), r multiplied by it (line 113); no target, no subtree (lines 73-74) *)
Definition dual_input (d : nat) (mu : nat -> nat -> Qc) (r : nat -> Qc) (findsub : bool) (prune : option (nat -> Qc)) (R : Qc) (ne : Z) : einput qe_ops :=
  Build_einput qe_ops d (fun i j => - mu (d - i - 1)%nat (d - j - 1)%nat)%Qc (fun i => 1 / (r (d - i - 1)%nat * pow2 ne))%Qc
    None [] false true findsub [] d prune (R * pow2 (- ne))%Qc.

Section Dual.
Variable rnd : Qc -> Z -> Qc.
Variable si ze : Qc -> Z -> Z * nat.
Variable expo : Qc -> Z.
Notation lo := (lq_ops rnd si ze expo).
Notation fo := qc_ops.
Variable P : lpar lo.
Notation lst := (lst lo).
(** as in BkzExactModel.v: limits (lll.cpp:172-221, 79-80), exponent (enumerate.cpp:92-103; [ne] is the exponent before the negation of
    line 102), recursive or iterative enumeration, this->delta (bkz.cpp:38) *)
Variables (fuel efuel : nat) (max_iter : list (list Z) -> nat).
Variable ne : list Qc -> Z.
Variable rec : bool.
Variable delta : Qc.

(** bkz.cpp:128-272 svp_postprocessing with dual = true as operations on the GSO object: row_op_begin and row_op_end
    cover the whole block (lines 162, 188, 221, 263); pos = kappa + block_size - 1 (line 147); no move after the
    general case (lines 267-270) *)
Definition dual_fops (kappa d : nat) (sol : nat -> Z) : option (list (fop fo)) :=
  let '(nz, iv) := scan d sol in
  if nz =? 1 then
    match iv with
    | Some i => Some [FMove (kappa + i) (kappa + d - 1)]
    | None => if kappa =? 0 then None else Some [FMove (kappa - 1) (kappa + d - 1)]
    end
  else
    match iv with
    | Some v =>
        Some [FTrans kappa (kappa + d)
                (flat_map (fun i => if negb (sol i =? 0)%Z && negb (i =? v)
                   then [OAddmulWe (kappa + i) (kappa + v) (- sol v * sol i)%Z 0 0 0] else []) (seq 0 d));
              FMove (kappa + v) (kappa + d - 1)]
    | None =>
        r <- gtree kappa true d (fun i => Z.abs (sol i)) d 1;;
        Some [FTrans kappa (kappa + d) (neg_ops kappa d sol ++ snd r)]
    end.
(** bkz.cpp:128-203 the call of svp_postprocessing with dual = true *)
Definition dual_insert (st : lst) (kappa d : nat) (sol : list Z) : option lst :=
  l <- dual_fops kappa d (fun i => nth i sol 0%Z);;
  zs <- frun fo (p_e P) (lz st, ls st) l;;
  Some (set_zs st (fst zs) (snd zs)).

(** bkz.cpp:330-333 and enumerate.cpp:58-159: dual enumeration of the block [kappa, kappa + d) with squared radius R and the
    best-solution evaluator (one solution); the solution is reversed at the end (enumerate.cpp:154-158) *)
Definition enum_dual (st : lst) (kappa d : nat) (R : Qc) : option (option (list Z)) :=
  r <- oseq (map (fun i => r_val rnd si ze expo P st (kappa + i)) (seq 0 d));;
  mu <- oseq (map (fun j => oseq (map (fun i => get_mu fo (p_e P) (lz st, ls st) (kappa + j) (kappa + i)) (seq 0 j))) (seq 0 d));;
  s <- enum_run rec efuel (- ne r) accept_all BestN 1
         (dual_input d (fun j i => nth i (nth j mu []) 0%Qc) (fun i => nth i r 0%Qc) false None R (- ne r));;
  match kept s with
  | [] => Some None
  | p :: _ => x <- reverse_by_swap (snd p) 0 (d - 1);; Some (Some x)
  end.

(** bkz.cpp:274-358 svp_reduction(kappa, block_size, par, true): first = kappa + block_size - 1 (line 277); the squared radius is
    delta / r(first) (lines 311-317); clean = (old_first >= new_first) (line 357) *)
Definition dsvp_reduction (st : lst) (kappa d : nat) : option (lst * bout) :=
  let first := kappa + d - 1 in
  r0 <- size_reduction lo P fuel st 0 (S first) 0;;
  match snd r0 with
  | OTrue =>
      old <- get_r_exp fo (p_e P) (lz (fst r0), ls (fst r0)) first first;;
      r1 <- lll lo P fuel max_iter (fst r0) 0 0 (kappa + d) 0;;
      match snd r1 with
      | OTrue =>
          md <- r_val rnd si ze expo P (fst r1) first;;
          sol <- enum_dual (fst r1) kappa d (/ md * delta)%Qc;;
          st2 <- (match sol with Some x => dual_insert (fst r1) kappa d x | None => Some (fst r1) end);;
          r3 <- size_reduction lo P fuel st2 0 (S first) 0;;
          match snd r3 with
          | OTrue =>
              new <- get_r_exp fo (p_e P) (lz (fst r3), ls (fst r3)) first first;;
              Some (fst r3, BRet (negb (qltb (fst old) (fst new * pow2 (snd new - snd old)%Z))))
          | OFalse => Some (fst r3, BThrow)
          | _ => None
          end
      | OFalse => Some (fst r1, BThrow)
      | _ => None
      end
  | OFalse => Some (fst r0, BThrow)
  | _ => None
  end.

(** the loop bkz.cpp:411-414: dual blocks for kappa, kappa-1, ..., cnt of them *)
Fixpoint dblocks (beta : nat) (cnt : nat) (st : lst) (kappa : nat) (clean : bool) : option (lst * bout) :=
  match cnt with
  | O => Some (st, BRet clean)
  | S n =>
      r <- dsvp_reduction st kappa beta;;
      match snd r with
      | BRet b => dblocks beta n (fst r) (kappa - 1) (clean && b)
      | BThrow => Some r
      end
  end.
(** bkz.cpp:405-417 trunc_dtour *)
Definition trunc_dtour (st : lst) (beta min_row max_row : nat) : option (lst * bout) :=
  dblocks beta (max_row - beta - min_row) st (max_row - beta) true.
(** bkz.cpp:443-463 sd_tour *)
Definition sd_tour (st : lst) (beta min_row max_row : nat) : option (lst * bout) :=
  r <- trunc_dtour st beta min_row max_row;;
  match snd r with
  | BRet b =>
      q <- trunc_tour rnd si ze expo P fuel efuel max_iter ne rec delta (fst r) beta min_row max_row;;
      match snd q with
      | BRet b' => Some (fst q, BRet (b && b'))
      | BThrow => Some q
      end
  | BThrow => Some r
  end.
(** bkz.cpp:579-622 the main loop with BKZ_SD_VARIANT, [n] = number of tours allowed *)
Fixpoint sd_loop (n : nat) (st : lst) (beta num_rows : nat) : option (lst * bout) :=
  match n with
  | O => Some (st, BRet false)
  | S n' =>
      r <- sd_tour st beta 0 num_rows;;
      match snd r with
      | BRet b => if b || (num_rows <=? beta) then Some (fst r, BRet true) else sd_loop n' (fst r) beta num_rows
      | BThrow => Some r
      end
  end.
(** bkz.cpp:522-672 bkz() with BKZ_SD_VARIANT | BKZ_MAX_LOOPS: LLL first, its result is not used (lines 571-575); then
    the loop and HKZ of the last block (lines 626-633).  [None] for block_size > num_rows: hkz is called with a negative row (property C66). *)
Definition sd_bkz (loops : nat) (st : lst) (beta : nat) : option (lst * bout) :=
  if beta <? 2 then Some (st, BRet true)
  else
    zs <- frun fo (p_e P) (lz st, ls st) (repeat FDiscover (gd (lz st) - nkr (lz st)));;
    let nr := num_rows (gb (lz st)) (gd (lz st)) in
    r <- lll lo P fuel max_iter (set_zs st (fst zs) (snd zs)) 0 0 nr 0;;
    match snd r with
    | OTrue | OFalse =>
        q <- sd_loop loops (fst r) beta nr;;
        match snd q with
        | BRet b =>
            if nr <? beta then None
            else
              h <- hkz rnd si ze expo P fuel efuel max_iter ne rec delta (fst q) (nr - beta) nr;;
              match snd h with
              | BRet _ => Some (fst h, BRet b)
              | BThrow => Some h
              end
        | BThrow => Some q
        end
    | _ => None
    end.
End Dual.
