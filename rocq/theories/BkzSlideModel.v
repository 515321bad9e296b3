(** Model of slide reduction (bkz.cpp:465-520 and 522-672 with BKZ_SLD_RED) in exact arithmetic, on top of BkzExactModel.v and
    BkzDualModel.v and with the same simplifications (empty strategies, no radius from the Gaussian heuristic, flags
    BKZ_BOUNDED_LLL, BKZ_VERBOSE, BKZ_DUMP_GSO off, min_row = 0 as in the call bkz.cpp:607). *)
From Coq Require Import List ZArith QArith Qcanon Lia Arith Bool.
From Verif Require Import Util QcUtil NumVectModel MatrixModel GsoModel GsoFModel GsoQ QGs LllModel LllQ EnumModel EnumExact EvalModel EnumCall PropEnum BkzModel BkzExactModel BkzDualModel.
Import ListNotations.
Local Open Scope nat_scope.

Section Slide.
Variable rnd : Qc -> Z -> Qc.
Variable si ze : Qc -> Z -> Z * nat.
Variable expo : Qc -> Z.
Notation lo := (lq_ops rnd si ze expo).
Notation fo := qc_ops.
Variable P : lpar lo.
Notation lst := (lst lo).
(** as in BkzExactModel.v *)
Variables (fuel efuel : nat) (max_iter : list (list Z) -> nat).
Variable ne : list Qc -> Z.
Variable rec : bool.
Variable delta : Qc.
Notation svp := (svp_reduction rnd si ze expo P fuel efuel max_iter ne rec delta).
Notation dsvp := (dsvp_reduction rnd si ze expo P fuel efuel max_iter ne rec delta).
Notation hkz := (hkz rnd si ze expo P fuel efuel max_iter ne rec delta).

(** bkz.cpp:468-470 and 647-649: the number of blocks *)
Definition n_blocks (rows beta : nat) : nat := rows / beta + (if rows mod beta =? 0 then 0 else 1).
(** gso_interface.cpp:230-242 get_log_det of the rows [s, e) as the determinant itself: the product instead of the sum of the logarithms *)
Definition r_prod (st : lst) (s e : nat) : option Qc :=
  r <- oseq (map (fun j => r_val rnd si ze expo P st j) (seq s (e - s)));;
  Some (fold_left Qcmult r 1%Qc).
(** gso_interface.cpp:244-258 get_slide_potential(0, rows, beta), again the product whose logarithm it is; the logarithm is
    increasing, so comparisons come out the same *)
Definition slide_pot (st : lst) (rows beta : nat) : option Qc :=
  let p := rows / beta - (if rows mod beta =? 0 then 1 else 0) in
  d <- oseq (map (fun i => x <- r_prod st (i * beta) (S i * beta);; Some (x ^ (p - i))%Qc) (seq 0 p));;
  Some (fold_left Qcmult d 1%Qc).

(** the loop bkz.cpp:475-480: primal blocks at kappa, kappa + beta, ..., [cnt] of them *)
Fixpoint sl_primal (beta rows cnt : nat) (st : lst) (kappa : nat) (clean : bool) : option (lst * bout) :=
  match cnt with
  | O => Some (st, BRet clean)
  | S n =>
      r <- svp st kappa (Nat.min (rows - kappa) beta);;
      match snd r with
      | BRet b => sl_primal beta rows n (fst r) (kappa + beta) (clean && b)
      | BThrow => Some r
      end
  end.
(** the loop bkz.cpp:472-493 do ... while (!clean); [None] after [n] passes: no result *)
Fixpoint sl_inner (n beta rows : nat) (st : lst) : option (lst * bout) :=
  match n with
  | O => None
  | S n' =>
      r <- sl_primal beta rows (n_blocks rows beta) st 0 true;;
      match snd r with
      | BRet true => Some r
      | BRet false => sl_inner n' beta rows (fst r)
      | BThrow => Some r
      end
  end.
(** the loop bkz.cpp:495-499: dual blocks at kappa, kappa + beta, ..., [cnt] of them; whether they were clean is not used *)
Fixpoint sl_dual (beta cnt : nat) (st : lst) (kappa : nat) : option (lst * bout) :=
  match cnt with
  | O => Some (st, BRet true)
  | S n =>
      r <- dsvp st kappa beta;;
      match snd r with
      | BRet _ => sl_dual beta n (fst r) (kappa + beta)
      | BThrow => Some r
      end
  end.
(** bkz.cpp:465-520 slide_tour; [pot] = sld_potential, the new value is returned; [BRet true] if the potential did not decrease *)
Definition slide_tour (n : nat) (st : lst) (beta rows : nat) (pot : Qc) : option (lst * bout * Qc) :=
  r <- sl_inner n beta rows st;;
  match snd r with
  | BThrow => Some (fst r, BThrow, pot)
  | BRet _ =>
      q <- sl_dual beta (n_blocks rows beta - 1) (fst r) 1;;
      match snd q with
      | BThrow => Some (fst q, BThrow, pot)
      | BRet _ =>
          new <- slide_pot (fst q) rows beta;;
          if qltb new pot then Some (fst q, BRet false, new) else Some (fst q, BRet true, pot)
      end
  end.
(** bkz.cpp:581-622 the main loop with BKZ_SLD_RED: [n] tours allowed (BKZ_MAX_LOOPS; bkz.cpp:581-585) *)
Fixpoint slide_loop (n ni : nat) (st : lst) (beta rows : nat) (pot : Qc) : option (lst * bout) :=
  match n with
  | O => Some (st, BRet false)
  | S n' =>
      r <- slide_tour ni st beta rows pot;;
      match snd (fst r) with
      | BRet b => if b || (rows <=? beta) then Some (fst (fst r), BRet true) else slide_loop n' ni (fst (fst r)) beta rows (snd r)
      | BThrow => Some (fst r)
      end
  end.
(** bkz.cpp:650-655: HKZ reduction of the blocks without their first rows *)
Fixpoint sl_hkz (beta rows cnt : nat) (st : lst) (j : nat) : option (lst * bout) :=
  match cnt with
  | O => Some (st, BRet true)
  | S n =>
      let kappa := j * beta + 1 in
      r <- hkz st kappa (Nat.min rows (kappa + beta - 1));;
      match snd r with
      | BRet _ => sl_hkz beta rows n (fst r) (S j)
      | BThrow => Some r
      end
  end.
(** bkz.cpp:522-672 bkz() with BKZ_SLD_RED | BKZ_MAX_LOOPS: GSO and potential first (lines 564-570, the result of update_gso is not used),
    then the loop and the HKZ reductions (lines 642-660) *)
Definition slide_bkz (loops ni : nat) (st : lst) (beta : nat) : option (lst * bout) :=
  if beta <? 2 then Some (st, BRet true)
  else
    zs <- frun fo (p_e P) (lz st, ls st) (repeat FDiscover (gd (lz st) - nkr (lz st)));;
    let nr := num_rows (gb (lz st)) (gd (lz st)) in
    u <- update_gso lo (gd (lz st)) 0 (fst zs) (snd zs);;
    let st1 := set_zs st (fst (fst u)) (snd (fst u)) in
    pot <- slide_pot st1 nr beta;;
    q <- slide_loop loops ni st1 beta nr pot;;
    match snd q with
    | BRet b =>
        h <- sl_hkz beta nr (n_blocks nr beta) (fst q) 0;;
        match snd h with
        | BRet _ => Some (fst h, BRet b)
        | BThrow => Some h
        end
    | BThrow => Some q
    end.
End Slide.
