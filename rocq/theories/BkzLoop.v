(** Model of the control flow of BKZReduction::bkz (bkz.cpp:522-672) and BKZAutoAbort::test_abort
    (bkz.cpp:800-809).  What the tours do to the basis is abstracted: their outcome, the clock and the
    slopes are arbitrary sequences.  Slopes are doubles; as multiples of 2^-1074 they are represented by
    integers (NaN is not modelled). *)
From Coq Require Import List ZArith Lia Arith Bool.
Import ListNotations.
Local Open Scope Z_scope.

(** outcome of a tour: the flag it returns, or the type of the exception it throws (bkz.cpp:111, 291,
    348, 486 throw std::runtime_error; the handlers at 614, 637, 661 are for RedStatus) *)
Inductive exn := ERed (status : Z) | ERuntime.
Inductive tour_result := TClean | TDirty | TThrow (e : exn).

(** constructor arguments and flags used by the loop (bkz_param.h:110-122, bkz.cpp:524-528) *)
Record bkz_par := {
  p_block : Z; p_rows : Z;
  p_loops : option Z;            (* BKZ_MAX_LOOPS set: max_loops *)
  p_time : bool;                 (* BKZ_MAX_TIME set *)
  p_abort : bool;                (* BKZ_AUTO_ABORT set *)
  p_scale : Z -> Z;              (* y -> rounded auto_abort_scale * y *)
  p_nodec : Z;                   (* auto_abort_max_no_dec *)
  p_sd : bool; p_sld : bool }.

(** return values of bkz(): status set and returned, or an exception that leaves the function
    (the status field then keeps its value from the constructor, RED_SUCCESS, bkz.cpp:32) *)
Inductive bkz_status := SSuccess | SLoops | STime | SRed (s : Z).
Inductive bkz_out := Returned (s : bkz_status) | Escaped.
(** the status field of the object after the call (bkz.cpp:713-724, 32) *)
Definition status_field (o : bkz_out) : bkz_status := match o with Returned s => s | Escaped => SSuccess end.

(** BKZAutoAbort fields (bkz.h:46-50): old_slope, [None] = numeric_limits<double>::max(); no_dec *)
Record ab := { a_old : option Z; a_nodec : Z }.
Definition ab0 : ab := {| a_old := None; a_nodec := -1 |}.
(** bkz.cpp:800-809; [s] is the new slope.  While old_slope is DBL_MAX no_dec is -1, so the product
    with DBL_MAX is never needed. *)
Definition test_abort (scale : Z -> Z) (maxnodec : Z) (a : ab) (s : Z) : ab * bool :=
  let nd := if (a_nodec a =? -1) || match a_old a with Some o => s <? scale o | None => true end
            then 0 else a_nodec a + 1 in
  let old := match a_old a with Some o => Z.min o s | None => s end in
  ({| a_old := Some old; a_nodec := nd |}, maxnodec <=? nd).

Section Loop.
Variable par : bkz_par.
Variables (tour : nat -> tour_result) (timeout : nat -> bool) (slope : nat -> Z).
(** flag after bkz.cpp:548-554: SD without termination condition turns auto abort on *)
Definition abort_on : bool :=
  p_abort par || (p_sd par && negb (match p_loops par with Some _ => true | None => false end || p_time par)).
(** bkz.cpp:581-622; returns how the loop was left (inl = by break with this final status, inr = by return or exception)
    and the number of tours started.  [None] = more than [fuel] passes. *)
Fixpoint bkz_loop (fuel : nat) (i : nat) (a : ab) : option ((bkz_status + bkz_out) * nat) :=
  match fuel with
  | O => None
  | S f =>
      if match p_loops par with Some m => m <=? Z.of_nat i | None => false end then Some (inl SLoops, i)
      else if p_time par && timeout i then Some (inl STime, i)
      else
        let '(a', stop) := if abort_on then test_abort (p_scale par) (p_nodec par) a (slope i) else (a, false) in
        if stop then Some (inl SSuccess, i)
        else
          match tour i with
          | TThrow (ERed s) => Some (inr (Returned (SRed s)), S i)
          | TThrow ERuntime => Some (inr Escaped, S i)
          | r => if match r with TClean => true | _ => false end || (p_rows par <=? p_block par)
                 then Some (inl SSuccess, S i) else bkz_loop f (S i) a'
          end
  end.
(** bkz.cpp:522-672; [post] is the exception thrown by the final hkz calls (624-665), if any *)
Definition bkz (fuel : nat) (post : option exn) : option (bkz_out * nat) :=
  if p_sd par && p_sld par then Some (Escaped, O)
  else if p_block par <? 2 then Some (Returned SSuccess, O)
  else
    match bkz_loop fuel 0 ab0 with
    | None => None
    | Some (inr o, n) => Some (o, n)
    | Some (inl s, n) =>
        Some (if p_sd par || p_sld par then
                match post with Some (ERed e) => Returned (SRed e) | Some ERuntime => Escaped | None => Returned s end
              else Returned s, n)
    end.
End Loop.
