(** Model of the table of volumes of the unit balls as the pruner uses it: ballvol.const and
    set_tabulated_consts (pruner.cpp:190-202) for doubles.

    The conversion of a text is strtod, which rounds the decimal number to the nearest double;
    it is given by the real number it returns (0 on underflow). *)
From Coq Require Import List ZArith Reals.
From Flocq Require Import Core.
From Verif Require Import BallTable.

(** the number written by an entry of ballvol.const, e.g. ballvol.const:2-5 *)
Definition entry_val (x : Z * Z) : R := (IZR (fst x) * powerRZ 10 (snd x))%R.
(** nr_FP_d.inl:101-105 operator= for a text, on an entry *)
Definition entry_double (x : Z * Z) : R := round radix2 (FLT_exp (-1074) 53) ZnearestE (entry_val x).
(** pruner.cpp:190-202 set_tabulated_consts, tabulated_ball_vol; pruner.h:26 PRUNER_MAX_N = 2047 *)
Definition tabulated_ball_vol (i : nat) : option R :=
  if (i <? 2047)%nat then option_map entry_double (nth_error pre_ball_vol i) else None.
