(** Command line of the program fplll: main.cpp and main.h. *)
From Coq Require Import Ascii String List ZArith Arith Bool.
Import ListNotations.
Local Open Scope string_scope.
Local Open Scope Z_scope.

(** ** Enumerations *)
(** main.h:36-45 *)
Inductive action := ACTION_LLL | ACTION_HKZ | ACTION_BKZ | ACTION_SVP | ACTION_CVP | ACTION_HLLL | ACTION_PRU.
(** defs.h:186-192 *)
Inductive lmethod := LM_WRAPPER | LM_PROVED | LM_HEURISTIC | LM_FAST.
(** defs.h:200-205 *)
Inductive itype := ZT_MPZ | ZT_LONG | ZT_DOUBLE.
(** defs.h:209-218 *)
Inductive ftype := FT_DEFAULT | FT_DOUBLE | FT_LONG_DOUBLE | FT_DPE | FT_DD | FT_QD | FT_MPFR.
(** defs.h:224-226 *)
Definition LLL_VERBOSE : Z := 1.
(** defs.h:225 *)
Definition LLL_EARLY_RED : Z := 2.
(** defs.h:226 *)
Definition LLL_SIEGEL : Z := 4.
(** defs.h:265 *)
Definition BKZ_VERBOSE : Z := 1.
(** defs.h:266 *)
Definition BKZ_NO_LLL : Z := 2.
(** defs.h:267 *)
Definition BKZ_MAX_LOOPS : Z := 4.
(** defs.h:268 *)
Definition BKZ_MAX_TIME : Z := 8.
(** defs.h:269 *)
Definition BKZ_BOUNDED_LLL : Z := 16.
(** defs.h:270 *)
Definition BKZ_AUTO_ABORT : Z := 32.
(** defs.h:271 *)
Definition BKZ_DUMP_GSO : Z := 64.
(** defs.h:272 *)
Definition BKZ_GH_BND : Z := 128.
(** defs.h:273 *)
Definition BKZ_SD_VARIANT : Z := 256.
(** defs.h:274 *)
Definition BKZ_SLD_RED : Z := 512.
(** defs.h:280 *)
Definition HKZ_VERBOSE : Z := 1.

(** ** atoi *)
(** the C library's isspace in the C locale, used by atoi (main.cpp:516 and others) *)
Definition is_space (c : ascii) : bool :=
  let n := nat_of_ascii c in (n =? 32)%nat || ((9 <=? n)%nat && (n <=? 13)%nat).
(** value of a decimal digit, for atoi (main.cpp:516 and others) *)
Definition digit_val (c : ascii) : option Z :=
  let n := nat_of_ascii c in
  if ((48 <=? n)%nat && (n <=? 57)%nat)%bool then Some (Z.of_nat n - 48) else None.
(** leading white space skipped by atoi (main.cpp:516 and others) *)
Fixpoint skip_space (s : string) : string :=
  match s with String c t => if is_space c then skip_space t else s | EmptyString => s end.
(** the digits read by atoi (main.cpp:516 and others); the first other character ends the number *)
Fixpoint read_digits (acc : Z) (s : string) : Z :=
  match s with
  | String c t => match digit_val c with Some d => read_digits (10 * acc + d) t | None => acc end
  | EmptyString => acc
  end.
(** the integer denoted by the text, for atoi (main.cpp:516 and others): sign and digits *)
Definition text_int (s : string) : Z :=
  match skip_space s with
  | String c t =>
      if Ascii.eqb c "-" then - read_digits 0 t
      else if Ascii.eqb c "+" then read_digits 0 t
      else read_digits 0 (String c t)
  | EmptyString => 0
  end.
(** the C library's atoi (main.cpp:516 and others); [None]: the value is not an int, the
    behaviour is undefined *)
Definition atoi (s : string) : option Z :=
  let z := text_int s in if (- 2 ^ 31 <=? z) && (z <? 2 ^ 31) then Some z else None.

Section Cmd.
(** the type double and the C library's atof are arguments: nothing is assumed about them *)
Variable D : Type.
Variable atof : string -> D.
Variable dnz : D -> bool.  (* x != 0 *)
Variables (d_zero d_delta d_eta d_theta d_c d_gh d_one d_1e6 d_m1 : D).

(** main.h:47-88 Options.  The fields prune_start, prune_end, prune_pre_nodes and prune_min_prob
    are not set by the constructor: [None] stands for an indeterminate value.  For input_file and
    output_format [None] is NULL. *)
Record options := mkopt {
  o_action : action;
  o_method : lmethod;
  o_int : itype;
  o_ft : ftype;
  o_delta : D;
  o_eta : D;
  o_prec : Z;
  o_early : bool;
  o_siegel : bool;
  o_nolll : bool;
  o_block : Z;
  o_flags : Z;
  o_loops : Z;
  o_pstart : option Z;
  o_pend : option Z;
  o_pnodes : option D;
  o_pprob : option D;
  o_time : D;
  o_dump : string;
  o_gh : D;
  o_strat : string;
  o_verbose : bool;
  o_input : option string;
  o_format : option string;
  o_theta : D;
  o_c : D }.

(** main.h:49-58, the constructor *)
Definition opt_new : options :=
  mkopt ACTION_LLL LM_WRAPPER ZT_MPZ FT_DEFAULT d_delta d_eta 0 false false false 0 0 0
    None None None None d_zero "" d_gh "" false None None d_theta d_c.

(** assignment to a field of Options (main.h:59-87) *)
Definition set_action (o : options) (x : action) : options :=
  mkopt x (o_method o) (o_int o) (o_ft o) (o_delta o) (o_eta o) (o_prec o) (o_early o) (o_siegel o) (o_nolll o) (o_block o) (o_flags o) (o_loops o) (o_pstart o) (o_pend o) (o_pnodes o) (o_pprob o) (o_time o) (o_dump o) (o_gh o) (o_strat o) (o_verbose o) (o_input o) (o_format o) (o_theta o) (o_c o).
(** assignment to a field of Options (main.h:59-87) *)
Definition set_method (o : options) (x : lmethod) : options :=
  mkopt (o_action o) x (o_int o) (o_ft o) (o_delta o) (o_eta o) (o_prec o) (o_early o) (o_siegel o) (o_nolll o) (o_block o) (o_flags o) (o_loops o) (o_pstart o) (o_pend o) (o_pnodes o) (o_pprob o) (o_time o) (o_dump o) (o_gh o) (o_strat o) (o_verbose o) (o_input o) (o_format o) (o_theta o) (o_c o).
(** assignment to a field of Options (main.h:59-87) *)
Definition set_int (o : options) (x : itype) : options :=
  mkopt (o_action o) (o_method o) x (o_ft o) (o_delta o) (o_eta o) (o_prec o) (o_early o) (o_siegel o) (o_nolll o) (o_block o) (o_flags o) (o_loops o) (o_pstart o) (o_pend o) (o_pnodes o) (o_pprob o) (o_time o) (o_dump o) (o_gh o) (o_strat o) (o_verbose o) (o_input o) (o_format o) (o_theta o) (o_c o).
(** assignment to a field of Options (main.h:59-87) *)
Definition set_ft (o : options) (x : ftype) : options :=
  mkopt (o_action o) (o_method o) (o_int o) x (o_delta o) (o_eta o) (o_prec o) (o_early o) (o_siegel o) (o_nolll o) (o_block o) (o_flags o) (o_loops o) (o_pstart o) (o_pend o) (o_pnodes o) (o_pprob o) (o_time o) (o_dump o) (o_gh o) (o_strat o) (o_verbose o) (o_input o) (o_format o) (o_theta o) (o_c o).
(** assignment to a field of Options (main.h:59-87) *)
Definition set_delta (o : options) (x : D) : options :=
  mkopt (o_action o) (o_method o) (o_int o) (o_ft o) x (o_eta o) (o_prec o) (o_early o) (o_siegel o) (o_nolll o) (o_block o) (o_flags o) (o_loops o) (o_pstart o) (o_pend o) (o_pnodes o) (o_pprob o) (o_time o) (o_dump o) (o_gh o) (o_strat o) (o_verbose o) (o_input o) (o_format o) (o_theta o) (o_c o).
(** assignment to a field of Options (main.h:59-87) *)
Definition set_eta (o : options) (x : D) : options :=
  mkopt (o_action o) (o_method o) (o_int o) (o_ft o) (o_delta o) x (o_prec o) (o_early o) (o_siegel o) (o_nolll o) (o_block o) (o_flags o) (o_loops o) (o_pstart o) (o_pend o) (o_pnodes o) (o_pprob o) (o_time o) (o_dump o) (o_gh o) (o_strat o) (o_verbose o) (o_input o) (o_format o) (o_theta o) (o_c o).
(** assignment to a field of Options (main.h:59-87) *)
Definition set_prec (o : options) (x : Z) : options :=
  mkopt (o_action o) (o_method o) (o_int o) (o_ft o) (o_delta o) (o_eta o) x (o_early o) (o_siegel o) (o_nolll o) (o_block o) (o_flags o) (o_loops o) (o_pstart o) (o_pend o) (o_pnodes o) (o_pprob o) (o_time o) (o_dump o) (o_gh o) (o_strat o) (o_verbose o) (o_input o) (o_format o) (o_theta o) (o_c o).
(** assignment to a field of Options (main.h:59-87) *)
Definition set_early (o : options) (x : bool) : options :=
  mkopt (o_action o) (o_method o) (o_int o) (o_ft o) (o_delta o) (o_eta o) (o_prec o) x (o_siegel o) (o_nolll o) (o_block o) (o_flags o) (o_loops o) (o_pstart o) (o_pend o) (o_pnodes o) (o_pprob o) (o_time o) (o_dump o) (o_gh o) (o_strat o) (o_verbose o) (o_input o) (o_format o) (o_theta o) (o_c o).
(** assignment to a field of Options (main.h:59-87) *)
Definition set_siegel (o : options) (x : bool) : options :=
  mkopt (o_action o) (o_method o) (o_int o) (o_ft o) (o_delta o) (o_eta o) (o_prec o) (o_early o) x (o_nolll o) (o_block o) (o_flags o) (o_loops o) (o_pstart o) (o_pend o) (o_pnodes o) (o_pprob o) (o_time o) (o_dump o) (o_gh o) (o_strat o) (o_verbose o) (o_input o) (o_format o) (o_theta o) (o_c o).
(** assignment to a field of Options (main.h:59-87) *)
Definition set_nolll (o : options) (x : bool) : options :=
  mkopt (o_action o) (o_method o) (o_int o) (o_ft o) (o_delta o) (o_eta o) (o_prec o) (o_early o) (o_siegel o) x (o_block o) (o_flags o) (o_loops o) (o_pstart o) (o_pend o) (o_pnodes o) (o_pprob o) (o_time o) (o_dump o) (o_gh o) (o_strat o) (o_verbose o) (o_input o) (o_format o) (o_theta o) (o_c o).
(** assignment to a field of Options (main.h:59-87) *)
Definition set_block (o : options) (x : Z) : options :=
  mkopt (o_action o) (o_method o) (o_int o) (o_ft o) (o_delta o) (o_eta o) (o_prec o) (o_early o) (o_siegel o) (o_nolll o) x (o_flags o) (o_loops o) (o_pstart o) (o_pend o) (o_pnodes o) (o_pprob o) (o_time o) (o_dump o) (o_gh o) (o_strat o) (o_verbose o) (o_input o) (o_format o) (o_theta o) (o_c o).
(** assignment to a field of Options (main.h:59-87) *)
Definition set_flags (o : options) (x : Z) : options :=
  mkopt (o_action o) (o_method o) (o_int o) (o_ft o) (o_delta o) (o_eta o) (o_prec o) (o_early o) (o_siegel o) (o_nolll o) (o_block o) x (o_loops o) (o_pstart o) (o_pend o) (o_pnodes o) (o_pprob o) (o_time o) (o_dump o) (o_gh o) (o_strat o) (o_verbose o) (o_input o) (o_format o) (o_theta o) (o_c o).
(** assignment to a field of Options (main.h:59-87) *)
Definition set_loops (o : options) (x : Z) : options :=
  mkopt (o_action o) (o_method o) (o_int o) (o_ft o) (o_delta o) (o_eta o) (o_prec o) (o_early o) (o_siegel o) (o_nolll o) (o_block o) (o_flags o) x (o_pstart o) (o_pend o) (o_pnodes o) (o_pprob o) (o_time o) (o_dump o) (o_gh o) (o_strat o) (o_verbose o) (o_input o) (o_format o) (o_theta o) (o_c o).
(** assignment to a field of Options (main.h:59-87) *)
Definition set_pstart (o : options) (x : option Z) : options :=
  mkopt (o_action o) (o_method o) (o_int o) (o_ft o) (o_delta o) (o_eta o) (o_prec o) (o_early o) (o_siegel o) (o_nolll o) (o_block o) (o_flags o) (o_loops o) x (o_pend o) (o_pnodes o) (o_pprob o) (o_time o) (o_dump o) (o_gh o) (o_strat o) (o_verbose o) (o_input o) (o_format o) (o_theta o) (o_c o).
(** assignment to a field of Options (main.h:59-87) *)
Definition set_pend (o : options) (x : option Z) : options :=
  mkopt (o_action o) (o_method o) (o_int o) (o_ft o) (o_delta o) (o_eta o) (o_prec o) (o_early o) (o_siegel o) (o_nolll o) (o_block o) (o_flags o) (o_loops o) (o_pstart o) x (o_pnodes o) (o_pprob o) (o_time o) (o_dump o) (o_gh o) (o_strat o) (o_verbose o) (o_input o) (o_format o) (o_theta o) (o_c o).
(** assignment to a field of Options (main.h:59-87) *)
Definition set_pnodes (o : options) (x : option D) : options :=
  mkopt (o_action o) (o_method o) (o_int o) (o_ft o) (o_delta o) (o_eta o) (o_prec o) (o_early o) (o_siegel o) (o_nolll o) (o_block o) (o_flags o) (o_loops o) (o_pstart o) (o_pend o) x (o_pprob o) (o_time o) (o_dump o) (o_gh o) (o_strat o) (o_verbose o) (o_input o) (o_format o) (o_theta o) (o_c o).
(** assignment to a field of Options (main.h:59-87) *)
Definition set_pprob (o : options) (x : option D) : options :=
  mkopt (o_action o) (o_method o) (o_int o) (o_ft o) (o_delta o) (o_eta o) (o_prec o) (o_early o) (o_siegel o) (o_nolll o) (o_block o) (o_flags o) (o_loops o) (o_pstart o) (o_pend o) (o_pnodes o) x (o_time o) (o_dump o) (o_gh o) (o_strat o) (o_verbose o) (o_input o) (o_format o) (o_theta o) (o_c o).
(** assignment to a field of Options (main.h:59-87) *)
Definition set_time (o : options) (x : D) : options :=
  mkopt (o_action o) (o_method o) (o_int o) (o_ft o) (o_delta o) (o_eta o) (o_prec o) (o_early o) (o_siegel o) (o_nolll o) (o_block o) (o_flags o) (o_loops o) (o_pstart o) (o_pend o) (o_pnodes o) (o_pprob o) x (o_dump o) (o_gh o) (o_strat o) (o_verbose o) (o_input o) (o_format o) (o_theta o) (o_c o).
(** assignment to a field of Options (main.h:59-87) *)
Definition set_dump (o : options) (x : string) : options :=
  mkopt (o_action o) (o_method o) (o_int o) (o_ft o) (o_delta o) (o_eta o) (o_prec o) (o_early o) (o_siegel o) (o_nolll o) (o_block o) (o_flags o) (o_loops o) (o_pstart o) (o_pend o) (o_pnodes o) (o_pprob o) (o_time o) x (o_gh o) (o_strat o) (o_verbose o) (o_input o) (o_format o) (o_theta o) (o_c o).
(** assignment to a field of Options (main.h:59-87) *)
Definition set_gh (o : options) (x : D) : options :=
  mkopt (o_action o) (o_method o) (o_int o) (o_ft o) (o_delta o) (o_eta o) (o_prec o) (o_early o) (o_siegel o) (o_nolll o) (o_block o) (o_flags o) (o_loops o) (o_pstart o) (o_pend o) (o_pnodes o) (o_pprob o) (o_time o) (o_dump o) x (o_strat o) (o_verbose o) (o_input o) (o_format o) (o_theta o) (o_c o).
(** assignment to a field of Options (main.h:59-87) *)
Definition set_strat (o : options) (x : string) : options :=
  mkopt (o_action o) (o_method o) (o_int o) (o_ft o) (o_delta o) (o_eta o) (o_prec o) (o_early o) (o_siegel o) (o_nolll o) (o_block o) (o_flags o) (o_loops o) (o_pstart o) (o_pend o) (o_pnodes o) (o_pprob o) (o_time o) (o_dump o) (o_gh o) x (o_verbose o) (o_input o) (o_format o) (o_theta o) (o_c o).
(** assignment to a field of Options (main.h:59-87) *)
Definition set_verbose (o : options) (x : bool) : options :=
  mkopt (o_action o) (o_method o) (o_int o) (o_ft o) (o_delta o) (o_eta o) (o_prec o) (o_early o) (o_siegel o) (o_nolll o) (o_block o) (o_flags o) (o_loops o) (o_pstart o) (o_pend o) (o_pnodes o) (o_pprob o) (o_time o) (o_dump o) (o_gh o) (o_strat o) x (o_input o) (o_format o) (o_theta o) (o_c o).
(** assignment to a field of Options (main.h:59-87) *)
Definition set_input (o : options) (x : option string) : options :=
  mkopt (o_action o) (o_method o) (o_int o) (o_ft o) (o_delta o) (o_eta o) (o_prec o) (o_early o) (o_siegel o) (o_nolll o) (o_block o) (o_flags o) (o_loops o) (o_pstart o) (o_pend o) (o_pnodes o) (o_pprob o) (o_time o) (o_dump o) (o_gh o) (o_strat o) (o_verbose o) x (o_format o) (o_theta o) (o_c o).
(** assignment to a field of Options (main.h:59-87) *)
Definition set_format (o : options) (x : option string) : options :=
  mkopt (o_action o) (o_method o) (o_int o) (o_ft o) (o_delta o) (o_eta o) (o_prec o) (o_early o) (o_siegel o) (o_nolll o) (o_block o) (o_flags o) (o_loops o) (o_pstart o) (o_pend o) (o_pnodes o) (o_pprob o) (o_time o) (o_dump o) (o_gh o) (o_strat o) (o_verbose o) (o_input o) x (o_theta o) (o_c o).
(** assignment to a field of Options (main.h:59-87) *)
Definition set_theta (o : options) (x : D) : options :=
  mkopt (o_action o) (o_method o) (o_int o) (o_ft o) (o_delta o) (o_eta o) (o_prec o) (o_early o) (o_siegel o) (o_nolll o) (o_block o) (o_flags o) (o_loops o) (o_pstart o) (o_pend o) (o_pnodes o) (o_pprob o) (o_time o) (o_dump o) (o_gh o) (o_strat o) (o_verbose o) (o_input o) (o_format o) x (o_c o).
(** assignment to a field of Options (main.h:59-87) *)
Definition set_c (o : options) (x : D) : options :=
  mkopt (o_action o) (o_method o) (o_int o) (o_ft o) (o_delta o) (o_eta o) (o_prec o) (o_early o) (o_siegel o) (o_nolll o) (o_block o) (o_flags o) (o_loops o) (o_pstart o) (o_pend o) (o_pnodes o) (o_pprob o) (o_time o) (o_dump o) (o_gh o) (o_strat o) (o_verbose o) (o_input o) (o_format o) (o_theta o) x.

(** ** read_options *)
(** Outcome of the parser: options, exit(code), or undefined behaviour. *)
Inductive pres := POk (o : options) | PExit (code : Z) | PUndef | PFuel.
(** one pass of the loop (main.cpp:479-774): the index of the last argument used and the new
    options, or the end of the program *)
Inductive sres := SCont (ac : nat) (o : options) | SExit (code : Z) | SUndef.

Variable argv : list string.

(** main.cpp:483-484 and the same two lines in every option with a value: ++ac; CHECK(ac < argc, ...) *)
Definition value (ac : nat) (k : nat -> string -> sres) : sres :=
  let ac := S ac in
  if (ac <? length argv)%nat then
    match nth_error argv ac with Some w => k ac w | None => SUndef end
  else SExit 1.
(** an option with an integer value, e.g. main.cpp:512-517 *)
Definition int_value (ac : nat) (f : Z -> options) : sres :=
  value ac (fun ac w => match atoi w with Some z => SCont ac (f z) | None => SUndef end).
(** a floating-point value, e.g. main.cpp:584-589 *)
Definition dbl_value (ac : nat) (f : D -> options) : sres := value ac (fun ac w => SCont ac (f (atof w))).

(** o.bkz_flags |= f, e.g. main.cpp:498 *)
Definition or_flags (o : options) (f : Z) : options := set_flags o (Z.lor (o_flags o) f).

(** main.cpp:485-510 *)
Definition read_action (o : options) (w : string) : option options :=
  if String.eqb w "lll" then Some (set_action o ACTION_LLL)
  else if String.eqb w "hkz" then Some (set_action o ACTION_HKZ)
  else if String.eqb w "bkz" then Some (set_action o ACTION_BKZ)
  else if String.eqb w "svp" then Some (set_action o ACTION_SVP)
  else if String.eqb w "cvp" then Some (set_action o ACTION_CVP)
  else if String.eqb w "sdb" then Some (or_flags (set_action o ACTION_BKZ) BKZ_SD_VARIANT)
  else if String.eqb w "sld" then Some (or_flags (set_action o ACTION_BKZ) BKZ_SLD_RED)
  else if String.eqb w "hlll" then Some (set_action o ACTION_HLLL)
  else if String.eqb w "pru" then Some (set_action o ACTION_PRU)
  else None.

(** main.cpp:606-619 *)
Definition read_ft (w : string) : option ftype :=
  if String.eqb "mpfr" w then Some FT_MPFR
  else if String.eqb "dpe" w then Some FT_DPE
  else if String.eqb "dd" w then Some FT_DD
  else if String.eqb "qd" w then Some FT_QD
  else if String.eqb "double" w then Some FT_DOUBLE
  else if String.eqb "longdouble" w then Some FT_LONG_DOUBLE
  else None.

(** main.cpp:637-652; "fastearly" and "heuristicearly" abort with another message *)
Definition read_method (w : string) : option lmethod :=
  if String.eqb "wrapper" w then Some LM_WRAPPER
  else if String.eqb "proved" w then Some LM_PROVED
  else if String.eqb "heuristic" w then Some LM_HEURISTIC
  else if String.eqb "fast" w then Some LM_FAST
  else None.

(** main.cpp:682-689 *)
Definition read_int (w : string) : option itype :=
  if String.eqb "mpz" w then Some ZT_MPZ
  else if (String.eqb "long" w || String.eqb "int" w)%bool then Some ZT_LONG
  else if String.eqb "double" w then Some ZT_DOUBLE
  else None.

(** argv[ac][0] == '-' (main.cpp:762) *)
Definition is_dash (s : string) : bool :=
  match s with String c _ => Ascii.eqb c "-" | EmptyString => false end.

(** main.cpp:481-773, the chain of tests on argv[ac] *)
Definition ro_step (ac : nat) (o : options) : sres :=
  match nth_error argv ac with
  | None => SUndef
  | Some s =>
      let is (t : string) := String.eqb s t in
      if is "-a" then
        value ac (fun ac w => match read_action o w with Some o' => SCont ac o' | None => SExit 1 end)
      else if is "-b" then int_value ac (set_block o)
      else if is "-prustart" then int_value ac (fun z => set_pstart o (Some z))
      else if is "-pruend" then int_value ac (fun z => set_pend o (Some z))
      else if is "-pruprenodes" then dbl_value ac (fun x => set_pnodes o (Some x))
      else if is "-pruminprob" then dbl_value ac (fun x => set_pprob o (Some x))
      else if is "-bkzboundedlll" then SCont ac (or_flags o BKZ_BOUNDED_LLL)
      else if is "-bkzmaxloops" then int_value ac (fun z => or_flags (set_loops o z) BKZ_MAX_LOOPS)
      else if is "-bkzmaxtime" then dbl_value ac (fun x => or_flags (set_time o x) BKZ_MAX_TIME)
      else if is "-bkzautoabort" then SCont ac (or_flags o BKZ_AUTO_ABORT)
      else if is "-bkzdumpgso" then value ac (fun ac w => SCont ac (or_flags (set_dump o w) BKZ_DUMP_GSO))
      else if is "-c" || is "-r" then dbl_value ac (set_c o)
      else if is "-bkzghbound" then dbl_value ac (fun x => or_flags (set_gh o x) BKZ_GH_BND)
      else if is "-d" || is "-delta" then dbl_value ac (set_delta o)
      else if is "-e" || is "-eta" then dbl_value ac (set_eta o)
      else if is "-t" || is "-theta" then dbl_value ac (set_theta o)
      else if is "-f" then
        value ac (fun ac w => match read_ft w with Some x => SCont ac (set_ft o x) | None => SExit 1 end)
      else if is "-s" then value ac (fun ac w => SCont ac (set_strat o w))
      else if is "-l" then int_value ac (fun z => set_siegel o (z =? 0))
      else if is "-m" then
        value ac (fun ac w => match read_method w with Some x => SCont ac (set_method o x) | None => SExit 1 end)
      else if is "-nolll" then SCont ac (set_nolll o true)
      else if is "-of" then value ac (fun ac w => SCont ac (set_format o (Some w)))
      else if is "-p" then int_value ac (set_prec o)
      else if is "-v" then SCont ac (set_verbose o true)
      else if is "-y" then SCont ac (set_early o true)
      else if is "-z" then
        value ac (fun ac w => match read_int w with Some x => SCont ac (set_int o x) | None => SExit 1 end)
      else if is "-h" || is "--help" then SExit 0
      else if is "--version" then SExit 0
      else if is_dash s then SExit 1
      else match o_input o with
           | Some _ => SExit 1
           | None => SCont ac (set_input o (Some s))
           end
  end.

(** main.cpp:479-774, the loop over ac *)
Fixpoint ro_loop (fuel ac : nat) (o : options) : pres :=
  match fuel with
  | O => PFuel
  | S f =>
      if (ac <? length argv)%nat then
        match ro_step ac o with
        | SCont ac' o' => ro_loop f (S ac') o'
        | SExit c => PExit c
        | SUndef => PUndef
        end
      else POk o
  end.
(** main.cpp:477-775 read_options on the object constructed on line 780 *)
Definition read_options : pres := ro_loop (S (length argv)) 1 opt_new.

(** ** The actions *)
(** The call of the library made by an action: the arguments that depend on the command line.
    CallLll: main.cpp:34-48 ([wu], [wv]: the transform and its inverse are asked for);
    CallHlll: main.cpp:330-345; CallBkz: main.cpp:134-156; CallHkz: main.cpp:204-207;
    CallSvp, CallCvp: main.cpp:253-281 ([lll]: lll_reduction is called before, [wu]: with
    transform, [lflags]: its flags); CallPrune: main.cpp:395-412. *)
Inductive call :=
| CallLll (wu wv : bool) (delta eta : D) (m : lmethod) (ft : ftype) (prec flags : Z)
| CallHlll (wu wv : bool) (delta eta theta c : D) (m : lmethod) (ft : ftype) (prec flags : Z) (nolll : bool)
| CallBkz (wu : bool) (block : Z) (strat : option string) (delta : D) (flags : Z) (dump : option string)
    (gh : option D) (loops : option Z) (time : option D) (ft : ftype) (prec : Z)
| CallHkz (flags : Z) (ft : ftype) (prec : Z)
| CallSvp (lll wu : bool) (lflags flags : Z)
| CallCvp (lll wu : bool) (lflags flags : Z)
| CallPrune (ft : ftype) (prec pstart : Z) (pend : option Z) (pnodes pprob gh : D).

(** one item of the output: a matrix (plain or with commas), a vector, the status, an empty line *)
Inductive item := IB | IBk | IU | IUk | IV | IVk | ICoord | ISol | IStatus | IBlank.
(** Outcome of the program: the call made with the items printed afterwards and the exit status
    ([None]: the printed items if the status is RED_SUCCESS and for svp, cvp nothing otherwise),
    exit without a call, or undefined behaviour *)
Inductive mres := MRun (c : call) (out : list item) (on_failure : list item) | MExit (code : Z) | MUndef.

(** strchr(format, c) != NULL (main.cpp:34, 39, 156, 249, 250, 330, 335) *)
Fixpoint has_chr (c : ascii) (s : string) : bool :=
  match s with EmptyString => false | String a t => Ascii.eqb a c || has_chr c t end.

(** main.cpp:49-86, 158-187, 346-380: the printing loops of lll, bkz, hlll and hkz (208-220).
    [u], [v], [t], [sp]: the switch has a case for this character *)
Fixpoint print_items (u v t sp : bool) (s : string) : list item :=
  match s with
  | EmptyString => []
  | String a r =>
      let two (c : bool) x y :=
        if c then
          match r with
          | String k r' => if Ascii.eqb k "k" then y :: print_items u v t sp r' else x :: print_items u v t sp r
          | EmptyString => x :: print_items u v t sp r
          end
        else print_items u v t sp r in
      if Ascii.eqb a "b" then two true IB IBk
      else if Ascii.eqb a "u" then two u IU IUk
      else if Ascii.eqb a "v" then two v IV IVk
      else if Ascii.eqb a "t" then (if t then IStatus :: print_items u v t sp r else print_items u v t sp r)
      else if Ascii.eqb a " " then (if sp then IBlank :: print_items u v t sp r else print_items u v t sp r)
      else print_items u v t sp r
  end.
(** main.cpp:300-317 *)
Fixpoint print_svp (s : string) : list item :=
  match s with
  | EmptyString => []
  | String a r =>
      if Ascii.eqb a "c" then ICoord :: print_svp r
      else if Ascii.eqb a "s" then ISol :: print_svp r
      else if Ascii.eqb a "t" then IStatus :: print_svp r
      else if Ascii.eqb a " " then IBlank :: print_svp r
      else print_svp r
  end.

(** the default of the output format (main.cpp:25, 137, 203, 244, 325) *)
Definition format_of (o : options) (d : string) : string :=
  match o_format o with Some s => s | None => d end.
(** flags |= f if b (main.cpp:27-32 and others) *)
Definition when (b : bool) (f : Z) : Z := if b then f else 0.
(** o.bkz_flags & f (main.cpp:143-150, 398) *)
Definition has_flag (fl f : Z) : bool := negb (Z.land fl f =? 0).

(** bkz.cpp:946-955 hkz_reduction: the flags handed to bkz_reduction (BKZ_DEFAULT = 0, bkz_param.h:111) *)
Definition hkz_bkz_flags (flags : Z) : Z :=
  if has_flag flags HKZ_VERBOSE then Z.lor 0 BKZ_VERBOSE else 0.
(** bkz.cpp:869-876: bkz_reduction runs LLL first *)
Definition bkz_runs_lll (flags : Z) : bool := negb (has_flag flags BKZ_NO_LLL).

(** main.cpp:21-93 lll *)
Definition do_lll (o : options) : mres :=
  let f := format_of o "b" in
  let out := print_items true true true true f in
  MRun (CallLll (has_chr "v" f || has_chr "u" f) (has_chr "v" f) (o_delta o) (o_eta o) (o_method o) (o_ft o) (o_prec o)
          (Z.lor (Z.lor (when (o_verbose o) LLL_VERBOSE) (when (o_early o) LLL_EARLY_RED)) (when (o_siegel o) LLL_SIEGEL)))
    out out.
(** main.cpp:321-388 hlll *)
Definition do_hlll (o : options) : mres :=
  let f := format_of o "b" in
  let out := print_items true true false true f in
  MRun (CallHlll (has_chr "v" f || has_chr "u" f) (has_chr "v" f) (o_delta o) (o_eta o) (o_theta o) (o_c o) (o_method o)
          (o_ft o) (o_prec o) (when (o_verbose o) LLL_VERBOSE) (o_nolll o)) out out.
(** main.cpp:123-193 bkz; the strategies are loaded from the file only if a name was given *)
Definition do_bkz (mpz : bool) (o : options) : mres :=
  if negb mpz then MExit 1
  else if negb (0 <? o_block o) then MExit 1
  else
    let f := format_of o "b" in
    let out := print_items true false true true f in
    let fl := o_flags o in
    MRun (CallBkz (has_chr "u" f) (o_block o) (if String.eqb (o_strat o) "" then None else Some (o_strat o)) (o_delta o)
            (Z.lor (Z.lor fl (when (o_verbose o) BKZ_VERBOSE)) (when (o_nolll o) BKZ_NO_LLL))
            (if has_flag fl BKZ_DUMP_GSO then Some (o_dump o) else None)
            (if has_flag fl BKZ_GH_BND then Some (o_gh o) else None)
            (if has_flag fl BKZ_MAX_LOOPS then Some (o_loops o) else None)
            (if has_flag fl BKZ_MAX_TIME then Some (o_time o) else None) (o_ft o) (o_prec o)) out out.
(** main.cpp:199-226 hkz *)
Definition do_hkz (mpz : bool) (o : options) : mres :=
  if negb mpz then MExit 1
  else
    let out := print_items false false false false (format_of o "b") in
    MRun (CallHkz (when (o_verbose o) HKZ_VERBOSE) (o_ft o) (o_prec o)) out out.
(** main.cpp:230-319 svpcvp; [target]: the target vector is not empty *)
Definition do_svpcvp (mpz target : bool) (o : options) : mres :=
  if negb mpz then MExit 1
  else
    let f := format_of o "s" in
    let v := when (o_verbose o) 1 in
    let c := if target then CallCvp else CallSvp in
    MRun (c (negb (o_nolll o)) (negb (o_nolll o) && has_chr "c" f) v v) (print_svp f) [].
(** main.cpp:390-421 prune; the four fields are read in any case, an indeterminate value makes
    the behaviour undefined *)
Definition do_prune (mpz : bool) (o : options) : mres :=
  if negb mpz then MExit 1
  else
    match o_pstart o, o_pend o, o_pnodes o, o_pprob o with
    | Some a, Some b, Some x, Some y =>
        MRun (CallPrune (o_ft o) (o_prec o) a (if b =? 0 then None else Some b) (if dnz x then x else d_1e6)
                (if dnz y then y else d_m1) (if has_flag (o_flags o) BKZ_GH_BND then o_gh o else d_one)) [] []
    | _, _, _, _ => MUndef
    end.

(** main.cpp:423-473 run_action; [valid]: the input could be read (439-440), [target]: the
    target vector that was read is not empty (used for ACTION_CVP only, otherwise none is read) *)
Definition run_action (valid target : bool) (mpz : bool) (o : options) : mres :=
  if negb valid then MExit 1
  else
    match o_action o with
    | ACTION_LLL => do_lll o
    | ACTION_SVP => do_svpcvp mpz false o
    | ACTION_CVP => do_svpcvp mpz target o
    | ACTION_HKZ => do_hkz mpz o
    | ACTION_BKZ => do_bkz mpz o
    | ACTION_HLLL => do_hlll o
    | ACTION_PRU => do_prune mpz o
    end.

(** main.cpp:777-802 main; [zlong], [zdouble]: FPLLL_WITH_ZLONG and FPLLL_WITH_ZDOUBLE *)
Definition main (zlong zdouble valid target : bool) : mres :=
  match read_options with
  | POk o =>
      match o_int o with
      | ZT_MPZ => run_action valid target true o
      | ZT_LONG => if zlong then run_action valid target false o else MExit 1
      | ZT_DOUBLE => if zdouble then run_action valid target false o else MExit 1
      end
  | PExit c => MExit c
  | PUndef | PFuel => MUndef
  end.
End Cmd.
