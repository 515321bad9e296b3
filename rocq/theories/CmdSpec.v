(** What the command line of fplll means, independently of the parser: a list of settings, how
    each is written (main.cpp:477-775, help text main.cpp:693-748), and the value every option
    has in the end.  A later setting of the same option wins; the flags of BKZ add up. *)
From Coq Require Import Ascii String List ZArith Bool.
From Verif Require Import CmdModel.
Import ListNotations.
Local Open Scope string_scope.
Local Open Scope Z_scope.

(** names after -a (main.cpp:485-507, help main.cpp:696-704) *)
Inductive act_name := NLll | NHkz | NBkz | NSvp | NCvp | NSdb | NSld | NHlll | NPru.
(** names after -z (main.cpp:682-687, help main.cpp:723) *)
Inductive int_name := NMpz | NLong | NInt | NDouble.
(** names after -f (main.cpp:606-617, help main.cpp:719) *)
Inductive ft_name := FMpfr | FDpe | FDd | FQd | FDouble | FLongdouble.
(** names after -m (main.cpp:637-644, help main.cpp:725) *)
Inductive met_name := MWrapper | MProved | MHeuristic | MFast.

(** one setting on the command line (main.cpp:481-773); [alias]: the second name of the option is used *)
Inductive setting :=
| SAction (a : act_name) | SBlock (w : string)
| SPruStart (w : string) | SPruEnd (w : string) | SPruNodes (w : string) | SPruProb (w : string)
| SBounded | SLoops (w : string) | STime (w : string) | SAbort | SDump (w : string)
| SC (alias : bool) (w : string) | SGh (w : string)
| SDelta (alias : bool) (w : string) | SEta (alias : bool) (w : string) | STheta (alias : bool) (w : string)
| SFt (f : ft_name) | SStrat (w : string) | SLovasz (w : string) | SMethod (m : met_name)
| SNoLll | SFormat (w : string) | SPrec (w : string) | SVerbose | SEarly | SIntType (z : int_name)
| SFile (w : string).

(** the word for a name (main.cpp:485-507) *)
Definition act_word (a : act_name) : string :=
  match a with NLll => "lll" | NHkz => "hkz" | NBkz => "bkz" | NSvp => "svp" | NCvp => "cvp"
  | NSdb => "sdb" | NSld => "sld" | NHlll => "hlll" | NPru => "pru" end.
(** main.cpp:682-687 *)
Definition int_word (z : int_name) : string :=
  match z with NMpz => "mpz" | NLong => "long" | NInt => "int" | NDouble => "double" end.
(** main.cpp:606-617 *)
Definition ft_word (f : ft_name) : string :=
  match f with FMpfr => "mpfr" | FDpe => "dpe" | FDd => "dd" | FQd => "qd" | FDouble => "double"
  | FLongdouble => "longdouble" end.
(** main.cpp:637-644 *)
Definition met_word (m : met_name) : string :=
  match m with MWrapper => "wrapper" | MProved => "proved" | MHeuristic => "heuristic" | MFast => "fast" end.

(** the arguments by which a setting is written (main.cpp:481-773) *)
Definition words (s : setting) : list string :=
  match s with
  | SAction a => ["-a"; act_word a]
  | SBlock w => ["-b"; w]
  | SPruStart w => ["-prustart"; w]
  | SPruEnd w => ["-pruend"; w]
  | SPruNodes w => ["-pruprenodes"; w]
  | SPruProb w => ["-pruminprob"; w]
  | SBounded => ["-bkzboundedlll"]
  | SLoops w => ["-bkzmaxloops"; w]
  | STime w => ["-bkzmaxtime"; w]
  | SAbort => ["-bkzautoabort"]
  | SDump w => ["-bkzdumpgso"; w]
  | SC b w => [if b then "-r" else "-c"; w]
  | SGh w => ["-bkzghbound"; w]
  | SDelta b w => [if b then "-delta" else "-d"; w]
  | SEta b w => [if b then "-eta" else "-e"; w]
  | STheta b w => [if b then "-theta" else "-t"; w]
  | SFt f => ["-f"; ft_word f]
  | SStrat w => ["-s"; w]
  | SLovasz w => ["-l"; w]
  | SMethod m => ["-m"; met_word m]
  | SNoLll => ["-nolll"]
  | SFormat w => ["-of"; w]
  | SPrec w => ["-p"; w]
  | SVerbose => ["-v"]
  | SEarly => ["-y"]
  | SIntType z => ["-z"; int_word z]
  | SFile w => [w]
  end.

(** the text denotes an int (main.cpp:516: atoi) *)
Definition int_text (w : string) : Prop := - 2 ^ 31 <= text_int w < 2 ^ 31.
(** conditions on the words of a setting: integers are ints, a file name does not look like an
    option (main.cpp:762) *)
Definition proper (s : setting) : Prop :=
  match s with
  | SBlock w | SPruStart w | SPruEnd w | SLoops w | SLovasz w | SPrec w => int_text w
  | SFile w => forall t, w <> String "-" t
  | _ => True
  end.
(** input files among the settings (main.cpp:769-773) *)
Definition files (ss : list setting) : list string :=
  flat_map (fun s => match s with SFile w => [w] | _ => [] end) ss.

(** the last value that some setting gives (main.cpp:477-775: every later assignment wins), [d] if there is none *)
Fixpoint final {A} (f : setting -> option A) (d : A) (ss : list setting) : A :=
  match ss with
  | [] => d
  | s :: r => final f (match f s with Some x => x | None => d end) r
  end.
(** bits of bkz_flags set by a setting (main.cpp:498, 503, 544, 551, 558, 562, 569, 582; values defs.h:262-275) *)
Definition flag_bits (s : setting) : Z :=
  match s with
  | SAction NSdb => 256 | SAction NSld => 512 | SBounded => 16 | SLoops _ => 4 | STime _ => 8
  | SAbort => 32 | SDump _ => 64 | SGh _ => 128 | _ => 0
  end.
(** main.cpp:477-775: all bits together *)
Fixpoint all_bits (z : Z) (ss : list setting) : Z :=
  match ss with [] => z | s :: r => all_bits (Z.lor z (flag_bits s)) r end.

Section Meaning.
Variable D : Type.
Variable atof : string -> D.

(** the meaning of the settings [ss] over the options [o]: field by field (main.cpp:477-775, main.h:59-87) *)
Definition meaning (o : options D) (ss : list setting) : options D :=
  mkopt D
    (final (fun s => match s with SAction a => Some match a with NLll => ACTION_LLL | NHkz => ACTION_HKZ
       | NBkz | NSdb | NSld => ACTION_BKZ | NSvp => ACTION_SVP | NCvp => ACTION_CVP | NHlll => ACTION_HLLL
       | NPru => ACTION_PRU end | _ => None end) (o_action D o) ss)
    (final (fun s => match s with SMethod m => Some match m with MWrapper => LM_WRAPPER | MProved => LM_PROVED
       | MHeuristic => LM_HEURISTIC | MFast => LM_FAST end | _ => None end) (o_method D o) ss)
    (final (fun s => match s with SIntType z => Some match z with NMpz => ZT_MPZ | NLong | NInt => ZT_LONG
       | NDouble => ZT_DOUBLE end | _ => None end) (o_int D o) ss)
    (final (fun s => match s with SFt f => Some match f with FMpfr => FT_MPFR | FDpe => FT_DPE | FDd => FT_DD
       | FQd => FT_QD | FDouble => FT_DOUBLE | FLongdouble => FT_LONG_DOUBLE end | _ => None end) (o_ft D o) ss)
    (final (fun s => match s with SDelta _ w => Some (atof w) | _ => None end) (o_delta D o) ss)
    (final (fun s => match s with SEta _ w => Some (atof w) | _ => None end) (o_eta D o) ss)
    (final (fun s => match s with SPrec w => Some (text_int w) | _ => None end) (o_prec D o) ss)
    (final (fun s => match s with SEarly => Some true | _ => None end) (o_early D o) ss)
    (final (fun s => match s with SLovasz w => Some (text_int w =? 0) | _ => None end) (o_siegel D o) ss)
    (final (fun s => match s with SNoLll => Some true | _ => None end) (o_nolll D o) ss)
    (final (fun s => match s with SBlock w => Some (text_int w) | _ => None end) (o_block D o) ss)
    (all_bits (o_flags D o) ss)
    (final (fun s => match s with SLoops w => Some (text_int w) | _ => None end) (o_loops D o) ss)
    (final (fun s => match s with SPruStart w => Some (Some (text_int w)) | _ => None end) (o_pstart D o) ss)
    (final (fun s => match s with SPruEnd w => Some (Some (text_int w)) | _ => None end) (o_pend D o) ss)
    (final (fun s => match s with SPruNodes w => Some (Some (atof w)) | _ => None end) (o_pnodes D o) ss)
    (final (fun s => match s with SPruProb w => Some (Some (atof w)) | _ => None end) (o_pprob D o) ss)
    (final (fun s => match s with STime w => Some (atof w) | _ => None end) (o_time D o) ss)
    (final (fun s => match s with SDump w => Some w | _ => None end) (o_dump D o) ss)
    (final (fun s => match s with SGh w => Some (atof w) | _ => None end) (o_gh D o) ss)
    (final (fun s => match s with SStrat w => Some w | _ => None end) (o_strat D o) ss)
    (final (fun s => match s with SVerbose => Some true | _ => None end) (o_verbose D o) ss)
    (final (fun s => match s with SFile w => Some (Some w) | _ => None end) (o_input D o) ss)
    (final (fun s => match s with SFormat w => Some (Some w) | _ => None end) (o_format D o) ss)
    (final (fun s => match s with STheta _ w => Some (atof w) | _ => None end) (o_theta D o) ss)
    (final (fun s => match s with SC _ w => Some (atof w) | _ => None end) (o_c D o) ss).
End Meaning.
