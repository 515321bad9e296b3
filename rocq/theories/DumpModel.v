(** The file written by BKZ with the flag BKZ_DUMP_GSO: dump_gso (bkz.cpp:728-798)
    and the run of bkz() as far as it decides what is dumped and what is printed
    on the error stream (bkz.cpp:522-672).

    Simplifications.  The reductions themselves (tours, hkz, LLL) are answers
    given from outside: whether a tour is clean, throws, and which numbers are
    dumped after it.  The characters that the C++ library prints for a double
    are given by their parts (sign, digits before the point, digits after it,
    exponent), or it prints inf or nan.  The only failure of the file modelled is
    that it can not be opened; the lines on the error stream are events. *)
From Coq Require Import List ZArith Bool Ascii String.
From Verif Require Import IoModel.
Import ListNotations.
Local Notation length := List.length.
Local Open Scope list_scope.

(** a string constant (bkz.cpp:756-788) *)
Definition lit (s : string) : text := list_ascii_of_string s.
(** the character of a double quote (bkz.cpp:757-780) *)
Definition c_quote : ascii := ascii_of_nat 34.
(** string(n, ' ') (bkz.cpp:756-781) *)
Definition sp (n : nat) : text := repeat c_space n.

(** what operator<< prints for a double (bkz.cpp:759, 775): a number in decimal
    notation, or the words for the values that are not finite *)
Inductive dnum :=
| Fin (neg : bool) (ip : Z) (fs : list nat) (ex : option (bool * list nat))
| Inf (neg : bool)
| NaN (neg : bool).

(** the digits of a list (bkz.cpp:759, 775) *)
Definition digs (l : list nat) : text := map (fun d => ascii_of_nat (48 + d)) l.
(** the sign (bkz.cpp:759, 775) *)
Definition sgn (neg : bool) : text := if neg then [c_minus] else [].
(** operator<< for a double (bkz.cpp:759, 775) *)
Definition show_num (x : dnum) : text :=
  match x with
  | Fin neg ip fs ex =>
    sgn neg ++ show_z ip
    ++ (match fs with [] => [] | _ => lit "." ++ digs fs end)
    ++ (match ex with None => [] | Some (en, es) => lit "e" ++ lit (if en then "-" else "+") ++ digs es end)
  | Inf neg => sgn neg ++ lit "inf"
  | NaN neg => sgn neg ++ lit "nan"
  end.

(** the stringstream of bkz.cpp:769-777: every number is followed by ", " *)
Fixpoint norms_stream (l : list dnum) : text :=
  match l with [] => [] | x :: l' => show_num x ++ lit ", " ++ norms_stream l' end.
(** s.substr(0, s.size() - 2) (bkz.cpp:777, 780); size() - 2 is unsigned: for the
    empty string it is a huge number and substr gives the whole string *)
Definition cut2 (s : text) : text := if (length s <? 2)%nat then s else firstn (length s - 2) s.

(** what bkz.cpp:754-789 writes into the stream once it is open *)
Definition entry (step : string) (loop : Z) (time : dnum) (norms : list dnum) : text :=
  sp 8 ++ lit "{" ++ [c_nl]
  ++ sp 16 ++ [c_quote] ++ lit "step" ++ [c_quote] ++ lit ": " ++ [c_quote] ++ lit step ++ [c_quote] ++ lit "," ++ [c_nl]
  ++ sp 16 ++ [c_quote] ++ lit "loop" ++ [c_quote] ++ lit ": " ++ show_z loop ++ lit "," ++ [c_nl]
  ++ sp 16 ++ [c_quote] ++ lit "time" ++ [c_quote] ++ lit ": " ++ show_num time ++ lit "," ++ [c_nl]
  ++ sp 16 ++ [c_quote] ++ lit "norms" ++ [c_quote] ++ lit ": [" ++ cut2 (norms_stream norms) ++ lit "]" ++ [c_nl]
  ++ sp 8 ++ lit "}"
  ++ (if String.eqb step "Output" then [c_nl] ++ lit "]" else lit "," ++ [c_nl]).

(** dump_gso, bkz.cpp:728-798: with append the file is extended, otherwise
    replaced; None: the file can not be opened (exception) *)
Definition dump_gso (can_open : bool) (file : text) (append : bool) (step : string) (loop : Z) (time : dnum)
           (norms : list dnum) : option text :=
  if can_open then
    Some ((if append then file else lit "[" ++ [c_nl]) ++ entry step loop time norms)
  else None.

(** the parameters of bkz() (bkz_param.h:70-170, bkz.cpp:522-561) that matter here *)
Record dpar := mkdp {
  d_dump : bool;            (* BKZ_DUMP_GSO *)
  d_verbose : bool;         (* BKZ_VERBOSE *)
  d_sd : bool;              (* BKZ_SD_VARIANT *)
  d_sld : bool;             (* BKZ_SLD_RED *)
  d_loops : option Z;       (* BKZ_MAX_LOOPS and max_loops *)
  d_time : bool;            (* BKZ_MAX_TIME *)
  d_abort : bool;           (* BKZ_AUTO_ABORT *)
  d_bs : Z;                 (* block_size *)
  d_rows : Z                (* num_rows *)
}.

(** the answers of one tour (bkz.cpp:599-617): a RedStatus is thrown, another
    exception is thrown, or the tour ends (clean flag; numbers and time dumped) *)
Inductive tres := TThrow (status : Z) | TExc | TDone (clean : bool) (norms : list dnum) (time : dnum).
(** the answers at iteration i of the loop bkz.cpp:581-622: time limit reached,
    test_abort, the tour *)
Record iter := mkit { i_time : bool; i_abort : bool; i_tour : tres }.
(** the answers of the post processing (bkz.cpp:624-665) *)
Inductive pres := PThrow (status : Z) | PExc | PDone.

(** the lines written on the error stream (bkz.cpp:548-561, 368-371, 634, 658,
    716-722, 750; no code of the library throws a RedStatus, the handlers are modelled
    all the same) *)
Inductive event := EWarning | EEntering | ETour (i : Z) | EEnd (status : Z) | ECannotOpen.
(** how bkz() ends: return set_status(final_status) (bkz.cpp:671) or of
    bkz.cpp:542; return set_status(e) for a caught RedStatus (bkz.cpp:616, 639,
    663); an exception leaves bkz() *)
Inductive result := Ret (status : Z) | Early | Caught (status : Z) | Exc.
(** the state: the file, the lines on the error stream, the end *)
Record outc := mkout { o_file : text; o_err : list event; o_res : result }.

(** RED_SUCCESS, defs.h:155 *)
Definition red_success : Z := 0.
(** RED_BKZ_TIME_LIMIT, defs.h:162 *)
Definition red_time : Z := 7.
(** RED_BKZ_LOOPS_LIMIT, defs.h:163 *)
Definition red_loops : Z := 8.

(** set_status, bkz.cpp:713-724: the line on the error stream *)
Definition status_line (p : dpar) (s : Z) : list event := if d_verbose p then [EEnd s] else [].
(** the step written after a tour (bkz.cpp:375, 458, 510) *)
Definition tour_step (p : dpar) : string :=
  if d_sd p then "End of SD-BKZ loop" else if d_sld p then "End of SLD loop" else "End of BKZ loop".
(** flags after bkz.cpp:548-554: BKZ_AUTO_ABORT is added to SD-BKZ without limit *)
Definition forced_abort (p : dpar) : bool :=
  d_sd p && negb ((match d_loops p with Some _ => true | None => false end) || d_time p || d_abort p).

(** bkz.cpp:624-671: post processing, the last entry, the status *)
Definition finish (p : dpar) (can_open : bool) (i : Z) (post : pres) (norms : list dnum) (time : dnum)
           (file : text) (err : list event) (final : Z) : outc :=
  let last (err : list event) :=
    if d_dump p then
      match dump_gso can_open file true "Output" (-1) time norms with
      | Some f => mkout f (err ++ status_line p final) (Ret final)
      | None => mkout file (err ++ [ECannotOpen]) Exc
      end
    else mkout file (err ++ status_line p final) (Ret final) in
  if d_sd p || d_sld p then
    match post with
    | PThrow e => mkout file (err ++ status_line p e) (Caught e)
    | PExc => mkout file err Exc
    | PDone => last (err ++ (if d_dump p then [ETour i] else []))
    end
  else last err.

(** the loop bkz.cpp:581-622; None: the fuel is used up *)
Fixpoint loop (fuel : nat) (p : dpar) (can_open : bool) (o : nat -> iter) (post : pres) (outn : list dnum) (outt : dnum)
         (i : nat) (file : text) (err : list event) : option outc :=
  match fuel with
  | O => None
  | S fuel' =>
    let stop := finish p can_open (Z.of_nat i) post outn outt in
    if match d_loops p with Some m => (m <=? Z.of_nat i)%Z | None => false end
    then Some (stop file err red_loops)
    else if d_time p && i_time (o i) then Some (stop file err red_time)
    else if (d_abort p || forced_abort p) && i_abort (o i) then Some (stop file err red_success)
    else
      match i_tour (o i) with
      | TThrow e => Some (mkout file (err ++ status_line p e) (Caught e))
      | TExc => Some (mkout file err Exc)
      | TDone clean norms time =>
        let err' := err ++ (if d_verbose p then [ETour (Z.of_nat i)] else []) in
        let go (file' : text) :=
          if clean || (d_rows p <=? d_bs p)%Z then Some (stop file' err' red_success)
          else loop fuel' p can_open o post outn outt (S i) file' err' in
        if d_dump p then
          match dump_gso can_open file true (tour_step p) (Z.of_nat i) time norms with
          | Some f => go f
          | None => Some (mkout file (err' ++ [ECannotOpen]) Exc)
          end
        else go file
      end
  end.

(** bkz(), bkz.cpp:522-672; the number 0.0 of bkz.cpp:538 is printed as 0 *)
Definition bkz (fuel : nat) (p : dpar) (can_open : bool) (inn : list dnum) (o : nat -> iter) (post : pres)
           (outn : list dnum) (outt : dnum) (file : text) : option outc :=
  if d_sd p && d_sld p then Some (mkout file [] Exc)
  else
    let go (file : text) :=
      if (d_bs p <? 2)%Z then Some (mkout file (status_line p red_success) Early)
      else loop fuel p can_open o post outn outt 0 file
             ((if forced_abort p then [EWarning] else []) ++ (if d_verbose p then [EEntering] else [])) in
    if d_dump p then
      match dump_gso can_open file false "Input" (-1) (Fin false 0 [] None) inn with
      | Some f => go f
      | None => Some (mkout file [ECannotOpen] Exc)
      end
    else go file.
