(** Model of the program latticegen (fplll/latticegen.cpp): the command line and the call of
    the generator (GenModel.v).

    Arguments of the model, about which nothing is assumed: the streams of random numbers
    for every seed, mpz_set_str, mpz_nextprime, atof and pow, and the numbers read from the
    input.  Simplifications: memory is unlimited (only GMP's limit on a number of 2^64 - b bits
    is an outcome of its own); the streams of the numbers of one run do not depend on the
    method; of the output only the matrix printed is kept. *)
From Coq Require Import Ascii String List ZArith Lia Arith Bool.
From Verif Require Import Util MatrixModel MatStore GenModel.
From Verif Require CmdModel.
Import ListNotations.
Local Open Scope Z_scope.

(** what the program ends with *)
Inductive lres :=
| LHelp                       (* latticegen.cpp:60-64, status 0 *)
| LVersion                    (* latticegen.cpp:65-69, status 0 *)
| LFatal                      (* latticegen.cpp:49-54 fatal_error, status 1 *)
| LAbort                      (* FPLLL_ABORT of a generator *)
| LThrow                      (* new[] with a negative size: std::bad_array_new_length *)
| LHuge                       (* a negative number of bits, converted to unsigned long: GMP gives up *)
| LUb                         (* undefined behaviour *)
| LOver                       (* an argument beyond argc is read *)
| LDone (m : mat (T := Z)).   (* the matrix printed, status 0 *)

(** latticegen.cpp:70-84: the state of the random generator *)
Inductive seed := SDefault | STime | SSeed (n : Z).

(** atol (latticegen.cpp:81), [None]: not a long *)
Definition atol (s : string) : option Z :=
  let z := CmdModel.text_int s in if (- 2 ^ 63 <=? z) && (z <? 2 ^ 63) then Some z else None.
(** conversion long -> unsigned long of init_with_seed (nr_rand.inl:20-24) *)
Definition u64 (z : Z) : Z := z mod 2 ^ 64.
(** argv[i][0]; the character 0 for an empty argument *)
Definition first_char (s : string) : ascii := match s with String c _ => c | EmptyString => Ascii.zero end.
(** a value is an int (signed overflow is undefined) *)
Definition is_int (z : Z) : bool := (- 2 ^ 31 <=? z) && (z <? 2 ^ 31).

(** matrix.cpp:26-52 resize of the empty matrix with a non-positive number of rows: no row is
    stored *)
Definition fresh_mat (rows cols : Z) : option (mat (T := Z)) :=
  if (rows <=? 0) || (cols <=? 0) then Some mat_empty else mresize 0 mat_empty (Z.to_nat rows) (Z.to_nat cols).
(** the end of a generator *)
Definition out (g : gres) : lres := match g with GAbort => LAbort | GUb => LUb | GDone m => LDone m end.

Section Lat.
Variable D : Type.
(** atof; (int)pow((double)x, alpha), [None]: not representable *)
Variable atof : string -> D.
Variable powi : D -> Z -> option nat.
(** mpz_set_str(., s, 10), mpz_nextprime *)
Variable set_str : string -> option Z.
Variable nextprime : Z -> Z.
(** the random numbers for the entries, the one for q, the sign bits *)
Variable rnd : seed -> nat -> nat -> Z.
Variable rq : seed -> Z.
Variable sgn : seed -> nat -> nat -> bool.
(** the integer set_f(w[i]) for the i-th number of the input; mpfr_inp_str without a number
    leaves NaN or 0, which set_f makes 0 *)
Variable inp : nat -> Z.

(** atoi(argv[i]) *)
Definition num (args : list string) (i : nat) (k : Z -> lres) : lres :=
  match nth_error args i with
  | None => LOver
  | Some s => match CmdModel.atoi s with Some z => k z | None => LUb end
  end.
(** argv[i] *)
Definition arg (args : list string) (i : nat) (k : string -> lres) : lres :=
  match nth_error args i with None => LOver | Some s => k s end.
(** m.resize(rows, cols); int arithmetic *)
Definition resized (rows cols : Z) (k : mat (T := Z) -> lres) : lres :=
  if is_int rows && is_int cols then match fresh_mat rows cols with Some m => k m | None => LUb end else LUb.

(** matrix.h:284-291 gen_q and 300-305, 315-320, 327-332: the q of 'b' bits, b >= 1 *)
Definition q_of_bits (s : seed) (b : Z) : Z := gen_q (Z.to_nat b) (rq s).
(** latticegen.cpp:131-155 = 164-188 (and 198-230 with [p] = true): the q of the methods
    n, N and q; [sb] is the parameter b, [c] the character *)
Definition the_q (p : bool) (s : seed) (c : ascii) (sb : string) (k : Z -> lres) : lres :=
  if Ascii.eqb c "b" then
    match CmdModel.atoi sb with None => LUb | Some b => if b <=? 0 then LFatal else k (q_of_bits s b) end
  else if Ascii.eqb c "q" then
    match set_str sb with None => LFatal | Some q => if q <=? 0 then LFatal else k q end
  else if p && Ascii.eqb c "p" then
    match CmdModel.atoi sb with None => LUb | Some b => if b <=? 0 then LFatal else k (nextprime (q_of_bits s b)) end
  else LFatal.

(** matrix.cpp:252-274 gen_simdioph with any int: mul_2si by a negative number of bits shifts 1
    to the right (nr_Z_mpz.inl:152-158); matrix[0][0] is written by lines 261-262 only *)
Definition simdioph (s : seed) (m : mat (T := Z)) (b b2 : Z) : lres :=
  if (2 <=? mr m)%nat && (b <? 0) then LHuge
  else match gen_simdioph (rnd s) m (Z.to_nat b) (Z.to_nat b2) with
       | GDone m' => if b2 <? 0 then match mset (ms m') 0 0 0 with Some M => LDone (mkmat (mr m') (mc m') M) | None => LUb end else LDone m'
       | g => out g
       end.
(** matrix.cpp:288-352, 354-405 for any int d: a negative length of the new array throws *)
Definition ntru (g : mat (T := Z) -> Z -> gres) (d : Z) (m : mat (T := Z)) (q : Z) : lres :=
  if d <? 0 then LThrow else out (g m q).
(** matrix.cpp:407-434 gen_qary for a matrix of d rows, d any int; d - k must be an int *)
Definition qary (s : seed) (d k : Z) (m : mat (T := Z)) (q : Z) : lres :=
  if 0 <=? d then if negb (is_int (d - k)) then LUb else out (gen_qary (rnd s) m k q)
  else if d <? k then LAbort else if is_int (d - k) && (d - k <=? 0) then LDone m else LUb.
(** matrix.cpp:436-469 gen_trg with alpha; 2 * d must be an int *)
Definition trg (s : seed) (m : mat (T := Z)) (alpha : D) : lres :=
  let d := mr m in
  let bits i := powi alpha (2 * Z.of_nat d - Z.of_nat i) in
  if forallb (fun i => match bits i with Some _ => true | None => false end) (seq 0 d) && is_int (2 * Z.of_nat d)
  then out (gen_trg (rnd s) (sgn s) m (fun i => match bits i with Some b => b | None => 0%nat end))
  else LUb.

(** latticegen.cpp:95-263 the switch; [args] are the arguments from argv[iArg] on, after
    iArg += 2 *)
Definition generate (s : seed) (meth : ascii) (d : Z) (args : list string) : lres :=
  let few n := (length args <? n)%nat in
  if Ascii.eqb meth "r" then
    if few 1%nat then LFatal
    else num args 0 (fun b => resized d (d + 1) (fun m =>
           if (1 <=? d) && (b <? 0) then LHuge
           else if d <? 0 then LDone m else if d =? 0 then LDone m else out (gen_intrel (rnd s) m (Z.to_nat b))))
  else if Ascii.eqb meth "s" then
    if few 2%nat then LFatal
    else num args 0 (fun b => num args 1 (fun b2 => resized (d + 1) (d + 1) (fun m => simdioph s m b b2)))
  else if Ascii.eqb meth "u" then
    if few 1%nat then LFatal
    else num args 0 (fun b => resized d d (fun m => if (1 <=? d) && (b <? 0) then LHuge else out (gen_uniform (rnd s) m (Z.to_nat b))))
  else if Ascii.eqb meth "n" then
    if few 2%nat then LFatal
    else arg args 1 (fun c => resized (2 * d) (2 * d) (fun m => arg args 0 (fun sb =>
           the_q false s (first_char c) sb (ntru (gen_ntrulike (rnd s)) d m))))
  else if Ascii.eqb meth "N" then
    if few 2%nat then LFatal
    else arg args 1 (fun c => resized (2 * d) (2 * d) (fun m => arg args 0 (fun sb =>
           the_q false s (first_char c) sb (ntru (gen_ntrulike2 (rnd s)) d m))))
  else if Ascii.eqb meth "q" then
    if few 3%nat then LFatal
    else num args 0 (fun k => arg args 2 (fun c => resized d d (fun m => arg args 1 (fun sb =>
           the_q true s (first_char c) sb (qary s d k m)))))
  else if Ascii.eqb meth "t" then
    if few 1%nat then LFatal
    else arg args 0 (fun f => resized d d (fun m => trg s m (atof f)))
  else if Ascii.eqb meth "T" then
    if d <? 0 then LThrow else resized d d (fun m => out (gen_trg2 (rnd s) (sgn s) m inp))
  else LFatal.

(** latticegen.cpp:86-90; [args] from argv[iArg] on *)
Definition from_method (s : seed) (args : list string) : lres :=
  if (length args <? 2)%nat then LFatal
  else arg args 0 (fun m => num args 1 (fun d => generate s (first_char m) d (skipn 2 args))).

(** latticegen.cpp:56-266 main; [args] = argv[1..argc-1] *)
Definition latticegen (args : list string) : lres :=
  match args with
  | [] => LHelp
  | a :: rest =>
      if String.eqb a "--help" then LHelp
      else if String.eqb a "--version" then LVersion
      else if String.eqb a "-randseed" then
        match rest with
        | [] => LFatal
        | x :: rest =>
            if String.eqb x "time" then from_method STime rest
            else match atol x with None => LUb | Some z => from_method (SSeed (u64 z)) rest end
        end
      else from_method SDefault args
  end.
End Lat.
