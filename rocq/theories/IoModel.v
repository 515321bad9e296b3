(** Text output and input of matrices of Z_NR<mpz_t> (fplll/nr/matrix.cpp,
    numvect.h, nr_Z_mpz.inl).

    A stream that is still good is the list of characters left in it; a stream
    with failbit set is [None] (every later extraction fails).  putback puts the
    character just extracted back, so it is modelled by not removing it. *)
From Coq Require Import List ZArith Lia Arith Bool Ascii.
From Verif Require Import Util MatrixModel MatStore.
Import ListNotations.
Local Open Scope nat_scope.

(** characters of a stream (the argument is/os of matrix.cpp:136,163) *)
Definition text := list ascii.
(** the character '[' of matrix.cpp:136-225 *) Definition c_open : ascii := "[".
(** the character ']' of matrix.cpp:136-225 *) Definition c_close : ascii := "]".
(** the character '-' of matrix.cpp:136-225 *) Definition c_minus : ascii := "-".
(** the character ' ' of matrix.cpp:136-225 *) Definition c_space : ascii := " ".
(** the character ',' of matrix.cpp:136-225 *) Definition c_comma : ascii := ",".
(** the character '\n' of matrix.cpp:136-225 *) Definition c_nl : ascii := ascii_of_nat 10.

(** isspace in the "C" locale, used by [is >> ch] with skipws *)
Definition is_blank (c : ascii) : bool := let n := nat_of_ascii c in (n =? 32) || ((9 <=? n) && (n <=? 13)).
(** c >= '0' && c <= '9' (nr_Z_mpz.inl:260,269) *)
Definition is_digit (c : ascii) : bool := let n := nat_of_ascii c in (48 <=? n) && (n <=? 57).
(** value of a digit, mpz_set_str (nr_Z_mpz.inl:41-44, 278) *)
Definition digit_val (c : ascii) : Z := Z.of_nat (nat_of_ascii c - 48).

(** [is >> ch]: skips white space; fails at the end of the stream *)
Fixpoint getc (s : text) : option (ascii * text) :=
  match s with
  | [] => None
  | c :: s' => if is_blank c then getc s' else Some (c, s')
  end.

(** mpz_set_str(data, s, 10) on a string of digits (nr_Z_mpz.inl:41-44, 278) *)
Definition dec_val (ds : text) : Z := fold_left (fun a c => (10 * a + digit_val c)%Z) ds 0%Z.

(** nr_Z_mpz.inl:266-276 the do-while loop after its first character: at the end
    of the stream is.get sets failbit and line 271 returns *)
Fixpoint get_digits (s : text) (acc : text) : option (text * text) :=
  match s with
  | [] => None
  | c :: s' => if is_digit c then get_digits s' (acc ++ [c]) else Some (acc, s)
  end.

(** nr_Z_mpz.inl:246-283 operator>>; set_str cannot fail on the strings built here *)
Definition read_z (s : text) : option (Z * text) :=
  cs <- getc s;;
  let '(c, s1) := cs in
  let neg := Ascii.eqb c c_minus in
  cs2 <- (if neg then getc s1 else Some (c, s1));;
  let '(d, s2) := cs2 in
  if is_digit d then
    ds <- get_digits s2 [d];;
    Some ((if neg then - dec_val (fst ds) else dec_val (fst ds))%Z, snd ds)
  else None.

(** outcome of a reading loop: [NoFuel] is not an outcome of the program *)
Inductive res (A : Type) := NoFuel | Fail | Got (a : A) (rest : text).
Arguments NoFuel {A}. Arguments Fail {A}. Arguments Got {A}.

(** numvect.h:103-112 the loop of operator>> for vectors *)
Fixpoint vec_loop (fuel : nat) (s : text) (v : list Z) : res (list Z) :=
  match fuel with
  | 0 => NoFuel
  | S f =>
    match getc s with
    | None => Fail
    | Some (c, s1) =>
      if Ascii.eqb c c_close then Got v s1
      else match read_z (c :: s1) with
           | None => Fail
           | Some (z, s2) => vec_loop f s2 (v ++ [z])
           end
    end
  end.

(** numvect.h:92-114, 418 operator>> for NumVect *)
Definition read_vec (s : text) : res (list Z) :=
  match getc s with
  | None => Fail
  | Some (c, s1) => if Ascii.eqb c c_open then vec_loop (S (length s1)) s1 [] else Fail
  end.

(** matrix.cpp:174-183 the loop of Matrix::read: the rows read so far and the
    stream afterwards ([None] inside [Some] when it failed); outer [None]: no fuel *)
Fixpoint row_loop (fuel : nat) (s : text) (M : list (list Z)) : option (list (list Z) * option text) :=
  match fuel with
  | 0 => None
  | S f =>
    match getc s with
    | None => Some (M, None)
    | Some (c, s1) =>
      if Ascii.eqb c c_close then Some (M, Some s1)
      else match read_vec (c :: s1) with
           | NoFuel => None
           | Fail => Some (M, None)
           | Got v s2 => row_loop f s2 (M ++ [v])
           end
    end
  end.

(** matrix.cpp:186-202 the dimensions, and short rows filled with zeros *)
Definition max_len (M : list (list Z)) : nat := fold_left (fun c row => Nat.max c (length row)) M 0.
(** matrix.cpp:191-202: one row resized to c, new entries zero *)
Definition pad (c : nat) (row : list Z) : list Z := row ++ repeat 0%Z (c - length row).
(** matrix.cpp:185-202: the object after the loop *)
Definition finish (M : list (list Z)) : mat (T := Z) :=
  mkmat (length M) (max_len M) (map (pad (max_len M)) M).

(** matrix.cpp:163-203 Matrix::read into an existing object; lines 166-173: the
    rows are cleared before anything is read, r and c only at the end *)
Definition mread (old : mat (T := Z)) (s : text) : option (mat (T := Z) * option text) :=
  match getc s with
  | None => Some (mkmat (mr old) (mc old) [], None)
  | Some (c, s1) =>
    if Ascii.eqb c c_open then
      o <- row_loop (S (length s1)) s1 [];; Some (finish (fst o), snd o)
    else Some (mkmat (mr old) (mc old) [], None)
  end.

(** ** Output *)

(** the character of a digit (mpz_get_str, nr_Z_mpz.inl:240) *)
Definition digit_chr (d : Z) : ascii := ascii_of_nat (48 + Z.to_nat d).
(** decimal digits of n >= 0, most significant first (mpz_get_str,
    nr_Z_mpz.inl:240) *)
Fixpoint dec_digits (fuel : nat) (n : Z) : text :=
  match fuel with
  | 0 => []
  | S f => if (n <? 10)%Z then [digit_chr n] else dec_digits f (n / 10)%Z ++ [digit_chr (n mod 10)%Z]
  end.
(** nr_Z_mpz.inl:236-244 operator<<: sign and decimal digits; the fuel is the
    number of bits *)
Definition show_z (z : Z) : text :=
  (if (z <? 0)%Z then [c_minus] else []) ++ dec_digits (S (Z.to_nat (Z.log2 (Z.abs z)))) (Z.abs z).

(** matrix.h:27-28 *)
Inductive pmode := Compact | Regular.

(** the loop of matrix.cpp:148-153 *)
Fixpoint print_row (M : list (list Z)) (i : nat) (js : list nat) : option text :=
  match js with
  | [] => Some []
  | j :: js' =>
    x <- mget M i j;; rest <- print_row M i js';;
    Some ((if 0 <? j then [c_space] else []) ++ show_z x ++ rest)
  end.
(** the loop of matrix.cpp:143-157 *)
Fixpoint print_rows (mode : pmode) (M : list (list Z)) (ncols : nat) (is : list nat) : option text :=
  match is with
  | [] => Some []
  | i :: is' =>
    row <- print_row M i (seq 0 ncols);; rest <- print_rows mode M ncols is';;
    Some ((if 0 <? i then [c_nl] else []) ++ [c_open] ++ row ++
          (match mode with Regular => if 0 <? ncols then [c_space] else [] | Compact => [] end) ++
          [c_close] ++ rest)
  end.
(** matrix.cpp:138-141 *)
Definition clip (n : Z) (d : nat) : nat := if ((n <? 0) || (Z.of_nat d <? n))%Z then d else Z.to_nat n.
(** matrix.cpp:136-161 Matrix::print *)
Definition mprint (mode : pmode) (m : mat (T := Z)) (nrows ncols : Z) : option text :=
  let nr := clip nrows (mr m) in
  let nc := clip ncols (mc m) in
  body <- print_rows mode (ms m) nc (seq 0 nr);;
  Some ([c_open] ++ body ++ (match mode with Regular => if 0 <? nr then [c_nl] else [] | Compact => [] end) ++ [c_close]).

(** one row of print_comma (matrix.cpp:211-215, 218-222); the index c - 1 (r - 1) is -1 when c (r) is
    0: out of bounds, [None] *)
Definition comma_row (M : list (list Z)) (i c : nat) : option text :=
  match c with
  | 0 => None
  | S c' =>
    pre <- ofor (seq 0 c') (fun j t => x <- mget M i j;; Some (t ++ show_z x ++ [c_comma; c_space])) [];;
    x <- mget M i c';; Some (pre ++ show_z x)
  end.
(** matrix.cpp:205-225 print_comma *)
Definition print_comma (m : mat (T := Z)) : option text :=
  match mr m with
  | 0 => None
  | S r' =>
    pre <- ofor (seq 0 r') (fun i t => row <- comma_row (ms m) i (mc m);;
                              Some (t ++ [c_open] ++ row ++ [c_close; c_comma; c_nl])) [c_open];;
    last <- comma_row (ms m) r' (mc m);;
    Some (pre ++ [c_open] ++ last ++ [c_close; c_close; c_nl])
  end.
