(** Command-line tools: llldiff.cpp and main.cpp svpcvp. *)
From Coq Require Import Ascii String List ZArith Arith Bool.
From Verif Require Import Util MatrixModel GsoModel LllModel WrapperModel.
Import ListNotations.
Local Open Scope nat_scope.

(** ** llldiff *)
(** llldiff.cpp:46-56 (sg == 1) and 57-68 (otherwise): the remaining columns of row i; mul_si(-1) and cmp *)
Definition diff_tail (sg : Z) (B1 B2 : list (list Z)) (c i : nat) (test : bool) : option bool :=
  ofor (seq 1 (c - 1)) (fun j t =>
    a <- mget B1 i j;; b <- mget B2 i j;;
    Some (if (sg =? 1)%Z then (if (a =? b)%Z then t else false) else (if (a * -1 =? b)%Z then t else false))) test.
(** llldiff.cpp:33-68: row i; tmp1 = |B1(i,0)|, tmp2 = |B2(i,0)| *)
Definition diff_row (B1 B2 : list (list Z)) (c i : nat) (test : bool) : option bool :=
  x <- mget B1 i 0;; y <- mget B2 i 0;;
  let test1 := if (Z.abs x =? Z.abs y)%Z then test else false in
  let sg1 := if (Z.abs x =? x)%Z then 1%Z else (1 * -1)%Z in
  let sg2 := if (Z.abs x =? y)%Z then sg1 else (sg1 * -1)%Z in
  diff_tail sg2 B1 B2 c i test1.
(** llldiff.cpp:25-72; [None]: access outside a matrix, undefined *)
Definition llldiff (B1 B2 : list (list Z)) (c r : nat) : option bool := ofor (seq 0 r) (diff_row B1 B2 c) true.
(** matrix.h get_cols; a matrix keeps its number of columns in a field, [cols] *)
Record mat := mkmat { m_rows : list (list Z); m_cols : nat }.
(** llldiff.cpp:118-128: main after reading; exit code 0 or 1 *)
Definition llldiff_main (m1 m2 : mat) : option Z :=
  t <- llldiff (m_rows m1) (m_rows m2) (m_cols m1) (length (m_rows m1));;
  Some (if t : bool then 0%Z else 1%Z).

(** ** vector_matrix_product *)
(** util.h:40-49: [None] when the FPLLL_CHECK on the dimensions aborts; m has n columns *)
Definition vector_matrix_product (n : nat) (x : list Z) (m : list (list Z)) : option (list Z) :=
  if length x =? length m then
    Some (map (fun j => fold_left (fun a i => (a + nth i x 0 * nth j (nth i m []) 0)%Z) (seq 0 (length m)) 0%Z) (seq 0 n))
  else None.

(** ** svpcvp *)
(** one printed item (main.cpp:300-317): a vector, the status, or an empty line *)
Inductive cli_item := OutVec (v : list Z) | OutStatus (z : Z) | OutBlank.
(** Results of main.cpp:242-319.  CliAbort: FPLLL_CHECK failed (message, exit).  CliUndef: undefined behaviour.  CliStop: the LLL does not return.
    CliRet: returned status and what was printed. *)
Inductive cli_res := CliAbort | CliUndef | CliStop | CliFail | CliRet (out : list cli_item).

(** strchr(format, c) != NULL, main.cpp:249-250 *)
Fixpoint has_char (c : ascii) (s : string) : bool :=
  match s with EmptyString => false | String a t => Ascii.eqb a c || has_char c t end.
(** main.cpp:300-317 *)
Fixpoint cli_print (format : string) (coord2 sol : list Z) : list cli_item :=
  match format with
  | EmptyString => []
  | String a t =>
      if Ascii.eqb a "c" then OutVec coord2 :: cli_print t coord2 sol
      else if Ascii.eqb a "s" then OutVec sol :: cli_print t coord2 sol
      else if Ascii.eqb a "t" then OutStatus 0 :: cli_print t coord2 sol
      else if Ascii.eqb a " " then OutBlank :: cli_print t coord2 sol
      else cli_print t coord2 sol
  end.

(** main.cpp:242-319 on a basis with n columns.  [lll b u]: lll_reduction(b, u, ...) with LM_WRAPPER on line 259, and on line
    263 with an empty matrix; [solve b]: shortest_vector or closest_vector (272-281), [None] when its status is not
    RED_SUCCESS; the matrix u is default constructed (248), hence empty. *)
Definition svpcvp (lll : list (list Z) -> list (list Z) -> option (list (list Z) * list (list Z) * zres))
    (solve : list (list Z) -> option (list Z)) (n : nat) (no_lll : bool) (format : option string) (b : list (list Z)) : cli_res :=
  let format := match format with Some s => s | None => "s"%string end in
  let with_coord := has_char "c" format in
  let with_coord_std := has_char "s" format in
  let rest b' u' :=
    match solve b' with
    | None => CliFail
    | Some x =>
        match (if with_coord then (if no_lll then Some x else vector_matrix_product (length b) x u') else Some []) with
        | None => CliAbort
        | Some coord2 =>
            match (if with_coord_std then vector_matrix_product n x b' else Some []) with
            | None => CliAbort
            | Some sol => CliRet (cli_print format coord2 sol)
            end
        end
    end in
  if no_lll then rest b []
  else match lll b [] with
       | None => CliUndef
       | Some (b', u', ZStatus RED_SUCCESS) => rest b' u'
       | Some (_, _, ZStatus _) => CliFail
       | Some (_, _, ZAbort) => CliAbort
       | Some (_, _, ZStop _) => CliStop
       end.

Section Cli.
Variable envs : wcall -> nat -> env.
Variable little : Z -> Z -> bool.
Variable good_prec : Z.
Variable lg : nat -> nat -> Z.
Variable fuel : nat.
Variables (early siegel : bool) (zlong wld wqd wdpe : bool).
Variable ld_digits : Z.
Variable n : nat.
(** wrapper.cpp:1015-1023 lll_reduction(b, u, delta, eta, LM_WRAPPER, FT_DEFAULT, 0, flags) *)
Definition lll_reduction_u (k : nat) (b u : list (list Z)) : option (list (list Z) * list (list Z) * zres) :=
  let u1 := if emptyb u then u else gen_identity (length b) in
  r <- lll_reduction_z envs little good_prec lg fuel early siegel zlong wld wqd wdpe ld_digits n k None None 0 b u1 [];;
  let '(b', u', _, x) := r in Some (b', u', x).
End Cli.
