(** The program llldiff (fplll/llldiff.cpp main): command line, input, exit code. *)
From Coq Require Import Ascii String List ZArith Arith Bool.
From Verif Require Import Util MatrixModel MatStore IoModel.
From Verif Require CliModel.
Import ListNotations.
Local Open Scope list_scope.
Local Open Scope nat_scope.

(** what the loop over the arguments leaves to do (llldiff.cpp:83-104): the line printed by
    --help and exit code 0, the message about an option and exit code 1, or reading from argv[ac];
    argv[ac] is a null pointer at the end of the arguments (then the standard input is read) *)
Inductive todo := ShowHelp | BadOption (o : string) | Read (argv_ac : option string).

(** llldiff.cpp:83-104: the loop; [args] are the arguments from number ac on.  After -c or -r one
    more argument is skipped if there is one (lines 87-88). *)
Fixpoint parse (args : list string) : todo :=
  match args with
  | [] => Read None
  | a :: rest =>
    if String.eqb a "-c" || String.eqb a "-r" then
      match rest with [] => Read None | _ :: rest' => parse rest' end
    else if String.eqb a "--help" then ShowHelp
    else match a with
         | String "-" _ => BadOption a
         | _ => Read (Some a)
         end
  end.

(** matrix.cpp:163-203 Matrix::read from a stream that may have failed before ([None]): line 167
    "is >> ch" then fails again, after the rows have been cleared *)
Definition read_from (old : mat (T := Z)) (s : option text) : option (mat (T := Z) * option text) :=
  match s with None => Some (mkmat (mr old) (mc old) [], None) | Some t => mread old t end.

(** what the process leaves behind (llldiff.cpp:92-93, 97-98, 125, 128): exit code and message; [Undef]: access outside a
    matrix; [Stuck]: the fuel of a reading loop is used up (never, see PropLlldiff) *)
Inductive outcome := Exit (code : Z) (msg : option string) | Undef | Stuck.

(** llldiff.cpp:107-128: the stream, both matrices, the comparison.  [fs] is the content of the
    files that can be opened; an ifstream that cannot be opened has failbit set. *)
Definition compare (fs : string -> option text) (stdin : text) (src : option string) : outcome :=
  let is := match src with Some f => fs f | None => Some stdin end in
  match read_from mat_empty is with
  | None => Stuck
  | Some (mat1, is1) =>
    match read_from mat_empty is1 with
    | None => Stuck
    | Some (mat2, _) =>
      match CliModel.llldiff (ms mat1) (ms mat2) (mc mat1) (mr mat1) with
      | None => Undef
      | Some true => Exit 0 None
      | Some false => Exit 1 (Some "===INVALID RESULT==="%string)
      end
    end
  end.

(** llldiff.cpp:78-129: main; [args] are argv[1] ... argv[argc - 1], [name] is argv[0] *)
Definition main (name : string) (args : list string) (fs : string -> option text) (stdin : text) : outcome :=
  match parse args with
  | ShowHelp => Exit 0 (Some ("Usage: cat matrix1 matrix2 | " ++ name)%string)
  | BadOption o => Exit 1 (Some ("llldiff: invalid option '" ++ o ++ "'")%string)
  | Read src => compare fs stdin src
  end.
