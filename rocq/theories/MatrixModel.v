(** Model of the parts of fplll/nr/matrix.{h,cpp} that act on entries and rows
    of an allocated matrix.  A matrix is the list of its rows; access outside
    the allocated rows/columns is undefined behaviour and yields [None]. *)
From Coq Require Import List ZArith Lia Arith Bool.
From Verif Require Import Util NumVectModel.
Import ListNotations.
Local Open Scope nat_scope.

(** sequencing: undefined behaviour ends the run *)
Definition obind {A B} (o : option A) (f : A -> option B) : option B :=
  match o with Some a => f a | None => None end.
Notation "x <- e ;; k" := (obind e (fun x => k))
  (at level 61, e at next level, right associativity).

(** "for (k in l) s = f(k, s)" where the body may be undefined. *)
Fixpoint ofor {S} (l : list nat) (f : nat -> S -> option S) (s : S) : option S :=
  match l with
  | [] => Some s
  | k :: l' => s' <- f k s;; ofor l' f s'
  end.

(** matrix.h:158-168 operator()(i,j): read *)
Definition mget {A} (M : list (list A)) (i j : nat) : option A :=
  row <- nth_error M i;; nth_error row j.

(** matrix.h:158-162 operator()(i,j): write *)
Definition mset {A} (M : list (list A)) (i j : nat) (x : A) : option (list (list A)) :=
  row <- nth_error M i;; _ <- nth_error row j;; Some (upd M i (upd row j x)).

(** matrix[i][j].swap(matrix[k][l]) *)
Definition mswap {A} (M : list (list A)) (i j k l : nat) : option (list (list A)) :=
  x <- mget M i j;; y <- mget M k l;; M1 <- mset M i j y;; mset M1 k l x.

(** row-wise rotation: matrix[i].rotate_left(first, last) (numvect.h:244) *)
Definition mrow_rotate_left {A} (M : list (list A)) (i first last : nat) :=
  row <- nth_error M i;; row' <- rotate_left_by_swap row first last;; Some (upd M i row').
(** matrix[i].rotate_right(first, last) (numvect.h:247) *)
Definition mrow_rotate_right {A} (M : list (list A)) (i first last : nat) :=
  row <- nth_error M i;; row' <- rotate_right_by_swap row first last;; Some (upd M i row').

(** matrix.cpp:65-78 rotate_gram_left *)
Definition rotate_gram_left {A} (M : list (list A)) (first last n_valid : nat)
  : option (list (list A)) :=
  M1 <- mswap M first first first last;;
  M2 <- ofor (seq first (last - first)) (fun i M => mswap M (S i) first first i) M1;;
  M3 <- ofor (seq first (n_valid - first))
             (fun i M => mrow_rotate_left M i first (Nat.min last i)) M2;;
  rotate_left_by_swap M3 first last.

(** matrix.cpp:80-93 rotate_gram_right *)
Definition rotate_gram_right {A} (M : list (list A)) (first last n_valid : nat)
  : option (list (list A)) :=
  M1 <- rotate_right_by_swap M first last;;
  M2 <- ofor (seq first (n_valid - first))
             (fun i M => mrow_rotate_right M i first (Nat.min last i)) M1;;
  M3 <- ofor (seq first (last - first)) (fun i M => mswap M (S i) first first i) M2;;
  mswap M3 first first first last.

(** b[i].addmul(b[j], x, n): NumVect operation on rows i and j (matrix.h:51-77) *)
Definition mrow_addmul (M : list (list Z)) (i j : nat) (x : Z) (n : nat)
  : option (list (list Z)) :=
  ri <- nth_error M i;; rj <- nth_error M j;;
  ri' <- nv_addmul n ri rj x;; Some (upd M i ri').

(** Same with n = size() of row i (overloads without n, matrix.h:51,53,60-67). *)
Definition mrow_addmul_full (M : list (list Z)) (i j : nat) (x : Z)
  : option (list (list Z)) :=
  ri <- nth_error M i;; mrow_addmul M i j x (length ri).

(** gso_interface.h:664-672 sym_g: the entry (i,j) of a symmetric matrix stored
    in its lower triangle. *)
Definition sym_get {A} (M : list (list A)) (i j : nat) : option A :=
  if j <=? i then mget M i j else mget M j i.
(** gso_interface.h:664-672, assignment through the returned reference *)
Definition sym_set {A} (M : list (list A)) (i j : nat) (x : A) : option (list (list A)) :=
  if j <=? i then mset M i j x else mset M j i x.
