(** Model of fplll/nr/numvect.h: vectors manipulated by element swaps. *)
From Coq Require Import List ZArith Lia Arith Bool.
From Verif Require Import Util.
Import ListNotations.
Local Open Scope nat_scope.

(** v[i].swap(v[j]); an index outside the vector is undefined behaviour ([None]).
    (numvect.h:37,48,62,72 - std::vector::operator[] followed by swap) *)
Definition oswap {A} (v : list A) (i j : nat) : option (list A) :=
  match nth_error v i, nth_error v j with
  | Some x, Some y => Some (upd (upd v i y) j x)
  | _, _ => None
  end.

(** numvect.h:34-38 reverse_by_swap.  The loop runs while first < last; [fuel]
    bounds the number of iterations ([None] when exhausted). *)
Fixpoint reverse_loop {A} (fuel : nat) (v : list A) (first last : nat) : option (list A) :=
  if first <? last then
    match fuel with
    | O => None
    | S f => match oswap v first last with
             | Some v' => reverse_loop f v' (S first) (last - 1)
             | None => None
             end
    end
  else Some v.

(** numvect.h:34-38 *)
Definition reverse_by_swap {A} (v : list A) (first last : nat) : option (list A) :=
  reverse_loop (S last) v first last.

(** numvect.h:46-49 middle loop of rotate_by_swap; returns the vector together
    with the final values of first and last. *)
Fixpoint rotate_swap_loop {A} (fuel : nat) (v : list A) (first middle last : nat)
  : option (list A * nat * nat) :=
  if (first <? middle) && (middle <=? last) then
    match fuel with
    | O => None
    | S f => match oswap v first last with
             | Some v' => rotate_swap_loop f v' (S first) middle (last - 1)
             | None => None
             end
    end
  else Some (v, first, last).

(** numvect.h:41-54 rotate_by_swap.  C++ indices are int; [middle - 1] is -1 when
    middle = 0, in which case the loop of reverse_by_swap is not entered; the
    truncated subtraction on nat gives the same (first = 0, last = 0). *)
Definition rotate_by_swap {A} (v : list A) (first middle last : nat) : option (list A) :=
  match reverse_by_swap v first (middle - 1) with
  | None => None
  | Some v1 =>
    match reverse_by_swap v1 middle last with
    | None => None
    | Some v2 =>
      match rotate_swap_loop (S last) v2 first middle last with
      | None => None
      | Some (v3, first', last') =>
        if first' =? middle then reverse_by_swap v3 middle last'
        else reverse_by_swap v3 first' (middle - 1)
      end
    end
  end.

(** numvect.h:57-64 rotate_left_by_swap: for (i = first; i < last; i++)
    v[i].swap(v[i+1]);  [n] is the remaining number of iterations. *)
Fixpoint rotate_left_loop {A} (n : nat) (v : list A) (i : nat) : option (list A) :=
  match n with
  | O => Some v
  | S n' => match oswap v i (S i) with
            | Some v' => rotate_left_loop n' v' (S i)
            | None => None
            end
  end.

(** numvect.h:57-64 *)
Definition rotate_left_by_swap {A} (v : list A) (first last : nat) : option (list A) :=
  rotate_left_loop (last - first) v first.

(** numvect.h:67-74 rotate_right_by_swap: for (i = last-1; i >= first; i--)
    v[i].swap(v[i+1]);  [n] remaining iterations, current i = first + n - 1. *)
Fixpoint rotate_right_loop {A} (n : nat) (v : list A) (first : nat) : option (list A) :=
  match n with
  | O => Some v
  | S n' => match oswap v (first + n') (S (first + n')) with
            | Some v' => rotate_right_loop n' v' first
            | None => None
            end
  end.

(** numvect.h:67-74 *)
Definition rotate_right_by_swap {A} (v : list A) (first last : nat) : option (list A) :=
  rotate_right_loop (last - first) v first.

(** numvect.h:361-369 is_zero(fromCol) *)
Definition nv_is_zero (v : list Z) (fromcol : nat) : bool :=
  forallb (fun x => Z.eqb x 0) (skipn fromcol v).

(** numvect.h:371-380 size_nz: index of the last non-zero entry plus one. *)
Fixpoint size_nz_loop (v : list Z) (i : nat) : nat :=
  match i with
  | O => O
  | S i' => if Z.eqb (nth i' v 0%Z) 0 then size_nz_loop v i' else i
  end.
(** numvect.h:371-380 *)
Definition size_nz (v : list Z) : nat := size_nz_loop v (length v).

(** numvect.h:268-273 add, 275-280 sub, 324-329 addmul_si, 312-322 addmul_2exp,
    331-341 addmul_si_2exp: for i = n-1 downto 0, data[i] += x * v[i].  All five
    are transcribed by the same loop with a different multiplier x (1, -1, x,
    x*2^expo).  Reading or writing outside either vector is undefined ([None]).
    [n] is the remaining number of iterations (the loop is entered with index
    n-1).  *)
Fixpoint nv_addmul (n : nat) (a v : list Z) (x : Z) : option (list Z) :=
  match n with
  | O => Some a
  | S i =>
    match nth_error a i, nth_error v i with
    | Some ai, Some vi => nv_addmul i (upd a i (ai + x * vi)%Z) v x
    | _, _ => None
    end
  end.

(** numvect.h:385-395 dot_product(result, v1, v2, beg, n): result = v1[beg]*v2[beg],
    then result += v1[i]*v2[i] for i in (beg, n).  Element [beg] is read
    unconditionally.  [k] remaining iterations at index i. *)
Fixpoint dot_loop (k i : nat) (acc : Z) (v1 v2 : list Z) : option Z :=
  match k with
  | O => Some acc
  | S k' =>
    match nth_error v1 i, nth_error v2 i with
    | Some x, Some y => dot_loop k' (S i) (acc + x * y)%Z v1 v2
    | _, _ => None
    end
  end.

(** numvect.h:385-395 *)
Definition nv_dot_product (v1 v2 : list Z) (beg n : nat) : option Z :=
  match nth_error v1 beg, nth_error v2 beg with
  | Some x, Some y => dot_loop (n - S beg) (S beg) (x * y)%Z v1 v2
  | _, _ => None
  end.
