(** The matrix generators of ZZ_mat<mpz_t> (fplll/nr/matrix.cpp:229-498,
    matrix.h:260-347).

    Random numbers: each call of randb/randm happens once for the entry (or the
    element of h) it is stored in, so the stream of random numbers is given as a
    function of that position; [draw n x] is the number in [0,n) that the
    generator delivers from the arbitrary value x.  Bounds checks: an access
    outside the storage is [GUb]. *)
From Coq Require Import List ZArith Lia Arith Bool.
From Verif Require Import Util MatrixModel MatStore.
Import ListNotations.
Local Open Scope nat_scope.

(** nr_Z_mpz.inl:201-209 randb(bits), 218-221 randm(max): a number in [0, n);
    the reseeding in randb only changes later numbers *)
Definition draw (n x : Z) : Z := (x mod n)%Z.

(** randm(max), nr_Z_mpz.inl:218-221: mpz_urandomm divides by zero for max = 0:
    [None]; a negative max is not used *)
Definition randm (max x : Z) : option Z := if (max <=? 0)%Z then None else Some (draw max x).

(** FPLLL_ABORT of an ill-formed matrix; undefined behaviour; the new matrix *)
Inductive gres := GAbort | GUb | GDone (m : mat (T := Z)).
(** the object with its rows replaced (matrix.cpp:229-498 change [matrix] only) *)
Definition gdone (m : mat (T := Z)) (M : option (list (list Z))) : gres :=
  match M with Some M' => GDone (mkmat (mr m) (mc m) M') | None => GUb end.

(** for (i = a; i < b; i++), the loops of matrix.cpp:229-523 *)
Definition gfor {S} (a b : nat) (f : nat -> S -> option S) (s : S) : option S := ofor (seq a (b - a)) f s.

Section Gen.
Variable rnd : nat -> nat -> Z.

(** matrix.cpp:229-250 gen_intrel *)
Definition gen_intrel (m : mat (T := Z)) (bits : nat) : gres :=
  if negb (mc m =? mr m + 1) then GAbort else
  gdone m (gfor 0 (mr m) (fun i M =>
    M1 <- mset M i 0 (draw (2 ^ Z.of_nat bits) (rnd i 0));;
    M2 <- gfor 1 (i + 1) (fun j M => mset M i j 0%Z) M1;;
    M3 <- mset M2 i (i + 1) 1%Z;;
    gfor (i + 2) (mc m) (fun j M => mset M i j 0%Z) M3) (ms m)).

(** matrix.cpp:252-274 gen_simdioph *)
Definition gen_simdioph (m : mat (T := Z)) (bits bits2 : nat) : gres :=
  if negb (mc m =? mr m) then GAbort else
  gdone m (
    M1 <- mset (ms m) 0 0 (2 ^ Z.of_nat bits2)%Z;;
    M2 <- gfor 1 (mr m) (fun i M => mset M 0 i (draw (2 ^ Z.of_nat bits) (rnd 0 i))) M1;;
    gfor 1 (mr m) (fun i M =>
      N1 <- gfor 1 i (fun j M => mset M j i 0%Z) M;;
      N2 <- mset N1 i i (2 ^ Z.of_nat bits)%Z;;
      gfor (i + 1) (mc m) (fun j M => mset M j i 0%Z) N2) M2).

(** matrix.cpp:276-286 gen_uniform *)
Definition gen_uniform (m : mat (T := Z)) (bits : nat) : gres :=
  if negb (mc m =? mr m) then GAbort else
  gdone m (gfor 0 (mr m) (fun i M => gfor 0 (mc m) (fun j M => mset M i j (draw (2 ^ Z.of_nat bits) (rnd i j))) M) (ms m)).

(** matrix.cpp:304-312 (367-375) the vector h; [rnd i 0] is the number drawn for
    h[i]; h[0] of an array of length 0 is out of bounds *)
Definition gen_h (d : nat) (q : Z) : option (list Z) :=
  match d with
  | 0 => None
  | S _ =>
    gfor 1 d (fun i h =>
      hi <- randm q (rnd i 0);;
      h1 <- (if i <? length h then Some (upd h i hi) else None);;
      h0 <- nth_error h1 0;;
      let x := (h0 - hi)%Z in
      Some (upd h1 0 (if (x <? 0)%Z then (x + q)%Z else x)))
      (repeat 0%Z d)
  end.

(** matrix.cpp:343-347 (395-399): while (k < 0) k += d; the fuel is enough for d > 0 *)
Fixpoint wrap (fuel : nat) (k d : Z) : option Z :=
  if (k <? 0)%Z then match fuel with 0 => None | S f => wrap f (k + d) d end else Some k.
(** h[k] after the loop (matrix.cpp:348, 400) *)
Definition hval (h : list Z) (k : Z) (d : nat) : option Z :=
  k' <- wrap (S (Z.to_nat (- k))) k (Z.of_nat d);; nth_error h (Z.to_nat k').

(** matrix.cpp:288-352 gen_ntrulike *)
Definition gen_ntrulike (m : mat (T := Z)) (q : Z) : gres :=
  let d := mr m / 2 in
  let r := mr m in let c := mc m in
  if negb (c =? r) || negb (c =? 2 * d) then GAbort else
  gdone m (
    h <- gen_h d q;;
    M1 <- gfor 0 d (fun i M =>
      N1 <- gfor 0 i (fun j M => mset M i j 0%Z) M;;
      N2 <- mset N1 i i 1%Z;;
      gfor (i + 1) d (fun j M => mset M i j 0%Z) N2) (ms m);;
    M2 <- gfor d r (fun i M => gfor 0 d (fun j M => mset M i j 0%Z) M) M1;;
    M3 <- gfor d r (fun i M =>
      N1 <- gfor d i (fun j M => mset M i j 0%Z) M;;
      N2 <- mset N1 i i q;;
      gfor (i + 1) c (fun j M => mset M i j 0%Z) N2) M2;;
    gfor 0 d (fun i M => gfor d c (fun j M =>
      x <- hval h (Z.of_nat j - Z.of_nat d - Z.of_nat i) d;; mset M i j x) M) M3).

(** matrix.cpp:354-405 gen_ntrulike2 *)
Definition gen_ntrulike2 (m : mat (T := Z)) (q : Z) : gres :=
  let d := mr m / 2 in
  let r := mr m in let c := mc m in
  if negb (c =? r) || negb (c =? 2 * d) then GAbort else
  gdone m (
    h <- gen_h d q;;
    M1 <- gfor 0 d (fun i M => gfor 0 c (fun j M => mset M i j 0%Z) M) (ms m);;
    M2 <- gfor 0 d (fun i M => mset M i i q) M1;;
    M3 <- gfor d r (fun i M => gfor d c (fun j M => mset M i j 0%Z) M) M2;;
    M4 <- gfor d c (fun i M => mset M i i 1%Z) M3;;
    gfor d r (fun i M => gfor 0 d (fun j M =>
      x <- hval h (Z.of_nat i - Z.of_nat d - Z.of_nat j) d;; mset M i j x) M) M4).

(** matrix.cpp:407-434 gen_qary; for k < 0 the test k > r passes and d - k
    exceeds the size *)
Definition gen_qary (m : mat (T := Z)) (k : Z) (q : Z) : gres :=
  let d := mr m in
  if negb (mc m =? mr m) || (Z.of_nat (mr m) <? k)%Z then GAbort else
  let dk := Z.to_nat (Z.of_nat d - k) in
  gdone m (
    M1 <- gfor 0 dk (fun i M => gfor 0 dk (fun j M => mset M i j 0%Z) M) (ms m);;
    M2 <- gfor 0 dk (fun i M => mset M i i 1%Z) M1;;
    M3 <- gfor 0 dk (fun i M => gfor dk d (fun j M => x <- randm q (rnd i j);; mset M i j x) M) M2;;
    M4 <- gfor dk d (fun i M => gfor 0 d (fun j M => mset M i j 0%Z) M) M3;;
    gfor dk d (fun i M => mset M i i q) M4).

(** one random sub-diagonal entry (matrix.cpp:462-466, 492-495): randm(max), then
    negated when the sign bit [sgn j i] is set *)
Variable sgn : nat -> nat -> bool.
(** matrix.cpp:462-466, 492-495 *)
Definition sub_entry (max : Z) (i j : nat) (M : list (list Z)) : option (list (list Z)) :=
  x <- randm max (rnd j i);;
  M1 <- mset M j i (if sgn j i then (0 - x)%Z else x);;
  mset M1 i j 0%Z.

(** matrix.cpp:436-469 gen_trg; [bits i] is (int)pow(2d - i, alpha).  The entry
    matrix[i][i] is read back by line 459 right after it was written. *)
Definition gen_trg (m : mat (T := Z)) (bits : nat -> nat) : gres :=
  let d := mr m in
  if negb (mc m =? mr m) then GAbort else
  gdone m (gfor 0 d (fun i M =>
    x <- randm (2 ^ Z.of_nat (bits i) - 1) (rnd i i);;
    let a := (x + 2)%Z in
    M1 <- mset M i i a;;
    gfor (i + 1) d (fun j M => sub_entry (a / 2) i j M) M1) (ms m)).

(** matrix.cpp:471-498 gen_trg2; [w i] is the integer set_f(w[i]) *)
Definition gen_trg2 (m : mat (T := Z)) (w : nat -> Z) : gres :=
  let d := mr m in
  if negb (mc m =? mr m) then GAbort else
  gdone m (gfor 0 d (fun i M =>
    M1 <- mset M i i (w i);;
    gfor (i + 1) d (fun j M => sub_entry (w i / 2 + 1) i j M) M1) (ms m)).

(** matrix.h:268-273 gen_identity after gen_zero (matrix.h:261-266) *)
Definition gen_identity (d0 : Z) (m : mat (T := Z)) (d : nat) : option (mat (T := Z)) :=
  m1 <- mzero d0 m d d 0%Z;;
  M <- gfor 0 d (fun i M => mset M i i 1%Z) (ms m1);;
  Some (mkmat (mr m1) (mc m1) M).

(** matrix.h:284-291 gen_q, bits >= 1 *)
Definition gen_q (bits : nat) (x : Z) : Z :=
  (draw (2 ^ Z.of_nat (bits - 1)) x + 2 ^ Z.of_nat (bits - 1))%Z.
End Gen.

(** ** convert (matrix.cpp:500-523) *)
(** undefined behaviour, or the returned value and Ato *)
Inductive cres := CUb | CRet (ok : bool) (m : mat (T := Z)).

(** the source type: mpz_t, or long with the value LONG_MIN whose abs overflows *)
Inductive zsrc := SrcMpz | SrcLong.
(** numeric_limits<long>::min(), 64 bits (matrix.cpp:507 uses the digits) *)
Definition LONG_MIN : Z := (- 2 ^ 63)%Z.

(** matrix.cpp:509-520 one entry: [inl] = return false *)
Definition conv_entry (src : zsrc) (A : list (list Z)) (thr : Z) (i j : nat) (s : bool * list (list Z)) : option (bool * list (list Z)) :=
  if fst s then
    x <- mget A i j;;
    if (match src with SrcMpz => false | SrcLong => (x =? LONG_MIN)%Z end) then None
    else if (thr <? Z.abs x)%Z then Some (false, snd s)
    else M <- mset (snd s) i j x;; Some (true, M)
  else Some s.

(** matrix.cpp:500-523; [fst s] = false after "return false" (the remaining
    iterations do nothing).  The shift count 63 - buffer - 1 must lie in 0..62.
    get_si is exact below the threshold (at most 2^62). *)
Definition convert (src : zsrc) (d0 : Z) (Ato A : mat (T := Z)) (buffer : Z) : cres :=
  let sh := (63 - buffer - 1)%Z in
  match mresize d0 (mclear Ato) (mr A) (mc A) with
  | None => CUb
  | Some m1 =>
    if ((sh <? 0) || (62 <? sh))%Z then CUb else
    match gfor 0 (mr A) (fun i s => gfor 0 (mc A) (fun j s => conv_entry src (ms A) (2 ^ sh)%Z i j s) s) (true, ms m1) with
    | None => CUb
    | Some (ok, M) => CRet ok (mkmat (mr m1) (mc m1) M)
    end
  end.
