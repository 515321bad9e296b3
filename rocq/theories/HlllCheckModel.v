(** Model of is_hlll_reduced (fplll/hlll.cpp:506-586) and of the second
    computation of the R-factor it uses, MatHouseholder::update_R_naively
    (fplll/householder.cpp:263-370), over the abstract operations of HouseModel.v.

    Simplifications: those of HouseModel.v; V_naively, which the constructor
    fills with NaN in debug builds (householder.h:141-151), holds an arbitrary value. *)
From Coq Require Import List ZArith Lia Arith Bool.
From Verif Require Import Util NumVectModel MatrixModel GsoModel GsoFModel HouseModel.
Import ListNotations.
Local Open Scope nat_scope.

Section Model.
Variable ho : hops.
Notation FT := (HF ho).
(** enable_row_expo (householder.h:71) *)
Variable en_e : bool.

(** householder.h:475-496: the members for the naive computation *)
Record nst := mkn {
  nR : list (list FT);      (* R_naively *)
  nV : list (list FT);      (* V_naively *)
  nsig : list FT;           (* sigma_naively *)
  nre : list Z              (* row_expo_naively *)
}.

(** householder.h:133-140: d x n, uninitialised; exponents 0 *)
Definition naive_new (junk : FT) (d n : nat) : nst :=
  mkn (repeat (repeat junk n) d) (repeat (repeat junk n) d) (repeat junk d) (repeat 0%Z d).

(** householder.cpp:271-291: row i of b in R_naively and its exponent; [e] is
    the exponent stored before *)
Definition naive_load (n : nat) (row : list Z) (e : Z) : option (list FT * Z) :=
  if length row <? n then None
  else if en_e then
    let fe := map (h_exp ho) (firstn n row) in
    let m := max_expo (map snd fe) in
    Some (map (fun p => h_mul2 ho (fst p) (snd p - m)) fe, m)
  else Some (map (h_ofZ ho) (firstn n row), e).

(** householder.cpp:293-304: the transformations of the rows before i *)
Definition naive_apply (n : nat) (s : nst) (i : nat) (r : list FT) : option (list FT) :=
  ofor (seq 0 i) (fun j r =>
    vj <- nth_error (nV s) j;; sj <- nth_error (nsig s) j;; apply_house ho n j vj sj r) r.

(** householder.cpp:306-367: R_naively[i], V_naively[i] and sigma_naively[i]
    from the row r = R_naively[i] *)
Definition naive_last (i n : nat) (r v : list FT) : option (list FT * list FT * FT) :=
  v <- rw2 i n (fun _ x => x) v r;;
  rii <- nth_error r i;;
  let sig := if h_lt0 ho rii then h_m1 ho else h_1 ho in
  d <- hdot ho r r i n;;
  let t2 := h_mul ho (h_sqrt ho d) sig in
  let t0 := h_add ho rii t2 in
  if h_ne0 ho t0 then
    t1 <- (if S i =? n then Some (h_0 ho) else hdot ho r r (S i) n);;
    if h_ne0 ho t1 then
      let vi := h_div ho (h_neg ho t1) t0 in
      let t2 := h_neg ho t2 in
      let t0 := h_sqrt ho (h_mul ho t2 vi) in
      let v1 := upd v i vi in
      v2 <- rw2 i n (fun x _ => h_div ho x t0) v1 v1;;
      r2 <- rw2 (S i) n (fun _ _ => h_0 ho) (upd r i (h_abs ho t2)) r;;
      Some (r2, v2, sig)
    else
      let r1 := if h_lt0 ho rii then upd r i (h_neg ho rii) else r in
      v2 <- rw2 i n (fun _ _ => h_0 ho) v v;;
      r2 <- rw2 (S i) n (fun _ _ => h_0 ho) r1 r1;;
      Some (r2, v2, sig)
  else
    v2 <- rw2 i n (fun _ _ => h_0 ho) v v;;
    r2 <- rw2 i n (fun _ _ => h_0 ho) r r;;
    Some (r2, v2, sig).

(** householder.cpp:263-370 update_R_naively(i) *)
Definition naive_row (b : list (list Z)) (n : nat) (s : nst) (i : nat) : option nst :=
  row <- nth_error b i;; e <- nth_error (nre s) i;; _ <- nth_error (nR s) i;;
  p <- naive_load n row e;;
  r <- naive_apply n s i (fst p);;
  v <- nth_error (nV s) i;; _ <- nth_error (nsig s) i;;
  q <- naive_last i n r v;;
  let '(r', v', sig) := q in
  Some (mkn (upd (nR s) i r') (upd (nV s) i v') (upd (nsig s) i sig) (upd (nre s) i (snd p))).

(** householder.h:632-636 update_R_naively() *)
Definition naive_all (b : list (list Z)) (n : nat) (s : nst) : option nst :=
  ofor (seq 0 (length b)) (fun i s => naive_row b n s i) s.

(** householder.h:638-644 get_R_naively *)
Definition get_naive (s : nst) (i j : nat) : option (FT * Z) :=
  f <- mget (nR s) i j;; e <- nth_error (nre s) i;; Some (f, e).

Variable P : hpar ho.

(** hlll.cpp:531-552: the size-reduction test of row j against row i *)
Definition check_size (s : nst) (j i : nat) : option bool :=
  p0 <- get_naive s j i;; p1 <- get_naive s j j;; p2 <- get_naive s i i;;
  let t0 := h_abs ho (fst p0) in
  let t1 := h_mul ho (fst p1) (p_theta ho P) in
  let t2 := h_mul2 ho (h_mul ho (fst p2) (p_eta ho P)) (snd p2 - snd p0) in
  Some (negb (h_gt ho t0 (h_add ho t1 t2))).

(** hlll.cpp:557-583: the Lovasz test of rows i-1 and i; the square of R(i, i-1)
    is not multiplied by a power of two *)
Definition check_lovasz (s : nst) (i : nat) : option bool :=
  p0 <- get_naive s (i - 1) (i - 1);; p1 <- get_naive s i (i - 1);; p2 <- get_naive s i i;;
  let t0 := h_mul ho (fst p0) (fst p0) in
  let t1 := h_mul ho (fst p1) (fst p1) in
  let t2 := h_mul ho (fst p2) (fst p2) in
  let e0 := (2 * snd p0)%Z in
  let e2 := (2 * snd p2)%Z in
  let t0 := h_mul ho t0 (p_delta ho P) in
  let t2 := h_mul2 ho t2 (e2 - e0) in
  Some (negb (h_gt ho t0 (h_add ho t1 t2))).

(** hlll.cpp:527-583: the two loops; a failed test returns at once *)
Definition check_all (d : nat) (s : nst) : option bool :=
  ok <- ofor (seq 0 d) (fun j ok =>
    ofor (seq 0 j) (fun i ok => if negb ok then Some false else check_size s j i) ok) true;;
  ofor (seq 1 (d - 1)) (fun i ok => if negb ok then Some false else check_lovasz s i) ok.

(** hlll.cpp:506-586 is_hlll_reduced: [Some true] is RED_SUCCESS, [Some false]
    RED_HLLL_FAILURE *)
Definition is_hlll_reduced (junk : FT) (b : list (list Z)) (n : nat) : option bool :=
  s <- naive_all b n (naive_new junk (length b) n);; check_all (length b) s.

End Model.
