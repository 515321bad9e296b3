(** Model of MatHouseholder (fplll/householder.{h,cpp}): the R-factor of the
    basis by Householder transformations, and of HLLLReduction
    (fplll/hlll.{h,cpp}).

    The floating-point type is abstract ([hops]): every theorem quantifies over
    it or names the instance it uses.  The integer members b, u, u_inv_t,
    n_known_cols, init_row_size, row_op_force_long are those of MatGSO, and the
    row operations (householder.cpp:453-520) are line by line those of gso.cpp
    without an integer Gram matrix, so the record [gz] and the operations of
    GsoModel.v are used with enable_int_gram = false.

    Preprocessor: the default build (HOUSEHOLDER_PRECOMPUTE_INVERSE,
    HOUSEHOLDER_USE_SIZE_REDUCTION_TEST, HOUSEHOLDER_VERIFY_SIZE_REDUCTION_HPLLL,
    MODIFIED_LOVASZ_TEST and DEBUG undefined).

    Simplifications: ZT is unbounded Z; differences of exponents (type long) do
    not overflow; verbose output is dropped; the entries of a row range are
    written in increasing order (the code writes them in decreasing order, each
    entry depends only on the entries at the same index). *)
From Coq Require Import List ZArith Lia Arith Bool.
From Verif Require Import Util NumVectModel MatrixModel GsoModel GsoFModel.
Import ListNotations.
Local Open Scope nat_scope.

(** FP_NR operations used (nr/nr_FP.inl): set_z, get_f_exp, mul_2si, mul, add,
    sub, div, neg, sqrt, abs, addmul, assignment from the constants 0.0, 1.0,
    -1.0, 0.1; cmp(0.0) < 0, cmp(0.0) != 0, sgn() != 0, cmp(1.0) == 0,
    cmp(-1.0) == 0, cmp(x) > 0, cmp(x) <= 0; rnd_we, get_si_exp_we,
    get_z_exp_we.  Comparisons are arbitrary, so NaN is included. *)
Record hops := mkhops {
  HF : Type;
  h_ofZ : Z -> HF;
  h_exp : Z -> HF * Z;
  h_mul2 : HF -> Z -> HF;
  h_mul : HF -> HF -> HF;
  h_add : HF -> HF -> HF;
  h_sub : HF -> HF -> HF;
  h_div : HF -> HF -> HF;
  h_neg : HF -> HF;
  h_sqrt : HF -> HF;
  h_abs : HF -> HF;
  h_addmul : HF -> HF -> HF -> HF;   (* result += a*b *)
  h_0 : HF; h_1 : HF; h_m1 : HF; h_tenth : HF;
  h_lt0 : HF -> bool;
  h_ne0 : HF -> bool;
  h_sgn : HF -> bool;
  h_is1 : HF -> bool;
  h_ism1 : HF -> bool;
  h_gt : HF -> HF -> bool;
  h_le : HF -> HF -> bool;
  h_rnd : HF -> Z -> HF;
  h_si : HF -> Z -> Z * nat;
  h_ze : HF -> Z -> Z * nat
}.

(** row[k] = f(row[k], src[k]) for beg <= k < n (the loops of numvect.h:280-310
    and the copy loops of householder.cpp) *)
Fixpoint rw2_loop {A} (beg n : nat) (f : A -> A -> A) (row src : list A) : option (list A) :=
  match n with
  | 0 => Some row
  | S n' =>
      match row, src with
      | x :: row', y :: src' =>
          t <- rw2_loop (pred beg) n' f row' src';;
          Some ((match beg with 0 => f x y | S _ => x end) :: t)
      | _, _ => None
      end
  end.
(** no access at all when the range is empty (householder.cpp:72,168,554-558) *)
Definition rw2 {A} (beg n : nat) (f : A -> A -> A) (row src : list A) : option (list A) :=
  if n <=? beg then Some row else rw2_loop beg n f row src.

Section Model.
Variable ho : hops.
Notation FT := (HF ho).

(** householder.h:317-438: the members; n_known_rows is the field nkr of [hz].
    R_inverse_diag (unused), ftmp*, ztmp*, col_kept (DEBUG) are not kept. *)
Record hst := mkh {
  hz : gz;
  hR : list (list FT);
  hV : list (list FT);
  hsig : list FT;                      (* sigma *)
  hbf : list (list FT);
  hre : list Z;                        (* row_expo *)
  hhist : list (list (list FT));       (* R_history *)
  hupd : bool;                         (* updated_R *)
  hnb : list FT;                       (* norm_square_b *)
  hnbe : list Z                        (* expo_norm_square_b *)
}.
(** replaces one member *)
Definition h_setz s x := mkh x (hR s) (hV s) (hsig s) (hbf s) (hre s) (hhist s) (hupd s) (hnb s) (hnbe s).
(** replaces one member *)
Definition h_setR s x := mkh (hz s) x (hV s) (hsig s) (hbf s) (hre s) (hhist s) (hupd s) (hnb s) (hnbe s).
(** replaces one member *)
Definition h_setV s x := mkh (hz s) (hR s) x (hsig s) (hbf s) (hre s) (hhist s) (hupd s) (hnb s) (hnbe s).
(** replaces one member *)
Definition h_setsig s x := mkh (hz s) (hR s) (hV s) x (hbf s) (hre s) (hhist s) (hupd s) (hnb s) (hnbe s).
(** replaces one member *)
Definition h_setbf s x e := mkh (hz s) (hR s) (hV s) (hsig s) x e (hhist s) (hupd s) (hnb s) (hnbe s).
(** replaces one member *)
Definition h_sethist s x := mkh (hz s) (hR s) (hV s) (hsig s) (hbf s) (hre s) x (hupd s) (hnb s) (hnbe s).
(** replaces one member *)
Definition h_setupd s x := mkh (hz s) (hR s) (hV s) (hsig s) (hbf s) (hre s) (hhist s) x (hnb s) (hnbe s).
(** replaces one member *)
Definition h_setnb s x e := mkh (hz s) (hR s) (hV s) (hsig s) (hbf s) (hre s) (hhist s) (hupd s) x e.

Definition hd_ (s : hst) : nat := gd (hz s).    (* d *)
Definition hn_ (s : hst) : nat := gc (hz s).    (* n *)

(** enable_row_expo (householder.h:71) *)
Variable en_e : bool.

(** householder.h:70-152 constructor.  R, V, sigma, bf, R_history,
    norm_square_b are allocated uninitialised: [junk] is an arbitrary value. *)
Definition house_new (junk : FT) (b : list (list Z)) (c : nat) (u ui : list (list Z)) (fl : bool) : hst :=
  let d := length b in
  mkh (gso_new b c u ui false fl)
      (repeat (repeat junk c) d) (repeat (repeat junk c) d) (repeat junk d)
      (repeat (repeat junk c) d) (repeat 0%Z d)
      (repeat (repeat (repeat junk c) c) d) false (repeat junk d) (repeat 0%Z d).

(** numvect.h:385-395 dot_product(result, v1, v2, beg, n) *)
Fixpoint hdot_loop (acc : FT) (v w : list FT) (i cnt : nat) : option FT :=
  match cnt with
  | 0 => Some acc
  | S c => x <- nth_error v i;; y <- nth_error w i;; hdot_loop (h_addmul ho acc x y) v w (S i) c
  end.
(** numvect.h:385-395 *)
Definition hdot (v w : list FT) (beg n : nat) : option FT :=
  x <- nth_error v beg;; y <- nth_error w beg;;
  hdot_loop (h_mul ho x y) v w (S beg) (n - S beg).

(** replaces one member *)
Definition set_nkr (z : gz) (k : nat) : gz := set_known z k (nsr z) (nkc z) (locked z) (irs z).

(** householder.cpp:29-118 of update_R_last on the row r = R[i]: the new value
    of R[i], V[i] and sigma[i] *)
Definition last_row (i n : nat) (r v : list FT) : option (list FT * list FT * FT) :=
  rii <- nth_error r i;;
  let sig := if h_lt0 ho rii then h_m1 ho else h_1 ho in
  t3 <- (if S i =? n then Some (h_0 ho) else hdot r r (S i) n);;
  let t1 := h_add ho (h_mul ho rii rii) t3 in
  _ <- nth_error v i;;
  if h_ne0 ho t1 then
    let t2 := h_sqrt ho t1 in
    let t0 := h_mul ho sig t2 in
    let t1' := h_add ho rii t0 in
    let t3' := h_div ho (h_neg ho t3) t1' in
    if h_ne0 ho t3' then
      let t0' := h_sqrt ho (h_mul ho (h_neg ho t0) t3') in
      let v1 := upd v i (h_div ho t3' t0') in
      let r1 := upd r i t2 in
      v2 <- rw2 (S i) n (fun _ x => h_div ho x t0') v1 r1;;
      Some (r1, v2, sig)
    else
      let r1 := if h_lt0 ho rii then upd r i (h_neg ho rii) else r in
      v2 <- rw2 (S i) n (fun _ _ => h_0 ho) (upd v i (h_0 ho)) r;;
      Some (r1, v2, sig)
  else
    (* householder.cpp:119-143 *)
    v2 <- rw2 (S i) n (fun _ _ => h_0 ho) (upd v i (h_0 ho)) r;;
    Some (upd r i (h_0 ho), v2, sig).

(** householder.cpp:27-146 update_R_last *)
Definition update_R_last (s : hst) (i : nat) : option hst :=
  r <- nth_error (hR s) i;; v <- nth_error (hV s) i;; _ <- nth_error (hsig s) i;;
  p <- last_row i (hn_ s) r v;;
  let '(r', v', sig) := p in
  Some (h_setz (h_setsig (h_setV (h_setR s (upd (hR s) i r')) (upd (hV s) i v')) (upd (hsig s) i sig))
               (set_nkr (hz s) (S (nkr (hz s))))).

(** householder.cpp:163-171: one Householder transformation applied to the row r *)
Definition apply_house (n j : nat) (vj : list FT) (sigj : FT) (r : list FT) : option (list FT) :=
  t <- hdot vj r j n;;
  r1 <- rw2 j n (fun x y => h_addmul ho x y (h_neg ho t)) r vj;;
  x <- nth_error r1 j;;
  Some (upd r1 j (h_mul ho sigj x)).

(** householder.cpp:159-178: the loop over j on R[i] and R_history[i] *)
Definition update_row (s : hst) (i : nat) (r : list FT) (hist : list (list FT))
  : option (list FT * list (list FT)) :=
  ofor (seq 0 i) (fun j a =>
    let '(r, hist) := a in
    vj <- nth_error (hV s) j;; sj <- nth_error (hsig s) j;;
    r' <- apply_house (hn_ s) j vj sj r;;
    hj <- nth_error hist j;;
    hj' <- rw2 j (hn_ s) (fun _ x => x) hj r';;
    Some (r', upd hist j hj')) (r, hist).

(** householder.cpp:151-184 update_R(i, last_j) *)
Definition update_R (s : hst) (i : nat) (last_j : bool) : option hst :=
  if hupd s then Some s
  else
    r <- nth_error (hR s) i;; hist <- nth_error (hhist s) i;;
    p <- update_row s i r hist;;
    let s1 := h_sethist (h_setR s (upd (hR s) i (fst p))) (upd (hhist s) i (snd p)) in
    if last_j then update_R_last s1 i else Some s1.

(** householder.h:538-551 norm_square_b_row *)
Definition norm_square_b_row (s : hst) (k : nat) : option (FT * Z) :=
  row <- nth_error (hbf s) k;;
  f <- hdot row row 0 (nkc (hz s));;
  e <- nth_error (hre s) k;;
  Some (f, if en_e then (2 * e)%Z else 0%Z).

(** householder.cpp:193-228: the new bf[i] and row_expo[i] *)
Definition conv_row (n nkc : nat) (row : list Z) (old : list FT) (e : Z) : option (list FT * Z) :=
  if (length row <? nkc) || (length old <? n) || (n <? nkc) then None
  else if en_e then
    let fe := map (h_exp ho) (firstn nkc row) in
    let m := max_expo (map snd fe) in
    Some (map (fun p => h_mul2 ho (fst p) (snd p - m)) fe ++ repeat (h_0 ho) (n - nkc) ++ skipn n old, m)
  else Some (map (h_ofZ ho) (firstn nkc row) ++ repeat (h_0 ho) (n - nkc) ++ skipn n old, e).

(** householder.cpp:257-260 and 232-235: R[i] = bf[i] in the known columns, 0 beyond *)
Definition row_from_bf (n nkc : nat) (r bf : list FT) : option (list FT) :=
  r1 <- rw2 0 nkc (fun _ x => x) r bf;;
  rw2 nkc n (fun _ _ => h_0 ho) r1 r1.

(** householder.cpp:186-245 refresh_R_bf(i) *)
Definition refresh_R_bf (s : hst) (i : nat) : option hst :=
  irsi <- nth_error (irs (hz s)) i;;
  let z := hz s in
  let z1 := set_known z (nkr z) (nsr z) (Nat.max (nkc z) irsi) (locked z) (irs z) in
  row <- nth_error (gb z) i;; old <- nth_error (hbf s) i;; e <- nth_error (hre s) i;;
  p <- conv_row (gc z) (nkc z1) row old e;;
  r <- nth_error (hR s) i;;
  r' <- row_from_bf (gc z) (nkc z1) r (fst p);;
  let s1 := h_setR (h_setbf (h_setz s z1) (upd (hbf s) i (fst p)) (upd (hre s) i (snd p)))
                   (upd (hR s) i r') in
  q <- norm_square_b_row s1 i;;
  _ <- nth_error (hnb s) i;; _ <- nth_error (hnbe s) i;;
  Some (h_setnb s1 (upd (hnb s) i (fst q)) (upd (hnbe s) i (snd q))).

(** householder.cpp:247-261 refresh_R(i) *)
Definition refresh_R (s : hst) (i : nat) : option hst :=
  r <- nth_error (hR s) i;; bf <- nth_error (hbf s) i;;
  r' <- row_from_bf (hn_ s) (nkc (hz s)) r bf;;
  Some (h_setR s (upd (hR s) i r')).

(** householder.h:597-608 recover_R(i); for i = 0 the index i - 1 is negative *)
Definition recover_R (s : hst) (i : nat) : option hst :=
  match i with
  | 0 => None
  | S i' =>
      hist <- nth_error (hhist s) i;; r <- nth_error (hR s) i;;
      r1 <- ofor (seq 0 i') (fun k r =>
              x <- mget hist k k;; _ <- nth_error r k;; Some (upd r k x)) r;;
      hl <- nth_error hist i';;
      r2 <- rw2 i' (hn_ s) (fun _ x => x) r1 hl;;
      Some (h_setupd (h_setR s (upd (hR s) i r2)) true)
  end.

(** householder.cpp:372-398 swap(i, j), householder.h:591-595 invalidate_row *)
Definition swap_z (z : gz) (i j : nat) : option gz :=
  let z0 := set_nkr z (Nat.min (nkr z) i) in
  b' <- oswap (gb z0) i j;;
  ir' <- oswap (irs z0) i j;;
  let z1 := set_known (set_b z0 b') (nkr z0) (nsr z0) (nkc z0) (locked z0) ir' in
  if en_t z0 then
    u' <- oswap (gu z0) i j;;
    if en_i z0 then ui' <- oswap (gui z0) i j;; Some (set_ui (set_u z1 u') ui')
    else Some (set_u z1 u')
  else Some z1.
(** householder.cpp:372-398 swap(i, j) *)
Definition hswap (s : hst) (i j : nat) : option hst :=
  z' <- swap_z (hz s) i j;;
  bf' <- oswap (hbf s) i j;;
  sg' <- oswap (hsig s) i j;;
  re' <- (if en_e then oswap (hre s) i j else Some (hre s));;
  hi' <- oswap (hhist s) i j;;
  nb' <- oswap (hnb s) i j;;
  ne' <- oswap (hnbe s) i j;;
  Some (mkh z' (hR s) (hV s) sg' bf' re' hi' (hupd s) nb' ne').

(** householder.cpp:549-558: the row operation on R *)
Definition R_addmul (i : nat) (x : FT) (ri rj : list FT) : option (list FT) :=
  if h_is1 ho x then rw2 0 i (h_add ho) ri rj
  else if h_ism1 ho x then rw2 0 i (h_sub ho) ri rj
  else rw2 0 i (fun a b => h_addmul ho a b x) ri rj.

(** householder.cpp:522-559 row_addmul_we *)
Definition hrow_addmul_we (s : hst) (i j : nat) (x : FT) (expo_add : Z) : option hst :=
  let si := h_si ho x expo_add in
  let ze := h_ze ho x expo_add in
  z' <- row_addmul_we (hz s) i j (fst si) (snd si) (fst ze) (snd ze);;
  ri <- nth_error (hR s) i;; rj <- nth_error (hR s) j;;
  ri' <- R_addmul i x ri rj;;
  Some (h_setR (h_setz s z') (upd (hR s) i ri')).

(** householder.cpp:409-434: i = srs + cnt - 1 downto srs *)
Fixpoint size_reduce_loop (s : hst) (k srs cnt : nat) (reduced : bool) : option (hst * bool) :=
  match cnt with
  | 0 => Some (s, reduced)
  | S c =>
      let i := srs + c in
      rki <- mget (hR s) k i;; rii <- mget (hR s) i i;;
      ek <- nth_error (hre s) k;; ei <- nth_error (hre s) i;;
      let x := h_neg ho (h_rnd ho (h_div ho rki rii) (ek - ei)) in
      if h_sgn ho x then
        s' <- hrow_addmul_we s k i x (ek - ei);;
        size_reduce_loop s' k srs c true
      else size_reduce_loop s k srs c reduced
  end.
(** householder.cpp:402-451 size_reduce *)
Definition size_reduce (s : hst) (k sre srs : nat) : option (hst * bool) :=
  p <- size_reduce_loop s k srs (sre - srs) false;;
  let '(s', reduced) := p in
  Some (if reduced then h_setz s' (set_nkr (hz s') (Nat.min (nkr (hz s')) k)) else s', reduced).

(** ** HLLLReduction (hlll.h:27-114) *)

(** defs.h RedStatus: the values hlll sets; [HFuel]: the model stopped counting
    iterations of a loop without bound *)
Inductive hout := HSuccess | HSrFailure | HNormFailure | HFuel.

(** delta, eta, theta (hlll.h:60) *)
Record hpar := mkhpar { p_delta : FT; p_eta : FT; p_theta : FT }.
Variable P : hpar.

(** the object m, and dR, eR (hlll.h:92-105) *)
Record hl := mkhl { lm : hst; ldR : list FT; leR : list FT }.
(** replaces one member *)
Definition l_setm x m := mkhl m (ldR x) (leR x).

(** hlll.h:148-153 compute_dR *)
Definition compute_dR (x : hl) (k : nat) : option hl :=
  r <- mget (hR (lm x)) k k;; _ <- nth_error (ldR x) k;;
  Some (mkhl (lm x) (upd (ldR x) k (h_mul ho (p_delta P) (h_mul ho r r))) (leR x)).
(** hlll.h:155-159 compute_eR: the factor is delta *)
Definition compute_eR (x : hl) (k : nat) : option hl :=
  r <- mget (hR (lm x)) k k;; _ <- nth_error (leR x) k;;
  Some (mkhl (lm x) (ldR x) (upd (leR x) k (h_mul ho (p_delta P) r))).

(** hlll.cpp:313-352, the do loop of size_reduction; [false] = out of fuel *)
Fixpoint size_reduction_loop (fuel : nat) (s : hst) (kappa sre srs : nat) (prev_not_stop : bool)
  : option (hst * bool) :=
  match fuel with
  | 0 => Some (s, false)
  | S f =>
      p <- size_reduce s kappa sre srs;;
      let '(s1, reduced) := p in
      if negb reduced then Some (s1, true)
      else
        n0 <- nth_error (hnb s1) kappa;; e0 <- nth_error (hnbe s1) kappa;;
        s2 <- refresh_R_bf s1 kappa;;
        n1 <- nth_error (hnb s2) kappa;; e1 <- nth_error (hnbe s2) kappa;;
        let t0 := h_mul2 ho (h_mul ho (h_tenth ho) n0) (e0 - e1) in
        let not_stop := h_le ho n1 t0 in
        s3 <- update_R s2 kappa false;;
        if prev_not_stop || not_stop then size_reduction_loop f s3 kappa sre srs not_stop
        else Some (s3, true)
  end.
(** hlll.cpp:262-353 size_reduction *)
Definition size_reduction (fuel : nat) (s : hst) (kappa sre srs : nat) : option (hst * bool) :=
  s1 <- update_R s kappa false;;
  size_reduction_loop fuel (h_setupd s1 false) kappa sre srs true.

(** householder.h:571-588 norm_R_row *)
Definition norm_R_row (s : hst) (k beg end_ : nat) : option (FT * Z) :=
  f <- (if end_ =? beg then Some (h_0 ho)
        else row <- nth_error (hR s) k;; d <- hdot row row beg end_;; Some (h_sqrt ho d));;
  e <- nth_error (hre s) k;;
  Some (f, if en_e then e else 0%Z).
(** householder.h:553-568 norm_square_R_row *)
Definition norm_square_R_row (s : hst) (k beg end_ : nat) : option (FT * Z) :=
  f <- (if end_ =? beg then Some (h_0 ho)
        else row <- nth_error (hR s) k;; hdot row row beg end_);;
  e <- nth_error (hre s) k;;
  Some (f, if en_e then (2 * e)%Z else 0%Z).

(** hlll.cpp:371-499 verify_size_reduction (the branch compiled by default, 448-498) *)
Definition verify_size_reduction (x : hl) (kappa : nat) : option bool :=
  let s := lm x in
  p <- norm_R_row s kappa kappa (hn_ s);;
  let t1 := h_mul ho (fst p) (p_theta P) in
  ofor (seq 0 kappa) (fun i ok =>
    if negb ok then Some false
    else
      r <- mget (hR s) kappa i;; e0 <- nth_error (hre s) kappa;; e2 <- nth_error (hre s) i;;
      er <- nth_error (leR x) i;;
      Some (negb (h_gt ho (h_abs ho r) (h_add ho t1 (h_mul2 ho er (e2 - e0)))))) true.

(** hlll.cpp:175-241 lovasz_test *)
Definition lovasz_test (x : hl) (k : nat) : option bool :=
  let s := lm x in
  nb <- nth_error (hnb s) k;;
  p <- norm_square_R_row s k 0 (k - 1);;
  e0 <- nth_error (hre s) (k - 1);;
  dr <- nth_error (ldR x) (k - 1);;
  Some (h_le ho dr (h_mul2 ho (h_sub ho nb (fst p)) (snd p - 2 * e0))).

(** the local variables of hlll (hlll.cpp:57-65); prev_k = None stands for -1 *)
Record hv := mkhv { vk : nat; vkmax : nat; vprev : option nat; vpR : list FT; vpE : list Z }.

(** hlll.cpp:85-140, the case that the Lovasz test holds *)
Definition hlll_advance (x : hl) (v : hv) : option (hl * hv * option hout) :=
  let k := vk v in
  m1 <- update_R_last (lm x) k;;
  x1 <- compute_dR (l_setm x m1) k;;
  x2 <- compute_eR x1 k;;
  rkk <- mget (hR (lm x2)) k k;; ek <- nth_error (hre (lm x2)) k;;
  pr <- nth_error (vpR v) k;; pe <- nth_error (vpE v) k;;
  if match vprev v with Some p => p =? S k | None => false end
     && h_gt ho rkk (h_mul2 ho pr (pe - ek))
  then Some (x2, v, Some HNormFailure)
  else
    let v1 := mkhv (S k) (vkmax v) (Some k) (upd (vpR v) k rkk) (upd (vpE v) k ek) in
    if S k <? hd_ (lm x2) then
      if vkmax v <? S k then
        m2 <- refresh_R_bf (lm x2) (S k);;
        Some (l_setm x2 m2, mkhv (S k) (S k) (vprev v1) (vpR v1) (vpE v1), None)
      else
        m2 <- refresh_R (lm x2) (S k);; Some (l_setm x2 m2, v1, None)
    else Some (x2, v1, Some HSuccess).

(** hlll.cpp:141-171, the case that the Lovasz test fails; k = 0 never occurs
    here (k - 1 would be negative) *)
Definition hlll_back (x : hl) (v : hv) : option (hl * hv * option hout) :=
  match vk v with
  | 0 => None
  | S k' =>
      m1 <- hswap (lm x) k' (S k');;
      if k' =? 0 then
        m2 <- refresh_R m1 0;;
        m3 <- update_R_last m2 0;;
        x1 <- compute_dR (l_setm x m3) 0;;
        x2 <- compute_eR x1 0;;
        m4 <- refresh_R (lm x2) 1;;
        Some (l_setm x2 m4, mkhv 1 (vkmax v) (Some 1) (vpR v) (vpE v), None)
      else
        m2 <- recover_R m1 k';;
        Some (l_setm x m2, mkhv k' (vkmax v) (Some (S k')) (vpR v) (vpE v), None)
  end.

(** hlll.cpp:79-171, one iteration of the main loop; [srfuel] bounds the loop of
    size_reduction *)
Definition hlll_iter (srfuel : nat) (x : hl) (v : hv) : option (hl * hv * option hout) :=
  p <- size_reduction srfuel (lm x) (vk v) (vk v) 0;;
  let x1 := l_setm x (fst p) in
  if negb (snd p) then Some (x1, v, Some HFuel)
  else
    ok <- verify_size_reduction x1 (vk v);;
    if negb ok then Some (x1, v, Some HSrFailure)
    else
      lt <- lovasz_test x1 (vk v);;
      if lt : bool then hlll_advance x1 v else hlll_back x1 v.

(** hlll.cpp:79-172, the main loop *)
Fixpoint hlll_loop (fuel srfuel : nat) (x : hl) (v : hv) : option (hl * hout) :=
  match fuel with
  | 0 => Some (x, HFuel)
  | S f =>
      p <- hlll_iter srfuel x v;;
      match snd p with
      | Some o => Some (fst (fst p), o)
      | None => hlll_loop f srfuel (fst (fst p)) (snd (fst p))
      end
  end.

(** hlll.h:36-49 constructor (dR, eR allocated uninitialised) and hlll.cpp:26-75:
    the statements before the main loop *)
Definition hlll_init (junk : FT) (m : hst) : option (hl * hv) :=
  let d := hd_ m in
  m1 <- refresh_R_bf m 0;;
  m2 <- update_R_last m1 0;;
  x1 <- compute_dR (mkhl m2 (repeat junk d) (repeat junk d)) 0;;
  x2 <- compute_eR x1 0;;
  m3 <- refresh_R_bf (lm x2) 1;;
  Some (l_setm x2 m3, mkhv 1 1 None (repeat junk d) (repeat 0%Z d)).

(** hlll.cpp:26-173 hlll *)
Definition hlll (fuel srfuel : nat) (junk : FT) (m : hst) : option (hl * hout) :=
  p <- hlll_init junk m;; hlll_loop fuel srfuel (fst p) (snd p).

End Model.
