(** Model of LLLReduction over MatGSO (fplll/lll.cpp, fplll/lll.h).

    The floating-point type is abstract: [lops] collects every operation that
    the code performs on FT, with arbitrary results (comparisons are arbitrary
    boolean functions, so NaN is included).  Simplification: an operation is a
    function of its arguments. *)
From Coq Require Import List ZArith Lia Arith Bool.
From Verif Require Import Util NumVectModel MatrixModel GsoModel GsoFModel.
Import ListNotations.
Local Open Scope nat_scope.

(** FP_NR operations used by lll.cpp in addition to those of the GSO code
    (nr/nr_FP.inl): operator>, operator<, "> 0", abs, neg, zero_p, rnd_we
    (336-345), get_si_exp_we (88-95), get_z_exp_we (113-119), exponent (82-86). *)
Record lops := mklops {
  lf : fops;
  l_gt : F lf -> F lf -> bool;
  l_lt : F lf -> F lf -> bool;
  l_pos : F lf -> bool;
  l_abs : F lf -> F lf;
  l_neg : F lf -> F lf;
  l_zero : F lf -> bool;
  l_rnd : F lf -> Z -> F lf;
  l_si : F lf -> Z -> Z * nat;
  l_ze : F lf -> Z -> Z * nat;
  l_expo : F lf -> Z
}.

(** defs.h RedStatus, restricted to the values LLLReduction sets *)
Inductive red_status := RED_SUCCESS | RED_GSO_FAILURE | RED_BABAI_FAILURE | RED_LLL_FAILURE.

(** Result of a function returning bool: true, false, or one of two ways of not
    returning: [OFuel] the model stopped counting loop iterations, [OExpo] a
    computation on exponents (type long) overflowed, which is undefined
    behaviour in C++. *)
Inductive out := OTrue | OFalse | OFuel | OExpo.

Section Model.
Variable lo : lops.
Notation fo := (lf lo).
Notation FT := (F fo).

(** lll.h:89-96 members that do not change during a run; enable_row_expo of m *)
Record lpar := mklpar {
  p_delta : FT; p_eta : FT; p_thr : FT;
  p_early : bool; p_siegel : bool; p_e : bool
}.

(** lll.cpp:27-42 constructor *)
Definition lll_par (z : gz) (en_e : bool) (delta eta : FT) (early siegel : bool) : lpar :=
  mklpar delta eta (if siegel then f_sub fo delta (f_mul fo eta eta) else delta)
         (early && negb (en_g z)) siegel en_e.

(** The GSO object m and the members status, final_kappa, last_early_red,
    zeros, n_swaps (lll.h:68-72). *)
Record lst := mklst {
  lz : gz; ls : fst_ fo;
  lstat : red_status; lfk : nat; ler : nat; lzeros : nat; lsw : nat
}.
(** replaces one member *)
Definition set_zs (st : lst) z s := mklst z s (lstat st) (lfk st) (ler st) (lzeros st) (lsw st).
(** replaces one member *)
Definition set_stat (st : lst) x := mklst (lz st) (ls st) x (lfk st) (ler st) (lzeros st) (lsw st).
(** replaces one member *)
Definition set_fk (st : lst) x := mklst (lz st) (ls st) (lstat st) x (ler st) (lzeros st) (lsw st).
(** replaces one member *)
Definition set_er (st : lst) x := mklst (lz st) (ls st) (lstat st) (lfk st) x (lzeros st) (lsw st).
(** replaces one member *)
Definition set_zeros (st : lst) x := mklst (lz st) (ls st) (lstat st) (lfk st) (ler st) x (lsw st).
(** replaces one member *)
Definition set_sw (st : lst) x := mklst (lz st) (ls st) (lstat st) (lfk st) (ler st) (lzeros st) x.

(** a freshly constructed LLLReduction on the GSO object (z,s) *)
Definition lst_new (z : gz) (s : fst_ fo) : lst := mklst z s RED_SUCCESS 0 0 0 0.

Variable P : lpar.
Notation en_e := (p_e P).

(** lll.cpp:177-183: is some |mu(kappa,j)| > eta, j = srs + cnt - 1 downto srs *)
Fixpoint need_loop (zs : gz * fst_ fo) (kappa srs cnt : nat) : option bool :=
  match cnt with
  | 0 => Some false
  | S c =>
      m <- get_mu fo en_e zs kappa (srs + c);;
      if l_gt lo (l_abs lo m) (p_eta P) then Some true else need_loop zs kappa srs c
  end.

(** range of the type long (64 bits) *)
Definition in_long (x : Z) : bool := ((- 2 ^ 63 <=? x) && (x <=? 2 ^ 63 - 1))%Z.
(** numeric_limits<long>::max(), lll.cpp:170 *)
Definition LONG_MAX : Z := (2 ^ 63 - 1)%Z.
(** numeric_limits<long>::min() *)
Definition LONG_MIN : Z := (- 2 ^ 63)%Z.

(** gso_interface.cpp:88-98 get_max_mu_exp; the flag tells whether no sum left
    the range of long *)
Definition get_max_mu_exp (zs : gz * fst_ fo) (i n : nat) : option (Z * bool) :=
  ofor (seq 0 n) (fun j a =>
    p <- get_mu_exp fo en_e zs i j;;
    let e := (snd p + l_expo lo (fst p))%Z in
    Some (Z.max (fst a) e, snd a && in_long e)) (LONG_MIN, true).

(** lll.cpp:197-200: babai_mu[j], babai_expo[j] for j = srs .. sre-1 (stored at
    index j - srs) *)
Definition copy_mu (zs : gz * fst_ fo) (kappa srs cnt : nat) : option (list (FT * Z)) :=
  ofor (seq srs cnt) (fun j l => p <- get_mu_exp fo en_e zs kappa j;; Some (l ++ [p])) [].

(** lll.cpp:202-220, j = srs + cnt - 1 downto srs *)
Fixpoint reduce_loop (z : gz) (s : fst_ fo) (kappa srs cnt : nat) (bm : list (FT * Z)) : option gz :=
  match cnt with
  | 0 => Some z
  | S c =>
      p <- nth_error bm c;;
      let x := l_rnd lo (fst p) (snd p) in
      if l_zero lo x then reduce_loop z s kappa srs c bm
      else
        bm' <- ofor (seq 0 c) (fun k bm =>
                 q <- nth_error bm k;; m <- mget (fmu s) (srs + c) (srs + k);;
                 Some (upd bm k (f_sub fo (fst q) (f_mul fo x m), snd q))) bm;;
        let nx := l_neg lo x in
        let si := l_si lo nx (snd p) in
        let ze := l_ze lo nx (snd p) in
        z' <- row_addmul_we z kappa (srs + c) (fst si) (snd si) (fst ze) (snd ze);;
        reduce_loop z' s kappa srs c bm'
  end.

(** lll.cpp:166-224 babai(kappa, sre, srs).  [fuel] bounds the number of
    iterations of the outer loop; defs.h:146 SIZE_RED_FAILURE_THRESH = 5. *)
Fixpoint babai_loop (fuel iter : nat) (maxe : Z) (st : lst) (kappa sre srs : nat) : option (lst * out) :=
  match fuel with
  | 0 => Some (st, OFuel)
  | S f =>
      u <- update_gso_row fo (lz st) (ls st) kappa (sre - 1);;
      let '(z1, s1, ok) := u in
      let st1 := set_zs st z1 s1 in
      if negb ok then Some (set_stat st1 RED_GSO_FAILURE, OFalse)
      else
        need <- need_loop (z1, s1) kappa srs (sre - srs);;
        if negb (need : bool) then Some (st1, OTrue)
        else
          ex <- (if 2 <=? iter then
                   e <- get_max_mu_exp (z1, s1) kappa sre;;
                   Some (fst e, snd e && in_long (maxe - 5))
                 else Some (maxe, true));;
          if negb (snd ex) then Some (st1, OExpo)
          else if (2 <=? iter) && (maxe - 5 <? fst ex)%Z then Some (set_stat st1 RED_BABAI_FAILURE, OFalse)
          else
            bm <- copy_mu (z1, s1) kappa srs (sre - srs);;
            z2 <- reduce_loop z1 s1 kappa srs (sre - srs) bm;;
            s2 <- row_op_end fo en_e z2 s1 kappa (kappa + 1);;
            babai_loop f (S iter) (fst ex) (set_zs st1 z2 s2) kappa sre srs
  end.
(** lll.cpp:166-224 babai *)
Definition babai (fuel : nat) (st : lst) (kappa sre srs : nat) : option (lst * out) :=
  babai_loop fuel 0 LONG_MAX st kappa sre srs.

(** lll.h:124-140 early_reduction: loop over i = start .. m.d-1 *)
Fixpoint early_loop (fuel cnt : nat) (st : lst) (i start srs : nat) : option (lst * out) :=
  match cnt with
  | 0 => Some (st, OTrue)
  | S c =>
      r <- babai fuel st i start srs;;
      match snd r with
      | OTrue => early_loop fuel c (fst r) (S i) start srs
      | o => Some (fst r, o)
      end
  end.
(** lll.h:124-140 early_reduction *)
Definition early_reduction (fuel : nat) (st : lst) (start srs : nat) : option (lst * out) :=
  let st1 := set_zs st (lock_cols (lz st)) (ls st) in
  r <- early_loop fuel (gd (lz st) - start) st1 start start srs;;
  match snd r with
  | OTrue => Some (set_er (set_zs (fst r) (unlock_cols (lz (fst r))) (ls (fst r))) start, OTrue)
  | o => Some (fst r, o)
  end.

(** lll.cpp:109-115: lovasz_tests[0..kappa] *)
Fixpoint lovasz_list (s : fst_ fo) (kappa i cnt : nat) (t : FT) : option (list FT) :=
  match cnt with
  | 0 => Some [t]
  | S c =>
      m <- mget (fmu s) kappa i;; r <- mget (fr s) kappa i;;
      l <- lovasz_list s kappa (S i) c (f_sub fo t (f_mul fo m r));; Some (t :: l)
  end.
(** lll.cpp:110-115 *)
Definition lovasz_tests (z : gz) (s : fst_ fo) (kappa : nat) : option (list FT * fst_ fo) :=
  p <- get_gram fo z s kappa kappa;;
  l <- lovasz_list (snd p) kappa 0 kappa (fst p);; Some (l, snd p).

(** lll.cpp:116-120, 129-133: r(k-1,k-1) * swap_threshold, scaled to row [ref] *)
Definition scaled_r (s : fst_ fo) (k ref : nat) : option FT :=
  r <- mget (fr s) (k - 1) (k - 1);;
  let t := f_mul fo r (p_thr P) in
  if en_e then e1 <- nth_error (fre s) (k - 1);; e2 <- nth_error (fre s) ref;; Some (f_mul2 fo t (2 * (e1 - e2)))
  else Some t.
(** index of the entry of lovasz_tests compared at position k (lll.cpp:122, 134) *)
Definition tidx (k : nat) : nat := if p_siegel P then k else k - 1.

(** lll.cpp:127-136: computes the insertion index, starting at k *)
Fixpoint ins_loop (s : fst_ fo) (lt : list FT) (old_k kmin k : nat) : option nat :=
  match k with
  | 0 => Some 0
  | S k' =>
      if S k' <=? kmin then Some (S k')
      else
        t <- scaled_r s (S k') old_k;; c <- nth_error lt (tidx (S k'));;
        if l_lt lo t c then Some (S k') else ins_loop s lt old_k kmin k'
  end.

(** lll.cpp:25 *)
Definition is_power_of_2 (i : nat) : bool := (Nat.land i (i - 1) =? 0).

(** gso_interface.h:632-646 symmetrize_g *)
Definition symmetrize_g (z : gz) : option gz :=
  g' <- ofor (seq 0 (gd z)) (fun i g =>
          ofor (seq 0 (gd z)) (fun j g => v <- sym_get g i j;; mset g i j v) g) (gg z);;
  Some (set_g z g').

(** lll.cpp:156-163 *)
Definition lll_finish (st : lst) (kappa kend : nat) : option (lst * out) :=
  z' <- (if en_g (lz st) then symmetrize_g (lz st) else Some (lz st));;
  let st1 := set_zs st z' (ls st) in
  if kappa + lzeros st <? kend then Some (set_stat st1 RED_LLL_FAILURE, OFalse)
  else Some (set_stat st1 RED_SUCCESS, OTrue).

(** lll.cpp:102-154: one iteration after the early reduction; returns the new kappa *)
Definition lll_iter (fuel : nat) (st : lst) (kappa kmin kend srs : nat) : option (lst * out * nat) :=
  r <- babai fuel st kappa kappa srs;;
  let st1 := fst r in
  match snd r with
  | OTrue =>
      p <- lovasz_tests (lz st1) (ls st1) kappa;;
      let '(lt, s1) := p in
      let st2 := set_zs st1 (lz st1) s1 in
      t <- scaled_r s1 kappa kappa;; c <- nth_error lt (tidx kappa);;
      if l_gt lo t c then
        let st3 := set_sw st2 (S (lsw st2)) in
        k <- ins_loop s1 lt kappa kmin (kappa - 1);;
        lk <- nth_error lt k;;
        if l_pos lo lk then
          zs <- fmove_row fo en_e (lz st3) (ls st3) kappa k;;
          s2 <- set_r fo (snd zs) k k lk;;
          Some (set_zs st3 (fst zs) s2, OTrue, S k)
        else
          let ze := S (lzeros st3) in
          zs <- fmove_row fo en_e (lz st3) (ls st3) kappa (kend - ze);;
          Some (set_zs (set_zeros st3 ze) (fst zs) (snd zs), OTrue, kappa)
      else
        lk <- nth_error lt kappa;;
        s2 <- set_r fo s1 kappa kappa lk;;
        Some (set_zs st2 (lz st2) s2, OTrue, S kappa)
  | o => Some (set_fk st1 kappa, o, kappa)
  end.

(** lll.cpp:82-155 main loop; [n] = max_iter - iter *)
Fixpoint lll_loop (fuel n : nat) (st : lst) (kappa kmax kmin kend srs : nat) : option (lst * out) :=
  match n with
  | 0 => lll_finish st kappa kend
  | S n' =>
      if kappa + lzeros st <? kend then
        e <- (if (kmax <? kappa) && p_early P && is_power_of_2 kappa && (ler st <? kappa)
              then early_reduction fuel st kappa srs else Some (st, OTrue));;
        match snd e with
        | OTrue =>
            r <- lll_iter fuel (fst e) kappa kmin kend srs;;
            let '(st1, o, kappa1) := r in
            match o with
            | OTrue => lll_loop fuel n' st1 kappa1 (Nat.max kmax kappa) kmin kend srs
            | o => Some (st1, o)
            end
        | o => Some (set_fk (fst e) kappa, o)
        end
      else lll_finish st kappa kend
  end.

(** lll.cpp:66-69; [cnt] = d - zeros *)
Fixpoint zeros_loop (cnt : nat) (st : lst) (kmin kend : nat) : option lst :=
  match cnt with
  | 0 => Some st
  | S c =>
      row <- nth_error (gb (lz st)) 0;;
      if nv_is_zero row 0 then
        zs <- fmove_row fo en_e (lz st) (ls st) kmin (kend - 1 - lzeros st);;
        zeros_loop c (set_zeros (set_zs st (fst zs) (snd zs)) (S (lzeros st))) kmin kend
      else Some st
  end.

(** lll.cpp:44-164 lll(kappa_min, kappa_start, kappa_end, size_reduction_start);
    the default kappa_end = -1 stands for m.d and is resolved by the caller of
    the model.  [max_iter] is the value of lll.cpp:79-80 (a double expression
    in log(delta) and max_exp_of_b), an arbitrary function of the basis. *)
Definition lll (fuel : nat) (max_iter : list (list Z) -> nat) (st : lst) (kmin kstart kend srs : nat)
  : option (lst * out) :=
  let d := kend - kmin in
  let st0 := set_fk (set_sw (set_zeros st 0) 0) 0 in
  st1 <- zeros_loop d st0 kmin kend;;
  r <- (if lzeros st1 <? d then
          b <- (if 0 <? kstart then babai fuel st1 kstart kstart srs else Some (st1, OTrue));;
          match snd b with
          | OTrue =>
              u <- update_gso_row fo (lz (fst b)) (ls (fst b)) kstart kstart;;
              let '(z1, s1, ok) := u in
              Some (set_zs (fst b) z1 s1, if ok : bool then OTrue else OFalse)
          | _ => Some b
          end
        else Some (st1, OTrue));;
  match snd r with
  | OTrue => lll_loop fuel (max_iter (gb (lz (fst r)))) (fst r) (S kstart) 0 kmin kend srs
  | o => Some (set_fk (fst r) kstart, o)
  end.

(** lll.h:106-122 size_reduction(kappa_min, kappa_end, size_reduction_start) *)
Fixpoint size_red_loop (fuel cnt : nat) (st : lst) (k srs : nat) : option (lst * out) :=
  match cnt with
  | 0 => Some (set_stat st RED_SUCCESS, OTrue)
  | S c =>
      b <- (if 0 <? k then babai fuel st k k srs else Some (st, OTrue));;
      match snd b with
      | OTrue =>
          u <- update_gso_row fo (lz (fst b)) (ls (fst b)) k k;;
          let '(z1, s1, ok) := u in
          let st1 := set_zs (fst b) z1 s1 in
          if ok : bool then size_red_loop fuel c st1 (S k) srs else Some (st1, OFalse)
      | _ => Some b
      end
  end.
(** lll.h:106-122 size_reduction *)
Definition size_reduction (fuel : nat) (st : lst) (kmin kend srs : nat) : option (lst * out) :=
  size_red_loop fuel (kend - kmin) st kmin srs.

(** gso_interface.h:767-775 update_gso: update_gso_row(i) for all i, stops at the
    first failure *)
Fixpoint update_gso (cnt i : nat) (z : gz) (s : fst_ fo) : option (gz * fst_ fo * bool) :=
  match cnt with
  | 0 => Some (z, s, true)
  | S c =>
      u <- update_gso_row fo z s i i;;
      let '(z1, s1, ok) := u in
      if ok : bool then update_gso c (S i) z1 s1 else Some (z1, s1, false)
  end.

(** lll.cpp:235-241: all |mu(i,j)| <= eta for j < cnt *)
Fixpoint mu_row_ok (zs : gz * fst_ fo) (eta : FT) (i j cnt : nat) : option bool :=
  match cnt with
  | 0 => Some true
  | S c => m <- get_mu fo en_e zs i j;;
           if l_gt lo (l_abs lo m) eta then Some false else mu_row_ok zs eta i (S j) c
  end.
(** lll.cpp:233-242 *)
Fixpoint mu_all_ok (zs : gz * fst_ fo) (eta : FT) (i cnt : nat) : option bool :=
  match cnt with
  | 0 => Some true
  | S c => b <- mu_row_ok zs eta i 0 i;; if b : bool then mu_all_ok zs eta (S i) c else Some false
  end.
(** lll.cpp:243-256 *)
Fixpoint lov_all_ok (zs : gz * fst_ fo) (delta : FT) (i cnt : nat) : option bool :=
  match cnt with
  | 0 => Some true
  | S c =>
      m <- get_mu fo en_e zs i (i - 1);;
      r1 <- get_r fo en_e zs (i - 1) (i - 1);;
      r2 <- get_r fo en_e zs i i;;
      if l_lt lo r2 (f_mul fo r1 (f_sub fo delta (f_mul fo m m))) then Some false
      else lov_all_ok zs delta (S i) c
  end.
(** lll.cpp:226-258 is_lll_reduced (the result of update_gso is ignored) *)
Definition is_lll_reduced (z : gz) (s : fst_ fo) (delta eta : FT) : option bool :=
  u <- update_gso (gd z) 0 z s;;
  let '(z1, s1, _) := u in
  a <- mu_all_ok (z1, s1) eta 0 (gd z1);;
  if a : bool then lov_all_ok (z1, s1) delta 1 (gd z1 - 1) else Some false.
End Model.

Arguments mklpar {lo}. Arguments p_delta {lo}. Arguments p_eta {lo}. Arguments p_thr {lo}.
Arguments p_early {lo}. Arguments p_siegel {lo}. Arguments p_e {lo}.
Arguments lz {lo}. Arguments ls {lo}. Arguments lstat {lo}. Arguments lfk {lo}. Arguments ler {lo}.
Arguments lzeros {lo}. Arguments lsw {lo}.
Arguments set_zs {lo}. Arguments set_stat {lo}. Arguments set_fk {lo}. Arguments set_er {lo}.
Arguments set_zeros {lo}. Arguments set_sw {lo}. Arguments lst_new {lo}.
