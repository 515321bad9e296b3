(** Model of the LLL/HLLL front end: util.cpp zeros_first, zeros_last and
    wrapper.cpp (class Wrapper, lll_reduction, hlll_reduction_wrapper). *)
From Coq Require Import List ZArith Lia Arith Bool.
From Verif Require Import Util LatticeSpec NumVectModel MatrixModel GsoModel GsoFModel LllModel.
Import ListNotations.
Local Open Scope nat_scope.

(** ** util.cpp *)
(** util.cpp:260: i = d; while i > 0 and row i-1 is zero, i-- *)
Fixpoint tz_loop (b : list (list Z)) (i : nat) : option nat :=
  match i with
  | 0 => Some 0
  | S i' => row <- nth_error b i';; if nv_is_zero row 0 then tz_loop b i' else Some (S i')
  end.
(** util.cpp:276: i = 0; while i < d and row i is zero, i++; [cnt] = d - i *)
Fixpoint lz_loop (b : list (list Z)) (i cnt : nat) : option nat :=
  match cnt with
  | 0 => Some i
  | S c => row <- nth_error b i;; if nv_is_zero row 0 then lz_loop b (S i) c else Some i
  end.
(** util.cpp:263-270 = 279-286 *)
Definition rotate_if (i : nat) (b u ui : list (list Z))
  : option (list (list Z) * list (list Z) * list (list Z)) :=
  let d := length b in
  if (0 <? i) && (i <? d) then
    b' <- rotate_by_swap b 0 i (d - 1);;
    u' <- (if 0 <? length u then rotate_by_swap u 0 i (d - 1) else Some u);;
    ui' <- (if 0 <? length ui then rotate_by_swap ui 0 i (d - 1) else Some ui);;
    Some (b', u', ui')
  else Some (b, u, ui).
(** util.cpp:257-271 *)
Definition zeros_first (b u ui : list (list Z)) := i <- tz_loop b (length b);; rotate_if i b u ui.
(** util.cpp:273-287 *)
Definition zeros_last (b u ui : list (list Z)) := i <- lz_loop b 0 (length b);; rotate_if i b u ui.

(** ** One LLL run on given matrices *)
(** The floating-point type used in a run: its operations, the content of
    uninitialised cells, the parameters delta and eta converted to it, and the
    value of max_iter (lll.cpp:79-80) as a function of the basis. *)
Record env := mkenv {
  e_lo : lops; e_junk : F (lf e_lo); e_delta : F (lf e_lo); e_eta : F (lf e_lo);
  e_iter : list (list Z) -> nat
}.
(** Flags given to MatGSO (gso_interface.h:26-32): GSO_ROW_EXPO, GSO_INT_GRAM,
    GSO_OP_FORCE_LONG. *)
Record gflags := mkgf { g_rowexpo : bool; g_intgram : bool; g_long : bool }.
(** The matrices, status, final_kappa, last_early_red and outcome after the run. *)
Record rres := mkrres {
  r_b : list (list Z); r_u : list (list Z); r_ui : list (list Z);
  r_status : red_status; r_fk : nat; r_er : nat; r_out : out
}.
(** wrapper.cpp:130-133, 549-551: MatGSO m_gso(b,u,u_inv,gso_flags);
    LLLReduction lll_obj(m_gso,delta,eta,flags); lll_obj.last_early_red = er;
    lll_obj.lll() with default arguments (lll.h:52-53: 0, 0, -1, 0). *)
Definition run_lll (E : env) (fuel : nat) (early siegel : bool) (gf : gflags) (er : nat)
    (b : list (list Z)) (c : nat) (u ui : list (list Z)) : option rres :=
  let z := gso_new b c u ui (g_intgram gf) (g_long gf) in
  f <- fst_new (lf (e_lo E)) (g_rowexpo gf) (e_junk E) z;;
  let st0 := @set_er (e_lo E) (@lst_new (e_lo E) z f) er in
  let P := lll_par (e_lo E) z (g_rowexpo gf) (e_delta E) (e_eta E) early siegel in
  r <- lll (e_lo E) P fuel (e_iter E) st0 0 0 (gd z) 0;;
  let st := fst r in
  Some (mkrres (gb (lz st)) (gu (lz st)) (gui (lz st)) (lstat st) (lfk st) (ler st) (snd r)).

(** ** class Wrapper *)
(** defs.h LLLMethod without LM_WRAPPER *)
Inductive meth := LM_PROVED | LM_HEURISTIC | LM_FAST.
(** floating-point types used by the wrapper *)
Inductive ftype := TDouble | TLongDouble | TDD | TQD | TDpe | TMpfr.
(** What one call of call_lll was asked to do, and (ghost) what it did. *)
Record wcall := mkcall { c_meth : meth; c_ft : ftype; c_prec : Z; c_long : bool }.
(** one entry of the ghost log *)
Record wlog := mklog {
  l_call : wcall; l_env : env; l_er : nat;
  l_b : list (list Z); l_u : list (list Z); l_ui : list (list Z); l_res : rres
}.
(** wrapper.h:68-113: the members that change; [wlogs] is the ghost history. *)
Record wst := mkwst {
  wb : list (list Z); wu : list (list Z); wui : list (list Z);
  wbl : list (list Z); wuse : bool; wstat : red_status; wer : nat; wmax : Z; wlogs : list wlog
}.
(** A call returns an int (kappa), or does not return: [WStop] the inner run did
    not return, [WLoop] the model stopped counting the recursion depth. *)
Inductive wres := WK (k : Z) | WStop (o : out) | WLoop.
(** sequencing of calls *)
Definition wbind (x : option (wst * wres)) (f : wst -> Z -> option (wst * wres)) : option (wst * wres) :=
  match x with Some (s, WK k) => f s k | y => y end.

(** mpz_get_si: the value reduced to the range of long (64 bits), exact when in range *)
Definition get_si (x : Z) : Z :=
  (if in_long x then x else let y := (Z.abs x) mod 2 ^ 63 in if x <? 0 then - y else y)%Z.
(** nr_Z_mpz.inl:33-38 exponent: 0 for 0, otherwise e with 2^(e-1) <= |x| < 2^e *)
Definition zexponent (x : Z) : Z := (if x =? 0 then 0 else Z.log2 (Z.abs x) + 1)%Z.
(** matrix.cpp:127-134 get_max_exp *)
Definition get_max_exp (b : list (list Z)) : Z :=
  fold_left (fun m row => fold_left (fun m x => Z.max m (zexponent x)) row m) b 0%Z.

Section Wrapper.
(** Everything the numerical layer decides: the environment of the n-th call,
    the function little (wrapper.cpp:73-94, double arithmetic), good_prec
    (l2_min_prec) and (int)ceil(0.5 * log2((double)d * n)). *)
Variable envs : wcall -> nat -> env.
Variable little : Z -> Z -> bool.
Variable good_prec : Z.
Variable lg : nat -> nat -> Z.
Variable fuel : nat.
(** wrapper flags LLL_EARLY_RED, LLL_SIEGEL; compile-time options
    FPLLL_WITH_ZLONG, FPLLL_WITH_LONG_DOUBLE, FPLLL_WITH_QD, FPLLL_WITH_DPE *)
Variables (early siegel : bool) (zlong wld wqd wdpe : bool).
(** digits of long double (64 on x86) *)
Variable ld_digits : Z.
(** number of columns n *)
Variable n : nat.

(** wrapper.cpp:117-123 *)
Definition call_flags (m : meth) (prec : Z) : gflags :=
  mkgf (match m with LM_FAST => true | _ => false end)
       (match m with LM_PROVED => true | _ => false end)
       (match m with LM_PROVED => false | _ => (prec =? 0)%Z end).

(** wrapper.cpp:99-152 call_lll<Z,F>(bz,uz,u_invZ,...): [c_long] tells Z = long, in
    which case it works on (b_long, u_long, u_inv_long), the last two empty.
    Simplification: arithmetic on Z = long is on unbounded integers. *)
Definition call_lll (s : wst) (x : wcall) : option (wst * wres) :=
  let E := envs x (length (wlogs s)) in
  let b := if c_long x then wbl s else wb s in
  let u := if c_long x then [] else wu s in
  let ui := if c_long x then [] else wui s in
  r <- run_lll E fuel early siegel (call_flags (c_meth x) (c_prec x)) (wer s) b n u ui;;
  let s' := mkwst (if c_long x then wb s else r_b r) (if c_long x then wu s else r_u r)
                  (if c_long x then wui s else r_ui r) (if c_long x then r_b r else wbl s)
                  (wuse s) (r_status r) (Nat.max (wer s) (r_er r)) (wmax s)
                  (wlogs s ++ [mklog x E (wer s) b u ui r]) in
  Some (s', match r_out r with
            | OFuel => WStop OFuel
            | OExpo => WStop OExpo
            | _ => WK (match r_status r with
                       | RED_SUCCESS => 0
                       | RED_GSO_FAILURE | RED_BABAI_FAILURE => Z.of_nat (r_fk r)
                       | _ => -1 end)
            end)%Z.

(** wrapper.cpp:157-174 *)
Definition fast_lll (s : wst) (ft : ftype) := call_lll s (mkcall LM_FAST ft 0 false).
(** wrapper.cpp:162-167 *)
Definition heuristic_lll (s : wst) (l : bool) (ft : ftype) (prec : Z) := call_lll s (mkcall LM_HEURISTIC ft prec l).
(** wrapper.cpp:169-174 *)
Definition proved_lll (s : wst) (l : bool) (ft : ftype) (prec : Z) := call_lll s (mkcall LM_PROVED ft prec l).

(** wrapper.cpp:387 *)
Definition increase_prec (p : Z) : Z := Z.min (p * 2) good_prec.
(** defs.h:138-140 and numeric_limits<double>::digits *)
Definition MAX_EXP_DOUBLE : Z := 1000.
(** defs.h:140 *)
Definition PREC_DD : Z := 106.
(** numeric_limits<double>::digits *)
Definition DBL_DIGITS : Z := 53.

(** wrapper.cpp:202-233; [k] bounds the recursion depth *)
Fixpoint proved_loop (k : nat) (s : wst) (p : Z) : option (wst * wres) :=
  match k with
  | 0 => Some (s, WLoop)
  | S k' =>
      wbind (if ((if wqd then PREC_DD else DBL_DIGITS) <? p)%Z then proved_lll s false TMpfr p
             else if (MAX_EXP_DOUBLE <? wmax s * 2)%Z then
               (if wdpe then proved_lll s false TDpe 0 else proved_lll s false TMpfr p)
             else if wqd && (DBL_DIGITS <? p)%Z then proved_lll s false TDD p
             else proved_lll s false TDouble 0)
        (fun s1 kappa =>
           if (kappa =? 0)%Z then Some (s1, WK 0)
           else if (p <? good_prec)%Z then proved_loop k' s1 (increase_prec p)
           else Some (s1, WK (-1)))
  end.

(** wrapper.cpp:179-200 *)
Fixpoint heuristic_loop (k : nat) (s : wst) (p : Z) : option (wst * wres) :=
  match k with
  | 0 => Some (s, WLoop)
  | S k' =>
      wbind (if (DBL_DIGITS <? p)%Z then heuristic_lll s false TMpfr p
             else if wdpe then heuristic_lll s false TDpe 0 else heuristic_lll s false TMpfr p)
        (fun s1 kappa =>
           if (kappa =? 0)%Z then Some (s1, WK 0)
           else if (p <? good_prec)%Z && negb (little kappa p) then heuristic_loop k' s1 (increase_prec p)
           else proved_loop k' s1 p)
  end.

(** wrapper.cpp:53 = 264: the value of max_exponent *)
Definition max_exponent (b : list (list Z)) : Z := (get_max_exp b + lg (length b) n)%Z.
(** replaces one member *)
Definition set_max (s : wst) (x : Z) : wst :=
  mkwst (wb s) (wu s) (wui s) (wbl s) (wuse s) (wstat s) (wer s) x (wlogs s).

(** wrapper.cpp:237-272 *)
Definition last_lll (s : wst) : option (wst * wres) :=
  if zlong && wuse s then
    if (good_prec <=? DBL_DIGITS)%Z then proved_lll s true TDouble good_prec
    else if wqd && (good_prec <=? PREC_DD)%Z then proved_lll s true TDD good_prec
    else proved_lll s true TMpfr good_prec
  else if wdpe then
    if (good_prec <=? DBL_DIGITS)%Z then proved_lll s false TDpe good_prec
    else if wqd && (good_prec <=? PREC_DD)%Z then
      let s1 := set_max s (max_exponent (wb s)) in
      if (wmax s1 * 2 <? MAX_EXP_DOUBLE)%Z then proved_lll s1 false TDD good_prec
      else proved_lll s1 false TMpfr good_prec
    else proved_lll s false TMpfr good_prec
  else proved_lll s false TMpfr good_prec.

(** wrapper.cpp:364-385; the copy back assigns values of type long, exactly *)
Definition set_use_long (s : wst) (v : bool) : wst :=
  if zlong then
    mkwst (if wuse s && negb v then wbl s else wb s) (wu s) (wui s)
          (if negb (wuse s) && v then map (map get_si) (wb s) else wbl s)
          v (wstat s) (wer s) (wmax s) (wlogs s)
  else s.

(** the empty test of matrix.h:133 *)
Definition emptyb (M : list (list Z)) : bool := length M =? 0.

(** wrapper.cpp:306-352: the reductions before the last one, large matrices *)
Definition large_stage (k : nat) (s : wst) : option (wst * wres) :=
  wbind (fast_lll s TDouble) (fun s1 k1 =>
  wbind (if wld && negb (k1 =? 0)%Z then fast_lll s1 TLongDouble else Some (s1, WK k1)) (fun s2 k2 =>
  wbind (if wqd && negb (k2 =? 0)%Z then fast_lll s2 TDD else Some (s2, WK k2)) (fun s3 k3 =>
  let last_prec := (if wqd then PREC_DD else if wld then ld_digits else DBL_DIGITS)%Z in
  if negb (k3 =? 0)%Z then
    (if little k3 last_prec then proved_loop k s3 DBL_DIGITS
     else heuristic_loop k s3 (increase_prec DBL_DIGITS))
  else Some (s3, WK k3)))).

(** wrapper.cpp:281-359.  The returned value is [WK 1] for true, [WK 0] for false.
    numeric_limits<long>::digits - 2 = 61. *)
Definition wrapper_lll (k : nat) (s : wst) : option (wst * wres) :=
  if emptyb (wb s) || (n =? 0) then Some (s, WK 0)   (* return RED_SUCCESS, converted to bool *)
  else
    let ee := emptyb (wu s) && emptyb (wui s) in
    let hl := zlong && (wmax s <? 61)%Z && ee in
    let pl := zlong && (2 * wmax s <? 61)%Z && ee in
    wbind (if hl then heuristic_lll (set_use_long s true) true TDouble 0 else large_stage k s) (fun s1 _ =>
    wbind (last_lll (set_use_long s1 pl)) (fun s2 kappa =>
    Some (set_use_long s2 false, WK (if (kappa =? 0)%Z then 1 else 0)))).

(** wrapper.cpp:45-57 constructor.  For an empty matrix log2(0) = -inf is converted
    to int: undefined behaviour. *)
Definition wrapper_new (b u ui : list (list Z)) : option wst :=
  if emptyb b || (n =? 0) then None
  else Some (mkwst b u ui [] false RED_SUCCESS 0 (max_exponent b) []).

(** ** lll_reduction *)
(** Returned status, FPLLL_ABORT/FPLLL_CHECK failed, or not returning. *)
Inductive zres := ZStatus (x : red_status) | ZAbort | ZStop (w : wres).

(** wrapper.cpp:563-574 lll_reduction_wrapper for mpz; the checks on float_type and
    precision give [ZAbort] *)
Definition lll_reduction_wrapper (k : nat) (b u ui : list (list Z)) (ft_default : bool) (prec : Z)
  : option (list (list Z) * list (list Z) * list (list Z) * zres) :=
  if negb (ft_default && (prec =? 0)%Z) then Some (b, u, ui, ZAbort)
  else
    s <- wrapper_new b u ui;;
    r <- wrapper_lll k s;;
    match snd r with
    | WK _ =>
        t <- zeros_first (wb (fst r)) (wu (fst r)) (wui (fst r));;
        Some (t, ZStatus (wstat (fst r)))
    | w => Some (wb (fst r), wu (fst r), wui (fst r), ZStop w)
    end.

(** wrapper.cpp:538-553 lll_reduction_zf *)
Definition zf_flags (m : meth) : gflags :=
  mkgf (match m with LM_FAST => true | _ => false end)
       (match m with LM_PROVED => true | _ => false end)
       (match m with LM_FAST => true | _ => false end).
(** wrapper.cpp:538-554 lll_reduction_zf *)
Definition lll_reduction_zf (m : meth) (ft : ftype) (prec : Z) (b u ui : list (list Z))
  : option (list (list Z) * list (list Z) * list (list Z) * zres) :=
  if emptyb b || (n =? 0) then Some (b, u, ui, ZStatus RED_SUCCESS)
  else
    r <- run_lll (envs (mkcall m ft prec false) 0) fuel early siegel (zf_flags m) 0 b n u ui;;
    Some (r_b r, r_u r, r_ui r,
          match r_out r with OFuel => ZStop (WStop OFuel) | OExpo => ZStop (WStop OExpo) | _ => ZStatus (r_status r) end).

(** wrapper.cpp:606-641: selection of the floating-point type; [None] is an abort.
    get_prec: double and dpe 53 (DPE_BITSIZE), dd_real 106, qd_real 212. *)
Definition ft_eqb (a b : ftype) : bool :=
  match a, b with
  | TDouble, TDouble | TLongDouble, TLongDouble | TDD, TDD | TQD, TQD | TDpe, TDpe | TMpfr, TMpfr => true
  | _, _ => false
  end.
(** wrapper.cpp:606-641 *)
Definition sel_ft (m : meth) (ft : option ftype) (prec : Z) : option ftype :=
  let sel_prec := (if prec =? 0 then (match m with LM_PROVED => good_prec | _ => 53 end) else prec)%Z in
  let ft1 := if (prec =? 0)%Z then ft else match ft with None => Some TMpfr | x => x end in
  if negb (prec =? 0)%Z && negb (match ft1 with Some TMpfr => true | _ => false end) then None
  else match ft1 with
       | None =>
           match m with
           | LM_FAST => Some TDouble
           | _ => if wdpe && (sel_prec <=? 53)%Z then Some TDpe
                  else if wqd && (sel_prec <=? 106)%Z then Some TDD
                  else if wqd && (sel_prec <=? 212)%Z then Some TQD
                  else Some TMpfr
           end
       | Some t =>
           match m with
           | LM_FAST => if ft_eqb t TDouble || ft_eqb t TLongDouble || ft_eqb t TDD || ft_eqb t TQD then Some t else None
           | _ => Some t
           end
       end.
(** wrapper.cpp:681-731: is the type supported by the build *)
Definition ft_built (t : ftype) : bool :=
  match t with TLongDouble => wld | TDpe => wdpe | TDD | TQD => wqd | _ => true end.

(** wrapper.cpp:579-734 lll_reduction_z; [m] = None is LM_WRAPPER, [ft] = None is
    FT_DEFAULT *)
Definition lll_reduction_z (k : nat) (m : option meth) (ft : option ftype) (prec : Z) (b u ui : list (list Z))
  : option (list (list Z) * list (list Z) * list (list Z) * zres) :=
  match m with
  | None => lll_reduction_wrapper k b u ui (match ft with None => true | _ => false end) prec
  | Some m =>
      if (match m with LM_PROVED => early | _ => false end) then Some (b, u, ui, ZAbort)
      else match sel_ft m ft prec with
           | None => Some (b, u, ui, ZAbort)
           | Some t =>
               if negb (ft_built t) then Some (b, u, ui, ZAbort)
               else
                 r <- lll_reduction_zf m t prec b u ui;;
                 let '(b1, u1, ui1, x) := r in
                 match x with
                 | ZStatus _ => t <- zeros_first b1 u1 ui1;; Some (t, x)
                 | _ => Some r
                 end
           end
  end.

(** matrix.cpp:95-112 transpose, for a square matrix with exactly r rows of r
    entries (here: u_inv after gen_identity, or empty) *)
Definition transpose_sq (M : list (list Z)) : option (list (list Z)) :=
  let r := length M in
  ofor (seq 0 r) (fun i M => ofor (seq (S i) (r - S i)) (fun j M => mswap M i j j i) M) M.
(** matrix.cpp gen_identity: d x d identity *)
Definition gen_identity (d : nat) : list (list Z) :=
  map (fun i => map (fun j => if i =? j then 1%Z else 0%Z) (seq 0 d)) (seq 0 d).

(** wrapper.cpp:1025-1037 lll_reduction(b, u, u_inv, ...) *)
Definition lll_reduction (k : nat) (m : option meth) (ft : option ftype) (prec : Z) (b u u_inv : list (list Z))
  : option (list (list Z) * list (list Z) * list (list Z) * zres) :=
  let u1 := if emptyb u then u else gen_identity (length b) in
  let v1 := if emptyb u_inv then u_inv else gen_identity (length b) in
  v2 <- transpose_sq v1;;
  r <- lll_reduction_z k m ft prec b u1 v2;;
  let '(b', u', ui', x) := r in
  match x with
  | ZStatus _ => v' <- transpose_sq ui';; Some (b', u', v', x)
  | _ => Some r
  end.
End Wrapper.

(** ** HLLL wrapper *)
(** wrapper.cpp:395-438: call_hlll runs HLLLReduction::hlll and returns whether its
    status is RED_SUCCESS; the status is stored in a LOCAL variable, the member
    Wrapper::status is not assigned.  The run itself is a parameter: the n-th
    call's final status.  [hcalls] is the ghost list of calls with their result. *)
Record hst := mkhst { hstat : red_status; hcalls : list (ftype * bool * Z * red_status) }.
Section HWrapper.
Variable run : ftype -> bool -> Z -> nat -> red_status.   (* type, proved?, precision, call number *)
Variable good_prec : Z.
Variables wld wqd wdpe : bool.
Variable ld_digits : Z.

(** status == RED_SUCCESS *)
Definition is_success (x : red_status) : bool := match x with RED_SUCCESS => true | _ => false end.
(** wrapper.cpp:395-438 call_hlll *)
Definition call_hlll (s : hst) (ft : ftype) (proved : bool) (prec : Z) : hst * bool :=
  let x := run ft proved prec (length (hcalls s)) in
  (mkhst (hstat s) (hcalls s ++ [(ft, proved, prec, x)]), is_success x).
(** wrapper.cpp:443-455 *)
Definition last_hlll (s : hst) : hst * bool :=
  if wdpe && (good_prec <=? DBL_DIGITS)%Z then call_hlll s TDpe true good_prec
  else if wdpe && wqd && (good_prec <=? PREC_DD)%Z then call_hlll s TDD true good_prec
  else call_hlll s TMpfr true good_prec.
(** wrapper.cpp:456-466; None: the recursion bound of the model was reached *)
Fixpoint hlll_proved_loop (k : nat) (s : hst) (p : Z) : option (hst * Z) :=
  match k with
  | 0 => None
  | S k' =>
      let r := call_hlll s TMpfr true p in
      if snd r then Some (fst r, 0%Z)
      else if (p <? good_prec)%Z then hlll_proved_loop k' (fst r) (increase_prec good_prec p)
      else Some (fst r, (-1)%Z)
  end.
(** wrapper.cpp:478-527; [empty]: rows or columns = 0 *)
Definition wrapper_hlll (k : nat) (empty : bool) (s : hst) : option (hst * bool) :=
  if empty then Some (s, false)   (* return RED_SUCCESS, converted to bool *)
  else
    let r1 := call_hlll s TDouble false 0 in
    let r2 := if wld && negb (snd r1) then call_hlll (fst r1) TLongDouble false 0 else r1 in
    let p2 := (if wld && negb (snd r1) then ld_digits else DBL_DIGITS)%Z in
    let r3 := if wqd && negb (snd r2) then call_hlll (fst r2) TDD false 0 else r2 in
    let p3 := (if wqd && negb (snd r2) then PREC_DD else p2)%Z in
    r4 <- (if negb (snd r3) then hlll_proved_loop k (fst r3) p3 else Some (fst r3, 0%Z));;
    (* the value returned by hlll_proved_loop is overwritten *)
    let r5 := last_hlll (fst r4) in
    Some (fst r5, Bool.eqb (snd r5) false).   (* hlll_complete == RED_SUCCESS, RED_SUCCESS = 0 *)
(** wrapper.cpp:60-71 and 774-787 hlll_reduction_wrapper: the returned status *)
Definition hlll_reduction_wrapper (k : nat) (empty : bool) : option (hst * red_status) :=
  r <- wrapper_hlll k empty (mkhst RED_SUCCESS []);;
  Some (fst r, hstat (fst r)).
End HWrapper.
