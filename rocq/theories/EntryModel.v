(** Model of the functions the user calls: the choice of the floating-point type and of
    the precision in lll_reduction_z and hlll_reduction_z, the verification mode of HLLL
    (fplll/wrapper.cpp), bkz_reduction and hkz_reduction (fplll/bkz.cpp), run_pruner
    (fplll/pruner/pruner.cpp), with the two global settings they change: the default
    precision of MPFR and the control word of the FPU.

    The reductions themselves are parameters: functions of the matrices and of the
    settings they run under.  The LLL wrapper called by bkz_reduction is the one of
    WrapperModel.v; the HLLL wrapper too.  Exceptions leave through every caller (none of
    these functions catches), so an exception keeps the settings of the moment.
    Simplifications: rows and columns are those of the lists; of the verbose output only
    the sentence on the guarantee is kept; abort() ends the program. *)
From Coq Require Import List ZArith Lia Bool Arith.
From Verif Require Import Util LatticeSpec NumVectModel MatrixModel GsoModel GsoFModel LllModel WrapperModel.
Import ListNotations.
Local Open Scope Z_scope.

(** defs.h:200-205 IntType *)
Inductive itype := ZMpz | ZLong | ZDouble.
(** b, u, u_inv *)
Definition mats : Type := list (list Z) * list (list Z) * list (list Z).
(** the global settings: mpfr_get_default_prec and the FPU control word *)
Record glob := mkglob { g_prec : Z; g_cw : Z }.
(** the arithmetic a reduction is run with (ghost): type, default precision of MPFR, FPU
    control word, method *)
Record job := mkjob { j_ft : ftype; j_prec : Z; j_cw : Z; j_meth : meth }.
(** wrapper.cpp:665-676, 838-841, 852-855, 937-948: the sentence printed *)
Inductive msg :=
| Guaranteed (good : Z)       (* prec >= good, the reduction is guaranteed *)
| TooSmall (good : Z)         (* prec < good, the reduction is not guaranteed *)
| NotGuaranteed               (* The reduction is not guaranteed *)
| VerGuaranteed (good : Z)    (* prec >= good, the verification is guaranteed *)
| VerTooSmall (good : Z)      (* prec < good, the verification is not guaranteed *)
| SaysReduced (yes : bool).   (* Basis is (not) reduced *)
(** settings, matrices, reductions run so far, sentences printed so far *)
Record world := mkw { w_g : glob; w_m : mats; w_jobs : list job; w_msgs : list msg }.
(** defs.h RedStatus: those of LLL (LllModel.v), or any other, by its number *)
Inductive est := Red (s : red_status) | Other (code : Z).
(** what a call ends with: a status; an exception; abort(); a reduction that does not
    return (as in WrapperModel); undefined behaviour *)
Inductive eres := ERet (s : est) (w : world) | EThrow (w : world) | EAbort (w : world) | EStop (w : world) | EUb.

(** conversion int -> unsigned int *)
Definition u32 (x : Z) : Z := x mod 2 ^ 32.
(** conversion unsigned int -> int (two's complement) *)
Definition s32 (x : Z) : Z := (x + 2 ^ 31) mod 2 ^ 32 - 2 ^ 31.
(** nr_FP_mpfr.inl:24-29 set_prec; the int stored by the callers is the returned value *)
Definition set_prec (p : Z) (g : glob) : glob * Z := (mkglob (u32 p) (g_cw g), s32 (g_prec g)).

Section Entry.
(** FPLLL_WITH_LONG_DOUBLE, FPLLL_WITH_QD, FPLLL_WITH_DPE; digits of long double *)
Variables wld wqd wdpe : bool.
Variable ld_digits : Z.
(** fpu_fix_start of libqd: the control word it sets *)
Variable fixcw : Z -> Z.

(** ** The choice of the arithmetic *)
(** wrapper.cpp:643-658 = 915-930 (and get_prec of nr_FP_d.inl:22, nr_FP_ld.inl:23-26,
    nr_FP_dpe.inl:24, nr_FP_dd.inl:22, nr_FP_qd.inl:22): sel_prec for the chosen type *)
Definition type_prec (t : ftype) (sel_prec : Z) : Z :=
  match t with
  | TDouble => 53
  | TLongDouble => if wld then ld_digits else sel_prec
  | TDpe => if wdpe then 53 else sel_prec
  | TDD => if wqd then 106 else sel_prec
  | TQD => if wqd then 212 else sel_prec
  | TMpfr => sel_prec
  end.
(** wrapper.cpp:596-604 = 868-876: the first value of sel_prec *)
Definition first_prec (m : meth) (prec good : Z) : Z :=
  if negb (prec =? 0) then prec else match m with LM_PROVED => good | _ => 53 end.
(** wrapper.cpp:665-676 = 937-948 *)
Definition sentence (z : itype) (m : meth) (t : ftype) (sel_prec good : Z) : msg :=
  if negb (match m with LM_PROVED => true | _ => false end) || negb (match z with ZMpz => true | _ => false end) || ft_eqb t TDouble
  then NotGuaranteed
  else if sel_prec <? good then TooSmall good else Guaranteed good.
(** cerr << ... if (flags & LLL_VERBOSE) *)
Definition say (verbose : bool) (x : msg) (w : world) : world :=
  if verbose then mkw (w_g w) (w_m w) (w_jobs w) (w_msgs w ++ [x]) else w.

(** wrapper.cpp:682-719 = 953-984: the reduction in the chosen type; [go] is
    lll_reduction_zf or hlll_reduction_zf, which do not throw *)
Definition run_as (go : job -> mats -> mats * red_status) (m : meth) (t : ftype) (sel_prec : Z) (w : world)
  : world * red_status :=
  let run (g : glob) (back : glob -> glob) :=
    let j := mkjob t (g_prec g) (g_cw g) m in
    let '(x, s) := go j (w_m w) in
    (mkw (back g) x (w_jobs w ++ [j]) (w_msgs w), s) in
  match t with
  | TMpfr => let '(g, old) := set_prec sel_prec (w_g w) in run g (fun g => fst (set_prec old g))
  | TDD | TQD =>
      (* fpu_fix_start(&old_cw) ... fpu_fix_end(&old_cw) *)
      run (mkglob (g_prec (w_g w)) (fixcw (g_cw (w_g w)))) (fun g => mkglob (g_prec g) (g_cw (w_g w)))
  | _ => run (w_g w) (fun g => g)
  end.

(** wrapper.cpp:595-733 = 868-999, the part lll_reduction_z and hlll_reduction_z have in
    common: choice of the type (WrapperModel.sel_ft), check that it is compiled in,
    reduction, zeros_first *)
Definition front (go : job -> mats -> mats * red_status) (verbose : bool) (z : itype) (m : meth) (ft : option ftype)
    (prec good : Z) (w : world) : eres :=
  match sel_ft good wqd wdpe m ft prec with
  | None => EAbort w
  | Some t =>
      let sp := type_prec t (first_prec m prec good) in
      let w := say verbose (sentence z m t sp good) w in
      if negb (ft_built wld wqd wdpe t) then EAbort w
      else
        let '(w, s) := run_as go m t sp w in
        let '(b, u, ui) := w_m w in
        match zeros_first b u ui with
        | Some x => ERet (Red s) (mkw (w_g w) x (w_jobs w) (w_msgs w))
        | None => EUb
        end
  end.

(** wrapper.cpp:579-734 lll_reduction_z, method other than wrapper *)
Definition lll_entry (go : job -> mats -> mats * red_status) (verbose early : bool) (z : itype) (m : meth) (ft : option ftype)
    (prec good : Z) (w : world) : eres :=
  if (match m with LM_PROVED => early | _ => false end) then EAbort w
  else front go verbose z m ft prec good w.

(** ** HLLL *)
(** wrapper.cpp:415-427 (and 125-139 in call_lll): the precision while the reduction runs *)
Definition call_prec (p : Z) (g : glob) : glob := if 0 <? p then fst (set_prec p g) else g.
(** wrapper.cpp:415-427: the precision afterwards *)
Definition call_back (p : Z) (g : glob) : glob :=
  if 0 <? p then fst (set_prec (s32 (g_prec g)) (call_prec p g)) else g.
(** wrapper.cpp:395-438: the arithmetic of one call *)
Definition call_job (g : glob) (c : ftype * bool * Z * red_status) : job :=
  let '(t, proved, p, _) := c in
  mkjob t (g_prec (call_prec p g)) (g_cw g) (if proved then LM_PROVED else LM_FAST).

(** wrapper.cpp:767-787 hlll_reduction_wrapper; [run] gives the status of every call of
    call_hlll, [wm] the matrices after all of them *)
Definition hlll_wrapper_entry (run : ftype -> bool -> Z -> nat -> red_status) (wm : mats -> mats) (k : nat)
    (z : itype) (ft : option ftype) (prec good : Z) (w : world) : eres :=
  match z with
  | ZMpz =>
      if negb (match ft with None => true | _ => false end) || negb (prec =? 0) then EAbort w
      else
        let empty := match fst (fst (w_m w)) with [] => true | r :: _ => (length r =? 0)%nat end in
        match hlll_reduction_wrapper run good wld wqd wdpe ld_digits k empty with
        | None => EStop w
        | Some (h, s) =>
            let '(b, u, ui) := if empty then w_m w else wm (w_m w) in
            let g := fold_left (fun g c => call_back (snd (fst c)) g) (hcalls h) (w_g w) in
            match zeros_first b u ui with
            | Some x => ERet (Red s) (mkw g x (w_jobs w ++ map (call_job (w_g w)) (hcalls h)) (w_msgs w))
            | None => EUb
            end
        end
  | _ => EAbort w
  end.

(** wrapper.cpp:754-765, 828-862 the verification (nolll): [ver] is is_hlll_reduced on the
    matrix under the given settings *)
Definition hlll_verify (ver : job -> mats -> red_status) (verbose : bool) (prec good : Z) (w : world) : eres :=
  let sp := if negb (prec =? 0) then prec else good in
  let w := say verbose (if sp <? good then VerTooSmall good else VerGuaranteed good) w in
  let '(g, old) := set_prec sp (w_g w) in
  let j := mkjob TMpfr (g_prec g) (g_cw g) LM_PROVED in
  let s := match fst (fst (w_m w)) with
           | [] => RED_SUCCESS
           | r :: _ => if (length r =? 0)%nat then RED_SUCCESS else ver j (w_m w)
           end in
  let w := say verbose (SaysReduced (is_success s)) w in
  ERet (Red s) (mkw (fst (set_prec old g)) (w_m w) (w_jobs w ++ [j]) (w_msgs w)).

(** wrapper.cpp:808-1000 hlll_reduction_z; [m] = None is LM_WRAPPER *)
Definition hlll_reduction_z (go : job -> mats -> mats * red_status) (ver : job -> mats -> red_status)
    (run : ftype -> bool -> Z -> nat -> red_status) (wm : mats -> mats) (k : nat)
    (verbose nolll : bool) (z : itype) (m : option meth) (ft : option ftype) (prec good : Z) (w : world) : eres :=
  match m with
  | Some LM_HEURISTIC => EAbort w
  | _ =>
      if nolll then hlll_verify ver verbose prec good w
      else match m with
           | None => hlll_wrapper_entry run wm k z ft prec good w
           | Some m => front go verbose z m ft prec good w
           end
  end.

(** ** The pruner *)
(** pruner.cpp:43-48: the rows [start, end) *)
Definition prune_window (rows prune_start prune_end : Z) : Z * Z :=
  let s := if (prune_start <? 0) || (rows - 1 <=? prune_start) then 0 else prune_start in
  let e := if (prune_end <=? s) || (rows <=? prune_end) then rows else prune_end in
  (s, e).
(** pruner.cpp:116-176 run_pruner with 32-113 run_pruner_f; [go] optimises the pruning
    coefficients of the given rows, [None] is an exception of the pruner *)
Definition run_pruner (go : job -> Z * Z -> option unit) (ft : option ftype) (prec ps pe : Z) (w : world) : eres :=
  let t := match ft with Some t => t | None => TDouble end in
  if ft_eqb t TMpfr && (prec =? 0) then EAbort w
  else if negb (ft_built wld wqd wdpe t) then EAbort w
  else
    let '(g, back) := match t with
                      | TMpfr => let '(g, old) := set_prec prec (w_g w) in (g, fst (set_prec old g))
                      | _ => (w_g w, w_g w)
                      end in
    let b := fst (fst (w_m w)) in
    if match b with [] => true | r :: _ => (length r =? 0)%nat end
    then ERet (Red RED_SUCCESS) (mkw back (w_m w) (w_jobs w) (w_msgs w))
    else
      let j := mkjob t (g_prec g) (g_cw g) LM_FAST in
      match go j (prune_window (Z.of_nat (length b)) ps pe) with
      | Some _ => ERet (Red RED_SUCCESS) (mkw back (w_m w) (w_jobs w ++ [j]) (w_msgs w))
      | None => EThrow (mkw g (w_m w) (w_jobs w ++ [j]) (w_msgs w))
      end.
End Entry.

(** ** BKZ *)
(** bkz_param.h: the parameters read by bkz_reduction; D is the type of delta *)
Record bkzpar (D : Type) := mkpar { p_block : Z; p_delta : D; p_nolll : bool; p_verbose : bool }.
Arguments mkpar {D}. Arguments p_block {D}. Arguments p_delta {D}. Arguments p_nolll {D}. Arguments p_verbose {D}.

Section Bkz.
Variables zlong wld wqd wdpe : bool.
Variable ld_digits : Z.
(** double, delta < 1, LLL_DEF_DELTA, 1 *)
Variable D : Type.
Variable below1 : D -> bool.
Variables def_delta one_delta : D.
(** the numerical layer of the LLL wrapper, see WrapperModel.v; it depends on the delta
    given to it *)
Variable envs : D -> wcall -> nat -> env.
Variable little : D -> Z -> Z -> bool.
Variable good_prec : D -> Z.
Variable lg : nat -> nat -> Z.
Variables fuel k n : nat.
(** bkz.cpp:812-846 bkz_reduction_f on a non-empty matrix: the new matrices and the status,
    None if bkz() throws (bkz.cpp:111, 291, 348, 486, 533) *)
Variable brun : bkzpar D -> D -> job -> mats -> mats * option est.

(** bkz.cpp:878-926 BKZ in the type [t], zeros_first; [m] are the matrices after LLL, [dl]
    is lll_delta *)
Definition bkz_in_type (par : bkzpar D) (dl : D) (t : ftype) (prec : Z) (g : glob) (m : mats) : eres :=
  if negb (ft_built wld wqd wdpe t) then EAbort (mkw g m [] [])
  else
    let '(g1, back) := match t with
                       | TMpfr => let '(g1, old) := set_prec prec g in (g1, fst (set_prec old g1))
                       | _ => (g, g)
                       end in
    let j := mkjob t (g_prec g1) (g_cw g1) LM_FAST in
    let '(m2, r) := if emptyb (fst (fst m)) || (n =? 0)%nat then (m, Some (Red RED_SUCCESS)) else brun par dl j m in
    match r with
    | None => EThrow (mkw g1 m2 [j] [])
    | Some s =>
        let '(b2, u2, ui2) := m2 in
        match zeros_first b2 u2 ui2 with
        | Some m3 => ERet s (mkw back m3 [j] [])
        | None => EUb
        end
    end.
(** bkz.cpp:862 lll_delta *)
Definition lll_delta (par : bkzpar D) : D := if below1 (p_delta par) then p_delta par else def_delta.
(** bkz.cpp:849-927, after the pointer test; [b], [u] are *B and *U ([] for U = NULL) *)
Definition bkz_reduction_at (par : bkzpar D) (ft : option ftype) (prec : Z) (g : glob) (b u : list (list Z)) : eres :=
  let u := match u with [] => [] | _ => gen_identity (length b) end in
  let dl := lll_delta par in
  let t := match ft with Some t => t | None => TDouble end in
  if ft_eqb t TMpfr && (prec =? 0) then EAbort (mkw g (b, u, []) [] [])
  else if p_nolll par then
    match zeros_last b u [] with Some m => bkz_in_type par dl t prec g m | None => EUb end
  else
    match wrapper_new lg n b u [] with
    | None => EUb
    | Some s0 =>
        match wrapper_lll (envs dl) (little dl) (good_prec dl) lg fuel false false zlong wld wqd wdpe ld_digits n k s0 with
        | None => EUb
        | Some (s, WK r) =>
            if r =? 0 then ERet (Red (wstat s)) (mkw g (wb s, wu s, wui s) [] [])
            else bkz_in_type par dl t prec g (wb s, wu s, wui s)
        | Some (s, _) => EStop (mkw g (wb s, wu s, wui s) [] [])
        end
    end.
(** bkz.cpp:849-855 with the pointer test; U = None is the null pointer *)
Definition bkz_reduction (par : bkzpar D) (ft : option ftype) (prec : Z) (g : glob) (B U : option (list (list Z))) : eres :=
  match B with
  | None => EAbort (mkw g ([], match U with Some u => u | None => [] end, []) [] [])
  | Some b => bkz_reduction_at par ft prec g b (match U with Some u => u | None => [] end)
  end.
(** bkz.cpp:946-955 hkz_reduction; [verbose] is HKZ_VERBOSE *)
Definition hkz_reduction (verbose : bool) (ft : option ftype) (prec : Z) (g : glob) (b : list (list Z)) : eres :=
  bkz_reduction (mkpar (Z.of_nat (length b)) one_delta false verbose) ft prec g (Some b) None.
(** bkz.cpp:929-935 bkz_reduction(b, block_size, flags, ...) *)
Definition bkz_reduction_b (block : Z) (nolll verbose : bool) (ft : option ftype) (prec : Z) (g : glob) (b : list (list Z)) : eres :=
  bkz_reduction (mkpar block def_delta nolll verbose) ft prec g (Some b) None.
End Bkz.
