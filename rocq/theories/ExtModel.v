(** The interface to external enumerators: ExternalEnumeration (enum/enumerate_ext.cpp), Enumeration::enumerate (enum/enumerate.h),
    the choice of the template in enumlib (enum-parallel/enumlib.cpp, enumlib_dim.cpp), and the data that the internal
    enumerator prepares from the same arguments (enum/enumerate.cpp).

    An external enumerator is any finite tree of interactions with its three callbacks.  Arrays are lists; an access outside an
    array is the outcome [XUB], a failed FPLLL_CHECK is [XAbort] (defs.h:76-85). *)
From Coq Require Import List ZArith Arith Bool.
Import ListNotations.

Inductive xres (A : Type) := XOk (a : A) | XAbort | XUB.
Arguments XOk {A}. Arguments XAbort {A}. Arguments XUB {A}.
Definition xbind {A B} (x : xres A) (f : A -> xres B) : xres B := match x with XOk a => f a | XAbort => XAbort | XUB => XUB end.

(** number types FT and enumf: mul_2si, get_d, get_d(GMP_RNDU), exponent, assignment of a double, 1/x, -x, 1.0, 0.0, < *)
Record fops := { FT : Type; EF : Type; f_mul2 : FT -> Z -> FT; f_d : FT -> EF; f_du : FT -> EF; f_exp : FT -> Z; f_of : EF -> FT;
  e_inv : EF -> EF; e_opp : EF -> EF; e_one : EF; e_zero : EF; e_lt : EF -> EF -> bool; e_mul : EF -> EF -> EF }.
(** what is used of MatGSOInterface: d, get_r_exp, get_mu *)
Record gsov (o : fops) := { g_d : nat; g_r : nat -> FT o * Z; g_mu : nat -> nat -> FT o }.
Arguments g_d {o}. Arguments g_r {o}. Arguments g_mu {o}.

Section Ext.
Variable o : fops.
Notation F := (FT o).
Notation E := (EF o).
Variable g : gsov o.
(** the evaluator, given its exponent: eval_sol with the bound, eval_sub_sol *)
Variable EV : Type.
Variable evalS : Z -> list F -> E -> E -> EV -> EV * E.
Variable evalSub : Z -> nat -> list F -> E -> EV -> EV.
Variable findsubsols : bool.

(** a[k] = v *)
Definition wr {A} (l : list A) (k : nat) (v : A) : xres (list A) :=
  if (k <? length l)%nat then XOk (firstn k l ++ v :: skipn (S k) l) else XUB.
(** a loop writing a[pos i] = val i for the given indices *)
Fixpoint wr_all {A} (ks : list (nat * A)) (l : list A) : xres (list A) :=
  match ks with [] => XOk l | (k, v) :: t => xbind (wr l k v) (wr_all t) end.

(** enumerate_ext.cpp:69-74, enumerate.cpp:92-97 *)
Definition norm_exp (first d : nat) : Z :=
  fold_left (fun n i => Z.max n (snd (g_r g (i + first)) + f_exp o (fst (g_r g (i + first))))) (seq 0 d) (-1)%Z.

(** enumerate_ext.cpp:91-148 callback_set_config *)
Definition set_config (first d : nat) (ne : Z) (pruning : list E) (mu rd pr : list E) (mudim : nat) (tr : bool) : xres (list E * list E * list E) :=
  xbind (wr_all (map (fun i => (i, f_d o (f_mul2 o (fst (g_r g (i + first))) (snd (g_r g (i + first)) - ne)))) (seq 0 d)) rd) (fun rd =>
  xbind (wr_all (if tr
      then flat_map (fun i => map (fun j => (i * mudim + j, f_d o (g_mu g (j + first) (i + first)))) (seq (S i) (d - S i))) (seq 0 d)
      else flat_map (fun j => map (fun i => (j * mudim + i, f_d o (g_mu g (j + first) (i + first)))) (seq 0 j)) (seq 0 d)) mu) (fun mu =>
  xbind (wr_all (map (fun i => (i, match pruning with [] => e_one o | _ => nth i pruning (e_zero o) end)) (seq 0 d)) pr) (fun pr => XOk (mu, rd, pr)))).

(** an external enumerator: the calls it makes (enumerate_ext_api.h:30-90), then the numbers of nodes *)
Inductive ext :=
| XRet (nodes : list Z)
| XCfg (mu rd pr : list E) (mudim : nat) (tr : bool) (k : list E -> list E -> list E -> ext)
| XSol (dist : E) (sol : list E) (k : E -> ext)
| XSub (dist : E) (sol : list E) (off : nat) (k : ext).

(** enumerate_ext.cpp:150-157 callback_process_sol: the coordinates passed on *)
Definition sol_coords (d : nat) (sol : list E) : xres (list F) := if (length sol <? d)%nat then XUB else XOk (map (f_of o) (firstn d sol)).
(** enumerate_ext.cpp:159-167 callback_process_subsol (an offset above _d would leave the array) *)
Definition sub_coords (d off : nat) (sol : list E) : xres (list F) :=
  if (d <? off)%nat || ((off <? d)%nat && (length sol <? d)%nat) then XUB
  else XOk (repeat (f_of o (e_zero o)) off ++ map (f_of o) (firstn (d - off) (skipn off sol))).

(** the callbacks answering one enumerator; evaluator and _maxdist (enumerate_ext.cpp:81-86, 91-167) *)
Fixpoint run_ext (first d : nat) (ne : Z) (pruning : list E) (t : ext) (ev : EV) (md : E) : xres (EV * E * list Z) :=
  match t with
  | XRet n => XOk (ev, md, n)
  | XCfg mu rd pr mudim tr k => xbind (set_config first d ne pruning mu rd pr mudim tr) (fun c => run_ext first d ne pruning (k (fst (fst c)) (snd (fst c)) (snd c)) ev md)
  | XSol dist sol k => xbind (sol_coords d sol) (fun v => let r := evalS ne v dist md ev in run_ext first d ne pruning (k (snd r)) (fst r) (snd r))
  | XSub dist sol off k => xbind (sub_coords d off sol) (fun v => run_ext first d ne pruning k (evalSub ne off v dist ev) md)
  end.

(** ~uint64_t(0) *)
Definition no_nodes : Z := (2 ^ 64 - 1)%Z.
(** the arguments last = -1, first, _d (enumerate_ext.cpp:55-62, enumerate.cpp:68-71); a range outside the basis is undefined *)
Definition block_dim (first : nat) (last : Z) : xres nat :=
  let l := if (last =? -1)%Z then Z.of_nat (g_d g) else last in
  if (l <? Z.of_nat first)%Z || (Z.of_nat (g_d g) <? l)%Z then XUB else XOk (Z.to_nat (l - Z.of_nat first)).
(** enumerate_ext.cpp:75-77 *)
Definition ext_maxdist (fmaxdist : F) (fexpo ne : Z) (dual : bool) : E := f_du o (f_mul2 o fmaxdist (if dual then ne - fexpo else fexpo - ne)).
(** enumerate_ext.cpp:48-89 ExternalEnumeration::enumerate: success, evaluator, nodes; fmaxdist is not written *)
Definition ext_enumerate (extenum : option (nat -> E -> bool -> bool -> ext)) (first : nat) (last : Z) (fmaxdist : F) (fexpo : Z) (pruning : list E)
  (dual : bool) (ev : EV) : xres (bool * EV * list Z) :=
  match extenum with
  | None => XOk (false, ev, [])
  | Some f =>
      xbind (block_dim first last) (fun d =>
      if negb (match pruning with [] => true | _ => (length pruning =? d)%nat end) then XAbort else
      let ne := norm_exp first d in
      let md := ext_maxdist fmaxdist fexpo ne dual in
      xbind (run_ext first d ne pruning (f d md dual findsubsols) ev md) (fun r =>
      match snd r with [] => XUB | n :: _ => XOk (negb (n =? no_nodes)%Z, fst (fst r), snd r) end))
  end.

(** *** what EnumerationDyn::enumerate prepares (enumerate.cpp:91-143) *)
(** normexp (enumerate.cpp:92-103) *)
Definition dyn_normexp (first d : nat) (dual : bool) : Z := if dual then (norm_exp first d * -1)%Z else norm_exp first d.
(** maxdist (enumerate.cpp:104-105) *)
Definition dyn_maxdist (fmaxdist : F) (fexpo normexp : Z) : E := f_du o (f_mul2 o fmaxdist (fexpo - normexp)).
(** rdiag (enumerate.cpp:108-115, 127-132) *)
Definition dyn_rdiag (first d : nat) (dual : bool) (normexp : Z) (i : nat) : E :=
  if dual then let q := g_r g ((d - i - 1) + first) in e_inv o (f_d o (f_mul2 o (fst q) (snd q + normexp)))
  else let q := g_r g (i + first) in f_d o (f_mul2 o (fst q) (snd q - normexp)).
(** mut[i][j], i < j (enumerate.cpp:116-123, 133-140) *)
Definition dyn_mut (first d : nat) (dual : bool) (i j : nat) : E :=
  if dual then e_opp o (f_d o (g_mu g ((d - i - 1) + first) ((d - j - 1) + first))) else f_d o (g_mu g (j + first) (i + first)).
(** partdistbounds (enumerate.cpp:218-229) *)
Definition dyn_bound (pruning : list E) (maxdist : E) (i : nat) : E := match pruning with [] => maxdist | _ => e_mul o (nth i pruning (e_zero o)) maxdist end.
(** fmaxdist on return (enumerate.cpp:150-152) *)
Definition dyn_final (maxdist : E) (normexp fexpo : Z) : F := f_mul2 o (f_of o maxdist) (normexp - fexpo).

(** *** enumerate.h:87-111 Enumeration::enumerate; [dyn] is the internal enumerator: evaluator, fmaxdist, nodes *)
Definition enumerate (extenum : option (nat -> E -> bool -> bool -> ext))
  (dyn : nat -> Z -> F -> Z -> list F -> list E -> list E -> bool -> bool -> EV -> xres (EV * F * list Z))
  (first : nat) (last : Z) (fmaxdist : F) (fexpo : Z) (target : list F) (subtree : list E) (pruning : list E) (dual subtree_reset : bool) (ev : EV)
  : xres (EV * F * list Z) :=
  let internal ev := dyn first last fmaxdist fexpo target subtree pruning dual subtree_reset ev in
  match extenum, subtree, target with
  | Some _, [], [] =>
      xbind (ext_enumerate extenum first last fmaxdist fexpo pruning dual ev) (fun r =>
      if fst (fst r) then XOk (snd (fst r), fmaxdist, snd r) else internal (snd (fst r)))
  | _, _, _ => internal ev
  end.

(** *** enumlib *)
Inductive lib_choice := LUnsup | LWrong | LTmpl (n : nat).
(** enumlib_dim.cpp:117-141, for one of the functions enumerate20, ..., enumerate160 *)
Definition lib_switch (b dim : Z) : lib_choice := if ((b - 9 <=? dim) && (dim <=? b))%Z then LTmpl (Z.to_nat dim) else LWrong.
(** enumlib.cpp:106-168; [maxpar] is FPLLL_MAX_PARALLEL_ENUM_DIM *)
Fixpoint lib_chain (maxpar dim : Z) (bs : list Z) : lib_choice :=
  match bs with
  | [] => LUnsup
  | b :: t => if ((b <=? maxpar) && (dim <=? b))%Z then lib_switch b dim else lib_chain maxpar dim t
  end.
(** enumlib.cpp:93-169 *)
Definition lib_dim (maxpar dim : Z) (dual : bool) : lib_choice :=
  if ((dim <=? 10)%Z || dual) then LUnsup else lib_chain maxpar dim [20; 30; 40; 50; 60; 70; 80; 90; 100; 110; 120; 130; 140; 150; 160]%Z.
(** enumlib_dim.cpp:73-82 *)
Fixpoint report_subs (js : list nat) (subL risq : list E) (sub : list (list E)) (k : ext) : ext :=
  match js with
  | [] => k
  | j :: t => if e_lt o (nth j subL (e_zero o)) (nth j risq (e_zero o))
      then XSub (nth j subL (e_zero o)) (nth j sub []) j (report_subs t subL risq sub k) else report_subs t subL risq sub k
  end.
(** enumlib_dim.cpp:47-89: [lat] is lattice_enum_t<N>::enumerate_recursive on muT, risq, pr and the bound, with its continuation taking _subsolL, _subsol and _counts;
    [junk] is the content of the uninitialised arrays *)
Definition lib_detail (lat : nat -> list E -> list E -> list E -> E -> bool -> (list E -> list (list E) -> list Z -> ext) -> ext)
  (junk : nat -> list E) (n : nat) (md : E) (fs : bool) : ext :=
  XCfg (junk (n * n)) (junk n) (junk n) n true (fun mu rd pr =>
    lat n mu rd pr md fs (fun subL sub counts =>
      if fs then report_subs (seq 0 n) subL rd sub (XRet (counts ++ repeat 0%Z (1024 - length counts))) else XRet (counts ++ repeat 0%Z (1024 - length counts)))).
(** enumlib.cpp:93-169 as an external enumerator *)
Definition enumlib_ext (maxpar : Z) lat junk (dim : nat) (md : E) (dual fs : bool) : ext :=
  match lib_dim maxpar (Z.of_nat dim) dual with LTmpl n => lib_detail lat junk n md fs | _ => XRet [no_nodes] end.

(** *** enumerate.h:48-55, 113-118, enumerate_ext.h:116-123: std::accumulate with an int as start; the sum of two steps is taken in uint64_t and stored in the int *)
Definition to_int (z : Z) : Z := let m := (z mod 2 ^ 32)%Z in if (m <? 2 ^ 31)%Z then m else (m - 2 ^ 32)%Z.
Definition get_nodes (nodes : list Z) : Z := ((fold_left (fun a n => to_int ((a + n) mod 2 ^ 64)) nodes 0) mod 2 ^ 64)%Z.
End Ext.
