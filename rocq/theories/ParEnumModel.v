(** Model of the parallel enumeration (fplll/enum-parallel/enumeration.h): how the start nodes
    are distributed over the threads and how the threads share the radius.

    The recursion itself below a start node is abstracted: a start node is the list of the leaves
    of its subtree in the order in which the recursion meets them.  Lengths are integers (only
    comparisons of lengths are used). *)
From Coq Require Import List ZArith Arith Bool.
From Verif Require Import Util EvalModel.
Import ListNotations.

(** ** The lists of start nodes: swirlys[0], swirlys[1] (enumeration.h:412-505) *)
Section Batches.
Context {I : Type}.
(** What enumerate_recur<N-SWIRLY-1, .., N-2*SWIRLY, 1> appends to swirlys[1] for one element of
    swirlys[0] (enumeration.h:431-439, 311-380).  It depends on the element only: it prunes with
    _AA of the main object, which is never updated (see [mA] below). *)
Variable expand : I -> list I.
(** sort / inplace_merge of 448-451: some reordering *)
Variable reorder : list I -> list I.
Variable activeswirly : bool.          (* enumeration.h:99, set to false in enumlib_dim.cpp:69 *)
Variable buf : nat.                    (* SWIRLY2BUF = 1024, enumlib_dim.cpp:43 *)
Variable frac : nat.                   (* SWIRLY2BUF >> SWIRLY1FRACTION = 64, enumeration.h:454 *)

(** enumeration.h:429-442; returns what is left of swirlys[0] and the new swirlys[1] *)
Fixpoint fill (s0 s1 : list I) : list I * list I :=
  match s0 with
  | [] => ([], s1)
  | x :: t => if length s1 <? buf then fill t (s1 ++ expand x) else (s0, s1)
  end.

(** The loop 426-505: the batches handed to the threads, in order.  [fuel]: iterations. *)
Fixpoint batches (fuel : nat) (s0 s1 : list I) : option (list (list I)) :=
  match s0 with
  | [] => Some []                                              (* 426 *)
  | _ =>
    match fuel with
    | O => None
    | S fuel =>
      let '(s0', s1') := fill s0 s1 in
      let s1'' := if activeswirly then reorder s1' else s1' in (* 445-451 *)
      let e := if activeswirly then Nat.min frac (length s1'') else length s1'' in  (* 444, 454-456 *)
      match batches fuel s0' (skipn e s1'') with               (* 504 *)
      | None => None
      | Some bs => Some (firstn e s1'' :: bs)
      end
    end
  end.
End Batches.

(** ** The threads *)

(** A leaf: coordinates, length l[0], and the smallest bound _A for which no level of the
    recursion prunes it ([lf_d <= lf_need], equal without pruning). *)
Record leaf := { lf_x : list Z; lf_d : Z; lf_need : Z }.

(** Program counter of a thread executing the lambda of enumeration.h:462-499 *)
Inductive tpc :=
| TStart                      (* before [auto mylat = *this]: 464 *)
| TCopied                     (* before taking its threadid: 465-468 *)
| TFetch                      (* before swirly_i++: 473 *)
| TSig (ls : list leaf)       (* _thread_local_update of 485: before reading signal[threadid] (132) *)
| TClr (ls : list leaf)       (* before signal[threadid] = 0 (134) *)
| TLoad (ls : list leaf)      (* before _A = globals.A (135) *)
| TRun (ls : list leaf)       (* in the recursion, leaves [ls] left *)
| TWait (l : leaf) (ls : list leaf)  (* leaf passed the test of 283, before lock of 286 *)
| TCrit (l : leaf) (ls : list leaf)  (* holds the mutex, before process_sol: 290 *)
| TCmp (ls : list leaf)       (* holds the mutex, before the comparison of 293 *)
| TSet (j : nat) (ls : list leaf)    (* holds the mutex, before signal[j] = 1: 295-296 *)
| TOwn (ls : list leaf)       (* holds the mutex, _thread_local_update of 298: before 132 *)
| TOwnC (ls : list leaf)      (* holds the mutex, before 134 *)
| TOwnL (ls : list leaf)      (* holds the mutex, before 135 *)
| TMerge                      (* left the loop, before lock of 490 *)
| TMergeC                     (* holds the mutex: writes this->_counts, this->_subsolL, this->_subsol 491-498 *)
| TDone.

(** A thread: program counter, mylat.threadid, mylat._A, index of the item in hand. *)
Record thr := mkT { t_pc : tpc; t_id : nat; t_loc : Z; t_hand : list nat }.

Section Threads.
Context (f : fops Z).
Variable strat : strategy.
Variable max_sols : nat.

(** Shared state: globals.A, the evaluator (globals.process_sol calls eval_sol with _maxdist, which
    always equals globals.A: enumerate_ext.cpp:151-157, enumeration.h:290), globals.signal,
    globals.mutex, swirly_i, the counter threadid of 461, this->_A, the current batch
    swirlys[1][0..swirly1end); and, for the statements only: leaves reported / pruned so far, and
    the indices finished so far in this batch. *)
Record shr := mkS {
  gA : Z; gev : evst f; gsig : list bool; glock : bool; gnext : nat; gid : nat; mA : Z;
  gitems : list (list leaf); glog : list leaf; gskip : list leaf; gfin : list nat }.

(** changes one member of the shared state *)
Definition set_A (s : shr) (ev : evst f) (a : Z) (l : leaf) : shr :=
  mkS a ev (gsig s) (glock s) (gnext s) (gid s) (mA s) (gitems s) (l :: glog s) (gskip s) (gfin s).
(** changes one member of the shared state *)
Definition set_sig (s : shr) (j : nat) (b : bool) : shr :=
  mkS (gA s) (gev s) (upd (gsig s) j b) (glock s) (gnext s) (gid s) (mA s) (gitems s) (glog s) (gskip s) (gfin s).
(** changes one member of the shared state *)
Definition set_lock (s : shr) (b : bool) : shr :=
  mkS (gA s) (gev s) (gsig s) b (gnext s) (gid s) (mA s) (gitems s) (glog s) (gskip s) (gfin s).
(** changes one member of the shared state *)
Definition inc_next (s : shr) : shr :=
  mkS (gA s) (gev s) (gsig s) (glock s) (S (gnext s)) (gid s) (mA s) (gitems s) (glog s) (gskip s) (gfin s).
(** changes one member of the shared state *)
Definition inc_id (s : shr) : shr :=
  mkS (gA s) (gev s) (gsig s) (glock s) (gnext s) (S (gid s)) (mA s) (gitems s) (glog s) (gskip s) (gfin s).
(** changes one member of the shared state *)
Definition add_skip (s : shr) (l : leaf) : shr :=
  mkS (gA s) (gev s) (gsig s) (glock s) (gnext s) (gid s) (mA s) (gitems s) (glog s) (l :: gskip s) (gfin s).
(** changes one member of the shared state *)
Definition add_fin (s : shr) (i : list nat) : shr :=
  mkS (gA s) (gev s) (gsig s) (glock s) (gnext s) (gid s) (mA s) (gitems s) (glog s) (gskip s) (i ++ gfin s).

Local Open Scope Z_scope.

(** One step of a thread.  A thread whose threadid is not an index of globals.signal has no step
    at 132 and 134 (undefined behaviour, see par_signal_bounds in PropParEnum.v). *)
Inductive tstep : shr -> thr -> shr -> thr -> Prop :=
| T_copy s i a h : tstep s (mkT TStart i a h) s (mkT TCopied i (mA s) h)                         (* 464 *)
| T_id s i a h : glock s = false -> tstep s (mkT TCopied i a h) (inc_id s) (mkT TFetch (gid s) a h)   (* 466-467 *)
| T_fetch s i a h ls : nth_error (gitems s) (gnext s) = Some ls ->
    tstep s (mkT TFetch i a h) (inc_next s) (mkT (TSig ls) i a [gnext s])                        (* 473, 478 *)
| T_break s i a h : (length (gitems s) <= gnext s)%nat ->
    tstep s (mkT TFetch i a h) (inc_next s) (mkT TMerge i a h)                                   (* 473-475 *)
| T_sig0 s i a h ls : nth_error (gsig s) i = Some false -> tstep s (mkT (TSig ls) i a h) s (mkT (TRun ls) i a h)
| T_sig1 s i a h ls : nth_error (gsig s) i = Some true -> tstep s (mkT (TSig ls) i a h) s (mkT (TClr ls) i a h)
| T_clr s i a h ls : tstep s (mkT (TClr ls) i a h) (set_sig s i false) (mkT (TLoad ls) i a h)
| T_load s i a h ls : tstep s (mkT (TLoad ls) i a h) s (mkT (TRun ls) i (gA s) h)
(* the recursion: a leaf pruned at some level with the thread's own bound ... *)
| T_prune s i a h l ls : a < lf_need l ->
    tstep s (mkT (TRun (l :: ls)) i a h) (add_skip s l) (mkT (TRun ls) i a h)
(* ... or one that gets through the tests of the levels (some of them made with earlier, larger
   bounds of this thread) and the test of 283; leaves of length 0 are not in the list *)
| T_leaf s i a h l ls : lf_d l <= a -> tstep s (mkT (TRun (l :: ls)) i a h) s (mkT (TWait l ls) i a h)
| T_end s i a h : tstep s (mkT (TRun []) i a h) (add_fin s h) (mkT TFetch i a [])
| T_lock s i a h l ls : glock s = false -> tstep s (mkT (TWait l ls) i a h) (set_lock s true) (mkT (TCrit l ls) i a h)
| T_sol s i a h l ls ev' a' : eval_sol f strat max_sols (lf_x l) (lf_d l) (gA s) (gev s) = (ev', a') ->
    tstep s (mkT (TCrit l ls) i a h) (set_A s ev' a' l) (mkT (TCmp ls) i a h)                    (* 288-290 *)
| T_same s i a h ls : gA s = a -> tstep s (mkT (TCmp ls) i a h) (set_lock s false) (mkT (TRun ls) i a h)
| T_diff s i a h ls : gA s <> a -> tstep s (mkT (TCmp ls) i a h) s (mkT (TSet 0 ls) i a h)
| T_set s i a h j ls : (j < length (gsig s))%nat ->
    tstep s (mkT (TSet j ls) i a h) (set_sig s j true) (mkT (TSet (S j) ls) i a h)
| T_setend s i a h j ls : (length (gsig s) <= j)%nat -> tstep s (mkT (TSet j ls) i a h) s (mkT (TOwn ls) i a h)
| T_own0 s i a h ls : nth_error (gsig s) i = Some false ->
    tstep s (mkT (TOwn ls) i a h) (set_lock s false) (mkT (TRun ls) i a h)
| T_own1 s i a h ls : nth_error (gsig s) i = Some true -> tstep s (mkT (TOwn ls) i a h) s (mkT (TOwnC ls) i a h)
| T_ownc s i a h ls : tstep s (mkT (TOwnC ls) i a h) (set_sig s i false) (mkT (TOwnL ls) i a h)
| T_ownl s i a h ls : tstep s (mkT (TOwnL ls) i a h) (set_lock s false) (mkT (TRun ls) i (gA s) h)
| T_merge s i a h : glock s = false -> tstep s (mkT TMerge i a h) (set_lock s true) (mkT TMergeC i a h)   (* 490 *)
| T_done s i a h : tstep s (mkT TMergeC i a h) (set_lock s false) (mkT TDone i a h).             (* 491-499 *)

(** The whole: threads, later batches, leaves of the batches handed out so far (including the
    current one; for the statements only). *)
Record sys := mkY { sh : shr; ths : list thr; more : list (list (list leaf)); past : list leaf }.

(** a thread at the start of a batch *)
Definition fresh_thr : thr := mkT TStart 0 0 [].

(** one step of one thread, or the next batch *)
Inductive ystep : sys -> sys -> Prop :=
| Y_thread y i t s' t' : nth_error (ths y) i = Some t -> tstep (sh y) t s' t' ->
    ystep y (mkY s' (upd (ths y) i t') (more y) (past y))
(* wait_work has returned (502, see pool_wait_complete), next iteration of 426: swirly_i and
   threadid start from 0 again (460-461), get_threads() copies of the lambda are pushed (500-501);
   globals and this->_A are kept *)
| Y_batch y b m : (forall t, In t (ths y) -> t_pc t = TDone) -> more y = b :: m ->
    ystep y (mkY (mkS (gA (sh y)) (gev (sh y)) (gsig (sh y)) (glock (sh y)) 0 0 (mA (sh y)) b
                      (glog (sh y)) (gskip (sh y)) [])
                 (repeat fresh_thr (length (ths y))) m (past y ++ concat b)).

(** reachable by steps *)
Inductive yreach (y0 : sys) : sys -> Prop :=
| YR_refl : yreach y0 y0
| YR_step y y' : yreach y0 y -> ystep y y' -> yreach y0 y'.

(** Start of the loop 426 with [n] threads: radius [A0], signals 0 (384-389), first batch [b]. *)
Definition par_init (nsig n : nat) (A0 : Z) (b : list (list leaf)) (m : list (list (list leaf))) : sys :=
  mkY (mkS A0 (ev_init f) (repeat false nsig) false 0 0 A0 b [] [] []) (repeat fresh_thr n) m (concat b).
End Threads.
