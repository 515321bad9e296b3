(** Model of the thread pool and of the barrier (fplll/io/thread_pool.hpp) as small-step
    transition systems.

    Every access to a shared variable is one step; the interleaving of the steps of the
    threads is arbitrary.  Memory is sequentially consistent (the counter is a std::atomic with
    the default order, the queue is accessed under the mutex, except in wait_sleep, whose
    unlocked read of the queue is modelled as a step of its own and reported as a data race in
    PropPool.v).  A task is a number; executing it is one step, and tasks do not use the pool
    themselves. *)
From Coq Require Import List Arith Bool.
From Verif Require Import Util.
Import ListNotations.

(** Program counter of a worker, the lambda of _init_thread (thread_pool.hpp:323-344). *)
Inductive wst :=
| WLock            (* before acquiring the mutex: 325, the end of condition.wait in 331, 342 *)
| WCrit            (* holds the mutex, before the test of 327 *)
| WSleep           (* in condition.wait, mutex released: 331 *)
| WExit            (* returned: 330 *)
| WInc             (* holds the mutex, after ++_threads_busy: between 335 and 337 *)
| WPop (t : nat)   (* holds the mutex, task popped: between 337 and 339 *)
| WRun (t : nat)   (* mutex released, before task(): 340 *)
| WRan.            (* after task(), before --_threads_busy: 341 *)

(** Program counter of another thread that calls work() (thread_pool.hpp:186-198) on the same pool. *)
Inductive xst :=
| XOut             (* outside work() *)
| XCrit            (* holds the mutex, before the test of 191 *)
| XPop (t : nat)   (* holds the mutex, task popped *)
| XRun (t : nat).  (* mutex released, before task(): 196 *)

(** What the thread owning the pool does, one call after the other. *)
Inductive cmd :=
| CPush (t : nat)                  (* push(f)                thread_pool.hpp:214-230 *)
| CWaitWork                        (* wait_work()            thread_pool.hpp:200-206 *)
| CRun (ts : list nat) (self : nat). (* run(f, threads): [ts] are the threads-1 copies queued in
                                        249-250, 263-264, 277-278, [self] the copy run in 253, 267, 281 *)

(** Program counter of the owner; the argument [k] is what it does afterwards. *)
Inductive ost :=
| OCmd (k : list cmd)                         (* between calls *)
| OPush (t : nat) (k : list cmd)              (* push: holds the mutex, before emplace 218, 227 *)
| OPushed (t : nat) (k : list cmd)            (* push: holds the mutex, after emplace *)
| ONotify1 (k : list cmd)                     (* push: before notify_one 220, 229 *)
| OWork (k : list cmd)                        (* wait_work: at the call of work() in 202 *)
| OWorkC (k : list cmd)                       (* work(): holds the mutex, before the test of 191 *)
| OWorkP (t : nat) (k : list cmd)             (* work(): holds the mutex, task popped *)
| OWorkR (t : nat) (k : list cmd)             (* work(): mutex released, before task(): 196 *)
| OBusy (k : list cmd)                        (* wait_work: before reading _threads_busy in 204 *)
| ORunC (ts : list nat) (s : nat) (k : list cmd)  (* run: holds the mutex, [ts] still to be queued: 249 *)
| ONotify (s : nat) (k : list cmd)            (* run: before notify_all 252 *)
| OSelf (s : nat) (k : list cmd)              (* run: before f() 253 *)
| OSize (k : list cmd)                        (* wait_sleep: before reading _tasks.size() in 210 *)
| OSleepB (k : list cmd)                      (* wait_sleep: read size 0, before reading _threads_busy in 210 *)
| ORet (k : list cmd).                        (* wait_work() or run() has returned *)

(** The pool: _threads_busy, _tasks, whether _mutex is held (thread_pool.hpp:142-147), the threads,
    and two records kept for the statements only: the tasks handed to the pool (or started by
    run itself) so far, and the executions completed so far. *)
Record pst := mkP {
  busy : nat; tasks : list nat; lock : bool;
  ws : list wst; xs : list xst; own : ost;
  pushed : list nat; fin : list nat }.

(** notify_all: every thread in condition.wait goes on to reacquire the mutex *)
Definition wake_all (l : list wst) : list wst :=
  map (fun w => match w with WSleep => WLock | _ => w end) l.

Section Step.
(** Whether the environment may set the stop flags (thread_pool.hpp:291-292).  A worker exits only
    when it sees an empty queue and its flag; the flag itself is abstracted to "may be set". *)
Variable may_stop : bool.

(** One step of a worker in the shared state; the result is the new counter, queue, mutex,
    program counter and the task completed by the step, if any. *)
Inductive wstep : nat -> list nat -> bool -> wst -> nat -> list nat -> bool -> wst -> list nat -> Prop :=
| W_acquire b q : wstep b q false WLock b q true WCrit []                     (* 325, 331, 342 *)
| W_wait b : wstep b [] true WCrit b [] false WSleep []                       (* 331 *)
| W_stop b : may_stop = true -> wstep b [] true WCrit b [] false WExit []     (* 329-330 *)
| W_inc b t q : wstep b (t :: q) true WCrit (S b) (t :: q) true WInc []       (* 335 *)
| W_pop b t q : wstep b (t :: q) true WInc b q true (WPop t) []               (* 336-337 *)
| W_unlock b q t : wstep b q true (WPop t) b q false (WRun t) []              (* 339 *)
| W_run b q l t : wstep b q l (WRun t) b q l WRan [t]                         (* 340 *)
| W_dec b q l : wstep b q l WRan (pred b) q l WLock []                        (* 341 *)
| W_spurious b q l : wstep b q l WSleep b q l WLock [].  (* spurious wake-up *)

(** One step of another caller of work(). *)
Inductive xstep : list nat -> bool -> xst -> list nat -> bool -> xst -> list nat -> Prop :=
| X_acquire q : xstep q false XOut q true XCrit []                  (* 190 *)
| X_empty : xstep [] true XCrit [] false XOut []                    (* 191-192 *)
| X_pop t q : xstep (t :: q) true XCrit q true (XPop t) []          (* 193-194 *)
| X_unlock q t : xstep q true (XPop t) q false (XRun t) []          (* 195 *)
| X_run q l t : xstep q l (XRun t) q l XOut [t].                    (* 196 *)

(** One step of the owner: counter, queue, mutex, workers and program counter; new queue, mutex,
    workers and program counter; tasks handed over; executions completed. *)
Inductive ostep : nat -> list nat -> bool -> list wst -> ost ->
                  list nat -> bool -> list wst -> ost -> list nat -> list nat -> Prop :=
(* push *)
| O_push_lock b q w t k : ostep b q false w (OCmd (CPush t :: k)) q true w (OPush t k) [] []
| O_emplace b q w t k : ostep b q true w (OPush t k) (q ++ [t]) true w (OPushed t k) [t] []
| O_push_unlock b q w t k : ostep b q true w (OPushed t k) q false w (ONotify1 k) [] []
| O_notify_none b q l w k : ~ In WSleep w -> ostep b q l w (ONotify1 k) q l w (OCmd k) [] []
| O_notify_one b q l w k i : nth_error w i = Some WSleep ->
    ostep b q l w (ONotify1 k) q l (upd w i WLock) (OCmd k) [] []
(* wait_work *)
| O_wait b q l w k : ostep b q l w (OCmd (CWaitWork :: k)) q l w (OWork k) [] []
| O_work_lock b q w k : ostep b q false w (OWork k) q true w (OWorkC k) [] []
| O_work_empty b w k : ostep b [] true w (OWorkC k) [] false w (OBusy k) [] []
| O_work_pop b t q w k : ostep b (t :: q) true w (OWorkC k) q true w (OWorkP t k) [] []
| O_work_unlock b q w t k : ostep b q true w (OWorkP t k) q false w (OWorkR t k) [] []
| O_work_run b q l w t k : ostep b q l w (OWorkR t k) q l w (OWork k) [] [t]
| O_busy_yield b q l w k : b <> 0 -> ostep b q l w (OBusy k) q l w (OBusy k) [] []
| O_busy_done q l w k : ostep 0 q l w (OBusy k) q l w (ORet k) [] []
(* run *)
| O_run_lock b q w ts s k : ostep b q false w (OCmd (CRun ts s :: k)) q true w (ORunC ts s k) [] []
| O_run_emplace b q w t ts s k : ostep b q true w (ORunC (t :: ts) s k) (q ++ [t]) true w (ORunC ts s k) [t] []
| O_run_unlock b q w s k : ostep b q true w (ORunC [] s k) q false w (ONotify s k) [] []
| O_notify_all b q l w s k : ostep b q l w (ONotify s k) q l (wake_all w) (OSelf s k) [] []
| O_self b q l w s k : ostep b q l w (OSelf s k) q l w (OSize k) [s] [s]
(* wait_sleep *)
| O_size_yield b q l w k : q <> [] -> ostep b q l w (OSize k) q l w (OSize k) [] []
| O_size_zero b l w k : ostep b [] l w (OSize k) [] l w (OSleepB k) [] []
| O_sleep_yield b q l w k : b <> 0 -> ostep b q l w (OSleepB k) q l w (OSize k) [] []
| O_sleep_done q l w k : ostep 0 q l w (OSleepB k) q l w (ORet k) [] []
| O_next b q l w k : ostep b q l w (ORet k) q l w (OCmd k) [] [].

(** Interleaving: any thread may take the next step. *)
Inductive step : pst -> pst -> Prop :=
| S_worker s i w b' q' l' w' d :
    nth_error (ws s) i = Some w ->
    wstep (busy s) (tasks s) (lock s) w b' q' l' w' d ->
    step s (mkP b' q' l' (upd (ws s) i w') (xs s) (own s) (pushed s) (d ++ fin s))
| S_other s i x q' l' x' d :
    nth_error (xs s) i = Some x ->
    xstep (tasks s) (lock s) x q' l' x' d ->
    step s (mkP (busy s) q' l' (ws s) (upd (xs s) i x') (own s) (pushed s) (d ++ fin s))
| S_owner s q' l' w' o' p d :
    ostep (busy s) (tasks s) (lock s) (ws s) (own s) q' l' w' o' p d ->
    step s (mkP (busy s) q' l' w' (xs s) o' (p ++ pushed s) (d ++ fin s)).

(** reachable by steps *)
Inductive reach (s0 : pst) : pst -> Prop :=
| R_refl : reach s0 s0
| R_step s s' : reach s0 s -> step s s' -> reach s0 s'.

End Step.

(** A pool of [n] workers just created (thread_pool.hpp:165-169, 302-315), [m] other threads that
    may call work(), and the calls [k] of the owner. *)
Definition pool_init (n m : nat) (k : list cmd) : pst :=
  mkP 0 [] false (repeat WLock n) (repeat XOut m) (OCmd k) [] [].

(** ** barrier (thread_pool.hpp:150-160, 351-375) *)

(** A thread that calls wait() again and again; [p] is the number of calls it has completed. *)
Inductive bst :=
| BOut (p : nat)      (* not in wait(): has left [p] phases, has not entered phase [p] *)
| BWait (p : nat)     (* in condition.wait of 373 in its call number [p] *)
| BLast (p : nat)     (* last arrival: mutex released (368), before notify_all (369) *)
| BWoken (p : nat).   (* condition.wait has been notified, before returning from wait() *)

(** threadpool.h: the members i and count of the barrier and the state of each thread *)
Record bar := mkB { b_i : nat; b_count : nat; b_ts : list bst }.

(** notify_all *)
Definition bwake (l : list bst) : list bst := map (fun t => match t with BWait p => BWoken p | _ => t end) l.

Section Barrier.
Variable spurious : bool.   (* whether condition.wait may return without a notification *)

(** The critical section 364-368 (resp. 364-373 up to the atomic release inside condition.wait) is one step. *)
Inductive bstep : bar -> bar -> Prop :=
| B_last s i p : nth_error (b_ts s) i = Some (BOut p) -> b_count s <= S (b_i s) ->
    bstep s (mkB 0 (b_count s) (upd (b_ts s) i (BLast p)))                          (* 365-368 *)
| B_wait s i p : nth_error (b_ts s) i = Some (BOut p) -> S (b_i s) < b_count s ->
    bstep s (mkB (S (b_i s)) (b_count s) (upd (b_ts s) i (BWait p)))                (* 365, 373 *)
| B_notify s i p : nth_error (b_ts s) i = Some (BLast p) ->
    bstep s (mkB (b_i s) (b_count s) (bwake (upd (b_ts s) i (BOut (S p)))))         (* 369 *)
| B_leave s i p : nth_error (b_ts s) i = Some (BWoken p) ->
    bstep s (mkB (b_i s) (b_count s) (upd (b_ts s) i (BOut (S p))))                 (* 373-375 *)
| B_spurious s i p : spurious = true -> nth_error (b_ts s) i = Some (BWait p) ->
    bstep s (mkB (b_i s) (b_count s) (upd (b_ts s) i (BWoken p))).

(** reachable by steps *)
Inductive breach (s0 : bar) : bar -> Prop :=
| BR_refl : breach s0 s0
| BR_step s s' : breach s0 s -> bstep s s' -> breach s0 s'.
End Barrier.

(** A barrier for [n] threads, used by [n] threads. *)
Definition bar_init (n : nat) : bar := mkB 0 n (repeat (BOut 0) n).
