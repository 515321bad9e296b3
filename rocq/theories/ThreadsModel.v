(** The number of threads: get_threads, set_threads (threadpool.cpp), size, resize, _init_thread and the
    three forms of run (io/thread_pool.hpp), as seen by the thread that calls them.

    A worker is the number under which it was started, with its stop flag; what a worker does, and
    that a worker whose flag is set returns once there is no task, is in PoolModel.v.  What the
    caller does to the workers is a list of events, oldest first. *)
From Coq Require Import List ZArith Bool Arith.
Import ListNotations.
Local Open Scope nat_scope.

(** a worker: number, *_threads_stop[i] (thread_pool.hpp:143-144) *)
Definition worker := (nat * bool)%type.
(** the pool: _threads with _threads_stop (thread_pool.hpp:143-144), the number of the next worker *)
Record pool := mkpool { workers : list worker; next : nat }.
(** what the caller does (thread_pool.hpp:292-296, 303-312) *)
Inductive event := SetStop (w : nat) | NotifyAll | Join (w : nat) | WaitWork | Start (w : nat).

(** thread_pool.hpp:176-179 size *)
Definition size (p : pool) : nat := length (workers p).
(** thread_pool.hpp:291-292: the flags from position n on *)
Definition flag_from (n : nat) (ws : list worker) : list worker := firstn n ws ++ map (fun w => (fst w, true)) (skipn n ws).
(** thread_pool.hpp:310-314 with 318-346: k workers more *)
Fixpoint start (k : nat) (p : pool) : pool * list event :=
  match k with
  | 0 => (p, [])
  | S k' => let '(p', ev) := start k' (mkpool (workers p ++ [(next p, false)]) (S (next p))) in (p', Start (next p) :: ev)
  end.
(** thread_pool.hpp:285-316 resize *)
Definition resize (n : nat) (p : pool) : pool * list event :=
  if n <? size p then
    let ws := flag_from n (workers p) in
    let gone := map fst (skipn n ws) in
    (mkpool (firstn n ws) (next p), map SetStop gone ++ [NotifyAll] ++ map Join gone)
  else if size p <? n then
    let '(p', ev) := start (n - size p) p in (p', WaitWork :: ev)
  else (p, []).

(** threadpool.cpp:23 get_threads *)
Definition get_threads (p : pool) : Z := (Z.of_nat (size p) + 1)%Z.
(** threadpool.cpp:25-33 set_threads; [hw] is std::thread::hardware_concurrency(), 0 if it is not known *)
Definition set_threads (hw th : Z) (p : pool) : Z * pool * list event :=
  let th := if (hw <? th)%Z || (th =? -1)%Z then hw else th in
  let th := if (th <? 1)%Z then 1%Z else th in
  let '(p', ev) := resize (Z.to_nat (th - 1)) p in
  (get_threads p', p', ev).

(** thread_pool.hpp:245-246 = 259-260 = 273-274: how many threads *)
Definition run_threads (p : pool) (threads : Z) : Z :=
  if (threads <? 1)%Z || (Z.of_nat (size p) + 1 <? threads)%Z then (Z.of_nat (size p) + 1)%Z else threads.
(** thread_pool.hpp:271-283 run(f(int,int)): the arguments of the tasks that are queued, in order, and
    of the call by the caller itself *)
Definition run2 (p : pool) (threads : Z) : list (Z * Z) * (Z * Z) :=
  let t := run_threads p threads in
  (map (fun i => (Z.of_nat i, t)) (seq 0 (Z.to_nat (t - 1))), ((t - 1)%Z, t)).
(** thread_pool.hpp:257-269 run(f(int)) *)
Definition run1 (p : pool) (threads : Z) : list Z * Z :=
  let t := run_threads p threads in (map Z.of_nat (seq 0 (Z.to_nat (t - 1))), (t - 1)%Z).
(** thread_pool.hpp:243-255 run(f()): the number of tasks queued; f is called once more *)
Definition run0 (p : pool) (threads : Z) : nat := Z.to_nat (run_threads p threads - 1).
