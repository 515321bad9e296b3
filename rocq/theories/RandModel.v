(** The random generators (nr_rand.inl:12-74, util.cpp:39-42) and the random
    numbers of the three integer types (nr_Z_mpz.inl:201-228, nr_Z_l.inl:191-223,
    nr_Z_d.inl:217-249).

    The generator of GMP is given: its states, gmp_randseed_ui, the state of
    gmp_randinit_default, mpz_urandomb and mpz_urandomm.  Simplifications: the
    conversion to double of Z_NR<double> is the identity (right up to 53 bits); the
    functions randb_si and randm_si are left out, since the member
    RandGenInt::initialized that they use (nr_rand.inl:73) is defined nowhere in the
    library and programs that call them can not be linked. *)
From Coq Require Import List ZArith Bool.
Import ListNotations.
Local Open Scope Z_scope.

(** the generator of GMP (nr_rand.inl:15-35, nr_Z_mpz.inl:203, 220) *)
Record gmp := mkgmp {
  gst : Type;                           (* gmp_randstate_t *)
  g_default : gst;                      (* gmp_randinit_default *)
  g_seed : Z -> gst;                    (* gmp_randseed_ui *)
  g_urandomb : gst -> Z -> Z * gst;     (* mpz_urandomb *)
  g_urandomm : gst -> Z -> Z * gst      (* mpz_urandomm, second argument positive *)
}.

(** the static members of RandGen (nr_rand.inl:44-47, util.cpp:41-42); None: not
    initialised *)
Definition rstate (g : gmp) : Type := option (gst g).
(** util.cpp:41 *)
Definition rstart (g : gmp) : rstate g := None.
(** RandGen::init, nr_rand.inl:15-19 *)
Definition init (g : gmp) : rstate g := Some (g_default g).
(** unsigned long (nr_rand.inl:20, 23, 28, 35) *)
Definition ulong (x : Z) : Z := x mod 2 ^ 64.
(** RandGen::init_with_seed, nr_rand.inl:20-24 *)
Definition init_with_seed (g : gmp) (seed : Z) : rstate g := Some (g_seed g (ulong seed)).
(** RandGen::init_with_time, nr_rand.inl:25-29 *)
Definition init_with_time (g : gmp) (now : Z) : rstate g := Some (g_seed g (ulong now)).
(** RandGen::init_with_time2, nr_rand.inl:30-36 *)
Definition init_with_time2 (g : gmp) (sec usec : Z) : rstate g := Some (g_seed g (ulong (sec * 1000 + usec / 1000))).
(** RandGen::get_gmp_state, nr_rand.inl:38-43 *)
Definition get_state (g : gmp) (s : rstate g) : gst g := match s with Some x => x | None => g_default g end.

(** nr_Z_mpz.inl:206: mpz_get_ui(data) & ~(1ULL << 31) *)
Definition tmp_of (data : Z) : Z := Z.land (ulong data) (2 ^ 64 - 1 - 2 ^ 31).
(** Z_NR<mpz_t>::randb, nr_Z_mpz.inl:201-209: more than 32 bits seed the generator
    anew, from the number drawn *)
Definition randb (g : gmp) (s : rstate g) (bits : Z) : Z * rstate g :=
  let r := g_urandomb g (get_state g s) bits in
  if bits >? 32 then (fst r, Some (g_seed g (ulong (tmp_of (fst r) * tmp_of (fst r)))))
  else (fst r, Some (snd r)).
(** Z_NR<mpz_t>::randm, nr_Z_mpz.inl:218-221 *)
Definition randm (g : gmp) (s : rstate g) (max : Z) : Z * rstate g :=
  let r := g_urandomm g (get_state g s) max in (fst r, Some (snd r)).
(** mpz_get_si for a number that is not negative (nr_Z_l.inl:197, 214): the 63
    lower bits *)
Definition get_si (x : Z) : Z := x mod 2 ^ 63.
(** Z_NR<long>::randb, nr_Z_l.inl:192-199 *)
Definition randb_l (g : gmp) (s : rstate g) (bits : Z) : Z * rstate g :=
  let r := g_urandomb g (get_state g s) bits in (get_si (fst r), Some (snd r)).
(** Z_NR<long>::randm, nr_Z_l.inl:207-217 *)
Definition randm_l (g : gmp) (s : rstate g) (max : Z) : Z * rstate g :=
  let r := g_urandomm g (get_state g s) max in (get_si (fst r), Some (snd r)).
(** Z_NR<double>::randb, nr_Z_d.inl:218-225 *)
Definition randb_d (g : gmp) (s : rstate g) (bits : Z) : Z * rstate g :=
  let r := g_urandomb g (get_state g s) bits in (fst r, Some (snd r)).

(** the calls of a program (nr_rand.inl:15-43, nr_Z_mpz.inl:201-221,
    nr_Z_l.inl:192-217, nr_Z_d.inl:218-225) *)
Inductive call :=
| CInit | CSeed (seed : Z) | CTime | CTime2
| CRandb (bits : Z) | CRandm (max : Z) | CRandbL (bits : Z) | CRandmL (max : Z) | CRandbD (bits : Z).
(** one call; clk are the results of the clock (nr_rand.inl:28, 34): seconds and
    microseconds *)
Definition exec (g : gmp) (clk : Z * Z) (s : rstate g) (c : call) : list Z * rstate g :=
  match c with
  | CInit => ([], init g)
  | CSeed n => ([], init_with_seed g n)
  | CTime => ([], init_with_time g (fst clk))
  | CTime2 => ([], init_with_time2 g (fst clk) (snd clk))
  | CRandb b => let r := randb g s b in ([fst r], snd r)
  | CRandm m => let r := randm g s m in ([fst r], snd r)
  | CRandbL b => let r := randb_l g s b in ([fst r], snd r)
  | CRandmL m => let r := randm_l g s m in ([fst r], snd r)
  | CRandbD b => let r := randb_d g s b in ([fst r], snd r)
  end.
(** a program: the list of its calls (nr_rand.inl:12-47); the result is the list of
    numbers drawn and the last state *)
Fixpoint execs (g : gmp) (clk : nat -> Z * Z) (i : nat) (s : rstate g) (cs : list call) : list Z * rstate g :=
  match cs with
  | [] => ([], s)
  | c :: cs' =>
    let r := exec g (clk i) s c in
    let r' := execs g clk (S i) (snd r) cs' in (fst r ++ fst r', snd r')
  end.
(** the state after n draws of randb(bits) (nr_Z_mpz.inl:201-209) *)
Fixpoint after (g : gmp) (s : rstate g) (bits : Z) (n : nat) : rstate g :=
  match n with O => s | S n' => snd (randb g (after g s bits n') bits) end.
(** the number drawn then, as in gen_uniform (matrix.cpp:283-285) *)
Definition drawn (g : gmp) (s : rstate g) (bits : Z) (n : nat) : Z := fst (randb g (after g s bits n) bits).
