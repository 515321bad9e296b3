(** Lattice enumeration: fplll/enum/enumerate_base.{h,cpp} and
    fplll/enum/enumerate.{h,cpp}.  The arithmetic of [enumf] (double in the
    code), the evaluator and the sub-enumeration started by [reset] are
    parameters, so that everything proved without further hypotheses holds for
    any rounding behaviour.

    Simplifications.  [enumxt] (double by default, int optionally) is modelled by
    the mathematical integers Z.  The fixed arrays of size [maxdim] are total
    functions from indices; every index used below is at most [k_end <= d], and
    enumerate.cpp:72 checks [d < maxdim].  The node counters are integers
    instead of wrapping uint64_t (the comment in enumerate_base.cpp:175-177 relies on
    wrap-around, which agrees modulo 2^64). *)
From Coq Require Import List ZArith Arith Bool Lia.
Import ListNotations.

(** [array<T, maxdim>] write *)
Definition fset {A} (f : nat -> A) (i : nat) (v : A) : nat -> A :=
  fun j => if Nat.eqb j i then v else f j.
(** [enumf a\[maxdim\]\[maxdim\]] write *)
Definition fset2 {A} (f : nat -> nat -> A) (i j : nat) (v : A) : nat -> nat -> A :=
  fun a b => if Nat.eqb a i then (if Nat.eqb b j then v else f a b) else f a b.

(** Operations on [enumf] used by the enumeration. *)
Record eops := {
  E : Type;
  e_zero : E;
  e_alpha : Z -> E -> E;            (* x[kk] - center[kk]                  (enumerate_base.cpp:28, 91) *)
  e_dist : E -> E -> E -> E;        (* partdist + alpha * alpha * rdiag    (enumerate_base.cpp:29, 92) *)
  e_subx : E -> Z -> E -> E;        (* c - x[j] * mut[k][j]                (enumerate_base.cpp:64) *)
  e_suba : E -> E -> E -> E;        (* c - alpha[j] * mut[k][j]            (enumerate_base.cpp:59) *)
  e_le : E -> E -> bool;
  e_lt : E -> E -> bool;
  e_add : E -> E -> E;
  e_mul : E -> E -> E;
  e_round : E -> Z;                 (* roundto                             (enumerate_base.h:33-34) *)
  e_gez : E -> Z -> bool            (* center >= x                         (enumerate_base.cpp:71) *)
}.

(** What one [enumerate] call fixes: enumerate_base.h:73-95 and enumerate.h:60-66
    (configuration and enumeration input). *)
Record ecfg (o : eops) := {
  c_d : nat; c_kend : nat;
  c_mut : nat -> nat -> E o;
  c_rdiag : nat -> E o;
  c_cps0 : nat -> E o;              (* center_partsum when enumerate_loop starts *)
  c_svp : bool; c_dual : bool; c_findsub : bool;
  c_reset : bool; c_rdepth : Z;
  c_prune : option (nat -> E o)
}.
Arguments c_d {o}. Arguments c_kend {o}. Arguments c_mut {o}. Arguments c_rdiag {o}.
Arguments c_cps0 {o}. Arguments c_svp {o}. Arguments c_dual {o}. Arguments c_findsub {o}.
Arguments c_reset {o}. Arguments c_rdepth {o}. Arguments c_prune {o}.

(** What the enumeration hands to the evaluator (ghost log, newest first):
    a solution with its squared length and the value of [maxdist] in force when it was
    reported, or a sub-solution with its offset. *)
Inductive event (o : eops) :=
| EvSol (v : list Z) (dist : E o) (bound : E o)
| EvSub (offset : nat) (v : list Z) (dist : E o).
Arguments EvSol {o}. Arguments EvSub {o}.

(** The part of the object state that survives a subtree: [maxdist],
    [partdistbounds], [subsoldists], [nodes], the evaluator. *)
Record gst (o : eops) (EV : Type) := {
  g_max : E o;
  g_bounds : nat -> E o;
  g_subd : nat -> E o;
  g_nodes : nat -> Z;
  g_ev : EV;
  g_log : list (event o)
}.
Arguments g_max {o EV}. Arguments g_bounds {o EV}. Arguments g_subd {o EV}.
Arguments g_nodes {o EV}. Arguments g_ev {o EV}. Arguments g_log {o EV}.

(** enumerate_base.h:83-91: the per-level arrays. *)
Record est (o : eops) (EV : Type) := {
  s_x : nat -> Z; s_dx : nat -> Z; s_ddx : nat -> Z;
  s_center : nat -> E o; s_partdist : nat -> E o; s_alpha : nat -> E o;
  s_cps : nat -> nat -> E o;        (* center_partsums *)
  s_cpb : nat -> nat;               (* center_partsum_begin *)
  s_g : gst o EV
}.
Arguments s_x {o EV}. Arguments s_dx {o EV}. Arguments s_ddx {o EV}. Arguments s_center {o EV}.
Arguments s_partdist {o EV}. Arguments s_alpha {o EV}. Arguments s_cps {o EV}. Arguments s_cpb {o EV}.
Arguments s_g {o EV}.

Section Enum.
Context (o : eops) {EV : Type}.
Notation E := (E o).
Notation gst := (gst o EV).
Notation est := (est o EV).

(** Evaluator::eval_sol / eval_sub_sol (evaluator.h:103-107): [eval_sol] returns the new
    evaluator and the new value of its in/out argument [max_dist]. *)
Variable evalS : list Z -> E -> E -> EV -> EV * E.
Variable evalSub : nat -> list Z -> E -> EV -> EV.

Variable c : ecfg o.

(** Result of the sub-enumeration started by [reset] for [partial_sol] (the coordinates of level
    cur_depth+1 and above) and cur_depth: [None] = out of fuel, [Some None] = no solution. *)
Variable rst : list Z -> nat -> option (option (list Z * E)).

(** enumerate.cpp:218-229 set_bounds *)
Definition set_bounds (m : E) (old : nat -> E) : nat -> E :=
  match c_prune c with
  | None => fun i => if Nat.ltb i (c_d c) then m else old i
  | Some p => fun i => if Nat.ltb i (c_d c) then e_mul o (p i) m else old i
  end.

(** enumerate.cpp:234-235: fx = x *)
Definition vec_of (x : nat -> Z) : list Z := map x (seq 0 (c_d c)).

(** enumerate.cpp:231-239 process_solution *)
Definition gsol (v : list Z) (nd : E) (g : gst) : gst :=
  let '(ev, m) := evalS v nd (g_max g) (g_ev g) in
  {| g_max := m; g_bounds := set_bounds m (g_bounds g); g_subd := g_subd g; g_nodes := g_nodes g;
     g_ev := ev; g_log := EvSol v nd (g_max g) :: g_log g |}.

(** enumerate.cpp:241-249 process_subsolution (fx zeroed below [offset]) together with
    enumerate_base.cpp:36-40 (the test and the update of subsoldists[kk]) *)
Definition gsub (off : nat) (v : list Z) (nd : E) (g : gst) : gst :=
  {| g_max := g_max g; g_bounds := g_bounds g; g_subd := fset (g_subd g) off nd; g_nodes := g_nodes g;
     g_ev := evalSub off v nd (g_ev g); g_log := EvSub off v nd :: g_log g |}.
(** enumerate_base.cpp:36-40, the test *)
Definition gsubmaybe (kk : nat) (v : list Z) (nd : E) (g : gst) : gst :=
  if c_findsub c && e_lt o nd (g_subd g kk) && negb (e_le o nd (e_zero o) && e_le o (e_zero o) nd)
  then gsub kk (repeat 0%Z kk ++ skipn kk v) nd g else g.

(** enumerate_base.cpp:33, 95: ++nodes[kk] *)
Definition gvisit (kk : nat) (g : gst) : gst :=
  {| g_max := g_max g; g_bounds := g_bounds g; g_subd := g_subd g; g_nodes := fset (g_nodes g) kk (g_nodes g kk + 1)%Z;
     g_ev := g_ev g; g_log := g_log g |}.

(** enumerate_base.cpp:44-45, 99-100: the leaf *)
Definition gleaf (v : list Z) (nd : E) (g : gst) : gst :=
  if negb (c_svp c) || e_lt o (e_zero o) nd then gsol v nd g else g.

(** replaces the global part of the state *)
Definition setg (g : gst) (s : est) : est :=
  {| s_x := s_x s; s_dx := s_dx s; s_ddx := s_ddx s; s_center := s_center s; s_partdist := s_partdist s;
     s_alpha := s_alpha s; s_cps := s_cps s; s_cpb := s_cpb s; s_g := g |}.

(** enumerate_base.cpp:33-35: ++nodes[kk]; alpha[kk] = alphak *)
Definition visit (kk : nat) (a : E) (s : est) : est :=
  {| s_x := s_x s; s_dx := s_dx s; s_ddx := s_ddx s; s_center := s_center s; s_partdist := s_partdist s;
     s_alpha := fset (s_alpha s) kk a; s_cps := s_cps s; s_cpb := s_cpb s; s_g := gvisit kk (s_g s) |}.

(** enumerate_base.cpp:58-59, 63-64: one entry of the partial centre sums *)
Definition cps_entry (s : est) (C : nat -> nat -> E) (row j : nat) : E :=
  if c_dual c then e_suba o (C row (S j)) (s_alpha s j) (c_mut c row j)
  else e_subx o (C row (S j)) (s_x s j) (c_mut c row j).
(** the loop [for j = row + cnt; j > row; --j] *)
Fixpoint cps_fill (s : est) (row cnt : nat) (C : nat -> nat -> E) : nat -> nat -> E :=
  match cnt with
  | O => C
  | S n => cps_fill s row n (fset2 C row (row + S n) (cps_entry s C row (row + S n)))
  end.

(** sign of the first step: [(((int)(center >= x) & 1) << 1) - 1] (enumerate_base.cpp:71) *)
Definition dx0 (ce : E) (x : Z) : Z := if e_gez o ce x then 1%Z else (-1)%Z.

(** enumerate_base.cpp:55-71 (first visit of a level; p = kk - 1) *)
Definition descend_full (p : nat) (nd : E) (s : est) : est :=
  let kk := S p in
  let C := cps_fill s p (s_cpb s kk - p) (s_cps s) in
  let ce := C p kk in
  let xv := e_round o ce in
  {| s_x := fset (s_x s) p xv; s_dx := fset (s_dx s) p (dx0 ce xv); s_ddx := fset (s_ddx s) p (dx0 ce xv);
     s_center := fset (s_center s) p ce; s_partdist := fset (s_partdist s) p nd;
     s_alpha := s_alpha s; s_cps := C;
     s_cpb := fset (fset (s_cpb s) p (Nat.max (s_cpb s p) (s_cpb s kk))) kk kk;
     s_g := s_g s |}.
(** enumerate_base.cpp:104-115 (later visits) *)
Definition descend_one (p : nat) (nd : E) (s : est) : est :=
  let kk := S p in
  let C := fset2 (s_cps s) p kk (cps_entry s (s_cps s) p kk) in
  let ce := C p kk in
  let xv := e_round o ce in
  {| s_x := fset (s_x s) p xv; s_dx := fset (s_dx s) p (dx0 ce xv); s_ddx := fset (s_ddx s) p (dx0 ce xv);
     s_center := fset (s_center s) p ce; s_partdist := fset (s_partdist s) p nd;
     s_alpha := s_alpha s; s_cps := C;
     s_cpb := fset (s_cpb s) p (Nat.max (s_cpb s p) kk);
     s_g := s_g s |}.

(** enumerate_base.cpp:82-84: x += dx; ddx = -ddx; dx = ddx - dx *)
Definition zigzag (kk : nat) (s : est) : est :=
  {| s_x := fset (s_x s) kk (s_x s kk + s_dx s kk)%Z;
     s_dx := fset (s_dx s) kk (- s_ddx s kk - s_dx s kk)%Z;
     s_ddx := fset (s_ddx s) kk (- s_ddx s kk)%Z;
     s_center := s_center s; s_partdist := s_partdist s; s_alpha := s_alpha s; s_cps := s_cps s; s_cpb := s_cpb s;
     s_g := s_g s |}.
(** enumerate_base.cpp:88: ++x[kk] *)
Definition incr (kk : nat) (s : est) : est :=
  {| s_x := fset (s_x s) kk (s_x s kk + 1)%Z; s_dx := s_dx s; s_ddx := s_ddx s;
     s_center := s_center s; s_partdist := s_partdist s; s_alpha := s_alpha s; s_cps := s_cps s; s_cpb := s_cpb s;
     s_g := s_g s |}.
(** [partdist\[kk\] != 0.0] (negated).  IEEE comparison with zero; modelled by the two
    order comparisons. *)
Definition is0 (e : E) : bool := e_le o e (e_zero o) && e_le o (e_zero o) e.
(** enumerate_base.cpp:80-89 *)
Definition step_x (kk : nat) (s : est) : est :=
  if negb (c_svp c) || negb (is0 (s_partdist s kk)) then zigzag kk s else incr kk s.

(** enumerate.cpp:23-56 reset: [rst] gives the best solution of the sub-enumeration *)
Definition do_reset (nd : E) (depth : nat) (s : est) : option est :=
  match rst (map (s_x s) (seq (S depth) (c_d c - S depth))) depth with
  | None => None
  | Some None => Some s
  | Some (Some (sol, sd)) =>
      let tot := e_add o sd nd in
      if e_lt o tot (g_bounds (s_g s) 0) then
        let x' := fun i => if Nat.leb i depth then nth i sol 0%Z else s_x s i in
        let s' := {| s_x := x'; s_dx := s_dx s; s_ddx := s_ddx s; s_center := s_center s;
                     s_partdist := s_partdist s; s_alpha := s_alpha s; s_cps := s_cps s; s_cpb := s_cpb s;
                     s_g := s_g s |} in
        Some (setg (gsol (vec_of x') tot (s_g s)) s')
      else Some s
  end.

(** enumerate_base.cpp:74-117, the [while (true)] of enumerate_recursive<kk>; [below] is the
    recursive call of line 78; [n] bounds the iterations, [None] = out of fuel *)
Fixpoint rec_loop (below : est -> option est) (kk n : nat) (s : est) {struct n} : option est :=
  match n with
  | O => None
  | S n' =>
      match below s with
      | None => None
      | Some s' =>
          let s3 := step_x kk s' in
          let a2 := e_alpha o (s_x s3 kk) (s_center s3 kk) in
          let nd2 := e_dist o (s_partdist s3 kk) a2 (c_rdiag c kk) in
          if negb (e_le o nd2 (g_bounds (s_g s3) kk)) then Some s3
          else
            let s4 := visit kk a2 s3 in
            let s5 := match kk with
                      | O => setg (gleaf (vec_of (s_x s4)) nd2 (s_g s4)) s4
                      | S p => descend_one p nd2 s4
                      end in
            rec_loop below kk n' s5
      end
  end.

(** enumerate_base.cpp:24-118 enumerate_recursive<kk>; [L = kk + 1], L = 0 is the empty
    specialisation (enumerate_base.h:111-114). *)
Fixpoint enum_rec (fuel : nat) (L : nat) (s : est) {struct L} : option est :=
  match L with
  | O => Some s
  | S kk =>
      let a := e_alpha o (s_x s kk) (s_center s kk) in
      let nd := e_dist o (s_partdist s kk) a (c_rdiag c kk) in
      if negb (e_le o nd (g_bounds (s_g s) kk)) then Some s
      else
        let s1 := visit kk a s in
        let s2 := setg (gsubmaybe kk (vec_of (s_x s1)) nd (s_g s1)) s1 in
        match kk with
        | O => rec_loop (enum_rec fuel kk) kk fuel (setg (gleaf (vec_of (s_x s2)) nd (s_g s2)) s2)
        | S p =>
            if c_reset c && (Z.of_nat kk <? c_rdepth c)%Z then do_reset nd kk s2
            else rec_loop (enum_rec fuel kk) kk fuel (descend_full p nd s2)
        end
  end.

(** enumerate_base.h:145-172 next_pos_up, [k] already incremented; [None] = return false *)
Definition next_pos (k : nat) (s : est) : option (nat * est) :=
  if negb (is0 (s_partdist s k)) then Some (k, zigzag k s)
  else if Nat.leb (c_kend c) k then None
  else Some (k, if c_svp c then incr k s else zigzag k s).

(** enumerate_base.cpp:192-246, one pass of the iterative [while (!finished)] loop at level k;
    [inl s] = finished, [inr (k, s)] = continue; outer [None] = sub-enumeration out of fuel *)
Definition iter_step (k : nat) (s : est) : option (est + nat * est) :=
  let up k s := match next_pos k s with None => inl s | Some ks => inr ks end in
  let a := e_alpha o (s_x s k) (s_center s k) in
  let nd := e_dist o (s_partdist s k) a (c_rdiag c k) in
  if e_le o nd (g_bounds (s_g s) k) then
    let s1 := visit k a s in
    let s2 := setg (gsubmaybe k (vec_of (s_x s1)) nd (s_g s1)) s1 in
    match k with
    | O => Some (up 0 (setg (gleaf (vec_of (s_x s2)) nd (s_g s2)) s2))
    | S p =>
        if c_reset c && (Z.of_nat p <? c_rdepth c)%Z then
          match do_reset nd p s2 with None => None | Some s3 => Some (up k s3) end
        else Some (inr (p, descend_full p nd s2))
    end
  else Some (up (S k) s).

(** enumerate_base.cpp:193-245, the while loop of the iterative variant *)
Fixpoint enum_iter (fuel : nat) (k : nat) (s : est) : option est :=
  match fuel with
  | O => None
  | S f =>
      match iter_step k s with
      | None => None
      | Some (inl s') => Some s'
      | Some (inr (k', s')) => enum_iter f k' s'
      end
  end.

(** enumerate_base.cpp:154-190 enumerate_loop; [k0] is the level left by
    prepare_enumeration; [rec] selects FPLLL_WITH_RECURSIVE_ENUM (the default) *)
Definition loop_init (k0 : nat) (s : est) : est :=
  let ke := c_kend c in
  {| s_x := s_x s; s_dx := s_dx s; s_ddx := s_ddx s; s_center := s_center s;
     s_partdist := fset (s_partdist s) ke (e_zero o);
     s_alpha := s_alpha s;
     s_cps := fun i j => if Nat.ltb i ke && Nat.eqb j ke then c_cps0 c i else s_cps s i j;
     s_cpb := fun i => if Nat.eqb i 0 then 0 else if Nat.leb i ke then ke - 1 else s_cpb s i;
     s_g := {| g_max := g_max (s_g s); g_bounds := g_bounds (s_g s); g_subd := g_subd (s_g s);
               g_nodes := fun i => if Nat.ltb k0 i && Nat.ltb i ke then (g_nodes (s_g s) i - 1)%Z else g_nodes (s_g s) i;
               g_ev := g_ev (s_g s); g_log := g_log (s_g s) |} |}.

(** enumerate_base.cpp:152-247 enumerate_loop *)
Definition enum_loop (rec : bool) (fuel : nat) (k0 : nat) (s : est) : option est :=
  if Nat.leb (c_kend c) k0 then Some s
  else if rec then enum_rec fuel (c_kend c) (loop_init k0 s)
  else enum_iter fuel (c_kend c - 1) (loop_init k0 s).

End Enum.

(** enumerate.cpp:161-216 prepare_enumeration.  The loop runs k = d-1, d-2, ... while
    newdist <= maxdist; it also folds the subtree coordinates into
    [center_partsum].  State of the loop: x, center, partdist, dx = ddx, alpha,
    center_partsum, newdist, is_svp. *)
Record pst (o : eops) := {
  p_x : nat -> Z; p_center : nat -> E o; p_partdist : nat -> E o; p_dx : nat -> Z; p_alpha : nat -> E o;
  p_cp : nat -> E o; p_nd : E o; p_svp : bool
}.
Arguments p_x {o}. Arguments p_center {o}. Arguments p_partdist {o}. Arguments p_dx {o}. Arguments p_alpha {o}.
Arguments p_cp {o}. Arguments p_nd {o}. Arguments p_svp {o}.

Section Prepare.
Context (o : eops).
Notation E := (E o).
Variables (d kend : nat) (mut : nat -> nat -> E) (rdiag : nat -> E) (dual : bool)
  (subtree : list Z) (subreset : bool) (maxdist : E).

(** enumerate.cpp:185-194: newcenter -= (alpha or x)[j] * mut[k][j] for j = k+1 .. k_end-1 *)
Definition prep_center (q : pst o) (k : nat) : E :=
  fold_left (fun ce j => if dual then e_suba o ce (p_alpha q j) (mut k j) else e_subx o ce (p_x q j) (mut k j))
            (seq (S k) (kend - S k)) (p_cp q k).

(** one iteration, enumerate.cpp:170-205 *)
Definition prep_step (k : nat) (q : pst o) : pst o :=
  let q1 :=
    if Nat.leb kend k then
      let xk := nth (k - kend) subtree 0%Z in
      ({| p_x := fset (p_x q) k xk; p_center := p_center q; p_partdist := p_partdist q; p_dx := p_dx q;
          p_alpha := p_alpha q;
          p_cp := fun j => if Nat.ltb j k then e_subx o (p_cp q j) xk (mut j k) else p_cp q j;
          p_nd := p_nd q; p_svp := p_svp q && Z.eqb xk 0 |}, p_cp q k)
    else
      let ce := prep_center q k in
      let xk := e_round o ce in
      ({| p_x := fset (p_x q) k xk; p_center := fset (p_center q) k ce; p_partdist := fset (p_partdist q) k (p_nd q);
          p_dx := fset (p_dx q) k (dx0 o ce xk); p_alpha := p_alpha q; p_cp := p_cp q; p_nd := p_nd q; p_svp := p_svp q |}, ce) in
  let '(q', ce) := q1 in
  if negb subreset || Nat.ltb k kend then
    let a := e_alpha o (p_x q' k) ce in
    {| p_x := p_x q'; p_center := p_center q'; p_partdist := p_partdist q'; p_dx := p_dx q';
       p_alpha := fset (p_alpha q') k a; p_cp := p_cp q'; p_nd := e_dist o (p_nd q') a (rdiag k); p_svp := p_svp q' |}
  else q'.

(** [prep_loop n q]: iterations for k = n-1, n-2, ...; returns the final state and the value
    of [++k] after the loop, i.e. the last level processed (n if none was) *)
Fixpoint prep_loop (n : nat) (q : pst o) : nat * pst o :=
  match n with
  | O => (0, q)
  | S k => if e_le o (p_nd q) maxdist then prep_loop k (prep_step k q) else (n, q)
  end.
End Prepare.

(** One call of EnumerationDyn::enumerate for a fixed input (enumerate.cpp:58-159 after the
    conversion of the GSO data to [enumf]; the conversion is modelled for exact
    arithmetic in EnumExact.v).  Uninitialised array entries are [junk]. *)
Record einput (o : eops) := {
  i_d : nat;
  i_mut : nat -> nat -> E o;
  i_rdiag : nat -> E o;
  i_target : option (nat -> E o);   (* None: solvingsvp *)
  i_subtree : list Z;
  i_subreset : bool;
  i_dual : bool; i_findsub : bool;
  i_maxidx : list Z;                (* _max_indices *)
  i_last : nat;
  i_prune : option (nat -> E o);
  i_maxdist : E o
}.
Arguments i_d {o}. Arguments i_mut {o}. Arguments i_rdiag {o}. Arguments i_target {o}. Arguments i_subtree {o}.
Arguments i_subreset {o}. Arguments i_dual {o}. Arguments i_findsub {o}. Arguments i_maxidx {o}. Arguments i_last {o}.
Arguments i_prune {o}. Arguments i_maxdist {o}.

Section Run.
Context (o : eops) {EV : Type}.
Variable evalS : list Z -> E o -> E o -> EV -> EV * E o.
Variable evalSub : nat -> list Z -> E o -> EV -> EV.

(** state before prepare_enumeration: what it does not write is never read (enumerate.cpp:161-216) *)
Definition junkp (inp : einput o) : pst o :=
  {| p_x := fun _ => 0%Z; p_center := fun _ => e_zero o; p_partdist := fun _ => e_zero o; p_dx := fun _ => 0%Z;
     p_alpha := fun _ => e_zero o;
     (* enumerate.cpp:80-89 *)
     p_cp := match i_target inp with None => fun _ => e_zero o | Some t => t end;
     p_nd := e_zero o;
     p_svp := match i_target inp with None => true | Some _ => false end |}.

(** enumerate.cpp:161-216 prepare_enumeration *)
Definition prepared (inp : einput o) : nat * pst o :=
  let kend := i_d inp - length (i_subtree inp) in
  prep_loop o kend (i_mut inp) (i_rdiag inp) (i_dual inp) (i_subtree inp) (i_subreset inp) (i_maxdist inp)
            (i_d inp) (junkp inp).

(** enumerate.cpp:76-78: resetflag, reset_depth *)
Definition cfg_of (inp : einput o) (q : pst o) : ecfg o :=
  {| c_d := i_d inp; c_kend := i_d inp - length (i_subtree inp); c_mut := i_mut inp; c_rdiag := i_rdiag inp;
     c_cps0 := p_cp q; c_svp := p_svp q; c_dual := i_dual inp; c_findsub := i_findsub inp;
     c_reset := match i_maxidx inp with [] => false | _ => true end;
     c_rdepth := nth (i_last inp - length (i_subtree inp) - 1) (i_maxidx inp) 0%Z;
     c_prune := i_prune inp |}.

(** enumerate.cpp:206-216 (x[0] = 1 for SVP), 251-256 (nodes = 0, set_bounds), 143 (subsoldists = rdiag) *)
Definition init_state (inp : einput o) (q : pst o) (ev : EV) : est o EV :=
  {| s_x := if p_svp q then fset (p_x q) 0 1%Z else p_x q;
     s_dx := p_dx q; s_ddx := p_dx q; s_center := p_center q; s_partdist := p_partdist q; s_alpha := p_alpha q;
     s_cps := fun _ _ => e_zero o; s_cpb := fun _ => 0;
     s_g := {| g_max := i_maxdist inp;
               g_bounds := set_bounds o (cfg_of inp q) (i_maxdist inp) (fun _ => e_zero o);
               g_subd := i_rdiag inp; g_nodes := fun _ => 0%Z; g_ev := ev; g_log := [] |} |}.

(** the whole run; [rst] as above *)
Definition run_enum (rst : list Z -> nat -> option (option (list Z * E o)))
  (rec : bool) (fuel : nat) (inp : einput o) (ev : EV) : option (est o EV) :=
  let '(k0, q) := prepared inp in
  enum_loop o evalS evalSub (cfg_of inp q) rst rec fuel k0 (init_state inp q ev).

(** without resets *)
Definition no_rst : list Z -> nat -> option (option (list Z * E o)) := fun _ _ => Some None.
End Run.
