(** Model of the integer part of MatGSO (fplll/gso.{h,cpp},
    fplll/gso_interface.{h,cpp}): basis b, transform u, transposed inverse
    transform u_inv_t, integer Gram matrix g and the discovery bookkeeping.

    Simplifications: ZT is unbounded Z; the FT part (mu, r, gf, bf,
    gso_valid_cols, row_expo) is modelled separately in GsoFModel.v.
    FPLLL_DEBUG_CHECK conditions are not executed (they are compiled out); they
    appear as the predicate [legal] below, i.e. as documented preconditions. *)
From Coq Require Import List ZArith Lia Arith Bool.
From Verif Require Import Util NumVectModel MatrixModel.
Import ListNotations.
Local Open Scope nat_scope.

(** gso_interface.h:546-618, gso.h:132-140: the members. *)
Record gz := mkgz {
  gb : list (list Z);          (* b *)
  gc : nat;                    (* b.get_cols() *)
  gu : list (list Z);          (* u *)
  gui : list (list Z);         (* u_inv_t *)
  gg : list (list Z);          (* g *)
  en_g : bool;                 (* enable_int_gram *)
  en_t : bool;                 (* enable_transform *)
  en_i : bool;                 (* enable_inverse_transform *)
  force_long : bool;           (* row_op_force_long *)
  nkr : nat;                   (* n_known_rows *)
  nsr : nat;                   (* n_source_rows *)
  nkc : nat;                   (* n_known_cols *)
  locked : bool;               (* cols_locked *)
  irs : list nat               (* init_row_size *)
}.

(** d (gso_interface.h:114): number of rows of b *)
Definition gd (z : gz) : nat := length (gb z).

(** replaces one member *)
Definition set_b z x := mkgz x (gc z) (gu z) (gui z) (gg z) (en_g z) (en_t z) (en_i z) (force_long z) (nkr z) (nsr z) (nkc z) (locked z) (irs z).
(** replaces one member *)
Definition set_u z x := mkgz (gb z) (gc z) x (gui z) (gg z) (en_g z) (en_t z) (en_i z) (force_long z) (nkr z) (nsr z) (nkc z) (locked z) (irs z).
(** replaces one member *)
Definition set_ui z x := mkgz (gb z) (gc z) (gu z) x (gg z) (en_g z) (en_t z) (en_i z) (force_long z) (nkr z) (nsr z) (nkc z) (locked z) (irs z).
(** replaces one member *)
Definition set_g z x := mkgz (gb z) (gc z) (gu z) (gui z) x (en_g z) (en_t z) (en_i z) (force_long z) (nkr z) (nsr z) (nkc z) (locked z) (irs z).
(** replaces one member *)
Definition set_known z kr sr kc lk ir := mkgz (gb z) (gc z) (gu z) (gui z) (gg z) (en_g z) (en_t z) (en_i z) (force_long z) kr sr kc lk ir.

(** gso.h:113-130 and gso.cpp:368-403 (constructor, size_increased with
    mu.get_rows() = 0): g is allocated d x d (mpz_init gives 0),
    init_row_size[i] = max(b[i].size_nz(), 1). *)
Definition gso_new (b : list (list Z)) (c : nat) (u ui : list (list Z)) (ig fl : bool) : gz :=
  mkgz b c u ui (repeat (repeat 0%Z (length b)) (length b))
       ig (0 <? length u) (0 <? length ui) fl
       0 0 0 false (map (fun row => Nat.max (size_nz row) 1) b).

(** Z_NR<mpz_t>::mul_2si for a non-negative exponent (nr_Z_mpz.inl). *)
Definition mul_2si (x : Z) (e : nat) : Z := Z.shiftl x (Z.of_nat e).

(** gso.cpp:56-82 discover_row (without the FT part) *)
Definition discover_row (z : gz) : option gz :=
  let i := nkr z in
  irsi <- nth_error (irs z) i;;
  let kr := S i in
  let sr := if locked z then nsr z else kr in
  let kc := if locked z then nkc z else Nat.max (nkc z) irsi in
  let z1 := set_known z kr sr kc (locked z) (irs z) in
  if en_g z then
    g' <- ofor (seq 0 (S i)) (fun j g =>
            bi <- nth_error (gb z) i;; bj <- nth_error (gb z) j;;
            v <- nv_dot_product bi bj 0 kc;; mset g i j v) (gg z);;
    Some (set_g z1 g')
  else
    _ <- nth_error (gb z) i;; Some z1.

(** Loop "for k < n_known_rows, k != i: sym_g(i,k) += h(sym_g(j,k))" shared by
    gso.cpp:101-103, 124-126 (h = negation), 152-158, 186-193, 225-232. *)
Definition gram_row_loop (kr i j : nat) (h : Z -> Z) (g : list (list Z)) : option (list (list Z)) :=
  ofor (seq 0 kr) (fun k g =>
    if k =? i then Some g
    else gjk <- sym_get g j k;; gik <- sym_get g i k;; sym_set g i k (gik + h gjk)%Z) g.

(** update of u and u_inv_t common to all row additions:
    u[i] += x u[j]; u_inv_t[j] += nx u_inv_t[i]   (gso.cpp:87-92 etc.) *)
Definition transform_addmul (z : gz) (i j : nat) (x nx : Z) : option gz :=
  if en_t z then
    u' <- mrow_addmul_full (gu z) i j x;;
    let z1 := set_u z u' in
    if en_i z then ui' <- mrow_addmul_full (gui z) j i nx;; Some (set_ui z1 ui')
    else Some z1
  else Some z.

(** gso.cpp:84-105 row_add *)
Definition row_add (z : gz) (i j : nat) : option gz :=
  b' <- mrow_addmul (gb z) i j 1 (nkc z);;
  z1 <- transform_addmul (set_b z b') i j 1 (-1);;
  if en_g z then
    gij <- sym_get (gg z) i j;; gjj <- mget (gg z) j j;; gii <- mget (gg z) i i;;
    g1 <- mset (gg z) i i (gii + (mul_2si gij 1 + gjj))%Z;;
    g2 <- gram_row_loop (nkr z) i j (fun x => x) g1;;
    Some (set_g z1 g2)
  else Some z1.

(** gso.cpp:107-128 row_sub *)
Definition row_sub (z : gz) (i j : nat) : option gz :=
  b' <- mrow_addmul (gb z) i j (-1) (nkc z);;
  z1 <- transform_addmul (set_b z b') i j (-1) 1;;
  if en_g z then
    gij <- sym_get (gg z) i j;; gjj <- mget (gg z) j j;; gii <- mget (gg z) i i;;
    g1 <- mset (gg z) i i (gii + (gjj - mul_2si gij 1))%Z;;
    g2 <- gram_row_loop (nkr z) i j Z.opp g1;;
    Some (set_g z1 g2)
  else Some z1.

(** gso.cpp:130-160 row_addmul_si *)
Definition row_addmul_si (z : gz) (i j : nat) (x : Z) : option gz :=
  b' <- mrow_addmul (gb z) i j x (nkc z);;
  z1 <- transform_addmul (set_b z b') i j x (-x);;
  if en_g z then
    gij <- sym_get (gg z) i j;; gii <- mget (gg z) i i;;
    g1 <- mset (gg z) i i (gii + mul_2si (gij * x) 1)%Z;;
    gjj <- mget g1 j j;; gii1 <- mget g1 i i;;
    g2 <- mset g1 i i (gii1 + gjj * x * x)%Z;;
    g3 <- gram_row_loop (nkr z) i j (fun y => y * x)%Z g2;;
    Some (set_g z1 g3)
  else Some z1.

(** gso.cpp:162-195 row_addmul_si_2exp.  The multiplier of the vector
    operations is (v*x)*2^expo computed entry-wise (numvect.h:331-341). *)
Definition row_addmul_si_2exp (z : gz) (i j : nat) (x : Z) (e : nat) : option gz :=
  b' <- mrow_addmul (gb z) i j (mul_2si x e) (nkc z);;
  z1 <- transform_addmul (set_b z b') i j (mul_2si x e) (mul_2si (-x) e);;
  if en_g z then
    gij <- sym_get (gg z) i j;; gii <- mget (gg z) i i;;
    g1 <- mset (gg z) i i (gii + mul_2si (gij * x) (e + 1))%Z;;
    gjj <- mget g1 j j;; gii1 <- mget g1 i i;;
    g2 <- mset g1 i i (gii1 + mul_2si (gjj * x * x) (2 * e))%Z;;
    g3 <- gram_row_loop (nkr z) i j (fun y => mul_2si (y * x) e)%Z g2;;
    Some (set_g z1 g3)
  else Some z1.

(** gso.cpp:197-234 row_addmul_2exp; the b update ignores n_known_cols and uses
    the full row (matrix.h:64-67). *)
Definition row_addmul_2exp (z : gz) (i j : nat) (x : Z) (e : nat) : option gz :=
  b' <- mrow_addmul_full (gb z) i j (mul_2si x e);;
  z1 <- transform_addmul (set_b z b') i j (mul_2si x e) (mul_2si (-x) e);;
  if en_g z then
    gij <- sym_get (gg z) i j;; gii <- mget (gg z) i i;;
    g1 <- mset (gg z) i i (gii + mul_2si (gij * x) (e + 1))%Z;;
    gjj <- mget g1 j j;; gii1 <- mget g1 i i;;
    g2 <- mset g1 i i (gii1 + mul_2si (gjj * x * x) (2 * e))%Z;;
    g3 <- gram_row_loop (nkr z) i j (fun y => mul_2si (y * x) e)%Z g2;;
    Some (set_g z1 g3)
  else Some z1.

(** gso.cpp:236-262 row_addmul_we.  The floating-point multiplier x enters only
    through the integers returned by get_si_exp_we (lx, expo) and
    get_z_exp_we (zx, expo2, which overwrites expo); these are arguments here,
    so every value a floating-point type may return is covered.  Exponents are
    non-negative (documented in nr_FP.inl:97-119). *)
Definition row_addmul_we (z : gz) (i j : nat) (lx : Z) (expo : nat) (zx : Z) (expo2 : nat)
  : option gz :=
  if expo =? 0 then
    if (lx =? 1)%Z then row_add z i j
    else if (lx =? -1)%Z then row_sub z i j
    else if negb (lx =? 0)%Z then row_addmul_si z i j lx
    else Some z
  else if force_long z then row_addmul_si_2exp z i j lx expo
  else row_addmul_2exp z i j zx expo2.

(** gso.cpp:264-287 row_swap.  With enable_int_gram and j < i the code throws;
    modelled as [None] (no result). *)
Definition row_swap (z : gz) (i j : nat) : option gz :=
  b' <- oswap (gb z) i j;;
  let z1 := set_b z b' in
  z2 <- (if en_t z then u' <- oswap (gu z) i j;; Some (set_u z1 u') else Some z1);;
  if en_g z then
    if j <? i then None else
    g1 <- ofor (seq 0 i) (fun k g => mswap g i k j k) (gg z);;
    g2 <- ofor (seq (i + 1) (j - (i + 1))) (fun k g => mswap g k i j k) g1;;
    g3 <- ofor (seq (j + 1) (nkr z - (j + 1))) (fun k g => mswap g k i k j) g2;;
    g4 <- mswap g3 i i j j;;
    Some (set_g z2 g4)
  else Some z2.

(** gso.cpp:289-366 move_row (integer part).  std::rotate(first, first+1,
    last+1) on init_row_size is the left rotation by one. *)
Definition move_row (z : gz) (old_r new_r : nat) : option gz :=
  if new_r <? old_r then
    b' <- rotate_right_by_swap (gb z) new_r old_r;;
    let z1 := set_b z b' in
    z2 <- (if en_t z then
             u' <- rotate_right_by_swap (gu z) new_r old_r;;
             let z2 := set_u z1 u' in
             if en_i z then ui' <- rotate_right_by_swap (gui z) new_r old_r;; Some (set_ui z2 ui')
             else Some z2
           else Some z1);;
    if en_g z then
      g' <- rotate_gram_right (gg z) new_r old_r (nkr z);; Some (set_g z2 g')
    else Some z2
  else if old_r <? new_r then
    b' <- rotate_left_by_swap (gb z) old_r new_r;;
    let z1 := set_b z b' in
    z2 <- (if en_t z then
             u' <- rotate_left_by_swap (gu z) old_r new_r;;
             let z2 := set_u z1 u' in
             if en_i z then ui' <- rotate_left_by_swap (gui z) old_r new_r;; Some (set_ui z2 ui')
             else Some z2
           else Some z1);;
    z3 <- (if en_g z then
             if S old_r <? nkr z then    (* old_r < n_known_rows - 1 *)
               g' <- rotate_gram_left (gg z) old_r (Nat.min new_r (nkr z - 1)) (nkr z);;
               Some (set_g z2 g')
             else Some z2
           else Some z2);;
    if nkr z <=? new_r then
      ir1 <- rotate_left_by_swap (irs z) old_r new_r;;
      if old_r <? nkr z then
        row <- nth_error b' new_r;;
        let kr := nkr z - 1 in
        Some (set_known z3 kr kr (nkc z) (locked z) (upd ir1 new_r (Nat.max (size_nz row) 1)))
      else Some (set_known z3 (nkr z) (nsr z) (nkc z) (locked z) ir1)
    else Some z3
  else Some z.

(** gso_interface.cpp:166 lock_cols, 168-172 unlock_cols *)
Definition lock_cols (z : gz) : gz := set_known z (nkr z) (nsr z) (nkc z) true (irs z).
(** gso_interface.cpp:168-172 *)
Definition unlock_cols (z : gz) : gz := set_known z (nsr z) (nsr z) (nkc z) false (irs z).

(** gso.h:291-312 negate_row_of_b *)
Definition negate_row_of_b (z : gz) (i : nat) : option gz :=
  row <- nth_error (gb z) i;;
  let z1 := set_b z (upd (gb z) i (map Z.opp row)) in
  if en_g z then
    g' <- ofor (seq 0 (gd z)) (fun j g =>
            if j <? i then x <- mget g i j;; mset g i j (- x)%Z
            else if i <? j then x <- mget g j i;; mset g j i (- x)%Z
            else Some g) (gg z);;
    Some (set_g z1 g')
  else Some z1.

(** gso.h:333-347 get_int_gram *)
Definition get_int_gram (z : gz) (i j : nat) : option Z :=
  if en_g z then mget (gg z) i j
  else bi <- nth_error (gb z) i;; bj <- nth_error (gb z) j;; nv_dot_product bi bj 0 (nkc z).

(** ** Histories *)
Inductive gop :=
| ORowAdd (i j : nat) | ORowSub (i j : nat)
| OAddmulSi (i j : nat) (x : Z)
| OAddmulSi2 (i j : nat) (x : Z) (e : nat)
| OAddmul2 (i j : nat) (x : Z) (e : nat)
| OAddmulWe (i j : nat) (lx : Z) (e : nat) (zx : Z) (e2 : nat)
| OSwap (i j : nat)
| OMove (old_r new_r : nat)
| ODiscover | OLock | OUnlock
| ONegate (i : nat).

(** one operation, by the definitions above *)
Definition gstep (z : gz) (o : gop) : option gz :=
  match o with
  | ORowAdd i j => row_add z i j
  | ORowSub i j => row_sub z i j
  | OAddmulSi i j x => row_addmul_si z i j x
  | OAddmulSi2 i j x e => row_addmul_si_2exp z i j x e
  | OAddmul2 i j x e => row_addmul_2exp z i j x e
  | OAddmulWe i j lx e zx e2 => row_addmul_we z i j lx e zx e2
  | OSwap i j => row_swap z i j
  | OMove a b => move_row z a b
  | ODiscover => discover_row z
  | OLock => Some (lock_cols z)
  | OUnlock => Some (unlock_cols z)
  | ONegate i => negate_row_of_b z i
  end.

(** a sequence of operations *)
Definition grun (z : gz) (l : list gop) : option gz :=
  fold_left (fun o op => z <- o;; gstep z op) l (Some z).

(** Documented preconditions (FPLLL_DEBUG_CHECK):
    row additions: gso.cpp:239 (i < n_known_rows, j < n_source_rows) and i <> j;
    row_swap: "i < j" (gso.cpp:263), !enable_inverse_transform (266), rows known,
    not during early reduction;
    move_row: gso.cpp:291,294; discover_row: gso.cpp:58-61;
    lock_cols (early reduction) only without integer Gram (gso.cpp:59-61). *)
Definition legal_rowop (z : gz) (i j : nat) : Prop := i < nkr z /\ j < nsr z /\ i <> j.

(** the conditions just listed *)
Definition legal (z : gz) (o : gop) : Prop :=
  match o with
  | ORowAdd i j | ORowSub i j | OAddmulSi i j _ | OAddmulSi2 i j _ _
  | OAddmul2 i j _ _ | OAddmulWe i j _ _ _ _ => legal_rowop z i j
  | OSwap i j => i < j < nkr z /\ en_i z = false /\ locked z = false
  | OMove a b => locked z = false /\ a < gd z /\ b < gd z /\ (b < a -> a < nkr z)
  | ODiscover => nkr z < gd z /\ (locked z && en_g z = false)
  | OLock => en_g z = false
  | OUnlock => True
  | ONegate i => i < gd z
  end.

(** Every operation of the history is legal in the state in which it is executed. *)
Fixpoint legal_run (z : gz) (l : list gop) : Prop :=
  match l with
  | [] => True
  | o :: l' => legal z o /\ match gstep z o with Some z' => legal_run z' l' | None => True end
  end.
