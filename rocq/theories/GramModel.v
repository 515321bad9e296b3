(** Model of MatGSOGram (fplll/gso_gram.{h,cpp}): the GSO object that holds only
    an integer Gram matrix g and, optionally, the transforms u and u_inv_t.

    Simplifications: ZT is unbounded Z; only the integer part is modelled (mu, r
    and gso_valid_cols are those of GsoFModel.v).  The checks "gptr == nullptr"
    are omitted: the constructor (gso_gram.h:81-85) sets gptr to an address. *)
From Coq Require Import List ZArith Lia Arith Bool.
From Verif Require Import Util NumVectModel MatrixModel GsoModel.
Import ListNotations.
Local Open Scope nat_scope.

(** gso_gram.h:34-66, gso_interface.h:535-625: the members.  [enable_int_gram] is
    always true (gso_gram.h:77-80). *)
Record gm := mkgm {
  mg : list (list Z);          (* *gptr *)
  mu_ : list (list Z);         (* u *)
  mui : list (list Z);         (* u_inv_t *)
  m_t : bool;                  (* enable_transform *)
  m_i : bool;                  (* enable_inverse_transform *)
  m_fl : bool;                 (* row_op_force_long *)
  md : nat;                    (* d *)
  malloc : nat;                (* alloc_dim *)
  mkr : nat;                   (* n_known_rows *)
  msr : nat;                   (* n_source_rows *)
  mlk : bool                   (* cols_locked *)
}.

(** replaces one member *)
Definition mset_g z x := mkgm x (mu_ z) (mui z) (m_t z) (m_i z) (m_fl z) (md z) (malloc z) (mkr z) (msr z) (mlk z).
(** replaces one member *)
Definition mset_u z x := mkgm (mg z) x (mui z) (m_t z) (m_i z) (m_fl z) (md z) (malloc z) (mkr z) (msr z) (mlk z).
(** replaces one member *)
Definition mset_ui z x := mkgm (mg z) (mu_ z) x (m_t z) (m_i z) (m_fl z) (md z) (malloc z) (mkr z) (msr z) (mlk z).
(** replaces one member *)
Definition mset_known z kr sr lk := mkgm (mg z) (mu_ z) (mui z) (m_t z) (m_i z) (m_fl z) (md z) (malloc z) kr sr lk.
(** replaces one member *)
Definition mset_dim z d al := mkgm (mg z) (mu_ z) (mui z) (m_t z) (m_i z) (m_fl z) d al (mkr z) (msr z) (mlk z).

(** matrix.cpp:26-52 Matrix::resize to a larger size: entries of the old matrix
    are kept, new entries are 0 (Z_NR<mpz_t> constructor, nr_Z_mpz.inl).
    Simplification: the matrix has never been shrunk, so no stale storage lies
    beyond its rows and columns (true of g: nothing ever shrinks it). *)
Definition mat_grow (rows cols : nat) (M : list (list Z)) : list (list Z) :=
  map (fun i => map (fun j => nth j (nth i M []) 0%Z) (seq 0 cols)) (seq 0 rows).

(** gso_gram.cpp:360-375 size_increased *)
Definition gm_size_increased (z : gm) : gm :=
  if malloc z <? md z then mset_dim (mset_g z (mat_grow (md z) (md z) (mg z))) (md z) (md z) else z.

(** gso_gram.h:74-92 constructor (alloc_dim = 0, gso_interface.h:98-108) *)
Definition gm_new (g u ui : list (list Z)) (fl : bool) : gm :=
  gm_size_increased (mkgm g u ui (0 <? length u) (0 <? length ui) fl (length g) 0 0 0 false).

(** gso_gram.cpp:25-39 discover_row (gso_valid_cols[i] = 0 is in bounds when
    i < alloc_dim) *)
Definition gm_discover_row (z : gm) : option gm :=
  if mkr z <? malloc z then
    Some (mset_known z (S (mkr z)) (if mlk z then msr z else S (mkr z)) (mlk z))
  else None.

(** gso_interface.h:761-765 discover_all_rows; [fuel] bounds the iterations. *)
Fixpoint gm_discover_all (fuel : nat) (z : gm) : option gm :=
  if mkr z <? md z then
    match fuel with 0 => None | S f => z' <- gm_discover_row z;; gm_discover_all f z' end
  else Some z.

(** u[i] += x u[j]; u_inv_t[j] += nx u_inv_t[i] (gso_gram.cpp:53-58 etc.) *)
Definition gm_transform_addmul (z : gm) (i j : nat) (x nx : Z) : option gm :=
  if m_t z then
    u' <- mrow_addmul_full (mu_ z) i j x;;
    let z1 := mset_u z u' in
    if m_i z then ui' <- mrow_addmul_full (mui z) j i nx;; Some (mset_ui z1 ui')
    else Some z1
  else Some z.

(** gso_gram.cpp:51-78 row_add *)
Definition gm_row_add (z : gm) (i j : nat) : option gm :=
  z1 <- gm_transform_addmul z i j 1 (-1);;
  gij <- sym_get (mg z) i j;; gjj <- mget (mg z) j j;; gii <- mget (mg z) i i;;
  g1 <- mset (mg z) i i (gii + (mul_2si gij 1 + gjj))%Z;;
  g2 <- gram_row_loop (md z) i j (fun x => x) g1;;
  Some (mset_g z1 g2).

(** gso_gram.cpp:80-105 row_sub *)
Definition gm_row_sub (z : gm) (i j : nat) : option gm :=
  z1 <- gm_transform_addmul z i j (-1) 1;;
  gij <- sym_get (mg z) i j;; gjj <- mget (mg z) j j;; gii <- mget (mg z) i i;;
  g1 <- mset (mg z) i i (gii + (gjj - mul_2si gij 1))%Z;;
  g2 <- gram_row_loop (md z) i j Z.opp g1;;
  Some (mset_g z1 g2).

(** gso_gram.cpp:107-142 row_addmul_si, 144-181 row_addmul_si_2exp, 183-225
    row_addmul_2exp: the same statements with the integer multiplier x and the
    exponent e (e = 0 in row_addmul_si). *)
Definition gm_row_addmul (z : gm) (i j : nat) (x : Z) (e : nat) : option gm :=
  z1 <- gm_transform_addmul z i j (mul_2si x e) (mul_2si (-x) e);;
  gij <- sym_get (mg z) i j;; gii <- mget (mg z) i i;;
  g1 <- mset (mg z) i i (gii + mul_2si (gij * x) (e + 1))%Z;;
  gjj <- mget g1 j j;; gii1 <- mget g1 i i;;
  g2 <- mset g1 i i (gii1 + mul_2si (gjj * x * x) (2 * e))%Z;;
  g3 <- gram_row_loop (md z) i j (fun v => mul_2si (v * x) e) g2;;
  Some (mset_g z1 g3).

(** gso_gram.cpp:227-252 row_addmul_we (lx, expo, zx, expo2 as in
    GsoModel.row_addmul_we) *)
Definition gm_row_addmul_we (z : gm) (i j : nat) (lx : Z) (expo : nat) (zx : Z) (expo2 : nat)
  : option gm :=
  if expo =? 0 then
    if (lx =? 1)%Z then gm_row_add z i j
    else if (lx =? -1)%Z then gm_row_sub z i j
    else if (lx =? 0)%Z then Some z
    else gm_row_addmul z i j lx 0
  else if m_fl z then gm_row_addmul z i j lx expo
  else gm_row_addmul z i j zx expo2.

(** gso_gram.cpp:254-281 row_swap; i > j throws ([None]). *)
Definition gm_row_swap (z : gm) (i j : nat) : option gm :=
  z1 <- (if m_t z then u' <- oswap (mu_ z) i j;; Some (mset_u z u') else Some z);;
  if j <? i then None
  else
    g1 <- ofor (seq 0 i) (fun k g => mswap g i k j k) (mg z);;
    g2 <- ofor (seq (i + 1) (j - (i + 1))) (fun k g => mswap g k i j k) g1;;
    g3 <- ofor (seq (j + 1) (md z - (j + 1))) (fun k g => mswap g k i k j) g2;;
    g4 <- mswap g3 i i j j;;
    Some (mset_g z1 g4).

(** u.rotate / u_inv_t.rotate (gso_gram.cpp:297-302, 327-332) *)
Definition gm_rot_u (rot : list (list Z) -> nat -> nat -> option (list (list Z)))
    (z : gm) (f l : nat) : option gm :=
  if m_t z then
    u' <- rot (mu_ z) f l;;
    let z1 := mset_u z u' in
    if m_i z then ui' <- rot (mui z) f l;; Some (mset_ui z1 ui') else Some z1
  else Some z.

(** gso_gram.cpp:283-358 move_row (integer part) *)
Definition gm_move_row (z : gm) (old_r new_r : nat) : option gm :=
  if new_r <? old_r then
    z1 <- gm_rot_u (@rotate_right_by_swap _) z new_r old_r;;
    g' <- rotate_gram_right (mg z) new_r old_r (md z);;
    Some (mset_g z1 g')
  else if old_r <? new_r then
    z1 <- gm_rot_u (@rotate_left_by_swap _) z old_r new_r;;
    z2 <- (if old_r + 1 <? mkr z then
             g' <- rotate_gram_left (mg z) old_r (Nat.min new_r (mkr z - 1)) (md z);;
             Some (mset_g z1 g')
           else Some z1);;
    if (mkr z <=? new_r) && (old_r <? mkr z)
    then Some (mset_known z2 (mkr z - 1) (mkr z - 1) (mlk z))
    else Some z2
  else Some z.

(** gso_gram.h:219-232 negate_row_of_b (get_rows_of_b() = g.get_rows(),
    gso_gram.h:207-217) *)
Definition gm_negate (z : gm) (i : nat) : option gm :=
  g' <- ofor (seq 0 (length (mg z))) (fun j g =>
          if j =? i then Some g else v <- sym_get g i j;; sym_set g i j (- v)%Z) (mg z);;
  Some (mset_g z g').

(** gso_interface.cpp:166-172 lock_cols, unlock_cols *)
Definition gm_lock (z : gm) : gm := mset_known z (mkr z) (msr z) true.
(** gso_interface.cpp:168-172 *)
Definition gm_unlock (z : gm) : gm := mset_known z (msr z) (msr z) false.

(** gso_gram.h:249-262 get_int_gram *)
Definition gm_get_int_gram (z : gm) (i j : nat) : option Z := mget (mg z) i j.
(** gso_gram.h:183-194 b_row_is_zero *)
Definition gm_b_row_is_zero (z : gm) (i : nat) : option bool :=
  v <- mget (mg z) i i;; Some (v =? 0)%Z.

(** gso_gram.h:264-272 remove_last_rows (u.set_rows keeps the first d rows) *)
Definition gm_remove_last_rows (z : gm) (n : nat) : gm :=
  let d' := md z - n in
  let kr := Nat.min (mkr z) d' in
  let z1 := mset_known (mset_dim z d' (malloc z)) kr kr (mlk z) in
  if m_t z then mset_u z1 (firstn d' (mu_ z)) else z1.

(** gso_gram.h:274-292 create_rows; ucols = u.get_cols() *)
Definition gm_create_rows (ucols : nat) (z : gm) (n : nat) : option gm :=
  let d' := md z + n in
  let z1 := mset_dim z d' (malloc z) in
  let z2 := if m_t z then mset_u z1 (mu_ z ++ repeat (repeat 0%Z ucols) n) else z1 in
  let z3 := gm_size_increased z2 in
  if mkr z3 =? md z then gm_discover_all n z3 else Some z3.

(** one operation; the type of operations is the one of MatGSO *)
Definition gmstep (z : gm) (o : gop) : option gm :=
  match o with
  | ORowAdd i j => gm_row_add z i j
  | ORowSub i j => gm_row_sub z i j
  | OAddmulSi i j x => gm_row_addmul z i j x 0
  | OAddmulSi2 i j x e => gm_row_addmul z i j x e
  | OAddmul2 i j x e => gm_row_addmul z i j x e
  | OAddmulWe i j lx e zx e2 => gm_row_addmul_we z i j lx e zx e2
  | OSwap i j => gm_row_swap z i j
  | OMove a b => gm_move_row z a b
  | ODiscover => gm_discover_row z
  | OLock => Some (gm_lock z)
  | OUnlock => Some (gm_unlock z)
  | ONegate i => gm_negate z i
  end.

(** a sequence of operations *)
Fixpoint gmrun (z : gm) (l : list gop) : option gm :=
  match l with [] => Some z | o :: l' => z' <- gmstep z o;; gmrun z' l' end.

(** Documented preconditions (the FPLLL_DEBUG_CHECKs of gso_gram.cpp: 28-31,
    230, 256, 285, 288, and "i < j" for row_swap). *)
Definition gmlegal (z : gm) (o : gop) : Prop :=
  match o with
  | ORowAdd i j | ORowSub i j | OAddmulSi i j _ | OAddmulSi2 i j _ _
  | OAddmul2 i j _ _ | OAddmulWe i j _ _ _ _ => i < mkr z /\ j < msr z /\ i <> j
  | OSwap i j => i < j < md z /\ m_i z = false
  | OMove a b => mlk z = false /\ a < md z /\ b < md z /\ (b < a -> a < mkr z)
  | ODiscover => mkr z < md z /\ mlk z = false
  | OLock | OUnlock => True
  | ONegate i => i < md z
  end.

(** every operation of a sequence meets P when it is called *)
Fixpoint gmlegal_run (P : gm -> gop -> Prop) (z : gm) (l : list gop) : Prop :=
  match l with
  | [] => True
  | o :: l' => P z o /\ match gmstep z o with Some z' => gmlegal_run P z' l' | None => False end
  end.
