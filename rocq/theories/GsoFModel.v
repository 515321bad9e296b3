(** Model of the floating-point part of MatGSO: the caches bf, gf, mu, r, the
    exponents row_expo and the validity counters gso_valid_cols
    (fplll/gso.cpp, gso.h, gso_interface.{h,cpp}).

    The floating-point type FT is abstract: a record of the operations the code
    performs.  Every theorem quantifies over it. *)
From Coq Require Import List ZArith Lia Arith Bool.
From Verif Require Import Util NumVectModel MatrixModel GsoModel.
Import ListNotations.
Local Open Scope nat_scope.

(** Operations of FP_NR<F> used by the GSO code (nr/nr_FP*.inl):
    set_z, get_f_exp, mul_2si, mul, sub, div, addmul and "the quotient a/b is
    finite" (mu(i,j).is_finite() directly after mu(i,j).div(a,b)). *)
Record fops := mkfops {
  F : Type;
  f_ofZ : Z -> F;
  f_exp : Z -> F * Z;
  f_mul2 : F -> Z -> F;
  f_mul : F -> F -> F;
  f_sub : F -> F -> F;
  f_div : F -> F -> F;
  f_addmul : F -> F -> F -> F;   (* result += a*b *)
  f_fin : F -> F -> bool
}.

(** gso_interface.h:546-608 members mu, r, gf (None = NaN, i.e. not computed),
    bf, row_expo, gso_valid_cols *)
Record fst_ (fo : fops) := mkfst {
  fmu : list (list (F fo));
  fr : list (list (F fo));
  fgf : list (list (option (F fo)));
  fbf : list (list (F fo));
  fre : list Z;
  fvc : list nat
}.
Arguments mkfst {fo}.
Arguments fmu {fo}. Arguments fr {fo}. Arguments fgf {fo}. Arguments fbf {fo}.
Arguments fre {fo}. Arguments fvc {fo}.

Section Model.
Variable fo : fops.
(** enable_row_expo: never together with enable_int_gram (gso.h:116) *)
Variable en_e : bool.
Notation FT := (F fo).

(** replaces one member *)
Definition set_mu (s : fst_ fo) x := mkfst x (fr s) (fgf s) (fbf s) (fre s) (fvc s).
(** replaces one member *)
Definition set_r_ (s : fst_ fo) x := mkfst (fmu s) x (fgf s) (fbf s) (fre s) (fvc s).
(** replaces one member *)
Definition set_gf (s : fst_ fo) x := mkfst (fmu s) (fr s) x (fbf s) (fre s) (fvc s).
(** replaces one member *)
Definition set_bf (s : fst_ fo) x e := mkfst (fmu s) (fr s) (fgf s) x e (fvc s).
(** replaces one member *)
Definition set_vc (s : fst_ fo) x := mkfst (fmu s) (fr s) (fgf s) (fbf s) (fre s) x.

(** gso.cpp:29-34: maximum of the column exponents.  The C++ loop starts from
    LONG_MIN; every exponent is larger, so the maximum of a non-empty list is
    the same. *)
Definition max_expo (l : list Z) : Z := match l with [] => 0 | e :: l' => fold_left Z.max l' e end%Z.

(** gso.cpp:24-48 update_bf: only the first n = max(n_known_cols,
    init_row_size[i]) columns are refreshed. *)
Definition update_bf (z : gz) (s : fst_ fo) (i : nat) : option (fst_ fo) :=
  irsi <- nth_error (irs z) i;;
  let n := Nat.max (nkc z) irsi in
  row <- nth_error (gb z) i;; old <- nth_error (fbf s) i;;
  if (length row <? n) || (length old <? n) then None
  else if en_e then
    let fe := map (f_exp fo) (firstn n row) in
    let m := max_expo (map snd fe) in
    let new := map (fun p => f_mul2 fo (fst p) (snd p - m)) fe in
    _ <- nth_error (fre s) i;;
    Some (set_bf s (upd (fbf s) i (new ++ skipn n old)) (upd (fre s) i m))
  else
    Some (set_bf s (upd (fbf s) i (map (f_ofZ fo) (firstn n row) ++ skipn n old)) (fre s)).

(** gso.cpp:368-403 size_increased on a new object (mu.get_rows() = 0): all
    matrices are allocated, bf[i] is filled with 0 and refreshed.  mu and r are
    allocated uninitialised: [junk] is an arbitrary value. *)
Definition fst_new (junk : FT) (z : gz) : option (fst_ fo) :=
  let d := gd z in
  let s0 := mkfst (repeat (repeat junk d) d) (repeat (repeat junk d) d)
                  (repeat (repeat None d) d) (repeat (repeat (f_ofZ fo 0) (gc z)) d)
                  (repeat 0%Z d) (repeat 0 d) in
  if en_g z then Some s0
  else ofor (seq 0 d) (fun i s => update_bf z s i) s0.

(** gso.cpp:50-54 invalidate_gram_row *)
Definition invalidate_gram_row (s : fst_ fo) (i : nat) : option (fst_ fo) :=
  g' <- ofor (seq 0 (S i)) (fun j g => mset g i j None) (fgf s);; Some (set_gf s g').

(** gso_interface.cpp:25-30 invalidate_gso_row *)
Definition invalidate_gso_row (s : fst_ fo) (i new_valid : nat) : option (fst_ fo) :=
  v <- nth_error (fvc s) i;; Some (set_vc s (upd (fvc s) i (Nat.min v new_valid))).

(** gso.cpp:56-82 discover_row: integer part (GsoModel.discover_row) and cache part *)
Definition fdiscover_row (z : gz) (s : fst_ fo) : option (gz * fst_ fo) :=
  z' <- discover_row z;;
  s1 <- (if en_g z then Some s else invalidate_gram_row s (nkr z));;
  _ <- nth_error (fvc s1) (nkr z);;
  Some (z', set_vc s1 (upd (fvc s1) (nkr z) 0)).

(** gso_interface.cpp:32-53 row_op_end *)
Definition row_op_end (z : gz) (s : fst_ fo) (first last : nat) : option (fst_ fo) :=
  s1 <- ofor (seq first (last - first)) (fun i s =>
          s1 <- (if en_g z then Some s
                 else
                   s1 <- update_bf z s i;;
                   s2 <- invalidate_gram_row s1 i;;
                   g' <- ofor (seq (i + 1) (nkr z - (i + 1))) (fun j g => mset g j i None) (fgf s2);;
                   Some (set_gf s2 g'));;
          invalidate_gso_row s1 i 0) s;;
  ofor (seq last (nkr z - last)) (fun i s => invalidate_gso_row s i first) s1.

(** numvect.h:386-395 dot_product over FT *)
Fixpoint fdot_loop (acc : FT) (v w : list FT) (i cnt : nat) : option FT :=
  match cnt with
  | 0 => Some acc
  | S c => x <- nth_error v i;; y <- nth_error w i;; fdot_loop (f_addmul fo acc x y) v w (S i) c
  end.
(** numvect.h:385-395, beg = 0 *)
Definition fdot (v w : list FT) (n : nat) : option FT :=
  x <- nth_error v 0;; y <- nth_error w 0;; fdot_loop (f_mul fo x y) v w 1 (n - 1).

(** gso.h:314-331 get_gram (returns the value and the updated cache) *)
Definition get_gram (z : gz) (s : fst_ fo) (i j : nat) : option (FT * fst_ fo) :=
  if en_g z then v <- mget (gg z) i j;; Some (f_ofZ fo v, s)
  else
    c <- mget (fgf s) i j;;
    match c with
    | Some v => Some (v, s)
    | None =>
        bi <- nth_error (fbf s) i;; bj <- nth_error (fbf s) j;;
        v <- fdot bi bj (nkc z);; g' <- mset (fgf s) i j (Some v);; Some (v, set_gf s g')
    end.

(** gso_interface.cpp:147-151: ftmp1 -= mu(j,k)*r(i,k) for k < j *)
Definition sub_loop (s : fst_ fo) (i j : nat) (g : FT) : option FT :=
  ofor (seq 0 j) (fun k acc =>
    m <- mget (fmu s) j k;; r <- mget (fr s) i k;; Some (f_sub fo acc (f_mul fo m r))) g.

(** gso_interface.cpp:143-159: the loop over j, [cnt] = last_j + 1 - j *)
Fixpoint update_loop (z : gz) (s : fst_ fo) (i j cnt : nat) : option (fst_ fo * bool) :=
  match cnt with
  | 0 => Some (s, true)
  | S c =>
      p <- get_gram z s i j;;
      let '(g, s1) := p in
      acc <- sub_loop s1 i j g;;
      r' <- mset (fr s1) i j acc;;
      let s2 := set_r_ s1 r' in
      if j <? i then
        rjj <- mget r' j j;;
        mu' <- mset (fmu s2) i j (f_div fo acc rjj);;
        let s3 := set_mu s2 mu' in
        if f_fin fo acc rjj then update_loop z s3 i (S j) c else Some (s3, false)
      else update_loop z s2 i (S j) c
  end.

(** gso_interface.cpp:131-164 update_gso_row(i, last_j) *)
Definition update_gso_row (z : gz) (s : fst_ fo) (i last_j : nat) : option (gz * fst_ fo * bool) :=
  zs <- (if nkr z <=? i then fdiscover_row z s else Some (z, s));;
  let '(z1, s1) := zs in
  v <- nth_error (fvc s1) i;;
  p <- update_loop z1 s1 i v (S last_j - v);;
  let '(s2, ok) := p in
  if ok : bool then Some (z1, set_vc s2 (upd (fvc s2) i (Nat.max v (S last_j))), true)
  else Some (z1, s2, false).

(** gso_interface.h:739-746 set_r *)
Definition set_r (s : fst_ fo) (i j : nat) (x : FT) : option (fst_ fo) :=
  r' <- mset (fr s) i j x;;
  v <- nth_error (fvc s) i;;
  let s1 := set_r_ s r' in
  Some (if v =? j then set_vc s1 (upd (fvc s1) i (S v)) else s1).

(** gso.cpp:289-366 move_row, cache part followed by the integer part. *)
Definition fmove_row (z : gz) (s : fst_ fo) (old_r new_r : nat) : option (gz * fst_ fo) :=
  if new_r <? old_r then
    s1 <- ofor (seq new_r (nkr z - new_r)) (fun i s => invalidate_gso_row s i new_r) s;;
    vc' <- rotate_right_by_swap (fvc s1) new_r old_r;;
    mu' <- rotate_right_by_swap (fmu s1) new_r old_r;;
    r' <- rotate_right_by_swap (fr s1) new_r old_r;;
    z' <- move_row z old_r new_r;;
    g' <- (if en_g z then Some (fgf s1) else rotate_gram_right (fgf s1) new_r old_r (nkr z));;
    b' <- (if en_g z then Some (fbf s1) else rotate_right_by_swap (fbf s1) new_r old_r);;
    e' <- (if en_e then rotate_right_by_swap (fre s1) new_r old_r else Some (fre s1));;
    Some (z', mkfst mu' r' g' b' e' vc')
  else if old_r <? new_r then
    s1 <- ofor (seq old_r (nkr z - old_r)) (fun i s => invalidate_gso_row s i old_r) s;;
    vc' <- rotate_left_by_swap (fvc s1) old_r new_r;;
    mu' <- rotate_left_by_swap (fmu s1) old_r new_r;;
    r' <- rotate_left_by_swap (fr s1) old_r new_r;;
    z' <- move_row z old_r new_r;;
    g' <- (if en_g z then Some (fgf s1)
           else if S old_r <? nkr z then rotate_gram_left (fgf s1) old_r (Nat.min new_r (nkr z - 1)) (nkr z)
           else Some (fgf s1));;
    b' <- (if en_g z then Some (fbf s1) else rotate_left_by_swap (fbf s1) old_r new_r);;
    e' <- (if en_e then rotate_left_by_swap (fre s1) old_r new_r else Some (fre s1));;
    Some (z', mkfst mu' r' g' b' e' vc')
  else Some (z, s).

(** ** Histories *)
Inductive fop :=
| FTrans (first last : nat) (l : list gop)   (* row_op_begin; row operations; row_op_end *)
| FMove (old_r new_r : nat)
| FUpdate (i last_j : nat)
| FSetR (i j : nat) (x : FT)
| FDiscover | FLock | FUnlock.

(** one operation, by the definitions above *)
Definition fstep (zs : gz * fst_ fo) (o : fop) : option (gz * fst_ fo) :=
  let '(z, s) := zs in
  match o with
  | FTrans f l ops => z' <- grun z ops;; s' <- row_op_end z' s f l;; Some (z', s')
  | FMove a b => fmove_row z s a b
  | FUpdate i lj => p <- update_gso_row z s i lj;; Some (fst p)
  | FSetR i j x => s' <- set_r s i j x;; Some (z, s')
  | FDiscover => fdiscover_row z s
  | FLock => Some (lock_cols z, s)
  | FUnlock => Some (unlock_cols z, s)
  end.

(** a sequence of operations *)
Fixpoint frun (zs : gz * fst_ fo) (l : list fop) : option (gz * fst_ fo) :=
  match l with
  | [] => Some zs
  | o :: l' => zs' <- fstep zs o;; frun zs' l'
  end.

(** rows written by an operation *)
Definition op_in_range (f l : nat) (o : gop) : Prop :=
  match o with
  | ORowAdd i _ | ORowSub i _ | OAddmulSi i _ _ | OAddmulSi2 i _ _ _
  | OAddmul2 i _ _ _ | OAddmulWe i _ _ _ _ _ | ONegate i => f <= i < l
  | OSwap i j => f <= i < l /\ f <= j < l
  | _ => False
  end.

(** The value that the code documents for set_r: LLL passes the value computed
    by the same recurrence (lll.cpp: lovasz_tests). *)
Definition r_value (z : gz) (s : fst_ fo) (i j : nat) : option FT :=
  p <- get_gram z s i j;; sub_loop (snd p) i j (fst p).

(** Preconditions: gso_interface.h:169-178 (row_op_begin/row_op_end),
    283-297 (update_gso_row: coefficients of the rows above must be valid),
    741-742 (set_r), and those of GsoModel.legal. *)
Definition flegal (zs : gz * fst_ fo) (o : fop) : Prop :=
  let '(z, s) := zs in
  match o with
  | FTrans f l ops => f <= l <= nkr z /\ legal_run z ops /\ Forall (op_in_range f l) ops
  | FMove a b => legal z (OMove a b)
  | FUpdate i lj =>
      i < gd z /\ i <= nkr z /\ (i = nkr z -> legal z ODiscover) /\ lj <= i /\
      lj < (if (i =? nkr z) && negb (locked z) then S (nkr z) else nsr z) /\
      forall j, j <= lj -> j < i -> j < nth j (fvc s) 0
  | FSetR i j x =>
      i < nkr z /\ j < nsr z /\ j <= nth i (fvc s) 0 /\ j = i /\ r_value z s i j = Some x
  | FDiscover => legal z ODiscover
  | FLock => legal z OLock
  | FUnlock => True
  end.

(** every operation of a sequence is legal when it is called *)
Fixpoint flegal_run (zs : gz * fst_ fo) (l : list fop) : Prop :=
  match l with
  | [] => True
  | o :: l' => flegal zs o /\ match fstep zs o with Some zs' => flegal_run zs' l' | None => True end
  end.

(** gso_interface.h:674-722 get_mu_exp / get_r_exp: the stored coefficient and
    the exponent. *)
Definition get_mu_exp (zs : gz * fst_ fo) (i j : nat) : option (FT * Z) :=
  let '(z, s) := zs in
  m <- mget (fmu s) i j;;
  if en_e then ei <- nth_error (fre s) i;; ej <- nth_error (fre s) j;; Some (m, (ei - ej)%Z)
  else Some (m, 0%Z).
(** gso_interface.h:704-714 get_r_exp *)
Definition get_r_exp (zs : gz * fst_ fo) (i j : nat) : option (FT * Z) :=
  let '(z, s) := zs in
  m <- mget (fr s) i j;;
  if en_e then ei <- nth_error (fre s) i;; ej <- nth_error (fre s) j;; Some (m, (ei + ej)%Z)
  else Some (m, 0%Z).
(** gso_interface.h:694-702 get_mu, 724-732 get_r: the exponent is applied *)
Definition get_mu (zs : gz * fst_ fo) (i j : nat) : option FT :=
  p <- get_mu_exp zs i j;; Some (if en_e then f_mul2 fo (fst p) (snd p) else fst p).
(** gso_interface.h:724-732 get_r *)
Definition get_r (zs : gz * fst_ fo) (i j : nat) : option FT :=
  p <- get_r_exp zs i j;; Some (if en_e then f_mul2 fo (fst p) (snd p) else fst p).
(** The documented condition under which they may be called. *)
Definition valid_coeff (zs : gz * fst_ fo) (i j : nat) : Prop :=
  i < nkr (fst zs) /\ j <= i /\ j < nth i (fvc (snd zs)) 0.
End Model.

Arguments FTrans {fo}. Arguments FMove {fo}. Arguments FUpdate {fo}. Arguments FSetR {fo}.
Arguments FDiscover {fo}. Arguments FLock {fo}. Arguments FUnlock {fo}.
