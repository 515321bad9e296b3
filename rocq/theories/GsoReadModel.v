(** Model of the functions of MatGSO that read out the computed coefficients: dump_mu_d,
    dump_r_d (fplll/gso_interface.h:791-861), get_max_gram, get_max_bstar
    (gso_interface.cpp:55-86).

    A buffer of the caller is the list of its cells; an access outside is None.  A vector passed
    by value is a copy: the function returns what the vector of the caller holds afterwards. *)
From Coq Require Import List ZArith Arith Bool.
From Verif Require Import Util NumVectModel MatrixModel GsoModel GsoFModel.
Import ListNotations.
Local Open Scope nat_scope.

Section Read.
Variable fo : fops.
Variable en_e : bool.
Notation FT := (F fo).
(** e.get_d() (gso_interface.h:805, 825, 842, 859) *)
Variable D : Type.
Variable to_d : FT -> D.
(** operator<= of FT (nr_FP.inl:221); tmp.set_f (gso_interface.cpp:74) *)
Variable fle : FT -> FT -> bool.
Variable to_z : FT -> Z.

(** p[k] = x on a buffer *)
Definition put (buf : list D) (k : nat) (x : D) : option (list D) :=
  if k <? length buf then Some (upd buf k x) else None.
(** gso_interface.h:795-798 = 814-817 = 834-837 = 850-853: the default block *)
Definition block (z : gz) (block_size : Z) : nat :=
  if (block_size <=? 0)%Z then gd z else Z.to_nat block_size.

(** gso_interface.h:791-808 dump_mu_d for a pointer *)
Definition dump_mu_ptr (zs : gz * fst_ fo) (mu : list D) (offset : nat) (block_size : Z) : option (list D) :=
  let n := block (fst zs) block_size in
  ofor (seq 0 n) (fun i mu =>
    ofor (seq 0 n) (fun j mu =>
      e <- get_mu fo en_e zs (offset + i) (offset + j);; put mu (i * n + j) (to_d e)) mu) mu.
(** gso_interface.h:810-828 dump_mu_d(vector<double> mu), by value *)
Definition dump_mu_vec (zs : gz * fst_ fo) (mu : list D) (offset : nat) (block_size : Z) : option (list D) :=
  let n := block (fst zs) block_size in
  _ <- ofor (seq 0 n) (fun i copy =>
         ofor (seq 0 n) (fun j copy =>
           e <- get_mu fo en_e zs (offset + i) (offset + j);; Some (copy ++ [to_d e])) copy) mu;;
  Some mu.
(** gso_interface.h:830-844 dump_r_d for a pointer *)
Definition dump_r_ptr (zs : gz * fst_ fo) (r : list D) (offset : nat) (block_size : Z) : option (list D) :=
  let n := block (fst zs) block_size in
  ofor (seq 0 n) (fun i r =>
    e <- get_r fo en_e zs (offset + i) (offset + i);; put r i (to_d e)) r.
(** gso_interface.h:846-861 dump_r_d(vector<double> &r), by reference *)
Definition dump_r_vec (zs : gz * fst_ fo) (r : list D) (offset : nat) (block_size : Z) : option (list D) :=
  let n := block (fst zs) block_size in
  ofor (seq 0 n) (fun i r =>
    e <- get_r fo en_e zs (offset + i) (offset + i);; Some (r ++ [to_d e])) r.

(** nr_Z.inl:134-140 max_z *)
Definition max_z (a b : Z) : Z := if (a <=? b)%Z then b else a.
(** nr_FP.inl:219-225 max_f *)
Definition max_f (a b : FT) : FT := if fle a b then b else a.
(** max_f (nr_FP.inl:219-225) where None is NaN: the comparison is false *)
Definition max_nan (a b : option FT) : option FT :=
  match a, b with Some x, Some y => Some (max_f x y) | _, _ => a end.
(** gso_interface.cpp:55-77 get_max_gram; the conversion of NaN is undefined *)
Definition get_max_gram (zs : gz * fst_ fo) : option Z :=
  let '(z, s) := zs in
  if en_g z then
    t <- mget (gg z) 0 0;;
    ofor (seq 0 (nkr z)) (fun i t => x <- mget (gg z) i i;; Some (max_z t x)) t
  else
    t <- mget (fgf s) 0 0;;
    t <- ofor (seq 0 (nkr z)) (fun i t => x <- mget (fgf s) i i;; Some (max_nan t x)) t;;
    option_map to_z t.
(** gso_interface.cpp:79-86 get_max_bstar *)
Definition get_max_bstar (zs : gz * fst_ fo) : option FT :=
  let '(z, s) := zs in
  t <- mget (fr s) 0 0;;
  ofor (seq 0 (nkr z)) (fun i t => x <- mget (fr s) i i;; Some (max_f t x)) t.
End Read.
