(** Model of MatGSO::create_rows, remove_last_rows (fplll/gso.h:349-383),
    size_increased (gso.cpp:368-403) and discover_all_rows
    (gso_interface.h:761-765) on an existing object.

    Simplification: row_expo is resized even when enable_row_expo is false (its
    entries are then never read).  Cells added to gf, mu, r by resize are
    uninitialised; they hold the arbitrary value [junk] (gf: "not computed"). *)
From Coq Require Import List ZArith Lia Arith Bool.
From Verif Require Import Util NumVectModel MatrixModel GsoModel GsoFModel GramModel.
Import ListNotations.
Local Open Scope nat_scope.

Section Rows.
Variable fo : fops.
Variable en_e : bool.
Variable junk : F fo.

(** The object: integer part, cache part, alloc_dim, u.get_cols().
    mu.get_rows() is the number of rows of fmu. *)
Record gr := mkgr { rz : gz; rs : fst_ fo; ralloc : nat; rucols : nat }.

(** matrix.cpp:26-52 resize to a larger matrix, other element types *)
Definition grow {A} (dflt : A) (rows cols : nat) (M : list (list A)) : list (list A) :=
  map (fun i => map (fun j => nth j (nth i M []) dflt) (seq 0 cols)) (seq 0 rows).
(** vector::resize to a larger size *)
Definition vgrow {A} (dflt : A) (n : nat) (v : list A) : list A := v ++ repeat dflt (n - length v).

(** gso.cpp:372-392: (re)allocation when d > alloc_dim *)
Definition realloc (x : gr) : gr :=
  let z := rz x in let s := rs x in let d := gd z in
  if ralloc x <? d then
    let z1 := set_known (if en_g z then set_g z (mat_grow d d (gg z)) else z)
                (nkr z) (nsr z) (nkc z) (locked z) (vgrow 0 d (irs z)) in
    let s1 := mkfst (grow junk d d (fmu s)) (grow junk d d (fr s))
                (if en_g z then fgf s else grow None d d (fgf s))
                (if en_g z then fbf s else grow (f_ofZ fo 0) d (gc z) (fbf s))
                (vgrow 0%Z d (fre s)) (vgrow 0 d (fvc s)) in
    mkgr z1 s1 d (rucols x)
  else x.

(** gso.cpp:394-402, one row: init_row_size[i] = max(b[i].size_nz(), 1); without
    integer Gram matrix bf[i].fill(0); update_bf(i) *)
Definition init_row (i : nat) (x : gr) : option gr :=
  let z := rz x in
  row <- nth_error (gb z) i;; _ <- nth_error (irs z) i;;
  let z1 := set_known z (nkr z) (nsr z) (nkc z) (locked z) (upd (irs z) i (Nat.max (size_nz row) 1)) in
  if en_g z then Some (mkgr z1 (rs x) (ralloc x) (rucols x))
  else
    old <- nth_error (fbf (rs x)) i;;
    let s1 := set_bf fo (rs x) (upd (fbf (rs x)) i (repeat (f_ofZ fo 0) (length old))) (fre (rs x)) in
    s2 <- update_bf fo en_e z1 s1 i;;
    Some (mkgr z1 s2 (ralloc x) (rucols x)).

(** gso.cpp:368-403 size_increased: the loop starts at the number of rows mu had
    before reallocation *)
Definition size_increased (x : gr) : option gr :=
  let old_d := length (fmu (rs x)) in
  let x1 := realloc x in
  ofor (seq old_d (gd (rz x1) - old_d)) init_row x1.

(** gso.cpp:56-82 discover_row on the object *)
Definition rdiscover (x : gr) : option gr :=
  zs <- fdiscover_row fo (rz x) (rs x);; Some (mkgr (fst zs) (snd zs) (ralloc x) (rucols x)).

(** gso_interface.h:761-765 discover_all_rows; [fuel] bounds the iterations *)
Fixpoint discover_all (fuel : nat) (x : gr) : option gr :=
  if nkr (rz x) <? gd (rz x) then
    match fuel with 0 => None | S f => x' <- rdiscover x;; discover_all f x' end
  else Some x.

(** gso.h:349-372 create_rows *)
Definition create_rows (x : gr) (n : nat) : option gr :=
  let z := rz x in
  let z1 := set_b z (gb z ++ repeat (repeat 0%Z (gc z)) n) in
  let z2 := if en_t z then set_u z1 (gu z ++ repeat (repeat 0%Z (rucols x)) n) else z1 in
  x1 <- size_increased (mkgr z2 (rs x) (ralloc x) (rucols x));;
  if nkr (rz x1) =? gd z then discover_all n x1 else Some x1.

(** gso.h:374-383 remove_last_rows *)
Definition remove_last_rows (x : gr) (n : nat) : gr :=
  let z := rz x in
  let d' := gd z - n in
  let kr := Nat.min (nkr z) d' in
  let z1 := set_known (set_b z (firstn d' (gb z))) kr kr (nkc z) (locked z) (irs z) in
  mkgr (if en_t z then set_u z1 (firstn d' (gu z)) else z1) (rs x) (ralloc x) (rucols x).

(** gso.h:113-130 constructor *)
Definition gr_new (b : list (list Z)) (c : nat) (u ui : list (list Z)) (ucols : nat) (ig fl : bool) : option gr :=
  let z := gso_new b c u ui ig fl in
  s <- fst_new fo en_e junk z;; Some (mkgr z s (length b) ucols).
End Rows.
Arguments rz {fo}. Arguments rs {fo}. Arguments ralloc {fo}. Arguments rucols {fo}.
Arguments mkgr {fo}.
