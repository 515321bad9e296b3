(** Coordinates with respect to the Gram-Schmidt basis and Babai's nearest plane algorithm of the GSO objects:
    MatGSO::to_canonical, from_canonical, babai (gso.cpp:405-509) and MatGSOInterface::babai (gso_interface.cpp:277-311).

    Floating-point numbers are exact rationals (no rounding; multiplications by powers of two that undo the exponents
    of get_f_exp disappear); [rnd] is rounding to a nearest integer with any rule for ties.  [None] is an access outside
    a vector or matrix, a vector resized to a negative size or a division by zero.  start is non-negative. *)
From Coq Require Import List ZArith QArith Qcanon Arith Bool.
From Verif Require Import Util QcUtil LatticeSpec.
Import ListNotations.
Local Open Scope Qc_scope.

(** entry k of an array of FT is set to v (gso.cpp:418) *)
Definition aset (x : nat -> Qc) (k : nat) (v : Qc) : nat -> Qc := fun i => if Nat.eqb i k then v else x i.
(** for (i = n - 1; i >= 0; i--) (gso.cpp:413, gso_interface.cpp:298) *)
Fixpoint downto {A} (n : nat) (f : nat -> A -> A) (x : A) : A := match n with O => x | S i => downto i f (f i x) end.
(** for (i = a; i < a + n; i++) (gso.cpp:415, 423, 457) *)
Definition upto {A} (a n : nat) (f : nat -> A -> A) (x : A) : A := fold_left (fun x i => f i x) (seq a n) x.
(** a vector<FT> as an array (gso.cpp:408) *)
Definition arr (v : list Qc) (k : nat) : Qc := nth k v 0.

Section Canon.
(** [B]: the rows of b, [c] columns; [mu], [r]: values returned by get_mu and get_r (gso_interface.h:694-702, 724-732) *)
Variables (c : nat) (B : list (list Z)) (mu r : nat -> nat -> Qc) (rnd : Qc -> Z).
Notation d := (length B).

(** gso.cpp:413-420 triangular system *)
Definition back_solve (start dim : nat) (x : nat -> Qc) : nat -> Qc :=
  downto dim (fun i x => upto (S i) (dim - S i) (fun j x => aset x i (x i - mu (start + j) (start + i) * x j)) x) x.
(** gso.cpp:405-434 to_canonical; the copy of v has its length, dim is the smaller of the length and d - start *)
Definition to_canonical (v : list Qc) (start : nat) : list Qc :=
  let dim := if (length v <? d - start)%nat then length v else (d - start)%nat in
  let x := back_solve start dim (arr v) in
  map (fun j => upto 0 dim (fun i w => w + Qcz (ent B (start + i) j) * x i) 0) (seq 0 c).

(** gso.cpp:456-465 *)
Definition forward_solve (n : nat) (x : nat -> Qc) : nat -> Qc :=
  upto 0 n (fun i x => upto 0 i (fun j x => aset x i (x i - mu i j * x j)) x) x.
(** gso.cpp:466-471 *)
Definition scale (start dim : nat) (x : nat -> Qc) : nat -> Qc :=
  upto 0 dim (fun i x => aset x (i + start) (x (i + start)%nat / r (start + i)%nat (start + i)%nat)) x.
(** dimension == -1 stands for d - start (gso.cpp:439, 498; gso_interface.cpp:295) *)
Definition resolve (dimension : Z) (start : nat) : Z := if (dimension =? -1)%Z then (Z.of_nat d - Z.of_nat start)%Z else dimension.
(** gso.cpp:436-479 from_canonical *)
Definition from_canonical (w : list Qc) (start : nat) (dimension : Z) : option (list Qc) :=
  let dm := resolve dimension start in
  if (dm <? 0)%Z then None else
  let dim := Z.to_nat dm in
  let n := (start + dim)%nat in
  if (d <? n)%nat then None else
  if (length w <? c)%nat && (0 <? n)%nat then None else
  if existsb (fun i => Qc_eq_bool (r (start + i)%nat (start + i)%nat) 0) (seq 0 dim) then None else
  let x := fun i => upto 0 c (fun j a => a + Qcz (ent B i j) * arr w j) 0 in
  let x := forward_solve n x in
  let x := scale start dim x in
  Some (map (fun i => x (start + i)%nat) (seq 0 dim)).

(** Z_NR::set_f (gso_interface.cpp:309), on integral values *)
Definition set_f (q : Qc) : Z := Z.quot (Qnum (this q)) (Zpos (Qden (this q))).
(** gso_interface.cpp:298-305 *)
Definition plane_loop (start dim : nat) (x : nat -> Qc) : nat -> Qc :=
  downto dim (fun i x =>
    let x := aset x i (Qcz (rnd (x i))) in
    upto 0 i (fun j x => aset x j (x j - mu (start + i) (start + j) * x i)) x) x.
(** gso_interface.cpp:291-311 babai(w, v, start, dimension) *)
Definition babai_gs (v : list Qc) (start : nat) (dimension : Z) : option (list Z) :=
  let dm := resolve dimension start in
  if (dm <? 0)%Z then None else
  let dim := Z.to_nat dm in
  if (length v <? dim)%nat then None else
  if (1 <? dim)%nat && (d <? start + dim)%nat then None else
  let x := plane_loop start dim (arr v) in
  Some (map (fun i => set_f (x i)) (seq 0 dim)).
(** gso_interface.cpp:277-289 babai(v, start, dimension) *)
Definition babai_gs_z (v : list Z) (start : nat) (dimension : Z) : option (list Z) := babai_gs (map Qcz v) start dimension.
(** gso.cpp:495-509 babai(w, v, start, dimension, gso) *)
Definition babai_can (v : list Qc) (start : nat) (dimension : Z) (gso : bool) : option (list Z) :=
  let dm := resolve dimension start in
  if gso then babai_gs v start dm
  else match from_canonical v start dm with None => None | Some x => babai_gs x start dm end.
(** gso.cpp:481-493 babai(v, start, dimension, gso) *)
Definition babai_can_z (v : list Z) (start : nat) (dimension : Z) (gso : bool) : option (list Z) := babai_can (map Qcz v) start dimension gso.
End Canon.
