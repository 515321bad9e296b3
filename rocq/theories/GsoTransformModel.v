(** Model of MatGSOInterface::apply_transform (fplll/gso_interface.cpp:174-195) on MatGSO.

    row_op_begin does nothing when debugging is off (gso_interface.h:785-788).  The entries of
    the transformation are FT values; they enter through the integers that get_si_exp_we and
    get_z_exp_we return for them, as in GsoModel.row_addmul_we. *)
From Coq Require Import List ZArith Arith Bool.
From Verif Require Import Util NumVectModel MatrixModel GsoModel GsoFModel GramModel GsoRowsModel.
Import ListNotations.
Local Open Scope nat_scope.

Section Transform.
Variable fo : fops.
Variable en_e : bool.
Variable junk : F fo.

(** an entry of the transformation: lx, expo of get_si_exp_we and zx, expo2 of get_z_exp_we
    (gso.cpp:241-260) *)
Definition mult := (Z * nat * Z * nat)%type.

(** gso_interface.cpp:181-187: row old_d + i becomes the combination of the rows from
    src_base on; row_addmul(i, j, x) is row_addmul_we(i, j, x, 0) (gso_interface.h:748-752) *)
Definition combine_rows (T : list (list mult)) (tcols old_d src : nat) (z : gz) : option gz :=
  ofor (seq 0 (length T)) (fun i z =>
    ofor (seq 0 tcols) (fun j z =>
      m <- mget T i j;;
      let '(lx, e, zx, e2) := m in row_addmul_we z (old_d + i) (src + j) lx e zx e2) z) z.

(** gso_interface.cpp:189-192: the new rows and the target rows change places *)
Definition swap_rows (n old_d tgt : nat) (z : gz) : option gz :=
  ofor (seq 0 n) (fun i z => row_swap z (tgt + i) (old_d + i)) z.

(** gso_interface.cpp:174-195 apply_transform; tcols = transform.get_cols() *)
Definition apply_transform (x : gr fo) (T : list (list mult)) (tcols src tgt : nat) : option (gr fo) :=
  let n := length T in
  let old_d := gd (rz x) in
  x1 <- create_rows fo en_e junk x n;;
  z2 <- combine_rows T tcols old_d src (rz x1);;
  z3 <- swap_rows n old_d tgt z2;;
  s3 <- row_op_end fo en_e z3 (rs x1) tgt (tgt + n);;
  Some (remove_last_rows fo (mkgr z3 s3 (ralloc x1) (rucols x1)) n).
End Transform.
