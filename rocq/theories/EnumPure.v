(** A second description of the enumeration in which every value is an argument: the
    coordinates above the current level are a list, the centre is recomputed from
    scratch for every node, and nothing is cached.  EnumRefine.v proves that the
    object-state code of EnumModel.v computes exactly this.  Nothing here is a transcription of
    the code; it is the specification of "no stale cache" (C22) and the
    intermediate step for C18-C20 and C23. *)
From Coq Require Import List ZArith Arith Bool Lia.
From Verif Require Import EnumModel.
Import ListNotations.

Section Pure.
Context (o : eops) {EV : Type}.
Notation E := (E o).
Notation gst := (gst o EV).
Variable evalS : list Z -> E -> E -> EV -> EV * E.
Variable evalSub : nat -> list Z -> E -> EV -> EV.
Variable c : ecfg o.
Variable rst : list Z -> nat -> option (option (list Z * E)).

(** centre sum of row [i] over the coordinates [sfx] = x_j, x_{j+1}, ...: subtract from the top
    coordinate downwards (the order of enumerate_base.cpp:58-64) *)
Fixpoint csum (i j : nat) (sfx : list Z) : E :=
  match sfx with
  | [] => c_cps0 c i
  | x :: t =>
      if c_dual c then e_suba o (csum i (S j) t) (e_alpha o x (csum j (S j) t)) (c_mut c i j)
      else e_subx o (csum i (S j) t) x (c_mut c i j)
  end.
(** centre of level [k] given the coordinates above *)
Definition cen (k : nat) (sfx : list Z) : E := csum k (S k) sfx.

(** [true]: recursive implementation, [false]: iterative *)
Variable rec : bool.
(** the coordinates fixed by the subtree *)
Variable tl : list Z.

Definition pstep (pd : E) (x dx ddx : Z) : Z * Z * Z :=
  if negb (c_svp c) || negb (is0 o pd) then (x + dx, - ddx - dx, - ddx)%Z else (x + 1, dx, ddx)%Z.

Definition preset (nd : E) (depth : nat) (sfx : list Z) (g : gst) : option gst :=
  match rst (sfx ++ tl) depth with
  | None => None
  | Some None => Some g
  | Some (Some (sol, sd)) =>
      let tot := e_add o sd nd in
      if e_lt o tot (g_bounds g 0) then
        Some (gsol o evalS c (map (fun i => nth i sol 0%Z) (seq 0 (S depth)) ++ sfx ++ tl) tot g)
      else Some g
  end.

Definition subany (first : bool) := first || negb rec.

Section PLoop.
Variable below : list Z -> E -> Z -> Z -> Z -> gst -> option gst.
(** what happens at a node of level kk once its distance [nd] is accepted; [Some (true, g)]: leave the level *)
Definition pnode (kk : nat) (sfx : list Z) (first : bool) (x : Z) (nd : E) (g : gst) : option (bool * gst) :=
  let g1 := gvisit o kk g in
  let g2 := if subany first then gsubmaybe o evalSub c kk (repeat 0%Z kk ++ x :: sfx ++ tl) nd g1 else g1 in
  match kk with
  | O => Some (false, gleaf o evalS c (x :: sfx ++ tl) nd g2)
  | S p =>
      if c_reset c && first && rec && (Z.of_nat kk <? c_rdepth c)%Z then
        option_map (pair true) (preset nd kk sfx g2)
      else if c_reset c && negb rec && (Z.of_nat p <? c_rdepth c)%Z then
        option_map (pair false) (preset nd p (x :: sfx) g2)
      else
        let ce := cen p (x :: sfx) in
        let xv := e_round o ce in
        option_map (pair false) (below (x :: sfx) nd xv (dx0 o ce xv) (dx0 o ce xv) g2)
  end.
Fixpoint ploop (kk : nat) (sfx : list Z) (pd : E) (n : nat) (first : bool) (x dx ddx : Z) (g : gst) : option gst :=
  match n with
  | O => None
  | S n' =>
      let nd := e_dist o pd (e_alpha o x (cen kk sfx)) (c_rdiag c kk) in
      if negb (e_le o nd (g_bounds g kk)) then Some g
      else match pnode kk sfx first x nd g with
           | None => None
           | Some (true, g') => Some g'
           | Some (false, g') =>
               let '(x', dx', ddx') := pstep pd x dx ddx in ploop kk sfx pd n' false x' dx' ddx' g'
           end
  end.
End PLoop.

Fixpoint plev (fuel : nat) (L : nat) (sfx : list Z) (pd : E) (x dx ddx : Z) (g : gst) : option gst :=
  match L with
  | O => Some g
  | S kk => ploop (plev fuel kk) kk sfx pd (S fuel) true x dx ddx g
  end.
End Pure.
