(** Splitting of the enumeration tree: class Enumerator (fplll/enum/topenum.h:26-44, topenum.cpp:20-108) and
    the estimate of the remaining work, cost_estimate and sphere_volume (util.cpp:207-247).

    Simplifications.  The mpfr numbers are exact rationals ([Qc]); coordinates are integers (they are integers stored
    in mpfr variables).  [rnd] is mpfr_rint to nearest, whose ties are left open.  The two comparisons of
    cost_estimate's result with max_volume are arguments: [vle b m] is "cost_estimate(b, m) <= max_volume" and
    [vge b m] is "cost_estimate(b, m) >= max_volume"; [cost_estimate] below is their exact real meaning.
    The arrays are total functions; an access to index -1 is the outcome [TUndef]. *)
From Coq Require Import List ZArith QArith Qcanon Arith Bool Reals.
From Verif Require Import QcUtil EnumModel EnumExact.
Import ListNotations.

(** util.cpp:207-224 sphere_volume(volume, d) for d >= 0; pow(M_PI, d / 2) is the power of the real number pi *)
Definition sphere_volume (d : nat) : R :=
  if Nat.even d
  then fold_left (fun v i => v / INR i)%R (seq 1 (d / 2)) (PI ^ (d / 2))%R
  else fold_left (fun v i => v * (2 / INR (2 * i + 1)))%R (seq 0 (S (d / 2))) (PI ^ (d / 2))%R.

(** util.cpp:229-247, the loop i = dimMax - 1, ..., 0 on (det, cost); [n] = i + 1 *)
Fixpoint cost_loop (bound : R) (r : nat -> R) (dim n : nat) (det cost : R) : R :=
  match n with
  | O => cost
  | S i =>
      let det' := (det * (bound / r i))%R in
      cost_loop bound r dim i det' (cost + sqrt det' * sphere_volume (dim - i))%R
  end.
(** util.cpp:229-247 cost_estimate; dimMax <= 0 leaves cost = 0 *)
Definition cost_estimate (bound : R) (r : nat -> R) (dimMax : Z) : R :=
  cost_loop bound r (Z.to_nat dimMax) (Z.to_nat dimMax) 1%R 0%R.

(** topenum.h:35-43: the variables of an Enumerator; [t_new] is svp_init_needed *)
Record tst := {
  t_new : bool; t_k : nat; t_kmax : nat;
  t_x : nat -> Z; t_dx : nat -> Z; t_ddx : nat -> Z;
  t_center : nat -> Qc; t_dist : nat -> Qc
}.

(** outcome of enum_next: out of fuel, access outside the arrays, or the return value ([Some] = true with get_sub_tree())
    with the object afterwards (topenum.cpp:33-108) *)
Inductive tres := TFuel | TUndef | TRet (sub : option (list Z)) (s : tst).

Section Top.
(** topenum.cpp:20-31: the constructor's arguments *)
Variables (d : nat) (mu : nat -> nat -> Qc) (r : nat -> Qc) (kmin : Z).
Variables (vle vge : Qc -> Z -> bool) (rnd : Qc -> Z).

(** topenum.cpp:20-31 constructor: k and kmax are not initialised *)
Definition top_new : tst :=
  {| t_new := true; t_k := 0; t_kmax := 0; t_x := fun _ => 0%Z; t_dx := fun _ => 0%Z; t_ddx := fun _ => 0%Z;
     t_center := fun _ => 0%Qc; t_dist := fun _ => 0%Qc |}.

(** topenum.cpp:40-45: for (k = d - 1; k > kmin; k--) if (volume <= max_volume) break;
    [None]: k became negative, the arrays are then read at index k (line 55) *)
Fixpoint top_level (R : Qc) (k : nat) : option nat :=
  if (kmin <? Z.of_nat k)%Z then
    if vle R (Z.of_nat k - 1)%Z then Some k
    else match k with O => None | S p => top_level R p end
  else Some k.

(** topenum.cpp:69-71: newcenter -= x[j] * mu(j, k) for j = d-1, ..., k+1 *)
Definition top_center (x : nat -> Z) (k : nat) : Qc :=
  fold_left (fun c j => c - Qcz (x j) * mu j k)%Qc (rev (seq (S k) (d - S k))) 0%Qc.

(** topenum.cpp:66-78: go down to level p *)
Definition top_down (nd : Qc) (p : nat) (s : tst) : tst :=
  let c := top_center (t_x s) p in
  {| t_new := t_new s; t_k := p; t_kmax := t_kmax s;
     t_x := fset (t_x s) p (rnd c); t_dx := fset (t_dx s) p 0%Z;
     t_ddx := fset (t_ddx s) p (if eleb (Qcz (rnd c)) c then (-1)%Z else 1%Z);
     t_center := fset (t_center s) p c; t_dist := fset (t_dist s) p nd |}.

(** topenum.cpp:91-104: the next value at level k; [None] = break *)
Definition top_next (k : nat) (s : tst) : option tst :=
  if (k <? t_kmax s)%nat then
    Some {| t_new := t_new s; t_k := k; t_kmax := t_kmax s;
            t_x := fset (t_x s) k (t_x s k + (- t_ddx s k - t_dx s k))%Z;
            t_dx := fset (t_dx s) k (- t_ddx s k - t_dx s k)%Z;
            t_ddx := fset (t_ddx s) k (- t_ddx s k)%Z;
            t_center := t_center s; t_dist := t_dist s |}
  else if (d <=? k)%nat then None
  else Some {| t_new := t_new s; t_k := k; t_kmax := k;
               t_x := fset (t_x s) k (t_x s k + 1)%Z; t_dx := t_dx s; t_ddx := t_ddx s;
               t_center := t_center s; t_dist := t_dist s |}.

(** replaces k (topenum.cpp:89; the value with which the loop is left at line 100) *)
Definition with_k (k : nat) (s : tst) : tst :=
  {| t_new := t_new s; t_k := k; t_kmax := t_kmax s; t_x := t_x s; t_dx := t_dx s; t_ddx := t_ddx s;
     t_center := t_center s; t_dist := t_dist s |}.

(** outcome of one pass of the while loop *)
Inductive tstep := StUndef | StGo (s : tst) | StOut (sub : list Z) (s : tst) | StEnd (s : tst).

(** topenum.cpp:52-106, one pass of while (notFound) *)
Definition top_step (R : Qc) (s : tst) : tstep :=
  let k := t_k s in
  let y := (t_center s k - Qcz (t_x s k))%Qc in
  let nd := (y * y * r k + t_dist s k)%Qc in
  if eleb nd R then
    if (kmin <? Z.of_nat k)%Z && vge (R - nd)%Qc (Z.of_nat k - 1)%Z then
      match k with O => StUndef | S p => StGo (top_down nd p s) end
    else
      match top_next k s with
      | None => StEnd s
      | Some s' => StOut (map (t_x s) (seq k (d - k))) s'
      end
  else
    match top_next (S k) s with
    | None => StEnd (with_k (S k) s)
    | Some s' => StGo s'
    end.

(** topenum.cpp:52-107, the while loop *)
Fixpoint top_loop (R : Qc) (fuel : nat) (s : tst) : tres :=
  match fuel with
  | O => TFuel
  | S n =>
      match top_step R s with
      | StUndef => TUndef
      | StGo s' => top_loop R n s'
      | StOut sub s' => TRet (Some sub) s'
      | StEnd s' => TRet None s'
      end
  end.

(** topenum.cpp:38-48: the initialisation of the first call; k = d - 1 is negative for d = 0 *)
Definition top_init (R : Qc) (s : tst) : option tst :=
  if t_new s then
    match d with
    | O => None
    | S e =>
        match top_level R e with
        | None => None
        | Some k => Some {| t_new := false; t_k := k; t_kmax := k; t_x := t_x s; t_dx := t_dx s; t_ddx := t_ddx s;
                            t_center := t_center s; t_dist := t_dist s |}
        end
    end
  else Some s.

(** topenum.cpp:33-108 enum_next *)
Definition enum_next (R : Qc) (fuel : nat) (s : tst) : tres :=
  match top_init R s with
  | None => TUndef
  | Some s1 => if (d <=? t_k s1)%nat then TRet None s1 else top_loop R fuel s1
  end.

(** The intended use (topenum.h:31-32): while (enum_next(bound)) use get_sub_tree(); the bound may differ from call to call,
    [Rs] lists it for the successive calls and the last value is kept. [None]: a call did not return or was undefined.
    [calls] bounds the number of calls.  The result lists the subtrees in the order in which they are handed out. *)
Fixpoint split (fuel calls : nat) (Rs : nat -> Qc) (s : tst) : option (list (list Z)) :=
  match calls with
  | O => None
  | S n =>
      match enum_next (Rs 0%nat) fuel s with
      | TRet (Some sub) s' =>
          match split fuel n (fun i => Rs (S i)) s' with None => None | Some l => Some (sub :: l) end
      | TRet None _ => Some []
      | _ => None
      end
  end.
End Top.

(** the comparisons for exact real cost_estimate, topenum.cpp:42-43 and 63-64 *)
Definition vle_real (r : nat -> Qc) (maxvol : R) (b : Qc) (m : Z) : bool :=
  if Rle_dec (cost_estimate (Q2R (this b)) (fun i => Q2R (this (r i))) m) maxvol then true else false.
(** topenum.cpp:63-64 volume >= max_volume *)
Definition vge_real (r : nat -> Qc) (maxvol : R) (b : Qc) (m : Z) : bool :=
  if Rge_dec (cost_estimate (Q2R (this b)) (fun i => Q2R (this (r i))) m) maxvol then true else false.
