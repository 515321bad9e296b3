(** Exact rational arithmetic as a floating-point type for LLLReduction, and a
    coarse fixed-point type for examples. *)
From Coq Require Import List ZArith QArith Qround Qcanon Lia Arith Bool.
From Verif Require Import Util QcUtil GsoModel GsoFModel GsoFSpec GsoQ PropGsoF LllModel.
Import ListNotations.

(** comparison of rationals *)
Definition qltb (a b : Qc) : bool := match (a ?= b)%Qc with Lt => true | _ => false end.
Definition qabs (a : Qc) : Qc := if qltb a 0%Qc then (- a)%Qc else a.

(** Exact arithmetic and exact comparisons; the rounding of coefficients, their
    conversion to integers and the exponent function are arbitrary. *)
Definition lq_ops (rnd : Qc -> Z -> Qc) (si ze : Qc -> Z -> Z * nat) (expo : Qc -> Z) : lops :=
  mklops qc_ops (fun a b => qltb b a) qltb (fun a => qltb 0%Qc a) qabs Qcopp
         (fun a => if Qc_eq_dec a 0%Qc then true else false) rnd si ze expo.

(** Rounding to nearest (ties upwards), as in exact rational arithmetic. *)
Definition qrnd (x : Qc) (e : Z) : Qc := (Qcz (Qfloor (this (x * pow2 e) + (1 # 2))) / pow2 e)%Qc.
Definition qint (x : Qc) (e : Z) : Z * nat := (Qfloor (this (x * pow2 e)%Qc), 0%nat).
Definition qexpo (x : Qc) : Z := (bitlen (Qnum (this x)) - bitlen (Zpos (Qden (this x))) + 1)%Z.
Definition lqx : lops := lq_ops qrnd qint qint qexpo.

(** Fixed point with 4 fractional bits (PropGsoF.fx_ops): operations round down,
    so most results are wrong by up to 1/16. *)
Definition lfx : lops :=
  mklops fx_ops Z.gtb Z.ltb (fun a => (0 <? a)%Z) Z.abs Z.opp (fun a => (a =? 0)%Z)
         (fun x e => (Z.shiftl (Z.shiftr (x + 8) 4) 4)%Z)
         (fun x e => (Z.shiftr x 4, 0%nat)) (fun x e => (Z.shiftr x 4, 0%nat)) (fun x => (Z.log2 (Z.abs x) - 3)%Z).

Definition q_of (n d : Z) : Qc := Q2Qc (Qmake n (Z.to_pos d)).

Lemma qltb_lt a b : qltb a b = true <-> (a < b)%Qc.
Proof. unfold qltb. rewrite Qclt_alt. destruct (a ?= b)%Qc; split; congruence. Qed.
Lemma qltb_ge a b : qltb a b = false <-> (b <= a)%Qc.
Proof.
  split; intros H.
  - apply Qcnot_lt_le. intros X. apply qltb_lt in X. congruence.
  - destruct (qltb a b) eqn:E; auto. apply qltb_lt in E. exfalso. revert H. apply Qclt_not_le. auto.
Qed.
Lemma qabs_le a e : (qabs a <= e)%Qc -> (a <= e /\ - e <= a)%Qc.
Proof.
  unfold qabs. destruct (qltb a 0) eqn:E; intros H.
  - apply qltb_lt in E. split.
    + apply Qcle_trans with 0%Qc; [apply Qclt_le_weak; auto|]. apply Qcle_trans with (- a)%Qc; auto.
      apply Qclt_le_weak. apply Qclt_minus_iff in E. replace (- a)%Qc with (0 + - a)%Qc by ring. auto.
    + apply Qcopp_le_compat in H. rewrite Qcopp_involutive in H. auto.
  - apply qltb_ge in E. split; auto. apply Qcle_trans with 0%Qc; auto.
    apply Qcopp_le_compat in H. apply Qcopp_le_compat in E. replace (- 0)%Qc with 0%Qc in E by ring.
    eapply Qcle_trans; eauto.
Qed.
