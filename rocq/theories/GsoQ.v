(** Exact arithmetic: the GSO recursion computes the Gram-Schmidt
    orthogonalisation. *)
From Coq Require Import List ZArith QArith Qpower Qcanon Lia Arith Bool.
From Verif Require Import Util QcUtil LatticeSpec GsoModel GsoFModel GsoFSpec.
Import ListNotations.
Local Open Scope Qc_scope.

(** ** Abstract Gram-Schmidt theory over Qc *)
Definition qdot (n : nat) (v w : nat -> Qc) : Qc := qsum n (fun k => v k * w k).

Lemma qdot_comm n v w : qdot n v w = qdot n w v.
Proof. apply qsum_ext. intros. ring. Qed.
Lemma qdot_sub_r n u v w : qdot n u (fun k => v k - w k) = qdot n u v - qdot n u w.
Proof. unfold qdot. rewrite <- qsum_minus. apply qsum_ext. intros. ring. Qed.
Lemma qdot_sum_r n u m (c : nat -> Qc) (v : nat -> nat -> Qc) :
  qdot n u (fun k => qsum m (fun j => c j * v j k)) = qsum m (fun j => c j * qdot n u (v j)).
Proof.
  unfold qdot. transitivity (qsum n (fun k => qsum m (fun j => u k * (c j * v j k)))).
  - apply qsum_ext. intros. rewrite <- qsum_scal. auto.
  - rewrite qsum_swap. apply qsum_ext. intros. rewrite <- qsum_scal. apply qsum_ext. intros. ring.
Qed.
Lemma qdot_ext n u u' v v' : (forall k, (k < n)%nat -> u k = u' k) -> (forall k, (k < n)%nat -> v k = v' k) ->
  qdot n u v = qdot n u' v'.
Proof. intros H1 H2. apply qsum_ext. intros. rewrite H1, H2; auto. Qed.
Lemma qdot_nonneg n v : 0 <= qdot n v v.
Proof. apply qsum_nonneg. intros. apply Qcsq_nonneg. Qed.
Lemma qdot_0 n v : qdot n v v = 0 -> forall k, (k < n)%nat -> v k = 0.
Proof.
  intros H k Hk. apply Qcsq_0. apply (qsum_nonneg_0 n (fun k => v k * v k)); auto.
  intros; apply Qcsq_nonneg.
Qed.
Lemma qdot_0_l n u v : (forall k, (k < n)%nat -> u k = 0) -> qdot n u v = 0.
Proof. intros H. apply qsum_0. intros. rewrite H by auto. ring. Qed.

Section GS.
Variable n D : nat.
Variable b bstar : nat -> nat -> Qc.
Variable mu r : nat -> nat -> Qc.
Hypothesis Hstar : forall i k, (i < D)%nat -> (k < n)%nat -> bstar i k = b i k - qsum i (fun j => mu i j * bstar j k).
Hypothesis Hr : forall i j, (j <= i)%nat -> (i < D)%nat ->
  r i j = qdot n (b i) (b j) - qsum j (fun k => mu j k * r i k).
Hypothesis Hmu : forall i j, (j < i)%nat -> (i < D)%nat -> mu i j = r i j / r j j.

Lemma gs_r_dot j : forall i, (j <= i)%nat -> (i < D)%nat -> r i j = qdot n (b i) (bstar j).
Proof.
  induction j as [j IH] using lt_wf_ind. intros i Hj Hi. rewrite Hr by auto.
  rewrite (qdot_ext n (b i) (b i) (bstar j) (fun k => b j k - qsum j (fun l => mu j l * bstar l k))).
  2: auto.
  2: intros; apply Hstar; auto; lia.
  rewrite qdot_sub_r, qdot_sum_r. f_equal. apply qsum_ext. intros k Hk. rewrite IH by lia. auto.
Qed.

Lemma gs_both i : (i < D)%nat ->
  (forall j, (j < i)%nat -> qdot n (bstar i) (bstar j) = 0) /\
  r i i = qdot n (bstar i) (bstar i).
Proof.
  induction i as [i IH] using lt_wf_ind. intros Hi.
  assert (HO : forall j, (j < i)%nat -> qdot n (bstar i) (bstar j) = 0).
  { intros j Hj. rewrite qdot_comm.
    rewrite (qdot_ext n (bstar j) (bstar j) (bstar i) (fun k => b i k - qsum i (fun l => mu i l * bstar l k))); auto.
    rewrite qdot_sub_r, qdot_sum_r.
    rewrite (qsum_single i j).
    - rewrite qdot_comm, <- gs_r_dot by lia. destruct (IH j Hj) as [_ Ej]; [lia|]. rewrite <- Ej.
      rewrite Hmu by auto. destruct (Qc_eq_dec (r j j) 0) as [E|E].
      + assert (r i j = 0) as ->.
        { rewrite gs_r_dot by lia. rewrite qdot_comm. apply qdot_0_l. apply qdot_0. congruence. }
        rewrite E. ring.
      + field. auto.
    - auto.
    - intros k Hk Hne. destruct (le_lt_dec k j) as [Hkj|Hkj].
      + destruct (IH j Hj) as [X _]; [lia|]. rewrite X by lia. ring.
      + destruct (IH k Hk) as [X _]; [lia|]. rewrite qdot_comm, X by lia. ring. }
  split; auto.
  rewrite gs_r_dot by lia.
  transitivity (qdot n (bstar i) (fun k => bstar i k + qsum i (fun l => mu i l * bstar l k))).
  - rewrite qdot_comm. apply qdot_ext; auto. intros k Hk. rewrite (Hstar i k) by auto. ring.
  - transitivity (qdot n (bstar i) (bstar i) + qdot n (bstar i) (fun k => qsum i (fun l => mu i l * bstar l k))).
    + unfold qdot. rewrite <- qsum_plus. apply qsum_ext. intros. ring.
    + rewrite qdot_sum_r. rewrite (qsum_0 i). { ring. } intros j Hj. rewrite HO by auto. ring.
Qed.

Lemma gs_mu_r i j : (j < i)%nat -> (i < D)%nat -> r i j = mu i j * r j j.
Proof.
  intros Hj Hi. rewrite Hmu by auto. destruct (Qc_eq_dec (r j j) 0) as [E|E]; [|field; auto].
  rewrite E. rewrite gs_r_dot by lia. rewrite qdot_comm. rewrite qdot_0_l; [ring|].
  apply qdot_0. destruct (gs_both j) as [_ X]; [lia|]. congruence.
Qed.
End GS.

(** ** The exact floating-point type *)
Definition pow2 (k : Z) : Qc := Q2Qc (Qpower (2 # 1) k).
Lemma pow2_nz k : pow2 k <> 0.
Proof.
  intros H. apply Qc_eqQ in H. unfold pow2 in H. rewrite this_Q2Qc in H.
  assert (0 < Qpower (2#1) k)%Q by (apply Qpower_0_lt; reflexivity).
  rewrite H in H0. discriminate.
Qed.
Lemma pow2_add a b : pow2 (a + b) = pow2 a * pow2 b.
Proof. apply Qc_ext. rewrite this_mul. unfold pow2. rewrite !this_Q2Qc. apply Qpower_plus. discriminate. Qed.
Lemma pow2_0 : pow2 0 = 1. Proof. reflexivity. Qed.
Lemma pow2_opp a : pow2 (- a) = / pow2 a.
Proof.
  assert (pow2 a * pow2 (- a) = 1) as H by (rewrite <- pow2_add, Z.add_opp_diag_r; reflexivity).
  pose proof (pow2_nz a) as Ha. transitivity (/ pow2 a * (pow2 a * pow2 (- a))); [field; auto|]. rewrite H. ring.
Qed.
Lemma pow2_sub a b : pow2 (a - b) = pow2 a / pow2 b.
Proof. unfold Z.sub. rewrite pow2_add, pow2_opp. reflexivity. Qed.

(** number of bits of |x| *)
Definition bitlen (x : Z) : Z := if (x =? 0)%Z then 0%Z else (Z.log2 (Z.abs x) + 1)%Z.

(** Exact rationals as floating-point type: get_f_exp returns the mantissa in
    [1/2,1) and the exponent (nr_FP*.inl get_f_exp / nr_Z get_f_exp). *)
Definition qc_ops : fops := {|
  F := Qc;
  f_ofZ := Qcz;
  f_exp := fun x => (Qcz x / pow2 (bitlen x), bitlen x);
  f_mul2 := fun a k => a * pow2 k;
  f_mul := Qcmult;
  f_sub := Qcminus;
  f_div := Qcdiv;
  f_addmul := fun s a b => s + a * b;
  f_fin := fun a b => if Qc_eq_dec b 0 then false else true
|}.

Lemma qc_laws en_e : flaws qc_ops en_e.
Proof.
  constructor; simpl.
  - intros. ring.
  - intros. ring.
  - intros. rewrite Qcz_0. ring.
  - intros _. rewrite Qcz_0. unfold Qcdiv. ring.
  - intros _ k. rewrite Qcz_0. ring.
  - intros _ x. unfold bitlen. simpl. destruct (Z.eqb_spec x 0); [lia|]. pose proof (Z.log2_nonneg (Z.abs x)). lia.
Qed.

Definition zq (row : list Z) (k : nat) : Qc := Qcz (nth k row 0%Z).

Lemma fdotall_q c v w : (1 <= c)%nat -> fdotall qc_ops c v w = qsum c (fun k => nth k v 0 * nth k w 0).
Proof.
  intros Hc. unfold fdotall. simpl. destruct c as [|c]; [lia|].
  change (Qcz 0) with 0. replace (S c - 1)%nat with c by lia.
  enough (forall a, fold_left (fun acc k => acc + nth k v 0 * nth k w 0) (seq 1 c) a = a + qsum c (fun k => nth (S k) v 0 * nth (S k) w 0)) as H.
  - rewrite H. clear. induction c; [simpl; ring|]. cbn [qsum] in *. rewrite <- IHc. simpl. ring.
  - induction c as [|c IH]; intros a; [simpl; ring|].
    rewrite seq_S, fold_left_app, (IH ltac:(lia)). cbn [fold_left qsum]. replace (1 + c)%nat with (S c) by lia. ring.
Qed.

Lemma encrow_q en_e row k : (k < length row)%nat ->
  nth k (encrow qc_ops en_e row) 0 = Qcz (nth k row 0%Z) * pow2 (- encexp qc_ops en_e row).
Proof.
  intros Hk. unfold encrow. destruct en_e.
  - rewrite map_nth_lt with (d := 0%Z) by auto. simpl.
    rewrite pow2_sub, pow2_opp. field. split; apply pow2_nz.
  - rewrite map_nth_lt with (d := 0%Z) by auto. simpl. rewrite pow2_0. ring.
Qed.

(** Gram coefficients over Qc *)
Lemma gram_ref_q en_e ig c B i j : (1 <= c)%nat -> (en_e = true -> ig = false) ->
  length (nth i B []) = c -> length (nth j B []) = c ->
  gram_ref qc_ops en_e ig c B i j =
   qdot c (zq (nth i B [])) (zq (nth j B [])) * pow2 (- encexp qc_ops en_e (nth i B [])) * pow2 (- encexp qc_ops en_e (nth j B [])).
Proof.
  intros Hc He Hi Hj. unfold gram_ref. destruct ig.
  - destruct en_e; [discriminate He; auto|]. unfold encexp. simpl. rewrite pow2_0.
    unfold inner. rewrite Qcz_sum. unfold qdot, zq.
    transitivity (qsum c (fun k => Qcz (nth k (nth i B []) 0%Z) * Qcz (nth k (nth j B []) 0%Z))); [|ring].
    apply qsum_ext. intros. apply Qcz_mul.
  - rewrite fdotall_q by auto. unfold qdot, zq. rewrite <- !qsum_scal_r. apply qsum_ext. intros k Hk.
    rewrite !encrow_q by lia. ring.
Qed.

Lemma refR_q G i j : refR qc_ops G i j = G i j - qsum j (fun k => refM qc_ops G j k * refR qc_ops G i k).
Proof. rewrite refR_unfold. apply (fold_sub_qsum (fun k => refM qc_ops G j k * refR qc_ops G i k)). Qed.
