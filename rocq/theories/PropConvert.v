(** C41: conversion between integer types. *)
From Coq Require Import List ZArith Lia Arith Bool.
From Verif Require Import Util NumVectModel NumVectProofs MatrixModel MatrixProofs MatStore GenModel GenProofs.
Import ListNotations.
Local Open Scope nat_scope.

(** all entries satisfy P *)
Definition all_entries (A : mat (T := Z)) (P : Z -> Prop) : Prop :=
  forall i j x, i < mr A -> j < mc A -> mget (ms A) i j = Some x -> P x.
(** B has the dimensions and the entries of A *)
Definition same_entries (A B : mat (T := Z)) : Prop :=
  mr B = mr A /\ mc B = mc A /\ forall i j, i < mr A -> j < mc A -> mget (ms B) i j = mget (ms A) i j.
(** x fits into n bits and a sign *)
Definition fits (n : Z) (x : Z) : Prop := (Z.abs x < 2 ^ n)%Z.

Section Conv.
Variables (src : zsrc) (d0 : Z) (A : mat (T := Z)) (buffer : Z).
Hypothesis HS : stored A.
(** |LONG_MIN| overflows *)
Hypothesis Hmin : src = SrcLong -> all_entries A (fun x => x <> LONG_MIN).
Let thr := (2 ^ (62 - buffer))%Z.
Let f := fun i j s => conv_entry src (ms A) thr i j s.

Lemma entry_ok i j s : i < mr A -> j < mc A -> mget (snd s) i j <> None ->
  exists x s', mget (ms A) i j = Some x /\ f i j s = Some s' /\
    (fst s = false -> s' = s) /\
    (fst s = true -> if (thr <? Z.abs x)%Z then s' = (false, snd s) else fst s' = true /\ length (snd s') = length (snd s) /\
       forall a b, mget (snd s') a b = if (a =? i) && (b =? j) then Some x else mget (snd s) a b).
Proof.
  intros Hi Hj HD. destruct HS as [S1 S2]. destruct (mget (ms A) i j) as [x|] eqn:E; [|destruct (S2 i j Hi Hj E)].
  exists x. unfold f, conv_entry. destruct (fst s) eqn:EF; [|exists s; repeat split; auto; discriminate].
  rewrite E. cbn [obind].
  assert (G : match src with SrcMpz => false | SrcLong => (x =? LONG_MIN)%Z end = false).
  { destruct src; auto. apply Z.eqb_neq. apply (Hmin eq_refl i j x); auto. }
  rewrite G. destruct (Z.ltb_spec thr (Z.abs x)).
  - eexists. split; [auto|]. split; [reflexivity|]. split; [discriminate|]. auto.
  - destruct (mset_get (snd s) i j x HD) as [M' [E' [L' G']]]. rewrite E'. cbn [obind]. eexists. split; [auto|]. split; [reflexivity|].
    split; [discriminate|]. cbn [fst snd]. auto.
Qed.

(** done (i,j) before (p,q) in the order of the loops *)
Let before (i j p q : nat) : Prop := i < p \/ (i = p /\ j < q).
Let inv (p q : nat) (s : bool * list (list Z)) : Prop :=
  (forall a b, a < mr A -> b < mc A -> mget (snd s) a b <> None) /\
  if fst s then forall i j, i < mr A -> j < mc A -> before i j p q -> mget (snd s) i j = mget (ms A) i j /\
                  forall x, mget (ms A) i j = Some x -> (Z.abs x <= thr)%Z
  else exists i j x, i < mr A /\ j < mc A /\ mget (ms A) i j = Some x /\ (thr < Z.abs x)%Z.

Lemma loops_ok s : inv 0 0 s ->
  exists s', gfor 0 (mr A) (fun i s => gfor 0 (mc A) (fun j s => f i j s) s) s = Some s' /\ inv (mr A) 0 s'.
Proof.
  intros H0. unfold gfor. rewrite !Nat.sub_0_r. apply (ofor_inv (fun p s => inv p 0 s) _ (mr A) 0 s); auto.
  intros p t Hp Ht. destruct (ofor_inv (fun q s => inv p q s) (fun j s => f p j s) (mc A) 0 t) as [t' [E I']]; auto.
  - intros q u Hq [U1 U2]. destruct (entry_ok p q u) as [x [u' [Ex [Ef [F1 F2]]]]]; try lia; [apply U1; lia|].
    exists u'. split; auto. destruct (fst u) eqn:EU.
    + specialize (F2 eq_refl). destruct (Z.ltb_spec thr (Z.abs x)).
      * subst u'. split; auto. cbn [fst]. exists p, q, x. repeat split; auto; lia.
      * destruct F2 as [F2 [F3 F4]]. split.
        { intros a b Ha Hb. rewrite F4. destruct (_ && _); [congruence|auto]. }
        { rewrite F2. intros i j Hi Hj HB. rewrite F4. destruct (Nat.eqb_spec i p); destruct (Nat.eqb_spec j q); cbn [andb].
          - subst. split; [congruence|]. intros y Hy. assert (y = x) by congruence. subst. lia.
          - apply U2; auto. unfold before in *. lia.
          - apply U2; auto. unfold before in *. lia.
          - apply U2; auto. unfold before in *. lia. }
    + rewrite (F1 eq_refl). split; auto. rewrite EU. exact U2.
  - exists t'. split; auto. destruct I' as [I1 I2]. split; auto. destruct (fst t'); auto.
    intros i j Hi Hj HB. apply I2; auto. unfold before in *. lia.
Qed.

Lemma convert_main Ato : (0 <= buffer <= 62)%Z ->
  exists ok B, convert src d0 Ato A buffer = CRet ok B /\
    (ok = true -> same_entries A B /\ stored B /\ all_entries A (fun x => (Z.abs x <= thr)%Z)) /\
    (ok = false -> exists i j x, i < mr A /\ j < mc A /\ mget (ms A) i j = Some x /\ (thr < Z.abs x)%Z).
Proof.
  intros HB. unfold convert. destruct (mresize_spec d0 (mclear Ato) (mr A) (mc A)) as [m1 [E1 [[S1 S2] [R1 [C1 _]]]]].
  { split; cbn; lia. }
  rewrite E1. replace (63 - buffer - 1)%Z with (62 - buffer)%Z by lia.
  destruct (Z.ltb_spec (62 - buffer) 0); [lia|]. destruct (Z.ltb_spec 62 (62 - buffer)); [lia|]. cbn [orb].
  destruct (loops_ok (true, ms m1)) as [[ok M] [E [I1 I2]]].
  { split; cbn [fst snd]; [intros; apply S2; lia|]. unfold before. intros; lia. }
  unfold f, thr in E. rewrite E. exists ok, (mkmat (mr m1) (mc m1) M). split; auto. cbn [fst snd] in *. split.
  - intros ->. split; [|split].
    + split; auto. split; auto. intros i j Hi Hj. apply I2; auto. unfold before. lia.
    + split; cbn [mr mc ms].
      * destruct (Nat.eq_dec (mr m1) 0); [lia|]. destruct (Nat.eq_dec (mc m1) 0).
        { (* no entry: the loop does not touch the rows *)
          assert (M = ms m1); [|subst; lia]. clear - E e C1. rewrite <- C1, e in E. revert E. unfold gfor. cbn [seq Nat.sub ofor].
          generalize (mr A) as n. intros n. generalize (seq 0 (n - 0)) as l. induction l; cbn [ofor]; [congruence|auto]. }
        destruct (Nat.lt_ge_cases (length M) (mr m1)) as [HL|HL]; [|auto]. exfalso.
        apply (I1 (length M) 0); [lia|lia|]. unfold mget. replace (nth_error M (length M)) with (@None (list Z)); auto.
        symmetry. apply nth_error_None. lia.
      * intros i j Hi Hj. apply I1; lia.
    + intros i j x Hi Hj Hx. destruct (I2 i j Hi Hj) as [_ Q]; [unfold before; lia|]. auto.
  - intros ->. exact I2.
Qed.
End Conv.

(** * The result is true exactly when all entries are at most 2^(62-buffer) in
    absolute value; then the target has the same entries. *)
Theorem convert_exact :
  forall src d0 Ato A buffer, stored A -> (src = SrcLong -> all_entries A (fun x => x <> LONG_MIN)) -> (0 <= buffer <= 62)%Z ->
    exists ok B, convert src d0 Ato A buffer = CRet ok B /\
      (ok = true <-> all_entries A (fun x => (Z.abs x <= 2 ^ (62 - buffer))%Z)) /\
      (ok = true -> same_entries A B /\ stored B).
Proof.
  intros src d0 Ato A buffer HS HM HB. destruct (convert_main src d0 A buffer HS HM Ato HB) as [ok [B [E [H1 H2]]]].
  exists ok, B. split; auto. split; [split|].
  - intros ->. apply H1. auto.
  - intros H. destruct ok; auto. destruct (H2 eq_refl) as [i [j [x [Hi [Hj [Hx Hb]]]]]]. specialize (H i j x Hi Hj Hx). cbn beta in H. lia.
  - intros ->. split; apply H1; auto.
Qed.
Definition ex_A : mat (T := Z) := mkmat 2 2 [[1; - 2 ^ 52]; [2 ^ 52; 0; 7]]%Z.
Example ex_A_stored : stored ex_A.
Proof. split; cbn; [lia|]. intros i j Hi Hj. do 2 (destruct i; [do 2 (destruct j; [discriminate|]); lia|]). lia. Qed.
Example ex_convert : convert SrcMpz 0 mat_empty ex_A 10 = CRet true (mkmat 2 2 [[1; - 2 ^ 52]; [2 ^ 52; 0]]%Z) /\
  convert SrcMpz 0 mat_empty ex_A 11 = CRet false (mkmat 2 2 [[1; 0]; [0; 0]]%Z).
Proof. vm_compute. auto. Qed.

(** * True only if everything fits with [buffer] spare bits (the documented
    63 - buffer bits) *)
Theorem convert_true_fits :
  forall src d0 Ato A buffer B, stored A -> (src = SrcLong -> all_entries A (fun x => x <> LONG_MIN)) -> (0 <= buffer <= 62)%Z ->
    convert src d0 Ato A buffer = CRet true B -> all_entries A (fits (63 - buffer)) /\ same_entries A B.
Proof.
  intros src d0 Ato A buffer B HS HM HB E. destruct (convert_exact src d0 Ato A buffer HS HM HB) as [ok [B' [E' [H1 H2]]]].
  assert (ok = true /\ B' = B) as [-> ->] by (rewrite E in E'; split; congruence). split; [|apply H2; auto].
  intros i j x Hi Hj Hx. destruct H1 as [H1 _]. specialize (H1 eq_refl i j x Hi Hj Hx). unfold fits.
  replace (63 - buffer)%Z with (Z.succ (62 - buffer)) by lia. rewrite Z.pow_succ_r by lia.
  assert (0 < 2 ^ (62 - buffer))%Z by (apply Z.pow_pos_nonneg; lia). cbn beta in H1. lia.
Qed.

(** * The converse fails: values that fit into 63 - buffer bits are refused, for
    every buffer below 62 *)
Theorem convert_accepts_all_that_fit_refuted :
  forall buffer, (0 <= buffer < 62)%Z -> exists A, stored A /\ all_entries A (fits (63 - buffer)) /\
    forall src d0 Ato, exists B, convert src d0 Ato A buffer = CRet false B.
Proof.
  intros buffer HB. set (v := (2 ^ (62 - buffer) + 1)%Z). exists (mkmat 1 1 [[v]]).
  assert (HS : stored (mkmat 1 1 [[v]])).
  { split; cbn; [lia|]. intros i j Hi Hj. destruct i; [destruct j; [discriminate|lia]|lia]. }
  assert (P : (1 < 2 ^ (62 - buffer))%Z) by (apply (Z.pow_gt_1 2 (62 - buffer)); lia).
  assert (P2 : (2 ^ (62 - buffer) <= 2 ^ 62)%Z) by (apply Z.pow_le_mono_r; lia).
  assert (FE : forall i j x, i < 1 -> j < 1 -> mget [[v]] i j = Some x -> x = v).
  { intros i j x Hi Hj. destruct i; [destruct j; [|lia]|lia]. cbn. congruence. }
  split; auto. split.
  - intros i j x Hi Hj Hx. cbn [mr mc ms] in *. rewrite (FE i j x Hi Hj Hx). unfold fits, v.
    replace (63 - buffer)%Z with (Z.succ (62 - buffer)) by lia. rewrite Z.pow_succ_r by lia. lia.
  - intros src d0 Ato. destruct (convert_exact src d0 Ato (mkmat 1 1 [[v]]) buffer) as [ok [B [E [H1 _]]]]; auto; [|lia|].
    + intros _ i j x Hi Hj Hx. cbn [mr mc ms] in *. rewrite (FE i j x Hi Hj Hx). unfold LONG_MIN, v. change (2 ^ 62)%Z with 4611686018427387904%Z in P2.
      change (2 ^ 63)%Z with 9223372036854775808%Z. lia.
    + exists B. destruct ok; auto. destruct H1 as [H1 _]. assert (Q := H1 eq_refl 0 0 v (le_n 1) (le_n 1) eq_refl). cbn beta in Q. unfold v in Q. lia.
Qed.

(** * Converting back (bkz.cpp:833-835 ignore the result): a long entry above
    2^62 makes convert<mpz_t, long>(b, bl, 0) return false with the entry lost *)
Theorem convert_back_loses_entries_refuted :
  exists A B, stored A /\ all_entries A (fun x => (LONG_MIN < x < 2 ^ 63)%Z) /\
    convert SrcLong 0 mat_empty A 0 = CRet false B /\ mget (ms A) 0 1 = Some (2 ^ 62 + 1)%Z /\ mget (ms B) 0 1 = Some 0%Z /\
    mget (ms A) 0 2 = Some 3%Z /\ mget (ms B) 0 2 = Some 0%Z.
Proof.
  exists (mkmat 1 3 [[5; 2 ^ 62 + 1; 3]]%Z). eexists. split; [|split; [|split; [vm_compute; reflexivity|vm_compute; auto]]].
  - split; cbn; [lia|]. intros i j Hi Hj. destruct i; [do 3 (destruct j; [discriminate|]); lia|lia].
  - intros i j x Hi Hj. cbn [mr mc ms] in *. destruct i; [|lia].
    do 3 (destruct j; [cbn [mget nth_error obind]; intros [= <-]; vm_compute; split; reflexivity|]). lia.
Qed.

(** * Buffers outside 0..62 and LONG_MIN as a long are undefined *)
Theorem convert_buffer_range_refuted :
  forall src d0 Ato A buffer, (buffer < 0 \/ 62 < buffer)%Z -> convert src d0 Ato A buffer = CUb.
Proof.
  intros src d0 Ato A buffer HB. unfold convert. destruct (mresize d0 (mclear Ato) (mr A) (mc A)); auto.
  destruct (Z.ltb_spec (63 - buffer - 1) 0); auto. destruct (Z.ltb_spec 62 (63 - buffer - 1)); auto. lia.
Qed.
Theorem convert_long_min_refuted :
  exists A, stored A /\ forall d0 Ato, convert SrcLong d0 Ato A 0 = CUb.
Proof.
  exists (mkmat 1 1 [[LONG_MIN]]). split; [|intros; vm_compute; reflexivity].
  split; cbn; [lia|]. intros i j Hi Hj. destruct i; [destruct j; [discriminate|lia]|lia].
Qed.

Print Assumptions convert_exact.
Print Assumptions convert_true_fits.
Print Assumptions convert_accepts_all_that_fit_refuted.
Print Assumptions convert_back_loses_entries_refuted.
Print Assumptions convert_buffer_range_refuted.
Print Assumptions convert_long_min_refuted.
