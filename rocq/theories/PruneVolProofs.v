(** Iterated integrals and the polynomials that compute them. *)
From Coq Require Import List Reals Arith Bool Lia Lra.
From Coquelicot Require Import Coquelicot.
From Verif Require Import Util MatrixModel MatrixProofs PrunerModel PruneVolModel.
From Verif Require PropPruner.
Import ListNotations.
Local Open Scope R_scope.

(** ** Polynomials as coefficient lists, lowest first *)
Fixpoint pev (p : list R) (x : R) : R :=
  match p with [] => 0 | c :: p' => c + x * pev p' x end.

(** antiderivative: coefficient [i] of [p], of degree [k + i], is divided by its
    degree plus one *)
Fixpoint pint (k : nat) (p : list R) : list R :=
  match p with [] => [] | c :: p' => c / (INR k + 1) :: pint (S k) p' end.

Lemma dconst (c x : R) : is_derive (fun _ : R => c) x 0.
Proof. auto_derive; auto. Qed.
Lemma did (x : R) : is_derive (fun y : R => y) x 1.
Proof. auto_derive; auto. Qed.

Lemma pint_derive p : forall k x,
  is_derive (fun x => x ^ (S k) * pev (pint k p) x) x (x ^ k * pev p x).
Proof.
  induction p as [|c p IH]; intros k x; cbn [pint pev].
  - apply is_derive_ext with (fun _ => 0); [intros; simpl; ring|]. rewrite Rmult_0_r. apply dconst.
  - apply is_derive_ext with (fun x => c / (INR k + 1) * x ^ (S k) + x ^ (S (S k)) * pev (pint (S k) p) x).
    { intros t. simpl. ring. }
    replace (x ^ k * (c + x * pev p x)) with (c / (INR k + 1) * (INR (S k) * 1 * x ^ k) + x ^ (S k) * pev p x).
    2:{ rewrite S_INR. simpl. field. pose proof (pos_INR k). lra. }
    apply (is_derive_plus (fun x => c / (INR k + 1) * x ^ (S k))); [|apply IH].
    apply is_derive_scal. apply is_derive_pow. apply did.
Qed.

Lemma pint0_derive p x : is_derive (fun x => x * pev (pint 0 p) x) x (pev p x).
Proof.
  generalize (pint_derive p 0 x). intros H. replace (pev p x) with (x ^ 0 * pev p x) by (simpl; ring).
  eapply is_derive_ext; [|exact H]. intros t. simpl. ring.
Qed.

Lemma pev_derive p : forall x, exists l, is_derive (pev p) x l.
Proof.
  induction p as [|c p IH]; intros x.
  - exists 0. apply dconst.
  - destruct (IH x) as (l & H). exists (0 + (1 * pev p x + x * l)).
    apply (is_derive_plus (fun _ => c)); [apply dconst|].
    apply (is_derive_mult (fun x => x) (pev p) x 1 l); auto.
    + apply did.
    + intros; apply Rmult_comm.
Qed.

Lemma pev_cont p x : continuous (pev p) x.
Proof.
  destruct (pev_derive p x) as (l & H). apply (ex_derive_continuous (pev p)). exists l. auto.
Qed.

Lemma pev_int p a b : is_RInt (pev p) a b (b * pev (pint 0 p) b - a * pev (pint 0 p) a).
Proof.
  apply (is_RInt_derive (fun x => x * pev (pint 0 p) x) (pev p)).
  - intros x _. apply pint0_derive.
  - intros x _. apply pev_cont.
Qed.

(** ** Spec: volume of { (y_0,...,y_k) | x <= y_0 <= ... <= y_k, y_i <= t_i } as an
    iterated integral *)
Fixpoint simplex_vol (ts : list R) (x : R) : R :=
  match ts with
  | [] => 1
  | t :: ts' => RInt (simplex_vol ts') x t
  end.

(** it is a polynomial in [x] *)
Fixpoint vpoly (ts : list R) : list R :=
  match ts with
  | [] => [1]
  | t :: ts' => let q := pint 0 (vpoly ts') in t * pev q t :: map Ropp q
  end.

Lemma pev_opp p x : pev (map Ropp p) x = - pev p x.
Proof. induction p as [|c p IH]; simpl; [ring|rewrite IH; ring]. Qed.

Lemma simplex_vol_poly ts : forall x, simplex_vol ts x = pev (vpoly ts) x.
Proof.
  induction ts as [|t ts IH]; intros x; cbn [simplex_vol vpoly pev].
  - ring.
  - rewrite (RInt_ext _ (pev (vpoly ts))) by auto.
    rewrite (is_RInt_unique _ _ _ _ (pev_int (vpoly ts) x t)). rewrite pev_opp. ring.
Qed.

Lemma simplex_vol_cont ts x : continuous (simplex_vol ts) x.
Proof.
  apply continuous_ext with (pev (vpoly ts)); [intros; symmetry; apply simplex_vol_poly|apply pev_cont].
Qed.

Lemma simplex_vol_int ts a b : ex_RInt (simplex_vol ts) a b.
Proof. apply (ex_RInt_continuous (V := R_CompleteNormedModule)). intros; apply simplex_vol_cont. Qed.

(** ** Order *)
(** non-decreasing, all at least [x] *)
Fixpoint above (x : R) (ts : list R) : Prop :=
  match ts with [] => True | t :: ts' => x <= t /\ above t ts' end.

Lemma above_le x y ts : x <= y -> above y ts -> above x ts.
Proof. destruct ts; simpl; auto. intros H (H1 & H2). split; auto. lra. Qed.

Lemma vol_nonneg ts : forall x, above x ts -> 0 <= simplex_vol ts x.
Proof.
  induction ts as [|t ts IH]; intros x A; cbn [simplex_vol]; [lra|].
  destruct A as (A1 & A2). apply RInt_ge_0; auto; [apply simplex_vol_int|].
  intros y Hy. apply IH. apply (above_le y t); auto. lra.
Qed.

Lemma vol_pos ts : forall x, (forall t, In t ts -> x < t) -> above x ts -> 0 < simplex_vol ts x.
Proof.
  induction ts as [|t ts IH]; intros x P A; cbn [simplex_vol]; [lra|].
  destruct A as (A1 & A2). assert (x < t) by (apply P; simpl; auto).
  apply RInt_gt_0; auto.
  - intros y Hy. apply IH; [|apply (above_le y t); auto; lra].
    intros u Hu. assert (t <= u); [|lra]. clear - A2 Hu. revert t A2. induction ts as [|v ts IH]; intros t A2; [destruct Hu|].
    destruct A2 as (B1 & B2). destruct Hu as [->|Hu]; auto. specialize (IH Hu v B2). lra.
  - intros y Hy. apply (simplex_vol_cont ts).
Qed.

(** pointwise order *)
Definition le_all (ts us : list R) : Prop := Forall2 Rle ts us.

Lemma chasles ts a b c : RInt (simplex_vol ts) a b + RInt (simplex_vol ts) b c = RInt (simplex_vol ts) a c.
Proof. apply (RInt_Chasles (simplex_vol ts) a b c); apply simplex_vol_int. Qed.

Lemma vol_mono ts us : le_all ts us -> forall x, above x ts -> above x us ->
  simplex_vol ts x <= simplex_vol us x.
Proof.
  induction 1 as [|t u ts us Htu H IH]; intros x A B; cbn [simplex_vol]; [lra|].
  destruct A as (A1 & A2), B as (B1 & B2).
  rewrite <- (chasles us x t u).
  assert (RInt (simplex_vol ts) x t <= RInt (simplex_vol us) x t).
  { apply RInt_le; auto; try apply simplex_vol_int. intros y Hy.
    apply IH; [apply (above_le y t)|apply (above_le y u)]; auto; lra. }
  assert (0 <= RInt (simplex_vol us) t u).
  { apply RInt_ge_0; auto; [apply simplex_vol_int|]. intros y Hy. apply vol_nonneg.
    apply (above_le y u); auto. lra. }
  lra.
Qed.

Lemma vol_ones k : forall x, simplex_vol (repeat 1 k) x = (1 - x) ^ k / INR (fact k).
Proof.
  induction k as [|k IH]; intros x; cbn [repeat simplex_vol].
  - simpl. field.
  - rewrite (RInt_ext _ (fun x => (1 - x) ^ k / INR (fact k))) by auto.
    assert (F : INR (fact k) <> 0) by (apply INR_fact_neq_0).
    assert (S0 : INR (S k) <> 0) by (apply not_0_INR; lia).
    apply is_RInt_unique.
    replace ((1 - x) ^ S k / INR (fact (S k))) with
      ((fun y => - ((1 - y) ^ S k / INR (fact (S k)))) 1 - (fun y => - ((1 - y) ^ S k / INR (fact (S k)))) x).
    2:{ cbn beta. replace (1 - 1) with 0 by ring. rewrite pow_i by lia. lra. }
    apply (is_RInt_derive (fun y => - ((1 - y) ^ S k / INR (fact (S k)))) (fun x => (1 - x) ^ k / INR (fact k))).
    + intros y _.
      assert (D : is_derive (fun y => (1 - y) ^ S k) y (INR (S k) * -1 * (1 - y) ^ k)).
      { apply (is_derive_pow (fun y => 1 - y) (S k) y (-1)).
        replace (-1) with (0 - 1) by ring. apply (is_derive_minus (fun _ => 1) (fun y => y)).
        - apply dconst.
        - apply did. }
      apply is_derive_ext with (fun y => (- / INR (fact (S k))) * (1 - y) ^ S k).
      { intros t. match goal with |- @eq _ ?a ?b => change (@eq R a b) end. field. apply INR_fact_neq_0. }
      replace ((1 - y) ^ k / INR (fact k)) with ((- / INR (fact (S k))) * (INR (S k) * -1 * (1 - y) ^ k)).
      * apply is_derive_scal. exact D.
      * rewrite fact_simpl, mult_INR. field. auto.
    + intros y _. apply continuous_ext with (simplex_vol (repeat 1 k)); [auto|apply simplex_vol_cont].
Qed.

(** scaling all bounds by [c] *)
Lemma vol_scale c ts : forall x,
  simplex_vol (map (Rmult c) ts) (c * x) = c ^ length ts * simplex_vol ts x.
Proof.
  induction ts as [|t ts IH]; intros x; cbn [map simplex_vol length].
  - simpl. ring.
  - replace (c * x) with (c * x + 0) by ring. replace (c * t) with (c * t + 0) by ring.
    rewrite <- (RInt_comp_lin (simplex_vol (map (Rmult c) ts)) c 0 x t) by apply simplex_vol_int.
    rewrite (RInt_ext _ (fun y => scal (c ^ S (length ts)) (simplex_vol ts y))).
    + apply (RInt_scal (V := R_CompleteNormedModule) (simplex_vol ts) x t (c ^ S (length ts))). apply simplex_vol_int.
    + intros y _. unfold scal; simpl; unfold mult; simpl. rewrite Rplus_0_r, IH. ring.
Qed.

(** ** The code computes that volume *)

Lemma nth_error_atR (b : list R) i : (i < length b)%nat -> nth_error b i = Some (nth i b 0).
Proof. intros H. apply nth_error_nth'. auto. Qed.

Lemma pev_snoc p c x : pev (p ++ [c]) x = pev p x + x ^ length p * c.
Proof. induction p as [|a p IH]; simpl; [ring|rewrite IH; ring]. Qed.

Lemma firstn_snoc (p : list R) n : (n < length p)%nat -> firstn (S n) p = firstn n p ++ [nth n p 0].
Proof.
  revert n. induction p as [|a p IH]; intros n H; [simpl in H; lia|].
  destruct n as [|n]; [reflexivity|]. change (firstn (S (S n)) (a :: p)) with (a :: firstn (S n) p).
  simpl in H. rewrite IH by lia. reflexivity.
Qed.

Lemma rev_seq_S n : rev (seq 0 (S n)) = n :: rev (seq 0 n).
Proof. rewrite seq_S, rev_app_distr. reflexivity. Qed.

Lemma horner p x : forall n acc, (n <= length p)%nat ->
  ofor (rev (seq 0 n)) (fun i acc => c <- nth_error p i;; Some (acc * x + c)) acc
  = Some (x ^ n * acc + pev (firstn n p) x).
Proof.
  induction n as [|n IH]; intros acc H.
  - simpl. f_equal. ring.
  - rewrite rev_seq_S. cbn [ofor]. rewrite nth_error_atR by lia. cbn [obind].
    rewrite IH by lia. f_equal. rewrite firstn_snoc by lia. rewrite pev_snoc, firstn_length_le by lia. simpl. ring.
Qed.

Lemma eval_poly_spec ld p x : (ld < length p)%nat -> eval_poly ld p x = Some (pev (firstn (S ld) p) x).
Proof. intros H. unfold eval_poly. rewrite horner by lia. f_equal. ring. Qed.

Lemma nth_pint p : forall k i, nth i (pint k p) 0 = nth i p 0 / (INR (k + i) + 1).
Proof.
  induction p as [|c p IH]; intros k [|i]; simpl pint; cbn [nth].
  - unfold Rdiv. ring.
  - unfold Rdiv. ring.
  - now rewrite Nat.add_0_r.
  - rewrite IH. replace (S k + i)%nat with (k + S i)%nat by lia. reflexivity.
Qed.

Lemma pint_length p : forall k, length (pint k p) = length p.
Proof. induction p as [|c p IH]; intros k; simpl; auto. Qed.

Lemma nth_firstn_ltR (p : list R) n i : (i < n)%nat -> nth i (firstn n p) 0 = nth i p 0.
Proof.
  revert n i. induction p as [|a p IH]; intros n i H; destruct n as [|n]; try lia; destruct i as [|i]; cbn; auto.
  apply IH. lia.
Qed.

Lemma integrate_poly_spec ld p : (S ld < length p)%nat ->
  exists p', integrate_poly ld p = Some p' /\ length p' = length p /\
    firstn (S (S ld)) p' = 0 :: pint 0 (firstn (S ld) p).
Proof.
  intros H. unfold integrate_poly.
  destruct (PropPruner.ofor_down (fun k (v : list R) => length v = length p /\
      (forall i, (i <= k)%nat -> nth i v 0 = nth i p 0) /\
      (forall i, (k <= i < S ld)%nat -> nth (S i) v 0 = nth i p 0 / (INR i + 1)))
    (fun i p => c <- nth_error p i;; vset p (S i) (c / (INR i + 1))) (S ld) p) as (v & E & L & P1 & P2).
  - repeat split; auto. intros i Hi. lia.
  - intros k v Hk (L & P1 & P2). rewrite nth_error_atR by lia. cbn [obind].
    rewrite PropPruner.vset_at by lia. eexists. split; [reflexivity|].
    split; [now rewrite upd_length|]. split; intros i Hi.
    + rewrite nth_upd_neq by lia. apply P1. lia.
    + destruct (Nat.eq_dec i k) as [->|N].
      * rewrite nth_upd_eq by lia. rewrite P1 by lia. reflexivity.
      * rewrite nth_upd_neq by lia. apply P2. lia.
  - rewrite E. cbn [obind]. rewrite PropPruner.vset_at by lia. eexists. split; [reflexivity|].
    split; [now rewrite upd_length|].
    apply (nth_ext _ _ 0 0).
    + cbn [length]. rewrite pint_length, !firstn_length_le; rewrite ?upd_length; lia.
    + intros i Hi. rewrite firstn_length_le in Hi by (rewrite upd_length; lia).
      rewrite nth_firstn_ltR by lia. destruct i as [|i].
      * rewrite nth_upd_eq by lia. reflexivity.
      * rewrite nth_upd_neq by lia. cbn [nth]. rewrite nth_pint, nth_firstn_ltR by lia.
        rewrite P2 by lia. reflexivity.
Qed.

(** the ratios b[i] / b[rd-1] *)
Definition ratios (rd : nat) (b : list R) : list R := map (fun x => x / nth (rd - 1) b 0) (firstn rd b).

Lemma pow_m1_S n : (-1) ^ S n = - (-1) ^ n.
Proof. simpl. ring. Qed.

Lemma pow_m1_mod n : (-1) ^ n = if (n mod 2 =? 1)%nat then -1 else 1.
Proof.
  rewrite (Nat.div_mod n 2) at 1 by lia. rewrite pow_add, pow_mult.
  replace ((-1) ^ 2) with 1 by (simpl; ring). rewrite pow1.
  pose proof (Nat.mod_upper_bound n 2 ltac:(lia)).
  destruct (n mod 2)%nat as [|[|m]]; simpl; [ring|ring|lia].
Qed.

Theorem relative_volume_is P0 rd b :
  length P0 = S rd -> (rd <= length b)%nat ->
  relative_volume P0 rd b = Some (INR (fact rd) * simplex_vol (ratios rd b) 0).
Proof.
  intros L0 Lb. unfold relative_volume. rewrite PropPruner.vset_at by lia. cbn [obind].
  assert (Lr : length (ratios rd b) = rd) by (unfold ratios; rewrite map_length, firstn_length; lia).
  destruct (PropPruner.ofor_down (fun k (s : list R * nat) => length (fst s) = S rd /\ snd s = (rd - k)%nat /\
      forall x, pev (firstn (S (rd - k)) (fst s)) x = (-1) ^ (rd - k) * simplex_vol (skipn k (ratios rd b)) x)
    (volume_step rd b) rd (upd P0 0 1, 0%nat)) as (s & E & L & Ld & P).
  - cbn [fst snd]. rewrite upd_length, Nat.sub_diag. repeat split; auto.
    intros x. rewrite skipn_all2 by lia. destruct P0 as [|a P0]; [discriminate|]. cbn. ring.
  - intros k [v ld] Hk (L & Ld & P). cbn [fst snd] in L, Ld, P. unfold volume_step.
    destruct (integrate_poly_spec ld v) as (v1 & E1 & L1 & F1); [lia|]. rewrite E1. cbn [obind].
    rewrite (nth_error_atR b k) by lia. cbn [obind].
    rewrite PropPruner.osub_le by lia. cbn [obind]. rewrite (nth_error_atR b (rd - 1)) by lia. cbn [obind].
    rewrite eval_poly_spec by lia. cbn [obind]. rewrite PropPruner.vset_at by lia. cbn [obind].
    eexists. split; [reflexivity|]. cbn [fst snd]. split; [rewrite upd_length; lia|]. split; [lia|].
    intros x. replace (rd - k)%nat with (S ld) by lia. set (t := nth k b 0 / nth (rd - 1) b 0).
    assert (SK : skipn k (ratios rd b) = t :: skipn (S k) (ratios rd b)).
    { assert (G : forall (l : list R) i, (i < length l)%nat -> skipn i l = nth i l 0 :: skipn (S i) l).
      { clear. induction l as [|a l IH]; intros i H; [simpl in H; lia|]. destruct i; [reflexivity|].
        cbn [skipn nth]. simpl in H. rewrite IH by lia. reflexivity. }
      rewrite G by lia. f_equal. unfold ratios. rewrite (nth_indep _ 0 (0 / nth (rd - 1) b 0)) by (rewrite map_length, firstn_length; lia).
      rewrite (map_nth (fun x => x / nth (rd - 1) b 0)). rewrite nth_firstn_ltR by lia. reflexivity. }
    rewrite SK. cbn [simplex_vol].
    replace (rd - S k)%nat with ld in P by lia.
    assert (I : RInt (simplex_vol (skipn (S k) (ratios rd b))) x t
      = (-1) ^ ld * (t * pev (pint 0 (firstn (S ld) v)) t - x * pev (pint 0 (firstn (S ld) v)) x)).
    { rewrite (RInt_ext _ (fun y => scal ((-1) ^ ld) (pev (firstn (S ld) v) y))).
      - apply is_RInt_unique. apply (is_RInt_scal (pev (firstn (S ld) v))). apply pev_int.
      - intros y _. unfold scal, mult. cbn [ModuleSpace.sort Ring.sort]. change (simplex_vol (skipn (S k) (ratios rd b)) y = (-1) ^ ld * pev (firstn (S ld) v) y). rewrite P.
        match goal with |- @eq _ ?a ?b => change (@eq R a b) end.
        set (V := simplex_vol (skipn (S k) (ratios rd b)) y).
        replace ((-1) ^ ld * ((-1) ^ ld * V)) with ((-1) ^ ld * (-1) ^ ld * V) by ring.
        rewrite <- Rpow_mult_distr. replace (-1 * -1) with 1 by ring. rewrite pow1. ring. }
    rewrite I, pow_m1_S. rewrite F1. clear P I. set (qq := pint 0 (firstn (S ld) v)) in *. clearbody qq. destruct v1 as [|a v1]; [simpl in L1; lia|].
    cbn [upd firstn]. cbn [firstn] in F1. injection F1 as _ F2. rewrite F2. cbn [pev].
    assert (SS : (-1) ^ ld * (-1) ^ ld = 1).
    { rewrite <- Rpow_mult_distr. replace (-1 * -1) with 1 by ring. apply pow1. }
    set (sg := (-1) ^ ld) in *. set (T := pev qq t). set (X := pev qq x).
    replace (- sg * (sg * (t * T - x * X))) with (- (sg * sg) * (t * T - x * X)) by ring.
    rewrite SS. ring.
  - rewrite E. cbn [obind]. destruct s as [v ld]. cbn [fst snd] in *. rewrite nth_error_atR by lia. cbn [obind].
    f_equal. specialize (P 0). rewrite Nat.sub_0_r in P. cbn [skipn] in P.
    destruct v as [|a v]; [discriminate|]. cbn [firstn pev nth] in *.
    rewrite Rmult_0_l, Rplus_0_r in P. rewrite P, pow_m1_mod.
    destruct (rd mod 2 =? 1)%nat; ring.
Qed.

(** ** Shells: what the part of the simplex outside the ball of radius [s] gains *)

Lemma above_min s ts : forall x, x <= s -> above x ts -> above x (map (Rmin s) ts).
Proof.
  induction ts as [|t ts IH]; intros x H A; cbn; auto.
  destruct A as (A1 & A2). split; [apply Rmin_glb; auto|].
  apply IH; [apply Rmin_l|]. apply (above_le _ t); auto. apply Rmin_r.
Qed.

Lemma min_le_all s ts : le_all (map (Rmin s) ts) ts.
Proof. induction ts; constructor; auto. apply Rmin_r. Qed.

(** volume gained by bounds above [s] *)
Definition shell (s : R) (ts : list R) (x : R) : R := simplex_vol ts x - simplex_vol (map (Rmin s) ts) x.

Lemma shell_nonneg s ts x : x <= s -> above x ts -> 0 <= shell s ts x.
Proof.
  intros H A. unfold shell. pose proof (vol_mono _ _ (min_le_all s ts) x (above_min s ts x H A) A). lra.
Qed.

Lemma shell_int s ts a b : ex_RInt (shell s ts) a b.
Proof.
  apply (ex_RInt_continuous (V := R_CompleteNormedModule)). intros y _. unfold shell.
  apply (continuous_minus (simplex_vol ts) (simplex_vol (map (Rmin s) ts))); apply simplex_vol_cont.
Qed.

Lemma shell_cons s t ts x :
  shell s (t :: ts) x = RInt (shell s ts) x (Rmin s t) + RInt (simplex_vol ts) (Rmin s t) t.
Proof.
  unfold shell at 1. cbn [simplex_vol map].
  rewrite <- (chasles ts x (Rmin s t) t).
  assert (E : RInt (shell s ts) x (Rmin s t) = RInt (simplex_vol ts) x (Rmin s t) - RInt (simplex_vol (map (Rmin s) ts)) x (Rmin s t)).
  { apply (RInt_minus (V := R_CompleteNormedModule) (simplex_vol ts) (simplex_vol (map (Rmin s) ts)) x (Rmin s t)); apply simplex_vol_int. }
  rewrite E. ring.
Qed.

Lemma shell_mono s ts us : le_all ts us -> forall x, x <= s -> above x ts -> above x us ->
  shell s ts x <= shell s us x.
Proof.
  induction 1 as [|t u ts us Htu H IH]; intros x Hs A B; [unfold shell; cbn; lra|].
  destruct A as (A1 & A2), B as (B1 & B2). rewrite !shell_cons.
  assert (G : forall y, x <= y -> y <= Rmin s t -> shell s ts y <= shell s us y).
  { intros y Hy1 Hy2. pose proof (Rmin_l s t). pose proof (Rmin_r s t).
    apply IH; [lra|apply (above_le y t)|apply (above_le y u)]; auto; lra. }
  assert (P : forall y, y <= Rmin s u -> 0 <= shell s us y).
  { intros y Hy. pose proof (Rmin_l s u). pose proof (Rmin_r s u). apply shell_nonneg; [lra|].
    apply (above_le y u); auto; lra. }
  assert (I1 : RInt (shell s ts) x (Rmin s t) <= RInt (shell s us) x (Rmin s t)).
  { apply RInt_le; try apply shell_int; [apply Rmin_glb; auto|]. intros y Hy. apply G; lra. }
  assert (M : Rmin s t <= Rmin s u) by (apply Rmin_glb; [apply Rmin_l|]; pose proof (Rmin_r s t); lra).
  assert (I2 : RInt (shell s us) x (Rmin s u) = RInt (shell s us) x (Rmin s t) + RInt (shell s us) (Rmin s t) (Rmin s u)).
  { symmetry. apply (RInt_Chasles (shell s us)); apply shell_int. }
  assert (I3 : 0 <= RInt (shell s us) (Rmin s t) (Rmin s u)).
  { apply RInt_ge_0; auto; [apply shell_int|]. intros y Hy. apply P. lra. }
  rewrite I2.
  assert (I4 : 0 <= RInt (simplex_vol us) (Rmin s u) u).
  { apply RInt_ge_0; [apply Rmin_r|apply simplex_vol_int|]. intros y Hy. apply vol_nonneg. apply (above_le y u); auto; lra. }
  destruct (Rle_lt_dec t s) as [T|T].
  - replace (Rmin s t) with t in * by (symmetry; apply Rmin_right; lra).
    rewrite (RInt_point t (simplex_vol ts)). unfold zero; simpl. lra.
  - replace (Rmin s t) with s in * by (symmetry; apply Rmin_left; lra).
    replace (Rmin s u) with s in * by (symmetry; apply Rmin_left; lra).
    rewrite <- (chasles us s t u).
    assert (RInt (simplex_vol ts) s t <= RInt (simplex_vol us) s t).
    { apply RInt_le; try apply simplex_vol_int; [lra|]. intros y Hy.
      apply vol_mono; auto; [apply (above_le y t)|apply (above_le y u)]; auto; lra. }
    assert (0 <= RInt (simplex_vol us) t u).
    { apply RInt_ge_0; auto; [apply simplex_vol_int|]. intros y Hy. apply vol_nonneg. apply (above_le y u); auto; lra. }
    lra.
Qed.
