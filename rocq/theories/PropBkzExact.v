(** Property C71: HKZ and BKZ reduction in exact arithmetic. *)
From Coq Require Import List ZArith QArith Qcanon Lia Lqa Arith Bool.
From Verif Require Import Util QcUtil LatticeSpec MatrixModel MatrixProofs GsoModel GsoProofs GsoHistory GsoFModel GsoFSpec GsoFProofs GsoQ QGs
  LllModel LllQ LllExact LllDecide LllSpec LllSpecFacts GramDet LatPot LllTotal LllKeep PropLll PropLllExact PropLllTotal
  EnumModel EnumExact EnumSpec EnumLink EvalModel EnumCall PropEnum BkzModel BkzProofs PropBkz PropGso PropGsoF LllProofs BkzExactModel BkzSpec LatProj BkzExact BkzHkz BkzTotal.
Import ListNotations.
Local Open Scope nat_scope.

(** ** a limit for LLL *)
Lemma bernoulli (x : Qc) : (0 <= x)%Qc -> (x < 1)%Qc -> forall n, (x ^ n * (1 + Qcz (Z.of_nat n) * (1 - x)) <= 1)%Qc /\ (0 <= x ^ n)%Qc.
Proof.
  intros H0 H1. induction n as [|n [IH IP]].
  - split; [|discriminate]. cbn [Qcpower]. replace (1 * (1 + Qcz (Z.of_nat 0) * (1 - x)))%Qc with 1%Qc; [apply Qcle_refl|]. change (Qcz (Z.of_nat 0)) with 0%Qc. ring.
  - assert (PN : (0 <= Qcz (Z.of_nat n))%Qc) by (rewrite <- Qcz_0; apply Qcz_le; lia).
    rewrite Nat2Z.inj_succ, <- Z.add_1_r, Qcz_add, Qcz_1. cbn [Qcpower].
    set (y := (x ^ n)%Qc) in *. set (k := Qcz (Z.of_nat n)) in *. clearbody y k. split; [|clear - H0 IP; qcnra].
    eapply Qcle_trans; [|exact IH].
    assert (E : (y * (1 + k * (1 - x)) - x * y * (1 + (k + 1) * (1 - x)) = y * ((k + 1) * ((1 - x) * (1 - x))))%Qc) by ring.
    assert (S1 : (0 <= (1 - x) * (1 - x))%Qc) by (generalize (1 - x)%Qc; clear; intros w; destruct (Qclt_le_dec w 0); qcnra).
    assert (S2 : (0 <= (k + 1) * ((1 - x) * (1 - x)))%Qc) by (revert S1; generalize ((1 - x) * (1 - x))%Qc; clear - PN; intros; qcnra).
    assert (S3 : (0 <= y * ((k + 1) * ((1 - x) * (1 - x))))%Qc) by (revert S2; generalize ((k + 1) * ((1 - x) * (1 - x)))%Qc; clear - IP; intros; qcnra).
    rewrite <- E in S3. clear - S3. qclra.
Qed.
Lemma pow_half (x : Qc) : (0 <= x)%Qc -> (x < 1)%Qc -> exists p, (x ^ p <= Q2Qc (1 # 2))%Qc.
Proof.
  intros H0 H1. set (e := (1 - x)%Qc). assert (He : (0 < e)%Qc) by (unfold e; clear - H1; qclra).
  exists (Pos.to_nat (Qden e)). destruct (bernoulli x H0 H1 (Pos.to_nat (Qden e))) as [HB HP]. fold e in HB.
  assert (HE : (1 <= Qcz (Z.of_nat (Pos.to_nat (Qden e))) * e)%Qc).
  { rewrite positive_nat_Z. unfold Qcle. 
    change (this (Qcz (Z.pos (Qden e)) * e)%Qc) with (Qred (this (Qcz (Z.pos (Qden e))) * this e)). rewrite Qred_correct.
    change (this (Qcz (Z.pos (Qden e)))) with (Qred (inject_Z (Z.pos (Qden e)))). rewrite Qred_correct.
    unfold Qclt in He. destruct e as [[a b] E]. cbn [this Qden Qnum] in *. unfold Qlt in He. cbn in He. unfold Qle, Qmult, inject_Z. cbn [Qnum Qden]. change (1 * Z.pos b <= Z.pos b * a * 1)%Z. clear - He. nia. }
  set (y := (x ^ Pos.to_nat (Qden e))%Qc) in *. set (k := (Qcz (Z.of_nat (Pos.to_nat (Qden e))) * e)%Qc) in *. clearbody y k.
  assert (H2 : (y * (1 + 1) <= 1)%Qc). { eapply Qcle_trans; [|exact HB]. clear - HP HE. qcnra. }
  unfold Qcle in *. change (this (Q2Qc (1 # 2))) with (1 # 2)%Q. change (this 1%Qc) with 1%Q in H2.
  change (this (y * (1 + 1))%Qc) with (Qred (this y * this (1 + 1)%Qc)) in H2. rewrite Qred_correct in H2. change (this (1 + 1)%Qc) with 2%Q in H2. Lqa.lra.
Qed.
(** a limit large enough for every basis exists *)
Lemma enough_exists c d dl : (0 <= dl)%Qc -> (dl < 1)%Qc -> exists limit, enough_iterations c d dl limit.
Proof.
  intros H0 H1. destruct (pow_half dl H0 H1) as [p Hp].
  set (NN := fun B : list (list Z) => (1 + zsum (length B) (fun i => inner c (nth i B []) (nth i B [])))%Z).
  exists (fun B => d + p * S (Z.to_nat (Z.log2 (NN B ^ Z.of_nat (d * d))))).
  intros B n HL _ Hn.
  assert (HI : forall i, (0 <= inner c (nth i B []) (nth i B []))%Z) by (intros i; unfold inner; apply zsum_nonneg; intros; nia).
  assert (HN : (1 <= NN B)%Z). { unfold NN. assert (0 <= zsum (length B) (fun i => inner c (nth i B []) (nth i B [])))%Z by (apply zsum_nonneg; intros; apply HI). lia. }
  set (k := S (Z.to_nat (Z.log2 (NN B ^ Z.of_nat (d * d))))).
  exists (p * k), (Qcz (NN B)). split; [|split; [|lia]].
  - intros i Hi. unfold znorm2. apply Qcz_le. unfold NN. rewrite HL.
    assert (X : forall m, i < m -> (inner c (nth i B []) (nth i B []) <= zsum m (fun i => inner c (nth i B []) (nth i B [])))%Z).
    { clear - HI. induction m as [|m IH]; intros Hm; [lia|]. cbn [zsum]. pose proof (HI m). destruct (Nat.eq_dec i m) as [->|Ne].
      - assert (0 <= zsum m (fun i => inner c (nth i B []) (nth i B [])))%Z by (apply zsum_nonneg; intros; apply HI). lia.
      - specialize (IH ltac:(lia)). lia. }
    specialize (X d ltac:(lia)). lia.
  - assert (PZ : forall m : nat, (Qcz (NN B) ^ m = Qcz (NN B ^ Z.of_nat m))%Qc).
    { induction m as [|m IH]; [reflexivity|]. cbn [Qcpower]. rewrite IH, <- Qcz_mul. f_equal. rewrite Nat2Z.inj_succ, Z.pow_succ_r by lia. reflexivity. }
    assert (PH : forall j, (dl ^ (p * j) * Qcz (2 ^ Z.of_nat j) <= 1)%Qc /\ (0 <= dl ^ (p * j))%Qc).
    { induction j as [|j [IH IP]].
      - rewrite Nat.mul_0_r. split; discriminate.
      - rewrite Nat.mul_succ_r, Qcpower_add. rewrite Nat2Z.inj_succ, Z.pow_succ_r by lia. rewrite Qcz_mul. change (Qcz 2) with (1 + 1)%Qc.
        destruct (bernoulli dl H0 H1 p) as [_ Q0]. 
        assert (Q1 : (dl ^ p * (1 + 1) <= 1)%Qc).
        { revert Hp. generalize (dl ^ p)%Qc. clear. intros y Hp. unfold Qcle in *. change (this (Q2Qc (1 # 2))) with (1 # 2)%Q in Hp. change (this 1%Qc) with 1%Q.
          change (this (y * (1 + 1))%Qc) with (Qred (this y * this (1 + 1)%Qc)). rewrite Qred_correct. change (this (1 + 1)%Qc) with 2%Q. Lqa.lra. }
        assert (Q2 : (0 <= Qcz (2 ^ Z.of_nat j))%Qc) by (rewrite <- Qcz_0; apply Qcz_le; apply Z.pow_nonneg; lia).
        revert IH IP Q0 Q1 Q2. generalize (dl ^ (p * j))%Qc, (dl ^ p)%Qc, (Qcz (2 ^ Z.of_nat j)). clear. intros a b t A1 A2 A3 A4 A5. split; [|qcnra].
        replace (a * b * ((1 + 1) * t))%Qc with (a * t * (b * (1 + 1)))%Qc by ring.
        assert (0 <= a * t)%Qc by qcnra. assert (0 <= b * (1 + 1))%Qc by qcnra. generalize dependent (a * t)%Qc. generalize dependent (b * (1 + 1))%Qc. clear. intros. qcnra. }
    rewrite PZ. destruct (PH k) as [Q1 Q2]. rewrite Qcpower_add. cbn [Qcpower].
    assert (Q3 : (Qcz (NN B ^ Z.of_nat (n * (n - 1) / 2)) < Qcz (2 ^ Z.of_nat k))%Qc).
    { apply Qcz_lt. unfold k. rewrite Nat2Z.inj_succ, Z2Nat.id by apply Z.log2_nonneg.
      eapply Z.le_lt_trans; [|apply Z.log2_spec; apply Z.pow_pos_nonneg; lia]. apply Z.pow_le_mono_r; [lia|]. apply inj_le.
      apply Nat.le_trans with (n * (n - 1)); [apply Nat.div_le_upper_bound; lia|]. nia. }
    assert (Q4 : (0 <= Qcz (NN B ^ Z.of_nat (n * (n - 1) / 2)))%Qc) by (rewrite <- Qcz_0; apply Qcz_le; apply Z.pow_nonneg; lia).
    revert Q1 Q2 Q3 Q4. generalize (dl ^ (p * k))%Qc, (Qcz (2 ^ Z.of_nat k)), (Qcz (NN B ^ Z.of_nat (n * (n - 1) / 2))). clear - H0 H1. intros a t w Q1 Q2 Q3 Q4.
    assert (E : (w * a <= 1)%Qc) by qcnra. assert (E2 : (0 <= w * a)%Qc) by qcnra.
    replace (w * (a * (dl * 1)))%Qc with (w * a * dl)%Qc by ring. generalize dependent (w * a)%Qc. clear - H0 H1. intros y A B. qcnra.
Qed.

(** ** the specification in terms of the canonical Gram-Schmidt data *)
Lemma pl_spec c B d bs mu k v : gso_of c B d bs mu -> (forall i, i < d -> (0 < norm2 c (bs i))%Qc) -> k <= d -> proj_sq c bs k v = pl c B k v.
Proof.
  intros HG HP Hk. unfold pl, proj_sq. f_equal. apply qsum_ext. intros j Hj. destruct (gso_unique c B d bs mu HG HP j ltac:(lia)) as [E _].
  assert (E1 : ip c v (bs j) = ip c v (qS c B j)) by (unfold ip; apply qsum_ext; intros t Ht; rewrite E by auto; reflexivity).
  assert (E2 : norm2 c (bs j) = norm2 c (qS c B j)) by (unfold norm2, ip; apply qsum_ext; intros t Ht; rewrite E by auto; reflexivity).
  rewrite E1, E2. reflexivity.
Qed.
Lemma norm2_qS c B i : norm2 c (qS c B i) = qR c B i i.
Proof. unfold norm2. rewrite ip_qdot, <- qR_norm. reflexivity. Qed.

Lemma hkz_lengths_q c B d delta : all_pos c B d -> length B = d ->
  (forall j v, j < d -> LB c d B v -> (0 < pl c B j (zv v))%Qc -> (delta * qR c B j j <= pl c B j (zv v))%Qc) -> hkz_lengths c B d delta.
Proof.
  intros HA HL H. exists (qS c B), (qM c B). split; [apply qS_gso|]. split; [intros i Hi; rewrite norm2_qS; apply HA; auto|].
  intros k v Hk Hv. change (proj_sq c (qS c B) k (qvec v)) with (pl c B k (zv (fun t => nth t v 0%Z))). rewrite norm2_qS. apply H; auto.
  rewrite <- HL. apply in_LB. auto.
Qed.

Section Exact.
(** Rounding of coefficients and conversion to integers: exact; exponents: arbitrary. *)
Variable rnd : Qc -> Z -> Qc.
Variable si ze : Qc -> Z -> Z * nat.
Variable expo : Qc -> Z.
Notation lo := (lq_ops rnd si ze expo).
Notation half := (Q2Qc (1 # 2)).

(** the state in which the main loop starts *)
Lemma discover_all P : forall n (st : lst lo), calm rnd si ze expo P st -> nkr (lz st) + n = gd (lz st) ->
  exists zs, frun qc_ops (p_e P) (lz st, ls st) (repeat FDiscover n) = Some zs /\ calm rnd si ze expo P (set_zs st (fst zs) (snd zs)) /\
    gb (fst zs) = gb (lz st) /\ flags_eq (lz st) (fst zs).
Proof.
  induction n as [|n IH]; intros st HC HN.
  - exists (lz st, ls st). cbn [repeat frun fst snd]. split; auto. split; [destruct HC; constructor; auto|]. split; auto. repeat split.
  - pose proof HC as [C1 C2 C3 C4]. destruct (fdiscover_ok qc_ops (p_e P) (lz st) (ls st) C1) as [z' [s' [E [F' [Ez _]]]]].
    { split; [lia|]. rewrite C3. reflexivity. }
    destruct (discover_known _ _ Ez) as [B1 [Fl [N1 [_ L1]]]].
    destruct (IH (set_zs st z' s')) as [zs [E2 [C' [B' F2]]]].
    { destruct Fl as [Fa [Fb _]]. constructor; cbn [lz ls set_zs]; auto; try congruence. }
    { cbn [lz set_zs]. unfold gd in *. rewrite B1. lia. }
    exists zs. split; [|split; [exact C'|split; [cbn [lz set_zs] in B'; congruence|]]].
    + cbn [repeat frun]. match goal with |- obind ?A _ = _ => replace A with (Some (z', s')) by (symmetry; exact E) end. exact E2.
    + eapply flags_eq_trans; [exact Fl|exact F2].
Qed.

Lemma num_rows_all c B d : length B = d -> 0 < d -> all_pos c B d -> num_rows B d = d.
Proof.
  intros HL Hd HA. destruct d as [|m]; [lia|]. cbn [num_rows]. destruct (forallb _ _) eqn:E; auto. exfalso.
  pose proof (HA m ltac:(lia)) as HP. rewrite zrow_R in HP; [discriminate| |lia].
  intros k Hk. rewrite forallb_forall in E. destruct (Nat.lt_ge_cases k (length (nth m B []))) as [X|X].
  - specialize (E _ (nth_In _ 0%Z X)). apply Z.eqb_eq in E. exact E.
  - apply nth_overflow. auto.
Qed.

(** what the theorems assume about the object and the parameters *)
Record setting (en_e : bool) (junk : Qc) (dl eta delta : Qc) b c u fl h z s (fuel : nat) : Prop := {
  (** exact arithmetic *)
  S_x : exact_rounding rnd si ze;
  (** the GSO object was created without inverse transformation and without integer Gram matrix, as bkz_reduction_f does
      (bkz.cpp:812-846), and may have been used before *)
  S_v : valid_input b c u [];
  S_r : reach en_e junk b c u [] false fl h z s;
  S_l : locked z = false;
  (** the rows are independent, at least two *)
  S_d : 2 <= length (gb z);
  S_i : independent c (gb z) (length (gb z));
  (** dl: delta of the LLL object, eta: its eta; delta: that of BKZParam (bkz_reduction takes dl = delta, or 0.99 when delta = 1, bkz.cpp:862) *)
  S_eta : (half <= eta)%Qc;
  S_dl : (eta * eta < dl)%Qc;
  S_dl1 : (dl < 1)%Qc;
  S_dd : (dl <= delta)%Qc;
  S_de : (delta <= 1)%Qc;
  S_f : 2 <= fuel
}.

Section One.
Variables (en_e : bool) (junk dl eta delta : Qc) (siegel : bool) (b : list (list Z)) (c : nat) (u : list (list Z)) (fl : bool) (h : list (fop qc_ops)) (z : gz) (s : fst_ qc_ops) (fuel : nat).
Hypothesis HS : setting en_e junk dl eta delta b c u fl h z s fuel.
Notation D := (length (gb z)).
Notation P := (lll_par lo z en_e dl eta false siegel).
Notation st0 := (@lst_new lo z s).

Lemma start : ready rnd si ze expo P c D st0 /\ (0 <= delta)%Qc.
Proof.
  destruct HS as [Sx Sv Sr Sl Sd Si Seta Sdl Sdl1 Sdd Sde Sf]. destruct (reach_ok _ _ _ _ _ _ _ _ _ _ _ Sv Sr) as [HF [EG EC]].
  split.
  - constructor; cbn [lz ls lst_new]; auto.
    + constructor; cbn [lz ls lst_new]; auto. intros _. auto.
    + destruct Sr as [zs0 [E0 [HL HR]]]. destruct (fgso_new_ok qc_ops en_e junk b c u [] false fl (qc_laws _) Sv) as [s0 [E HF0]].
      rewrite E in E0. injection E0 as <-. destruct (frun_ok qc_ops en_e (qc_laws _) h _ s0 HF0 HL) as [z' [s' [Er [HF' Fl]]]].
      rewrite Er in HR. injection HR as <- <-. destruct Fl as [Fa [Fb [Fc [Fd Fe]]]]. cbn in Fc, Fd, Fe. congruence.
    + intros j Hj. apply (independent_pos c (gb z) D); auto.
  - assert (E0 : (0 <= eta)%Qc) by (eapply Qcle_trans; [|exact Seta]; discriminate). clear - E0 Sdl Sdd. qcnra.
Qed.

Lemma start_loop : exists st1, ready rnd si ze expo P c D st1 /\ gb (lz st1) = gb z /\ forall fuel' efuel max_iter ne rec loops beta, 2 <= beta ->
  bkz rnd si ze expo P fuel' efuel max_iter ne rec delta loops st0 beta = bkz_loop rnd si ze expo P fuel' efuel max_iter ne rec delta loops st1 beta D.
Proof.
  destruct start as [R0 _]. pose proof R0 as [C0 G0 D0 I0 P0].
  assert (HN : nkr (lz st0) <= gd (lz st0)) by (apply (I_known _ (F_inv _ _ _ _ (C_f _ _ _ _ _ _ C0)))).
  destruct (discover_all P (gd (lz st0) - nkr (lz st0)) st0 C0 ltac:(lia)) as [zs [E [C1 [B1 Fl]]]].
  exists (set_zs st0 (fst zs) (snd zs)). destruct Fl as [Fa [Fb [Fc [Fd Fe]]]]. pose proof (S_d _ _ _ _ _ _ _ _ _ _ _ _ _ HS) as Sd.
  split; [constructor; cbn [lz set_zs]; auto; try congruence; [unfold gd in *; rewrite B1; auto|rewrite B1; auto]|]. split; [exact B1|].
  intros fuel' efuel max_iter ne rec loops beta Hb. unfold bkz. destruct (Nat.ltb_spec beta 2); [lia|].
  match goal with |- obind ?A _ = _ => replace A with (Some zs) by (symmetry; exact E) end. cbn [obind].
  rewrite (num_rows_all c (gb (lz st0)) (gd (lz st0))); [rewrite D0; reflexivity|auto|rewrite D0; lia|rewrite D0; exact P0].
Qed.
End One.

(** * C71 *)
(** Block size at least the number of rows (what hkz_reduction, bkz.cpp:946-956, asks for with delta = 1): if the call returns,
    it returns RED_SUCCESS, the lattice is the same, and the basis is HKZ-reduced up to delta; the last row is size-reduced
    only with respect to the row before it (bkz.cpp:438). *)
Theorem hkz_exact_reduced :
  forall en_e junk dl eta delta (siegel : bool) b c u fl h z s fuel efuel max_iter ne rec loops beta st' ok,
    setting en_e junk dl eta delta b c u fl h z s fuel -> length (gb z) <= beta ->
    bkz rnd si ze expo (lll_par lo z en_e dl eta false siegel) fuel efuel max_iter ne rec delta (S loops) (@lst_new lo z s) beta = Some (st', BRet ok) ->
    ok = true /\ same_lattice c (gb z) (gb (lz st')) /\ hkz_lengths c (gb (lz st')) (length (gb z)) delta /\
    nearly_size_reduced c (gb (lz st')) (length (gb z)) eta.
Proof.
  intros en_e junk dl eta delta siegel b c u fl h z s fuel efuel max_iter ne rec loops beta st' ok HS Hb E.
  destruct (start en_e junk dl eta delta siegel b c u fl h z s fuel HS) as [_ Hd0].
  pose proof (S_d _ _ _ _ _ _ _ _ _ _ _ _ _ HS) as Sd.
  destruct (start_loop en_e junk dl eta delta siegel b c u fl h z s fuel HS) as [st1 [R1 [B1 E1]]].
  rewrite E1 in E by lia. clear E1. destruct HS as [Sx Sv Sr Sl _ Si Seta Sdl Sdl1 Sdd Sde Sf].
  set (D := length (gb z)) in *. set (P := lll_par lo z en_e dl eta false siegel) in *.
  cbn [bkz_loop] in E. unfold tour, trunc_tour in E. replace (D - beta) with 0 in E by lia. cbn [Nat.sub blocks obind fst snd] in E.
  destruct (hkz rnd si ze expo P fuel efuel max_iter ne rec delta st1 0 D) as [[s2 [b2|]]|] eqn:EH; cbn [obind fst snd] in E; try discriminate.
  destruct (Nat.leb_spec D beta) as [_|]; [|lia]. rewrite orb_true_r in E. injection E as <- <-. split; auto.
  assert (K0 : HK rnd si ze expo P delta c D (gb z) 0 (gb (lz st1))).
  { rewrite B1. split; auto. split; [tauto|]. split; [rewrite <- B1; apply (R_p _ _ _ _ _ _ _ _ R1)|]. intros j v Hj. lia. }
  destruct (HK_hkz rnd si ze expo P Sx Seta eq_refl Sdl eq_refl fuel efuel max_iter ne rec delta Sf Hd0 c D (gb z) Sdl1 Sdd Sde st1 s2 b2 R1 Sd K0 EH)
    as [[K1 [K2 [K3 K4]]] [R2 [M1 M2]]].
  split; [apply same_LB; auto|]. split.
  - apply hkz_lengths_q; auto. intros j v Hj Hv. apply K4; auto. apply K2. auto.
  - exists (qS c (gb (lz s2))), (qM c (gb (lz s2))). split; [apply qS_gso|]. split; [intros i Hi; rewrite norm2_qS; apply K3; auto|].
    split; [|destruct (qabs_le _ _ M2); split; auto].
    intros i j Hj Hi. destruct (qabs_le _ _ (M1 i j Hi Hj)). split; auto.
Qed.

(** In every case: with enough fuel for the enumeration, and a limit for LLL that is large enough, the call returns
    (no exception, no undefined behaviour), and the lattice is the same. *)
Theorem bkz_exact_total :
  forall en_e junk dl eta delta (siegel : bool) b c u fl h z s fuel max_iter ne rec loops beta,
    setting en_e junk dl eta delta b c u fl h z s fuel -> enough_iterations c (length (gb z)) dl max_iter ->
    exists efuel0 st' ok, (forall efuel, efuel0 <= efuel ->
      bkz rnd si ze expo (lll_par lo z en_e dl eta false siegel) fuel efuel max_iter ne rec delta loops (@lst_new lo z s) beta = Some (st', BRet ok)) /\
      same_lattice c (gb z) (gb (lz st')) /\ independent c (gb (lz st')) (length (gb (lz st'))).
Proof.
  intros en_e junk dl eta delta siegel b c u fl h z s fuel max_iter ne rec loops beta HS HM.
  destruct (Nat.lt_ge_cases beta 2) as [Hb|Hb].
  { exists 0, (@lst_new lo z s), true. split; [|split].
    - intros. unfold bkz. destruct (Nat.ltb_spec beta 2); [auto|lia].
    - cbn [lz lst_new]. apply same_LB; auto. tauto.
    - cbn [lz lst_new]. apply HS. }
  destruct (start en_e junk dl eta delta siegel b c u fl h z s fuel HS) as [_ Hd0].
  destruct (start_loop en_e junk dl eta delta siegel b c u fl h z s fuel HS) as [st1 [R1 [B1 SL]]].
  destruct HS as [Sx Sv Sr Sl Sd Si Seta Sdl Sdl1 Sdd Sde Sf].
  set (D := length (gb z)) in *. set (P := lll_par lo z en_e dl eta false siegel) in *.
  assert (E0 : (0 <= eta)%Qc) by (eapply Qcle_trans; [|exact Seta]; discriminate).
  assert (D0 : (0 < dl)%Qc) by (clear - E0 Sdl; qcnra).
  assert (Hmi : forall B kend, length B = D -> all_pos c B D -> 0 < kend <= D -> exists m, (potential c B kend * p_delta P ^ S m < 1)%Qc /\ kend - 1 + m <= max_iter B).
  { intros B kend HL HA Hk. destruct (HM B kend HL (pos_independent c B D HA) Hk) as [m [N [N1 [N2 N3]]]]. exists m. split; auto.
    cbn [p_delta P lll_par]. eapply Qcle_lt_trans; [|exact N2].
    replace (kend * (kend - 1) / 2) with (tri kend) by (rewrite <- tri_eq, Nat.mul_comm; symmetry; apply Nat.div_mul; lia).
    replace (m + 1) with (S m) by lia. apply Qcmult_le_compat_r.
    - apply potential_bound; auto.
      + eapply Qcle_trans; [|apply (N1 0); lia]. unfold znorm2. rewrite <- Qcz_0. apply Qcz_le. unfold inner. apply zsum_nonneg. intros. nia.
      + intros i Hi. apply HA. lia.
      + intros i Hi. rewrite gq_z. apply (N1 i Hi).
    - apply Qclt_le_weak. apply pow_pos. auto. }
  destruct (loop_total rnd si ze expo P Sx Seta eq_refl Sdl Sdl1 eq_refl fuel max_iter ne rec delta Sf Hd0 c D Hmi (gb z) beta Hb Sd loops st1 R1)
    as [e0 [st' [ok [E [R' [[K1 [K2 K3]] _]]]]]].
  { rewrite B1. split; auto. split; [tauto|]. rewrite <- B1. apply (R_p _ _ _ _ _ _ _ _ R1). }
  exists e0, st', ok. split.
  - intros ef Hef. rewrite SL by auto. apply E. auto.
  - split; [apply same_LB; auto|]. rewrite K1. apply pos_independent. auto.
Qed.

(** A tour that starts from an LLL-reduced basis and reports that nothing changed (clean): indeed nothing changed, and the
    basis is BKZ-reduced with the block size of the tour. *)
Theorem clean_tour_reduced :
  forall en_e junk dl eta delta (siegel : bool) b c u fl h z s fuel efuel max_iter ne rec beta st',
    setting en_e junk dl eta delta b c u fl h z s fuel -> (delta < 1)%Qc -> 2 <= beta <= length (gb z) ->
    (if siegel then siegel_reduced c (gb z) (length (gb z)) dl eta else lll_reduced c (gb z) (length (gb z)) dl eta) ->
    tour rnd si ze expo (lll_par lo z en_e dl eta false siegel) fuel efuel max_iter ne rec delta (@lst_new lo z s) beta 0 (length (gb z)) = Some (st', BRet true) ->
    gb (lz st') = gb z /\ bkz_reduced c (gb z) (length (gb z)) delta beta.
Proof.
  intros en_e junk dl eta delta siegel b c u fl h z s fuel efuel max_iter ne rec beta st' HS Hd1 Hb HR E.
  destruct (start en_e junk dl eta delta siegel b c u fl h z s fuel HS) as [R0 Hd0].
  destruct HS as [Sx Sv Sr Sl Sd Si Seta Sdl Sdl1 Sdd Sde Sf].
  set (D := length (gb z)) in *. set (P := lll_par lo z en_e dl eta false siegel) in *.
  pose proof (R_p _ _ _ _ _ _ _ _ R0) as HA. cbn [lz lst_new] in HA.
  assert (HM : forall i j, i < D -> j < i -> (qabs (qM c (gb z) i j) <= p_eta P)%Qc).
  { intros i j Hi Hj. apply qabs_half; cbn [p_eta P lll_par]; destruct siegel; [apply siegel_reduced_q in HR|apply lll_reduced_q in HR|apply siegel_reduced_q in HR|apply lll_reduced_q in HR]; apply HR; auto. }
  assert (HT : forall i, 0 < i < D -> (p_thr P * qR c (gb z) (i - 1) (i - 1) <= qproj c (gb z) i (tidx lo P i))%Qc).
  { intros i Hi. unfold tidx. cbn [p_thr p_siegel P lll_par]. destruct i as [|i]; [lia|]. replace (S i - 1) with i by lia. destruct siegel.
    - apply siegel_reduced_q in HR. rewrite qproj_diag. apply HR. lia.
    - apply lll_reduced_q in HR. destruct HR as [_ [_ HR]]. eapply Qcle_trans; [apply HR; lia|].
      rewrite <- (qproj_diag c (gb z) (S i)), (qproj_S c (gb z) (S i) i) by lia. match goal with |- (?a <= ?b)%Qc => replace a with b by ring end. apply Qcle_refl. }
  unfold tour, trunc_tour in E.
  destruct (blocks rnd si ze expo P fuel efuel max_iter ne rec delta (fun _ => beta) (D - beta - 0) (@lst_new lo z s) 0 true) as [[s1 [b1|]]|] eqn:E1; cbn [obind fst snd] in E; try discriminate.
  destruct (hkz rnd si ze expo P fuel efuel max_iter ne rec delta s1 (D - beta) D) as [[s2 [b2|]]|] eqn:E2; cbn [obind fst snd] in E; try discriminate.
  injection E as <- EB. apply andb_prop in EB. destruct EB as [-> ->].
  destruct (same_blocks rnd si ze expo P Sx Seta eq_refl Sdl eq_refl fuel efuel max_iter ne rec delta Sf Hd0 Hd1 c D (gb z) eq_refl HA HM HT
    (fun _ => beta) (D - beta - 0) (@lst_new lo z s) 0 true s1 R0) as [_ [B1 [R1 [_ Q1]]]]; auto.
  { intros i Hi. lia. }
  { right. split; [lia|intros; lia]. }
  unfold hkz in E2. destruct (blocks rnd si ze expo P fuel efuel max_iter ne rec delta (fun kappa => D - kappa) (D - 1 - (D - beta)) s1 (D - beta) true) as [[s3 [b3|]]|] eqn:E3;
    cbn [obind fst snd] in E2; try discriminate.
  assert (b3 = true).
  { destruct (size_reduction lo P fuel s3 (D - 1) D (D - 2)) as [[q [| | |]]|]; cbn [obind fst snd] in E2; try discriminate; injection E2; auto. }
  subst b3.
  destruct (same_blocks rnd si ze expo P Sx Seta eq_refl Sdl eq_refl fuel efuel max_iter ne rec delta Sf Hd0 Hd1 c D (gb z) eq_refl HA HM HT
    (fun kappa => D - kappa) (D - 1 - (D - beta)) s1 (D - beta) true s3 R1) as [_ [B3 [R3 [V3 Q3]]]]; auto.
  { intros i Hi. lia. }
  { left. lia. }
  replace (D - beta + (D - 1 - (D - beta))) with (D - 1) in * by lia.
  destruct (size_red_q rnd si ze expo P Sx Seta fuel Sf c D s3 (D - 1) 1 (D - 2) R3 ltac:(lia) ltac:(lia) V3) as [s4 [E4 [R4 [S4 _]]]].
  replace (D - 1 + 1) with D in * by lia. rewrite E4 in E2. cbn [obind fst snd] in E2. injection E2 as <-.
  split; [apply (S4 (fun B => B = gb z)); auto; apply (same_stable rnd si ze expo P fuel Sf c D (gb z) eq_refl HM)|].
  exists (qS c (gb z)), (qM c (gb z)). split; [apply qS_gso|]. split; [intros i Hi; rewrite norm2_qS; apply HA; auto|].
  intros k Hk x [i0 [I0 N0]]. rewrite norm2_qS. set (m := Nat.min beta (D - k)) in *.
  set (y := map x (seq 0 m)).
  assert (Ly : length y = m) by (unfold y; rewrite map_length, seq_length; auto).
  assert (Ny : nonzero y).
  { apply (nonzero_lt m); auto. exists i0. split; auto. unfold y. rewrite nth_map_seq; auto. }
  assert (EV : proj_sq c (qS c (gb z)) k (block_vec (gb z) k m x) = bvlen c (gb z) k m y).
  { apply (pl_vlen c (gb z) k m (fun a => if a <? k then 0%Z else x (a - k))).
    - intros j Hj. apply HA. lia.
    - intros t Ht. unfold block_vec. rewrite qsum_split, (qsum_0 k).
      + rewrite Qcplus_0_l. apply qsum_ext. intros i Hi. destruct (Nat.ltb_spec (k + i) k); [lia|]. replace (k + i - k) with i by lia. reflexivity.
      + intros a Ha. destruct (Nat.ltb_spec a k); [|lia]. rewrite Qcz_0. ring.
    - intros i Hi. destruct (Nat.ltb_spec (k + i) k); [lia|]. replace (k + i - k) with i by lia. unfold y. apply nth_map_seq. auto. }
  rewrite EV. destruct (Nat.lt_ge_cases k (D - beta)) as [K1|K1].
  - assert (EM : m = beta) by (unfold m; lia). rewrite EM in *. apply Q1; auto. lia.
  - assert (EM : m = D - k) by (unfold m; lia). rewrite EM in *. destruct (Nat.eq_dec k (D - 1)) as [->|K2].
    + apply (nonzero_lt (D - (D - 1))) in Ny; auto. destruct Ny as [i [I1 I2]].
      pose proof (vlen_last (D - (D - 1)) (bmu c (gb z) (D - 1)) (br c (gb z) (D - 1)) y i ltac:(intros j Hj; unfold br; apply HA; lia) ltac:(lia) I2 ltac:(intros; lia)) as VL.
      unfold br at 1 in VL. replace (D - 1 + i) with (D - 1) in VL by lia. pose proof (HA (D - 1) ltac:(lia)) as PR.
      unfold bvlen. set (a := vlen _ _ _ _) in *. set (r := qR c (gb z) (D - 1) (D - 1)) in *. clearbody a r. clear - VL PR Sde. qcnra.
    + apply Q3; auto. lia.
Qed.
End Exact.

(** ** Witnesses *)
(** the object on basis b with c columns, just created *)
Definition x_z (b : list (list Z)) (c : nat) : gz := gso_new b c [] [] false false.
(** the parameters of LLL with eta = 0.51 and without flags *)
Definition x_p (b : list (list Z)) (c : nat) (dl : Qc) : lpar lqx := lll_par lqx (x_z b c) false dl (q_of 51 100) false false.
Definition qmat (b : list (list Z)) (d c : nat) : bool := (length b =? d) && forallb (fun r => length r =? c) b.
Lemma x_valid b d c : qmat b d c = true -> 0 < d -> 0 < c -> valid_input b c [] [].
Proof.
  unfold qmat. intros H Hd Hc. apply andb_prop in H. destruct H as [H1 H2]. apply Nat.eqb_eq in H1. rewrite forallb_forall in H2.
  constructor; auto; try lia. intros i Hi. apply Nat.eqb_eq. apply H2. apply nth_In. auto.
Qed.
(** independence is decided by the Gram-Schmidt data *)
Lemma x_indep b d c : forallb (fun i => qltb 0 (qR c b i i)) (seq 0 d) = true -> independent c b d.
Proof. intros H. apply pos_independent. intros i Hi. rewrite forallb_forall in H. apply qltb_lt. apply H. apply in_seq. lia. Qed.
Lemma x_setting b d c dl delta fuel : qmat b d c = true -> 2 <= d -> 0 < c -> forallb (fun i => qltb 0 (qR c b i i)) (seq 0 d) = true ->
  (q_of 51 100 * q_of 51 100 < dl)%Qc -> (dl < 1)%Qc -> (dl <= delta)%Qc -> (delta <= 1)%Qc -> 2 <= fuel ->
  exists s, fgso_new qc_ops false 0%Qc b c [] [] false false = Some (x_z b c, s) /\
    setting qrnd qint qint false 0%Qc dl (q_of 51 100) delta b c [] false [] (x_z b c) s fuel.
Proof.
  intros HQ Hd Hc HI H1 H2 H3 H4 Hf. pose proof (x_valid b d c HQ ltac:(lia) Hc) as HV.
  destruct (fgso_new_ok qc_ops false 0%Qc b c [] [] false false (qc_laws _) HV) as [s [E0 HF]]. exists s. split; [exact E0|].
  assert (HL : length b = d) by (apply andb_prop in HQ; destruct HQ as [X _]; apply Nat.eqb_eq; auto).
  constructor; auto; cbn [gb x_z gso_new]; try rewrite HL; auto.
  - exact qexact.
  - exists (x_z b c, s). split; auto. split; [exact I|reflexivity].
  - apply x_indep. auto.
  - apply qltb_ge. reflexivity.
Qed.
Lemma x_new b c s : fgso_new qc_ops false 0%Qc b c [] [] false false = Some (x_z b c, s) -> forall A (f : lst lqx -> option A) r,
  match lll_new lqx false 0%Qc b c [] [] false false with Some st => f st | None => None end = Some r -> f (@lst_new lqx (x_z b c) s) = Some r.
Proof. intros E A f r. unfold lll_new. change (lf lqx) with qc_ops. rewrite E. auto. Qed.
(** gb and result *)
Definition shown (r : option (lst lqx * bout)) : option (list (list Z) * bout) := match r with Some (st, o) => Some (gb (lz st), o) | None => None end.
Definition x_bkz (b : list (list Z)) (c : nat) (dl delta : Qc) (loops beta : nat) (st : lst lqx) : option (lst lqx * bout) :=
  bkz qrnd qint qint qexpo (x_p b c dl) 2 2000 (fun _ => 200) (fun _ => 0%Z) false delta loops st beta.
Definition x_tour (b : list (list Z)) (c : nat) (dl delta : Qc) (beta : nat) (st : lst lqx) : option (lst lqx * bout) :=
  tour qrnd qint qint qexpo (x_p b c dl) 2 2000 (fun _ => 200) (fun _ => 0%Z) false delta st beta 0 (length b).
Lemma shown_some r B o : shown r = Some (B, o) -> exists st, r = Some (st, o) /\ gb (lz st) = B.
Proof. destruct r as [[st o']|]; [|discriminate]. cbn. intros E. injection E as <- <-. eauto. Qed.
Lemma x_run b c s (f : lst lqx -> option (lst lqx * bout)) B o : fgso_new qc_ops false 0%Qc b c [] [] false false = Some (x_z b c, s) ->
  match lll_new lqx false 0%Qc b c [] [] false false with Some st => shown (f st) | None => None end = Some (B, o) ->
  exists st, f (@lst_new lqx (x_z b c) s) = Some (st, o) /\ gb (lz st) = B.
Proof. intros E0 E. apply shown_some. apply (x_new b c s E0 _ (fun st => shown (f st))). exact E. Qed.

Definition ex71_b : list (list Z) := [[-5;4;7;1];[-6;1;-6;6];[2;9;3;3];[4;-6;9;1]]%Z.
Definition ex71_h : list (list Z) := [[-2;-5;3;7];[7;5;-4;2];[-5;4;7;1];[-6;1;-6;6]]%Z.
(** a full HKZ reduction (delta = 1, delta of LLL 0.99): the shortest vector comes first *)
Example ex71_hkz : exists s st', setting qrnd qint qint false 0%Qc (q_of 99 100) (q_of 51 100) 1%Qc ex71_b 4 [] false [] (x_z ex71_b 4) s 2 /\
  x_bkz ex71_b 4 (q_of 99 100) 1%Qc 1 4 (@lst_new lqx (x_z ex71_b 4) s) = Some (st', BRet true) /\ gb (lz st') = ex71_h /\
  hkz_lengths 4 ex71_h 4 1%Qc.
Proof.
  destruct (x_setting ex71_b 4 4 (q_of 99 100) 1%Qc 2) as [s [E0 HS]]; try reflexivity; try lia; try (apply qltb_lt; reflexivity); try (apply qltb_ge; reflexivity).
  destruct (x_run ex71_b 4 s (x_bkz ex71_b 4 (q_of 99 100) 1%Qc 1 4) ex71_h (BRet true) E0) as [st' [E EB]]; [vm_compute; reflexivity|].
  exists s, st'. split; auto. split; auto. split; auto.
  destruct (hkz_exact_reduced qrnd qint qint qexpo _ _ _ _ _ false _ _ _ _ _ _ _ _ _ _ _ _ 0 4 st' true HS (le_n 4) E) as [_ [_ [H _]]]. rewrite <- EB. exact H.
Qed.
(** the limit of the model of bkz_exact_total exists for this basis *)
Example ex71_total : exists s limit, setting qrnd qint qint false 0%Qc (q_of 99 100) (q_of 51 100) (q_of 99 100) ex71_b 4 [] false [] (x_z ex71_b 4) s 2 /\
  enough_iterations 4 4 (q_of 99 100) limit.
Proof.
  destruct (x_setting ex71_b 4 4 (q_of 99 100) (q_of 99 100) 2) as [s [E0 HS]]; try reflexivity; try lia; try (apply qltb_lt; reflexivity); try (apply qltb_ge; reflexivity).
  destruct (enough_exists 4 4 (q_of 99 100)) as [l Hl]; [apply qltb_ge; reflexivity|apply qltb_lt; reflexivity|]. exists s, l. split; auto.
Qed.
(** an LLL-reduced basis on which a tour with blocks of 3 rows finds nothing *)
Lemma ex71_red : lll_reduced 4 ex71_h 4 (q_of 99 100) (q_of 51 100).
Proof.
  apply lll_reduced_q. split; [|split].
  - intros i Hi. apply qltb_lt. do 4 (destruct i as [|i]; [vm_compute; reflexivity|]). lia.
  - intros i j Hj Hi. apply and_comm. apply qabs_le. apply qltb_ge.
    do 4 (destruct i as [|i]; [do 4 (destruct j as [|j]; [try lia; vm_compute; reflexivity|]); lia|]). lia.
  - intros i Hi. apply qltb_ge. do 3 (destruct i as [|i]; [vm_compute; reflexivity|]). lia.
Qed.
Example ex71_tour : exists s st', setting qrnd qint qint false 0%Qc (q_of 99 100) (q_of 51 100) (q_of 99 100) ex71_h 4 [] false [] (x_z ex71_h 4) s 2 /\
  x_tour ex71_h 4 (q_of 99 100) (q_of 99 100) 3 (@lst_new lqx (x_z ex71_h 4) s) = Some (st', BRet true) /\ bkz_reduced 4 ex71_h 4 (q_of 99 100) 3.
Proof.
  destruct (x_setting ex71_h 4 4 (q_of 99 100) (q_of 99 100) 2) as [s [E0 HS]]; try reflexivity; try lia; try (apply qltb_lt; reflexivity); try (apply qltb_ge; reflexivity).
  destruct (x_run ex71_h 4 s (x_tour ex71_h 4 (q_of 99 100) (q_of 99 100) 3) ex71_h (BRet true) E0) as [st' [E EB]]; [vm_compute; reflexivity|].
  exists s, st'. split; auto. split; auto.
  destruct (clean_tour_reduced qrnd qint qint qexpo _ _ _ _ _ false _ _ _ _ _ _ _ _ 2000 (fun _ => 200) (fun _ => 0%Z) false 3 st' HS) as [_ H];
    [apply qltb_lt; reflexivity|cbn; lia|exact ex71_red|exact E|exact H].
Qed.

(** Without an LLL-reduced start the conclusion fails: bkz() stops after a clean tour with RED_SUCCESS although the basis
    is not BKZ-reduced.  The flag of svp_reduction compares r(kappa) before and after (bkz.cpp:351-357), but its call of LLL
    starts from row 0 (bkz.cpp:108-109), so that rows before kappa may change after their block was looked at. *)
Theorem bkz_success_reduced_refuted :
  exists b c dl delta beta s st', 2 <= beta /\ setting qrnd qint qint false 0%Qc dl (q_of 51 100) delta b c [] false [] (x_z b c) s 2 /\ (delta < 1)%Qc /\
    x_bkz b c dl delta 5 beta (@lst_new lqx (x_z b c) s) = Some (st', BRet true) /\
    ~ bkz_reduced c (gb (lz st')) (length b) delta beta.
Proof.
  destruct (x_setting ex71_b 4 4 (q_of 99 100) (q_of 99 100) 2) as [s [E0 HS]]; try reflexivity; try lia; try (apply qltb_lt; reflexivity); try (apply qltb_ge; reflexivity).
  destruct (x_run ex71_b 4 s (x_bkz ex71_b 4 (q_of 99 100) (q_of 99 100) 5 3) [[-5;4;7;1];[7;5;-4;2];[-2;-5;3;7];[-6;1;-6;6]]%Z (BRet true) E0) as [st' [E EB]]; [vm_compute; reflexivity|].
  exists ex71_b, 4, (q_of 99 100), (q_of 99 100), 3, s, st'. split; [lia|]. split; auto. split; [apply qltb_lt; reflexivity|]. split; [exact E|].
  rewrite EB. intros [bs [mu [HG [HP HB]]]]. specialize (HB 0 ltac:(cbn; lia) (fun i => if i =? 2 then 1%Z else 0%Z)).
  cbn [Nat.sub length ex71_b Nat.min] in HB. specialize (HB ltac:(exists 2; split; [lia|discriminate])).
  rewrite (gso_norm _ _ _ _ _ HG HP 0 ltac:(cbn; lia)) in HB. rewrite (pl_spec _ _ _ _ _ 0 _ HG HP ltac:(lia)) in HB.
  apply qltb_ge in HB. revert HB. vm_compute. discriminate.
Qed.

(** The last row is not size-reduced in general: an LLL-reduced basis that bkz() with delta = 0.9 (and delta of LLL 0.9,
    bkz.cpp:862) turns into one that is not, returning RED_SUCCESS. *)
Definition ex71_w : list (list Z) := [[1000;0;0];[-500;1050;0];[20;535;841]]%Z.
Theorem bkz_last_row_refuted :
  exists b c delta beta s st', length b <= beta /\ setting qrnd qint qint false 0%Qc delta (q_of 51 100) delta b c [] false [] (x_z b c) s 2 /\
    lll_reduced c b (length b) delta (q_of 51 100) /\
    x_bkz b c delta delta 1 beta (@lst_new lqx (x_z b c) s) = Some (st', BRet true) /\
    ~ exists bs mu, gso_of c (gb (lz st')) (length b) bs mu /\ (forall i, i < length b -> (0 < norm2 c (bs i))%Qc) /\ size_reduced (length b) (q_of 51 100) mu.
Proof.
  destruct (x_setting ex71_w 3 3 (q_of 9 10) (q_of 9 10) 2) as [s [E0 HS]]; try reflexivity; try lia; try (apply qltb_lt; reflexivity); try (apply qltb_ge; reflexivity).
  destruct (x_run ex71_w 3 s (x_bkz ex71_w 3 (q_of 9 10) (q_of 9 10) 1 3) [[1000;0;0];[-480;-515;841];[-980;535;841]]%Z (BRet true) E0) as [st' [E EB]]; [vm_compute; reflexivity|].
  exists ex71_w, 3, (q_of 9 10), 3, s, st'. split; [cbn; lia|]. split; auto. split.
  { apply lll_reduced_q. change (length ex71_w) with 3. split; [|split].
    - intros i Hi. apply qltb_lt. do 3 (destruct i as [|i]; [vm_compute; reflexivity|]). lia.
    - intros i j Hj Hi. apply and_comm. apply qabs_le. apply qltb_ge.
      do 3 (destruct i as [|i]; [do 3 (destruct j as [|j]; [try lia; vm_compute; reflexivity|]); lia|]). lia.
    - intros i Hi. apply qltb_ge. do 2 (destruct i as [|i]; [vm_compute; reflexivity|]). lia. }
  split; [exact E|]. rewrite EB. change (length ex71_w) with 3. intros [bs [mu [HG [HP HM]]]].
  destruct (HM 2 0 ltac:(lia) ltac:(lia)) as [H _]. destruct (gso_unique _ _ _ _ _ HG HP 2 ltac:(lia)) as [_ EM]. rewrite EM in H by lia.
  apply qltb_ge in H. revert H. vm_compute. discriminate.
Qed.

Print Assumptions hkz_exact_reduced.
Print Assumptions bkz_exact_total.
Print Assumptions clean_tour_reduced.
Print Assumptions bkz_success_reduced_refuted.
Print Assumptions bkz_last_row_refuted.
