(** Property C78: dual enumeration, dual SVP reduction and SD-BKZ in exact arithmetic. *)
From Coq Require Import List ZArith QArith Qcanon Lia Lqa Arith Bool.
From Verif Require Import Util QcUtil LatticeSpec MatrixModel MatrixProofs GsoModel GsoProofs GsoHistory GsoFModel GsoFSpec GsoFProofs GsoQ QGs
  LllModel LllQ LllExact LllDecide LllSpec LllSpecFacts GramDet LatPot LllTotal LllKeep PropLll PropLllExact PropLllTotal
  EnumModel EnumExact EnumSpec EnumLink EvalModel EnumCall PropEnum BkzModel BkzProofs PropBkz PropGso PropGsoF LllProofs BkzExactModel BkzSpec LatProj BkzExact BkzHkz BkzTotal
  PropBkzExact EnumDual BkzDualModel BkzDualSpec DualLat BkzDual.
Import ListNotations.
Local Open Scope nat_scope.

Lemma some_entry c (w : nat -> Qc) : (exists t, t < c /\ w t <> 0%Qc) \/ forall t, t < c -> w t = 0%Qc.
Proof.
  induction c as [|c [[t [Ht Hw]]|IH]]; [right; intros; lia|left; exists t; split; [lia|auto]|].
  destruct (Qc_eq_dec (w c) 0) as [E|E]; [right|left; exists c; split; [lia|auto]]. intros t Ht. destruct (Nat.eq_dec t c) as [->|N]; [auto|apply IH; lia].
Qed.

(** ** Dual enumeration *)
(** Over the Gram-Schmidt data of rows k, ..., k+m-1 of any basis: if nothing is found, all non-zero vectors of the dual of the
    block are longer than the radius; otherwise the solution, reversed, consists of the inner products of a shortest
    non-zero vector of that dual with the rows of the block, and the length reported is its squared length. *)
Theorem dual_enum_shortest : forall rec fuel c B k m findsub R ne s, 0 < m -> (forall i, i < m -> (0 < qR c B (k + i) (k + i))%Qc) -> (0 <= R)%Qc ->
  enum_run rec fuel ne accept_all BestN 1 (dual_input m (fun j i => qM c B (k + j) (k + i)) (fun i => qR c B (k + i) (k + i)) findsub None R ne) = Some s ->
  match kept s with
  | [] => forall w, dual_vec c B (qS c B) k m w -> (exists t, t < c /\ w t <> 0%Qc) -> (R < norm2 c w)%Qc
  | p :: _ => length (snd p) = m /\ exists w, dual_vec c B (qS c B) k m w /\ (exists t, t < c /\ w t <> 0%Qc) /\
      (forall i, i < m -> ip c w (qrow B (k + i)) = Qcz (nth (m - 1 - i) (snd p) 0%Z)) /\
      norm2 c w = fst p /\ (fst p <= R)%Qc /\
      forall w', dual_vec c B (qS c B) k m w' -> (exists t, t < c /\ w' t <> 0%Qc) -> (norm2 c w <= norm2 c w')%Qc
  end.
Proof.
  intros rec fuel c B k m findsub R ne s Hm HR HR0 E.
  assert (NZ : forall i, i < m -> qR c B (k + i) (k + i) <> 0%Qc) by (intros i Hi EE; specialize (HR i Hi); rewrite EE in HR; discriminate).
  pose proof (enum_dual_gen rec fuel m _ _ findsub R ne s Hm HR HR0 E) as G. clear E.
  assert (DL : forall w, dual_vec c B (qS c B) k m w -> (exists t, t < c /\ w t <> 0%Qc) -> exists y, length y = m /\ nonzero y /\ norm2 c w = dlen m (fun j i => qM c B (k + j) (k + i)) (fun i => qR c B (k + i) (k + i)) y).
  { intros w HV HN. destruct (dv_list c B k m w HV) as [y [L Y]]. exists y. split; auto. split; [apply (dv_nonzero c B k m w y NZ (proj1 HV) L Y HN)|]. exact (span_len c B k m w y NZ (proj1 HV) L Y). }
  destruct (kept s) as [|[l x] t]; cbn [fst snd] in *.
  - intros w HV HN. destruct (DL w HV HN) as [y [L [N ->]]]. apply G; auto.
  - destruct G as [G1 [G2 [G3 [G4 G5]]]]. split; auto. assert (LR : length (rev x) = m) by (rewrite rev_length; auto).
    destruct (span_exists c B k m (rev x) NZ) as [w [W1 W2]]. pose proof (span_len c B k m w (rev x) NZ W1 LR W2) as W3. exists w.
    change (dlen m (bmu c B k) (br c B k) (rev x)) with (dlen m (fun j i => qM c B (k + j) (k + i)) (fun i => qR c B (k + i) (k + i)) (rev x)) in W3.
    split; [split; auto; intros i Hi; exists (nth i (rev x) 0%Z); auto|]. split.
    { apply nonzero_rev in G2. apply (nonzero_lt m) in G2; auto. destruct G2 as [i [Hi Ni]].
      destruct (some_entry c w) as [HA|HA]; auto. exfalso. apply Ni. apply Qcz_inj. rewrite <- W2, Qcz_0 by auto. unfold ip. apply qsum_0. intros u Hu. rewrite HA by auto. ring. }
    split; [intros i Hi; rewrite W2 by auto; rewrite rev_nth by lia; rewrite G1; do 2 f_equal; lia|].
    split; [congruence|]. split; [congruence|]. intros w' HV HN. destruct (DL w' HV HN) as [y [L [N ->]]]. rewrite W3. apply G5; auto.
Qed.

(** the vectors of a block in the form of LatProj.v *)
Lemma block_coef c B D k m (x : nat -> Z) : all_pos c B D -> k + m <= D -> (exists i, i < m /\ x i <> 0%Z) ->
  exists y, length y = m /\ nonzero y /\ proj_sq c (qS c B) k (block_vec B k m x) = bvlen c B k m y.
Proof.
  intros HA HD [i0 [I0 N0]]. set (y := map x (seq 0 m)).
  assert (Ly : length y = m) by (unfold y; rewrite map_length, seq_length; auto). exists y. split; auto.
  split; [apply (nonzero_lt m); auto; exists i0; split; auto; unfold y; rewrite nth_map_seq; auto|].
  apply (pl_vlen c B k m (fun a => if a <? k then 0%Z else x (a - k))).
  - intros j Hj. apply HA. lia.
  - intros t Ht. unfold block_vec. rewrite qsum_split, (qsum_0 k).
    + rewrite Qcplus_0_l. apply qsum_ext. intros i Hi. destruct (Nat.ltb_spec (k + i) k); [lia|]. replace (k + i - k) with i by lia. reflexivity.
    + intros a Ha. destruct (Nat.ltb_spec a k); [|lia]. rewrite Qcz_0. ring.
  - intros i Hi. destruct (Nat.ltb_spec (k + i) k); [lia|]. replace (k + i - k) with i by lia. unfold y. apply nth_map_seq. auto.
Qed.

Section Exact.
Variable rnd : Qc -> Z -> Qc.
Variable si ze : Qc -> Z -> Z * nat.
Variable expo : Qc -> Z.
Notation lo := (lq_ops rnd si ze expo).
Notation half := (Q2Qc (1 # 2)).
Notation setting := (setting rnd si ze).

(** ** Dual SVP reduction of one block *)
(** If it returns: same lattice, the block is dual-reduced up to delta, the rows up to its end are size-reduced.  (The rows
    before kappa may have changed as well, by LLL.) *)
Theorem dual_svp_reduced :
  forall en_e junk dl eta delta (siegel : bool) b c u fl h z s fuel efuel max_iter ne rec kappa m st' ok,
    setting en_e junk dl eta delta b c u fl h z s fuel -> 0 < m -> kappa + m <= length (gb z) ->
    dsvp_reduction rnd si ze expo (lll_par lo z en_e dl eta false siegel) fuel efuel max_iter ne rec delta (@lst_new lo z s) kappa m = Some (st', BRet ok) ->
    same_lattice c (gb z) (gb (lz st')) /\
    exists bs mu, gso_of c (gb (lz st')) (length (gb z)) bs mu /\ (forall i, i < length (gb z) -> (0 < norm2 c (bs i))%Qc) /\
      dual_reduced c (gb (lz st')) bs delta kappa m /\ size_reduced (kappa + m) eta mu.
Proof.
  intros en_e junk dl eta delta siegel b c u fl h z s fuel efuel max_iter ne rec kappa m st' ok HS Hm HD E.
  destruct (start rnd si ze expo en_e junk dl eta delta siegel b c u fl h z s fuel HS) as [R0 Hd0].
  destruct HS as [Sx Sv Sr Sl Sd Si Seta Sdl Sdl1 Sdd Sde Sf].
  set (D := length (gb z)) in *. set (P := lll_par lo z en_e dl eta false siegel) in *.
  destruct (dsvp_dred rnd si ze expo P Sx Seta eq_refl Sdl eq_refl fuel max_iter ne rec delta Sf Hd0 c D efuel (@lst_new lo z s) st' kappa m ok (gb z) Sde R0 Hm HD) as [R' [V' [S' [[K1 [K2 K3]] DR]]]]; auto.
  { split; auto. split; [tauto|]. apply (R_p _ _ _ _ _ _ _ _ R0). }
  split; [apply same_LB; auto|]. exists (qS c (gb (lz st'))), (qM c (gb (lz st'))). split; [apply qS_gso|]. split; [intros i Hi; rewrite norm2_qS; apply K3; auto|].
  split; [exact DR|]. intros i j Hj Hi. destruct (qabs_le _ _ (S' i j Hi Hj)). split; auto.
Qed.

(** the limit of LLL in the form of BkzTotal.v *)
Lemma limit_ok en_e junk dl eta delta siegel b c u fl h z s fuel max_iter : setting en_e junk dl eta delta b c u fl h z s fuel -> enough_iterations c (length (gb z)) dl max_iter ->
  forall B kend, length B = length (gb z) -> all_pos c B (length (gb z)) -> 0 < kend <= length (gb z) ->
  exists m, (potential c B kend * p_delta (lll_par lo z en_e dl eta false siegel) ^ S m < 1)%Qc /\ kend - 1 + m <= max_iter B.
Proof.
  intros [Sx Sv Sr Sl Sd Si Seta Sdl Sdl1 Sdd Sde Sf] HM B kend HL HA Hk.
  assert (E0 : (0 <= eta)%Qc) by (eapply Qcle_trans; [|exact Seta]; discriminate).
  assert (D0 : (0 < dl)%Qc) by (clear - E0 Sdl; qcnra).
  destruct (HM B kend HL (pos_independent c B _ HA) Hk) as [m [N [N1 [N2 N3]]]]. exists m. split; auto.
  cbn [p_delta lll_par]. eapply Qcle_lt_trans; [|exact N2].
  replace (kend * (kend - 1) / 2) with (tri kend) by (rewrite <- tri_eq, Nat.mul_comm; symmetry; apply Nat.div_mul; lia).
  replace (m + 1) with (S m) by lia. apply Qcmult_le_compat_r.
  - apply potential_bound; auto.
    + eapply Qcle_trans; [|apply (N1 0); lia]. unfold znorm2. rewrite <- Qcz_0. apply Qcz_le. unfold inner. apply zsum_nonneg. intros. nia.
    + intros i Hi. apply HA. lia.
    + intros i Hi. rewrite gq_z. apply (N1 i Hi).
  - apply Qclt_le_weak. apply pow_pos. auto.
Qed.

(** It does return, with enough fuel for the enumeration and a limit for LLL that is large enough. *)
Theorem dual_svp_total :
  forall en_e junk dl eta delta (siegel : bool) b c u fl h z s fuel max_iter ne rec kappa m,
    setting en_e junk dl eta delta b c u fl h z s fuel -> enough_iterations c (length (gb z)) dl max_iter -> 0 < m -> kappa + m <= length (gb z) ->
    exists efuel0 st' ok, forall efuel, efuel0 <= efuel ->
      dsvp_reduction rnd si ze expo (lll_par lo z en_e dl eta false siegel) fuel efuel max_iter ne rec delta (@lst_new lo z s) kappa m = Some (st', BRet ok).
Proof.
  intros en_e junk dl eta delta siegel b c u fl h z s fuel max_iter ne rec kappa m HS HM Hm HD.
  pose proof (limit_ok en_e junk dl eta delta siegel b c u fl h z s fuel max_iter HS HM) as Hmi.
  destruct (start rnd si ze expo en_e junk dl eta delta siegel b c u fl h z s fuel HS) as [R0 Hd0].
  destruct HS as [Sx Sv Sr Sl Sd Si Seta Sdl Sdl1 Sdd Sde Sf].
  set (D := length (gb z)) in *. set (P := lll_par lo z en_e dl eta false siegel) in *.
  destruct (dsvp_total rnd si ze expo P Sx Seta eq_refl Sdl eq_refl fuel max_iter ne rec delta Sf Hd0 c D Sdl1 Hmi (gb z) Sde (@lst_new lo z s) kappa m R0) as [e0 [st' [ok [E _]]]]; auto.
  { split; auto. split; [tauto|]. apply (R_p _ _ _ _ _ _ _ _ R0). }
  exists e0, st', ok. exact E.
Qed.

(** ** SD-BKZ *)
(** With at least block-size many rows the call returns (no exception, no undefined behaviour), whatever the number of tours;
    the lattice is the same and the rows stay independent. *)
Theorem sd_bkz_total :
  forall en_e junk dl eta delta (siegel : bool) b c u fl h z s fuel max_iter ne rec loops beta,
    setting en_e junk dl eta delta b c u fl h z s fuel -> enough_iterations c (length (gb z)) dl max_iter -> beta <= length (gb z) ->
    exists efuel0 st' ok, (forall efuel, efuel0 <= efuel ->
      sd_bkz rnd si ze expo (lll_par lo z en_e dl eta false siegel) fuel efuel max_iter ne rec delta loops (@lst_new lo z s) beta = Some (st', BRet ok)) /\
      same_lattice c (gb z) (gb (lz st')) /\ independent c (gb (lz st')) (length (gb (lz st'))).
Proof.
  intros en_e junk dl eta delta siegel b c u fl h z s fuel max_iter ne rec loops beta HS HM HBD.
  destruct (Nat.lt_ge_cases beta 2) as [Hb|Hb].
  { exists 0, (@lst_new lo z s), true. split; [|split].
    - intros. unfold sd_bkz. destruct (Nat.ltb_spec beta 2); [auto|lia].
    - cbn [lz lst_new]. apply same_LB; auto. tauto.
    - cbn [lz lst_new]. apply HS. }
  pose proof (limit_ok en_e junk dl eta delta siegel b c u fl h z s fuel max_iter HS HM) as Hmi.
  destruct (start rnd si ze expo en_e junk dl eta delta siegel b c u fl h z s fuel HS) as [R0 Hd0].
  destruct HS as [Sx Sv Sr Sl Sd Si Seta Sdl Sdl1 Sdd Sde Sf].
  set (D := length (gb z)) in *. set (P := lll_par lo z en_e dl eta false siegel) in *. set (st0 := @lst_new lo z s) in *.
  pose proof R0 as [C0 G0 D0 I0 P0].
  assert (HN : nkr (lz st0) <= gd (lz st0)) by (apply (I_known _ (F_inv _ _ _ _ (C_f _ _ _ _ _ _ C0)))).
  destruct (discover_all rnd si ze expo P (gd (lz st0) - nkr (lz st0)) st0 C0 ltac:(lia)) as [zs [E [C1 [B1 Fl]]]].
  set (st1 := set_zs st0 (fst zs) (snd zs)) in *. destruct Fl as [Fa [Fb [Fc [Fd Fe]]]].
  assert (R1 : ready rnd si ze expo P c D st1).
  { constructor; cbn [lz set_zs st1]; auto; try congruence; [unfold gd in *; rewrite B1; auto|rewrite B1; auto]. }
  assert (K1 : LK c D (gb z) (gb (lz st1))).
  { cbn [lz set_zs st1]. rewrite B1. split; auto. split; [tauto|]. exact P0. }
  clear C1. pose proof R1 as [C1 G1 D1 I1 P1].
  destruct (Hmi (gb (lz st1)) D ltac:(apply K1) P1 ltac:(lia)) as [mm [M1 M2]].
  destruct (lll_t rnd si ze expo P Sx Seta eq_refl Sdl Sdl1 fuel max_iter mm st1 D Sf (C_f _ _ _ _ _ _ C1) (C_x _ _ _ _ _ _ C1) (C_l _ _ _ _ _ _ C1)) as [s2 [E2 _]]; auto; try lia.
  { intros _. apply (C_g _ _ _ _ _ _ C1). }
  { rewrite G1. exact P1. }
  { rewrite G1. exact M1. }
  destruct (lll_k rnd si ze expo P Sx Seta eq_refl Sdl c (LK c D (gb z)) D (LK_lstable rnd si ze expo P fuel Sf c D (gb z) D (le_n _)) fuel max_iter st1 s2 Sf eq_refl C1 G1 ltac:(lia) P1 K1 E2)
    as [C2 [F2 [D2 [K2 [P2 _]]]]].
  destruct F2 as [Ga [Gb [Gc [Gd Ge]]]].
  assert (R2 : ready rnd si ze expo P c D s2) by (constructor; auto; congruence).
  destruct (sd_loop_total rnd si ze expo P Sx Seta eq_refl Sdl eq_refl fuel max_iter ne rec delta Sf Hd0 c D Sdl1 Hmi (gb z) Sde beta ltac:(lia) loops s2 R2 K2) as [e3 [s3 [b3 [E3 [R3 K3]]]]].
  destruct (hkz_total rnd si ze expo P Sx Seta eq_refl Sdl eq_refl fuel max_iter ne rec delta Sf Hd0 c D Sdl1 Hmi (gb z) s3 beta R3 K3 ltac:(lia)) as [e4 [s4 [b4 [E4 [R4 K4]]]]].
  exists (Nat.max e3 e4), s4, b3. split.
  - intros ef Hef. unfold sd_bkz. destruct (Nat.ltb_spec beta 2); [lia|].
    match goal with |- obind ?A _ = _ => replace A with (Some zs) by (symmetry; exact E) end. cbn [obind]. fold st1.
    rewrite (num_rows_all c (gb (lz st0)) (gd (lz st0))); [|auto|rewrite D0; lia|rewrite D0; exact P0]. rewrite D0.
    match goal with |- obind ?A _ = _ => replace A with (Some (s2, OTrue)) by (symmetry; exact E2) end. cbn [obind fst snd].
    rewrite E3 by lia. cbn [obind fst snd]. destruct (Nat.ltb_spec D beta); [lia|]. rewrite E4 by lia. reflexivity.
  - destruct K4 as [L1 [L2 L3]]. split; [apply same_LB; auto|]. rewrite L1. apply pos_independent. auto.
Qed.

(** A self-dual tour that starts from an LLL-reduced basis and reports that nothing changed: indeed nothing changed, the
    blocks at 1, ..., d - beta are dual-reduced and those at 0, ..., d - beta - 1 are reduced. *)
Theorem clean_sd_tour_reduced :
  forall en_e junk dl eta delta (siegel : bool) b c u fl h z s fuel efuel max_iter ne rec beta st',
    setting en_e junk dl eta delta b c u fl h z s fuel -> (delta < 1)%Qc -> 2 <= beta <= length (gb z) ->
    (if siegel then siegel_reduced c (gb z) (length (gb z)) dl eta else lll_reduced c (gb z) (length (gb z)) dl eta) ->
    sd_tour rnd si ze expo (lll_par lo z en_e dl eta false siegel) fuel efuel max_iter ne rec delta (@lst_new lo z s) beta 0 (length (gb z)) = Some (st', BRet true) ->
    gb (lz st') = gb z /\
    exists bs mu, gso_of c (gb z) (length (gb z)) bs mu /\ (forall i, i < length (gb z) -> (0 < norm2 c (bs i))%Qc) /\
      (forall k, 1 <= k <= length (gb z) - beta -> dual_reduced c (gb z) bs delta k beta) /\
      (forall k, k < length (gb z) - beta -> block_reduced c (gb z) bs delta k beta).
Proof.
  intros en_e junk dl eta delta siegel b c u fl h z s fuel efuel max_iter ne rec beta st' HS Hd1 Hb HR E.
  destruct (start rnd si ze expo en_e junk dl eta delta siegel b c u fl h z s fuel HS) as [R0 Hd0].
  destruct HS as [Sx Sv Sr Sl Sd Si Seta Sdl Sdl1 Sdd Sde Sf].
  set (D := length (gb z)) in *. set (P := lll_par lo z en_e dl eta false siegel) in *.
  pose proof (R_p _ _ _ _ _ _ _ _ R0) as HA. cbn [lz lst_new] in HA.
  assert (HM : forall i j, i < D -> j < i -> (qabs (qM c (gb z) i j) <= p_eta P)%Qc).
  { intros i j Hi Hj. apply qabs_half; cbn [p_eta P lll_par]; destruct siegel; [apply siegel_reduced_q in HR|apply lll_reduced_q in HR|apply siegel_reduced_q in HR|apply lll_reduced_q in HR]; apply HR; auto. }
  assert (HT : forall i, 0 < i < D -> (p_thr P * qR c (gb z) (i - 1) (i - 1) <= qproj c (gb z) i (tidx lo P i))%Qc).
  { intros i Hi. unfold tidx. cbn [p_thr p_siegel P lll_par]. destruct i as [|i]; [lia|]. replace (S i - 1) with i by lia. destruct siegel.
    - apply siegel_reduced_q in HR. rewrite qproj_diag. apply HR. lia.
    - apply lll_reduced_q in HR. destruct HR as [_ [_ HR]]. eapply Qcle_trans; [apply HR; lia|].
      rewrite <- (qproj_diag c (gb z) (S i)), (qproj_S c (gb z) (S i) i) by lia. match goal with |- (?a <= ?b)%Qc => replace a with b by ring end. apply Qcle_refl. }
  unfold sd_tour, trunc_dtour, trunc_tour in E.
  destruct (dblocks rnd si ze expo P fuel efuel max_iter ne rec delta beta (D - beta - 0) (@lst_new lo z s) (D - beta) true) as [[s1 [b1|]]|] eqn:E1; cbn [obind fst snd] in E; try discriminate.
  destruct (blocks rnd si ze expo P fuel efuel max_iter ne rec delta (fun _ => beta) (D - beta - 0) s1 0 true) as [[s2 [b2|]]|] eqn:E2; cbn [obind fst snd] in E; try discriminate.
  injection E as <- EB. apply andb_prop in EB. destruct EB as [-> ->].
  destruct (same_dblocks rnd si ze expo P Sx Seta eq_refl Sdl eq_refl fuel max_iter ne rec delta Sf Hd0 c D Hd1 (gb z) eq_refl HA HM HT
    efuel beta ltac:(lia) (D - beta - 0) (@lst_new lo z s) (D - beta) true s1 R0) as [_ [B1 [R1 Q1]]]; auto; try lia.
  destruct (same_blocks rnd si ze expo P Sx Seta eq_refl Sdl eq_refl fuel efuel max_iter ne rec delta Sf Hd0 Hd1 c D (gb z) eq_refl HA HM HT
    (fun _ => beta) (D - beta - 0) s1 0 true s2 R1) as [_ [B2 [R2 [_ Q2]]]]; auto.
  { intros i Hi. lia. }
  { right. split; [lia|intros; lia]. }
  split; auto. exists (qS c (gb z)), (qM c (gb z)). split; [apply qS_gso|]. split; [intros i Hi; rewrite norm2_qS; apply HA; auto|].
  split; [intros k Hk; apply Q1; lia|]. intros k Hk x HN. rewrite norm2_qS. destruct (block_coef c (gb z) D k beta x HA ltac:(lia) HN) as [y [Ly [Ny ->]]]. apply Q2; auto. lia.
Qed.

(** The main loop of bkz() with BKZ_SD_VARIANT, more rows than the block size: when it ends because a tour was clean, the basis
    is LLL-reduced, the blocks at 1, ..., d - beta are dual-reduced and those at 0, ..., d - beta - 1 reduced, whatever the
    basis it started from (bkz_reduction uses LLL without the Siegel condition, bkz.cpp:862). *)
Theorem sd_loop_success_reduced :
  forall en_e junk dl eta delta b c u fl h z s fuel efuel max_iter ne rec loops beta st',
    setting en_e junk dl eta delta b c u fl h z s fuel -> (delta < 1)%Qc -> 2 <= beta < length (gb z) ->
    sd_loop rnd si ze expo (lll_par lo z en_e dl eta false false) fuel efuel max_iter ne rec delta loops (@lst_new lo z s) beta (length (gb z)) = Some (st', BRet true) ->
    same_lattice c (gb z) (gb (lz st')) /\ lll_reduced c (gb (lz st')) (length (gb z)) dl eta /\
    exists bs mu, gso_of c (gb (lz st')) (length (gb z)) bs mu /\ (forall i, i < length (gb z) -> (0 < norm2 c (bs i))%Qc) /\
      (forall k, 1 <= k <= length (gb z) - beta -> dual_reduced c (gb (lz st')) bs delta k beta) /\
      (forall k, k < length (gb z) - beta -> block_reduced c (gb (lz st')) bs delta k beta).
Proof.
  intros en_e junk dl eta delta b c u fl h z s fuel efuel max_iter ne rec loops beta st' HS Hd1 Hb E.
  destruct (start rnd si ze expo en_e junk dl eta delta false b c u fl h z s fuel HS) as [R0 Hd0].
  destruct HS as [Sx Sv Sr Sl Sd Si Seta Sdl Sdl1 Sdd Sde Sf].
  set (D := length (gb z)) in *. set (P := lll_par lo z en_e dl eta false false) in *.
  destruct (sd_loop_clean rnd si ze expo P Sx Seta eq_refl Sdl eq_refl fuel max_iter ne rec delta Sf Hd0 c D (gb z) Sde eq_refl eq_refl ltac:(apply Qclt_le_weak; exact Sdl1) Hd1
    efuel beta Hb loops (@lst_new lo z s) st' R0) as [R' [[K1 [K2 HA]] [M1 [M2 [Q1 Q2]]]]]; auto.
  { split; auto. split; [tauto|]. apply (R_p _ _ _ _ _ _ _ _ R0). }
  split; [apply same_LB; auto|]. split.
  { apply lll_reduced_q. split; [exact HA|]. split.
    - intros i j Hj Hi. apply and_comm. apply qabs_le. apply M1; auto.
    - intros i Hi. specialize (M2 (S i) ltac:(lia)). unfold tidx in M2. cbn [p_siegel p_thr P lll_par] in M2. replace (S i - 1) with i in M2 by lia.
      eapply Qcle_trans; [exact M2|]. rewrite <- (qproj_diag c (gb (lz st')) (S i)), (qproj_S c (gb (lz st')) (S i) i) by lia.
      match goal with |- (?a <= ?b)%Qc => replace b with a by ring end. apply Qcle_refl. }
  exists (qS c (gb (lz st'))), (qM c (gb (lz st'))). split; [apply qS_gso|]. split; [intros i Hi; rewrite norm2_qS; apply HA; auto|].
  split; [exact Q1|]. intros k Hk x HN. rewrite norm2_qS. destruct (block_coef c (gb (lz st')) D k beta x HA ltac:(lia) HN) as [y [Ly [Ny ->]]]. apply Q2; auto.
Qed.
End Exact.

(** ** Witnesses *)
Definition x_dsvp (b : list (list Z)) (c : nat) (dl delta : Qc) (kappa m : nat) (st : lst lqx) : option (lst lqx * bout) :=
  dsvp_reduction qrnd qint qint qexpo (x_p b c dl) 2 2000 (fun _ => 200) (fun _ => 0%Z) false delta st kappa m.
Definition x_sd (b : list (list Z)) (c : nat) (dl delta : Qc) (loops beta : nat) (st : lst lqx) : option (lst lqx * bout) :=
  sd_bkz qrnd qint qint qexpo (x_p b c dl) 2 2000 (fun _ => 200) (fun _ => 0%Z) false delta loops st beta.
Definition x_sdtour (b : list (list Z)) (c : nat) (dl delta : Qc) (beta : nat) (st : lst lqx) : option (lst lqx * bout) :=
  sd_tour qrnd qint qint qexpo (x_p b c dl) 2 2000 (fun _ => 200) (fun _ => 0%Z) false delta st beta 0 (length b).
Definition x_sdloop (b : list (list Z)) (c : nat) (dl delta : Qc) (loops beta : nat) (st : lst lqx) : option (lst lqx * bout) :=
  sd_loop qrnd qint qint qexpo (x_p b c dl) 2 2000 (fun _ => 200) (fun _ => 0%Z) false delta loops st beta (length b).

(** dual SVP reduction of an LLL-reduced basis of dimension 4: the second row goes to the end *)
Definition ex78_b : list (list Z) := [[5;-4;7;-2];[9;-11;-8;3];[-9;-9;-6;-10];[-3;-5;8;14]]%Z.
Definition ex78_d : list (list Z) := [[5;-4;7;-2];[-9;-9;-6;-10];[-3;-5;8;14];[9;-11;-8;3]]%Z.
Example ex78_dual : exists s st', setting qrnd qint qint false 0%Qc (q_of 99 100) (q_of 51 100) (q_of 99 100) ex78_b 4 [] false [] (x_z ex78_b 4) s 2 /\
  x_dsvp ex78_b 4 (q_of 99 100) (q_of 99 100) 0 4 (@lst_new lqx (x_z ex78_b 4) s) = Some (st', BRet false) /\ gb (lz st') = ex78_d /\ same_lattice 4 ex78_b ex78_d.
Proof.
  destruct (x_setting ex78_b 4 4 (q_of 99 100) (q_of 99 100) 2) as [s [E0 HS]]; try reflexivity; try lia; try (apply qltb_lt; reflexivity); try (apply qltb_ge; reflexivity).
  destruct (x_run ex78_b 4 s (x_dsvp ex78_b 4 (q_of 99 100) (q_of 99 100) 0 4) ex78_d (BRet false) E0) as [st' [E EB]]; [vm_compute; reflexivity|].
  exists s, st'. split; auto. split; auto. split; auto.
  destruct (dual_svp_reduced qrnd qint qint qexpo _ _ _ _ _ false _ _ _ _ _ _ _ _ 2000 (fun _ => 200) (fun _ => 0%Z) false 0 4 st' false HS) as [H _]; [lia|cbn; lia|exact E|].
  rewrite <- EB. exact H.
Qed.
(** dual enumeration of the whole basis with radius 0.99 / r(3): found is (0, 0, 1, 0) in the order of the code, that is row 1 *)
Example ex78_enum : option_map (fun s => map snd (kept s)) (enum_run false 2000 0%Z accept_all BestN 1
    (dual_input 4 (fun j i => qM 4 ex78_b j i) (fun i => qR 4 ex78_b i i) false None (/ qR 4 ex78_b 3 3 * q_of 99 100)%Qc 0%Z)) = Some [[0;0;1;0]%Z].
Proof. vm_compute. reflexivity. Qed.
(** a clean self-dual tour over an LLL-reduced basis *)
Example ex78_tour : exists s st', setting qrnd qint qint false 0%Qc (q_of 99 100) (q_of 51 100) (q_of 99 100) ex71_h 4 [] false [] (x_z ex71_h 4) s 2 /\
  lll_reduced 4 ex71_h 4 (q_of 99 100) (q_of 51 100) /\
  x_sdtour ex71_h 4 (q_of 99 100) (q_of 99 100) 3 (@lst_new lqx (x_z ex71_h 4) s) = Some (st', BRet true).
Proof.
  destruct (x_setting ex71_h 4 4 (q_of 99 100) (q_of 99 100) 2) as [s [E0 HS]]; try reflexivity; try lia; try (apply qltb_lt; reflexivity); try (apply qltb_ge; reflexivity).
  destruct (x_run ex71_h 4 s (x_sdtour ex71_h 4 (q_of 99 100) (q_of 99 100) 3) ex71_h (BRet true) E0) as [st' [E EB]]; [vm_compute; reflexivity|].
  exists s, st'. split; auto. split; [exact ex71_red|exact E].
Qed.
(** the main loop over a basis that is not LLL-reduced ends with a clean tour *)
Definition ex78_s : list (list Z) := [[-20;1;-6;9];[-16;-10;7;7];[18;16;-15;-17];[0;-5;-2;-1]]%Z.
Definition ex78_l : list (list Z) := [[0;-5;-2;-1];[2;6;-8;-10];[6;0;7;-11];[-14;1;1;-2]]%Z.
Definition ex78_o : list (list Z) := [[0;-5;-2;-1];[-14;1;1;-2];[6;0;7;-11];[2;6;-8;-10]]%Z.
Example ex78_loop : exists s st', setting qrnd qint qint false 0%Qc (q_of 99 100) (q_of 51 100) (q_of 99 100) ex78_s 4 [] false [] (x_z ex78_s 4) s 2 /\
  x_sdloop ex78_s 4 (q_of 99 100) (q_of 99 100) 5 3 (@lst_new lqx (x_z ex78_s 4) s) = Some (st', BRet true) /\ gb (lz st') = ex78_l.
Proof.
  destruct (x_setting ex78_s 4 4 (q_of 99 100) (q_of 99 100) 2) as [s [E0 HS]]; try reflexivity; try lia; try (apply qltb_lt; reflexivity); try (apply qltb_ge; reflexivity).
  destruct (x_run ex78_s 4 s (x_sdloop ex78_s 4 (q_of 99 100) (q_of 99 100) 5 3) ex78_l (BRet true) E0) as [st' [E EB]]; [vm_compute; reflexivity|].
  exists s, st'. auto.
Qed.
(** the limit of dual_svp_total and sd_bkz_total exists *)
Example ex78_total : exists s limit, setting qrnd qint qint false 0%Qc (q_of 99 100) (q_of 51 100) (q_of 99 100) ex78_s 4 [] false [] (x_z ex78_s 4) s 2 /\
  enough_iterations 4 4 (q_of 99 100) limit.
Proof.
  destruct (x_setting ex78_s 4 4 (q_of 99 100) (q_of 99 100) 2) as [s [E0 HS]]; try reflexivity; try lia; try (apply qltb_lt; reflexivity); try (apply qltb_ge; reflexivity).
  destruct (enough_exists 4 4 (q_of 99 100)) as [l Hl]; [apply qltb_ge; reflexivity|apply qltb_lt; reflexivity|]. exists s, l. split; auto.
Qed.

(** What bkz() returns is not dual-reduced any more: after a clean tour the last block is HKZ-reduced (bkz.cpp:626-633), and
    RED_SUCCESS is reported for that basis. *)
Theorem sd_success_output_refuted :
  exists b c delta beta s st', 2 <= beta < length b /\ setting qrnd qint qint false 0%Qc delta (q_of 51 100) delta b c [] false [] (x_z b c) s 2 /\ (delta < 1)%Qc /\
    x_sd b c delta delta 5 beta (@lst_new lqx (x_z b c) s) = Some (st', BRet true) /\
    ~ exists bs mu, gso_of c (gb (lz st')) (length b) bs mu /\ (forall i, i < length b -> (0 < norm2 c (bs i))%Qc) /\
        forall k, 1 <= k <= length b - beta -> dual_reduced c (gb (lz st')) bs delta k beta.
Proof.
  destruct (x_setting ex78_s 4 4 (q_of 99 100) (q_of 99 100) 2) as [s [E0 HS]]; try reflexivity; try lia; try (apply qltb_lt; reflexivity); try (apply qltb_ge; reflexivity).
  destruct (x_run ex78_s 4 s (x_sd ex78_s 4 (q_of 99 100) (q_of 99 100) 5 3) ex78_o (BRet true) E0) as [st' [E EB]]; [vm_compute; reflexivity|].
  exists ex78_s, 4, (q_of 99 100), 3, s, st'. split; [cbn; lia|]. split; auto. split; [apply qltb_lt; reflexivity|]. split; [exact E|].
  rewrite EB. change (length ex78_s) with 4. intros [bs [mu [HG [HP HB]]]]. specialize (HB 1 ltac:(lia)).
  assert (NZ : forall i, i < 3 -> qR 4 ex78_o (1 + i) (1 + i) <> 0%Qc).
  { intros i Hi EE. assert (X : qltb 0 (qR 4 ex78_o (1 + i) (1 + i)) = true) by (do 3 (destruct i as [|i]; [vm_compute; reflexivity|]); lia). rewrite EE in X. discriminate. }
  destruct (span_exists 4 ex78_o 1 3 [1;0;0]%Z NZ) as [w [W1 W2]].
  pose proof (span_len 4 ex78_o 1 3 w [1;0;0]%Z NZ W1 eq_refl W2) as W3.
  assert (HV : dual_vec 4 ex78_o bs 1 3 w).
  { split; [|intros i Hi; exists (nth i [1;0;0]%Z 0%Z); apply W2; auto]. destruct W1 as [x Hx]. exists x. intros t Ht. rewrite Hx by auto. apply qsum_ext. intros i Hi.
    rewrite (proj1 (gso_unique _ _ _ _ _ HG HP (1 + i) ltac:(lia))) by auto. reflexivity. }
  assert (HN : exists t, t < 4 /\ w t <> 0%Qc).
  { destruct (some_entry 4 w) as [H|H]; auto. exfalso. specialize (W2 0 ltac:(lia)). unfold ip in W2. rewrite qsum_0 in W2 by (intros u Hu; rewrite H by auto; ring). discriminate W2. }
  specialize (HB w HV HN). rewrite (gso_norm _ _ _ _ _ HG HP (1 + 3 - 1) ltac:(lia)) in HB. rewrite W3 in HB.
  apply qltb_ge in HB. revert HB. vm_compute. intros HB. discriminate HB.
Qed.

Print Assumptions dual_enum_shortest.
Print Assumptions dual_svp_reduced.
Print Assumptions dual_svp_total.
Print Assumptions sd_bkz_total.
Print Assumptions clean_sd_tour_reduced.
Print Assumptions sd_loop_success_reduced.
Print Assumptions sd_success_output_refuted.
