(** Property C79: slide reduction in exact arithmetic. *)
From Coq Require Import List ZArith QArith Qcanon Lia Lqa Arith Bool.
From Verif Require Import Util QcUtil LatticeSpec MatrixModel MatrixProofs GsoModel GsoProofs GsoHistory GsoFModel GsoFSpec GsoFProofs GsoQ QGs
  LllModel LllQ LllExact LllDecide LllSpec LllSpecFacts GramDet LatPot LllTotal LllKeep PropLll PropLllExact PropLllTotal
  EnumModel EnumExact EnumSpec EnumLink EvalModel EnumCall PropEnum BkzModel BkzProofs PropBkz PropGso PropGsoF LllProofs BkzExactModel BkzSpec LatProj BkzExact BkzHkz BkzTotal
  PropBkzExact EnumDual BkzDualModel BkzDualSpec DualLat BkzDual PropBkzDual LatBlock BkzSlideModel BkzSlideSpec BkzSlide.
Import ListNotations.
Local Open Scope nat_scope.

Section Exact.
Variable rnd : Qc -> Z -> Qc.
Variable si ze : Qc -> Z -> Z * nat.
Variable expo : Qc -> Z.
Notation lo := (lq_ops rnd si ze expo).
Notation half := (Q2Qc (1 # 2)).
Notation setting := (setting rnd si ze).

(** what the proofs need from the setting *)
Lemma slide_lll P c B D : all_pos c B D -> p_siegel P = false -> p_thr P = p_delta P -> size_reduced_to rnd si ze expo P c B D -> lovasz_to rnd si ze expo P c B D ->
  lll_reduced c B D (p_delta P) (p_eta P).
Proof.
  intros HA HSg HT M1 M2. apply lll_reduced_q. split; [exact HA|]. split.
  - intros i j Hj Hi. apply and_comm. apply qabs_le. apply M1; auto.
  - intros i Hi. specialize (M2 (S i) ltac:(lia)). unfold tidx in M2. rewrite HSg, HT in M2. replace (S i - 1) with i in M2 by lia.
    eapply Qcle_trans; [exact M2|]. rewrite <- (qproj_diag c B (S i)), (qproj_S c B (S i) i) by lia.
    match goal with |- (?a <= ?b)%Qc => replace b with a by ring end. apply Qcle_refl.
Qed.
Lemma product_qprod n f : product n f = qprod n f.
Proof. induction n as [|n IH]; cbn [product qprod]; [reflexivity|]. rewrite IH. reflexivity. Qed.
Lemma product_ext n f g : (forall i, i < n -> f i = g i) -> product n f = product n g.
Proof. induction n as [|n IH]; intros H; cbn [product]; auto. rewrite IH by (intros; apply H; lia). rewrite H; auto. Qed.
Lemma nb_ceil D beta : 2 <= beta -> 0 < D -> n_blocks D beta - 1 = (D - 1) / beta.
Proof.
  intros Hb HD. set (q := (D - 1) / beta). pose proof (Nat.div_mod (D - 1) beta ltac:(lia)) as E. pose proof (Nat.mod_upper_bound (D - 1) beta ltac:(lia)) as U. fold q in E.
  pose proof (nb_lt 2 (le_n 2) D beta Hb HD q) as H1. pose proof (nb_lt 2 (le_n 2) D beta Hb HD (S q)) as H2. assert (q < n_blocks D beta) by (apply H1; nia). assert (~ S q < n_blocks D beta) by (intros X; apply H2 in X; nia). lia.
Qed.
Lemma pot_spec c B D beta q : 2 <= beta -> 0 < D -> all_pos c B D -> slide_potential c B D beta q <-> q = pot c D beta B.
Proof.
  intros Hb HD HA. assert (EP : pot c D beta B = product ((D - 1) / beta) (fun i => product ((i + 1) * beta) (fun j => qR c B j j))).
  { unfold pot. rewrite (product_qprod ((D - 1) / beta)), (nb_ceil D beta Hb HD). apply qprod_ext. intros i Hi. rewrite (product_qprod ((i + 1) * beta)), gram_det_prod. f_equal. lia. }
  split.
  - intros [bs [mu [HG [HP ->]]]]. rewrite EP. apply product_ext. intros i Hi. apply product_ext. intros j Hj. apply (gso_norm c B D bs mu HG HP).
    assert ((i + 1) * beta <= D - 1). { assert (i + 1 <= (D - 1) / beta) by lia. etransitivity; [apply Nat.mul_le_mono_r; exact H|]. rewrite Nat.mul_comm. apply Nat.mul_div_le. lia. }
    lia.
  - intros ->. rewrite EP. exists (qS c B), (qM c B). split; [apply qS_gso|]. split; [intros i Hi; rewrite norm2_qS; apply HA; auto|].
    apply product_ext. intros i Hi. apply product_ext. intros j Hj. rewrite norm2_qS. auto.
Qed.
Lemma slide_red_spec P c D B delta beta : 2 <= beta -> 0 < D -> all_pos c B D -> slide_red rnd si ze expo P delta c D beta B -> slide_reduced c B D delta beta.
Proof.
  intros Hb HD HA [_ [_ [Q1 Q2]]]. exists (qS c B), (qM c B). split; [apply qS_gso|]. split; [intros i Hi; rewrite norm2_qS; apply HA; auto|]. split.
  - intros i Hi x HN. rewrite norm2_qS. destruct (block_coef c B D (i * beta) (Nat.min beta (D - i * beta)) x HA ltac:(lia) HN) as [y [Ly [Ny ->]]].
    specialize (Q1 i (proj2 (nb_lt 2 (le_n 2) D beta Hb HD i) Hi)). unfold size in Q1. rewrite Nat.min_comm in Q1. apply Q1; auto.
  - intros i Hi. apply Q2. pose proof (proj2 (nb_lt 2 (le_n 2) D beta Hb HD (i + 1)) Hi). lia.
Qed.

(** ** The main loop *)
(** Whatever basis it starts from (with the slide potential of that basis): if the loop ends with success - the last tour has
    not decreased the potential - the basis generates the same lattice, is LLL-reduced and slide-reduced.
    (bkz_reduction uses LLL without the Siegel condition, bkz.cpp:862.) *)
Theorem slide_success_reduced :
  forall en_e junk dl eta delta b c u fl h z s fuel efuel max_iter ne rec loops inner beta pot0 st',
    setting en_e junk dl eta delta b c u fl h z s fuel -> (delta < 1)%Qc -> 2 <= beta -> 0 < length (gb z) ->
    slide_potential c (gb z) (length (gb z)) beta pot0 ->
    slide_loop rnd si ze expo (lll_par lo z en_e dl eta false false) fuel efuel max_iter ne rec delta loops inner (@lst_new lo z s) beta (length (gb z)) pot0 = Some (st', BRet true) ->
    same_lattice c (gb z) (gb (lz st')) /\ lll_reduced c (gb (lz st')) (length (gb z)) dl eta /\ slide_reduced c (gb (lz st')) (length (gb z)) delta beta.
Proof.
  intros en_e junk dl eta delta b c u fl h z s fuel efuel max_iter ne rec loops inner beta pot0 st' HS Hd1 Hb HD HP E.
  destruct (start rnd si ze expo en_e junk dl eta delta false b c u fl h z s fuel HS) as [R0 Hd0].
  destruct HS as [Sx Sv Sr Sl Sd Si Seta Sdl Sdl1 Sdd Sde Sf].
  set (D := length (gb z)) in *. set (P := lll_par lo z en_e dl eta false false) in *.
  pose proof (R_p _ _ _ _ _ _ _ _ R0) as HA. cbn [lz lst_new] in HA.
  apply pot_spec in HP; auto. subst pot0.
  destruct (slide_loop_ok rnd si ze expo P Sx Seta eq_refl Sdl eq_refl Sdl1 fuel max_iter ne rec delta Sf Hd0 Hd1 c D (gb z) beta Hb HD efuel inner loops (@lst_new lo z s) st' true R0) as [R' [[K1 [K2 K3]] SR]]; auto.
  { split; auto. split; [tauto|exact HA]. }
  specialize (SR eq_refl). split; [apply same_LB; auto|]. split.
  - apply (slide_lll P); auto; apply SR.
  - apply (slide_red_spec P); auto.
Qed.

(** It ends by itself: the repetitions of the primal tours end, no limit on the number of tours is needed, and the loop then
    reports success. *)
Theorem slide_loop_terminates :
  forall en_e junk dl eta delta b c u fl h z s fuel max_iter ne rec beta pot0,
    setting en_e junk dl eta delta b c u fl h z s fuel -> (delta < 1)%Qc -> enough_iterations c (length (gb z)) dl max_iter -> 2 <= beta -> 0 < length (gb z) ->
    slide_potential c (gb z) (length (gb z)) beta pot0 ->
    exists loops0 inner0 efuel0 st', forall loops inner efuel, loops0 <= loops -> inner0 <= inner -> efuel0 <= efuel ->
      slide_loop rnd si ze expo (lll_par lo z en_e dl eta false false) fuel efuel max_iter ne rec delta loops inner (@lst_new lo z s) beta (length (gb z)) pot0 = Some (st', BRet true).
Proof.
  intros en_e junk dl eta delta b c u fl h z s fuel max_iter ne rec beta pot0 HS Hd1 HM Hb HD HP.
  pose proof (limit_ok rnd si ze expo en_e junk dl eta delta false b c u fl h z s fuel max_iter HS HM) as Hmi.
  destruct (start rnd si ze expo en_e junk dl eta delta false b c u fl h z s fuel HS) as [R0 Hd0].
  destruct HS as [Sx Sv Sr Sl Sd Si Seta Sdl Sdl1 Sdd Sde Sf].
  set (D := length (gb z)) in *. set (P := lll_par lo z en_e dl eta false false) in *.
  pose proof (R_p _ _ _ _ _ _ _ _ R0) as HA. cbn [lz lst_new] in HA. apply pot_spec in HP; auto. subst pot0.
  destruct (slide_loop_ends rnd si ze expo P Sx Seta eq_refl Sdl eq_refl Sdl1 fuel max_iter ne rec delta Sf Hd0 Hd1 c D (gb z) beta Hb HD Hmi (Z.to_nat (Phi c D beta (gb z) + 1)) (@lst_new lo z s))
    as [e0 [n0 [st' E]]]; auto.
  { cbn [lz lst_new]. pose proof (Phi_nonneg fuel Sf c D beta Hb HD (gb z) HA). lia. }
  { split; auto. split; [tauto|exact HA]. }
  exists (Z.to_nat (Phi c D beta (gb z) + 1)), n0, e0, st'. intros loops inner efuel H1 H2 H3. apply E; auto.
Qed.

(** ** The whole call *)
(** bkz() with BKZ_SLD_RED | BKZ_MAX_LOOPS, block size at least 3, number of rows not 2 modulo the block size: it returns, whatever
    the number of tours allowed, with a basis of the same lattice; with enough tours allowed it reports success.  (The
    potential it starts from is that of the basis: otherwise success could not be guaranteed.) *)
Theorem slide_bkz_total :
  forall en_e junk dl eta delta b c u fl h z s fuel max_iter ne rec beta,
    setting en_e junk dl eta delta b c u fl h z s fuel -> (delta < 1)%Qc -> enough_iterations c (length (gb z)) dl max_iter -> 3 <= beta -> 2 <= length (gb z) ->
    length (gb z) mod beta <> 2 ->
    exists loops0, forall loops, exists inner0 efuel0 st' ok, (forall inner efuel, inner0 <= inner -> efuel0 <= efuel ->
      slide_bkz rnd si ze expo (lll_par lo z en_e dl eta false false) fuel efuel max_iter ne rec delta loops inner (@lst_new lo z s) beta = Some (st', BRet ok)) /\
      same_lattice c (gb z) (gb (lz st')) /\ independent c (gb (lz st')) (length (gb (lz st'))) /\ (loops0 <= loops -> ok = true).
Proof.
  intros en_e junk dl eta delta b c u fl h z s fuel max_iter ne rec beta HS Hd1 HM Hb HD Hm2.
  pose proof (limit_ok rnd si ze expo en_e junk dl eta delta false b c u fl h z s fuel max_iter HS HM) as Hmi.
  destruct (start rnd si ze expo en_e junk dl eta delta false b c u fl h z s fuel HS) as [R0 Hd0].
  destruct HS as [Sx Sv Sr Sl Sd Si Seta Sdl Sdl1 Sdd Sde Sf].
  set (D := length (gb z)) in *. set (P := lll_par lo z en_e dl eta false false) in *. set (st0 := @lst_new lo z s) in *.
  pose proof R0 as [C0 G0 D0 I0 P0].
  assert (HN : nkr (lz st0) <= gd (lz st0)) by (apply (I_known _ (F_inv _ _ _ _ (C_f _ _ _ _ _ _ C0)))).
  destruct (discover_all rnd si ze expo P (gd (lz st0) - nkr (lz st0)) st0 C0 ltac:(lia)) as [zs [E [C1 [B1 Fl]]]]. destruct Fl as [Fa [Fb [Fc [Fd Fe]]]].
  destruct C1 as [C1a C1b C1c C1d]. cbn [lz ls set_zs] in *.
  destruct (update_gso_all rnd si ze expo P fuel Sf D beta ltac:(lia) ltac:(lia) (gd (lz st0)) 0 (fst zs) (snd zs)) as [z2 [s2 [E2 [F2 [X2 [Fl2 [L2 [B2 [N2 V2]]]]]]]]]; auto; try lia.
  { unfold gd. rewrite B1. reflexivity. }
  { rewrite Fa, B1. unfold gd in *. rewrite B1. rewrite G0, D0. exact P0. }
  set (st1 := set_zs st0 z2 s2). destruct Fl2 as [Ga [Gb [Gc [Gd Ge]]]].
  assert (B3 : gb (lz st1) = gb z) by (cbn [lz set_zs st1]; rewrite B2, B1; reflexivity).
  assert (R1 : ready rnd si ze expo P c D st1).
  { constructor; cbn [lz ls set_zs st1]; try congruence.
    - constructor; cbn [lz ls set_zs]; auto; try congruence.
      cbn [lz set_zs st1]; congruence.
    - unfold gd in *; rewrite B2, B1; auto.
    - rewrite B2, B1; auto. }
  assert (K1 : LK c D (gb z) (gb (lz st1))) by (rewrite B3; split; auto; split; [tauto|exact P0]).
  assert (GD : gd (fst zs) = D) by (unfold gd in *; rewrite B1; auto).
  assert (EP : slide_pot rnd si ze expo P st1 D beta = Some (pot c D beta (gb (lz st1)))).
  { apply (slide_pot_q rnd si ze expo P fuel Sf c D beta ltac:(lia) ltac:(lia)); auto. pose proof (nb_last fuel Sf D beta ltac:(lia) ltac:(lia)) as NL.
    split; cbn [lz ls set_zs st1]; [lia|]. intros j Hj. apply V2. lia. }
  destruct (slide_loop_ends rnd si ze expo P Sx Seta eq_refl Sdl eq_refl Sdl1 fuel max_iter ne rec delta Sf Hd0 Hd1 c D (gb z) beta ltac:(lia) ltac:(lia) Hmi (Z.to_nat (Phi c D beta (gb (lz st1)) + 1)) st1)
    as [e0 [n0 [sx Ex]]]; auto.
  { pose proof (Phi_nonneg fuel Sf c D beta ltac:(lia) ltac:(lia) (gb (lz st1)) ltac:(apply R1)). lia. }
  exists (Z.to_nat (Phi c D beta (gb (lz st1)) + 1)). intros loops.
  destruct (slide_loop_total rnd si ze expo P Sx Seta eq_refl Sdl eq_refl Sdl1 fuel max_iter ne rec delta Sf Hd0 Hd1 c D (gb z) beta ltac:(lia) ltac:(lia) Hmi loops st1 R1 K1) as [e3 [n3 [s3 [b3 E3]]]].
  destruct (slide_loop_ok rnd si ze expo P Sx Seta eq_refl Sdl eq_refl Sdl1 fuel max_iter ne rec delta Sf Hd0 Hd1 c D (gb z) beta ltac:(lia) ltac:(lia) e3 n3 loops st1 s3 b3 R1 K1 (E3 _ _ (le_n _) (le_n _))) as [R3 [K3 _]].
  destruct (sl_hkz_total rnd si ze expo P Sx Seta eq_refl Sdl eq_refl Sdl1 fuel max_iter ne rec delta Sf Hd0 c D (gb z) beta ltac:(lia) ltac:(lia) Hmi Hb Hm2 HD (n_blocks D beta) s3 0 ltac:(lia) R3 K3) as [e4 [s4 [E4 [R4 [L1 [L2' L3]]]]]].
  { split; [lia|intros; lia]. }
  exists n3, (Nat.max e3 e4), s4, b3. split; [|split; [apply same_LB; auto|split; [rewrite L1; apply pos_independent; auto|]]].
  - intros inner ef Hn He. unfold slide_bkz. destruct (Nat.ltb_spec beta 2); [lia|].
    match goal with |- obind ?A _ = _ => replace A with (Some zs) by (symmetry; exact E) end. cbn [obind].
    rewrite (num_rows_all c (gb (lz st0)) (gd (lz st0))); [|auto|rewrite D0; lia|rewrite D0; exact P0].
    rewrite E2. cbn [obind fst snd]. fold st1. rewrite D0, EP. cbn [obind]. rewrite E3 by lia. cbn [obind fst snd]. rewrite E4 by lia. reflexivity.
  - intros HL. specialize (E3 (Nat.max e0 e3) (Nat.max n0 n3) ltac:(lia) ltac:(lia)). rewrite (Ex (Nat.max e0 e3) (Nat.max n0 n3) loops) in E3 by lia. congruence.
Qed.
End Exact.

(** ** Witnesses *)
Definition x_slide (b : list (list Z)) (c : nat) (dl delta : Qc) (loops beta : nat) (st : lst lqx) : option (lst lqx * bout) :=
  slide_bkz qrnd qint qint qexpo (x_p b c dl) 2 2000 (fun _ => 200) (fun _ => 0%Z) false delta loops 20 st beta.
Definition x_slloop (b : list (list Z)) (c : nat) (dl delta : Qc) (loops beta : nat) (pot : Qc) (st : lst lqx) : option (lst lqx * bout) :=
  slide_loop qrnd qint qint qexpo (x_p b c dl) 2 2000 (fun _ => 200) (fun _ => 0%Z) false delta loops 20 st beta (length b) pot.

(** two tours with block size 2 over a basis that is not LLL-reduced; the potential decreases from 207941 to 58868 *)
Definition ex79_b : list (list Z) := [[18;18;13;15];[-9;7;-10;-1];[-8;-14;9;-13];[-16;0;5;3]]%Z.
Definition ex79_o : list (list Z) := [[-9;7;-10;-1];[1;11;12;1];[-16;0;5;3];[0;-4;-6;16]]%Z.
Example ex79_loop : exists s st', setting qrnd qint qint false 0%Qc (q_of 99 100) (q_of 51 100) (q_of 99 100) ex79_b 4 [] false [] (x_z ex79_b 4) s 2 /\
  slide_potential 4 ex79_b 4 2 (q_of 207941 1) /\ slide_potential 4 ex79_o 4 2 (q_of 58868 1) /\
  x_slloop ex79_b 4 (q_of 99 100) (q_of 99 100) 5 2 (q_of 207941 1) (@lst_new lqx (x_z ex79_b 4) s) = Some (st', BRet true) /\ gb (lz st') = ex79_o /\
  slide_reduced 4 ex79_o 4 (q_of 99 100) 2.
Proof.
  destruct (x_setting ex79_b 4 4 (q_of 99 100) (q_of 99 100) 2) as [s [E0 HS]]; try reflexivity; try lia; try (apply qltb_lt; reflexivity); try (apply qltb_ge; reflexivity).
  destruct (x_run ex79_b 4 s (x_slloop ex79_b 4 (q_of 99 100) (q_of 99 100) 5 2 (q_of 207941 1)) ex79_o (BRet true) E0) as [st' [E EB]]; [vm_compute; reflexivity|].
  assert (HP : forall b q, forallb (fun i => qltb 0 (qR 4 b i i)) (seq 0 4) = true -> q = product 1 (fun i => product ((i + 1) * 2) (fun j => qR 4 b j j)) -> slide_potential 4 b 4 2 q).
  { intros b q H ->. exists (qS 4 b), (qM 4 b). split; [apply qS_gso|]. split.
    - intros i Hi. rewrite norm2_qS. rewrite forallb_forall in H. apply qltb_lt. apply H. apply in_seq. lia.
    - apply product_ext. intros i Hi. apply product_ext. intros j Hj. rewrite norm2_qS. auto. }
  assert (P1 : slide_potential 4 ex79_b 4 2 (q_of 207941 1)) by (apply HP; [reflexivity|apply Qc_is_canon; reflexivity]).
  exists s, st'. split; auto. split; auto. split; [apply HP; [reflexivity|apply Qc_is_canon; reflexivity]|]. split; auto. split; auto.
  destruct (slide_success_reduced qrnd qint qint qexpo _ _ _ _ _ _ _ _ _ _ _ _ _ 2000 (fun _ => 200) (fun _ => 0%Z) false 5 20 2 (q_of 207941 1) st' HS) as [_ [_ H]]; [apply qltb_lt; reflexivity|lia|cbn; lia|exact P1|exact E|].
  rewrite <- EB. exact H.
Qed.
(** the hypotheses of slide_bkz_total, with block size 3: 4 rows are 1 modulo 3 *)
Example ex79_total : exists s limit, setting qrnd qint qint false 0%Qc (q_of 99 100) (q_of 51 100) (q_of 99 100) ex79_b 4 [] false [] (x_z ex79_b 4) s 2 /\
  (q_of 99 100 < 1)%Qc /\ enough_iterations 4 4 (q_of 99 100) limit /\ length (gb (x_z ex79_b 4)) mod 3 <> 2.
Proof.
  destruct (x_setting ex79_b 4 4 (q_of 99 100) (q_of 99 100) 2) as [s [E0 HS]]; try reflexivity; try lia; try (apply qltb_lt; reflexivity); try (apply qltb_ge; reflexivity).
  destruct (enough_exists 4 4 (q_of 99 100)) as [l Hl]; [apply qltb_ge; reflexivity|apply qltb_lt; reflexivity|]. exists s, l. split; auto. split; [apply qltb_lt; reflexivity|]. split; auto.
Qed.

(** The restriction on the number of rows is needed for what comes after the loop.  HKZ reduction of the last block without its
    first row (bkz.cpp:650-655) is then a single row: no SVP reduction runs there, only the size reduction of that row, and
    that uses coefficients (mu, r) of rows changed by the HKZ reduction of the block before, which are not recomputed.
    RED_SUCCESS is reported for a basis that is not even size-reduced; the rows concerned were size-reduced in the input. *)
Definition ex79_s : list (list Z) := [[60;0;0;0;0;0];[0;100;0;0;0;0];[0;50;87;0;0;0];[0;50;43;76;0;0];[20;40;30;35;110;0];[10;-40;30;35;50;150]]%Z.
Definition ex79_t : list (list Z) := [[60;0;0;0;0;0];[0;0;-44;76;0;0];[0;50;87;0;0;0];[0;50;-87;0;0;0];[20;40;30;35;110;0];[-10;-80;0;0;-60;150]]%Z.
Theorem slide_output_size_reduced_refuted :
  exists b c delta beta s st', 3 <= beta < length b /\ setting qrnd qint qint false 0%Qc delta (q_of 51 100) delta b c [] false [] (x_z b c) s 2 /\ (delta < 1)%Qc /\
    x_slide b c delta delta 10 beta (@lst_new lqx (x_z b c) s) = Some (st', BRet true) /\
    (forall bs mu, gso_of c b (length b) bs mu -> (forall i, i < length b -> (0 < norm2 c (bs i))%Qc) -> (qabs (mu 5 4) <= q_of 51 100)%Qc) /\
    forall bs mu, gso_of c (gb (lz st')) (length b) bs mu -> (forall i, i < length b -> (0 < norm2 c (bs i))%Qc) -> (q_of 51 100 < qabs (mu 5 4))%Qc.
Proof.
  destruct (x_setting ex79_s 6 6 (q_of 99 100) (q_of 99 100) 2) as [s [E0 HS]]; try reflexivity; try lia; try (apply qltb_lt; reflexivity); try (apply qltb_ge; reflexivity).
  destruct (x_run ex79_s 6 s (x_slide ex79_s 6 (q_of 99 100) (q_of 99 100) 10 4) ex79_t (BRet true) E0) as [st' [E EB]]; [vm_compute; reflexivity|].
  exists ex79_s, 6, (q_of 99 100), 4, s, st'. split; [cbn; lia|]. split; auto. split; [apply qltb_lt; reflexivity|]. split; [exact E|]. rewrite EB. change (length ex79_s) with 6. split.
  - intros bs mu HG HP. rewrite (proj2 (gso_unique _ _ _ _ _ HG HP 5 ltac:(lia)) 4 ltac:(lia)). apply qltb_ge. vm_compute. reflexivity.
  - intros bs mu HG HP. rewrite (proj2 (gso_unique _ _ _ _ _ HG HP 5 ltac:(lia)) 4 ltac:(lia)). apply qltb_lt. vm_compute. reflexivity.
Qed.

Print Assumptions slide_success_reduced.
Print Assumptions slide_loop_terminates.
Print Assumptions slide_bkz_total.
Print Assumptions slide_output_size_reduced_refuted.
