(** hlll (hlll.cpp:26-173) in exact real arithmetic: on success every row has
    passed the size-reduction and the Lovasz test with its final R-factor. *)
From Coq Require Import List ZArith Reals Lra Lia Arith Bool.
From Verif Require Import Util LatticeSpec NumVectModel MatrixModel MatrixProofs GsoModel GsoFModel GsoProofs
  HouseModel HouseProofs HouseReal HouseRun.
Import ListNotations.
Local Open Scope R_scope.

Section Run.
Variable dz : R -> R.
Notation ho := (r_hops dz).
Variable en_e : bool.
Variables d n : nat.
Hypothesis Hdn : (d <= n)%nat.
Variable zi : gz.
Variable Pr : hpar ho.

Ltac cR := change (HF ho) with R in *.
Notation delta := (p_delta ho Pr : R).
Notation theta := (p_theta ho Pr : R).
Notation Rt := (Rt dz).
Notation et := (et dz).
Notation bt := (bt dz).
Notation nt := (nt dz).
Notation row_ok := (row_ok dz n).
Notation done_ok := (done_ok dz n).
Notation fresh := (fresh dz n).
Notation pre := (pre dz n).
Notation Sinv := (Sinv dz en_e d n zi).

(** entry (i, j) of the R-factor, with its exponent *)
Definition rho (s : hst ho) (i j : nat) : R := Rt s i j * p2 (et s i).

Definition red_ok (s : hst ho) (i : nat) : Prop :=
  (forall j, (j < i)%nat -> Rabs (rho s i j) <= delta * rho s j j + theta * rho s i i) /\
  (forall j, i = S j -> delta * (rho s j j * rho s j j) <= rho s i j * rho s i j + rho s i i * rho s i i).

Lemma red_frame s s' k : (forall i, (i < k)%nat -> Rt s' i = Rt s i /\ et s' i = et s i) ->
  forall i, (i < k)%nat -> red_ok s i -> red_ok s' i.
Proof.
  intros H i Hi [H1 H2].
  assert (E : forall a b, (a < k)%nat -> rho s' a b = rho s a b).
  { intros a b Ha. unfold rho. destruct (H a Ha) as [-> ->]. auto. }
  split.
  - intros j Hj. rewrite !E by lia. auto.
  - intros j ->. rewrite !E by lia. auto.
Qed.

Record Linv (k D : nat) (x : hl ho) : Prop := {
  W_L : LOK ho d n D zi x;
  W_S : Sinv k D (lm ho x);
  W_d : forall i, (i < k)%nat -> nth i (ldR ho x) 0 = delta * (Rt (lm ho x) i i * Rt (lm ho x) i i);
  W_e : forall i, (i < k)%nat -> nth i (leR ho x) 0 = delta * Rt (lm ho x) i i;
  W_r : forall i, (i < k)%nat -> red_ok (lm ho x) i
}.

(** replacing the object m by one that agrees on the rows before k *)
Lemma Linv_setm k k' D D' x m : Linv k D x -> (k' <= k)%nat -> HOK ho d n D' zi m -> Sinv k' D' m ->
  (forall i, (i < k')%nat -> Rt m i = Rt (lm ho x) i /\ et m i = et (lm ho x) i) ->
  Linv k' D' (l_setm ho x m).
Proof.
  intros [L S1 Wd We Wr] Hk K S2 F. constructor; auto.
  - eapply LOK_setm; eauto.
  - intros i Hi. cbn. destruct (F i Hi) as [-> _]. apply Wd. lia.
  - intros i Hi. cbn. destruct (F i Hi) as [-> _]. apply We. lia.
  - intros i Hi. cbn. apply (red_frame (lm ho x) m k'); auto. apply Wr. lia.
Qed.

(** ** the tests *)
Lemma verify_true k D x : Linv k D x -> (k < D)%nat ->
  verify_size_reduction ho en_e Pr x k = Some true ->
  forall j, (j < k)%nat -> Rabs (Rt (lm ho x) k j) <=
    sqrt (rs (fun l => Rt (lm ho x) k l * Rt (lm ho x) k l) k (n - k)) * theta +
    nth j (leR ho x) 0 * p2 (et (lm ho x) j - et (lm ho x) k).
Proof.
  intros [L [K _ _ _] Wd We Wr] Hk E. pose proof K as [Sh _ HD _]. pose proof L as [_ L1 L2]. pose proof Sh as [].
  unfold verify_size_reduction in E. rewrite S_n in E.
  destruct (norm_R_row ho en_e (lm ho x) k k n) as [p|] eqn:EN; cbn [obind] in E; [|discriminate].
  assert (FP : fst p = sqrt (rs (fun l => Rt (lm ho x) k l * Rt (lm ho x) k l) k (n - k))).
  { unfold norm_R_row in EN. rewrite (proj2 (Nat.eqb_neq n k)) in EN by lia.
    destruct (dims_nth _ _ _ k S_R) as [E1 LR]; try lia. rewrite E1 in EN. cbn [obind] in EN.
    destruct (hdot ho _ _ k n) as [y|] eqn:Ey; cbn [obind] in EN; [|discriminate].
    apply hdot_real in Ey; try (cR; lia).
    rewrite (nth_error_lt (hre ho (lm ho x)) k 0%Z) in EN by lia. cbn [obind] in EN. injection EN as <-.
    cbn [fst h_sqrt r_hops]. rewrite Ey. reflexivity. }
  match type of E with ofor _ ?f _ = _ => set (F := f) in E end.
  destruct (ofor_inv (fun (i : nat) (ok : bool) => ok = true -> forall j, (j < i)%nat -> Rabs (Rt (lm ho x) k j) <=
     fst p * theta + nth j (leR ho x) 0 * p2 (et (lm ho x) j - et (lm ho x) k)) F k 0%nat true) as [ok [E' H]].
  - intros _ j Hj. lia.
  - intros i ok Hi H. unfold F. destruct ok; cbn [negb]; [|exists false; split; auto; discriminate].
    rewrite (mget_some (h_0 ho) d n) by (auto; lia). cbn [obind].
    rewrite (nth_error_lt (hre ho (lm ho x)) k 0%Z), (nth_error_lt (hre ho (lm ho x)) i 0%Z) by lia. cbn [obind].
    rewrite (nth_error_lt (leR ho x) i (h_0 ho)) by lia. cbn [obind].
    eexists; split; [reflexivity|]. intros Q j Hj. destruct (Nat.eq_dec j i) as [->|N]; [|apply H; auto; lia].
    apply negb_true_iff in Q. cbn [h_gt h_abs h_add h_mul h_mul2 r_hops] in Q. apply rlt_false in Q. exact Q.
  - change (0 + k)%nat with k in H. rewrite E' in E. injection E as ->. rewrite <- FP. auto.
Qed.

Lemma lovasz_true k D x : Linv (S k) D x -> (S k < D)%nat ->
  lovasz_test ho en_e x (S k) = Some true ->
  nth k (ldR ho x) 0 <= (nt (lm ho x) (S k) - rs (fun l => Rt (lm ho x) (S k) l * Rt (lm ho x) (S k) l) 0 k) *
    p2 (2 * et (lm ho x) (S k) - 2 * et (lm ho x) k).
Proof.
  intros [L [K _ _ Qe] Wd We Wr] Hk E. pose proof K as [Sh _ HD _]. pose proof L as [_ L1 L2]. pose proof Sh as [].
  unfold lovasz_test in E.
  rewrite (nth_error_lt (hnb ho (lm ho x)) (S k) (h_0 ho)) in E by lia. cbn [obind] in E.
  replace (S k - 1)%nat with k in E by lia.
  destruct (norm_square_R_row ho en_e (lm ho x) (S k) 0 k) as [p|] eqn:EN; cbn [obind] in E; [|discriminate].
  rewrite (nth_error_lt (hre ho (lm ho x)) k 0%Z) in E by lia. cbn [obind] in E.
  rewrite (nth_error_lt (ldR ho x) k (h_0 ho)) in E by lia. cbn [obind] in E.
  injection E as E. cbn [h_le r_hops h_mul2 h_sub] in E. apply negb_true_iff, rlt_false in E.
  assert (FP : fst p = rs (fun l => Rt (lm ho x) (S k) l * Rt (lm ho x) (S k) l) 0 k /\
               snd p = (2 * et (lm ho x) (S k))%Z).
  { unfold norm_square_R_row in EN. destruct (Nat.eqb_spec k 0) as [->|N].
    - cbn [obind] in EN. rewrite (nth_error_lt (hre ho (lm ho x)) 1 0%Z) in EN by lia. cbn [obind] in EN. injection EN as <-.
      cbn [fst snd]. split; [reflexivity|]. destruct en_e; auto. rewrite Qe by auto. auto.
    - destruct (dims_nth _ _ _ (S k) S_R) as [E1 LR]; try lia. rewrite E1 in EN. cbn [obind] in EN.
      destruct (hdot ho _ _ 0 k) as [y|] eqn:Ey; cbn [obind] in EN; [|discriminate].
      apply hdot_real in Ey; try (cR; lia). rewrite Nat.sub_0_r in Ey.
      rewrite (nth_error_lt (hre ho (lm ho x)) (S k) 0%Z) in EN by lia. cbn [obind] in EN. injection EN as <-.
      cbn [fst snd]. split; [exact Ey|]. destruct en_e; auto. rewrite Qe by auto. auto. }
  destruct FP as [F1 F2]. destruct p as [q1 q2]. cbn [fst snd] in *. subst q1 q2. exact E.
Qed.

(** compute_dR and compute_eR after update_R_last *)
Lemma compute_real k D x m' : LOK ho d n D zi x -> (k < D)%nat -> Sinv (S k) D m' ->
  (forall i, (i < k)%nat -> nth i (ldR ho x) 0 = delta * (Rt m' i i * Rt m' i i)) ->
  (forall i, (i < k)%nat -> nth i (leR ho x) 0 = delta * Rt m' i i) ->
  (forall i, (i <= k)%nat -> red_ok m' i) ->
  exists x1 x2, compute_dR ho Pr (l_setm ho x m') k = Some x1 /\ compute_eR ho Pr x1 k = Some x2 /\
    lm ho x2 = m' /\ Linv (S k) D x2.
Proof.
  intros L Hk S1 Hd He Hr. pose proof S1 as [K _ _ _]. pose proof K as [_ _ HD _].
  assert (L0 : LOK ho d n D zi (l_setm ho x m')) by (eapply LOK_setm; eauto).
  destruct (compute_dR_K ho Pr d n D zi (l_setm ho x m') k L0) as [x1 [E1 [X1 M1]]]; try lia.
  destruct (compute_eR_K ho Pr d n D zi x1 k X1) as [x2 [E2 [X2 M2]]]; try lia.
  exists x1, x2. split; auto. split; auto.
  assert (M : lm ho x2 = m') by (rewrite M2, M1; reflexivity). split; auto.
  pose proof K as [[] _ _ _]. destruct L as [_ LD LE]. destruct X1 as [_ LD1 LE1].
  unfold compute_dR in E1. rewrite (mget_some (h_0 ho) d n) in E1 by (auto; cbn; lia). cbn [obind] in E1.
  cbn [l_setm ldR] in E1. rewrite (nth_error_lt (ldR ho x) k (h_0 ho)) in E1 by lia. cbn [obind] in E1. injection E1 as E1.
  unfold compute_eR in E2. rewrite M1 in E2. cbn [l_setm lm] in E2. rewrite (mget_some (h_0 ho) d n) in E2 by (auto; lia). cbn [obind] in E2.
  rewrite (nth_error_lt (leR ho x1) k (h_0 ho)) in E2 by lia. cbn [obind] in E2. injection E2 as E2.
  assert (ED : ldR ho x2 = upd (ldR ho x) k (delta * (Rt m' k k * Rt m' k k))) by (rewrite <- E2, <- E1; reflexivity).
  assert (EE : leR ho x2 = upd (leR ho x) k (delta * Rt m' k k)) by (rewrite <- E2, <- E1; reflexivity).
  constructor; auto; rewrite ?M; auto.
  - intros i Hi. rewrite ED. destruct (Nat.eq_dec i k) as [->|N].
    + rewrite nth_upd_eq; auto. cR; lia.
    + rewrite nth_upd_neq by auto. apply Hd. lia.
  - intros i Hi. rewrite EE. destruct (Nat.eq_dec i k) as [->|N].
    + rewrite nth_upd_eq; auto. cR; lia.
    + rewrite nth_upd_neq by auto. apply He. lia.
  - intros i Hi. apply Hr. lia.
Qed.

Definition Final (x : hl ho) : Prop :=
  forall i, (i < d)%nat -> row_ok (lm ho x) i /\ done_ok (lm ho x) i /\ red_ok (lm ho x) i.

(** the state at the head of the main loop *)
Definition Head (x : hl ho) (v : hv ho) : Prop :=
  let k := vk ho v in let D := S (vkmax ho v) in
  (1 <= k < D)%nat /\ Linv k D x /\ row_ok (lm ho x) k /\ pre (lm ho x) k /\
  length (vpR ho v) = d /\ length (vpE ho v) = d.

Lemma advance_real x v : let k := vk ho v in let D := S (vkmax ho v) in
  (1 <= k < D)%nat -> Linv k D x -> row_ok (lm ho x) k -> fresh (lm ho x) k -> hupd ho (lm ho x) = false ->
  length (vpR ho v) = d -> length (vpE ho v) = d ->
  verify_size_reduction ho en_e Pr x k = Some true -> lovasz_test ho en_e x k = Some true ->
  exists x' v' o, hlll_advance ho en_e Pr x v = Some (x', v', o) /\
    match o with Some HSuccess => Final x' | Some _ => True | None => Head x' v' end.
Proof.
  intros k D Hk LI RK FR HU P1 P2 EV EL. pose proof LI as [L SI Wd We Wr]. pose proof SI as [K _ QD Qe]. pose proof K as [_ _ HD _].
  pose proof (verify_true k D x LI ltac:(lia) EV) as VT.
  destruct k as [|k'] eqn:Ek; [lia|]. pose proof (lovasz_true k' D x LI ltac:(lia) EL) as LT.
  destruct (update_R_last_real dz en_e d n Hdn zi D (lm ho x) (S k')) as [m [E1 [S1 [RK1 [U1 [RKK [RKL [RI [EI [BI NK]]]]]]]]]]; auto; try lia.
  set (s := lm ho x) in *. set (k1 := S k') in *.
  assert (FRM : forall i, (i < k1)%nat -> Rt m i = Rt s i /\ et m i = et s i).
  { intros i Hi. split; [apply RI; lia|apply EI]. }
  assert (RED : red_ok m k1).
  { assert (PE : forall a, 0 < p2 (et s a)) by (intros; apply p2_pos).
    split.
    - intros j Hj. unfold rho. rewrite !EI, (RKL j), (RI j) by lia. specialize (VT j Hj). rewrite We in VT by lia.
      rewrite RKK. rewrite Rabs_mult, (Rabs_pos_eq (p2 _)) by (left; auto).
      apply (Rmult_le_compat_r (p2 (et s k1))) in VT; [|left; auto].
      eapply Rle_trans; [exact VT|]. right. unfold Z.sub. rewrite p2_add.
      pose proof (p2_opp (et s k1)) as PO.
      replace ((sqrt (rs (fun l => Rt s k1 l * Rt s k1 l) k1 (n - k1)) * theta + delta * Rt s j j * (p2 (et s j) * p2 (- et s k1))) * p2 (et s k1))
        with (sqrt (rs (fun l => Rt s k1 l * Rt s k1 l) k1 (n - k1)) * theta * p2 (et s k1) + delta * Rt s j j * p2 (et s j) * (p2 (- et s k1) * p2 (et s k1))) by ring.
      rewrite PO. ring.
    - intros j Ej. injection Ej as <-. unfold rho. rewrite !EI, (RKL k'), (RI k') by (unfold k1; lia).
      rewrite Wd in LT by (unfold k1; lia).
      assert (NB : nt s k1 = rs (fun l => Rt s k1 l * Rt s k1 l) 0 n).
      { destruct RK as [_ ->]. rewrite <- (ah_inner n (vt dz s) (st dz s) k1); [|unfold k1 in *; lia|].
        - apply rs_ext. intros l Hl. destruct FR as [FR _]. rewrite FR by lia. reflexivity.
        - intros j Hj. destruct (QD j Hj) as [[LO _] _]. exact LO. }
      rewrite NB in LT. rewrite (rs_at _ k' n) in LT by (unfold k1 in *; lia).
      assert (SQ : Rt m k1 k1 * Rt m k1 k1 = rs (fun l => Rt s k1 l * Rt s k1 l) k1 (n - k1)).
      { rewrite RKK. apply sqrt_sqrt. apply rs_nonneg. intros. nra. }
      replace (n - k')%nat with (S (n - k1)) in LT by (unfold k1 in *; lia). cbn [rs] in LT. fold k1 in LT. rewrite <- SQ in LT.
      replace (2 * et s k1 - 2 * et s k')%Z with (et s k1 + et s k1 + (- et s k' + - et s k'))%Z in LT by lia.
      rewrite !p2_add in LT. pose proof (p2_opp (et s k')) as PO.
      apply (Rmult_le_compat_r (p2 (et s k') * p2 (et s k'))) in LT; [|left; apply Rmult_lt_0_compat; auto].
      eapply Rle_trans; [right|eapply Rle_trans; [exact LT|right]]; [ring|].
      set (a := p2 (- et s k')) in *. set (b := p2 (et s k')) in *.
      match goal with |- (?u + (?w + ?q) - ?u) * (?c * ?c * (a * a)) * (b * b) = _ =>
        replace ((u + (w + q) - u) * (c * c * (a * a)) * (b * b)) with ((w + q) * (c * c) * (a * b) * (a * b)) by ring end.
      rewrite PO. ring. }
  unfold hlll_advance. change (vk ho v) with k. rewrite Ek. fold k1. fold s. rewrite E1. cbn [obind].
  destruct (compute_real k1 D x m) as [x1 [x2 [E2 [E3 [M LI2]]]]]; auto; try lia.
  { intros i Hi. rewrite RI by lia. apply Wd; auto. }
  { intros i Hi. rewrite RI by lia. apply We; auto. }
  { intros i Hi. destruct (Nat.eq_dec i k1) as [->|N]; auto. apply (red_frame s m k1); auto; [lia|apply Wr; lia]. }
  rewrite E2. cbn [obind]. rewrite E3. cbn [obind]. rewrite M.
  pose proof S1 as [KM _ _ _]. pose proof KM as [[] _ _ _].
  rewrite (mget_some (h_0 ho) d n) by (auto; lia). cbn [obind].
  rewrite (nth_error_lt (hre ho m) k1 0%Z) by lia. cbn [obind].
  rewrite (nth_error_lt (vpR ho v) k1 (h_0 ho)), (nth_error_lt (vpE ho v) k1 0%Z) by (cR; lia). cbn [obind].
  destruct (_ && _). { do 3 eexists; split; [reflexivity|]. exact I. }
  rewrite S_d. destruct (Nat.ltb_spec (S k1) d).
  - destruct (Nat.ltb_spec (vkmax ho v) (S k1)).
    + assert (DD : D = S k1) by (unfold D, k1 in *; lia).
      destruct (refresh_R_bf_real dz en_e d n Hdn zi (S k1) D m (S k1)) as [m2 [E4 [K2 [R2 [P4 [D2 [B2 [F2 [Z2 U2]]]]]]]]]; auto; try lia.
      rewrite E4. cbn [obind]. do 3 eexists; split; [reflexivity|]. unfold Head. cbn [vk vkmax vpR vpE].
      replace (Nat.max D (S (S k1))) with (S (S k1)) in K2 by lia.
      split; [lia|]. rewrite !upd_length. split; [|split; [|split; [|split]]]; auto; try (cR; lia).
      * apply (Linv_setm (S k1) (S k1) D); auto.
        { constructor; auto. intros i Hi N. apply B2; auto.
          destruct S1 as [_ QB1 _ _]. apply QB1; lia. }
        intros i Hi. rewrite M. apply F2. lia.
      * unfold pre. cbn [lm l_setm]. rewrite U2, U1, HU. exact P4.
    + assert (RS : row_ok m (S k1)) by (destruct S1 as [_ QB1 _ _]; destruct SI as [_ QB0 _ _]; (assert (O : row_ok s (S k1)) by (apply QB0; unfold D; lia));
        clear - O E1; unfold update_R_last in E1;
        repeat match type of E1 with obind ?e _ = _ => let E := fresh "E" in destruct e as [?|] eqn:E; [cbn [obind] in E1|discriminate] end;
        destruct p as [[? ?] ?]; injection E1 as <-; exact O).
      destruct (refresh_R_real dz en_e d n Hdn zi (S k1) D m (S k1)) as [m2 [E4 [S2 [R2 [_ [P4 [F2 [T2 U2]]]]]]]]; auto; try (unfold D in *; lia).
      rewrite E4. cbn [obind]. do 3 eexists; split; [reflexivity|]. unfold Head. cbn [vk vkmax vpR vpE].
      split; [lia|]. rewrite !upd_length. split; [|split; [|split; [|split]]]; auto; try (cR; lia).
      * apply (Linv_setm (S k1) (S k1) D); auto. { apply S2. }
        intros i Hi. rewrite M. split; [apply F2; lia|apply T2].
      * unfold pre. cbn [lm l_setm]. rewrite U2, U1, HU. exact P4.
  - do 3 eexists; split; [reflexivity|]. intros i Hi. rewrite M. pose proof LI2 as [_ [_ QB2 QD2 _] _ _ Wr2]. rewrite M in *.
    assert (D = d) by lia.
    split; [|split; [apply QD2; lia|apply Wr2; lia]].
    destruct (Nat.eq_dec i (S k1)); [lia|]. apply QB2; lia.
Qed.

Lemma back_real x v : let k := vk ho v in let D := S (vkmax ho v) in
  (1 <= k < D)%nat -> Linv k D x -> row_ok (lm ho x) k -> fresh (lm ho x) k -> hupd ho (lm ho x) = false ->
  length (vpR ho v) = d -> length (vpE ho v) = d ->
  exists x' v', hlll_back ho en_e Pr x v = Some (x', v', None) /\ Head x' v'.
Proof.
  intros k D Hk LI RK FR HU P1 P2. pose proof LI as [L SI Wd We Wr]. pose proof SI as [K _ QD Qe]. pose proof K as [_ _ HD _].
  unfold hlll_back. change (vk ho v) with k. destruct k as [|k'] eqn:Ek; [lia|].
  destruct (hswap_real dz en_e d n Hdn zi D (lm ho x) k') as [m1 [E1 [S1 [RK1 [F1 [V1 [B1 [H1 U1]]]]]]]]; auto; try lia.
  rewrite E1. cbn [obind].
  destruct (Nat.eqb_spec k' 0) as [->|N0].
  - destruct (refresh_R_real dz en_e d n Hdn zi 0 D m1 0) as [m2 [E2 [S2 [R2 [_ [P3 [F2 [T2 U2]]]]]]]]; auto; try lia.
    rewrite E2. cbn [obind].
    destruct (update_R_last_real dz en_e d n Hdn zi D m2 0) as [m3 [E3 [S3 [RK3 [U3 [RKK [RKL [RI [EI [BI NK]]]]]]]]]]; auto; try lia.
    { split; [exact P3|intros; lia]. }
    rewrite E3. cbn [obind].
    destruct (compute_real 0 D x m3) as [x1 [x2 [E4 [E5 [M LI2]]]]]; auto; try (intros; lia).
    { intros i Hi. replace i with 0%nat by lia. split; [intros; lia|discriminate]. }
    rewrite E4. cbn [obind]. rewrite E5. cbn [obind]. rewrite M.
    assert (RS : row_ok m3 1).
    { assert (O1 : row_ok m1 1) by (destruct S1 as [_ QB1 _ _]; apply QB1; lia).
      assert (O2 : row_ok m2 1) by (destruct S2 as [_ QB2 _ _]; apply QB2; lia).
      clear - O2 E3. unfold update_R_last in E3.
      repeat match type of E3 with obind ?e _ = _ => let E := fresh "E" in destruct e as [?|] eqn:E; [cbn [obind] in E3|discriminate] end.
      destruct p as [[? ?] ?]. injection E3 as <-. exact O2. }
    destruct (refresh_R_real dz en_e d n Hdn zi 1 D m3 1) as [m4 [E6 [S4 [R4 [_ [P4 [F4 [T4 U4]]]]]]]]; auto; try lia.
    rewrite E6. cbn [obind]. do 2 eexists; split; [reflexivity|]. unfold Head. cbn [vk vkmax vpR vpE].
    split; [unfold D in *; lia|]. split; [|split; [|split; [|split]]]; auto.
    + apply (Linv_setm 1 1 D); auto. { apply S4. } intros i Hi. rewrite M. split; [apply F4; lia|apply T4].
    + unfold pre. cbn [lm l_setm]. rewrite U4, U3, U2, U1, HU. exact P4.
  - destruct (recover_R_real dz en_e d n Hdn zi D m1 k') as [m2 [E2 [S2 [R2 [P3 [F2 T2]]]]]]; auto; try lia.
    { intros j l Hj Hl. rewrite H1. destruct FR as [_ FH]. rewrite FH by lia.
      unfold ar. rewrite <- B1. apply ah_ext; try lia; auto.
      - intros a b Ha _. unfold vt. destruct (V1 a) as [-> _]; [lia|auto].
      - intros a Ha. destruct (V1 a) as [_ ->]; [lia|auto]. }
    rewrite E2. cbn [obind]. do 2 eexists; split; [reflexivity|]. unfold Head. cbn [vk vkmax vpR vpE].
    split; [unfold D in *; lia|]. split; [|split; [|split; [|split]]]; auto.
    apply (Linv_setm (S k') k' D); auto. { apply S2. }
    intros i Hi. destruct (F1 i Hi) as [<- <-]. split; [apply F2; lia|apply T2].
Qed.

Lemma iter_real srfuel x v : Head x v ->
  exists x' v' o, hlll_iter ho en_e Pr srfuel x v = Some (x', v', o) /\
    match o with Some HSuccess => Final x' | Some _ => True | None => Head x' v' end.
Proof.
  intros [Hk [LI [RK [HP [P1 P2]]]]]. pose proof LI as [L SI Wd We Wr]. pose proof SI as [K _ _ _]. pose proof K as [_ _ HD _].
  unfold hlll_iter.
  destruct (size_reduction_K ho en_e d n _ zi srfuel (lm ho x) (vk ho v) (vk ho v) 0 K) as [m1 [b [E1 M1]]]; try lia.
  rewrite E1. cbn [obind fst snd].
  destruct b; cbn [negb]; [|do 3 eexists; split; [reflexivity|exact I]].
  apply (size_reduction_real dz en_e d n Hdn zi (S (vkmax ho v))) in E1; auto; try lia.
  destruct E1 as [S1 [R1 [F1 [U1 FRM]]]].
  assert (LI1 : Linv (vk ho v) (S (vkmax ho v)) (l_setm ho x m1)) by (eapply Linv_setm; eauto).
  pose proof LI1 as [X1 _ _ _ _].
  destruct (verify_some ho en_e Pr d n _ zi _ (vk ho v) X1) as [ok E2]; try lia. rewrite E2. cbn [obind].
  destruct ok; cbn [negb]; [|do 3 eexists; split; [reflexivity|exact I]].
  destruct (lovasz_some ho en_e d n _ zi _ (vk ho v) X1) as [lt E3]; try lia. rewrite E3. cbn [obind].
  destruct lt.
  - apply advance_real; auto.
  - destruct (back_real (l_setm ho x m1) v) as [x' [v' [E H]]]; auto. exists x', v', None. auto.
Qed.

Lemma loop_real srfuel fuel : forall x v x', Head x v -> hlll_loop ho en_e Pr fuel srfuel x v = Some (x', HSuccess) -> Final x'.
Proof.
  induction fuel; intros x v x' H E; cbn [hlll_loop] in E; [discriminate|].
  destruct (iter_real srfuel x v H) as [x1 [v1 [o [E1 H1]]]]. rewrite E1 in E. cbn [obind fst snd] in E.
  destruct o as [o|]; [|eapply IHfuel; eauto]. injection E as <- ->. exact H1.
Qed.

Lemma init_real junk s : (2 <= d)%nat -> HOK ho d n 0 zi s -> hupd ho s = false -> (forall i, et s i = 0%Z) ->
  exists x v, hlll_init ho en_e Pr junk s = Some (x, v) /\ Head x v.
Proof.
  intros Hd K HU HE. unfold hlll_init. pose proof K as [[] _ _ _].
  assert (S0 : Sinv 0 0 s) by (constructor; auto; intros; lia).
  destruct (refresh_R_bf_real dz en_e d n Hdn zi 0 0 s 0) as [m1 [E1 [K1 [R1 [P1 [D1 [B1 [F1 [Z1 U1]]]]]]]]]; auto; try lia.
  rewrite E1. cbn [obind]. cbn [Nat.max] in K1.
  assert (S1 : Sinv 0 1 m1) by (constructor; auto; intros; lia).
  destruct (update_R_last_real dz en_e d n Hdn zi 1 m1 0) as [m2 [E2 [S2 [RK2 [U2 _]]]]]; auto; try lia.
  { split; [exact P1|intros; lia]. }
  rewrite E2. cbn [obind].
  destruct (compute_real 0 1 (mkhl ho m2 (repeat junk (hd_ ho s)) (repeat junk (hd_ ho s))) m2) as [x1 [x2 [E4 [E5 [M LI2]]]]]; auto; try lia.
  { constructor; cbn; rewrite ?repeat_length; auto. apply S2. }
  { intros i Hi. replace i with 0%nat by lia. split; [intros; lia|discriminate]. }
  change (l_setm ho (mkhl ho m2 (repeat junk (hd_ ho s)) (repeat junk (hd_ ho s))) m2) with (mkhl ho m2 (repeat junk (hd_ ho s)) (repeat junk (hd_ ho s))) in E4.
  rewrite E4. cbn [obind]. rewrite E5. cbn [obind]. rewrite M.
  destruct (refresh_R_bf_real dz en_e d n Hdn zi 1 1 m2 1) as [m3 [E6 [K3 [R3 [P3 [D3 [B3 [F3 [Z3 U3]]]]]]]]]; auto; try lia.
  rewrite E6. cbn [obind]. do 2 eexists; split; [reflexivity|]. unfold Head. cbn [vk vkmax vpR vpE].
  cbn [Nat.max] in K3.
  split; [lia|]. rewrite !repeat_length. split; [|split; [|split; [|split]]]; auto.
  - apply (Linv_setm 1 1 1); auto.
    + constructor; auto. intros i Hi N. apply B3; auto. assert (i = 0%nat) by lia. subst i. auto.
    + intros i Hi. rewrite M. apply F3. lia.
  - unfold pre. cbn [lm l_setm]. rewrite U3, U2, U1, HU. exact P3.
Qed.

End Run.
