(** update_R_naively (householder.cpp:263-370) and is_hlll_reduced
    (hlll.cpp:506-586) in exact real arithmetic. *)
From Coq Require Import List ZArith Reals Lra Lia Arith Bool.
From Verif Require Import Util LatticeSpec NumVectModel MatrixModel MatrixProofs GsoModel GsoFModel GsoProofs
  HouseModel HouseProofs HouseReal HouseRun HlllSpec HlllSpecFacts HlllCheckModel.
Import ListNotations.
Local Open Scope R_scope.

Section N.
Variable dz : R -> R.
Notation ho := (r_hops dz).
Ltac cR := change (HF ho) with R in *.

Lemma naive_last_real i n (r v : list R) : (i < n)%nat -> length r = n -> length v = n ->
  exists (r' v' : list R) (sg : R), naive_last ho i n r v = Some (r', v', sg) /\ length r' = n /\ length v' = n /\
  last_ok n i (en r) (en v') sg (en r' i) /\
  (forall l, (l < i)%nat -> en r' l = en r l).
Proof.
  intros Hi Lr Lv. unfold naive_last. cR.
  destruct (rw2_spec (fun _ x : R => x) 0 i n v r) as [v0 [E0 [L0 N0]]]; try lia. rewrite E0. cbn [obind].
  rewrite (nth_error_lt r i 0) by lia. cbn [obind].
  change (nth i r 0) with (en r i).
  cbn [h_lt0 h_m1 h_1 h_0 h_add h_mul h_ne0 h_sqrt h_div h_neg h_abs r_hops].
  set (sig := if rlt (en r i) 0 then -1 else 1).
  assert (SG : sig = 1 /\ 0 <= en r i \/ sig = -1 /\ en r i < 0).
  { unfold sig. destruct (rlt (en r i) 0) eqn:Q; [apply rlt_true in Q|apply rlt_false in Q]; auto. }
  set (t3 := rs (fun l => en r l * en r l) (S i) (n - S i)).
  assert (E3 : (if (S i =? n)%nat then Some 0 else hdot ho r r (S i) n) = Some t3).
  { destruct (Nat.eqb_spec (S i) n) as [Q|Q].
    - unfold t3. rewrite Q, Nat.sub_diag. reflexivity.
    - destruct (hdot_some ho r r (S i) n) as [x Ex]; cR; try lia. rewrite Ex. f_equal. apply hdot_real in Ex; auto; lia. }
  assert (ED : hdot ho r r i n = Some (en r i * en r i + t3)).
  { destruct (hdot_some ho r r i n) as [x Ex]; cR; try lia. rewrite Ex. f_equal. apply hdot_real in Ex; auto; try lia.
    rewrite Ex. replace (n - i)%nat with (S (n - S i)) by lia. reflexivity. }
  cR. rewrite ED. cbn [obind].
  assert (P3 : 0 <= t3) by (apply rs_nonneg; intros; nra).
  assert (Z3 : t3 = 0 -> forall l, (i < l < n)%nat -> en r l = 0).
  { intros Q l Hl. pose proof (rs_zero_inv (fun l => en r l * en r l) (S i) (n - S i)) as Z.
    specialize (Z (fun l _ => Rle_0_sqr (en r l)) Q l ltac:(lia)). cbn beta in Z. nra. }
  set (s := sqrt (en r i * en r i + t3)) in *.
  assert (S2 : s * s = en r i * en r i + t3) by (apply sqrt_sqrt; nra).
  assert (S0 : 0 <= s) by apply sqrt_pos.
  assert (V0 : forall (a w : list R), length a = n -> length w = n -> (forall l, nth l w 0 = if ((i <=? l) && (l <? n))%nat%bool then 0 else nth l a 0) ->
    forall l, (i <= l < n)%nat -> en w l = 0).
  { intros a w _ _ Hw l Hl. unfold en. rewrite Hw. rewrite (proj2 (Nat.leb_le i l)), (proj2 (Nat.ltb_lt l n)) by lia. auto. }
  destruct (req (en r i + s * sig) 0) eqn:Q1; cbn [negb].
  - apply req_true in Q1.
    assert (X : en r i = 0 /\ s = 0) by (destruct SG as [[Q A]|[Q A]]; rewrite Q in Q1; split; lra).
    destruct X as [X1 X2]. assert (T0 : t3 = 0) by (rewrite X1, X2 in S2; lra).
    destruct (rw2_spec (fun _ _ : R => 0) 0 i n v0 v0) as [v2 [E2 [L2 N2]]]; try lia. rewrite E2. cbn [obind].
    destruct (rw2_spec (fun _ _ : R => 0) 0 i n r r) as [r2 [E4 [L4 N4]]]; try lia. rewrite E4. cbn [obind].
    exists r2, v2, sig. split; auto. split; [lia|]. split; [lia|]. split.
    + unfold en at 3. rewrite N4, Nat.leb_refl, (proj2 (Nat.ltb_lt i n)) by lia. cbn [andb].
      assert (LT : last_ok n i (en r) (en v2) sig (Rabs (en r i))); [|rewrite X1, Rabs_R0 in LT; exact LT].
      apply last_trivial; auto. apply (V0 v0); auto; lia.
    + intros l Hl. unfold en. rewrite N4. destruct (Nat.leb_spec i l); [lia|]. auto.
  - apply req_false in Q1. rewrite E3. cbn [obind].
    destruct (req t3 0) eqn:Q2; cbn [negb].
    + apply req_true in Q2.
      destruct (rw2_spec (fun _ _ : R => 0) 0 i n v0 v0) as [v2 [E2 [L2 N2]]]; try lia. rewrite E2. cbn [obind].
      set (r1 := if rlt (en r i) 0 then upd r i (- en r i) else r).
      assert (L1 : length r1 = n) by (unfold r1; destruct (rlt (en r i) 0); rewrite ?upd_length; auto).
      destruct (rw2_spec (fun _ _ : R => 0) 0 (S i) n r1 r1) as [r2 [E4 [L4 N4]]]; try lia. rewrite E4. cbn [obind].
      exists r2, v2, sig. split; auto. split; [lia|]. split; [lia|]. split.
      * assert (AB : en r2 i = Rabs (en r i)).
        { unfold en at 1. rewrite N4. destruct (Nat.leb_spec (S i) i); [lia|]. cbn [andb]. unfold r1.
          destruct (rlt (en r i) 0) eqn:Q; [apply rlt_true in Q|apply rlt_false in Q].
          - rewrite nth_upd_eq by lia. rewrite Rabs_left by auto. auto.
          - rewrite Rabs_pos_eq by auto. auto. }
        rewrite AB. apply last_trivial; auto. apply (V0 v0); auto; lia.
      * intros l Hl. unfold en. rewrite N4. destruct (Nat.leb_spec (S i) l); [lia|]. cbn [andb]. unfold r1.
        destruct (rlt (en r i) 0); auto. apply nth_upd_neq. lia.
    + apply req_false in Q2.
      set (vi := - t3 / (en r i + s * sig)).
      set (w := sqrt (- (s * sig) * vi)).
      match goal with |- context[rw2 i n ?f (upd v0 i vi) ?b] =>
        destruct (rw2_spec f 0 i n (upd v0 i vi) b) as [v2 [E2 [L2 N2]]]; try (rewrite upd_length; lia) end.
      rewrite E2. cbn [obind].
      destruct (rw2_spec (fun _ _ : R => 0) 0 (S i) n (upd r i (Rabs (- (s * sig)))) r) as [r2 [E4 [L4 N4]]]; try (rewrite ?upd_length; lia).
      rewrite E4. cbn [obind]. rewrite upd_length in L2, L4.
      exists r2, v2, sig. split; auto. split; [lia|]. split; [lia|].
      assert (CM : s * sig = sig * s) by ring.
      assert (M : w <> 0 -> w <> 0 /\ last_ok n i (en r) (en v2) sig s).
      { intros W. apply (last_math dz n i (en r) (en v2) (en r i) t3 s sig w); auto.
        - unfold w, vi. rewrite CM. reflexivity.
        - unfold en at 1. rewrite N2. rewrite Nat.leb_refl, (proj2 (Nat.ltb_lt i n)) by lia. cbn [andb]. rewrite nth_upd_eq by lia.
          rewrite (proj2 (req_false w 0)) by auto. unfold vi. rewrite CM. reflexivity.
        - intros l Hl. unfold en at 1. rewrite N2.
          rewrite (proj2 (Nat.leb_le i l)), (proj2 (Nat.ltb_lt l n)) by lia. cbn [andb].
          rewrite (proj2 (req_false w 0)) by auto. rewrite nth_upd_neq by lia.
          rewrite N0, (proj2 (Nat.leb_le i l)), (proj2 (Nat.ltb_lt l n)) by lia. reflexivity. }
      assert (W : w <> 0).
      { set (vv := fun l => if (l =? i)%nat then - t3 / (en r i + sig * s) / w else en r l / w).
        apply (last_math dz n i (en r) vv (en r i) t3 s sig w); auto.
        - unfold w, vi. rewrite CM. reflexivity.
        - unfold vv. rewrite Nat.eqb_refl. auto.
        - intros l Hl. unfold vv. destruct (Nat.eqb_spec l i); [lia|auto]. }
      destruct (M W) as [_ LO]. split.
      * assert (AB : en r2 i = s).
        { unfold en. rewrite N4. destruct (Nat.leb_spec (S i) i); [lia|]. cbn [andb]. rewrite nth_upd_eq by lia.
          rewrite Rabs_Ropp. destruct SG as [[-> _]|[-> _]].
          - rewrite Rmult_1_r. apply Rabs_pos_eq. auto.
          - replace (s * -1) with (- s) by ring. rewrite Rabs_Ropp. apply Rabs_pos_eq. auto. }
        rewrite AB. exact LO.
      * intros l Hl. unfold en. rewrite N4. destruct (Nat.leb_spec (S i) l); [lia|]. cbn [andb]. apply nth_upd_neq. lia.
Qed.

Variable en_e : bool.
Variable b : list (list Z).
Variable n : nat.
Notation d := (length b).
Hypothesis Hdn : (d <= n)%nat.
Hypothesis Hb : rect n b.

Lemma naive_load_real row e : length row = n -> (en_e = false -> e = 0%Z) ->
  exists r e', naive_load ho en_e n row e = Some (r, e') /\ length r = n /\
    (forall l, (l < n)%nat -> en r l = IZR (nth l row 0%Z) * p2 (- e')) /\
    e' = (if en_e then max_expo (map bits row) else 0)%Z.
Proof.
  intros Lr He.
  assert (Q : naive_load ho en_e n row e = conv_row ho en_e n n row (repeat 0 n) e).
  { unfold naive_load, conv_row. rewrite Lr, !Nat.ltb_irrefl, repeat_length, Nat.ltb_irrefl. cbn [orb].
    rewrite Nat.sub_diag. cbn [repeat app]. rewrite skipn_all2 by (rewrite repeat_length; lia). rewrite !app_nil_r. reflexivity. }
  rewrite Q. destruct (conv_row ho en_e n n row (repeat 0 n) e) as [[r e']|] eqn:E.
  - exists r, e'. split; auto.
    assert (E2 := E). apply (conv_row_real dz en_e d n Hdn) in E2; auto; try lia; [|apply repeat_length].
    destruct E2 as [A B]. split; [|split].
    + unfold conv_row in E. rewrite Lr, !Nat.ltb_irrefl, repeat_length, Nat.ltb_irrefl in E. cbn [orb] in E.
      rewrite Nat.sub_diag in E. cbn [repeat app] in E. rewrite skipn_all2 in E by (rewrite repeat_length; lia).
      destruct en_e; injection E as <- _; rewrite app_nil_r, !map_length, firstn_length; lia.
    + intros l Hl. specialize (A l Hl). rewrite (proj2 (Nat.ltb_lt l n)) in A by lia. rewrite <- A.
      rewrite Rmult_assoc, (Rmult_comm (p2 e')), p2_opp. ring.
    + destruct en_e; [|apply B; auto].
      unfold conv_row in E. rewrite Lr, !Nat.ltb_irrefl, repeat_length, Nat.ltb_irrefl in E. cbn [orb] in E.
      injection E as _ <-. rewrite firstn_all2 by lia. rewrite map_map. reflexivity.
  - exfalso. unfold conv_row in E. rewrite Lr, !Nat.ltb_irrefl, repeat_length, Nat.ltb_irrefl in E. cbn [orb] in E.
    destruct en_e; discriminate.
Qed.

Definition nRt (s : nst ho) (i l : nat) : R := en (nth i (nR ho s) []) l.
Definition nVt (s : nst ho) (i l : nat) : R := en (nth i (nV ho s) []) l.
Definition nst_ (s : nst ho) (i : nat) : R := nth i (nsig ho s) 0.
Definition ebit (i : nat) : Z := (if en_e then max_expo (map bits (nth i b [])) else 0)%Z.
Definition nf (i l : nat) : R := IZR (ent b i l) * p2 (- ebit i).

Record Ninv (k : nat) (s : nst ho) : Prop := {
  n_R : dims d n (nR ho s); n_V : dims d n (nV ho s); n_s : length (nsig ho s) = d; n_e : length (nre ho s) = d;
  n_e0 : en_e = false -> forall i, nth i (nre ho s) 0%Z = 0%Z;
  n_eb : forall i, (i < k)%nat -> nth i (nre ho s) 0%Z = ebit i;
  n_last : forall i, (i < k)%nat -> last_ok n i (ah n (nVt s) (nst_ s) i (nf i)) (nVt s i) (nst_ s i) (nRt s i i);
  n_low : forall i l, (i < k)%nat -> (l < i)%nat -> nRt s i l = ah n (nVt s) (nst_ s) i (nf i) l
}.

Lemma last_ok_ext i f g v sg x : (i < n)%nat -> (forall l, (l < n)%nat -> f l = g l) -> last_ok n i f v sg x -> last_ok n i g v sg x.
Proof.
  intros Hi H [A [B [C [D E]]]]. split; [auto|]. split; [|split; [|split; [auto|]]].
  - rewrite <- (hs_ext n i v sg f g); auto.
  - intros l Hl. rewrite <- (hs_ext n i v sg f g); auto. lia.
  - rewrite E. f_equal. apply rs_ext. intros l Hl. rewrite H by lia. auto.
Qed.

Lemma naive_row_real k s : Ninv k s -> (k < d)%nat ->
  exists s', naive_row ho en_e b n s k = Some s' /\ Ninv (S k) s'.
Proof.
  intros [HR HV Hs He H0 Heb HL Hlo] Hk. unfold naive_row.
  rewrite (nth_error_lt b k []) by lia. cbn [obind]. rewrite (nth_error_lt (nre ho s) k 0%Z) by lia. cbn [obind].
  destruct (dims_nth _ _ _ k HR) as [E1 _]; try lia. rewrite E1. cbn [obind].
  destruct (naive_load_real (nth k b []) (nth k (nre ho s) 0%Z)) as [r [e [E2 [L2 [N2 EE]]]]]; auto.
  rewrite E2. cbn [obind fst snd].
  assert (NF : forall l, (l < n)%nat -> en r l = nf k l).
  { intros l Hl. rewrite N2 by auto. unfold nf, ebit. rewrite <- EE. reflexivity. }
  assert (AP : exists r1 : list R, naive_apply ho n s k r = Some r1 /\ length r1 = n /\
    forall l, (l < n)%nat -> en r1 l = ah n (nVt s) (nst_ s) k (nf k) l).
  { unfold naive_apply.
    match goal with |- exists _, ofor _ ?f _ = _ /\ _ =>
      destruct (ofor_inv (fun j (a : list R) => length a = n /\ forall l, (l < n)%nat -> en a l = ah n (nVt s) (nst_ s) j (nf k) l)
       f k 0%nat r) as [a [E' [X1 X2]]] end.
    - split; auto.
    - intros j q Hj [Lq Nq]. destruct (dims_nth _ _ _ j HV) as [E3 L3]; try lia. rewrite E3. cbn [obind].
      rewrite (nth_error_lt (nsig ho s) j 0) by (cR; lia). cbn [obind].
      destruct (apply_house_some ho n j (nth j (nV ho s) []) (nth j (nsig ho s) 0) q) as [q' [E4 L4]]; auto; try lia.
      exists q'. split; [exact E4|]. split; auto.
      apply apply_house_real in E4; auto; try lia. destruct E4 as [_ N4]. intros l Hl. rewrite N4 by auto. cbn [ah].
      apply hs_ext; auto; lia.
    - exists a. split; [exact E'|]. split; auto. }
  destruct AP as [r1 [E3 [L3 N3]]]. rewrite E3. cbn [obind].
  destruct (dims_nth _ _ _ k HV) as [E4 L4]; try lia. rewrite E4. cbn [obind].
  rewrite (nth_error_lt (nsig ho s) k 0) by (cR; lia). cbn [obind].
  destruct (naive_last_real k n r1 (nth k (nV ho s) [])) as [r' [v' [sg [E5 [L5 [L6 [LO LW]]]]]]]; auto; try lia.
  cR. rewrite E5. cbn [obind]. eexists; split; [reflexivity|].
  set (s' := mkn ho _ _ _ _).
  assert (VN : forall j, (j < k)%nat -> nVt s' j = nVt s j).
  { intros j Hj. unfold nVt, s'. cbn [nV]. rewrite nth_upd_neq by lia. auto. }
  assert (SN : forall j, (j < k)%nat -> nst_ s' j = nst_ s j).
  { intros j Hj. unfold nst_, s'. cbn [nsig]. rewrite nth_upd_neq by lia. auto. }
  assert (RN : forall j, (j < k)%nat -> nRt s' j = nRt s j).
  { intros j Hj. unfold nRt, s'. cbn [nR]. rewrite nth_upd_neq by lia. auto. }
  assert (AN : forall j f l, (j <= k)%nat -> (l < n)%nat -> ah n (nVt s') (nst_ s') j f l = ah n (nVt s) (nst_ s) j f l).
  { intros j f l Hj Hl. apply ah_ext; auto; try lia.
    - intros a m Ha Hm. rewrite VN by lia. auto.
    - intros a Ha. apply SN. lia. }
  pose proof HR as [LR _]. pose proof HV as [LV _].
  assert (VK : nVt s' k = en v') by (unfold nVt, s'; cbn [nV]; rewrite nth_upd_eq by (cR; lia); auto).
  assert (SK : nst_ s' k = sg) by (unfold nst_, s'; cbn [nsig]; rewrite nth_upd_eq by (cR; lia); auto).
  assert (RK : nRt s' k = en r') by (unfold nRt, s'; cbn [nR]; rewrite nth_upd_eq by (cR; lia); auto).
  constructor; unfold s'; cbn [nR nV nsig nre]; rewrite ?upd_length; auto.
  - apply dims_upd; auto.
  - apply dims_upd; auto.
  - intros Q i. destruct (Nat.eq_dec i k) as [->|N].
    + rewrite nth_upd_eq by lia. rewrite EE, Q. auto.
    + rewrite nth_upd_neq by auto. auto.
  - intros i Hi. destruct (Nat.eq_dec i k) as [->|N].
    + rewrite nth_upd_eq by lia. exact EE.
    + rewrite nth_upd_neq by auto. apply Heb. lia.
  - fold s'. intros i Hi. destruct (Nat.eq_dec i k) as [->|N].
    + rewrite VK, SK, RK. apply (last_ok_ext k (en r1)); auto; try lia. intros l Hl. rewrite AN, N3; auto.
    + rewrite VN, SN, RN by lia. apply (last_ok_ext i (ah n (nVt s) (nst_ s) i (nf i))); try lia.
      * intros l Hl. rewrite AN; auto; lia.
      * apply HL. lia.
  - fold s'. intros i l Hi Hl. destruct (Nat.eq_dec i k) as [->|N].
    + rewrite RK, AN by lia. rewrite LW by lia. apply N3. lia.
    + rewrite RN, AN by lia. apply Hlo; lia.
Qed.

Lemma naive_all_real junk : exists s, naive_all ho en_e b n (naive_new ho junk d n) = Some s /\ Ninv d s.
Proof.
  unfold naive_all.
  destruct (ofor_inv (fun k s => Ninv k s) (fun i s => naive_row ho en_e b n s i) d 0%nat (naive_new ho junk d n)) as [s [E H]].
  - constructor; unfold naive_new; cbn [nR nV nsig nre]; rewrite ?repeat_length; auto; try (intros; lia).
    + split; [now rewrite repeat_length|]. intros i Hi. rewrite nth_repeat_lt by auto. apply repeat_length.
    + split; [now rewrite repeat_length|]. intros i Hi. rewrite nth_repeat_lt by auto. apply repeat_length.
    + intros _ i. destruct (le_lt_dec d i); [apply nth_overflow; rewrite repeat_length; auto|apply nth_repeat_lt; auto].
  - intros i s Hi H. apply naive_row_real; auto; lia.
  - exists s. split; auto.
Qed.

(** the R-factor it holds *)
Definition nr (s : nst ho) : nat -> nat -> R := tri (nRt s) ebit.

Lemma nr_factor s : Ninv d s -> r_factor n b (nr s).
Proof.
  intros [HR HV Hs He H0 Heb HL Hlo]. apply (tri_r_factor d n b (nVt s) (nst_ s) nf); auto.
  intros i l Hi Hl. unfold nf. rewrite Rmult_assoc, p2_opp. ring.
Qed.

Variable P : hpar ho.
Notation delta := (p_delta ho P : R).
Notation eta := (p_eta ho P : R).
Notation theta := (p_theta ho P : R).

Lemma get_naive_real s i j : Ninv d s -> (i < d)%nat -> (j < n)%nat -> get_naive ho s i j = Some (nRt s i j, ebit i).
Proof.
  intros [HR HV Hs He H0 Heb HL Hlo] Hi Hj. unfold get_naive.
  rewrite (mget_some (h_0 ho) d n) by auto. cbn [obind]. rewrite (nth_error_lt (nre ho s) i 0%Z) by lia. cbn [obind].
  rewrite Heb by auto. reflexivity.
Qed.

Lemma check_size_real s j i : Ninv d s -> (i < j < d)%nat ->
  exists ok, check_size ho P s j i = Some ok /\
    (ok = true <-> Rabs (nr s j i) <= eta * nr s i i + theta * nr s j j).
Proof.
  intros HN Hij. unfold check_size. rewrite !get_naive_real by (auto; lia). cbn [obind fst snd].
  eexists; split; [reflexivity|]. cbn [h_gt h_abs h_mul h_mul2 h_add r_hops].
  rewrite negb_true_iff, rlt_false. unfold nr, tri. rewrite !Nat.leb_refl, (proj2 (Nat.leb_le i j)) by lia.
  set (pj := p2 (ebit j)). assert (Pj : 0 < pj) by apply p2_pos.
  rewrite Rabs_mult, (Rabs_pos_eq pj) by lra.
  unfold Z.sub. rewrite p2_add. fold pj.
  assert (Q : p2 (- ebit j) * pj = 1) by apply p2_opp.
  set (ij := p2 (- ebit j)) in *. set (pi := p2 (ebit i)).
  split; intros H.
  - apply (Rmult_le_compat_r pj) in H; [|lra]. eapply Rle_trans; [exact H|]. right.
    replace ((nRt s j j * theta + nRt s i i * eta * (pi * ij)) * pj) with (nRt s j j * theta * pj + nRt s i i * eta * pi * (ij * pj)) by ring.
    rewrite Q. ring.
  - apply (Rmult_le_reg_r pj); auto. eapply Rle_trans; [exact H|]. right.
    replace ((nRt s j j * theta + nRt s i i * eta * (pi * ij)) * pj) with (nRt s j j * theta * pj + nRt s i i * eta * pi * (ij * pj)) by ring.
    rewrite Q. ring.
Qed.

(** the Lovasz test compares with r_{i+1,i}^2 times 4^(e_i - e_{i+1}) *)
Lemma check_lovasz_real s i : Ninv d s -> (S i < d)%nat ->
  exists ok, check_lovasz ho P s (S i) = Some ok /\
    (ok = true <-> delta * (nr s i i * nr s i i) <=
       nr s (S i) i * nr s (S i) i * p2 (2 * (ebit i - ebit (S i))) + nr s (S i) (S i) * nr s (S i) (S i)).
Proof.
  intros HN Hi. unfold check_lovasz. replace (S i - 1)%nat with i by lia.
  rewrite !get_naive_real by (auto; lia). cbn [obind fst snd].
  eexists; split; [reflexivity|]. cbn [h_gt h_abs h_mul h_mul2 h_add r_hops].
  rewrite negb_true_iff, rlt_false. unfold nr, tri. rewrite !Nat.leb_refl, (proj2 (Nat.leb_le i (S i))) by lia.
  replace (2 * ebit (S i) - 2 * ebit i)%Z with (ebit (S i) + ebit (S i) + (- ebit i + - ebit i))%Z by lia.
  replace (2 * (ebit i - ebit (S i)))%Z with (ebit i + ebit i + (- ebit (S i) + - ebit (S i)))%Z by lia.
  rewrite !p2_add.
  pose proof (p2_opp (ebit i)) as Q0. pose proof (p2_opp (ebit (S i))) as Q1.
  set (a := p2 (ebit i)) in *. set (a' := p2 (- ebit i)) in *. set (c := p2 (ebit (S i))) in *. set (c' := p2 (- ebit (S i))) in *.
  assert (A0 : 0 < a * a) by (apply Rmult_lt_0_compat; apply p2_pos).
  set (x := nRt s i i). set (y := nRt s (S i) i). set (z := nRt s (S i) (S i)).
  assert (E1 : (y * y + z * z * (c * c * (a' * a'))) * (a * a) = y * y * (a * a) + z * z * (c * c) * (a' * a) * (a' * a)) by ring.
  assert (E2 : y * c * (y * c) * (a * a * (c' * c')) + z * c * (z * c) = y * y * (a * a) * (c' * c) * (c' * c) + z * z * (c * c)) by ring.
  rewrite Q0 in E1. rewrite Q1 in E2. rewrite E2. rewrite !Rmult_1_r in *.
  split; intros H.
  - apply (Rmult_le_compat_r (a * a)) in H; [|lra]. rewrite E1 in H. lra.
  - apply (Rmult_le_reg_r (a * a)); auto. rewrite E1. lra.
Qed.

(** a loop that keeps false and sets the result of a test *)
Lemma all_loop (f : nat -> option bool) (Q : nat -> Prop) m : forall a ok0,
  (forall i, (a <= i < a + m)%nat -> exists ok, f i = Some ok /\ (ok = true <-> Q i)) ->
  exists ok, ofor (seq a m) (fun i ok => if negb ok then Some false else f i) ok0 = Some ok /\
    (ok = true <-> ok0 = true /\ forall i, (a <= i < a + m)%nat -> Q i).
Proof.
  induction m; intros a ok0 H.
  - exists ok0. split; [reflexivity|]. split; [intros; split; auto; intros; lia|tauto].
  - cbn [seq ofor]. destruct (H a) as [oka [Ea Qa]]; [lia|].
    destruct ok0; cbn [negb].
    + rewrite Ea. cbn [obind]. destruct (IHm (S a) oka) as [ok [E HQ]]; [intros; apply H; lia|].
      exists ok. split; auto. rewrite HQ, Qa. split.
      * intros [H1 H2]. split; auto. intros i Hi. destruct (Nat.eq_dec i a) as [->|]; auto. apply H2; lia.
      * intros [_ H2]. split; [apply H2; lia|]. intros; apply H2; lia.
    + cbn [obind]. destruct (IHm (S a) false) as [ok [E HQ]]; [intros; apply H; lia|].
      exists ok. split; auto. rewrite HQ. split; intros [H1 _]; discriminate.
Qed.

Definition lovasz_expo (r : nat -> nat -> R) : Prop := forall i, (S i < d)%nat ->
  delta * (r i i * r i i) <= r (S i) i * r (S i) i * p2 (2 * (ebit i - ebit (S i))) + r (S i) (S i) * r (S i) (S i).

Lemma check_all_real s : Ninv d s ->
  exists ok, check_all ho P d s = Some ok /\
    (ok = true <-> weakly_size_reduced eta theta d (nr s) /\ lovasz_expo (nr s)).
Proof.
  intros HN. unfold check_all.
  assert (L1 : forall m a ok0, (a + m <= d)%nat -> exists ok, ofor (seq a m) (fun j ok =>
      ofor (seq 0 j) (fun i ok => if negb ok then Some false else check_size ho P s j i) ok) ok0 = Some ok /\
    (ok = true <-> ok0 = true /\ forall j i, (a <= j < a + m)%nat -> (i < j)%nat -> Rabs (nr s j i) <= eta * nr s i i + theta * nr s j j)).
  { induction m; intros a ok0 H.
    - exists ok0. split; [reflexivity|]. split; [intros; split; auto; intros; lia|tauto].
    - cbn [seq ofor].
      destruct (all_loop (check_size ho P s a) (fun i => Rabs (nr s a i) <= eta * nr s i i + theta * nr s a a) a 0 ok0) as [ok1 [E1 Q1]].
      { intros i Hi. apply check_size_real; auto; lia. }
      rewrite E1. cbn [obind]. destruct (IHm (S a) ok1) as [ok [E Q]]; [lia|]. exists ok. split; auto.
      rewrite Q, Q1. split.
      + intros [[A B] C]. split; auto. intros j i Hj Hi. destruct (Nat.eq_dec j a) as [->|]; [apply B; lia|apply C; lia].
      + intros [A C]. split; [split; auto|]; intros; apply C; lia. }
  destruct (L1 d 0%nat true) as [ok1 [E1 Q1]]; [lia|]. rewrite E1. cbn [obind].
  destruct (all_loop (check_lovasz ho P s) (fun i' => forall i, i' = S i -> delta * (nr s i i * nr s i i) <=
       nr s (S i) i * nr s (S i) i * p2 (2 * (ebit i - ebit (S i))) + nr s (S i) (S i) * nr s (S i) (S i)) (d - 1) 1 ok1) as [ok [E Q]].
  { intros [|i] Hi; [lia|]. destruct (check_lovasz_real s i HN) as [ok [E Q]]; [lia|]. exists ok. split; auto.
    rewrite Q. split; [intros H j Ej; injection Ej as <-; auto|auto]. }
  exists ok. split; [exact E|]. rewrite Q, Q1. split.
  - intros [[_ A] B]. split.
    + intros j i Hij. apply A; lia.
    + intros i Hi. apply (B (S i)); auto; lia.
  - intros [A B]. split; [split; auto; intros; apply A; lia|]. intros i' Hi i ->. apply B. lia.
Qed.

Lemma is_hlll_reduced_real junk : exists r ok, r_factor n b r /\
  is_hlll_reduced ho en_e P junk b n = Some ok /\
  (ok = true <-> weakly_size_reduced eta theta d r /\ lovasz_expo r).
Proof.
  destruct (naive_all_real junk) as [s [E H]]. destruct (check_all_real s H) as [ok [E1 Q]].
  exists (nr s), ok. split; [apply nr_factor; auto|]. split; auto.
  unfold is_hlll_reduced. rewrite E. cbn [obind]. exact E1.
Qed.

End N.
