(** A run of HLLL in exact real arithmetic: what the members R, V, sigma, bf,
    row_expo, R_history and norm_square_b hold (householder.cpp, hlll.cpp). *)
From Coq Require Import List ZArith Reals Lra Lia Arith Bool.
From Verif Require Import Util LatticeSpec NumVectModel MatrixModel MatrixProofs GsoModel GsoFModel GsoProofs
  HouseModel HouseProofs HouseReal.
Import ListNotations.
Local Open Scope R_scope.

(** the first k transformations applied in turn *)
Fixpoint ah (n : nat) (V : nat -> nat -> R) (sg : nat -> R) (k : nat) (f : nat -> R) : nat -> R :=
  match k with 0%nat => f | S k' => hs n k' (V k') (sg k') (ah n V sg k' f) end.

Lemma ah_ext n V W sg tg k : (k <= n)%nat ->
  (forall j l, (j < k)%nat -> (l < n)%nat -> V j l = W j l) -> (forall j, (j < k)%nat -> sg j = tg j) ->
  forall f g, (forall l, (l < n)%nat -> f l = g l) ->
  forall l, (l < n)%nat -> ah n V sg k f l = ah n W tg k g l.
Proof.
  intros Hk HV Hs f g Hf. induction k; intros l Hl; cbn [ah]; auto.
  rewrite (Hs k) by lia. rewrite (hs_ext_v n k (V k) (W k)); try lia; [|intros; apply HV; lia].
  apply hs_ext; try lia. intros; apply IHk; try lia; intros; [apply HV|apply Hs]; lia.
Qed.
Lemma ah_low n V sg k f l : (l < k)%nat -> ah n V sg k f l = ah n V sg (S l) f l.
Proof.
  induction k; intros H; [lia|]. destruct (Nat.eq_dec l k) as [->|N]; auto.
  rewrite <- IHk by lia. cbn [ah]. unfold hs at 1. destruct (Nat.ltb_spec l k); [auto|lia].
Qed.
Lemma ah_inner n V sg k : (k <= n)%nat -> (forall j, (j < k)%nat -> vec_ok n j (V j) (sg j)) ->
  forall f g, rs (fun l => ah n V sg k f l * ah n V sg k g l) 0 n = rs (fun l => f l * g l) 0 n.
Proof.
  intros Hk HV f g. induction k; cbn [ah]; auto.
  rewrite hs_inner; [apply IHk; try lia; intros; apply HV; lia|lia|apply HV; lia].
Qed.
Lemma ah_keep n V sg i k f : (i <= k)%nat -> (forall l, (i <= l < n)%nat -> ah n V sg i f l = 0) ->
  forall l, (l < n)%nat -> ah n V sg k f l = ah n V sg i f l.
Proof.
  intros Hik H. induction k; intros l Hl; [replace i with 0%nat by lia; auto|].
  destruct (Nat.eq_dec i (S k)) as [->|N]; auto. cbn [ah].
  rewrite hs_zero; [apply IHk; auto; lia| |auto].
  intros m Hm. rewrite IHk by lia. apply H. lia.
Qed.

(** row operations only change the row they are applied to *)
Lemma row_addmul_we_other z i j lx e zx e2 z' : row_addmul_we z i j lx e zx e2 = Some z' ->
  forall a, a <> i -> nth a (gb z') [] = nth a (gb z) [].
Proof.
  intros H a Ha.
  assert (T : forall w a b x y w', transform_addmul w a b x y = Some w' -> gb w' = gb w).
  { clear. intros w a b x y w'. unfold transform_addmul. destruct (en_t w); [|intros [= <-]; auto].
    destruct (mrow_addmul_full _ _ _ _); cbn [obind]; [|discriminate].
    destruct (en_i w); [|intros [= <-]; auto].
    destruct (mrow_addmul_full _ _ _ _); cbn [obind]; [|discriminate]. intros [= <-]; auto. }
  assert (M : forall x n M', mrow_addmul (gb z) i j x n = Some M' -> nth a M' [] = nth a (gb z) []).
  { intros x n M'. unfold mrow_addmul. destruct (nth_error _ i); cbn [obind]; [|discriminate].
    destruct (nth_error _ j); cbn [obind]; [|discriminate]. destruct (nv_addmul _ _ _ _); cbn [obind]; [|discriminate].
    intros [= <-]. apply nth_upd_neq. auto. }
  assert (M2 : forall x M', mrow_addmul_full (gb z) i j x = Some M' -> nth a M' [] = nth a (gb z) []).
  { intros x M'. unfold mrow_addmul_full. destruct (nth_error _ i); cbn [obind]; [|discriminate]. apply M. }
  revert H. unfold row_addmul_we, row_add, row_sub, row_addmul_si, row_addmul_si_2exp, row_addmul_2exp.
  repeat match goal with |- context[if ?b then _ else _] => destruct b end;
    intros H; try (injection H as <-; auto; fail);
    repeat match type of H with obind ?e _ = _ => let E := fresh "E" in destruct e eqn:E; cbn [obind] in H; [|discriminate] end;
    injection H as <-;
    repeat match goal with E : transform_addmul _ _ _ _ _ = Some _ |- _ => apply T in E end; cbn [gb set_g] in *; 
    match goal with E : gb _ = _ |- _ => rewrite E end; cbn [gb set_b];
    first [eapply M; eassumption|eapply M2; eassumption].
Qed.

Section Run.
Variable dz : R -> R.
Notation ho := (r_hops dz).
Variable en_e : bool.
Variables d n : nat.
Hypothesis Hdn : (d <= n)%nat.
Variable zi : gz.

Ltac cR := change (HF ho) with R in *.

(** the members as functions *)
Definition Rt (s : hst ho) (i l : nat) : R := en (nth i (hR ho s) []) l.
Definition vt (s : hst ho) (i l : nat) : R := en (nth i (hV ho s) []) l.
Definition bt (s : hst ho) (i l : nat) : R := en (nth i (hbf ho s) []) l.
Definition st (s : hst ho) (i : nat) : R := nth i (hsig ho s) 0.
Definition et (s : hst ho) (i : nat) : Z := nth i (hre ho s) 0%Z.
Definition ht (s : hst ho) (k j l : nat) : R := en (nth j (nth k (hhist ho s) []) []) l.
Definition nt (s : hst ho) (i : nat) : R := nth i (hnb ho s) 0.
Definition ar (s : hst ho) (k i : nat) : nat -> R := ah n (vt s) (st s) k (bt s i).

(** bf[i], row_expo[i] and norm_square_b[i] belong to the current b[i] *)
Definition row_ok (s : hst ho) (i : nat) : Prop :=
  (forall l, (l < n)%nat -> bt s i l * p2 (et s i) = IZR (ent (gb (hz ho s)) i l)) /\
  nt s i = rs (fun l => bt s i l * bt s i l) 0 n.

(** R[i], V[i] and sigma[i] are final *)
Definition done_ok (s : hst ho) (i : nat) : Prop :=
  last_ok n i (ar s i i) (vt s i) (st s i) (Rt s i i) /\
  forall l, (l < i)%nat -> Rt s i l = ar s i i l.

(** R[k] is the row after the transformations of the rows before it, and so is
    its history *)
Definition fresh (s : hst ho) (k : nat) : Prop :=
  (forall l, (l < n)%nat -> Rt s k l = ar s k k l) /\
  (forall j l, (j < k)%nat -> (j <= l < n)%nat -> ht s k j l = ar s (S j) k l).

Record Sinv (k D : nat) (s : hst ho) : Prop := {
  Q_K : HOK ho d n D zi s;
  Q_b : forall i, (i < D)%nat -> i <> k -> row_ok s i;
  Q_d : forall i, (i < k)%nat -> done_ok s i;
  Q_e : en_e = false -> forall i, et s i = 0%Z
}.

(** R[k] before size_reduction(k) *)
Definition pre (s : hst ho) (k : nat) : Prop :=
  if hupd ho s then fresh s k else forall l, (l < n)%nat -> Rt s k l = bt s k l.

Lemma done_frame k s s' : (k <= n)%nat ->
  (forall i, (i < k)%nat -> nth i (hR ho s') [] = nth i (hR ho s) [] /\ nth i (hV ho s') [] = nth i (hV ho s) [] /\
     nth i (hbf ho s') [] = nth i (hbf ho s) [] /\ st s' i = st s i) ->
  forall i, (i < k)%nat -> done_ok s i -> done_ok s' i.
Proof.
  intros Hk H i Hi [H1 H2].
  assert (A : forall l, (l < n)%nat -> ar s' i i l = ar s i i l).
  { intros l Hl. unfold ar. apply ah_ext; auto; try lia.
    - intros j m Hj _. unfold vt. destruct (H j) as [_ [E _]]; try lia. now rewrite E.
    - intros j Hj. apply H. lia.
    - intros m _. unfold bt. destruct (H i) as [_ [_ [E _]]]; try lia. now rewrite E. }
  destruct (H i) as [ER [EV [EB ES]]]; auto.
  split.
  - destruct H1 as [O1 [O2 [O3 [O4 O5]]]]. unfold last_ok, Rt, vt in *. rewrite ER, EV, ES.
    split; [auto|]. split.
    { rewrite <- O2. apply hs_ext; auto; lia. }
    split. { intros l Hl. rewrite <- (O3 l Hl). apply hs_ext; auto; lia. }
    split; auto. rewrite O5. f_equal. apply rs_ext. intros l Hl. rewrite A by lia. auto.
  - intros l Hl. unfold Rt. rewrite ER, A by lia. apply H2; auto.
Qed.

(** ** update_R *)
Lemma update_row_real s k r hist r' hist' : hshape ho d n s -> (k < d)%nat ->
  length r = n -> dims n n hist -> update_row ho s k r hist = Some (r', hist') ->
  (forall l, (l < n)%nat -> en r' l = ah n (vt s) (st s) k (en r) l) /\
  (forall j l, (j < k)%nat -> (j <= l < n)%nat -> en (nth j hist' []) l = ah n (vt s) (st s) (S j) (en r) l).
Proof.
  intros Sh Hk Lr Dh E. unfold update_row in E. pose proof Sh as [].
  match type of E with ofor _ ?f _ = _ => set (F := f) in E end.
  destruct (ofor_inv (fun j (a : list (HF ho) * list (list (HF ho))) => length (fst a) = n /\ dims n n (snd a) /\
     (forall l, (l < n)%nat -> en (fst a) l = ah n (vt s) (st s) j (en r) l) /\
     (forall i l, (i < j)%nat -> (i <= l < n)%nat -> en (nth i (snd a) []) l = ah n (vt s) (st s) (S i) (en r) l))
     F k 0%nat (r, hist)) as [a [E' H]].
  - cbn [fst snd]. split; auto. split; auto. split; auto. intros; lia.
  - intros j [q h] Hj [Lq [Dq [Nq Hq]]]. cbn [fst snd] in *. unfold F.
    destruct (dims_nth _ _ _ j S_V) as [E1 L1]; try lia. rewrite E1. cbn [obind].
    rewrite (nth_error_lt (hsig ho s) j 0) by (cR; lia). cbn [obind].
    destruct (apply_house_some ho n j (nth j (hV ho s) []) (nth j (hsig ho s) 0) q) as [q' [E2 L2]]; auto; try lia.
    rewrite S_n, E2. cbn [obind].
    destruct (dims_nth _ _ _ j Dq) as [E3 L3]; try lia. rewrite E3. cbn [obind].
    destruct (rw2_spec (fun _ x : HF ho => x) 0 j n (nth j h []) q') as [hj [E4 [L4 N4]]]; try (cR; lia).
    rewrite E4. cbn [obind]. eexists; split; [reflexivity|]. cbn [fst snd].
    apply apply_house_real in E2; auto; try lia. destruct E2 as [_ N2].
    assert (NN : forall l, (l < n)%nat -> en q' l = ah n (vt s) (st s) (S j) (en r) l).
    { intros l Hl. rewrite N2 by auto. cbn [ah]. apply hs_ext; auto; lia. }
    split; auto. split. { apply dims_upd; auto. cR; lia. }
    split; auto. intros i l Hi Hl.
    destruct Dq as [Lh _].
    destruct (Nat.eq_dec i j) as [->|N].
    + rewrite nth_upd_eq by (cR; lia). unfold en. rewrite N4.
      rewrite (proj2 (Nat.leb_le j l)), (proj2 (Nat.ltb_lt l n)) by lia. apply NN. lia.
    + rewrite nth_upd_neq by auto. apply Hq; lia.
  - change (0 + k)%nat with k in H. rewrite E' in E. injection E as E. subst a. cbn [fst snd] in H. tauto.
Qed.

Lemma update_R_real D s k : Sinv k D s -> row_ok s k -> pre s k -> (k < D)%nat ->
  exists s', update_R ho s k false = Some s' /\ Sinv k D s' /\ row_ok s' k /\ fresh s' k /\ hupd ho s' = hupd ho s.
Proof.
  intros [K QB QD QE] RK Hp Hk. pose proof K as [Sh Z HD _].
  destruct (update_R_K ho d n D zi s k) as [s' [E [K' U]]]; auto; try lia.
  exists s'. split; auto. unfold update_R in E. unfold pre in Hp.
  destruct (hupd ho s) eqn:EU.
  { injection E as <-. split; [constructor; auto|auto]. }
  pose proof Sh as [].
  destruct (dims_nth _ _ _ k S_R) as [E1 L1]; try lia. rewrite E1 in E. cbn [obind] in E.
  rewrite (nth_error_lt (hhist ho s) k []) in E by lia. cbn [obind] in E.
  destruct (update_row ho s k _ _) as [[r' h']|] eqn:E2; cbn [obind] in E; [|discriminate].
  injection E as <-. pose proof E2 as E2'. apply update_row_real in E2'; auto; try lia.
  2: apply S_hist2; lia.
  destruct E2' as [N1 N2].
  assert (NR : forall i, i <> k -> nth i (upd (hR ho s) k r') [] = nth i (hR ho s) []) by (intros; apply nth_upd_neq; auto).
  split; [|split; [|split]]; auto.
  - constructor; auto. intros i Hi. apply (done_frame k s); auto; [lia|].
    intros j Hj. cbn. repeat split. apply NR. lia.
  - split.
    + intros l Hl. unfold Rt at 1. cbn [hR h_sethist h_setR fst]. rewrite nth_upd_eq by (destruct S_R; cR; lia).
      rewrite N1 by auto. apply ah_ext; auto; try lia; intros; auto.
    + intros j l Hj Hl. unfold ht at 1. cbn [hhist h_sethist h_setR snd].
      rewrite nth_upd_eq by (cR; lia). rewrite N2 by auto.
      apply ah_ext; auto; try lia; intros; auto.
Qed.

(** ** refresh_R_bf *)
Lemma conv_row_real m row old e bf' e' : (m <= n)%nat -> length row = n -> length old = n ->
  conv_row ho en_e n m row old e = Some (bf', e') -> (en_e = false -> e = 0%Z) ->
  (forall l, (l < n)%nat -> en bf' l * p2 e' = if (l <? m)%nat then IZR (nth l row 0%Z) else 0) /\
  (en_e = false -> e' = 0%Z).
Proof.
  intros Hm Lr Lo E He. unfold conv_row in E.
  rewrite (proj2 (Nat.ltb_ge (length row) m)) in E by lia.
  rewrite (proj2 (Nat.ltb_ge (length old) n)) in E by (cR; lia).
  rewrite (proj2 (Nat.ltb_ge n m)) in E by lia. cbn [orb] in E.
  assert (TL : forall (A : list R) l, length A = m -> (l < n)%nat ->
    en (A ++ repeat 0 (n - m) ++ skipn n old) l = if (l <? m)%nat then en A l else 0).
  { intros A l LA Hl. unfold en. destruct (Nat.ltb_spec l m).
    - apply app_nth1. lia.
    - rewrite app_nth2 by lia. rewrite app_nth1 by (rewrite repeat_length; lia).
      apply nth_repeat_lt. lia. }
  assert (NM : forall (A : Type) (f : Z -> A) a0 l, (l < m)%nat -> nth l (map f (firstn m row)) a0 = f (nth l row 0%Z)).
  { intros A f a0 l Hl. rewrite (nth_indep _ a0 (f 0%Z)) by (rewrite map_length, firstn_length; lia).
    rewrite map_nth. f_equal. rewrite <- (firstn_skipn m row) at 2. rewrite app_nth1; auto. rewrite firstn_length. lia. }
  destruct en_e.
  - injection E as <- <-. split; [|discriminate]. intros l Hl. cbn [h_0 r_hops].
    rewrite TL; auto; [|rewrite !map_length, firstn_length; lia].
    set (M := max_expo _).
    destruct (Nat.ltb_spec l m); [|ring]. rewrite map_map. unfold en. rewrite NM by auto.
    cbn [fst snd h_exp h_mul2 r_hops]. set (z := nth l row 0%Z).
    rewrite !Rmult_assoc, <- !p2_add. replace (- bits z + (bits z - M + M))%Z with 0%Z by lia. rewrite p2_0. ring.
  - injection E as <- <-. rewrite He by auto. split; auto. intros l Hl. cbn [h_0 r_hops]. rewrite p2_0.
    rewrite TL; auto; [|rewrite !map_length, firstn_length; lia].
    destruct (Nat.ltb_spec l m); [|ring]. unfold en. rewrite NM by auto. cbn [h_ofZ r_hops]. ring.
Qed.

Lemma refresh_R_bf_real k0 D s k : Sinv k0 D s -> (k <= D)%nat -> (k < d)%nat -> (k0 <= k)%nat ->
  exists s', refresh_R_bf ho en_e s k = Some s' /\ HOK ho d n (Nat.max D (S k)) zi s' /\
    row_ok s' k /\ (forall l, (l < n)%nat -> Rt s' k l = bt s' k l) /\
    (forall i, (i < k0)%nat -> done_ok s' i) /\
    (forall i, i <> k -> row_ok s i -> row_ok s' i) /\
    (forall i, i <> k -> Rt s' i = Rt s i /\ et s' i = et s i) /\
    (en_e = false -> forall i, et s' i = 0%Z) /\ hupd ho s' = hupd ho s.
Proof.
  intros [K QB QD QE] HkD Hkd Hk0.
  destruct (refresh_R_bf_K ho en_e d n D zi s k) as [s' [E [K' U]]]; auto.
  exists s'. split; auto. split; auto. pose proof K as [Sh Z HD _].
  destruct (zinv_facts ho d n D s Sh Z) as [LI [BI [BK RB]]].
  unfold refresh_R_bf in E. pose proof Sh as []. unfold hd_, gd, hn_ in *. cR.
  rewrite (nth_error_lt (irs (hz ho s)) k 0%nat) in E by lia. cbn [obind nkc set_known] in E.
  rewrite (nth_error_lt (gb (hz ho s)) k []) in E by lia. cbn [obind] in E.
  destruct (dims_nth _ _ _ k S_bf Hkd) as [E1 L1]. rewrite E1 in E. cbn [obind] in E.
  rewrite (nth_error_lt (hre ho s) k 0%Z) in E by lia. cbn [obind] in E. rewrite S_n in E.
  set (m := Nat.max (nkc (hz ho s)) (nth k (irs (hz ho s)) 0%nat)) in E.
  assert (Hm : (1 <= m <= n)%nat) by (specialize (BI k Hkd); unfold m; lia).
  destruct (conv_row ho en_e n m _ _ _) as [[bf' e']|] eqn:E2; cbn [obind fst snd] in E; [|discriminate].
  assert (Lrow : length (nth k (gb (hz ho s)) []) = n) by (apply RB; lia).
  assert (Lbf : length bf' = n).
  { destruct (conv_row_some ho en_e n m (nth k (gb (hz ho s)) []) (nth k (hbf ho s) []) (nth k (hre ho s) 0%Z)) as [x [y [E3 L3]]]; auto; try lia.
    assert (Q : Some (x, y) = Some (bf', e')) by (rewrite <- E3; exact E2). injection Q as <- <-. auto. }
  apply conv_row_real in E2; auto; try lia; [|intros Q; apply QE; auto].
  destruct E2 as [C1 C2].
  destruct (dims_nth _ _ _ k S_R Hkd) as [E3 L3]. rewrite E3 in E. cbn [obind] in E.
  destruct (row_from_bf_some ho n m (nth k (hR ho s) []) bf') as [r' [E4 [L4 N4]]]; auto; try lia.
  cR. rewrite E4 in E. cbn [obind] in E. unfold norm_square_b_row in E.
  cbn [h_setR h_setbf h_setz hbf hz nkc set_known hre obind] in E. cR.
  rewrite (@nth_error_lt (list R) (@upd (list R) (hbf ho s) k bf') k []) in E by (rewrite upd_length; destruct S_bf; cR; lia).
  rewrite nth_upd_eq in E by (destruct S_bf; cR; lia). cbn [obind] in E.
  destruct (hdot ho bf' bf' 0 m) as [x|] eqn:Ex; cbn [obind] in E; [|discriminate].
  apply hdot_real in Ex; try lia. rewrite Nat.sub_0_r in Ex.
  rewrite (nth_error_lt (upd (hre ho s) k e') k 0%Z) in E by (rewrite upd_length; lia). cbn [obind] in E.
  rewrite (@nth_error_lt R (hnb ho s) k 0), (nth_error_lt (hnbe ho s) k 0%Z) in E by (cR; lia). cbn [obind fst snd] in E.
  injection E as E.
  assert (ER : hR ho s' = upd (hR ho s) k r') by (rewrite <- E; reflexivity).
  assert (EB : hbf ho s' = upd (hbf ho s) k bf') by (rewrite <- E; reflexivity).
  assert (EE : hre ho s' = upd (hre ho s) k e') by (rewrite <- E; reflexivity).
  assert (EN : hnb ho s' = upd (hnb ho s) k x) by (rewrite <- E; reflexivity).
  assert (EV : hV ho s' = hV ho s) by (rewrite <- E; reflexivity).
  assert (ES : hsig ho s' = hsig ho s) by (rewrite <- E; reflexivity).
  assert (EG : gb (hz ho s') = gb (hz ho s)) by (rewrite <- E; reflexivity).
  clear E.
  assert (B1 : bt s' k = en bf') by (unfold bt; rewrite EB, nth_upd_eq; auto; destruct S_bf; cR; lia).
  assert (B2 : et s' k = e') by (unfold et; rewrite EE, nth_upd_eq; auto; lia).
  assert (B3 : forall i, i <> k -> bt s' i = bt s i /\ et s' i = et s i /\ nt s' i = nt s i /\ Rt s' i = Rt s i).
  { intros i Hi. unfold bt, et, nt, Rt. rewrite EB, EE, EN, ER. rewrite !nth_upd_neq by auto. auto. }
  assert (BZ : forall l, (m <= l < n)%nat -> en bf' l = 0).
  { intros l Hl. specialize (C1 l ltac:(lia)). destruct (Nat.ltb_spec l m); [lia|].
    pose proof (p2_pos e'). apply Rmult_integral in C1. destruct C1; auto. lra. }
  split; [|split; [|split; [|split; [|split; [|split]]]]].
  - split.
    + intros l Hl. rewrite B1, B2, C1 by auto. unfold ent. rewrite EG.
      destruct (Nat.ltb_spec l m); auto. symmetry. f_equal.
      destruct Z as [[] _]. apply (I_tail k l); [cbn; unfold gd; lia|]. cbn. exact H.
    + unfold nt. rewrite EN, nth_upd_eq by (cR; lia). rewrite Ex, B1.
      rewrite (rs_at _ m n) by lia. rewrite (rs_0 _ m); [lra|]. intros l Hl. rewrite BZ by lia. ring.
  - intros l Hl. rewrite B1. unfold Rt. rewrite ER, nth_upd_eq by (destruct S_R; cR; lia).
    unfold en at 1. rewrite N4 by auto. destruct (Nat.ltb_spec l m); auto. cbn [h_0 r_hops]. rewrite BZ by lia. auto.
  - intros i Hi. apply (done_frame k0 s); auto; [lia|]. intros j Hj.
    rewrite EV, ER, EB. unfold st. rewrite ES. rewrite !nth_upd_neq by lia. auto.
  - intros i Hi [H1 H2]. destruct (B3 i Hi) as [-> [-> [-> _]]] || idtac. split.
    + intros l Hl. destruct (B3 i Hi) as [F1 [F2 _]]. rewrite F1, F2, EG. auto.
    + destruct (B3 i Hi) as [F1 [_ [F3 _]]]. rewrite F1, F3. auto.
  - intros i Hi. destruct (B3 i Hi) as [_ [F2 [_ F4]]]. auto.
  - intros Q i. destruct (Nat.eq_dec i k) as [->|N]; [rewrite B2; auto|].
    destruct (B3 i N) as [_ [-> _]]. auto.
  - auto.
Qed.

(** ** size_reduce: only b[k] and R[k] change; nothing if no row was subtracted *)
Definition only_k (k : nat) (s s' : hst ho) : Prop :=
  hbf ho s' = hbf ho s /\ hV ho s' = hV ho s /\ hsig ho s' = hsig ho s /\ hre ho s' = hre ho s /\
  hnb ho s' = hnb ho s /\ hupd ho s' = hupd ho s /\
  (forall i, i <> k -> nth i (hR ho s') [] = nth i (hR ho s) []) /\
  (forall i, i <> k -> nth i (gb (hz ho s')) [] = nth i (gb (hz ho s)) []).

Lemma only_k_trans k s s1 s2 : only_k k s s1 -> only_k k s1 s2 -> only_k k s s2.
Proof.
  intros [A1 [A2 [A3 [A4 [A5 [A6 [A7 A8]]]]]]] [B1 [B2 [B3 [B4 [B5 [B6 [B7 B8]]]]]]].
  repeat split; try congruence; intros i Hi; [rewrite B7, A7|rewrite B8, A8]; auto.
Qed.

Lemma size_reduce_loop_real D k cnt : forall s red s' red', HOK ho d n D zi s -> (k < D)%nat -> (cnt <= k)%nat ->
  size_reduce_loop ho s k 0 cnt red = Some (s', red') ->
  only_k k s s' /\ (red = true -> red' = true) /\ (red' = false -> s' = s).
Proof.
  induction cnt; intros s red s' red' K Hk Hc E; cbn [size_reduce_loop] in E.
  - injection E as <- <-. repeat split; auto.
  - pose proof K as [[] Z HD _]. cbn [Nat.add] in E.
    rewrite !(mget_some (h_0 ho) d n) in E by (auto; lia). cbn [obind] in E.
    rewrite !(fun i H => nth_error_lt (hre ho s) i 0%Z H) in E by lia. cbn [obind] in E.
    destruct (h_sgn ho _); [|apply IHcnt in E; auto; lia].
    match type of E with context[hrow_addmul_we ho s k cnt ?x ?e] => set (xx := x) in E; set (ee := e) in E end.
    destruct (hrow_addmul_we_K ho d n D zi s k cnt xx ee) as [s1 [E1 K1]]; auto; try lia.
    rewrite E1 in E. cbn [obind] in E. apply IHcnt in E; auto; try lia.
    destruct E as [F1 [F2 F3]].
    split; [|split; auto].
    + eapply only_k_trans; [|exact F1]. unfold hrow_addmul_we in E1.
      destruct (row_addmul_we _ _ _ _ _ _ _) as [z'|] eqn:Ez; cbn [obind] in E1; [|discriminate].
      destruct (nth_error (hR ho s) k); cbn [obind] in E1; [|discriminate].
      destruct (nth_error (hR ho s) cnt); cbn [obind] in E1; [|discriminate].
      destruct (R_addmul _ _ _ _ _) as [ri|]; cbn [obind] in E1; [|discriminate].
      injection E1 as <-. repeat split; cbn; intros i Hi; [apply nth_upd_neq; auto|].
      eapply row_addmul_we_other; eauto.
    + intros Q. rewrite F2 in Q by auto. discriminate.
Qed.

Lemma only_k_rows k s s' : only_k k s s' -> forall i, i <> k -> row_ok s i -> row_ok s' i.
Proof.
  intros [A1 [A2 [A3 [A4 [A5 [A6 [A7 A8]]]]]]] i Hi [H1 H2].
  unfold row_ok, bt, et, nt, ent in *. rewrite A1, A4, A5, A8 by auto. auto.
Qed.
Lemma only_k_done k s s' : (k <= n)%nat -> only_k k s s' -> forall i, (i < k)%nat -> done_ok s i -> done_ok s' i.
Proof.
  intros Hk [A1 [A2 [A3 [A4 [A5 [A6 [A7 A8]]]]]]]. apply done_frame; auto.
  intros i Hi. unfold st. rewrite A1, A2, A3, A7 by lia. auto.
Qed.

Lemma size_reduction_loop_real D k : forall fuel s pns s', Sinv k D s -> row_ok s k -> fresh s k -> (k < D)%nat ->
  hupd ho s = false ->
  size_reduction_loop ho en_e fuel s k k 0 pns = Some (s', true) ->
  Sinv k D s' /\ row_ok s' k /\ fresh s' k /\ hupd ho s' = false /\
  (forall i, (i < k)%nat -> Rt s' i = Rt s i /\ et s' i = et s i).
Proof.
  induction fuel; intros s pns s' SI RK FR Hk HU E; cbn [size_reduction_loop] in E; [discriminate|].
  pose proof SI as [K QB QD QE]. pose proof K as [_ _ HD _].
  destruct (size_reduce_K ho d n D zi s k k 0) as [s1 [red [E1 K1]]]; auto; try lia. rewrite E1 in E. cbn [obind] in E.
  unfold size_reduce in E1. rewrite Nat.sub_0_r in E1.
  destruct (size_reduce_loop ho s k 0 k false) as [[t r]|] eqn:E2; cbn [obind] in E1; [|discriminate].
  apply (size_reduce_loop_real D) in E2; auto. destruct E2 as [OK [_ SAME]].
  injection E1 as Et Er. subst r.
  destruct red; cbn [negb] in E.
  2: { injection E as <-. rewrite SAME in Et by auto. subst s1. auto 10. }
  assert (OK1 : only_k k s s1) by (rewrite <- Et; exact OK). clear OK SAME Et t.
  assert (S1 : Sinv k D s1).
  { constructor; auto.
    - intros i Hi N. eapply only_k_rows; eauto.
    - intros i Hi. apply (only_k_done k s s1); auto. lia.
    - intros Q i. destruct OK1 as [_ [_ [_ [A4 _]]]]. unfold et. rewrite A4. apply QE; auto. }
  pose proof K1 as [[] _ _ _].
  rewrite (nth_error_lt (hnb ho s1) k 0), (nth_error_lt (hnbe ho s1) k 0%Z) in E by (cR; lia). cbn [obind] in E.
  destruct (refresh_R_bf_real k D s1 k) as [s2 [E2 [K2 [R2 [P2 [D2 [B2 [F2 [Z2 U2]]]]]]]]]; auto; try lia.
  rewrite E2 in E. cbn [obind] in E. replace (Nat.max D (S k)) with D in K2 by lia.
  assert (S2 : Sinv k D s2).
  { constructor; auto. intros i Hi N. apply B2; auto. apply S1; auto. }
  assert (UU : hupd ho s2 = false). { rewrite U2. destruct OK1 as [_ [_ [_ [_ [_ [-> _]]]]]]. auto. }
  destruct (update_R_real D s2 k) as [s3 [E3 [S3 [R3 [FR3 U3]]]]]; auto.
  { unfold pre. rewrite UU. auto. }
  pose proof K2 as [[] _ _ _].
  rewrite (nth_error_lt (hnb ho s2) k 0), (nth_error_lt (hnbe ho s2) k 0%Z) in E by (cR; lia). cbn [obind] in E.
  rewrite E3 in E. cbn [obind] in E.
  assert (FR13 : forall i, (i < k)%nat -> Rt s3 i = Rt s i /\ et s3 i = et s i).
  { intros i Hi. destruct (F2 i) as [G1 G2]; [lia|].
    assert (Rt s3 i = Rt s2 i /\ et s3 i = et s2 i) as [G3 G4].
    { clear - E3 UU Hi. unfold update_R in E3. rewrite UU in E3.
      repeat match type of E3 with obind ?e _ = _ => let E := fresh "E" in destruct e as [?|] eqn:E; [cbn [obind] in E3|discriminate] end.
      injection E3 as <-. unfold Rt, et. cbn. rewrite nth_upd_neq by lia. auto. }
    destruct OK1 as [_ [_ [_ [A4 [_ [_ [A7 _]]]]]]].
    rewrite G3, G4, G1, G2. unfold Rt, et. rewrite A4, A7 by lia. auto. }
  destruct (_ || _).
  - apply IHfuel in E; auto; try congruence. destruct E as [X1 [X2 [X3 [X4 X5]]]]. split; auto. split; auto. split; auto. split; auto.
    intros i Hi. destruct (X5 i Hi) as [-> ->]. apply FR13; auto.
  - injection E as <-. split; auto. split; auto. split; auto. split; [congruence|auto].
Qed.

Lemma size_reduction_real D k fuel s s' : Sinv k D s -> row_ok s k -> pre s k -> (k < D)%nat ->
  size_reduction ho en_e fuel s k k 0 = Some (s', true) ->
  Sinv k D s' /\ row_ok s' k /\ fresh s' k /\ hupd ho s' = false /\
  (forall i, (i < k)%nat -> Rt s' i = Rt s i /\ et s' i = et s i).
Proof.
  intros SI RK HP Hk E. unfold size_reduction in E.
  destruct (update_R_real D s k) as [s1 [E1 [S1 [R1 [F1 _]]]]]; auto. rewrite E1 in E. cbn [obind] in E.
  assert (FR : forall i, (i < k)%nat -> Rt s1 i = Rt s i /\ et s1 i = et s i).
  { intros i Hi. clear - E1 Hi. unfold update_R in E1. destruct (hupd ho s); [injection E1 as <-; auto|].
    repeat match type of E1 with obind ?e _ = _ => let E := fresh "E" in destruct e as [?|] eqn:E; [cbn [obind] in E1|discriminate] end.
    injection E1 as <-. unfold Rt, et. cbn. rewrite nth_upd_neq by lia. auto. }
  apply (size_reduction_loop_real D) in E; auto.
  - destruct E as [X1 [X2 [X3 [X4 X5]]]]. split; auto. split; auto. split; auto. split; auto.
    intros i Hi. destruct (X5 i Hi) as [-> ->]. apply FR; auto.
  - destruct S1 as [[[] ? ? ?] ? ? ?]. constructor; auto. constructor; auto. constructor; auto.
Qed.

(** ** update_R_last *)
Lemma update_R_last_real D s k : Sinv k D s -> row_ok s k -> fresh s k -> (k < D)%nat ->
  exists s', update_R_last ho s k = Some s' /\ Sinv (S k) D s' /\ row_ok s' k /\ hupd ho s' = hupd ho s /\
    Rt s' k k = sqrt (rs (fun l => Rt s k l * Rt s k l) k (n - k)) /\
    (forall l, l <> k -> Rt s' k l = Rt s k l) /\
    (forall i, i <> k -> Rt s' i = Rt s i) /\ (forall i, et s' i = et s i) /\
    (forall i, bt s' i = bt s i) /\ nkc (hz ho s') = nkc (hz ho s).
Proof.
  intros [K QB QD QE] RK [FR _] Hk. pose proof K as [Sh Z HD _].
  destruct (update_R_last_K ho d n D zi s k) as [s' [E K']]; auto; try lia.
  destruct (update_R_last_some ho d n s k) as [r' [v' [sg [E1 [L1 [L2 E2]]]]]]; auto; try lia.
  exists s'. split; auto. rewrite E in E2. injection E2 as E2.
  pose proof Sh as [].
  destruct (dims_nth _ _ _ k S_R) as [_ LR]; try lia. destruct (dims_nth _ _ _ k S_V) as [_ LV]; try lia.
  apply last_row_real in E1; auto; try lia. destruct E1 as [_ [_ [LO NR]]].
  assert (ER : hR ho s' = upd (hR ho s) k r') by (rewrite E2; reflexivity).
  assert (EV : hV ho s' = upd (hV ho s) k v') by (rewrite E2; reflexivity).
  assert (ES : hsig ho s' = upd (hsig ho s) k sg) by (rewrite E2; reflexivity).
  assert (EB : hbf ho s' = hbf ho s) by (rewrite E2; reflexivity).
  assert (EE : hre ho s' = hre ho s) by (rewrite E2; reflexivity).
  assert (EN : hnb ho s' = hnb ho s) by (rewrite E2; reflexivity).
  assert (EU : hupd ho s' = hupd ho s) by (rewrite E2; reflexivity).
  assert (EG : gb (hz ho s') = gb (hz ho s)) by (rewrite E2; reflexivity).
  assert (EC : nkc (hz ho s') = nkc (hz ho s)) by (rewrite E2; reflexivity).
  clear E2.
  assert (B0 : forall i, bt s' i = bt s i) by (intros; unfold bt; rewrite EB; auto).
  assert (T0 : forall i, et s' i = et s i) by (intros; unfold et; rewrite EE; auto).
  assert (RO : forall i, row_ok s i -> row_ok s' i).
  { intros i [H1 H2]. unfold row_ok, nt in *. rewrite EN, B0, T0, EG. auto. }
  assert (V1 : vt s' k = en v') by (unfold vt; rewrite EV, nth_upd_eq; auto; destruct S_V; cR; lia).
  assert (S1 : st s' k = sg) by (unfold st; rewrite ES, nth_upd_eq; auto; cR; lia).
  assert (R1 : Rt s' k = en r') by (unfold Rt; rewrite ER, nth_upd_eq; auto; destruct S_R; cR; lia).
  assert (R2 : forall i, i <> k -> Rt s' i = Rt s i) by (intros; unfold Rt; rewrite ER, nth_upd_neq; auto).
  assert (A : forall l, (l < n)%nat -> ar s' k k l = Rt s k l).
  { intros l Hl. rewrite FR by auto. unfold ar. apply ah_ext; auto; try lia.
    - intros j m Hj Hm. unfold vt. rewrite EV, nth_upd_neq by lia. auto.
    - intros j Hj. unfold st. rewrite ES, nth_upd_neq by lia. auto.
    - intros m Hm. rewrite B0. auto. }
  assert (DK : done_ok s' k).
  { split.
    - destruct LO as [O1 [O2 [O3 [O4 O5]]]]. unfold last_ok. rewrite V1, S1, R1. split; auto.
      split. { rewrite <- O2. apply hs_ext; auto; lia. }
      split. { intros l Hl. rewrite <- (O3 l Hl). apply hs_ext; auto; lia. }
      split; auto. rewrite O5. f_equal. apply rs_ext. intros l Hl. rewrite A by lia. auto.
    - intros l Hl. rewrite A, R1 by lia. apply NR. lia. }
  split; [|split; [|split; [|split; [|split; [|split; [|split; [|split]]]]]]]; auto.
  - constructor; auto.
    + intros i Hi N. destruct (Nat.eq_dec i k) as [->|N2]; auto.
    + intros i Hi. destruct (Nat.eq_dec i k) as [->|N]; auto.
      apply (done_frame k s); auto; try lia; [|apply QD; lia]. intros j Hj.
      unfold st. rewrite ER, EV, ES, EB. rewrite !nth_upd_neq by lia. auto.
    + intros Q i. rewrite T0. auto.
  - rewrite R1. destruct LO as [_ [_ [_ [_ O5]]]]. exact O5.
  - intros l Hl. rewrite R1. apply NR; auto.
Qed.

(** ** refresh_R *)
Lemma tail_zero D s i l : HOK ho d n D zi s -> row_ok s i -> (i < D)%nat ->
  (nkc (hz ho s) <= l < n)%nat -> bt s i l = 0.
Proof.
  intros [Sh [[] _] HD _] [H1 _] Hi Hl. specialize (H1 l ltac:(lia)).
  pose proof (I_src i l) as T. cbn in T. unfold ent in H1. unfold ent in T. rewrite T in H1 by lia.
  pose proof (p2_pos (et s i)). apply Rmult_integral in H1. destruct H1; auto. lra.
Qed.

Lemma refresh_R_real k0 D s k : Sinv k0 D s -> row_ok s k -> (k < D)%nat -> (k0 <= k)%nat ->
  exists s', refresh_R ho s k = Some s' /\ Sinv k0 D s' /\ row_ok s' k /\ (row_ok s k0 -> row_ok s' k0) /\
    (forall l, (l < n)%nat -> Rt s' k l = bt s' k l) /\
    (forall i, i <> k -> Rt s' i = Rt s i) /\ (forall i, et s' i = et s i) /\ hupd ho s' = hupd ho s.
Proof.
  intros [K QB QD QE] RK Hk Hk0. pose proof K as [Sh Z HD _].
  destruct (refresh_R_K ho d n D zi s k) as [s' [E K']]; auto; try lia.
  exists s'. split; auto. unfold refresh_R in E. pose proof Sh as [].
  destruct (zinv_facts ho d n D s Sh Z) as [LI [BI [BK RB]]].
  destruct (dims_nth _ _ _ k S_R) as [E1 L1]; try lia. destruct (dims_nth _ _ _ k S_bf) as [E2 L2]; try lia.
  rewrite E1, E2 in E. cbn [obind] in E. rewrite S_n in E.
  destruct (row_from_bf_some ho n (nkc (hz ho s)) (nth k (hR ho s) []) (nth k (hbf ho s) [])) as [r' [E4 [L4 N4]]]; auto.
  rewrite E4 in E. cbn [obind] in E. injection E as E.
  assert (ER : hR ho s' = upd (hR ho s) k r') by (rewrite <- E; reflexivity).
  assert (EV : hV ho s' = hV ho s) by (rewrite <- E; reflexivity).
  assert (ES : hsig ho s' = hsig ho s) by (rewrite <- E; reflexivity).
  assert (EB : hbf ho s' = hbf ho s) by (rewrite <- E; reflexivity).
  assert (EE : hre ho s' = hre ho s) by (rewrite <- E; reflexivity).
  assert (EN : hnb ho s' = hnb ho s) by (rewrite <- E; reflexivity).
  assert (EU : hupd ho s' = hupd ho s) by (rewrite <- E; reflexivity).
  assert (EG : gb (hz ho s') = gb (hz ho s)) by (rewrite <- E; reflexivity).
  clear E.
  assert (RO : forall i, row_ok s i -> row_ok s' i).
  { intros i [H1 H2]. unfold row_ok, nt, bt, et in *. rewrite EN, EB, EE, EG. auto. }
  split; [|split; [|split; [|split; [|split; [|split]]]]]; auto.
  - constructor; auto.
    + intros i Hi. apply (done_frame k0 s); auto; try lia. intros j Hj.
      unfold st. rewrite ER, EV, ES, EB. rewrite !nth_upd_neq by lia. auto.
    + intros Q i. unfold et. rewrite EE. apply QE; auto.
  - intros l Hl. unfold Rt, bt. rewrite ER, EB, nth_upd_eq by (destruct S_R; cR; lia).
    unfold en at 1. change (0 : R) with (h_0 ho). rewrite N4 by auto.
    destruct (Nat.ltb_spec l (nkc (hz ho s))); auto.
    symmetry. apply (tail_zero D s k l); auto.
  - intros i Hi. unfold Rt. rewrite ER, nth_upd_neq; auto.
  - intros i. unfold et. rewrite EE. auto.
Qed.

(** ** swap and recover_R *)
Lemma hswap_real D s k : Sinv (S k) D s -> row_ok s (S k) -> (S k < D)%nat ->
  exists s', hswap ho en_e s k (S k) = Some s' /\ Sinv k D s' /\ row_ok s' k /\
    (forall i, (i < k)%nat -> Rt s' i = Rt s i /\ et s' i = et s i) /\
    (forall i, (i < k)%nat -> nth i (hV ho s') [] = nth i (hV ho s) [] /\ st s' i = st s i) /\
    bt s' k = bt s (S k) /\ ht s' k = ht s (S k) /\ hupd ho s' = hupd ho s.
Proof.
  intros [K QB QD QE] RK Hk. pose proof K as [Sh Z HD _].
  destruct (hswap_K ho en_e d n D zi s k (S k)) as [s' [E K']]; auto; try lia.
  exists s'. split; auto. unfold hswap in E. pose proof Sh as [].
  destruct (swap_Z D (hz ho s) k (S k) Z) as [z' [Ez [_ [_ [_ [_ [NG _]]]]]]]; try lia.
  rewrite Ez in E. cbn [obind] in E.
  destruct S_bf as [Lb Cb].
  destruct (oswap_len (hbf ho s) k (S k)) as [bf' [E1 [L1 N1]]]; try lia. rewrite E1 in E. cbn [obind] in E.
  destruct (oswap_len (hsig ho s) k (S k)) as [sg' [E2 [L2 N2]]]; try lia. rewrite E2 in E. cbn [obind] in E.
  assert (E3 : exists re', (if en_e then oswap (hre ho s) k (S k) else Some (hre ho s)) = Some re' /\
     forall a, (a < d)%nat -> nth a re' 0%Z = nth (tr k (S k) a) (hre ho s) 0%Z).
  { destruct en_e.
    - destruct (oswap_len (hre ho s) k (S k)) as [x [E3 [L3 N3]]]; try lia. exists x. split; auto. intros; apply N3; lia.
    - exists (hre ho s). split; auto. intros a Ha. change (et s a = et s (tr k (S k) a)). rewrite !QE; auto. }
  destruct E3 as [re' [E3 N3]]. rewrite E3 in E. cbn [obind] in E.
  destruct (oswap_len (hhist ho s) k (S k)) as [hi' [E4 [L4 N4]]]; try lia. rewrite E4 in E. cbn [obind] in E.
  destruct (oswap_len (hnb ho s) k (S k)) as [nb' [E5 [L5 N5]]]; try lia. rewrite E5 in E. cbn [obind] in E.
  destruct (oswap_len (hnbe ho s) k (S k)) as [ne' [E6 [L6 _]]]; try lia. rewrite E6 in E. cbn [obind] in E.
  injection E as E.
  assert (EG : gb (hz ho s') = gb z') by (rewrite <- E; reflexivity).
  assert (EB : hbf ho s' = bf') by (rewrite <- E; reflexivity).
  assert (ES : hsig ho s' = sg') by (rewrite <- E; reflexivity).
  assert (EE : hre ho s' = re') by (rewrite <- E; reflexivity).
  assert (EH : hhist ho s' = hi') by (rewrite <- E; reflexivity).
  assert (EN : hnb ho s' = nb') by (rewrite <- E; reflexivity).
  assert (ER : hR ho s' = hR ho s) by (rewrite <- E; reflexivity).
  assert (EV : hV ho s' = hV ho s) by (rewrite <- E; reflexivity).
  assert (EU : hupd ho s' = hupd ho s) by (rewrite <- E; reflexivity).
  clear E.
  assert (GD : gd (hz ho s) = d) by exact S_d.
  assert (RO : forall i, (i < D)%nat -> row_ok s' i).
  { intros i Hi. assert (O : row_ok s (tr k (S k) i)).
    { destruct (Nat.eq_dec (tr k (S k) i) (S k)) as [->|N]; auto. apply QB; auto. apply tr_lt; lia. }
    destruct O as [H1 H2]. split.
    - intros l Hl. unfold bt, et, ent. rewrite EB, EE, EG, N1, N3, NG by lia. apply H1; auto.
    - unfold nt, bt. rewrite EN, EB, N1, N5 by (cR; lia). exact H2. }
  assert (TL : forall i, (i < k)%nat -> tr k (S k) i = i).
  { intros i Hi. unfold tr. destruct (Nat.eqb_spec i k); [lia|]. destruct (Nat.eqb_spec i (S k)); [lia|auto]. }
  assert (TK : tr k (S k) k = S k) by (unfold tr; rewrite Nat.eqb_refl; auto).
  assert (SL : forall i, (i < k)%nat -> st s' i = st s i).
  { intros i Hi. unfold st. rewrite ES, N2 by (cR; lia). rewrite TL; auto. }
  split; [|split; [|split; [|split; [|split; [|split]]]]]; auto.
  - constructor; auto.
    + intros i Hi. apply (done_frame k s); [lia| |auto|apply QD; lia].
      intros j Hj. rewrite ER, EV, EB, N1, TL by (cR; lia). auto.
    + intros Q i. unfold et. destruct (Nat.lt_ge_cases i d).
      * rewrite EE, N3 by auto. apply QE; auto.
      * apply nth_overflow. destruct K' as [[] _ _ _]. lia.
  - apply RO. lia.
  - intros i Hi. unfold Rt, et. rewrite ER, EE, N3, TL by lia. auto.
  - intros i Hi. rewrite EV. auto.
  - unfold bt. rewrite EB, N1, TK by (cR; lia). auto.
  - unfold ht. rewrite EH, N4, TK by (cR; lia). auto.
Qed.

Lemma recover_R_real D s k : Sinv k D s -> row_ok s k -> (1 <= k < D)%nat ->
  (forall j l, (j < k)%nat -> (j <= l < n)%nat -> ht s k j l = ar s (S j) k l) ->
  exists s', recover_R ho s k = Some s' /\ Sinv k D s' /\ row_ok s' k /\ pre s' k /\
    (forall i, i <> k -> Rt s' i = Rt s i) /\ (forall i, et s' i = et s i).
Proof.
  intros [K QB QD QE] RK Hk HH. pose proof K as [Sh Z HD _].
  destruct (recover_R_K ho d n D zi s k) as [s' [E K']]; auto; try lia.
  exists s'. split; auto. unfold recover_R in E. destruct k as [|k]; [lia|]. pose proof Sh as [].
  rewrite (nth_error_lt (hhist ho s) (S k) []) in E by lia. cbn [obind] in E.
  destruct (dims_nth _ _ _ (S k) S_R) as [E1 L1]; try lia. rewrite E1 in E. cbn [obind] in E.
  assert (Dh : dims n n (nth (S k) (hhist ho s) [])) by (apply S_hist2; lia).
  destruct (ofor_inv (fun (j : nat) (r : list (HF ho)) => length r = n /\ forall l, (l < j)%nat -> en r l = ht s (S k) l l)
     (fun k0 r => x <- mget (nth (S k) (hhist ho s) []) k0 k0;; _ <- nth_error r k0;; Some (upd r k0 x)) k 0%nat (nth (S k) (hR ho s) []))
     as [r1 [E2 [L2 N2]]]; auto.
  { split; auto. intros; lia. }
  { intros j r Hj [Lr Nr]. rewrite (mget_some (h_0 ho) n n) by (auto; lia). cbn [obind].
    rewrite (nth_error_lt r j (h_0 ho)) by lia. cbn [obind]. eexists; split; [reflexivity|]. split; [now rewrite upd_length|].
    intros l Hl. unfold en. destruct (Nat.eq_dec l j) as [->|N].
    - rewrite nth_upd_eq by (cR; lia). reflexivity.
    - rewrite nth_upd_neq by auto. apply Nr. lia. }
  rewrite E2 in E. cbn [obind] in E.
  destruct (dims_nth _ _ _ k Dh) as [E3 L3]; try lia. rewrite E3 in E. cbn [obind] in E. rewrite S_n in E.
  destruct (rw2_spec (fun _ x : HF ho => x) (h_0 ho) k n r1 (nth k (nth (S k) (hhist ho s) []) [])) as [r2 [E4 [L4 N4]]]; try lia.
  rewrite E4 in E. cbn [obind] in E. injection E as E.
  assert (ER : hR ho s' = upd (hR ho s) (S k) r2) by (rewrite <- E; reflexivity).
  assert (EV : hV ho s' = hV ho s) by (rewrite <- E; reflexivity).
  assert (ES : hsig ho s' = hsig ho s) by (rewrite <- E; reflexivity).
  assert (EB : hbf ho s' = hbf ho s) by (rewrite <- E; reflexivity).
  assert (EE : hre ho s' = hre ho s) by (rewrite <- E; reflexivity).
  assert (EN : hnb ho s' = hnb ho s) by (rewrite <- E; reflexivity).
  assert (EH : hhist ho s' = hhist ho s) by (rewrite <- E; reflexivity).
  assert (EU : hupd ho s' = true) by (rewrite <- E; reflexivity).
  assert (EG : gb (hz ho s') = gb (hz ho s)) by (rewrite <- E; reflexivity).
  clear E.
  assert (RO : forall i, row_ok s i -> row_ok s' i).
  { intros i [H1 H2]. unfold row_ok, nt, bt, et in *. rewrite EN, EB, EE, EG. auto. }
  assert (AR : forall j, ar s' j (S k) = ar s j (S k)).
  { intros j. unfold ar, vt, st, bt. rewrite EV, ES, EB. reflexivity. }
  split; [|split; [|split; [|split]]]; auto.
  - constructor; auto.
    + intros i Hi. apply (done_frame (S k) s); auto; try lia. intros j Hj.
      unfold st. rewrite ER, EV, ES, EB. rewrite !nth_upd_neq by lia. auto.
    + intros Q i. unfold et. rewrite EE. apply QE; auto.
  - unfold pre. rewrite EU. split.
    + intros l Hl. rewrite AR. unfold Rt. rewrite ER, nth_upd_eq by (destruct S_R; cR; lia).
      specialize (N4 l). cR. change (h_0 ho) with 0 in N4. unfold en. rewrite N4. rewrite (proj2 (Nat.ltb_lt l n)) by auto. rewrite andb_true_r.
      destruct (Nat.leb_spec k l).
      * apply (HH k l); lia.
      * change (en r1 l = ar s (S k) (S k) l). rewrite N2 by lia. rewrite HH by lia.
        unfold ar. symmetry. apply ah_low. lia.
    + intros j l Hj Hl. rewrite AR. unfold ht. rewrite EH. apply HH; auto.
  - intros i Hi. unfold Rt. rewrite ER, nth_upd_neq; auto.
  - intros i. unfold et. rewrite EE. auto.
Qed.

End Run.
