(** C51, C56: BKZ loop control and failure reporting. *)
From Coq Require Import List ZArith Lia Arith Bool.
From Verif Require Import BkzLoop.
Import ListNotations.
Local Open Scope Z_scope.

(** ** C51 *)
Lemma loop_bound par tour timeout slope L : p_loops par = Some (Z.of_nat L) ->
  forall fuel i a, (i <= L)%nat -> (L - i < fuel)%nat ->
  exists r n, bkz_loop par tour timeout slope fuel i a = Some (r, n) /\ (n <= L)%nat.
Proof.
  intros HL. induction fuel; intros i a Hi HF; [lia|]. cbn [bkz_loop]. rewrite HL.
  destruct (Z.leb_spec (Z.of_nat L) (Z.of_nat i)); [eauto|].
  destruct (p_time par && timeout i); [exists (inl STime), i; split; auto; lia|].
  destruct (if abort_on par then _ else _) as [a' stop].
  destruct stop; [exists (inl SSuccess), i; split; auto; lia|].
  destruct (tour i) as [| |[s|]]; cbn [orb].
  - exists (inl SSuccess), (S i). split; auto; lia.
  - destruct (p_rows par <=? p_block par); [exists (inl SSuccess), (S i); split; auto; lia|]. apply IHfuel; lia.
  - exists (inr (Returned (SRed s))), (S i). split; auto; lia.
  - exists (inr Escaped), (S i). split; auto; lia.
Qed.
(** With BKZ_MAX_LOOPS the call ends, whatever tours, clock and slopes do, and at most max_loops tours are started. *)
Theorem bkz_max_loops : forall par tour timeout slope post L,
  p_loops par = Some (Z.of_nat L) ->
  exists o n, bkz par tour timeout slope (S L) post = Some (o, n) /\ (n <= L)%nat.
Proof.
  intros par tour timeout slope post L HL. unfold bkz.
  destruct (p_sd par && p_sld par); [exists Escaped, O; split; auto; lia|].
  destruct (p_block par <? 2); [exists (Returned SSuccess), O; split; auto; lia|].
  destruct (loop_bound par tour timeout slope L HL (S L) 0 ab0) as [r [n [E Hn]]]; try lia.
  rewrite E. destruct r; eexists _, n; split; eauto.
Qed.

(** number of listed values below the current minimum *)
Definition below (vals : list Z) (o : Z) : nat := length (filter (fun v => v <? o) vals).
Lemma below_le vals o o' : o' <= o -> (below vals o' <= below vals o)%nat.
Proof.
  intros H. unfold below. induction vals as [|v t IH]; auto. cbn [filter].
  destruct (Z.ltb_spec v o'); destruct (Z.ltb_spec v o); cbn [length]; lia.
Qed.
Lemma below_lt vals o o' : In o' vals -> o' < o -> (below vals o' < below vals o)%nat.
Proof.
  intros HI H. unfold below. induction vals as [|v t IH]; [contradiction|].
  pose proof (below_le t o o' ltac:(lia)) as X. unfold below in X. cbn [filter].
  destruct (Z.ltb_spec v o'); destruct (Z.ltb_spec v o); cbn [length]; try lia.
  - destruct HI as [->|HI]; [lia|]. specialize (IH HI). lia.
  - destruct HI as [->|HI]; [lia|]. auto.
Qed.
Lemma below_all vals o : (below vals o <= length vals)%nat.
Proof. unfold below. induction vals as [|v t IH]; cbn; auto. destruct (v <? o); cbn; lia. Qed.

Lemma abort_ends par tour timeout slope K vals : abort_on par = true -> p_nodec par = Z.of_nat K ->
  (forall y, 0 <= y -> p_scale par y <= y) -> (forall i, 0 <= slope i) -> (forall i, In (slope i) vals) ->
  forall fuel i o nd, 0 <= o -> 0 <= nd -> nd < Z.of_nat K \/ (K = 0)%nat ->
  (below vals o * S K + (K - Z.to_nat nd) < fuel)%nat ->
  exists r n, bkz_loop par tour timeout slope fuel i {| a_old := Some o; a_nodec := nd |} = Some (r, n) /\ (n < i + fuel)%nat.
Proof.
  intros HA HK HS HP HV. induction fuel; intros i o nd Ho Hnd HB HF; [lia|]. cbn [bkz_loop].
  destruct (match p_loops par with Some m => m <=? Z.of_nat i | None => false end); [exists (inl SLoops), i; split; auto; lia|].
  destruct (p_time par && timeout i); [exists (inl STime), i; split; auto; lia|].
  rewrite HA. unfold test_abort. cbn [a_old a_nodec]. rewrite HK.
  replace (nd =? -1) with false by (symmetry; apply Z.eqb_neq; lia). cbn [orb].
  set (o' := Z.min o (slope i)).
  assert (Ho' : 0 <= o') by (unfold o'; specialize (HP i); lia).
  destruct (Z.ltb_spec (slope i) (p_scale par o)) as [Hlt|Hge].
  - (* new minimum *)
    specialize (HS o Ho).
    destruct (Z.leb_spec (Z.of_nat K) 0) as [Hs|Hs]; [exists (inl SSuccess), i; split; auto; lia|].
    assert (E : o' = slope i) by (unfold o'; lia).
    assert (X : (below vals o' < below vals o)%nat) by (rewrite E; apply below_lt; [apply HV|lia]).
    destruct (tour i) as [| |[s|]]; cbn [orb].
    + eexists (inl SSuccess), (S i); split; auto; lia.
    + destruct (p_rows par <=? p_block par); [exists (inl SSuccess), (S i); split; auto; lia|].
      destruct (IHfuel (S i) o' 0) as [r [n [E1 Hn]]]; auto; try lia. { nia. }
      exists r, n. split; auto; lia.
    + eexists (inr (Returned (SRed s))), (S i); split; auto; lia.
    + eexists (inr Escaped), (S i); split; auto; lia.
  - pose proof (below_le vals o o' ltac:(unfold o'; lia)) as X.
    destruct (Z.leb_spec (Z.of_nat K) (nd + 1)) as [Hs|Hs]; [exists (inl SSuccess), i; split; auto; lia|].
    destruct (tour i) as [| |[s|]]; cbn [orb].
    + eexists (inl SSuccess), (S i); split; auto; lia.
    + destruct (p_rows par <=? p_block par); [exists (inl SSuccess), (S i); split; auto; lia|].
      destruct (IHfuel (S i) o' (nd + 1)) as [r [n [E1 Hn]]]; auto; try lia. { nia. }
      exists r, n. split; auto; lia.
    + eexists (inr (Returned (SRed s))), (S i); split; auto; lia.
    + eexists (inr Escaped), (S i); split; auto; lia.
Qed.
(** With auto abort, slopes from a finite set of non-negative values (the doubles are such a set) and a
    scale not above 1, the loop ends by itself after a bounded number of tours. *)
Theorem bkz_auto_abort : forall par tour timeout slope post K vals,
  abort_on par = true -> p_nodec par = Z.of_nat K ->
  (forall y, 0 <= y -> p_scale par y <= y) -> (forall i, 0 <= slope i) -> (forall i, In (slope i) vals) ->
  exists o n, bkz par tour timeout slope ((length vals + 1) * (K + 1) + 1) post = Some (o, n) /\
    (n <= (length vals + 1) * (K + 1))%nat.
Proof.
  intros par tour timeout slope post K vals HA HK HS HP HV. unfold bkz.
  destruct (p_sd par && p_sld par); [exists Escaped, O; split; auto; lia|].
  destruct (p_block par <? 2); [exists (Returned SSuccess), O; split; auto; lia|].
  assert (M : exists r n, bkz_loop par tour timeout slope ((length vals + 1) * (K + 1) + 1) 0 ab0 = Some (r, n) /\
     (n <= (length vals + 1) * (K + 1))%nat).
  { rewrite Nat.add_1_r. set (F := ((length vals + 1) * (K + 1))%nat). cbn [bkz_loop].
    destruct (match p_loops par with Some m => m <=? Z.of_nat 0 | None => false end); [exists (inl SLoops), O; split; auto; lia|].
    destruct (p_time par && timeout O); [exists (inl STime), O; split; auto; lia|].
    rewrite HA. unfold test_abort, ab0. cbn [a_old a_nodec Z.eqb Pos.eqb orb]. rewrite HK.
    assert (FP : (1 <= F)%nat) by (unfold F; nia).
    destruct (Z.leb_spec (Z.of_nat K) 0) as [Hs|Hs]; [exists (inl SSuccess), O; split; auto; lia|].
    destruct (tour O) as [| |[s|]]; cbn [orb].
    - exists (inl SSuccess), 1%nat; split; auto; lia.
    - destruct (p_rows par <=? p_block par); [exists (inl SSuccess), 1%nat; split; auto; lia|].
      destruct (abort_ends par tour timeout slope K vals HA HK HS HP HV F 1 (slope O) 0) as [r [n [E Hn]]]; auto; try lia.
      { pose proof (below_all vals (slope O)). unfold F. nia. }
      exists r, n. split; auto; lia.
    - exists (inr (Returned (SRed s))), 1%nat; split; auto; lia.
    - exists (inr Escaped), 1%nat; split; auto; lia. }
  destruct M as [r [n [E Hn]]]. rewrite E. destruct r; eexists _, n; split; eauto.
Qed.

(** The two conditions are necessary: with a scale above 1, or with a scale below 1 and negative values
    of -slope (a profile that increases), the test never fires although the slope never changes. *)
Definition mkpar (scale : Z -> Z) : bkz_par :=
  {| p_block := 10; p_rows := 20; p_loops := None; p_time := false; p_abort := true; p_scale := scale; p_nodec := 5;
     p_sd := false; p_sld := false |}.
Lemma const_never scale c : c < scale c -> forall fuel i, bkz_loop (mkpar scale) (fun _ => TDirty) (fun _ => false) (fun _ => c) fuel i
   {| a_old := Some c; a_nodec := 0 |} = None.
Proof.
  intros Hc. induction fuel; intros i; auto. cbn [bkz_loop mkpar p_loops p_time p_abort p_sd abort_on orb andb p_scale p_nodec p_rows p_block].
  unfold test_abort. cbn [a_old a_nodec Z.eqb orb]. replace (c <? scale c) with true by (symmetry; apply Z.ltb_lt; auto).
  change (5 <=? 0) with false. cbn iota. change (20 <=? 10) with false. cbn [orb]. rewrite Z.min_id. apply IHfuel.
Qed.
Theorem bkz_auto_abort_scale_refuted :
  exists par tour timeout slope, abort_on par = true /\ p_nodec par = 5 /\ (forall i, slope i = 1000) /\
    (forall y, p_scale par y = 11 * y / 10) /\ forall fuel post, bkz par tour timeout slope fuel post = None.
Proof.
  exists (mkpar (fun y => 11 * y / 10)), (fun _ => TDirty), (fun _ => false), (fun _ => 1000).
  do 4 (split; [reflexivity|]). intros fuel post. unfold bkz. cbn [mkpar p_sd p_sld andb p_block].
  change (10 <? 2) with false. cbn iota.
  assert (X : bkz_loop (mkpar (fun y => 11 * y / 10)) (fun _ => TDirty) (fun _ => false) (fun _ => 1000) fuel 0 ab0 = None).
  { destruct fuel; auto. apply (const_never (fun y => 11 * y / 10) 1000 ltac:(reflexivity)). }
  rewrite X. auto.
Qed.
Theorem bkz_auto_abort_negative_refuted :
  exists par tour timeout slope, abort_on par = true /\ p_nodec par = 5 /\ (forall i, slope i = -1000) /\
    (forall y, p_scale par y = 9 * y / 10) /\ forall fuel post, bkz par tour timeout slope fuel post = None.
Proof.
  exists (mkpar (fun y => 9 * y / 10)), (fun _ => TDirty), (fun _ => false), (fun _ => -1000).
  do 4 (split; [reflexivity|]). intros fuel post. unfold bkz. cbn [mkpar p_sd p_sld andb p_block].
  change (10 <? 2) with false. cbn iota.
  assert (X : bkz_loop (mkpar (fun y => 9 * y / 10)) (fun _ => TDirty) (fun _ => false) (fun _ => -1000) fuel 0 ab0 = None).
  { destruct fuel; auto. apply (const_never (fun y => 9 * y / 10) (-1000) ltac:(reflexivity)). }
  rewrite X. auto.
Qed.

(** A tour that changes nothing ends the reduction with success. *)
Lemma clean_loop par tour timeout slope k : p_loops par = None -> p_time par = false -> abort_on par = false ->
  (forall i, (i < k)%nat -> tour i = TDirty) -> tour k = TClean -> p_block par < p_rows par ->
  forall fuel i a, (i <= k)%nat -> (k - i < fuel)%nat -> bkz_loop par tour timeout slope fuel i a = Some (inl SSuccess, S k).
Proof.
  intros H1 H2 H3 HD HC HB. induction fuel; intros i a Hi HF; [lia|]. cbn [bkz_loop]. rewrite H1, H2, H3. cbn [andb].
  destruct (Nat.eq_dec i k) as [->|Hn]; [rewrite HC; reflexivity|].
  rewrite HD by lia. cbn [orb]. replace (p_rows par <=? p_block par) with false by (symmetry; apply Z.leb_gt; auto).
  apply IHfuel; lia.
Qed.
Theorem bkz_clean_tour_ends : forall par tour timeout slope k,
  2 <= p_block par -> p_block par < p_rows par -> p_sd par = false -> p_sld par = false ->
  p_loops par = None -> p_time par = false -> p_abort par = false ->
  (forall i, (i < k)%nat -> tour i = TDirty) -> tour k = TClean ->
  forall post, bkz par tour timeout slope (S k) post = Some (Returned SSuccess, S k).
Proof.
  intros par tour timeout slope k HB HR H1 H2 H3 H4 H5 HD HC post. unfold bkz. rewrite H1, H2. cbn [andb orb].
  replace (p_block par <? 2) with false by (symmetry; apply Z.ltb_ge; auto).
  rewrite (clean_loop par tour timeout slope k); auto; try lia. unfold abort_on. rewrite H5, H1. reflexivity.
Qed.
(** The status is success only if a stop criterion holds: block size below 2, auto abort, a clean last tour, or a block
    covering the whole basis. *)
Lemma success_loop par tour timeout slope : forall fuel i a n,
  bkz_loop par tour timeout slope fuel i a = Some (inl SSuccess, n) ->
  (i <= n)%nat /\ (abort_on par = true \/ (exists m, n = S m /\ (tour m = TClean \/ (tour m = TDirty /\ p_rows par <= p_block par)))).
Proof.
  induction fuel; intros i a n H; [discriminate|]. cbn [bkz_loop] in H.
  destruct (match p_loops par with Some m => m <=? Z.of_nat i | None => false end); [discriminate|].
  destruct (p_time par && timeout i); [discriminate|].
  destruct (abort_on par) eqn:EA.
  - split; [|auto]. destruct (test_abort _ _ _ _) as [a' stop]. destruct stop; [injection H as <-; auto|].
    destruct (tour i) as [| |[s|]]; cbn [orb] in H; try discriminate.
    + injection H as <-. lia.
    + destruct (p_rows par <=? p_block par); [injection H as <-; lia|]. destruct (IHfuel _ _ _ H). lia.
  - destruct (tour i) as [| |[s|]] eqn:ET; cbn [orb] in H; try discriminate.
    + injection H as <-. split; [lia|]. right. exists i. auto.
    + destruct (Z.leb_spec (p_rows par) (p_block par)).
      * injection H as <-. split; [lia|]. right. exists i. auto.
      * destruct (IHfuel _ _ _ H) as [X Y]. split; [lia|auto].
Qed.
Theorem bkz_success_reason : forall par tour timeout slope fuel post n,
  bkz par tour timeout slope fuel post = Some (Returned SSuccess, n) ->
  p_block par < 2 \/ abort_on par = true \/
  (exists m, n = S m /\ (tour m = TClean \/ (tour m = TDirty /\ p_rows par <= p_block par))).
Proof.
  intros par tour timeout slope fuel post n H. unfold bkz in H.
  destruct (p_sd par && p_sld par); [discriminate|].
  destruct (Z.ltb_spec (p_block par) 2); [auto|].
  destruct (bkz_loop par tour timeout slope fuel 0 ab0) as [[[s|o] k]|] eqn:E; [| |discriminate].
  - assert (s = SSuccess /\ k = n) as [-> ->].
    { destruct (p_sd par || p_sld par); [destruct post as [[|]|]|]; injection H; intros; subst; auto; try discriminate. }
    right. destruct (success_loop _ _ _ _ _ _ _ _ E) as [_ X]. auto.
  - injection H as -> ->. exfalso. clear -E. revert E. generalize (0%nat) ab0. induction fuel; intros i a E; [discriminate|].
    cbn [bkz_loop] in E. repeat match type of E with (if ?c then _ else _) = _ => destruct c; [discriminate|] end.
    destruct (if abort_on par then _ else _) as [a' stop]. destruct stop; [discriminate|].
    destruct (tour i) as [| |[s|]]; cbn [orb] in E; try discriminate.
    destruct (p_rows par <=? p_block par); [discriminate|]. eauto.
Qed.

(** ** C56: failures inside a tour *)
(** LLL failures inside a tour are thrown as std::runtime_error but only RedStatus is caught: the exception leaves bkz()
    and the status field still says RED_SUCCESS. *)
Theorem bkz_failure_status_refuted :
  exists par tour timeout slope fuel post n,
    tour O = TThrow ERuntime /\ bkz par tour timeout slope fuel post = Some (Escaped, n) /\
    status_field Escaped = SSuccess.
Proof.
  exists (mkpar (fun y => y)), (fun _ => TThrow ERuntime), (fun _ => false), (fun _ => 7), 3%nat, None, 1%nat.
  repeat split.
Qed.
(** in general: whenever the loop reaches a tour that throws a runtime_error, the exception escapes *)
Theorem bkz_runtime_error_escapes : forall par tour timeout slope k,
  2 <= p_block par -> p_block par < p_rows par -> p_sd par = false -> p_sld par = false ->
  p_loops par = None -> p_time par = false -> p_abort par = false ->
  (forall i, (i < k)%nat -> tour i = TDirty) -> tour k = TThrow ERuntime ->
  forall post, bkz par tour timeout slope (S k) post = Some (Escaped, S k).
Proof.
  intros par tour timeout slope k HB HR H1 H2 H3 H4 H5 HD HC post. unfold bkz. rewrite H1, H2. cbn [andb orb].
  replace (p_block par <? 2) with false by (symmetry; apply Z.ltb_ge; auto).
  assert (A : abort_on par = false) by (unfold abort_on; rewrite H5, H1; reflexivity).
  assert (X : forall fuel i a, (i <= k)%nat -> (k - i < fuel)%nat -> bkz_loop par tour timeout slope fuel i a = Some (inr Escaped, S k)).
  { induction fuel; intros i a Hi HF; [lia|]. cbn [bkz_loop]. rewrite H3, H4, A. cbn [andb].
    destruct (Nat.eq_dec i k) as [->|Hn]; [rewrite HC; reflexivity|].
    rewrite HD by lia. cbn [orb]. replace (p_rows par <=? p_block par) with false by (symmetry; apply Z.leb_gt; auto).
    apply IHfuel; lia. }
  rewrite X by lia. auto.
Qed.

(** ** Non-trivial cases *)
Definition ex_slope (i : nat) : Z := nth i [900; 700; 650; 650; 640; 640; 645; 650; 640; 641] 640.
Example ex_abort : bkz (mkpar (fun y => y)) (fun _ => TDirty) (fun _ => false) ex_slope 67 None = Some (Returned SSuccess, 9%nat).
Proof. vm_compute. reflexivity. Qed.
Example ex_abort_hyps : (forall i, 0 <= ex_slope i) /\ (forall i, In (ex_slope i) [900; 700; 650; 640; 645; 641]).
Proof.
  split; intros i; unfold ex_slope; do 10 (destruct i as [|i]; [cbn; try lia; tauto|]); destruct i; cbn; try lia; tauto.
Qed.
Example ex_loops : bkz {| p_block := 10; p_rows := 20; p_loops := Some 4; p_time := false; p_abort := false; p_scale := fun y => y;
    p_nodec := 5; p_sd := true; p_sld := false |} (fun _ => TDirty) (fun _ => false) (fun _ => 1) 5 None = Some (Returned SLoops, 4%nat).
Proof. reflexivity. Qed.
Example ex_clean : bkz {| p_block := 10; p_rows := 20; p_loops := None; p_time := false; p_abort := false; p_scale := fun y => y;
    p_nodec := 5; p_sd := false; p_sld := false |} (fun i => if (i =? 3)%nat then TClean else TDirty) (fun _ => false) (fun _ => 1) 4 None
  = Some (Returned SSuccess, 4%nat).
Proof. reflexivity. Qed.

Print Assumptions bkz_max_loops.
Print Assumptions bkz_auto_abort.
Print Assumptions bkz_auto_abort_scale_refuted.
Print Assumptions bkz_auto_abort_negative_refuted.
Print Assumptions bkz_clean_tour_ends.
Print Assumptions bkz_success_reason.
Print Assumptions bkz_failure_status_refuted.
Print Assumptions bkz_runtime_error_escapes.
