(** C23, C45, C46, C54, C55: closest vectors. *)
From Coq Require Import List ZArith QArith Qcanon Arith Bool Lia.
From Verif Require Import Util QcUtil GsoQ LatticeSpec LllSpec LllSpecFacts QGs EnumModel EnumExact EnumTree EnumSpec EnumLink EnumNorm
  EvalModel EnumCall PropEnum EnumReset EnumResetProofs CvpModel CvpProofs.
Import ListNotations.
Local Open Scope Qc_scope.

(** ** C23 *)
(** The iterative implementation with resets: every reported leaf carries its true squared distance. *)
Theorem iterative_reset_reports_true fuel d mu r t maxidx ne n R s v nd m :
  (0 < d)%nat -> (forall k, (k < d)%nat -> 0 < r k) -> 0 <= R ->
  cvp_run false fuel d mu r t None maxidx ne n R = Some s ->
  In (v, nd, m) (reported s) -> length v = d /\ nd * pow2 ne = plen d mu r t v 0 /\ nd <= m.
Proof. intros Hd Hr HR H Hin. destruct (cvp_min fuel d mu r t maxidx ne Hr n R s Hd HR H) as (A & _ & _). now apply A. Qed.

(** ... and it keeps a point closest to the target whenever there is a lattice point inside the radius. *)
Theorem iterative_reset_closest fuel c B bs mu tau maxidx ne n R s :
  (0 < length B)%nat -> gso_of c B (length B) bs mu -> (forall i, (i < length B)%nat -> 0 < norm2 c (bs i)) -> 0 <= R ->
  let d := length B in
  let r := fun i => norm2 c (bs i) in
  let t := fun i => ip c tau (bs i) / norm2 c (bs i) in
  cvp_run false fuel d mu r t None maxidx ne n R = Some s ->
  (exists y, length y = d /\ plen d mu r t y 0 < R) ->
  exists x, kept s = [(plen d mu r t x 0, x)] /\ length x = d /\ forall y, length y = d -> dist2 c B tau x <= dist2 c B tau y.
Proof.
  intros Hd G Hr HR d r t H (y0 & Y1 & Y2).
  destruct (cvp_min fuel d mu r t maxidx ne Hr n R s Hd HR H) as (_ & A & [[C1 C2]|(w & W1 & W2 & W3)]).
  - exfalso. specialize (A y0 Y1). rewrite C2 in A. exact (Qclt_not_le _ _ Y2 A).
  - exists w. split; [exact W3|]. split; auto. intros y Ly.
    destruct (gso_coords c B bs mu G tau Hr) as [T1 T2]. cbn zeta in T1, T2.
    rewrite (plen_dist c B bs mu G tau t _ w T1 T2), (plen_dist c B bs mu G tau t _ y T1 T2).
    specialize (A y Ly). rewrite W2 in A. fold d r. revert A. generalize (plen d mu r t w 0) (plen d mu r t y 0). intros. apply Qcplus_le_compat; [assumption|apply Qcle_refl].
Qed.

(** ** C46 *)
(** Babai's point lies strictly inside the radius when r_0 < 3 (r_1 + ... + r_{d-1}). *)
Theorem cvp_radius_contains d mu r t : (0 < d)%nat -> (forall k, (k < d)%nat -> 0 < r k) -> r 0%nat < Qcz 3 * cvp_radius d r ->
  exists y, length y = d /\ plen d mu r t y 0 < cvp_radius d r.
Proof.
  intros Hd Hr H3. destruct (babai_quarter d mu r t [] 0 Hr [] (d - 1)) as (w & W1 & W2); [lia|cbn; lia|].
  replace (S (d - 1)) with d in * by lia. exists w. split; auto. rewrite app_nil_r in W2.
  assert (Z : plen d mu r t w d = 0).
  { unfold plen. apply qsum_0. intros i Hi. destruct (Nat.leb_spec d i); [lia|reflexivity]. }
  rewrite Z in W2. revert W2 H3. unfold cvp_radius. generalize (plen d mu r t w 0), (qsum d r), (r 0%nat). change (Qcz 4) with (1+1+1+1). change (Qcz 3) with (1+1+1). intros. qclra.
Qed.
(** For LLL-reduced bases of dimension at least two (delta - eta^2 > 1/3, as with the default 0.99 and 0.51)
    the chosen radius contains a lattice point, for every target. *)
Theorem cvp_radius_lll c B bs mu t delta eta : let d := length B in
  (2 <= d)%nat -> gso_of c B d bs mu -> (forall i, (i < d)%nat -> 0 < norm2 c (bs i)) -> size_reduced d eta mu -> lovasz c d delta bs mu ->
  0 <= eta -> 1 < Qcz 3 * (delta - eta * eta) ->
  let r := fun i => norm2 c (bs i) in r 0%nat < Qcz 3 * cvp_radius d r /\ exists y, length y = d /\ plen d mu r t y 0 < cvp_radius d r.
Proof.
  intros d Hd G Hp SR LV He Hde r.
  assert (K : r 0%nat < Qcz 3 * cvp_radius d r).
  { specialize (LV 0%nat ltac:(lia)). destruct (SR 1%nat 0%nat ltac:(lia) ltac:(lia)) as [S1 S2].
    assert (SUM : r 1%nat <= cvp_radius d r).
    { unfold cvp_radius. replace (qsum d r) with (qsum (2 + (d - 2)) r) by (f_equal; lia). rewrite qsum_split. cbn [qsum].
      assert (0 <= qsum (d - 2) (fun i => r (2 + i)%nat)) by (apply qsum_nonneg; intros; apply Qclt_le_weak, Hp; lia).
      revert H. generalize (qsum (d - 2) (fun i => r (2 + i)%nat)), (r 0%nat), (r 1%nat). intros. qclra. }
    pose proof (Hp 0%nat ltac:(lia)) as P0. change (norm2 c (bs 0%nat)) with (r 0%nat) in *. change (norm2 c (bs 1%nat)) with (r 1%nat) in *.
    assert (M2 : mu 1%nat 0%nat * mu 1%nat 0%nat <= eta * eta).
    { revert S1 S2 He. generalize (mu 1%nat 0%nat), eta. intros m e S1 S2 He. assert (0 <= e - m) by qclra. assert (0 <= e + m) by qclra.
      assert (0 <= (e - m) * (e + m)) by (revert H H0; generalize (e - m), (e + m); intros; qcnra). replace ((e-m)*(e+m)) with (e*e - m*m) in H1 by ring. qclra. }
    revert LV SUM P0 M2 Hde. generalize (r 0%nat), (r 1%nat), (cvp_radius d r), (mu 1%nat 0%nat * mu 1%nat 0%nat), (eta * eta). intros r0 r1 s m e LV SUM P0 M2 Hde.
    change (Qcz 3) with (1+1+1) in *.
    assert (m * r0 <= e * r0) by (apply Qcmult_le_compat_r; auto; now apply Qclt_le_weak).
    assert (r0 < (1+1+1) * (delta - e) * r0). { revert Hde. generalize ((1+1+1) * (delta - e)). intros z Hz. qcnra. }
    replace ((1+1+1) * (delta - e) * r0) with ((1+1+1) * (delta * r0 - e * r0)) in H0 by ring. revert H H0 LV. generalize (delta * r0), (e * r0), (m * r0). intros. qclra. }
  split; auto. apply cvp_radius_contains; auto. lia.
Qed.
(** In dimension one the radius is 0 and the claim is false: closest_vector reports a failure for every target that is no lattice vector. *)
Theorem cvp_radius_refuted : exists (c : nat) (B : list (list Z)) (tau : list Z),
  lll_reduced c B (length B) (Q2Qc (99 # 100)) (Q2Qc (51 # 100)) /\
  (forall y, cvp_radius (length B) (fun i => norm2 c (qS c B i)) < dist2 c B (qvec tau) y) /\
  forall rec proved, closest_vector c B (qM c B) (fun i => norm2 c (qS c B i)) rec proved 0 2 5 2 tau = Some None.
Proof.
  exists 1%nat, [[2%Z]], [1%Z]. split; [|split].
  - exists (qS 1 [[2%Z]]), (qM 1 [[2%Z]]). split; [apply qS_gso|]. split; [|split].
    + intros i Hi. cbn [length] in Hi. assert (i = 0)%nat by lia. subst. vm_compute. reflexivity.
    + intros i j Hj Hi. cbn [length] in Hi. lia.
    + intros i Hi. cbn [length] in Hi. lia.
  - intros y. assert (E : cvp_radius (length [[2%Z]]) (fun i => norm2 1 (qS 1 [[2%Z]] i)) = 0) by (vm_compute; reflexivity). rewrite E.
    unfold dist2, norm2, ip, comb, qrow, qvec. cbn [length qsum nth]. change (ent [[2%Z]] 0 0) with 2%Z. set (z := nth 0 y 0%Z).
    replace (0 + Qcz z * Qcz 2 - Qcz 1) with (Qcz (2 * z - 1)) by (rewrite Qcz_sub, Qcz_mul; ring).
    rewrite <- Qcz_mul. change (0 + Qcz ((2 * z - 1) * (2 * z - 1))) with (Qcz 0 + Qcz ((2 * z - 1) * (2 * z - 1))). rewrite <- Qcz_add. change 0%Qc with (Qcz 0). apply Qcz_lt. nia.
  - intros [|] [|]; vm_compute; reflexivity.
Qed.

(** ** C54: termination of the Babai loop *)
(** Without exact ties in the first rounding the loop ends after at most two passes (exact arithmetic). *)
Theorem babai_loop_two_passes c B bs mu tau sol :
  gso_of c B (length B) bs mu -> (forall i, (i < length B)%nat -> 0 < norm2 c (bs i)) ->
  let r := fun i => norm2 c (bs i) in
  (forall i, (i < length B)%nat ->
     let g := gcoord (length B) mu (fun i => ip c (qvec tau) (bs i) / norm2 c (bs i)) (babai c B mu r tau) i in Qcz 2 * g <> 1 /\ Qcz 2 * g <> - (1)) ->
  exists res, babai_loop c B mu r 2 tau sol = Some res.
Proof.
  intros G Hp r H. apply (two_passes c B bs mu G Hp). intros i Hi. specialize (H i Hi). cbn zeta in *.
  unfold gcoord in *. rewrite (gscoords_eq c B bs mu G) by auto. exact H.
Qed.

(** With ties it may run for ever: on this LLL-reduced basis the target alternates between (-1,1,1) and (1,-1,-1);
    all floating-point operations involved are exact in any precision. *)
Definition loopB : list (list Z) := [[2; 0; 0]; [1; 2; 0]; [1; 0; 2]]%Z.
Theorem babai_loop_terminates_refuted : exists (c : nat) (B : list (list Z)) (tau : list Z),
  lll_reduced c B (length B) (Q2Qc (99 # 100)) (Q2Qc (51 # 100)) /\
  forall fuel sol, babai_loop c B (qM c B) (fun i => norm2 c (qS c B i)) fuel tau sol = None.
Proof.
  exists 3%nat, loopB, [-1; 1; 1]%Z. split.
  - exists (qS 3 loopB), (qM 3 loopB). split; [apply qS_gso|]. cbn [length loopB].
    split; [|split].
    + intros i Hi. do 3 (destruct i as [|i]; [vm_compute; reflexivity|]). lia.
    + intros i j Hj Hi. do 3 (destruct i as [|i]; [do 2 (destruct j as [|j]; [try lia; split; vm_compute; discriminate|]); lia|]). lia.
    + intros i Hi. do 2 (destruct i as [|i]; [vm_compute; discriminate|]). lia.
  - set (mu := qM 3 loopB). set (r := fun i => norm2 3 (qS 3 loopB i)).
    assert (A : babai 3 loopB mu r [-1; 1; 1]%Z = [-2; 1; 1]%Z) by (vm_compute; reflexivity).
    assert (A' : babai 3 loopB mu r [1; -1; -1]%Z = [2; -1; -1]%Z) by (vm_compute; reflexivity).
    assert (K : forall fuel sol, babai_loop 3 loopB mu r fuel [-1; 1; 1]%Z sol = None /\ babai_loop 3 loopB mu r fuel [1; -1; -1]%Z sol = None).
    { induction fuel; intros sol; [split; reflexivity|]. cbn [babai_loop]. rewrite A, A'.
      change (sub_comb 3 loopB [-1; 1; 1]%Z [-2; 1; 1]%Z) with [1; -1; -1]%Z. change (sub_comb 3 loopB [1; -1; -1]%Z [2; -1; -1]%Z) with [-1; 1; 1]%Z.
      split; [apply (IHfuel (add_coord loopB sol [-2; 1; 1]%Z))|apply (IHfuel (add_coord loopB sol [2; -1; -1]%Z))]. }
    intros. apply K.
Qed.

(** ** C55: closest_vector end to end *)
Theorem closest_vector_correct c B bs mu rec proved ne fuelB fuel n tau res : let d := length B in
  let r := fun i => norm2 c (bs i) in
  (0 < d)%nat -> gso_of c B d bs mu -> (forall i, (i < d)%nat -> 0 < norm2 c (bs i)) -> r 0%nat < Qcz 3 * cvp_radius d r ->
  rec = false \/ proved = false ->
  closest_vector c B mu r rec proved ne fuelB fuel n tau = Some res ->
  exists x, res = Some x /\ length x = d /\ forall y, length y = d -> dist2 c B (qvec tau) x <= dist2 c B (qvec tau) y.
Proof.
  intros d r Hd G Hp H3 Hrp H. unfold closest_vector in H. fold d in H.
  destruct (babai_loop c B mu r fuelB tau (repeat 0%Z d)) as [[tau' sol]|] eqn:BL; [|discriminate].
  pose proof (babai_loop_inv c B bs mu tau fuelB tau (repeat 0%Z d) tau' sol BL) as INV.
  assert (I0 : forall y, dist2 c B (qvec tau) y = dist2 c B (qvec tau) (add_coord B (repeat 0%Z d) y)).
  { intros y. apply dist_ext. intros i Hi. rewrite add_coord_nth by auto. now rewrite nth_repeat. }
  specialize (INV I0). set (t := gscoords c B mu r (qvec tau')) in *.
  destruct (cvp_run rec fuel d mu r t None _ ne n (cvp_radius d r)) as [s|] eqn:RN; [|discriminate]. injection H as <-.
  assert (R0 : 0 <= cvp_radius d r).
  { pose proof (Hp 0%nat ltac:(lia)) as P. change (norm2 c (bs 0%nat)) with (r 0%nat) in P. revert P H3. generalize (r 0%nat), (cvp_radius d r). change (Qcz 3) with (1+1+1). intros. qclra. }
  destruct (cvp_radius_contains d mu r t Hd Hp H3) as (y0 & Y1 & Y2).
  assert (KX : exists l x, ev_sols (g_ev (s_g s)) = [(l, x)] /\ length x = d /\ forall y, length y = d -> plen d mu r t x 0 <= plen d mu r t y 0).
  { destruct rec.
    - destruct Hrp as [|Hpv]; [discriminate|]. subst proved.
      assert (RE : enum_run true fuel ne accept_all BestN 1 (enum_input d mu r (Some t) [] false None (cvp_radius d r) ne) = Some s).
      { rewrite <- RN. unfold enum_run, cvp_run. apply run_irrel. reflexivity. }
      destruct (enum_closest d mu r t false (cvp_radius d r) ne true fuel s Hd Hp R0 RE) as (x & X1 & X2 & X3).
      { exists y0. split; auto. now apply Qclt_le_weak. }
      exists (plen d mu r t x 0), x. auto.
    - destruct (cvp_min fuel d mu r t (if proved then max_idx d r else []) ne Hp n (cvp_radius d r) s Hd R0 RN) as (_ & A & [[C1 C2]|(w & W1 & W2 & W3)]).
      + exfalso. specialize (A y0 Y1). rewrite C2 in A. exact (Qclt_not_le _ _ Y2 A).
      + exists (plen d mu r t w 0), w. split; auto. split; auto. intros y Ly. rewrite <- W2. auto. }
  destruct KX as (l & x & X1 & X2 & X3). rewrite X1. exists (add_coord B sol x). split; auto. split; [apply add_coord_len|].
  intros y Ly. rewrite <- INV.
  set (z := map (fun i => (nth i y 0 - nth i sol 0)%Z) (seq 0 d)).
  assert (ZE : dist2 c B (qvec tau) y = dist2 c B (qvec tau) (add_coord B sol z)).
  { apply dist_ext. intros i Hi. rewrite add_coord_nth by auto. unfold z. rewrite (map_nth_lt _ _ _ 0%nat) by (rewrite seq_length; auto). rewrite seq_nth by auto. cbn [Nat.add]. lia. }
  rewrite ZE, <- INV.
  assert (TE : forall w, plen d mu r t w 0 = plen d mu r (fun i => ip c (qvec tau') (bs i) / norm2 c (bs i)) w 0).
  { intros w. unfold plen. apply qsum_ext. intros i Hi. destruct (Nat.leb 0 i); auto. unfold gcoord, t. now rewrite (gscoords_eq c B bs mu G) by auto. }
  destruct (gso_coords c B bs mu G (qvec tau') Hp) as [T1 T2]. cbn zeta in T1, T2.
  rewrite (plen_dist c B bs mu G (qvec tau') _ _ x T1 T2), (plen_dist c B bs mu G (qvec tau') _ _ z T1 T2).
  assert (LZ : length z = d) by (unfold z; now rewrite map_length, seq_length).
  specialize (X3 z LZ). rewrite !TE in X3. apply Qcplus_le_compat; [exact X3|apply Qcle_refl].
Qed.
(** For LLL-reduced bases with the default parameters and at least two rows. *)
Corollary closest_vector_lll c B bs mu rec proved ne fuelB fuel n tau res : let d := length B in
  let r := fun i => norm2 c (bs i) in
  (2 <= d)%nat -> gso_of c B d bs mu -> (forall i, (i < d)%nat -> 0 < norm2 c (bs i)) ->
  size_reduced d (Q2Qc (51 # 100)) mu -> lovasz c d (Q2Qc (99 # 100)) bs mu ->
  rec = false \/ proved = false ->
  closest_vector c B mu r rec proved ne fuelB fuel n tau = Some res ->
  exists x, res = Some x /\ length x = d /\ forall y, length y = d -> dist2 c B (qvec tau) x <= dist2 c B (qvec tau) y.
Proof.
  intros d r Hd G Hp SR LV Hrp H.
  destruct (cvp_radius_lll c B bs mu no_target _ _ Hd G Hp SR LV) as [K _]; [vm_compute; discriminate|vm_compute; reflexivity|].
  apply (closest_vector_correct c B bs mu rec proved ne fuelB fuel n tau res); auto. fold d. lia.
Qed.

(** Total correctness of the fast method (no resets) when the first rounding has no exact ties. *)
Theorem closest_vector_fast_total c B bs mu rec ne n tau : let d := length B in
  let r := fun i => norm2 c (bs i) in
  (0 < d)%nat -> gso_of c B d bs mu -> (forall i, (i < d)%nat -> 0 < norm2 c (bs i)) -> r 0%nat < Qcz 3 * cvp_radius d r ->
  (forall i, (i < d)%nat ->
     let g := gcoord d mu (fun i => ip c (qvec tau) (bs i) / norm2 c (bs i)) (babai c B mu r tau) i in Qcz 2 * g <> 1 /\ Qcz 2 * g <> - (1)) ->
  exists fuel x, closest_vector c B mu r rec false ne 2 fuel n tau = Some (Some x) /\ length x = d /\
    forall y, length y = d -> dist2 c B (qvec tau) x <= dist2 c B (qvec tau) y.
Proof.
  intros d r Hd G Hp H3 HT.
  destruct (babai_loop_two_passes c B bs mu tau (repeat 0%Z d) G Hp HT) as [[tau' sol] BL].
  assert (R0 : 0 <= cvp_radius d r).
  { pose proof (Hp 0%nat ltac:(lia)) as P. change (norm2 c (bs 0%nat)) with (r 0%nat) in P. revert P H3. generalize (r 0%nat), (cvp_radius d r). change (Qcz 3) with (1+1+1). intros. qclra. }
  destruct (enum_best_terminates d mu r (Some (gscoords c B mu r (qvec tau'))) false (cvp_radius d r) ne 1 rec Hd Hp R0 (le_n _)) as (fuel & s & RN).
  exists fuel.
  assert (E : exists res, closest_vector c B mu r rec false ne 2 fuel n tau = Some res).
  { unfold closest_vector. assert (BL' : babai_loop c B mu r 2 tau (repeat 0%Z (length B)) = Some (tau', sol)) by exact BL. rewrite BL'. fold d.
    assert (RC : cvp_run rec fuel d mu r (gscoords c B mu r (qvec tau')) None [] ne n (cvp_radius d r) = Some s).
    { rewrite <- RN. unfold enum_run, cvp_run. apply run_irrel. reflexivity. }
    rewrite RC. eexists. reflexivity. }
  destruct E as [res E]. destruct (closest_vector_correct c B bs mu rec false ne 2 fuel n tau res Hd G Hp H3 (or_intror eq_refl) E) as (x & -> & X1 & X2).
  exists x. auto.
Qed.

(** The default (recursive) build with CVPM_PROVED: the distance of the reset level is counted twice, a farther vector wins. *)
Definition recB : list (list Z) := [[200; 0; 0]; [0; 200; 0]; [0; 60; 220]]%Z.
Definition recT : list Z := [0; 60; 99]%Z.
Theorem recursive_reset_refuted : exists (c : nat) (B : list (list Z)) (tau : list Z),
  let r := fun i => norm2 c (qS c B i) in
  lll_reduced c B (length B) (Q2Qc (99 # 100)) (Q2Qc (51 # 100)) /\
  exists x y, closest_vector c B (qM c B) r true true 4 2 10 4 tau = Some (Some x) /\ length y = length B /\
    dist2 c B (qvec tau) y < dist2 c B (qvec tau) x /\
    closest_vector c B (qM c B) r false true 4 2 100 4 tau = Some (Some y).
Proof.
  exists 3%nat, recB, recT. cbn zeta. split.
  - exists (qS 3 recB), (qM 3 recB). split; [apply qS_gso|]. cbn [length recB]. split; [|split].
    + intros i Hi. do 3 (destruct i as [|i]; [vm_compute; reflexivity|]). lia.
    + intros i j Hj Hi. do 3 (destruct i as [|i]; [do 2 (destruct j as [|j]; [try lia; split; vm_compute; discriminate|]); lia|]). lia.
    + intros i Hi. do 2 (destruct i as [|i]; [vm_compute; discriminate|]). lia.
  - exists [0; 0; 1]%Z, [0; 0; 0]%Z. split; [vm_compute; reflexivity|]. split; [reflexivity|]. split; [vm_compute; reflexivity|vm_compute; reflexivity].
Qed.
(** ... because the distances it reports are wrong. *)
Definition wrong_report d mu r t ne (s : option (est qe_ops (evst (q_fops ne)))) : bool :=
  match s with None => false | Some s => existsb (fun p => negb (Qeq_bool (this (snd (fst p) * pow2 ne)) (this (plen d mu r t (fst (fst p)) 0)))) (reported s) end.
Theorem recursive_reset_report_refuted : exists d mu r t maxidx ne R s v nd m,
  maxidx = max_idx d r /\ R = cvp_radius d r /\ (forall k, (k < d)%nat -> 0 < r k) /\
  cvp_run true 10 d mu r t None maxidx ne 4 R = Some s /\ In (v, nd, m) (reported s) /\ nd * pow2 ne <> plen d mu r t v 0.
Proof.
  set (r := fun i => norm2 3 (qS 3 recB i)). set (mu := qM 3 recB). set (t := gscoords 3 recB mu r (qvec recT)).
  assert (W : wrong_report 3 mu r t 4 (cvp_run true 10 3 mu r t None (max_idx 3 r) 4 4 (cvp_radius 3 r)) = true) by (vm_compute; reflexivity).
  exists 3%nat, mu, r, t, (max_idx 3 r), 4%Z, (cvp_radius 3 r).
  destruct (cvp_run true 10 3 mu r t None (max_idx 3 r) 4 4 (cvp_radius 3 r)) as [s|] eqn:E; [|discriminate].
  cbn [wrong_report] in W. apply existsb_exists in W as ([[v nd] m] & Hin & W). cbn [fst snd] in W.
  exists s, v, nd, m. split; auto. split; auto. split; [intros k Hk; do 3 (destruct k as [|k]; [vm_compute; reflexivity|]); lia|].
  split; auto. split; auto. intros Q. rewrite Q in W. rewrite (proj2 (Qeq_bool_iff _ _) (Qeq_refl _)) in W. discriminate.
Qed.

(** ** Concrete cases *)
(** The hypotheses of [iterative_reset_closest], [cvp_radius_lll], [closest_vector_correct] and [closest_vector_lll] hold for [recB]. *)
Lemma recB_lll : let d := length recB in (2 <= d)%nat /\ gso_of 3 recB d (qS 3 recB) (qM 3 recB) /\
  (forall i, (i < d)%nat -> 0 < norm2 3 (qS 3 recB i)) /\ size_reduced d (Q2Qc (51 # 100)) (qM 3 recB) /\ lovasz 3 d (Q2Qc (99 # 100)) (qS 3 recB) (qM 3 recB).
Proof.
  cbn [length recB]. cbn zeta. split; [lia|]. split; [apply qS_gso|]. split; [|split].
  - intros i Hi. do 3 (destruct i as [|i]; [vm_compute; reflexivity|]). lia.
  - intros i j Hj Hi. do 3 (destruct i as [|i]; [do 2 (destruct j as [|j]; [try lia; split; vm_compute; discriminate|]); lia|]). lia.
  - intros i Hi. do 2 (destruct i as [|i]; [vm_compute; discriminate|]). lia.
Qed.
(** the call returns for a target far outside the fundamental cell: the Babai loop subtracts twice *)
Definition recT2 : list Z := [1050; 777; 1001]%Z.
Example closest_fast_ex : closest_vector 3 recB (qM 3 recB) (fun i => norm2 3 (qS 3 recB i)) true false 4 3 10 4 recT2 = Some (Some [5; 2; 5]%Z).
Proof. vm_compute. reflexivity. Qed.
Example closest_proved_iter_ex : closest_vector 3 recB (qM 3 recB) (fun i => norm2 3 (qS 3 recB i)) false true 4 3 100 4 recT2 = Some (Some [5; 2; 5]%Z).
Proof. vm_compute. reflexivity. Qed.
Example closest_min_ex : forall y, length y = 3%nat -> dist2 3 recB (qvec recT2) [5; 2; 5]%Z <= dist2 3 recB (qvec recT2) y.
Proof.
  intros y Hy. destruct recB_lll as (A & G & P & SR & LV).
  destruct (closest_vector_lll 3 recB _ _ true false 4 3 10 4 recT2 _ A G P SR LV (or_intror eq_refl) closest_fast_ex) as (x & E & _ & M).
  injection E as <-. now apply M.
Qed.
(** no ties for this target: the loop ends in the second pass *)
Definition no_tie (d : nat) (g : nat -> Qc) : bool := forallb (fun i => negb (Qeq_bool (this (Qcz 2 * g i)) 1) && negb (Qeq_bool (this (Qcz 2 * g i)) (-1))) (seq 0 d).
Example babai_two_passes_ex : exists res, babai_loop 3 recB (qM 3 recB) (fun i => norm2 3 (qS 3 recB i)) 2 recT2 [0; 0; 0]%Z = Some res.
Proof.
  destruct recB_lll as (A & G & P & _). apply (babai_loop_two_passes 3 recB (qS 3 recB) (qM 3 recB)); auto.
  assert (N : no_tie 3 (gcoord 3 (qM 3 recB) (fun i => ip 3 (qvec recT2) (qS 3 recB i) / norm2 3 (qS 3 recB i)) (babai 3 recB (qM 3 recB) (fun i => norm2 3 (qS 3 recB i)) recT2)) = true) by (vm_compute; reflexivity).
  intros i Hi. unfold no_tie in N. rewrite forallb_forall in N. specialize (N i). cbn [length recB] in Hi. rewrite in_seq in N. specialize (N ltac:(lia)).
  apply andb_prop in N as [N1 N2]. cbn zeta. cbn [length recB].
  split; intros E; rewrite E in *; vm_compute in N1, N2; discriminate.
Qed.
Example max_idx_ex : max_idx 6 (fun i => Qcz (nth i [5; 9; 2; 9; 1; 4]%Z 0%Z)) = [0; 1; 1; 1; 1; 5]%Z.
Proof. vm_compute. reflexivity. Qed.
Example max_idx_last_ex : max_idx 5 (fun i => Qcz (nth i [1; 3; 2; 4; 7]%Z 0%Z)) = [0; 1; 1; 3; 4]%Z.
Proof. vm_compute. reflexivity. Qed.

Print Assumptions iterative_reset_reports_true.
Print Assumptions iterative_reset_closest.
Print Assumptions recursive_reset_refuted.
Print Assumptions recursive_reset_report_refuted.
Print Assumptions max_idx_spec.
Print Assumptions cvp_radius_contains.
Print Assumptions cvp_radius_lll.
Print Assumptions cvp_radius_refuted.
Print Assumptions babai_loop_two_passes.
Print Assumptions babai_loop_terminates_refuted.
Print Assumptions closest_vector_correct.
Print Assumptions closest_vector_lll.
Print Assumptions closest_vector_fast_total.
