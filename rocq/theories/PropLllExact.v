(** C12, C13, C14: LLL in exact arithmetic. *)
From Coq Require Import List ZArith QArith Qround Qcanon Lia Lqa Arith Bool.
From Verif Require Import Util QcUtil LatticeSpec NumVectModel NumVectProofs MatrixModel MatrixProofs
  GsoModel GsoProofs GsoHistory GsoFModel GsoFSpec GsoFProofs GsoQ GsoWeak PropGso PropGsoF LllModel LllProofs LllQ PropLll
  QGs LllExact LllSpec LllSpecFacts LllDecide.
Import ListNotations.
Local Open Scope nat_scope.

(** A GSO object created for basis b and then used by any legal history h. *)
Definition reach (en_e : bool) (junk : Qc) b c u ui ig fl (h : list (fop qc_ops)) (z : gz) (s : fst_ qc_ops) : Prop :=
  exists zs0, fgso_new qc_ops en_e junk b c u ui ig fl = Some zs0 /\ flegal_run qc_ops en_e zs0 h /\
    frun qc_ops en_e zs0 h = Some (z, s).

Lemma reach_ok en_e junk b c u ui ig fl h z s : valid_input b c u ui -> reach en_e junk b c u ui ig fl h z s ->
  FInv qc_ops en_e z s /\ en_g z = ig /\ gc z = c.
Proof.
  intros HV [zs0 [E0 [HL HR]]]. destruct (fgso_new_ok qc_ops en_e junk b c u ui ig fl (qc_laws _) HV) as [s0 [E HF]].
  rewrite E in E0. injection E0 as <-.
  destruct (frun_ok qc_ops en_e (qc_laws _) h _ s0 HF HL) as [z' [s' [Er [HF' Fl]]]].
  rewrite Er in HR. injection HR as <- <-. split; auto. destruct Fl as [F1 [F2 _]]. auto.
Qed.

Section Exact.
(** Rounding of coefficients, conversion to integers and exponents: arbitrary. *)
Variable rnd : Qc -> Z -> Qc.
Variable si ze : Qc -> Z -> Z * nat.
Variable expo : Qc -> Z.
Notation lo := (lq_ops rnd si ze expo).

(** * C12 *)
(** the same from an LLLReduction object whose counters (last_early_red etc.) have
    arbitrary values *)
Lemma lll_exact_reduced_from :
  forall en_e junk delta eta early siegel b c u ui ig fl h (st : lst lo) fuel max_iter kend st',
    let z := lz st in let s := ls st in
    valid_input b c u ui -> (en_e = true -> ig = false) ->
    reach en_e junk b c u ui ig fl h z s -> locked z = false -> 0 < kend <= length (gb z) ->
    (0 <= eta)%Qc -> (eta * eta < delta)%Qc ->
    lll lo (lll_par lo z en_e delta eta early siegel) fuel max_iter st 0 0 kend 0 = Some (st', OTrue) ->
    let B := gb (lz st') in let n := kend - lzeros st' in
    lzeros st' <= kend /\
    (if siegel then siegel_reduced c B n delta eta else lll_reduced c B n delta eta) /\
    (forall i k, n <= i < kend -> k < c -> ent B i k = 0%Z).
Proof.
  intros en_e junk delta eta early siegel b c u ui ig fl h st fuel max_iter kend st' z s HV HE HR HL Hk He Hd E. cbv zeta.
  destruct (reach_ok _ _ _ _ _ _ _ _ _ _ _ HV HR) as [HF [EG EC]].
  set (P := lll_par lo z en_e delta eta early siegel) in *.
  assert (HX : XP rnd si ze expo P z). { intros X. rewrite EG. auto. }
  assert (HEa : p_early P = true -> en_g z = false).
  { unfold P, lll_par. cbn [p_early]. intros X. apply andb_prop in X. destruct (en_g z); auto. destruct X; discriminate. }
  destruct (lll_w lo P fuel max_iter st 0 0 kend 0) as [st2 [o2 [E2 [PO _]]]].
  { split; [apply HF|apply (F_dims _ _ _ _ HF)]. }
  { repeat split; fold z; auto; unfold gd; lia. }
  assert (st2 = st') by (congruence). subst st2.
  destruct (lll_x rnd si ze expo P He eq_refl Hd fuel max_iter st st' kend) as [[H1 [H2 H3]] [HZ H4]]; auto.
  assert (ECC : gc (lz st') = c). { destruct PO as [_ [SS _]]. destruct (Steps_inv _ _ (F_inv _ _ _ _ HF) SS) as [_ [[X _] _]]. congruence. }
  rewrite ECC in *.
  assert (HS : forall i j, j < i -> i < kend - lzeros st' -> (- eta <= qM c (gb (lz st')) i j /\ qM c (gb (lz st')) i j <= eta)%Qc).
  { intros i j Hj Hi. destruct (qabs_le _ _ (H2 i j ltac:(lia) ltac:(lia))) as [X1 X2]. auto. }
  split; auto. split.
  - destruct siegel.
    + apply siegel_reduced_q. split; auto. split; auto. intros i Hi.
      specialize (H3 (S i) ltac:(lia)). replace (S i - 1) with i in H3 by lia. cbn in H3. rewrite qproj_diag in H3. exact H3.
    + apply lll_reduced_q. split; auto. split; auto. intros i Hi.
      specialize (H3 (S i) ltac:(lia)). replace (S i - 1) with i in H3 by lia. cbn [tidx p_siegel P lll_par] in H3.
      unfold tidx in H3. cbn [p_siegel P lll_par p_thr] in H3. replace (S i - 1) with i in H3 by lia.
      replace (qproj c (gb (lz st')) (S i) i) with (qR c (gb (lz st')) (S i) (S i) + qM c (gb (lz st')) (S i) i * qM c (gb (lz st')) (S i) i * qR c (gb (lz st')) i i)%Qc in H3; [exact H3|].
      rewrite <- (qproj_diag c (gb (lz st')) (S i)). rewrite (qproj_S c (gb (lz st')) (S i) i) by lia. ring.
  - intros i k Hi Hkc. specialize (H4 i Hi). unfold zr in H4. rewrite ECC in H4. apply H4. auto.
Qed.

(** If lll(0, 0, kappa_end) returns true in exact arithmetic, then the first
    kappa_end - zeros rows are linearly independent and reduced in the sense of
    the Gram-Schmidt vectors, and the next zeros rows are zero. *)
Theorem lll_exact_reduced :
  forall en_e junk delta eta early siegel b c u ui ig fl h z s fuel max_iter kend st',
    valid_input b c u ui -> (en_e = true -> ig = false) ->
    reach en_e junk b c u ui ig fl h z s -> locked z = false -> 0 < kend <= length (gb z) ->
    (0 <= eta)%Qc -> (eta * eta < delta)%Qc ->
    lll lo (lll_par lo z en_e delta eta early siegel) fuel max_iter (@lst_new lo z s) 0 0 kend 0 = Some (st', OTrue) ->
    let B := gb (lz st') in let n := kend - lzeros st' in
    lzeros st' <= kend /\
    (if siegel then siegel_reduced c B n delta eta else lll_reduced c B n delta eta) /\
    (forall i k, n <= i < kend -> k < c -> ent B i k = 0%Z).
Proof.
  intros en_e junk delta eta early siegel b c u ui ig fl h z s fuel max_iter kend st' HV HE HR HL Hk He Hd E.
  exact (lll_exact_reduced_from en_e junk delta eta early siegel b c u ui ig fl h (@lst_new lo z s) fuel max_iter kend st' HV HE HR HL Hk He Hd E).
Qed.

(** * C13 *)
(** For linearly independent rows is_lll_reduced terminates without undefined
    behaviour, whatever the history of the object, and decides exactly whether
    the basis is LLL-reduced. *)
Theorem is_lll_reduced_decides :
  forall en_e junk delta eta early siegel b c u ui ig fl h z s delta' eta',
    valid_input b c u ui -> (en_e = true -> ig = false) ->
    reach en_e junk b c u ui ig fl h z s -> locked z = false ->
    independent c (gb z) (length (gb z)) ->
    exists r, is_lll_reduced lo (lll_par lo z en_e delta' eta' early siegel) z s delta eta = Some r /\
      (r = true <-> lll_reduced c (gb z) (length (gb z)) delta eta).
Proof.
  intros en_e junk delta eta early siegel b c u ui ig fl h z s delta' eta' HV HE HR HL HI.
  destruct (reach_ok _ _ _ _ _ _ _ _ _ _ _ HV HR) as [HF [EG EC]].
  set (P := lll_par lo z en_e delta' eta' early siegel) in *.
  assert (HX : XP rnd si ze expo P z). { intros X. rewrite EG. auto. }
  destruct (decide_x rnd si ze expo P z s delta eta) as [r [Er Hr]]; auto.
  { intros i Hi. rewrite EC. apply (independent_pos c (gb z) (length (gb z))); auto. }
  exists r. split; auto. rewrite Hr, lll_reduced_q. rewrite EC. change (gd z) with (length (gb z)). split.
  - intros [H1 H2]. split; [apply independent_pos; auto|]. split.
    + intros i j Hj Hi. destruct (qabs_le _ _ (H1 i j Hj Hi)). auto.
    + intros i Hi. specialize (H2 i Hi). revert H2.
      generalize (qR c (gb z) i i), (qR c (gb z) (S i) (S i)), (qM c (gb z) (S i) i). intros x y m H. qcnra.
  - intros [_ [H1 H2]]. split.
    + intros i j Hj Hi. destruct (H1 i j Hj Hi) as [X1 X2]. unfold qabs. destruct (qltb _ 0); auto.
      apply Qcopp_le_compat in X1. rewrite Qcopp_involutive in X1. auto.
    + intros i Hi. specialize (H2 i Hi). revert H2.
      generalize (qR c (gb z) i i), (qR c (gb z) (S i) (S i)), (qM c (gb z) (S i) i). intros x y m H. qcnra.
Qed.

(** * C14 *)
(** Whatever the basis (also with dependent rows): if is_lll_reduced accepts it,
    the first row is short compared with every non-zero vector of the lattice. *)
Theorem accepted_first_vector :
  forall en_e junk delta eta early siegel b c u ui ig fl h z s delta' eta' v,
    valid_input b c u ui -> (en_e = true -> ig = false) ->
    reach en_e junk b c u ui ig fl h z s -> locked z = false ->
    (0 <= eta)%Qc -> (0 < delta - eta * eta)%Qc -> (delta - eta * eta <= 1)%Qc ->
    is_lll_reduced lo (lll_par lo z en_e delta' eta' early siegel) z s delta eta = Some true ->
    in_lattice c (gb z) v -> (exists k, k < c /\ nth k v 0%Z <> 0%Z) ->
    ((delta - eta * eta) ^ (length (gb z) - 1) * znorm2 c (nth 0 (gb z) []) <= znorm2 c v)%Qc.
Proof.
  intros en_e junk delta eta early siegel b c u ui ig fl h z s delta' eta' v HV HE HR HL He Hd0 Hd1 HA HIn HN.
  destruct (reach_ok _ _ _ _ _ _ _ _ _ _ _ HV HR) as [HF [EG EC]].
  set (P := lll_par lo z en_e delta' eta' early siegel) in *.
  assert (HX : XP rnd si ze expo P z). { intros X. rewrite EG. auto. }
  assert (Hd : (eta * eta < delta)%Qc) by (clear - Hd0; qclra).
  destruct (accept_x rnd si ze expo P z s delta eta HF HX HL He Hd HA) as [H0|[HP [HM HLv]]].
  - rewrite EC in H0. rewrite <- (qproj_diag c (gb z) 0), qproj_0 in H0. apply gq_zrow in H0.
    replace (znorm2 c (nth 0 (gb z) [])) with 0%Qc.
    + replace ((delta - eta * eta) ^ (length (gb z) - 1) * 0)%Qc with 0%Qc by ring. unfold znorm2. change 0%Qc with (Qcz 0). apply Qcz_le.
      apply zsum_nonneg. intros. nia.
    + unfold znorm2, inner. rewrite zsum_0; auto. intros k Hk. rewrite H0; auto.
  - rewrite EC in *. apply first_vector; auto.
    + destruct (I_b _ (F_inv _ _ _ _ HF)) as [_ X]. intros i Hi. rewrite <- EC. apply X. exact Hi.
    + intros i Hi. specialize (HLv i Hi). pose proof (sq_bound _ _ (HM (S i) i ltac:(lia) Hi)) as HB.
      pose proof (HP i ltac:(unfold gd; lia)) as HPi. revert HLv HB HPi.
      generalize (qR c (gb z) i i), (qR c (gb z) (S i) (S i)), (qM c (gb z) (S i) i). clear. intros x y m H HB HP.
      eapply Qcle_trans; [|exact H]. rewrite Qcmult_comm. rewrite (Qcmult_comm x), (Qcmult_comm x). apply Qcmult_le_compat_r; [|apply Qclt_le_weak; auto].
      clear - HB. qclra.
Qed.
End Exact.

(** ** Witnesses for C12 *)
Definition ex12_run b c en_e early siegel ig kend :=
  match fgso_new qc_ops en_e 0%Qc b c [] [] ig false with
  | Some (z, s) =>
      match lll lqx (lll_par lqx z en_e (q_of 99 100) (q_of 51 100) early siegel) 50 (fun _ => 100) (@lst_new lqx z s) 0 0 kend 0 with
      | Some (st', o) => Some (gb (lz st'), lzeros st', lsw st', o)
      | None => None
      end
  | None => None
  end.
Lemma ex12_apply b c en_e early siegel ig kend B nz sw : rect c b -> 1 <= c -> (en_e = true -> ig = false) -> 0 < kend <= length b ->
  ex12_run b c en_e early siegel ig kend = Some (B, nz, sw, OTrue) ->
  (if siegel then siegel_reduced c B (kend - nz) (q_of 99 100) (q_of 51 100) else lll_reduced c B (kend - nz) (q_of 99 100) (q_of 51 100)).
Proof.
  intros HR Hb HE Hk. unfold ex12_run.
  assert (HV : valid_input b c [] []) by (constructor; auto).
  destruct (fgso_new_ok qc_ops en_e 0%Qc b c [] [] ig false (qc_laws _) HV) as [s [E0 HF]]. rewrite E0.
  set (z := gso_new b c [] [] ig false) in *.
  match goal with |- match ?l with Some _ => _ | None => _ end = _ -> _ => destruct l as [[st' o]|] eqn:EL; [|discriminate] end.
  intros H. injection H as <- <- _ ->.
  refine (proj1 (proj2 (lll_exact_reduced qrnd qint qint qexpo en_e 0%Qc (q_of 99 100) (q_of 51 100) early siegel b c [] [] ig false []
           z s 50 (fun _ => 100) kend st' HV HE _ eq_refl _ _ _ EL))).
  - exists (z, s). split; auto. split; [exact I|reflexivity].
  - exact Hk.
  - apply qltb_ge. vm_compute. reflexivity.
  - apply qltb_lt. vm_compute. reflexivity.
Qed.
Ltac ex_rect := let i := fresh in let Hi := fresh in intros i Hi; cbn in Hi; repeat (destruct i as [|i]; [reflexivity|]); lia.
(** knapsack-type basis, Lovasz, early reduction, row exponents: 7 swaps *)
Example ex12_lovasz : lll_reduced 5 exl_red 4 (q_of 99 100) (q_of 51 100).
Proof. apply (ex12_apply exl_b 5 true true false false 4 exl_red 0 7); [ex_rect|lia|auto|cbn; lia|vm_compute; reflexivity]. Qed.
(** the same with the Siegel condition and integer Gram matrix *)
Example ex12_siegel : exists B sw, ex12_run exl_b 5 false false true true 4 = Some (B, 0, sw, OTrue) /\ siegel_reduced 5 B 4 (q_of 99 100) (q_of 51 100).
Proof.
  destruct (ex12_run exl_b 5 false false true true 4) as [[[[B nz] sw] o]|] eqn:E; [|vm_compute in E; discriminate].
  assert (X : option_map (fun p => (snd (fst (fst p)), snd p)) (ex12_run exl_b 5 false false true true 4) = Some (0, OTrue)) by (vm_compute; reflexivity).
  rewrite E in X. cbn in X. injection X as -> ->. exists B, sw. split; auto.
  apply (ex12_apply exl_b 5 false false true true 4 B 0 sw); [ex_rect|lia|discriminate|cbn; lia|exact E].
Qed.
(** dependent rows: two zero rows appear at the end *)
Example ex12_dependent : ex12_run [[0;0]; [4;2]; [6;3]; [5;9]]%Z 2 true false false false 4 = Some ([[-2;-1];[-3;5];[0;0];[0;0]]%Z, 2, 2, OTrue) /\
  lll_reduced 2 [[-2;-1];[-3;5];[0;0];[0;0]]%Z 2 (q_of 99 100) (q_of 51 100).
Proof.
  assert (E : ex12_run [[0;0]; [4;2]; [6;3]; [5;9]]%Z 2 true false false false 4 = Some ([[-2;-1];[-3;5];[0;0];[0;0]]%Z, 2, 2, OTrue)) by (vm_compute; reflexivity).
  split; auto. apply (ex12_apply [[0;0]; [4;2]; [6;3]; [5;9]]%Z 2 true false false false 4 _ 2 2); [ex_rect|lia|auto|cbn; lia|exact E].
Qed.

(** ** Witnesses for C13 and C14 *)
Definition ex13_run b c en_e ig d e :=
  match fgso_new qc_ops en_e 0%Qc b c [] [] ig false with
  | Some (z, s) => is_lll_reduced lqx (lll_par lqx z en_e d e false false) z s d e
  | None => None
  end.
Lemma lll_reduced_independent c B n d e : lll_reduced c B n d e -> independent c B n.
Proof. intros H. apply lll_reduced_q in H. destruct H as [H _]. apply pos_independent. auto. Qed.
(** the reduced basis is accepted, the same rows in another order are not *)
Example ex13_accept : ex13_run exl_red 5 true false (q_of 99 100) (q_of 51 100) = Some true /\ independent 5 exl_red 4.
Proof. split; [vm_compute; reflexivity|]. eapply lll_reduced_independent. apply ex12_lovasz. Qed.
Example ex13_reject : ex13_run [[1;0];[5;1]]%Z 2 false true (q_of 99 100) (q_of 51 100) = Some false /\ independent 2 [[1;0];[5;1]]%Z 2.
Proof.
  split; [vm_compute; reflexivity|]. intros x Hx.
  pose proof (Hx 0 ltac:(lia)) as H0. pose proof (Hx 1 ltac:(lia)) as H1. clear Hx.
  cbn [qsum] in H0, H1. unfold qrow, ent in H0, H1. cbn [nth] in H0, H1. rewrite Qcz_0, Qcz_1 in *.
  assert (X1 : x 1 = 0%Qc). { rewrite <- H1. ring. }
  assert (X0 : x 0 = 0%Qc). { rewrite <- H0, X1. ring. }
  intros i Hi. destruct i as [|[|i]]; auto. lia.
Qed.
(** The bound of C14 for the reduced basis above and all its vectors. *)
Example ex14 : forall v, in_lattice 5 exl_red v -> (exists k, k < 5 /\ nth k v 0%Z <> 0%Z) ->
  ((q_of 99 100 - q_of 51 100 * q_of 51 100) ^ 3 * Qcz 21 <= znorm2 5 v)%Qc.
Proof.
  intros v HI HN.
  assert (HV : valid_input exl_red 5 [] []) by (constructor; auto; ex_rect).
  destruct (fgso_new_ok qc_ops true 0%Qc exl_red 5 [] [] false false (qc_laws _) HV) as [s [E0 HF]].
  pose proof (proj1 ex13_accept) as EA. unfold ex13_run in EA. rewrite E0 in EA.
  apply (accepted_first_vector qrnd qint qint qexpo true 0%Qc (q_of 99 100) (q_of 51 100) false false exl_red 5 [] [] false false [] _ s
    (q_of 99 100) (q_of 51 100) v HV) in EA; [exact EA|auto| |reflexivity| | | |exact HI|exact HN].
  - exists (gso_new exl_red 5 [] [] false false, s). split; auto. split; [exact I|reflexivity].
  - apply qltb_ge. vm_compute. reflexivity.
  - apply qltb_lt. vm_compute. reflexivity.
  - apply qltb_ge. vm_compute. reflexivity.
Qed.

(** C13 fails for bases with dependent rows: the result of update_gso is
    ignored (lll.cpp:232), so that with a zero row in front the coefficients of
    the following rows are never computed and the tests read the initial
    content of mu and r (here 0).  The rows [1 0], [5 1] have mu = 5. *)
Theorem is_lll_reduced_dependent_refuted :
  exists b c delta eta,
    rect c b /\ ex13_run b c false false delta eta = Some true /\ (0 < eta)%Qc /\ (eta < 1)%Qc /\ (eta * eta < delta)%Qc /\ (delta < 1)%Qc /\
    forall bs mu, gso_of c b (length b) bs mu -> ~ size_reduced (length b) eta mu.
Proof.
  exists [[0;0]; [1;0]; [5;1]]%Z, 2, (q_of 99 100), (q_of 51 100).
  split; [ex_rect|]. split; [vm_compute; reflexivity|].
  do 4 (split; [apply qltb_lt; vm_compute; reflexivity|]).
  intros bs mu HG HS. pose proof HG as [H1 H2]. cbn [length] in *.
  assert (Z0 : forall k, k < 2 -> bs 0 k = 0%Qc).
  { intros k Hk. specialize (H1 0 k ltac:(lia) Hk). cbn [qsum] in H1. rewrite Qcplus_0_r in H1. rewrite <- H1.
    destruct k as [|[|k]]; [reflexivity|reflexivity|lia]. }
  assert (Z1 : forall k, k < 2 -> bs 1 k = qrow [[0;0]; [1;0]; [5;1]]%Z 1 k).
  { intros k Hk. rewrite (H1 1 k ltac:(lia) Hk). cbn [qsum]. rewrite Z0 by auto. ring. }
  pose proof (gso_ip 2 [[0;0]; [1;0]; [5;1]]%Z 3 bs mu HG 2 1 ltac:(lia) ltac:(lia)) as E. cbn [Nat.ltb Nat.leb] in E.
  unfold norm2, ip in E. cbn [qsum] in E. rewrite !Z1 in E by lia.
  change (qrow [[0;0]; [1;0]; [5;1]]%Z 1 0) with 1%Qc in E. change (qrow [[0;0]; [1;0]; [5;1]]%Z 1 1) with 0%Qc in E.
  change (qrow [[0;0]; [1;0]; [5;1]]%Z 2 0) with (Qcz 5) in E. 
  destruct (HS 2 1 ltac:(lia) ltac:(lia)) as [_ X].
  assert (EM : mu 2 1 = Qcz 5). { transitivity (mu 2%nat 1%nat * (0 + 1 * 1 + 0 * 0))%Qc; [ring|]. rewrite <- E. ring. }
  rewrite EM in X. apply qltb_ge in X. vm_compute in X. discriminate.
Qed.

Print Assumptions lll_exact_reduced.
Print Assumptions is_lll_reduced_decides.
Print Assumptions is_lll_reduced_dependent_refuted.
Print Assumptions accepted_first_vector.
