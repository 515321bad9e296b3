(** Proofs about the exact model of dual SVP reduction and SD-BKZ (BkzDualModel.v).  Not part of the model (proofs for PropBkzDual.v). *)
From Coq Require Import List ZArith QArith Qcanon Lia Lqa Arith Bool.
From Verif Require Import Util QcUtil LatticeSpec NumVectModel NumVectProofs MatrixModel MatrixProofs GsoModel GsoProofs GsoHistory GsoFModel GsoFSpec GsoFProofs GsoQ QGs
  LllModel LllQ LllExact LllDecide LllSpec LllSpecFacts GramDet LatPot LllTotal LllKeep
  EnumModel EnumExact EnumSpec EnumLink EvalModel EnumCall PropEnum BkzModel BkzProofs PropBkz BlockAct BkzExactModel BkzSpec LatProj BkzExact BkzHkz BkzTotal
  BkzDualModel EnumDual BkzDualSpec DualLat.
Import ListNotations.
Local Open Scope nat_scope.

Lemma inv_pos (q : Qc) : (0 < q)%Qc -> (0 < / q)%Qc.
Proof.
  intros Hq. assert (E : (q * / q = 1)%Qc) by (field; intros E; rewrite E in Hq; discriminate). revert E. generalize (/ q)%Qc. intros w E.
  destruct (Qclt_le_dec 0 w) as [|L]; auto. exfalso. assert (H : (q * w <= 0)%Qc) by (clear - Hq L; qcnra). rewrite E in H. apply (Qcle_not_lt _ _ H). reflexivity.
Qed.
(** ** reversal *)
Lemma reverse_rev (l : list Z) : 0 < length l -> reverse_by_swap l 0 (length l - 1) = Some (rev l).
Proof.
  intros HL. destruct (reverse_spec l 0 (length l - 1) ltac:(lia)) as [v [E H]]. rewrite E. f_equal. destruct H as [H1 H2].
  apply (nth_ext _ _ 0%Z 0%Z); [rewrite rev_length; auto|]. intros k Hk. rewrite rev_nth by lia.
  assert (P : (if 0 <? length l - 1 then rev_idx 0 (length l - 1) else fun k => k) k = length l - S k).
  { destruct (Nat.ltb_spec 0 (length l - 1)); [|lia]. unfold rev_idx. destruct (Nat.leb_spec k (length l - 1)); [|lia]. cbn. lia. }
  specialize (H2 k ltac:(lia)). rewrite P in H2. apply nth_error_nth. rewrite H2. apply nth_error_nth'. lia.
Qed.
Lemma nonzero_rev x : nonzero x -> nonzero (rev x).
Proof.
  intros H. apply (nonzero_lt (length x)); [apply rev_length|]. apply (nonzero_lt (length x) x eq_refl) in H. destruct H as [i [H1 H2]].
  exists (length x - S i). split; [lia|]. rewrite rev_nth by lia. replace (length x - S (length x - S i)) with i by lia. auto.
Qed.
Lemma primitive_rev m x : length x = m -> primitive m (fun i => nth i (rev x) 0%Z) -> primitive m (fun i => nth i x 0%Z).
Proof.
  intros HL H g Hg. apply H. intros i Hi. rewrite rev_nth by lia. apply Hg. lia.
Qed.

(** the operations of [dual_fops] and those of [svp_post] *)
Lemma dual_shape kappa d sol ops : 1 <= d -> svp_post kappa true d sol = Some ops -> Forall (inb kappa (kappa + d)) ops ->
  exists l, dual_fops kappa d sol = Some l /\
    ((exists a b, l = [FMove a b] /\ ops = [OMove a b]) \/
     (exists f e ops1 a b, l = [FTrans f e ops1; FMove a b] /\ ops = ops1 ++ [OMove a b] /\ f <= e <= kappa + d /\ Forall (op_in_range f e) ops1) \/
     (exists f e, l = [FTrans f e ops] /\ f <= e <= kappa + d /\ Forall (op_in_range f e) ops)).
Proof.
  intros Hd H HI. unfold svp_post in H. unfold dual_fops. pose proof (scan_unit d sol) as CU. destruct (scan d sol) as [nz iv]. cbn [fst snd] in *.
  destruct (nz =? 1).
  - destruct iv as [v|]; [injection H as <-; eexists; split; [reflexivity|]; left; eauto|].
    destruct (kappa =? 0); [discriminate|]. injection H as <-. eexists; split; [reflexivity|]. left; eauto.
  - destruct iv as [v|].
    + injection H as <-. eexists; split; [reflexivity|]. right. left. do 5 eexists. split; [reflexivity|]. split; [reflexivity|].
      destruct CU as [Hv _]. split; [lia|]. apply Forall_forall. intros o Ho. apply in_flat_map in Ho as [i [Hi Ho]]. apply in_seq in Hi.
      destruct (negb (sol i =? 0)%Z && negb (i =? v)); [|destruct Ho]. destruct Ho as [<-|[]]. cbn. lia.
    + unfold post_generic, generic_run in H. destruct (gtree kappa true d (fun i => Z.abs (sol i)) d 1) as [[x l]|] eqn:E; cbn [obind option_map snd] in H; [|discriminate].
      injection H as <-. cbn [obind snd]. rewrite app_nil_r in *. eexists; split; [reflexivity|]. right. right. do 2 eexists. split; [reflexivity|].
      split; [lia|].
      apply Forall_forall. intros o Ho. apply inb_range; [rewrite Forall_forall in HI; apply HI; auto|].
      apply in_app_or in Ho as [Ho|Ho]; [|pose proof (gtree_nm _ _ _ _ _ _ _ _ E) as N; rewrite Forall_forall in N; apply N; auto].
      unfold neg_ops in Ho. apply in_flat_map in Ho as [i [_ Ho]]. destruct (sol i <? 0)%Z; [|destruct Ho]. destruct Ho as [<-|[]]. exact I.
Qed.
(** the operations on rational functionals *)
Lemma act_ip c l (f : nat -> nat -> Z) w lo hi : Forall (inb lo hi) l -> forall (g : nat -> Z), (forall a, lo <= a < hi -> qsum c (fun t => w t * Qcz (f t a))%Qc = Qcz (g a)) ->
  forall a, lo <= a < hi -> qsum c (fun t => w t * Qcz (act_run l (f t) a))%Qc = Qcz (act_run l g a).
Proof.
  intros HL. revert f. induction HL as [|o l HO HL IH]; intros f g HG a Ha; [apply HG; auto|]. rewrite act_run_cons.
  rewrite (qsum_ext c _ (fun t => w t * Qcz (act_run l ((fun t => act o (f t)) t) a))%Qc) by (intros; rewrite act_run_cons; reflexivity).
  apply IH; auto. clear a Ha. intros a Ha.
  assert (L2 : forall x y p q, lo <= p < hi -> lo <= q < hi -> qsum c (fun t => w t * Qcz (x * f t p + y * f t q))%Qc = Qcz (x * g p + y * g q)).
  { intros x y p q Hp Hq. rewrite Qcz_add, !Qcz_mul, <- (HG p Hp), <- (HG q Hq), <- !qsum_scal, <- qsum_plus. apply qsum_ext. intros t Ht. rewrite Qcz_add, !Qcz_mul. ring. }
  assert (L1 : forall x p, lo <= p < hi -> qsum c (fun t => w t * Qcz (x * f t p))%Qc = Qcz (x * g p)).
  { intros x p Hp. rewrite Qcz_mul, <- (HG p Hp), <- !qsum_scal. apply qsum_ext. intros t Ht. rewrite Qcz_mul. ring. }
  destruct o; cbn [inb] in HO; try tauto; cbn [act]; unfold xset.
  - destruct (Nat.eqb_spec a i) as [->|]; [|apply HG; auto]. rewrite (qsum_ext c _ (fun t => w t * Qcz (1 * f t i + 1 * f t j))%Qc) by (intros; apply f_equal; apply f_equal; ring). rewrite L2 by lia. apply f_equal. ring.
  - destruct (Nat.eqb_spec a i) as [->|]; [|apply HG; auto]. rewrite (qsum_ext c _ (fun t => w t * Qcz (1 * f t i + -1 * f t j))%Qc) by (intros; apply f_equal; apply f_equal; ring). rewrite L2 by lia. apply f_equal. ring.
  - destruct (Nat.eqb_spec a i) as [->|]; [|apply HG; auto]. rewrite (qsum_ext c _ (fun t => w t * Qcz (1 * f t i + lx * f t j))%Qc) by (intros; apply f_equal; apply f_equal; ring). rewrite L2 by lia. apply f_equal. ring.
  - apply HG. apply tr_in; lia.
  - apply HG. apply mv_in; lia.
  - destruct (Nat.eqb_spec a i) as [->|]; [|apply HG; auto]. rewrite (qsum_ext c _ (fun t => w t * Qcz (-1 * f t i))%Qc) by (intros; apply f_equal; apply f_equal; ring). rewrite L1 by lia. apply f_equal. ring.
Qed.
Section S.
Variable rnd : Qc -> Z -> Qc.
Variable si ze : Qc -> Z -> Z * nat.
Variable expo : Qc -> Z.
Notation lo := (lq_ops rnd si ze expo).
Notation fo := qc_ops.
Variable P : lpar lo.
Notation en_e := (p_e P).
Notation FI := (FInv fo (p_e P)).
Notation lst := (lst lo).
Notation XP := (XP rnd si ze expo P).
Notation RR z := (qR (gc z) (gb z)).
Notation MM z := (qM (gc z) (gb z)).
Notation vc s j := (nth j (fvc s) 0).
Notation calm := (calm rnd si ze expo P).

(** what dual enumeration returns *)
Lemma enum_dual_gen rec fuel m mu r findsub R ne s : 0 < m -> (forall k, k < m -> (0 < r k)%Qc) -> (0 <= R)%Qc ->
  enum_run rec fuel ne accept_all BestN 1 (dual_input m mu r findsub None R ne) = Some s ->
  match kept s with
  | [] => forall y, length y = m -> nonzero y -> (R < dlen m mu r y)%Qc
  | p :: _ => length (snd p) = m /\ nonzero (snd p) /\ (dlen m mu r (rev (snd p)) <= R)%Qc /\
      fst p = dlen m mu r (rev (snd p)) /\
      forall y, length y = m -> nonzero y -> (dlen m mu r (rev (snd p)) <= dlen m mu r y)%Qc
  end.
Proof.
  intros Hm Hr HR H.
  destruct (dual_as_primal m mu r findsub None R ne Hm HR) with (evalS := eval_sol_cb (q_fops ne) accept_all BestN 1) (evalSub := eval_sub (q_fops ne)) (rst := no_rst qe_ops)
    (rec := rec) (fuel := fuel) (ev := ev_init (q_fops ne)) (s := s) as [f [s' [H1 [_ [H2 _]]]]].
  { intros i Hi E. specialize (Hr i Hi). rewrite E in Hr. discriminate. }
  { exact H. }
  assert (K : kept s' = kept s) by (unfold kept; rewrite H2; reflexivity).
  assert (Hr' : forall k, k < m -> (0 < dr m r k)%Qc).
  { intros k Hk. unfold dr. specialize (Hr (m - k - 1) ltac:(lia)). apply inv_pos; auto. }
  destruct (enum_shortest m (dnu m mu) (dr m r) findsub R ne rec f s' Hm Hr' HR H1) as [S1 S2].
  destruct (enum_best_n m (dnu m mu) (dr m r) findsub R ne 1 Hm Hr' HR ltac:(lia) rec f s' H1) as [A1 [A2 [A3 A4]]]. rewrite K in *.
  destruct (kept s) as [|[l x] t] eqn:EK.
  - intros y Ly Ny. apply Qcnot_le_lt. intros LE. destruct S1 as [x [X _]]; [|discriminate X].
    exists (rev y). split; [rewrite rev_length; auto|]. split; [apply nonzero_rev; auto|exact LE].
  - cbn [fst snd]. destruct (A2 l x ltac:(left; auto)) as [B1 [B2 [B3 [B4 _]]]]. split; auto. split; auto. unfold dlen at 1 2. rewrite rev_involutive. split; auto. split; auto.
    intros y Ly Ny. destruct S1 as [x' [X [_ [_ X2]]]]; [eauto|]. injection X as X0 X1 X3. subst x'. unfold dlen. rewrite rev_involutive. apply X2; [rewrite rev_length; auto|apply nonzero_rev; auto].
Qed.
Lemma enum_dual_q efuel ne rec (st : lst) kappa m R res : calm st -> 0 < m -> kappa + m <= nkr (lz st) -> (forall j, j < kappa + m -> j < vc (ls st) j) ->
  (forall j, j < kappa + m -> (0 < RR (lz st) j j)%Qc) -> (0 <= R)%Qc ->
  enum_dual rnd si ze expo P efuel ne rec st kappa m R = Some res ->
  match res with
  | None => forall y, length y = m -> nonzero y -> (R < dblen (gc (lz st)) (gb (lz st)) kappa m y)%Qc
  | Some x => length x = m /\ nonzero x /\ (dblen (gc (lz st)) (gb (lz st)) kappa m x <= R)%Qc /\ primitive m (fun i => nth i x 0%Z) /\
      forall y, length y = m -> nonzero y -> (dblen (gc (lz st)) (gb (lz st)) kappa m x <= dblen (gc (lz st)) (gb (lz st)) kappa m y)%Qc
  end.
Proof.
  intros [HF HX _ _] Hm HK HV HP HR E. unfold enum_dual in E.
  rewrite (oseq_map _ (fun i => RR (lz st) (kappa + i) (kappa + i))) in E.
  2:{ intros i Hi. apply in_seq in Hi. apply r_val_q; auto; try lia. apply HV. lia. }
  cbn [obind] in E.
  rewrite (oseq_map _ (fun j => map (fun i => MM (lz st) (kappa + j) (kappa + i)) (seq 0 j))) in E.
  2:{ intros j Hj. apply in_seq in Hj. apply oseq_map. intros i Hi. apply in_seq in Hi. apply (get_mu_q rnd si ze expo P); auto; try lia. apply Nat.lt_trans with (kappa + j); [lia|]. apply HV; lia. }
  cbn [obind] in E. set (r := map (fun i => RR (lz st) (kappa + i) (kappa + i)) (seq 0 m)) in *.
  set (mu := map (fun j => map (fun i => MM (lz st) (kappa + j) (kappa + i)) (seq 0 j)) (seq 0 m)) in *.
  set (muf := fun j i => nth i (nth j mu []) 0%Qc) in *. set (rf := fun i => nth i r 0%Qc) in *.
  assert (Er : forall i, i < m -> rf i = br (gc (lz st)) (gb (lz st)) kappa i).
  { intros i Hi. unfold rf, r. rewrite nth_map_seq by auto. reflexivity. }
  assert (Em : forall i j, i < j < m -> muf j i = bmu (gc (lz st)) (gb (lz st)) kappa j i).
  { intros i j Hij. unfold muf, mu. rewrite (nth_map_seq (fun j => map (fun i => MM (lz st) (kappa + j) (kappa + i)) (seq 0 j))) by lia. rewrite nth_map_seq by lia. reflexivity. }
  assert (EV : forall y, length y = m -> dlen m muf rf y = dblen (gc (lz st)) (gb (lz st)) kappa m y) by (intros y Hy; apply dlen_ext; auto).
  assert (Hr : forall k, k < m -> (0 < rf k)%Qc) by (intros k Hk; rewrite Er by auto; apply HP; lia).
  match type of E with obind ?A _ = _ => change A with (enum_run rec efuel (- ne r)%Z accept_all BestN 1 (dual_input m muf rf false None R (- ne r)%Z)) in E end.
  destruct (enum_run rec efuel (- ne r)%Z accept_all BestN 1 (dual_input m muf rf false None R (- ne r)%Z)) as [s|] eqn:ES; cbn [obind] in E; [|discriminate].
  pose proof (enum_dual_gen rec efuel m muf rf false R (- ne r)%Z s Hm Hr HR ES) as G.
  destruct (kept s) as [|[l x] t] eqn:EK.
  - injection E as <-. intros y Ly Ny. rewrite <- EV by auto. apply G; auto.
  - cbn [snd fst] in *. destruct G as [G1 [G2 [G3 [_ G4]]]].
    pose proof (reverse_rev x ltac:(lia)) as RV. rewrite G1 in RV. rewrite RV in E. cbn [obind] in E. injection E as <-.
    assert (L : length (rev x) = m) by (rewrite rev_length; auto). rewrite <- EV by auto. split; auto. split; [apply nonzero_rev; auto|]. split; auto. split.
    + apply primitive_rev; auto. apply (shortest_primitive m (dnu m muf) (dr m rf)); auto.
      * intros k Hk. unfold dr. specialize (Hr (m - k - 1) ltac:(lia)). apply inv_pos; auto.
      * rewrite rev_length. auto.
      * apply nonzero_rev, nonzero_rev; auto.
      * intros y Ly Ny. change (vlen m (dnu m muf) (dr m rf) (rev (rev x))) with (dlen m muf rf (rev x)).
        replace (vlen m (dnu m muf) (dr m rf) y) with (dlen m muf rf (rev y)) by (unfold dlen; rewrite rev_involutive; auto). apply G4; [rewrite rev_length; auto|apply nonzero_rev; auto].
    + intros y Ly Ny. rewrite <- EV by auto. apply G4; auto.
Qed.

(** the dual insertion *)
Lemma dual_insert_q (st : lst) kappa d sol : calm st -> en_i (lz st) = false -> kappa + d <= nkr (lz st) -> primitive d (fun i => nth i sol 0%Z) ->
  exists st', dual_insert rnd si ze expo P st kappa d sol = Some st' /\ calm st' /\ flags_eq (lz st) (lz st') /\ gd (lz st') = gd (lz st) /\
    dput (gc (lz st)) (gd (lz st)) (gb (lz st)) (gb (lz st')) kappa d sol.
Proof.
  intros [HF HX HL HG] HEI HK HP. pose proof (F_inv _ _ _ _ HF) as HI. pose proof (I_known _ HI) as IK. pose proof (primitive_pos _ _ HP) as Hd.
  destruct (post_act kappa true d _ HP) as [ops [E [F1 [_ [_ [s [Hs [_ F3]]]]]]]]. specialize (F3 eq_refl).
  destruct (dual_shape kappa d _ ops Hd E F1) as [l [EL SH]].
  destruct (block_run kappa (kappa + d) ops F1 (lz st) HI HL HK (fun _ => HEI)) as [LG [z' [R [I' [N' [L' [Fl' [G' A']]]]]]]].
  destruct (history_lattice ops (lz st) HI LG) as [z2 [R2 [_ [_ [C2 SL]]]]]. assert (z2 = z') by congruence. subst z2.
  assert (HRUN : exists s', frun fo en_e (lz st, ls st) l = Some (z', s') /\ FI z' s').
  { destruct SH as [[a [b [-> ->]]]|[[f [e [ops1 [a [b [-> [-> [Hfe HR]]]]]]]]|[f [e [-> [Hfe HR]]]]]].
    - cbn [legal_run] in LG. destruct LG as [LG _]. destruct (fmove_ok fo en_e (qc_laws _) (lz st) (ls st) a b HF LG) as [z1 [s1 [E1 [H1 M1]]]].
      cbn [frun fstep]. rewrite E1. cbn [obind]. exists s1. cbn [grun fold_left gstep obind] in R. 
      assert (z1 = z'); [|subst; auto]. cbn [grun gstep] in R. rewrite M1 in R. cbn [obind grun] in R. congruence.
    - assert (LG1 : legal_run (lz st) ops1 /\ forall z1, grun (lz st) ops1 = Some z1 -> legal_run z1 [OMove a b]).
      { clear - LG. revert LG. generalize (lz st). induction ops1 as [|o ops1 IH]; intros z LG; cbn [app legal_run] in *.
        - split; auto. cbn [grun]. intros z1 X. injection X as <-. auto.
        - destruct LG as [LG1 LG2]. rewrite grun_cons. destruct (gstep z o) as [z0|]; [destruct (IH z0 LG2) as [U V]; split; auto|split; auto; discriminate]. }
      destruct LG1 as [LG1 LG2].
      assert (FL : flegal fo (lz st, ls st) (FTrans f e ops1)) by (split; [lia|]; split; auto).
      destruct (fstep_ok fo en_e (qc_laws _) (lz st) (ls st) _ HF FL) as [z1 [s1 [E1 [H1 _]]]].
      assert (E1' := E1). cbn [fstep] in E1.
      destruct (grun (lz st) ops1) as [z1'|] eqn:EG; cbn [obind] in E1; [|discriminate]. destruct (row_op_end fo en_e z1' (ls st) f e) as [s1'|]; cbn [obind] in E1; [|discriminate].
      injection E1 as -> ->. destruct (LG2 z1 eq_refl) as [LM _].
      destruct (fmove_ok fo en_e (qc_laws _) z1 s1 a b H1 LM) as [z2 [s2 [E2 [H2 M2]]]].
      exists s2. assert (z2 = z'); [|subst z2; split; [apply (frun2 rnd si ze expo P (lz st, ls st) (FTrans f e ops1) (FMove a b) (z1, s1) (z', s2) E1' E2)|auto]].
      assert (X : grun (lz st) (ops1 ++ [OMove a b]) = obind (grun (lz st) ops1) (fun z => grun z [OMove a b])).
      { clear. generalize (lz st). induction ops1 as [|o ops1 IH]; intros z; cbn [app]; [reflexivity|]. rewrite !grun_cons. destruct (gstep z o); cbn [obind]; auto. }
      rewrite X, EG in R. cbn [obind] in R. rewrite grun_cons in R. cbn [gstep] in R. rewrite M2 in R. cbn in R. congruence.
    - assert (FL : flegal fo (lz st, ls st) (FTrans f e ops)) by (split; [lia|]; split; auto).
      destruct (fstep_ok fo en_e (qc_laws _) (lz st) (ls st) _ HF FL) as [z1 [s1 [E1 [H1 _]]]].
      assert (E1' := E1). cbn [fstep] in E1. rewrite R in E1. cbn [obind] in E1. destruct (row_op_end fo en_e z' (ls st) f e) as [s1'|]; cbn [obind] in E1; [|discriminate].
      injection E1 as <- <-. exists s1'. split; auto. cbn [frun]. match goal with |- obind ?A _ = _ => replace A with (Some (z', s1')) by (symmetry; exact E1') end. reflexivity. }
  destruct HRUN as [s' [ER HF']]. exists (set_zs st z' s'). unfold dual_insert. rewrite EL. cbn [obind].
  match goal with |- context [obind ?A _] => replace A with (Some (z', s')) by (symmetry; exact ER) end. cbn [obind fst snd]. split; auto.
  cbn [lz ls set_zs]. destruct Fl' as [Fa [Fb [Fc [Fd Fe]]]].
  split. { constructor; cbn [lz ls set_zs]; auto; [intros X; rewrite Fb; auto|congruence]. }
  split; [repeat split; auto|]. split; auto. split; [unfold gd in G'; auto|]. split.
  { intros a Ha Ho. destruct (I_b _ HI) as [B1 B2]. destruct (I_b _ I') as [B3 B4].
    apply (nth_ext _ _ 0%Z 0%Z); [rewrite B4, B2 by lia; auto|]. intros k _. change (ent (gb z') a k = ent (gb (lz st)) a k).
    rewrite A' by auto. rewrite (act_run_out kappa (kappa + d)); auto. }
  split. { unfold gd. apply LB_same; [unfold gd in G'; auto|auto]. }
  split. { intros a Ha. destruct (act_run_inv kappa d ops F1 a Ha) as [X HX']. exists X. intros t Ht. rewrite (HX' (fun a => ent (gb (lz st)) a t)).
    apply zsum_ext. intros b Hb. f_equal. symmetry. apply A'. lia. }
  split. { intros a Ha. destruct (act_fwd kappa d ops F1 a Ha) as [X HX']. exists X. intros t Ht. rewrite A' by lia. apply HX'. }
  exists s. split; auto. intros w HW i Hi. unfold ip.
  rewrite (qsum_ext _ _ (fun t => w t * Qcz (act_run ops (fun a => ent (gb (lz st)) a t) (kappa + i)))%Qc) by (intros t Ht; unfold qrow; rewrite A' by lia; reflexivity).
  rewrite (act_ip (gc (lz st)) ops (fun t a => ent (gb (lz st)) a t) w kappa (kappa + d) F1 (fun a => nth (a - kappa) sol 0%Z)).
  - f_equal. rewrite F3; auto. intros j Hj. f_equal. lia.
  - intros a Ha. specialize (HW (a - kappa) ltac:(lia)). replace (kappa + (a - kappa)) with a in HW by lia. exact HW.
  - lia.
Qed.
End S.

Section T.
Variable rnd : Qc -> Z -> Qc.
Variable si ze : Qc -> Z -> Z * nat.
Variable expo : Qc -> Z.
Notation lo := (lq_ops rnd si ze expo).
Notation fo := qc_ops.
Variable P : lpar lo.
Notation lst := (lst lo).
Notation RR z := (qR (gc z) (gb z)).
Notation MM z := (qM (gc z) (gb z)).
Notation vc s j := (nth j (fvc s) 0).
Notation half := (Q2Qc (1 # 2)).
Hypothesis HX : exact_rounding rnd si ze.
Hypothesis Heta : (half <= p_eta P)%Qc.
Hypothesis Hthr : p_thr P = (if p_siegel P then p_delta P - p_eta P * p_eta P else p_delta P)%Qc.
Hypothesis Hdelta : (p_eta P * p_eta P < p_delta P)%Qc.
Hypothesis Hearly : p_early P = false.
Variables (fuel : nat) (max_iter : list (list Z) -> nat) (ne : list Qc -> Z) (rec : bool) (delta : Qc).
Hypothesis Hfuel : 2 <= fuel.
Hypothesis Hd0 : (0 <= delta)%Qc.
Variables (c D : nat).
Notation calm := (calm rnd si ze expo P).
Notation stable := (stable rnd si ze expo P c).
Notation lstable := (lstable rnd si ze expo P c).
Notation reds := (reds rnd si ze expo P c).
Notation ready := (ready rnd si ze expo P c D).
Notation valid_to := (valid_to rnd si ze expo).
Notation size_reduced_to := (size_reduced_to rnd si ze expo P c).
Notation dblen := (dblen c).
Notation dput := (dput c D).
Notation dsvp ef := (dsvp_reduction rnd si ze expo P fuel ef max_iter ne rec delta).
Notation dblocks ef := (dblocks rnd si ze expo P fuel ef max_iter ne rec delta).

Definition lovasz_to (B : list (list Z)) (n : nat) : Prop := forall i, 0 < i < n -> (p_thr P * qR c B (i - 1) (i - 1) <= qproj c B i (tidx lo P i))%Qc.

(** ** one call of svp_reduction with dual = true *)
Lemma dsvp_gen (J : list (list Z) -> Prop) ef (st st' : lst) kappa m b : (forall B, J B -> all_pos c B D) -> stable J -> lstable (kappa + m) J ->
  ready st -> 0 < m -> kappa + m <= D -> J (gb (lz st)) ->
  dsvp ef st kappa m = Some (st', BRet b) ->
  exists B0 B1 B2, J B0 /\ J B1 /\ length B1 = D /\
    (B2 = B1 /\ (forall y, length y = m -> nonzero y -> (/ qR c B1 (kappa + m - 1) (kappa + m - 1) * delta < dblen B1 kappa m y)%Qc) \/
     exists x, length x = m /\ nonzero x /\ (dblen B1 kappa m x <= / qR c B1 (kappa + m - 1) (kappa + m - 1) * delta)%Qc /\
       (forall y, length y = m -> nonzero y -> (dblen B1 kappa m x <= dblen B1 kappa m y)%Qc) /\ dput B1 B2 kappa m x) /\
    reds B2 (gb (lz st')) /\ length B2 = D /\ all_pos c B2 D /\ ready st' /\ valid_to st' (kappa + m) /\ size_reduced_to (gb (lz st')) (kappa + m) /\
    (b = true <-> (qR c (gb (lz st')) (kappa + m - 1) (kappa + m - 1) <= qR c B0 (kappa + m - 1) (kappa + m - 1))%Qc) /\
    reds (gb (lz st)) B0 /\ size_reduced_to B1 (kappa + m) /\ lovasz_to B1 (kappa + m).
Proof.
  intros HJp HJs HJl HR Hm HD HJ E. unfold dsvp_reduction in E. replace (S (kappa + m - 1)) with (kappa + m) in E by lia. set (fi := kappa + m - 1) in *.
  destruct (size_red_q rnd si ze expo P HX Heta fuel Hfuel c D st 0 (kappa + m) 0 HR ltac:(lia) ltac:(lia) ltac:(split; [lia|intros; lia])) as [s0 [E0 [R0 [S0 [V0 _]]]]].
  rewrite Nat.add_0_l in E0, V0. rewrite E0 in E. cbn [obind fst snd] in E. clear E0.
  pose proof (S0 J HJs HJ) as J0. pose proof R0 as [C0 G0 D0 I0 P0].
  destruct (r_exp_q rnd si ze expo P (lz s0) (ls s0) fi) as [ro [eo [EO RO]]]; [apply C0|apply C0|destruct V0; lia|destruct V0 as [_ V0]; apply V0; lia|].
  match type of E with obind ?A _ = _ => replace A with (Some (ro, eo)) in E by (symmetry; exact EO) end. cbn [obind fst snd] in E. clear EO.
  destruct (lll lo P fuel max_iter s0 0 0 (kappa + m) 0) as [[s1 o1]|] eqn:E1; cbn [obind fst snd] in E; [|discriminate].
  destruct o1; try discriminate.
  destruct (lll_k rnd si ze expo P HX Heta Hthr Hdelta c J (kappa + m) HJl fuel max_iter s0 s1 Hfuel Hearly C0 G0 ltac:(lia) ltac:(intros j Hj; apply P0; lia) J0 E1)
    as [C1 [F1 [D1 [J1 [P1 [L1 [L2 [L3 L4]]]]]]]]. clear E1.
  destruct F1 as [Fa [Fb [Fc [Fd Fe]]]]. assert (G1 : gc (lz s1) = c) by congruence. pose proof (HJp _ J1) as A1.
  rewrite (r_val_q rnd si ze expo P s1 fi) in E by (try apply C1; try lia; apply L1; lia). cbn [obind] in E.
  destruct (enum_dual rnd si ze expo P ef ne rec s1 kappa m (/ RR (lz s1) fi fi * delta)%Qc) as [res|] eqn:EB; cbn [obind] in E; [|discriminate].
  assert (RP : (0 < / RR (lz s1) fi fi)%Qc) by (apply inv_pos; rewrite G1; apply A1; lia).
  assert (RN : (0 <= / RR (lz s1) fi fi * delta)%Qc).
  { set (r := (/ RR (lz s1) fi fi)%Qc) in *. clearbody r. clear - RP Hd0. qcnra. }
  pose proof (enum_dual_q rnd si ze expo P ef ne rec s1 kappa m _ res C1 Hm L2 L1 ltac:(intros j Hj; rewrite G1; apply A1; lia) RN EB) as EN. clear EB. rewrite G1 in EN.
  assert (HS : exists s2, match res with Some x => dual_insert rnd si ze expo P s1 kappa m x | None => Some s1 end = Some s2 /\ ready s2 /\
    (gb (lz s2) = gb (lz s1) /\ (forall y, length y = m -> nonzero y -> (/ qR c (gb (lz s1)) fi fi * delta < dblen (gb (lz s1)) kappa m y)%Qc) \/
     exists x, length x = m /\ nonzero x /\ (dblen (gb (lz s1)) kappa m x <= / qR c (gb (lz s1)) fi fi * delta)%Qc /\
       (forall y, length y = m -> nonzero y -> (dblen (gb (lz s1)) kappa m x <= dblen (gb (lz s1)) kappa m y)%Qc) /\ dput (gb (lz s1)) (gb (lz s2)) kappa m x)).
  { destruct res as [x|].
    - destruct EN as [N1 [N2 [N3 [PR N4]]]].
      destruct (dual_insert_q rnd si ze expo P s1 kappa m x C1 ltac:(congruence) L2 PR) as [s2 [X1 [X2 [X3 [X4 X5]]]]].
      exists s2. split; [exact X1|]. destruct X3 as [Ya [Yb [Yc [Yd Ye]]]]. rewrite G1, D1, D0 in X5.
      split; [constructor; auto; try congruence|].
      { eapply (LB_pos c D (gb (lz s1))); eauto. apply X5. }
      right. exists x. auto.
    - exists s1. split; auto. split; [constructor; auto; congruence|]. left. split; auto. }
  destruct HS as [s2 [E2 [R2 H2]]].
  match type of E with obind ?A _ = _ => replace A with (Some s2) in E by (symmetry; exact E2) end. cbn [obind] in E. clear E2.
  destruct (size_red_q rnd si ze expo P HX Heta fuel Hfuel c D s2 0 (kappa + m) 0 R2 ltac:(lia) ltac:(lia) ltac:(split; [lia|intros; lia])) as [s3 [E3 [R3 [S3 [V3 [_ M3]]]]]].
  rewrite Nat.add_0_l in E3, V3. rewrite E3 in E. cbn [obind fst snd] in E. clear E3. pose proof R3 as [C3 G3 D3 I3 P3].
  destruct (r_exp_q rnd si ze expo P (lz s3) (ls s3) fi) as [rn [en [EN3 RN3]]]; [apply C3|apply C3|destruct V3; lia|destruct V3 as [_ V3]; apply V3; lia|].
  match type of E with obind ?A _ = _ => replace A with (Some (rn, en)) in E by (symmetry; exact EN3) end. cbn [obind fst snd] in E. clear EN3.
  injection E as <- <-.
  exists (gb (lz s0)), (gb (lz s1)), (gb (lz s2)). split; auto. split; auto. split; [unfold gd in *; congruence|]. split; auto. split; auto.
  split; [unfold gd in *; apply (R_gd _ _ _ _ _ _ _ _ R2)|]. split; [apply (R_p _ _ _ _ _ _ _ _ R2)|]. split; auto. split; auto. split; [intros i j Hi Hj; apply M3; lia|].
  split; [|split; [exact S0|]; split; [intros i j Hi Hj; rewrite <- G1; apply L3; lia|intros i Hi; rewrite <- G1; apply L4; auto]].
  rewrite G0 in RO. rewrite G3 in RN3. rewrite <- RO, <- RN3. rewrite negb_true_iff. clear.
  assert (PE : pow2 (en - eo) = (pow2 en * pow2 (- eo))%Qc) by (rewrite <- pow2_add; f_equal; lia).
  assert (PO : (pow2 eo * pow2 (- eo) = 1)%Qc) by apply pow2_inv. pose proof (EnumCall.pow2_pos eo) as Q1. pose proof (EnumCall.pow2_pos (- eo)) as Q2.
  set (u := pow2 en) in *. set (w := pow2 (- eo)) in *. set (t := pow2 eo) in *. set (q := pow2 (en - eo)) in *. clearbody u w t q. change (F fo) with Qc in *.
  assert (X : (rn * u)%Qc = (rn * q * t)%Qc) by (rewrite PE; transitivity (rn * u * (t * w))%Qc; [rewrite PO; ring|ring]).
  rewrite X. clear X PE. generalize dependent (rn * q)%Qc. intros a. split; intros H.
  - assert (L : (a <= ro)%Qc) by (apply Qcnot_lt_le; intros L; apply qltb_lt in L; congruence). clear - L Q1. qcnra.
  - destruct (qltb ro a) eqn:EL; auto. apply qltb_lt in EL. exfalso. clear - EL Q1 H. qcnra.
Qed.

Lemma dred_stable k m dl : 0 < m -> k + m <= D -> stable (fun B => length B = D /\ all_pos c B D /\ dred c B dl k m).
Proof.
  intros Hm HD B B' kp srs [H1 [H2 H3]] Hk HL _ HR _. split; [congruence|]. split; [eapply row_changed_pos; eauto; lia|].
  eapply (dred_row c B B' kp D); eauto; lia.
Qed.
(** the block is dual-reduced afterwards *)
Lemma dsvp_dred ef st st' k m b (Bs : list (list Z)) : (delta <= 1)%Qc -> ready st -> 0 < m -> k + m <= D -> LK c D Bs (gb (lz st)) -> dsvp ef st k m = Some (st', BRet b) ->
  ready st' /\ valid_to st' (k + m) /\ size_reduced_to (gb (lz st')) (k + m) /\ LK c D Bs (gb (lz st')) /\ dred c (gb (lz st')) delta k m.
Proof.
  intros Hd1 HR Hm HD HK E.
  destruct (dsvp_gen (LK c D Bs) ef st st' k m b) as [B0 [B1 [B2 [J0 [J1 [L1 [HC [RE [L2 [P2 [R' [V' [S' _]]]]]]]]]]]]]; auto.
  { intros B HB. apply HB. }
  { apply (LK_stable rnd si ze expo P fuel Hfuel). }
  { apply (LK_lstable rnd si ze expo P fuel Hfuel); auto. }
  split; auto. split; auto. split; auto. destruct J1 as [_ [G2 G3]].
  split.
  - apply RE; [apply (LK_stable rnd si ze expo P fuel Hfuel)|]. destruct HC as [[-> _]|[x [_ [_ [_ [_ X5]]]]]]; [split; auto|]. split; auto. split; auto. intros v. rewrite <- G2. apply X5.
  - apply (RE _ (dred_stable k m delta Hm HD)). split; auto. split; auto. destruct HC as [[-> HN]|[x [X1 [X2 [X3 [X4 X5]]]]]].
    + assert (NZ : forall i, i < m -> qR c B1 (k + i) (k + i) <> 0%Qc).
      { intros i Hi EE. specialize (G3 (k + i) ltac:(lia)). rewrite EE in G3. discriminate. }
      apply dred_coef; auto. intros y Ly Ny. specialize (HN y Ly Ny). fold (dblen B1 k m y). pose proof (G3 (k + m - 1) ltac:(lia)) as PK.
      set (r := qR c B1 (k + m - 1) (k + m - 1)) in *. assert (RI : (r * / r = 1)%Qc) by (field; intros EE; rewrite EE in PK; discriminate).
      apply Qclt_le_weak. replace delta with (r * (/ r * delta))%Qc by (rewrite Qcmult_assoc, RI; ring).
      revert HN. generalize (dblen B1 k m y), (/ r * delta)%Qc. clear - PK. clearbody r. intros; qcnra.
    + apply (dput_dred c D B1 B2 k m x); auto.
Qed.

(** ** blocks that change nothing *)
Section Same.
Hypothesis Hd1 : (delta < 1)%Qc.
Variable B0 : list (list Z).
Hypothesis HL0 : length B0 = D.
Hypothesis HA0 : all_pos c B0 D.
Hypothesis HM0 : forall i j, i < D -> j < i -> (qabs (qM c B0 i j) <= p_eta P)%Qc.
Hypothesis HP0 : forall i, 0 < i < D -> (p_thr P * qR c B0 (i - 1) (i - 1) <= qproj c B0 i (tidx lo P i))%Qc.
Lemma same_dsvp ef st st' k m : ready st -> 0 < m -> k + m <= D -> gb (lz st) = B0 -> dsvp ef st k m = Some (st', BRet true) ->
  gb (lz st') = B0 /\ ready st' /\ valid_to st' (k + m) /\ dred c B0 delta k m.
Proof.
  intros HR Hm HD HB E.
  assert (HK : LK c D B0 (gb (lz st))) by (rewrite HB; split; auto; split; auto; tauto).
  destruct (dsvp_dred ef st st' k m true B0 ltac:(apply Qclt_le_weak; auto) HR Hm HD HK E) as [_ [_ [_ [_ DR]]]].
  destruct (dsvp_gen (fun B => B = B0) ef st st' k m true) as [Ba [B1 [B2 [-> [-> [L1 [HC [RE [L2 [P2 [R' [V' [S' [F _]]]]]]]]]]]]]]; auto.
  { intros B ->. auto. }
  { exact (same_stable rnd si ze expo P fuel Hfuel c D B0 HL0 HM0). }
  { apply (same_lstable rnd si ze expo P fuel Hfuel c D B0 HL0 HM0 HP0). auto. }
  assert (SB : gb (lz st') = B0).
  { destruct HC as [[-> HN]|[x [X1 [X2 [X3 [X4 X5]]]]]].
    - apply (RE (fun B => B = B0)); auto. exact (same_stable rnd si ze expo P fuel Hfuel c D B0 HL0 HM0).
    - exfalso. pose proof (dput_R c D B0 B2 k m x HA0 P2 Hm HD X1 X5) as E2.
      assert (E3 : qR c (gb (lz st')) (k + m - 1) (k + m - 1) = qR c B2 (k + m - 1) (k + m - 1)).
      { assert (Q : length (gb (lz st')) = D /\ all_pos c (gb (lz st')) D /\ qR c (gb (lz st')) (k + m - 1) (k + m - 1) = qR c B2 (k + m - 1) (k + m - 1)); [|apply Q].
        apply (RE (fun B => length B = D /\ all_pos c B D /\ qR c B (k + m - 1) (k + m - 1) = qR c B2 (k + m - 1) (k + m - 1))); auto.
        intros B B' kp srs [G1 [G2 G3]] Hkp GL _ HRC _. split; [congruence|]. split; [eapply row_changed_pos; eauto; lia|].
        rewrite <- G3. apply (row_changed_S c B B' kp D HRC); auto; lia. }
      pose proof (proj1 F eq_refl) as FL. rewrite E3 in FL. pose proof (HA0 (k + m - 1) ltac:(lia)) as PK. pose proof (P2 (k + m - 1) ltac:(lia)) as PK2.
      set (r := qR c B0 (k + m - 1) (k + m - 1)) in *. set (r2 := qR c B2 (k + m - 1) (k + m - 1)) in *. set (a := dblen B0 k m x) in *.
      assert (RI : (r * / r = 1)%Qc) by (field; intros EE; rewrite EE in PK; discriminate).
      assert (X6 : (r * a <= delta)%Qc).
      { replace delta with (r * (/ r * delta))%Qc by (rewrite Qcmult_assoc, RI; ring). revert X3. generalize (/ r * delta)%Qc. clear - PK. clearbody r a. intros; qcnra. }
      assert (PA : (0 < a)%Qc). { destruct (Qclt_le_dec 0 a); auto. exfalso. assert (X : (r2 * a <= 0)%Qc) by (clear - q PK2; clearbody r2 a; qcnra). rewrite E2 in X. apply (Qcle_not_lt _ _ X). reflexivity. }
      assert (X7 : (r2 * a <= r * a)%Qc) by (clear - FL PA; clearbody r r2 a; qcnra). rewrite E2 in X7. clear - X6 X7 Hd1. set (w := (r * a)%Qc) in *. clearbody w. qclra. }
  split; auto. split; auto. split; auto. rewrite <- SB at 1. exact DR.
Qed.
(** the first dual block of a tour, at the end of the basis: nothing is assumed about the basis *)
End Same.
Lemma last_lstable kend t : (p_thr P = p_delta P)%Qc -> p_siegel P = false -> (p_delta P <= 1)%Qc -> 0 < kend <= D ->
  lstable kend (fun B => length B = D /\ all_pos c B D /\ (t <= qR c B (kend - 1) (kend - 1))%Qc).
Proof.
  intros HT HSg HD1 Hke B B' k k' [H1 [H2 H3]] Hk HE HA [B1 [L1 [R1 [_ HC]]]].
  pose proof (row_changed_pos c B B1 k D R1 ltac:(lia) H2) as A1.
  assert (T1 : (t <= qR c B1 (kend - 1) (kend - 1))%Qc).
  { pose proof (row_changed_S c B B1 k D R1 ltac:(lia) H2 (kend - 1) ltac:(lia)) as [_ ->]. auto. }
  destruct HC as [[_ ->]|[i [Hi [_ [L2 [HI [HF _]]]]]]]; [split; [congruence|auto]|].
  assert (A2 : all_pos c B' D) by (apply (inserted_pos c B1 B' k i D); auto; lia).
  split; [congruence|]. split; auto. eapply Qcle_trans; [exact T1|].
  pose proof (gram_det_step c B1 (kend - 1)) as G1. pose proof (gram_det_step c B' (kend - 1)) as G2. replace (S (kend - 1)) with kend in G1, G2 by lia.
  rewrite (gram_det_outside c B1 B' k i kend) in G2 by (auto; lia). rewrite G1 in G2. clear G1.
  pose proof (all_pos_det c B' D (kend - 1) A2 ltac:(lia)) as PD'.
  assert (LE : (Qcz (gram_det c B' (kend - 1)) <= Qcz (gram_det c B1 (kend - 1)))%Qc).
  { destruct (Nat.eq_dec k (kend - 1)) as [->|N]; [|rewrite (gram_det_outside c B1 B' k i (kend - 1)) by (auto; lia); apply Qcle_refl].
    rewrite (gram_det_inside c B1 B' (kend - 1) i (kend - 1)) by (auto; lia).
    pose proof (gram_det_step c B1 (kend - 1 - 1)) as G3. replace (S (kend - 1 - 1)) with (kend - 1) in G3 by lia. rewrite G3.
    unfold tidx in HF. rewrite HSg, HT in HF. pose proof (all_pos_det c B1 D (kend - 1 - 1) A1 ltac:(lia)) as PD. pose proof (A1 (kend - 1 - 1) ltac:(lia)) as PR.
    revert HF PD PR. generalize (qproj c B1 (kend - 1) (kend - 1 - 1)), (Qcz (gram_det c B1 (kend - 1 - 1))), (qR c B1 (kend - 1 - 1) (kend - 1 - 1)).
    clear - HD1. intros p g r HF PD PR. assert (p <= r)%Qc by (set (q := (p_delta P * r)%Qc) in *; assert (q <= r)%Qc by (unfold q; clear - HD1 PR; qcnra); clearbody q; qclra). clear - H PD. qcnra. }
  pose proof (A1 (kend - 1) ltac:(lia)) as PR1. pose proof (A2 (kend - 1) ltac:(lia)) as PR2.
  revert G2 PD' LE PR1 PR2. generalize (Qcz (gram_det c B' (kend - 1))), (Qcz (gram_det c B1 (kend - 1))), (qR c B1 (kend - 1) (kend - 1)), (qR c B' (kend - 1) (kend - 1)).
  clear. intros g' g r r' E P1 L P2 P3. destruct (Qclt_le_dec r' r) as [X|X]; auto. exfalso.
  assert (g' * r' < g * r)%Qc; [|rewrite E in H; apply (Qclt_not_eq _ _ H); reflexivity].
  apply Qclt_le_trans with (g' * r)%Qc; [clear - P1 X; qcnra|clear - L P2; qcnra].
Qed.
Lemma first_dsvp ef st st' k m (Bs : list (list Z)) : (p_thr P = p_delta P)%Qc -> p_siegel P = false -> (p_delta P <= 1)%Qc -> (delta < 1)%Qc ->
  ready st -> 0 < m -> k + m = D -> LK c D Bs (gb (lz st)) -> dsvp ef st k m = Some (st', BRet true) ->
  ready st' /\ LK c D Bs (gb (lz st')) /\ size_reduced_to (gb (lz st')) D /\ lovasz_to (gb (lz st')) D /\ dred c (gb (lz st')) delta k m.
Proof.
  intros HT HSg HD1 Hd1 HR Hm HD HK E.
  destruct (dsvp_dred ef st st' k m true Bs ltac:(apply Qclt_le_weak; auto) HR Hm ltac:(lia) HK E) as [R' [_ [S' [K' DR]]]].
  set (t := qR c (gb (lz st)) (D - 1) (D - 1)).
  assert (TS : forall a, stable (fun B => length B = D /\ all_pos c B D /\ (a <= qR c B (D - 1) (D - 1))%Qc)).
  { intros a B B' kp srs [G1 [G2 G3]] Hkp GL _ HRC _. split; [congruence|]. split; [eapply row_changed_pos; eauto; lia|].
    pose proof (row_changed_S c B B' kp D HRC ltac:(lia) G2 (D - 1) ltac:(lia)) as [_ ->]. auto. }
  assert (TS2 : forall a, stable (fun B => length B = D /\ all_pos c B D /\ qR c B (D - 1) (D - 1) = a)).
  { intros a B B' kp srs [G1 [G2 G3]] Hkp GL _ HRC _. split; [congruence|]. split; [eapply row_changed_pos; eauto; lia|].
    pose proof (row_changed_S c B B' kp D HRC ltac:(lia) G2 (D - 1) ltac:(lia)) as [_ ->]. auto. }
  destruct (dsvp_gen (fun B => length B = D /\ all_pos c B D /\ (t <= qR c B (D - 1) (D - 1))%Qc) ef st st' k m true) as [B0 [B1 [B2 [J0 [J1 [L1 [HC [RE [L2 [P2 [_ [_ [_ [F [RE0 [SR1 LV1]]]]]]]]]]]]]]]]; auto; try lia.
  { intros B HB. apply HB. }
  { rewrite HD. apply last_lstable; auto. lia. }
  { destruct HK as [K1 [_ K3]]. split; auto. split; auto. apply Qcle_refl. }
  rewrite HD in *. destruct HK as [K1 [K2 K3]]. destruct J1 as [_ [A1 T1]].
  assert (E0 : qR c B0 (D - 1) (D - 1) = t) by (apply (RE0 _ (TS2 t)); auto).
  assert (E2 : qR c (gb (lz st')) (D - 1) (D - 1) = qR c B2 (D - 1) (D - 1)) by (apply (RE _ (TS2 (qR c B2 (D - 1) (D - 1)))); auto).
  pose proof (proj1 F eq_refl) as FL. rewrite E0, E2 in FL.
  assert (SB : gb (lz st') = B1).
  { destruct HC as [[-> _]|[x [X1 [X2 [X3 [X4 X5]]]]]].
    - apply (RE (fun B => B = B1)); auto. exact (same_stable rnd si ze expo P fuel Hfuel c D B1 L1 SR1).
    - exfalso. pose proof (dput_R c D B1 B2 k m x A1 P2 Hm ltac:(lia) X1 X5) as X6. rewrite HD in X6.
      pose proof (A1 (D - 1) ltac:(lia)) as PK. pose proof (P2 (D - 1) ltac:(lia)) as PK2.
      revert X3 X6 FL T1 PK PK2. generalize (dblen B1 k m x), (qR c B1 (D - 1) (D - 1)), (qR c B2 (D - 1) (D - 1)). clearbody t. clear - Hd1 Hd0. intros a r r2 X3 X6 FL T1 PK PK2.
      assert (RI : (r * / r = 1)%Qc) by (field; intros EE; rewrite EE in PK; discriminate).
      assert (X7 : (r * a <= delta)%Qc).
      { replace delta with (r * (/ r * delta))%Qc by (rewrite Qcmult_assoc, RI; ring). revert X3. generalize (/ r * delta)%Qc. clear - PK. intros; qcnra. }
      assert (PA : (0 < a)%Qc). { destruct (Qclt_le_dec 0 a); auto. exfalso. assert (X : (r2 * a <= 0)%Qc) by (clear - q PK2; qcnra). rewrite X6 in X. apply (Qcle_not_lt _ _ X). reflexivity. }
      assert (X8 : (r2 <= r)%Qc) by (clear - FL T1; qclra).
      assert (X9 : (r2 * a <= r * a)%Qc) by (clear - X8 PA; qcnra). rewrite X6 in X9. clear - X7 X9 Hd1. set (w := (r * a)%Qc) in *. clearbody w. qclra. }
  rewrite SB in *. split; auto.
Qed.
Lemma dblocks_false ef beta : forall cnt st k cl st', dblocks ef beta cnt st k cl = Some (st', BRet true) -> cl = false -> False.
Proof.
  induction cnt as [|cnt IH]; intros st k cl st' E ->; cbn [BkzDualModel.dblocks] in E; [discriminate|].
  destruct (dsvp ef st k beta) as [[s1 [b1|]]|] eqn:E1; cbn [obind fst snd] in E; try discriminate. eapply IH; eauto.
Qed.
Section Same2.
Hypothesis Hd1 : (delta < 1)%Qc.
Variable B0 : list (list Z).
Hypothesis HL0 : length B0 = D.
Hypothesis HA0 : all_pos c B0 D.
Hypothesis HM0 : forall i j, i < D -> j < i -> (qabs (qM c B0 i j) <= p_eta P)%Qc.
Hypothesis HP0 : forall i, 0 < i < D -> (p_thr P * qR c B0 (i - 1) (i - 1) <= qproj c B0 i (tidx lo P i))%Qc.
Lemma same_dblocks ef beta : 0 < beta -> forall cnt st k cl st', ready st -> cnt <= S k -> k + beta <= D -> gb (lz st) = B0 ->
  dblocks ef beta cnt st k cl = Some (st', BRet true) ->
  cl = true /\ gb (lz st') = B0 /\ ready st' /\ forall i, k < i + cnt -> i <= k -> dred c B0 delta i beta.
Proof.
  intros Hb. induction cnt as [|cnt IH]; intros st k cl st' HR Hc HD HB E; cbn [BkzDualModel.dblocks] in E.
  - injection E as <- ->. split; auto. split; auto. split; auto. intros; lia.
  - destruct (dsvp ef st k beta) as [[s1 [b1|]]|] eqn:E1; cbn [obind fst snd] in E; try discriminate.
    destruct b1; [|destruct (dblocks_false ef beta cnt s1 (k - 1) (cl && false) st' E ltac:(apply andb_false_r))].
    destruct (same_dsvp Hd1 B0 HL0 HA0 HM0 HP0 ef st s1 k beta HR Hb HD HB E1) as [A1 [A2 [A3 A4]]]. destruct cnt as [|cnt].
    + injection E as <- E. rewrite andb_true_r in E. subst cl. split; auto. split; auto. split; auto. intros i H1 H2. assert (i = k) by lia. subst i. auto.
    + destruct (IH s1 (k - 1) (cl && true) st' A2 ltac:(lia) ltac:(lia) A1 E) as [C1 [C2 [C3 C4]]]. rewrite andb_true_r in C1. split; auto. split; auto. split; auto.
      intros i H1 H2. destruct (Nat.eq_dec i k) as [->|N]; auto. apply C4; lia.
Qed.
End Same2.

(** ** the calls keep the lattice *)
Section Keep.
Variable Bs : list (list Z).
Hypothesis Hde1 : (delta <= 1)%Qc.
Notation LK := (LK c D Bs).
Notation svp ef := (svp_reduction rnd si ze expo P fuel ef max_iter ne rec delta).
Notation blocks ef := (blocks rnd si ze expo P fuel ef max_iter ne rec delta).
Notation sd_tour ef := (sd_tour rnd si ze expo P fuel ef max_iter ne rec delta).
Notation sd_loop ef := (sd_loop rnd si ze expo P fuel ef max_iter ne rec delta).
Lemma svp_keep ef st kappa m st' b : ready st -> LK (gb (lz st)) -> 0 < m -> kappa + m <= D -> svp ef st kappa m = Some (st', BRet b) -> ready st' /\ LK (gb (lz st')).
Proof.
  intros HR HJ Hm HD E.
  destruct (svp_gen rnd si ze expo P HX Heta Hthr Hdelta Hearly fuel ef max_iter ne rec delta Hfuel Hd0 c D LK st st' kappa m b)
    as [B0 [B1 [B2 [J0 [J1 [L1 [HC [RE [L2 [P2 [R' [V' _]]]]]]]]]]]]; auto.
  { intros B HB. apply HB. }
  { apply (LK_stable rnd si ze expo P fuel Hfuel). }
  { apply (LK_lstable rnd si ze expo P fuel Hfuel). auto. }
  split; auto. apply RE; [apply (LK_stable rnd si ze expo P fuel Hfuel)|]. destruct HC as [[-> _]|[x [_ [_ [_ [_ [_ [U [LL _]]]]]]]]]; auto.
  destruct J1 as [G1 [G2 G3]]. split; auto. split; auto. intros v. rewrite LL. auto.
Qed.
Lemma blocks_keep ef size : forall cnt st k cl st' b, ready st -> LK (gb (lz st)) -> (forall i, k <= i < k + cnt -> 0 < size i /\ i + size i <= D) ->
  blocks ef size cnt st k cl = Some (st', BRet b) -> ready st' /\ LK (gb (lz st')).
Proof.
  induction cnt as [|cnt IH]; intros st k cl st' b HR HJ HS E; cbn [BkzExactModel.blocks] in E; [injection E as <- _; auto|].
  destruct (svp ef st k (size k)) as [[s1 [b1|]]|] eqn:E1; cbn [obind fst snd] in E; try discriminate.
  destruct (HS k ltac:(lia)) as [S1 S2]. destruct (svp_keep ef st k (size k) s1 b1 HR HJ S1 S2 E1) as [R1 J1].
  eapply IH; [exact R1|exact J1| |exact E]. intros i Hi. apply HS. lia.
Qed.
Lemma dblocks_keep ef beta : 0 < beta -> forall cnt st k cl st' b, ready st -> LK (gb (lz st)) -> k + beta <= D ->
  dblocks ef beta cnt st k cl = Some (st', BRet b) -> ready st' /\ LK (gb (lz st')).
Proof.
  intros Hb. induction cnt as [|cnt IH]; intros st k cl st' b HR HJ HD E; cbn [BkzDualModel.dblocks] in E; [injection E as <- _; auto|].
  destruct (dsvp ef st k beta) as [[s1 [b1|]]|] eqn:E1; cbn [obind fst snd] in E; try discriminate.
  destruct (dsvp_dred ef st s1 k beta b1 Bs Hde1 HR Hb HD HJ E1) as [R1 [_ [_ [J1 _]]]].
  eapply IH; [exact R1|exact J1| |exact E]. lia.
Qed.
Lemma sd_tour_keep ef st beta st' b : 2 <= beta <= D -> ready st -> LK (gb (lz st)) -> sd_tour ef st beta 0 D = Some (st', BRet b) -> ready st' /\ LK (gb (lz st')).
Proof.
  intros Hb HR HJ E. unfold BkzDualModel.sd_tour, trunc_dtour, trunc_tour in E.
  destruct (dblocks ef beta (D - beta - 0) st (D - beta) true) as [[s1 [b1|]]|] eqn:E1; cbn [obind fst snd] in E; try discriminate.
  destruct (blocks ef (fun _ => beta) (D - beta - 0) s1 0 true) as [[s2 [b2|]]|] eqn:E2; cbn [obind fst snd] in E; try discriminate.
  injection E as <- _. destruct (dblocks_keep ef beta ltac:(lia) (D - beta - 0) st (D - beta) true s1 b1 HR HJ ltac:(lia) E1) as [R1 J1].
  eapply blocks_keep; [exact R1|exact J1| |exact E2]. intros i Hi. lia.
Qed.

(** ** a clean self-dual tour, whatever the basis it starts from *)
Definition sd_red (B : list (list Z)) (beta : nat) : Prop :=
  size_reduced_to B D /\ lovasz_to B D /\ (forall k, 1 <= k <= D - beta -> dred c B delta k beta) /\
  (forall k, k < D - beta -> forall y, length y = beta -> nonzero y -> (delta * qR c B k k <= bvlen c B k beta y)%Qc).
Hypothesis HT : (p_thr P = p_delta P)%Qc.
Hypothesis HSg : p_siegel P = false.
Hypothesis HD1 : (p_delta P <= 1)%Qc.
Hypothesis Hd1 : (delta < 1)%Qc.
Lemma sd_tour_clean ef st beta st' : 2 <= beta < D -> ready st -> LK (gb (lz st)) -> sd_tour ef st beta 0 D = Some (st', BRet true) ->
  ready st' /\ LK (gb (lz st')) /\ sd_red (gb (lz st')) beta.
Proof.
  intros Hb HR HJ E. destruct (sd_tour_keep ef st beta st' true ltac:(lia) HR HJ E) as [R' J']. split; auto. split; auto. unfold BkzDualModel.sd_tour, trunc_dtour, trunc_tour in E.
  destruct (dblocks ef beta (D - beta - 0) st (D - beta) true) as [[s1 [b1|]]|] eqn:E1; cbn [obind fst snd] in E; try discriminate.
  destruct (blocks ef (fun _ => beta) (D - beta - 0) s1 0 true) as [[s2 [b2|]]|] eqn:E2; cbn [obind fst snd] in E; try discriminate.
  injection E as -> EB. apply andb_prop in EB. destruct EB as [-> ->].
  replace (D - beta - 0) with (S (D - beta - 1)) in E1 by lia. cbn [BkzDualModel.dblocks] in E1.
  destruct (dsvp ef st (D - beta) beta) as [[s0 [b0|]]|] eqn:E0; cbn [obind fst snd] in E1; try discriminate.
  destruct b0; [|exfalso; eapply dblocks_false; [exact E1|reflexivity]].
  destruct (first_dsvp ef st s0 (D - beta) beta Bs HT HSg HD1 Hd1 HR ltac:(lia) ltac:(lia) HJ E0) as [R0 [[K1 [K2 K3]] [SR0 [LV0 DR0]]]].
  destruct (same_dblocks Hd1 (gb (lz s0)) K1 K3 SR0 LV0 ef beta ltac:(lia) (D - beta - 1) s0 (D - beta - 1) true s1 R0) as [_ [B1 [R1 Q1]]]; auto; try lia.
  destruct (same_blocks rnd si ze expo P HX Heta Hthr Hdelta Hearly fuel ef max_iter ne rec delta Hfuel Hd0 Hd1 c D (gb (lz s0)) K1 K3 SR0 LV0
    (fun _ => beta) (D - beta - 0) s1 0 true st' R1) as [_ [B2 [R2 [_ Q2]]]]; auto.
  { intros i Hi. lia. }
  { right. split; [lia|intros; lia]. }
  rewrite B2. split; auto. split; auto. split.
  - intros k Hk. destruct (Nat.eq_dec k (D - beta)) as [->|N]; auto. apply Q1; lia.
  - intros k Hk y Ly Ny. apply Q2; auto. lia.
Qed.
Lemma sd_loop_clean ef beta : 2 <= beta < D -> forall n st st', ready st -> LK (gb (lz st)) -> sd_loop ef n st beta D = Some (st', BRet true) ->
  ready st' /\ LK (gb (lz st')) /\ sd_red (gb (lz st')) beta.
Proof.
  intros Hb. induction n as [|n IH]; intros st st' HR HJ E; cbn [BkzDualModel.sd_loop] in E; [discriminate|].
  destruct (sd_tour ef st beta 0 D) as [[s1 [b1|]]|] eqn:E1; cbn [obind fst snd] in E; try discriminate.
  destruct (Nat.leb_spec D beta); [lia|]. rewrite orb_false_r in E. destruct b1.
  - injection E as <-. eapply sd_tour_clean; eauto.
  - destruct (sd_tour_keep ef st beta s1 false ltac:(lia) HR HJ E1) as [R1 J1]. apply (IH s1 st' R1 J1 E).
Qed.
End Keep.

(** ** the calls return *)
Hypothesis Hpd1 : (p_delta P < 1)%Qc.
Hypothesis Hmi : forall B kend, length B = D -> all_pos c B D -> 0 < kend <= D ->
  exists m, (potential c B kend * p_delta P ^ S m < 1)%Qc /\ kend - 1 + m <= max_iter B.
Variable Bs : list (list Z).
Hypothesis Hde1 : (delta <= 1)%Qc.
Notation LK := (LK c D Bs).
Notation blocks ef := (blocks rnd si ze expo P fuel ef max_iter ne rec delta).
Notation sd_tour ef := (sd_tour rnd si ze expo P fuel ef max_iter ne rec delta).
Notation sd_loop ef := (sd_loop rnd si ze expo P fuel ef max_iter ne rec delta).
Notation hkz ef := (hkz rnd si ze expo P fuel ef max_iter ne rec delta).

Lemma enum_dual_t (st : lst) kappa m R : calm st -> 0 < m -> kappa + m <= nkr (lz st) -> (forall j, j < kappa + m -> j < vc (ls st) j) ->
  (forall j, j < kappa + m -> (0 < RR (lz st) j j)%Qc) -> (0 <= R)%Qc ->
  exists e0 res, forall ef, e0 <= ef -> enum_dual rnd si ze expo P ef ne rec st kappa m R = Some res.
Proof.
  intros [HF HXP _ _] Hm HK HV HP HR. unfold enum_dual.
  rewrite (oseq_map _ (fun i => RR (lz st) (kappa + i) (kappa + i))).
  2:{ intros i Hi. apply in_seq in Hi. apply r_val_q; auto; try lia. apply HV. lia. }
  cbn [obind].
  rewrite (oseq_map _ (fun j => map (fun i => MM (lz st) (kappa + j) (kappa + i)) (seq 0 j))).
  2:{ intros j Hj. apply in_seq in Hj. apply oseq_map. intros i Hi. apply in_seq in Hi. apply (get_mu_q rnd si ze expo P); auto; try lia. apply Nat.lt_trans with (kappa + j); [lia|]. apply HV; lia. }
  cbn [obind]. set (r := map (fun i => RR (lz st) (kappa + i) (kappa + i)) (seq 0 m)) in *.
  set (mu := map (fun j => map (fun i => MM (lz st) (kappa + j) (kappa + i)) (seq 0 j)) (seq 0 m)) in *.
  set (muf := fun j i => nth i (nth j mu []) 0%Qc) in *. set (rf := fun i => nth i r 0%Qc) in *.
  assert (Hr : forall k, k < m -> (0 < rf k)%Qc).
  { intros k Hk. unfold rf, r. rewrite (nth_map_seq (fun i => RR (lz st) (kappa + i) (kappa + i))) by auto. apply HP; lia. }
  destruct (enum_best_terminates m (dnu m muf) (dr m rf) None false R (- ne r)%Z 1 rec Hm ltac:(intros k Hk; unfold dr; apply inv_pos; apply Hr; lia) HR ltac:(lia)) as [e0 [s0 ES0]].
  destruct (primal_as_dual m muf rf false None R (- ne r)%Z Hm HR) with (evalS := eval_sol_cb (q_fops (- ne r)%Z) accept_all BestN 1) (evalSub := eval_sub (q_fops (- ne r)%Z)) (rst := no_rst qe_ops)
    (rec := rec) (fuel := e0) (ev := ev_init (q_fops (- ne r)%Z)) (s := s0) as [e1 [s ES]].
  { intros i Hi EE. specialize (Hr i Hi). rewrite EE in Hr. discriminate. }
  { exact ES0. }
  pose proof (enum_dual_gen rec e1 m muf rf false R (- ne r)%Z s Hm Hr HR ES) as G.
  exists e1, (match kept s with [] => None | p :: _ => Some (rev (snd p)) end). intros ef Hef.
  pose proof (enum_run_mono rec e1 ef (- ne r)%Z accept_all BestN 1 _ s Hef ES) as EM.
  match goal with |- obind ?A _ = _ => replace A with (Some s) by (symmetry; exact EM) end. cbn [obind].
  destruct (kept s) as [|[l x] t]; auto. cbn [snd fst] in *. destruct G as [G1 _]. pose proof (reverse_rev x ltac:(lia)) as RV. rewrite G1 in RV. rewrite RV. reflexivity.
Qed.

Lemma dsvp_total (st : lst) kappa m : ready st -> LK (gb (lz st)) -> 0 < m -> kappa + m <= D ->
  exists e0 st' b, (forall ef, e0 <= ef -> dsvp ef st kappa m = Some (st', BRet b)) /\ ready st' /\ LK (gb (lz st')) /\ valid_to st' (kappa + m).
Proof.
  intros HR HJ Hm HD. set (fi := kappa + m - 1).
  destruct (size_red_q rnd si ze expo P HX Heta fuel Hfuel c D st 0 (kappa + m) 0 HR ltac:(lia) ltac:(lia) ltac:(split; [lia|intros; lia])) as [s0 [E0 [R0 [S0 [V0 _]]]]].
  rewrite Nat.add_0_l in E0, V0. pose proof R0 as [C0 G0 D0 I0 P0].
  destruct (r_exp_q rnd si ze expo P (lz s0) (ls s0) fi) as [ro [eo [EO RO]]]; [apply C0|apply C0|destruct V0; lia|destruct V0 as [_ V0]; apply V0; lia|].
  destruct (Hmi (gb (lz s0)) (kappa + m) ltac:(unfold gd in D0; exact D0) P0 ltac:(lia)) as [mm [M1 M2]].
  destruct (lll_t rnd si ze expo P HX Heta Hthr Hdelta Hpd1 fuel max_iter mm s0 (kappa + m) Hfuel (C_f _ _ _ _ _ _ C0) (C_x _ _ _ _ _ _ C0) (C_l _ _ _ _ _ _ C0)) as [s1 [E1 _]]; auto; try lia.
  { intros _. apply (C_g _ _ _ _ _ _ C0). }
  { rewrite G0. intros j Hj. apply P0. lia. }
  { rewrite G0. exact M1. }
  pose proof (S0 _ (LK_stable rnd si ze expo P fuel Hfuel c D Bs) HJ) as J0.
  destruct (lll_k rnd si ze expo P HX Heta Hthr Hdelta c LK (kappa + m) (LK_lstable rnd si ze expo P fuel Hfuel c D Bs (kappa + m) HD) fuel max_iter s0 s1 Hfuel Hearly C0 G0 ltac:(lia) ltac:(intros j Hj; apply P0; lia) J0 E1)
    as [C1 [F1 [D1 [J1 [P1 [L1 [L2 _]]]]]]].
  destruct F1 as [Fa [Fb [Fc [Fd Fe]]]]. assert (G1 : gc (lz s1) = c) by congruence. pose proof J1 as [LL1 [_ A1]].
  assert (RP : (0 < / RR (lz s1) fi fi)%Qc) by (apply inv_pos; rewrite G1; apply A1; lia).
  assert (RN : (0 <= / RR (lz s1) fi fi * delta)%Qc).
  { set (r := (/ RR (lz s1) fi fi)%Qc) in *. clearbody r. clear - RP Hd0. qcnra. }
  destruct (enum_dual_t s1 kappa m (/ RR (lz s1) fi fi * delta)%Qc C1 Hm L2 L1 ltac:(intros j Hj; rewrite G1; apply A1; lia) RN) as [e0 [res EB]].
  pose proof (enum_dual_q rnd si ze expo P e0 ne rec s1 kappa m _ res C1 Hm L2 L1 ltac:(intros j Hj; rewrite G1; apply A1; lia) RN (EB e0 (le_n _))) as EN.
  rewrite G1 in EN.
  assert (HS : exists s2, match res with Some x => dual_insert rnd si ze expo P s1 kappa m x | None => Some s1 end = Some s2 /\ ready s2).
  { destruct res as [x|].
    - destruct EN as [N1 [N2 [N3 [PR N4]]]].
      destruct (dual_insert_q rnd si ze expo P s1 kappa m x C1 ltac:(congruence) L2 PR) as [s2 [X1 [X2 [X3 [X4 X5]]]]].
      exists s2. split; [exact X1|]. destruct X3 as [Ya [Yb [Yc [Yd Ye]]]]. rewrite G1, D1, D0 in X5.
      constructor; auto; try congruence. eapply (LB_pos c D (gb (lz s1))); eauto. apply X5.
    - exists s1. split; auto. constructor; auto; congruence. }
  destruct HS as [s2 [E2 R2]].
  destruct (size_red_q rnd si ze expo P HX Heta fuel Hfuel c D s2 0 (kappa + m) 0 R2 ltac:(lia) ltac:(lia) ltac:(split; [lia|intros; lia])) as [s3 [E3 [R3 [S3 [V3 [_ M3]]]]]].
  rewrite Nat.add_0_l in E3, V3. pose proof R3 as [C3 G3 D3 I3 P3].
  destruct (r_exp_q rnd si ze expo P (lz s3) (ls s3) fi) as [rn [en [EN3 RN3]]]; [apply C3|apply C3|destruct V3; lia|destruct V3 as [_ V3]; apply V3; lia|].
  assert (ED : exists b, forall ef, e0 <= ef -> dsvp ef st kappa m = Some (s3, BRet b)).
  { exists (negb (qltb ro (rn * pow2 (en - eo)%Z))%Qc). intros ef Hef. unfold dsvp_reduction. fold fi. replace (S fi) with (kappa + m) by lia.
    rewrite E0. cbn [obind fst snd].
    match goal with |- obind ?A _ = _ => replace A with (Some (ro, eo)) by (symmetry; exact EO) end. cbn [obind fst snd].
    rewrite E1. cbn [obind fst snd]. rewrite (r_val_q rnd si ze expo P s1 fi) by (try apply C1; try lia; apply L1; lia). cbn [obind].
    rewrite (EB ef Hef). cbn [obind].
    match goal with |- obind ?A _ = _ => replace A with (Some s2) by (symmetry; exact E2) end. cbn [obind].
    rewrite E3. cbn [obind fst snd].
    match goal with |- obind ?A _ = _ => replace A with (Some (rn, en)) by (symmetry; exact EN3) end. reflexivity. }
  destruct ED as [b ED]. exists e0, s3, b. split; auto. destruct (dsvp_dred e0 st s3 kappa m b Bs Hde1 HR Hm HD HJ (ED e0 (le_n _))) as [Q1 [Q2 [_ [Q4 _]]]]. auto.
Qed.
Lemma dblocks_total beta : 0 < beta -> forall cnt st k cl, ready st -> LK (gb (lz st)) -> k + beta <= D ->
  exists e0 st' b, (forall ef, e0 <= ef -> dblocks ef beta cnt st k cl = Some (st', BRet b)) /\ ready st' /\ LK (gb (lz st')).
Proof.
  intros Hb. induction cnt as [|cnt IH]; intros st k cl HR HJ HD.
  - exists 0, st, cl. split; [reflexivity|]. auto.
  - destruct (dsvp_total st k beta HR HJ Hb HD) as [e1 [s1 [b1 [E1 [R1 [J1 V1]]]]]].
    destruct (IH s1 (k - 1) (cl && b1) R1 J1 ltac:(lia)) as [e2 [s2 [b2 [E2 [R2 J2]]]]].
    exists (Nat.max e1 e2), s2, b2. split; auto. intros ef Hef. cbn [BkzDualModel.dblocks]. rewrite E1 by lia. cbn [obind fst snd]. apply E2. lia.
Qed.
Lemma blocks_tot size : forall cnt st k cl, ready st -> LK (gb (lz st)) -> (forall i, k <= i < k + cnt -> 0 < size i /\ i + size i <= D) ->
  (0 < cnt \/ valid_to st k) ->
  exists e0 st' b, (forall ef, e0 <= ef -> blocks ef size cnt st k cl = Some (st', BRet b)) /\ ready st' /\ LK (gb (lz st')) /\ valid_to st' (k + cnt).
Proof. exact (blocks_total rnd si ze expo P HX Heta Hthr Hdelta Hpd1 Hearly fuel max_iter ne rec delta Hfuel Hd0 c D Hmi Bs size). Qed.
Lemma sd_tour_total st beta : ready st -> LK (gb (lz st)) -> 2 <= beta <= D ->
  exists e0 st' b, (forall ef, e0 <= ef -> sd_tour ef st beta 0 D = Some (st', BRet b)) /\ ready st' /\ LK (gb (lz st')).
Proof.
  intros HR HJ Hb. destruct (dblocks_total beta ltac:(lia) (D - beta - 0) st (D - beta) true HR HJ ltac:(lia)) as [e1 [s1 [b1 [E1 [R1 J1]]]]].
  destruct (blocks_tot (fun _ => beta) (D - beta - 0) s1 0 true R1 J1) as [e2 [s2 [b2 [E2 [R2 [J2 V2]]]]]].
  { intros i Hi. lia. }
  { right. split; [lia|intros; lia]. }
  exists (Nat.max e1 e2), s2, (b1 && b2). split; auto. intros ef Hef. unfold BkzDualModel.sd_tour, trunc_dtour, trunc_tour. rewrite E1 by lia. cbn [obind fst snd].
  rewrite E2 by lia. reflexivity.
Qed.
Lemma sd_loop_total beta : 2 <= beta <= D -> forall n st, ready st -> LK (gb (lz st)) ->
  exists e0 st' b, (forall ef, e0 <= ef -> sd_loop ef n st beta D = Some (st', BRet b)) /\ ready st' /\ LK (gb (lz st')).
Proof.
  intros Hb. induction n as [|n IH]; intros st HR HJ.
  - exists 0, st, false. split; [reflexivity|]. auto.
  - destruct (sd_tour_total st beta HR HJ Hb) as [e1 [s1 [b1 [E1 [R1 J1]]]]].
    destruct (b1 || (D <=? beta)) eqn:EB.
    + exists e1, s1, true. split; auto. intros ef Hef. cbn [BkzDualModel.sd_loop]. rewrite E1 by auto. cbn [obind fst snd]. rewrite EB. reflexivity.
    + destruct (IH s1 R1 J1) as [e2 [s2 [b2 [E2 [R2 J2]]]]]. exists (Nat.max e1 e2), s2, b2. split; auto.
      intros ef Hef. cbn [BkzDualModel.sd_loop]. rewrite E1 by lia. cbn [obind fst snd]. rewrite EB. apply E2. lia.
Qed.
Lemma hkz_total st beta : ready st -> LK (gb (lz st)) -> 2 <= beta <= D ->
  exists e0 st' b, (forall ef, e0 <= ef -> hkz ef st (D - beta) D = Some (st', BRet b)) /\ ready st' /\ LK (gb (lz st')).
Proof.
  intros HR HJ Hb. destruct (blocks_tot (fun kappa => D - kappa) (D - 1 - (D - beta)) st (D - beta) true HR HJ) as [e2 [s2 [b2 [E2 [R2 [J2 V2]]]]]].
  { intros i Hi. lia. }
  { left. lia. }
  replace (D - beta + (D - 1 - (D - beta))) with (D - 1) in V2 by lia.
  destruct (size_red_q rnd si ze expo P HX Heta fuel Hfuel c D s2 (D - 1) 1 (D - 2) R2 ltac:(lia) ltac:(lia) V2) as [s3 [E3 [R3 [S3 _]]]].
  replace (D - 1 + 1) with D in * by lia.
  exists e2, s3, b2. split; [|split; auto; apply S3; auto; apply (LK_stable rnd si ze expo P fuel Hfuel)].
  intros ef Hef. unfold BkzExactModel.hkz. rewrite E2 by lia. cbn [obind fst snd]. rewrite E3. reflexivity.
Qed.
End T.
