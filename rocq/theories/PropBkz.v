(** C30-C33: BKZ insertion and block rerandomisation. *)
From Coq Require Import List ZArith Lia Arith Bool Znumtheory.
From Verif Require Import Util MatrixModel LatticeSpec GsoModel GsoProofs GsoHistory BkzModel BkzProofs PropGso.
Import ListNotations.
Local Open Scope nat_scope.

(** ** Specification *)
(** A GSO object as the program can produce it: constructed from a valid input and changed by legal calls. *)
Definition reachable (z : gz) : Prop :=
  exists b c u ui ig fl l, valid_input b c u ui /\ legal_run (gso_new b c u ui ig fl) l /\
    grun (gso_new b c u ui ig fl) l = Some z.
(** rows kappa .. kappa+d-1 exist, are known to the object, and no columns are locked *)
Definition block_ok (z : gz) (kappa d : nat) : Prop := locked z = false /\ kappa + d <= nkr z.
(** the coefficients have no common divisor besides 1 and -1 *)
Definition primitive (d : nat) (sol : nat -> Z) : Prop :=
  forall g, (forall i, i < d -> (g | sol i)%Z) -> g = 1%Z \/ g = (-1)%Z.
Definition has_unit (d : nat) (sol : nat -> Z) : Prop := exists i, i < d /\ Z.abs (sol i) = 1%Z.
(** entry k of the combination of the block rows *)
Definition block_comb (B : list (list Z)) (kappa d : nat) (sol : nat -> Z) (k : nat) : Z :=
  zsum d (fun i => sol i * ent B (kappa + i) k)%Z.
(** rows outside the block are the same *)
Definition outside_same (B B' : list (list Z)) (kappa d : nat) : Prop :=
  forall a k, a < length B -> (a < kappa \/ kappa + d <= a) -> ent B' a k = ent B a k.
Definition pm1 (s : Z) : Prop := s = 1%Z \/ s = (-1)%Z.

Lemma reachable_inv z : reachable z -> Inv z.
Proof.
  intros [b [c [u [ui [ig [fl [l [HV [HL HR]]]]]]]]].
  destruct (history_lattice l _ (valid_input_inv b c u ui ig fl HV) HL) as [z' [E [HI _]]]. congruence.
Qed.

(** ** Effects for an arbitrary column *)
Lemma act_block_ext lo hi o f g : inb lo hi o -> (forall a, lo <= a < hi -> f a = g a) ->
  forall a, lo <= a < hi -> act o f a = act o g a.
Proof.
  intros HO HE a Ha. destruct o; simpl in *; try tauto; unfold xset;
    try (destruct (a =? i); rewrite ?(HE i), ?(HE j), ?(HE a) by lia; reflexivity).
  - apply HE. apply tr_in; lia.
  - apply HE. apply mv_in; tauto.
Qed.
Lemma act_run_block_ext lo hi l : Forall (inb lo hi) l -> forall f g, (forall a, lo <= a < hi -> f a = g a) ->
  forall a, lo <= a < hi -> act_run l f a = act_run l g a.
Proof.
  induction 1; intros f g HE a Ha; auto. rewrite !act_run_cons. apply IHForall; auto.
  intros. eapply act_block_ext; eauto.
Qed.
Lemma act_run_scal lo hi l m : Forall (inb lo hi) l -> forall f a, a < hi ->
  act_run l (fun a => f a * m)%Z a = (act_run l f a * m)%Z.
Proof.
  intros HF f a Ha. pose proof (act_run_zsum hi lo hi 1 l HF (le_n _) (fun _ => f) (fun _ => m) a Ha) as X.
  cbn [zsum] in X. rewrite (act_run_ext hi lo hi l HF (le_n _) (fun a => f a * m)%Z (fun a => 0 + f a * m)%Z); auto.
Qed.

Lemma primitive_pos d sol : primitive d sol -> 1 <= d.
Proof. intros H. destruct d; [|lia]. destruct (H 2%Z); [intros; lia|lia|lia]. Qed.

Lemma noswap_existsb l : Forall (fun o => is_swap o = false) l -> existsb is_swap l = false.
Proof. induction 1; auto. cbn. rewrite H. auto. Qed.

Lemma move_dual kappa d v f s : v < d ->
  (forall i, i < d -> i <> v -> f (kappa + i) = 0%Z) -> f (kappa + v) = s ->
  forall i, i < d -> f (mv (kappa + v) (kappa + d - 1) (kappa + i)) = if i =? d - 1 then s else 0%Z.
Proof.
  intros Hv H0 Hs i Hi. unfold mv. cbv zeta.
  destruct (Nat.eqb_spec (kappa + i) (kappa + d - 1)); destruct (Nat.eqb_spec i (d - 1)); try lia; auto.
  destruct (Nat.ltb_spec (kappa + i) (kappa + d - 1)); [|lia].
  destruct (Nat.ltb_spec (kappa + i) (kappa + v)); [apply H0; lia|].
  replace (S (kappa + i)) with (kappa + S i) by lia. apply H0; lia.
Qed.

Lemma post_act kappa dual d sol : primitive d sol ->
  exists ops, svp_post kappa dual d sol = Some ops /\ Forall (inb kappa (kappa + d)) ops /\
   (has_unit d sol -> existsb is_swap ops = false) /\
   ((has_unit d sol \/ forall i, i < d -> (0 <= sol i)%Z) -> no_negate ops) /\
   exists s, pm1 s /\
    (dual = false -> forall f, (s * act_run ops f kappa = csum d kappa sol f)%Z) /\
    (dual = true -> forall f, (forall i, i < d -> f (kappa + i) = sol i) ->
       forall i, i < d -> act_run ops f (kappa + i) = if i =? d - 1 then s else 0%Z).
Proof.
  intros HP. pose proof (primitive_pos _ _ HP) as Hd. unfold svp_post.
  pose proof (scan_count1 d sol) as C1. pose proof (scan_unit d sol) as CU.
  destruct (scan d sol) as [nz iv]. cbn [fst snd] in *.
  assert (M : forall v, v < d -> inb kappa (kappa + d) (OMove (kappa + v) (if dual then kappa + d - 1 else kappa)))
    by (intros v0 Hv0; simpl; destruct dual; lia).
  destruct (Nat.eqb_spec nz 1) as [N1|N1].
  - destruct (C1 N1) as [i [Hi [Hz Ho]]].
    assert (U : Z.abs (sol i) = 1%Z).
    { destruct (HP (sol i)); [|lia|lia]. intros j Hj. destruct (Nat.eq_dec j i); [subst; apply Z.divide_refl|].
      rewrite (Ho j) by auto. apply Z.divide_0_r. }
    destruct iv as [v|]; [|exfalso; eapply CU; eauto]. destruct CU as [Hv [Uv Lv]].
    assert (v = i) by (destruct (Nat.eq_dec v i); auto; rewrite (Ho v) in Uv by auto; discriminate). subst v.
    eexists. split; [reflexivity|]. split; [constructor; [apply M; auto|constructor]|].
    split; [reflexivity|]. split; [intros _ k [K|[]]; discriminate|].
    exists (sol i). split; [unfold pm1; lia|]. split.
    + intros -> f. cbn [act_run fold_left act]. unfold csum.
      rewrite (@zsum_single d i); auto. 2:{ intros j Hj Hn. rewrite Ho by auto. ring. }
      unfold mv. rewrite Nat.eqb_refl. auto.
    + intros -> f Hf j Hj. cbn [act_run fold_left act]. apply move_dual; auto.
      intros k Hk Hn. rewrite Hf, Ho by auto. auto.
  - destruct iv as [v|].
    + destruct CU as [Hv [Uv Lv]]. change (flat_map _ (seq 0 d)) with (unit_ops kappa dual sol v (if dual then (- sol v)%Z else sol v) d).
      set (s := if dual then (- sol v)%Z else sol v).
      eexists. split; [reflexivity|].
      split; [apply Forall_app; split; [apply unit_ops_inb; auto|constructor; [apply M; auto|constructor]]|].
      pose proof (unit_ops_shape kappa dual sol v s d) as SH.
      split. { intros _. rewrite existsb_app, noswap_existsb; [reflexivity|]. eapply Forall_impl; [|exact SH]. intros o [X _]; exact X. }
      split. { intros _ k K. apply in_app_or in K. destruct K as [K|[K|[]]]; [|discriminate].
        rewrite Forall_forall in SH. destruct (SH _ K) as [_ Y]. eapply Y; reflexivity. }
      exists (sol v). split; [unfold pm1; lia|].
      assert (SQ : (sol v * sol v = 1)%Z) by (destruct (Z.abs_eq_or_opp (sol v)) as [X|X]; rewrite X in Uv; nia).
      split.
      * intros -> f. rewrite act_run_app. cbn [act_run fold_left act].
        change (fold_left _ _ f) with (act_run (unit_ops kappa false sol v s d) f).
        replace (mv (kappa + v) kappa kappa) with (kappa + v) by (unfold mv; rewrite Nat.eqb_refl; auto).
        rewrite unit_ops_primal, Nat.eqb_refl. unfold s.
        rewrite Z.mul_add_distr_l, Z.mul_assoc, SQ, Z.mul_1_l. unfold csum.
        rewrite (@zsum_upd d v (fun i => sol i * f (kappa + i)%nat)%Z
                  (fun i => if (i =? v)%nat then 0 else sol i * f (kappa + i)%nat)%Z); auto.
        { rewrite Nat.eqb_refl. lia. }
        { intros i Hi Hn. destruct (Nat.eqb_spec i v); [lia|auto]. }
      * intros -> f Hf i Hi. rewrite act_run_app. cbn [act_run fold_left act].
        change (fold_left _ _ f) with (act_run (unit_ops kappa true sol v s d) f).
        apply move_dual; auto.
        -- intros j Hj Hn. rewrite unit_ops_dual by auto. rewrite !Hf by auto. unfold s.
           replace (sol j + - sol v * sol j * sol v)%Z with (sol j - sol j * (sol v * sol v))%Z by ring. rewrite SQ. ring.
        -- rewrite unit_ops_dual_v. auto.
    + unfold post_generic. destruct (generic_spec kappa dual d sol Hd) as [x [l [E [G1 [G2 [G3 [G4 [G5 [G6 G7]]]]]]]]].
      rewrite E. cbn [option_map snd]. exists l. split; [auto|]. split; [auto|].
      split. { intros [i [Hi Hu]]. exfalso. eapply CU; eauto. }
      split. { intros [[i [Hi Hu]]|HN]; [exfalso; eapply CU; eauto|].
        intros k K. specialize (G7 HN). rewrite Forall_forall in G7. eapply G7; eauto. }
      assert (X1 : x (d - 1) = 1%Z).
      { destruct (HP (x (d - 1))); [|auto|lia]. apply G4, Z.divide_refl. }
      exists 1%Z. split; [left; auto|]. split.
      * intros DD f. rewrite <- G5 by auto. rewrite X1. auto.
      * intros DD f Hf i Hi. rewrite G6 by auto. destruct (Nat.eqb_spec i (d - 1)); [subst; auto|]. apply G2; lia.
Qed.

(** ** C30 *)
(** Primal insertion: row kappa becomes plus or minus the found vector. *)
Theorem insert_primal : forall z kappa d sol,
  reachable z -> block_ok z kappa d -> primitive d sol -> (en_i z = false \/ has_unit d sol) ->
  exists ops z', svp_post kappa false d sol = Some ops /\ legal_run z ops /\ grun z ops = Some z' /\
    gd z' = gd z /\ gc z' = gc z /\
    same_lattice (gc z) (gb z) (gb z') /\ outside_same (gb z) (gb z') kappa d /\
    exists s, pm1 s /\ forall k, (s * ent (gb z') kappa k = block_comb (gb z) kappa d sol k)%Z.
Proof.
  intros z kappa d sol HR [HL Hk] HP HE. pose proof (reachable_inv z HR) as HI.
  pose proof (I_known _ HI) as HK. pose proof (primitive_pos _ _ HP) as Hd.
  destruct (post_act kappa false d sol HP) as [ops [E [F1 [F2 [_ [s [Hs [F3 _]]]]]]]].
  destruct (block_run kappa (kappa + d) ops F1 z HI HL Hk) as [LG [z' [R [I' [_ [_ [_ [G' A']]]]]]]].
  { intros X. destruct HE as [|U]; auto. rewrite (F2 U) in X. discriminate. }
  destruct (history_lattice ops z HI LG) as [z2 [R2 [_ [_ [C2 SL]]]]]. assert (z2 = z') by congruence. subst z2.
  exists ops, z'. do 5 (split; [auto|]). split; [auto|]. split.
  { intros a k Ha Ho. rewrite A' by (unfold gd; auto). rewrite (act_run_out kappa (kappa + d)); auto. }
  exists s. split; auto. intros k. rewrite A' by lia. rewrite F3 by auto. reflexivity.
Qed.

(** Dual insertion: for every functional w (an integer multiple m of a dual vector) whose values on the block
    rows are m times the found coefficients, afterwards w is plus or minus m on the last row of the block
    and 0 on the others; so w restricted to the block is plus or minus the dual vector of its last row. *)
Theorem insert_dual : forall z kappa d sol,
  reachable z -> block_ok z kappa d -> primitive d sol -> (en_i z = false \/ has_unit d sol) ->
  exists ops z', svp_post kappa true d sol = Some ops /\ legal_run z ops /\ grun z ops = Some z' /\
    gd z' = gd z /\ gc z' = gc z /\
    same_lattice (gc z) (gb z) (gb z') /\ outside_same (gb z) (gb z') kappa d /\
    exists s, pm1 s /\ forall m w,
      (forall i, i < d -> inner (gc z) (nth (kappa + i) (gb z) []) w = (m * sol i)%Z) ->
      forall i, i < d -> inner (gc z) (nth (kappa + i) (gb z') []) w = (if (i =? d - 1)%nat then m * s else 0)%Z.
Proof.
  intros z kappa d sol HR [HL Hk] HP HE. pose proof (reachable_inv z HR) as HI.
  pose proof (I_known _ HI) as HK. pose proof (primitive_pos _ _ HP) as Hd.
  destruct (post_act kappa true d sol HP) as [ops [E [F1 [F2 [_ [s [Hs [_ F3]]]]]]]].
  destruct (block_run kappa (kappa + d) ops F1 z HI HL Hk) as [LG [z' [R [I' [_ [_ [_ [G' A']]]]]]]].
  { intros X. destruct HE as [|U]; auto. rewrite (F2 U) in X. discriminate. }
  destruct (history_lattice ops z HI LG) as [z2 [R2 [_ [_ [C2 SL]]]]]. assert (z2 = z') by congruence. subst z2.
  exists ops, z'. do 5 (split; [auto|]). split; [auto|]. split.
  { intros a k Ha Ho. rewrite A' by (unfold gd; auto). rewrite (act_run_out kappa (kappa + d)); auto. }
  exists s. split; auto. intros m w Hw i Hi. unfold inner.
  rewrite (@zsum_ext (gc z) _ (fun k => act_run ops (fun a => ent (gb z) a k) (kappa + i) * nth k w 0)%Z).
  2:{ intros k Hkk. f_equal. apply (A' (kappa + i) k). lia. }
  rewrite <- (act_run_zsum (kappa + d) kappa (kappa + d) (gc z) ops F1 (le_n _) (fun k a => ent (gb z) a k)) by lia.
  rewrite (act_run_block_ext kappa (kappa + d) ops F1 _ (fun a => sol (a - kappa)%nat * m)%Z).
  - rewrite (act_run_scal kappa (kappa + d) ops m F1 (fun a => sol (a - kappa)%nat)) by lia.
    rewrite F3; auto. + destruct (i =? d - 1); ring. + intros j Hj. f_equal. lia.
  - intros a Ha. specialize (Hw (a - kappa) ltac:(lia)). replace (kappa + (a - kappa)) with a in Hw by lia.
    unfold inner in Hw. unfold ent. rewrite Hw. ring.
  - lia.
Qed.

(** Primitivity is needed.  A single coefficient 2 at the block's second place: [i_vector] stays -1 and
    the row BEFORE the block is moved, so a row outside the block changes and the inserted row is not
    a multiple of the found vector (FPLLL_DEBUG_CHECK(i_vector != -1), bkz.cpp:151, is off in release builds). *)
Theorem insert_single_nonprimitive_refuted :
  exists z kappa d sol ops z', reachable z /\ block_ok z kappa d /\ en_i z = false /\
    svp_post kappa false d sol = Some ops /\ grun z ops = Some z' /\
    ~ outside_same (gb z) (gb z') kappa d /\
    forall s, ~ (forall k, s * ent (gb z') kappa k = block_comb (gb z) kappa d sol k)%Z.
Proof.
  pose (b := [[2;0;0];[0;3;0];[0;0;5]]%Z).
  destruct (grun (gso_new b 3 [] [] false false) [ODiscover; ODiscover; ODiscover]) as [z|] eqn:E; [|vm_compute in E; discriminate].
  exists z, 1, 2, (fun i => if i =? 1 then 2%Z else 0%Z), [OMove 0 1].
  assert (R : reachable z).
  { exists b, 3, [], [], false, false, [ODiscover; ODiscover; ODiscover]. split; [|split; [apply legal_runb_ok; vm_compute; reflexivity|exact E]].
    constructor; auto. intros i Hi. simpl in Hi. do 3 (destruct i as [|i]; [reflexivity|]). lia. }
  vm_compute in E. injection E as <-.
  eexists. split; [exact R|]. split; [vm_compute; split; [reflexivity|lia]|]. split; [reflexivity|].
  split; [reflexivity|]. split; [vm_compute; reflexivity|]. split.
  - intros H. specialize (H 0 0). vm_compute in H. assert (0 = 2)%Z by (apply H; [lia|left; lia]). discriminate.
  - intros s H. specialize (H 2). vm_compute in H. destruct s; discriminate.
Qed.

(** ** C31 *)
(** Generic insertion stops for every coefficient vector.  Whatever their gcd g, primal: g times the inserted
    row is the combination; dual: the values of w on the block become (0, ..., 0, g). *)
Theorem generic_insert_total : forall dual z kappa d sol,
  reachable z -> block_ok z kappa d -> 1 <= d -> en_i z = false ->
  exists ops z', post_generic kappa dual d sol = Some ops /\ legal_run z ops /\ grun z ops = Some z' /\
    same_lattice (gc z) (gb z) (gb z') /\ outside_same (gb z) (gb z') kappa d /\
    exists g, (0 <= g)%Z /\ (forall t, (forall i, i < d -> (t | sol i)%Z) <-> (t | g)%Z) /\
     (dual = false -> forall k, (g * ent (gb z') kappa k = block_comb (gb z) kappa d sol k)%Z) /\
     (dual = true -> forall w, (forall i, i < d -> inner (gc z) (nth (kappa + i) (gb z) []) w = sol i) ->
        forall i, i < d -> inner (gc z) (nth (kappa + i) (gb z') []) w = (if (i =? d - 1)%nat then g else 0)%Z).
Proof.
  intros dual z kappa d sol HR [HL Hk] Hd HE. pose proof (reachable_inv z HR) as HI.
  pose proof (I_known _ HI) as HK.
  unfold post_generic. destruct (generic_spec kappa dual d sol Hd) as [x [ops [E [F1 [G2 [G3 [G4 [G5 [G6 G7]]]]]]]]].
  destruct (block_run kappa (kappa + d) ops F1 z HI HL Hk) as [LG [z' [R [I' [_ [_ [_ [G' A']]]]]]]]; [auto|].
  destruct (history_lattice ops z HI LG) as [z2 [R2 [_ [_ [C2 SL]]]]]. assert (z2 = z') by congruence. subst z2.
  exists ops, z'. rewrite E. do 4 (split; [auto|]). split.
  { intros a k Ha Ho. rewrite A' by (unfold gd; auto). rewrite (act_run_out kappa (kappa + d)); auto. }
  exists (x (d - 1)). do 2 (split; [auto|]). split.
  - intros DD k. rewrite A' by lia. rewrite G5 by auto. reflexivity.
  - intros DD w Hw i Hi. unfold inner.
    rewrite (@zsum_ext (gc z) _ (fun k => act_run ops (fun a => ent (gb z) a k) (kappa + i) * nth k w 0)%Z).
    2:{ intros k Hkk. f_equal. apply (A' (kappa + i) k). lia. }
    rewrite <- (act_run_zsum (kappa + d) kappa (kappa + d) (gc z) ops F1 (le_n _) (fun k a => ent (gb z) a k)) by lia.
    rewrite G6; auto. destruct (Nat.eqb_spec i (d - 1)); [subst; auto|]. apply G2; lia.
Qed.

(** Each pair step by itself keeps the combination (primal) and the coordinates (dual), and the coefficients stay non-negative. *)
Theorem generic_pair_step : forall kappa dual d x k off,
  1 <= off -> off <= k -> k < d -> (forall i, i < d -> (0 <= x i)%Z) ->
  exists x' ops, gbody kappa dual x k off = Some (x', ops) /\ (forall i, i < d -> (0 <= x' i)%Z) /\
    x' (k - off) = 0%Z /\
    (dual = false -> forall f, zsum d (fun i => x' i * act_run ops f (kappa + i)%nat)%Z = zsum d (fun i => x i * f (kappa + i)%nat)%Z) /\
    (dual = true -> forall f, (forall i, i < d -> f (kappa + i) = x i) -> forall i, i < d -> act_run ops f (kappa + i) = x' i).
Proof.
  intros kappa dual d x k off H1 H2 H3 HN.
  destruct (gbody_spec d kappa dual x k off H1 H2 H3 HN) as [x' [l [E [[] [Z _]]]]].
  exists x', l. repeat (split; [auto|]). auto.
Qed.

(** ** C32 *)
Theorem insert_transform : forall dual z kappa d sol n B0,
  reachable z -> block_ok z kappa d -> primitive d sol -> (en_i z = false \/ has_unit d sol) ->
  en_t z = true -> is_product n (gb z) (gu z) B0 ->
  (has_unit d sol \/ forall i, i < d -> (0 <= sol i)%Z) ->
  exists ops z', svp_post kappa dual d sol = Some ops /\ grun z ops = Some z' /\
    is_product n (gb z') (gu z') B0.
Proof.
  intros dual z kappa d sol n B0 HR [HL Hk] HP HE ET HB HC. pose proof (reachable_inv z HR) as HI.
  destruct (post_act kappa dual d sol HP) as [ops [E [F1 [F2 [F4 _]]]]].
  destruct (block_run kappa (kappa + d) ops F1 z HI HL Hk) as [LG _].
  { intros X. destruct HE as [|U]; auto. rewrite (F2 U) in X. discriminate. }
  destruct (history_product ops z n B0 (F4 HC) HI LG ET HB) as [z' [R [_ [_ P]]]]. eauto.
Qed.

(** With a negative coefficient and no unit coordinate the transform becomes wrong: negate_row_of_b
    (gso.h:291-312) negates the basis row but not the row of u. *)
Theorem insert_transform_refuted :
  exists b c kappa d sol ops z z', reachable z /\ block_ok z kappa d /\ primitive d sol /\
    en_i z = false /\ en_t z = true /\ is_product c (gb z) (gu z) b /\
    svp_post kappa false d sol = Some ops /\ grun z ops = Some z' /\ ~ is_product c (gb z') (gu z') b.
Proof.
  pose (b := [[2;0];[0;3]]%Z).
  destruct (grun (gso_new b 2 (ident 2) [] false false) [ODiscover; ODiscover]) as [z|] eqn:E; [|vm_compute in E; discriminate].
  destruct (svp_post 0 false 2 (fun i => if i =? 0 then 2%Z else (-3)%Z)) as [ops|] eqn:EO; [|vm_compute in EO; discriminate].
  exists b, 2, 0, 2, (fun i => if i =? 0 then 2%Z else (-3)%Z), ops, z.
  assert (R : reachable z).
  { exists b, 2, (ident 2), [], false, false, [ODiscover; ODiscover]. split; [|split; [apply legal_runb_ok; vm_compute; reflexivity|exact E]].
    constructor; auto.
    - intros i Hi. simpl in Hi. do 2 (destruct i as [|i]; [reflexivity|]). lia.
    - right. split; auto. exists 2. apply (rect_ident 2). }
  vm_compute in E. injection E as <-. vm_compute in EO. injection EO as <-.
  eexists. split; [exact R|]. split; [vm_compute; split; [reflexivity|lia]|]. split.
  { intros g Hg. pose proof (Hg 0 ltac:(lia)) as A. pose proof (Hg 1 ltac:(lia)) as B. cbn in A, B.
    assert (X : (g | 1)%Z) by (replace 1%Z with (- (2 + -3))%Z by lia; apply Z.divide_opp_r, Z.divide_add_r; auto).
    apply Z.divide_1_r in X. auto. }
  do 2 (split; [reflexivity|]). split.
  { intros i j Hi Hj. simpl in Hi. destruct i as [|[|i]]; destruct j as [|[|j]]; try lia; reflexivity. }
  split; [reflexivity|]. split; [vm_compute; reflexivity|].
  intros H. pose proof (H 0 1 ltac:(simpl; lia) ltac:(lia)) as A. vm_compute in A. discriminate.
Qed.

(** ** C33 *)
Lemma draw_other_spec rnd bound base a : forall fuel n b n', draw_other rnd fuel n a bound base = Some (b, n') ->
  0 < bound -> base <= b < base + bound /\ b <> a.
Proof.
  induction fuel; intros n b n' H Hb; [discriminate|]. cbn [draw_other] in H.
  destruct (Nat.eqb_spec (draw rnd n bound + base) a); [eauto|]. injection H as <- <-.
  pose proof (Nat.mod_upper_bound (rnd n) bound ltac:(lia)). unfold draw in *. lia.
Qed.
Lemma perm_ops_inb rnd fuel lo hi : 2 <= hi - lo -> forall cnt n l n', perm_ops rnd fuel cnt n lo hi = Some (l, n') ->
  Forall (inb lo (hi - 1)) l.
Proof.
  intros H2. induction cnt; intros n l n' H; cbn [perm_ops] in H; [injection H as <- <-; constructor|].
  destruct (draw_other _ _ _ _ _ _) as [[b n1]|] eqn:ED; cbn [obind] in H; [|discriminate].
  destruct (perm_ops _ _ _ _ _ _) as [[l1 n2]|] eqn:EP; cbn [obind] in H; [|discriminate].
  injection H as <- <-. constructor; eauto.
  destruct (draw_other_spec _ _ _ _ _ _ _ _ ED ltac:(lia)) as [X Y].
  pose proof (Nat.mod_upper_bound (rnd n) (hi - lo - 1) ltac:(lia)). unfold draw in *. simpl. lia.
Qed.
Lemma tri_row_inb rnd lo a hi : lo <= a -> a + 2 < hi -> forall cnt n l n', tri_row rnd cnt n a hi = (l, n') ->
  Forall (inb lo (hi - 1)) l.
Proof.
  intros Hl Ha. induction cnt; intros n l n' H; cbn [tri_row] in H; [injection H as <- <-; constructor|].
  destruct (tri_row rnd cnt (S (S n)) a hi) as [l1 n1] eqn:E. injection H as <- <-. constructor; eauto.
  pose proof (Nat.mod_upper_bound (rnd n) (hi - (a + 1) - 1) ltac:(lia)). unfold draw in *.
  destruct (_ =? 0); simpl; lia.
Qed.
Lemma tri_ops_inb rnd lo hi density : forall rows n, (forall a, In a rows -> lo <= a /\ a + 2 < hi) ->
  Forall (inb lo (hi - 1)) (tri_ops rnd rows n hi density).
Proof.
  induction rows as [|a rows IH]; intros n H; [constructor|]. cbn [tri_ops].
  destruct (tri_row rnd density n a hi) as [l n'] eqn:E. apply Forall_app. split.
  - destruct (H a (or_introl eq_refl)). eapply tri_row_inb; eauto.
  - apply IH. intros; apply H; right; auto.
Qed.

Lemma inb_weaken lo hi hi' o : hi <= hi' -> inb lo hi o -> inb lo hi' o.
Proof. intros H. destruct o; simpl; lia. Qed.

Lemma perm_no_swap rnd fuel lo hi : forall cnt n l n', perm_ops rnd fuel cnt n lo hi = Some (l, n') ->
  Forall (fun o => is_swap o = false) l.
Proof.
  induction cnt; intros n l n' H; cbn [perm_ops] in H; [injection H as <- <-; constructor|].
  destruct (draw_other _ _ _ _ _ _) as [[b n1]|]; cbn [obind] in H; [|discriminate].
  destruct (perm_ops _ _ _ _ _ _) as [[l1 n2]|] eqn:EP; cbn [obind] in H; [|discriminate].
  injection H as <- <-. constructor; eauto.
Qed.
Lemma tri_row_no_swap rnd a hi : forall cnt n l n', tri_row rnd cnt n a hi = (l, n') -> Forall (fun o => is_swap o = false) l.
Proof.
  induction cnt; intros n l n' H; cbn [tri_row] in H; [injection H as <- <-; constructor|].
  destruct (tri_row rnd cnt (S (S n)) a hi) as [l1 n1] eqn:E. injection H as <- <-. constructor; eauto.
  destruct (_ =? 0); auto.
Qed.
Lemma tri_ops_no_swap rnd hi density : forall rows n, Forall (fun o => is_swap o = false) (tri_ops rnd rows n hi density).
Proof.
  induction rows as [|a rows IH]; intros n; [constructor|]. cbn [tri_ops].
  destruct (tri_row rnd density n a hi) as [l n'] eqn:E. apply Forall_app. split; auto. eapply tri_row_no_swap; eauto.
Qed.

(** Whenever the function returns, it has only applied legal operations inside the block: the lattice is the
    same, and neither the rows outside the block nor its last row have changed. *)
Theorem rerandomize_lattice : forall rnd fuel z lo hi density ops,
  reachable z -> lo < hi -> block_ok z lo (hi - lo) -> rerandomize rnd fuel lo hi density = Some ops ->
  exists z', legal_run z ops /\ grun z ops = Some z' /\ gd z' = gd z /\
    same_lattice (gc z) (gb z) (gb z') /\ outside_same (gb z) (gb z') lo (hi - lo - 1).
Proof.
  intros rnd fuel z lo hi density ops HR Hlh [HL Hk] E. pose proof (reachable_inv z HR) as HI.
  assert (F : Forall (inb lo (hi - 1)) ops /\ Forall (fun o => is_swap o = false) ops).
  { unfold rerandomize in E. destruct (Nat.ltb_spec (hi - lo) 2); [injection E as <-; split; constructor|].
    destruct (perm_ops _ _ _ _ _ _) as [[l n]|] eqn:EP; cbn [obind] in E; [|discriminate]. injection E as <-.
    split; apply Forall_app; split.
    - eapply perm_ops_inb; eauto.
    - apply tri_ops_inb. intros a Ha. apply in_seq in Ha. lia.
    - eapply perm_no_swap; eauto.
    - apply tri_ops_no_swap. }
  destruct F as [F1 F2].
  destruct (block_run lo (hi - 1) ops F1 z HI HL) as [LG [z' [R [I' [_ [_ [_ [G' A']]]]]]]]; [lia| |].
  { rewrite noswap_existsb by auto. discriminate. }
  destruct (history_lattice ops z HI LG) as [z2 [R2 [_ [_ [_ SL]]]]]. assert (z2 = z') by congruence. subst z2.
  exists z'. do 4 (split; [auto|]).
  intros a k Ha Ho. rewrite A' by (unfold gd; auto). rewrite (act_run_out lo (hi - 1)); auto. lia.
Qed.

(** The random stream never stays for ever on one residue (probability one when there are at least two residues). *)
Definition varies (rnd : nat -> nat) (bound : nat) : Prop := forall n r, exists m, n <= m /\ rnd m mod bound <> r.

Lemma draw_other_mono rnd bound base a : forall f1 f2 n r, f1 <= f2 ->
  draw_other rnd f1 n a bound base = Some r -> draw_other rnd f2 n a bound base = Some r.
Proof.
  induction f1; intros f2 n r H E; [discriminate|]. destruct f2; [lia|]. cbn [draw_other] in *.
  destruct (_ =? a); auto. apply IHf1; auto; lia.
Qed.
Lemma perm_ops_mono rnd lo hi : forall cnt f1 f2 n r, f1 <= f2 ->
  perm_ops rnd f1 cnt n lo hi = Some r -> perm_ops rnd f2 cnt n lo hi = Some r.
Proof.
  induction cnt; intros f1 f2 n r H E; auto. cbn [perm_ops] in *.
  destruct (draw_other rnd f1 _ _ _ _) as [[b n1]|] eqn:ED; cbn [obind] in E; [|discriminate].
  rewrite (draw_other_mono _ _ _ _ _ _ _ _ H ED). cbn [obind].
  destruct (perm_ops rnd f1 _ _ _ _) as [[l n2]|] eqn:EP; cbn [obind] in E; [|discriminate].
  rewrite (IHcnt _ _ _ _ H EP). auto.
Qed.
Lemma draw_other_total rnd bound base a : forall k n, draw rnd (n + k) bound + base <> a ->
  exists r, draw_other rnd (S k) n a bound base = Some r.
Proof.
  induction k; intros n H.
  - rewrite Nat.add_0_r in H. cbn [draw_other]. destruct (Nat.eqb_spec (draw rnd n bound + base) a); [lia|]. eauto.
  - remember (S k) as k1. cbn [draw_other]. destruct (Nat.eqb_spec (draw rnd n bound + base) a); [|eauto].
    subst k1. apply IHk. now replace (S n + k) with (n + S k) by lia.
Qed.
Theorem rerandomize_terminates : forall rnd lo hi density,
  varies rnd (hi - lo - 1) -> exists fuel ops, rerandomize rnd fuel lo hi density = Some ops.
Proof.
  intros rnd lo hi density HV. unfold rerandomize. destruct (hi - lo <? 2); [exists 0; eauto|].
  assert (P : forall cnt n, exists fuel r, perm_ops rnd fuel cnt n lo hi = Some r).
  { induction cnt; intros n; [exists 0; cbn; eauto|].
    set (a := draw rnd n (hi - lo - 1) + lo).
    destruct (HV (S n) (a - lo)) as [m [Hm Hd]].
    destruct (draw_other_total rnd (hi - lo - 1) lo a (m - S n) (S n)) as [[b n1] E1].
    { replace (S n + (m - S n)) with m by lia. unfold draw. unfold a in *. lia. }
    destruct (IHcnt n1) as [f2 [[l n2] E2]].
    exists (Nat.max (S (m - S n)) f2). cbn [perm_ops]. fold a.
    rewrite (draw_other_mono _ _ _ _ _ (Nat.max (S (m - S n)) f2) _ _ (Nat.le_max_l _ _) E1). cbn [obind].
    rewrite (perm_ops_mono _ _ _ _ _ (Nat.max (S (m - S n)) f2) _ _ (Nat.le_max_r _ _) E2). cbn [obind]. eauto. }
  destruct (P (4 * (hi - lo)) 0) as [fuel [[l n] E]]. exists fuel. rewrite E. cbn [obind]. eauto.
Qed.

(** A block of exactly two rows: gmp_urandomm_ui(.., 1) is always 0, so b = a for ever, whatever the random numbers. *)
Theorem rerandomize_two_rows_hangs :
  forall rnd lo density, forall fuel, rerandomize rnd fuel lo (lo + 2) density = None.
Proof.
  intros rnd lo density fuel. unfold rerandomize. replace (lo + 2 - lo) with 2 by lia. cbn [Nat.ltb Nat.leb Nat.mul Nat.add].
  assert (D : forall n, draw rnd n 1 = 0) by (intros; unfold draw; apply Nat.mod_1_r).
  assert (X : forall f n, draw_other rnd f n lo 1 lo = None).
  { induction f; intros n; auto. cbn [draw_other]. rewrite D. cbn [Nat.add]. now rewrite Nat.eqb_refl. }
  cbn [perm_ops]. replace (lo + 2 - lo - 1) with 1 by lia. rewrite D. cbn [Nat.add]. rewrite X. reflexivity.
Qed.

Theorem rerandomize_terminates_refuted :
  exists lo hi density, lo < hi /\ forall rnd fuel, rerandomize rnd fuel lo hi density = None.
Proof. exists 0, 2, 1. split; [lia|]. intros. apply (rerandomize_two_rows_hangs rnd 0). Qed.

(** ** Non-trivial cases *)
Definition ex_bb : list (list Z) := [[1;0;0;0];[0;2;0;0];[0;0;3;0];[0;0;0;5]]%Z.
Definition ex_z : option gz := grun (gso_new ex_bb 4 (ident 4) [] true false) [ODiscover; ODiscover; ODiscover; ODiscover].
Definition run_post (dual : bool) (kappa d : nat) (sol : nat -> Z) : option (list (list Z)) :=
  z <- ex_z;; ops <- svp_post kappa dual d sol;; z' <- grun z ops;; Some (gb z').
Lemma ex_z_reachable : forall z, ex_z = Some z -> reachable z.
Proof.
  intros z H. exists ex_bb, 4, (ident 4), [], true, false, [ODiscover; ODiscover; ODiscover; ODiscover].
  split; [|split; [apply legal_runb_ok; vm_compute; reflexivity|exact H]].
  constructor; try lia; auto.
  - intros i Hi. simpl in Hi. do 4 (destruct i as [|i]; [reflexivity|]). lia.
  - right. split; auto. exists 4. apply (rect_ident 4).
Qed.
(** generic insertion of 6 b1 - 10 b2 + 15 b3 at row 1: row 1 becomes (0, 12, -30, 75) *)
Definition sol_gen (i : nat) : Z := nth i [6; -10; 15]%Z 0%Z.
Example ex_primitive : primitive 3 sol_gen.
Proof.
  intros g H. pose proof (H 0 ltac:(lia)) as A. pose proof (H 1 ltac:(lia)) as B. pose proof (H 2 ltac:(lia)) as C. cbn in A, B, C.
  assert (X : (g | 1)%Z).
  { replace 1%Z with (6 + -10 + -10 + 15)%Z by lia. repeat apply Z.divide_add_r; auto. }
  apply Z.divide_1_r in X. auto.
Qed.
Example ex_hyps : exists z, ex_z = Some z /\ reachable z /\ block_ok z 1 3 /\ en_i z = false /\ en_t z = true /\ en_g z = true.
Proof.
  destruct ex_z as [z|] eqn:E; [|vm_compute in E; discriminate]. exists z. split; auto. split; [apply ex_z_reachable; auto|].
  vm_compute in E. injection E as <-. vm_compute. repeat split. lia.
Qed.
Example ex_generic_primal :
  (b <- run_post false 1 3 sol_gen;; Some (nth 0 b [], nth 1 b [])) = Some ([1;0;0;0], [0;12;-30;75])%Z.
Proof. vm_compute; reflexivity. Qed.
(** unit insertion 2 b1 - b2 + 3 b3: the row becomes minus the vector *)
Example ex_unit_primal :
  run_post false 1 3 (fun i => nth i [2; -1; 3]%Z 0%Z) = Some [[1;0;0;0];[0;-4;3;-15];[0;2;0;0];[0;0;0;5]]%Z.
Proof. vm_compute; reflexivity. Qed.
Example ex_unit_dual :
  run_post true 1 3 (fun i => nth i [2; -1; 3]%Z 0%Z) = Some [[1;0;0;0];[0;2;6;0];[0;0;9;5];[0;0;3;0]]%Z.
Proof. vm_compute; reflexivity. Qed.
Example ex_varies : varies (fun n => n) 2.
Proof.
  intros n r. destruct (Nat.eq_dec (n mod 2) r) as [e|e]; [|exists n; auto].
  exists (S n). split; [lia|]. intros H. pose proof (Nat.div_mod n 2 ltac:(lia)). pose proof (Nat.div_mod (S n) 2 ltac:(lia)).
  rewrite H in H1. rewrite e in H0. lia.
Qed.
Example ex_rerandomize : option_map (@length gop) (rerandomize (fun n => n) 5 1 4 2) = Some 14.
Proof. vm_compute; reflexivity. Qed.

Print Assumptions insert_primal.
Print Assumptions insert_dual.
Print Assumptions insert_single_nonprimitive_refuted.
Print Assumptions generic_insert_total.
Print Assumptions generic_pair_step.
Print Assumptions insert_transform.
Print Assumptions insert_transform_refuted.
Print Assumptions rerandomize_lattice.
Print Assumptions rerandomize_terminates.
Print Assumptions rerandomize_two_rows_hangs.
Print Assumptions rerandomize_terminates_refuted.
