(** Proofs about the wrapper model: zero rows, matrices tracked across runs,
    recursion depth of the precision loops. *)
From Coq Require Import List ZArith Lia Arith Bool.
From Verif Require Import Util LatticeSpec NumVectModel NumVectProofs MatrixModel MatrixProofs
  GsoModel GsoProofs GsoHistory RotateSpec PropGso GsoFModel GsoFSpec GsoFProofs GsoWeak LllModel LllProofs WrapperModel.
Import ListNotations.
Local Open Scope nat_scope.

(** ** zeros_first, zeros_last *)
Definition zrow (v : list Z) : Prop := Forall (fun x => x = 0%Z) v.

Lemma is_zero_iff v : nv_is_zero v 0 = true <-> zrow v.
Proof.
  unfold zrow. rewrite nv_is_zero_spec. rewrite Forall_forall. split.
  - intros H x Hx. apply In_nth with (d := 0%Z) in Hx. destruct Hx as [k [Hk <-]]. apply H; lia.
  - intros H k _. destruct (Nat.lt_ge_cases k (length v)); [apply H, nth_In; auto|apply nth_overflow; auto].
Qed.

Lemma tz_loop_ok b : forall i, i <= length b -> exists k, tz_loop b i = Some k /\ k <= i /\
  Forall zrow (slice k i b) /\ (k = 0 \/ exists row, nth_error b (k - 1) = Some row /\ ~ zrow row).
Proof.
  induction i as [|i IH]; intros Hi; cbn [tz_loop].
  - exists 0. split; auto. split; auto. split; [|auto]. unfold slice. simpl. constructor.
  - destruct (nth_error b i) as [row|] eqn:Er; [|apply nth_error_None in Er; lia]. cbn [obind].
    destruct (nv_is_zero row 0) eqn:EZ.
    + destruct (IH ltac:(lia)) as [k [E [Hk [HF HN]]]]. exists k. split; auto. split; [lia|]. split; auto.
      apply is_zero_iff in EZ. apply Forall_forall. intros x Hx. unfold slice in Hx.
      apply In_nth_error in Hx. destruct Hx as [a Ha].
      assert (a < S i - k). { assert (X : a < length (firstn (S i - k) (skipn k b))) by (apply nth_error_Some; congruence). rewrite firstn_length in X. lia. }
      rewrite nth_error_firstn_lt, nth_error_skipn_add in Ha by auto.
      destruct (Nat.eq_dec (k + a) i) as [X|X]; [rewrite X in Ha; congruence|].
      rewrite Forall_forall in HF. apply HF. unfold slice. apply nth_error_In with (n := a).
      rewrite nth_error_firstn_lt, nth_error_skipn_add by lia. auto.
    + exists (S i). split; auto. split; auto. split. { unfold slice. rewrite Nat.sub_diag. constructor. }
      right. exists row. replace (S i - 1) with i by lia. split; auto. intros X. apply is_zero_iff in X. congruence.
Qed.

Lemma lz_loop_ok b : forall cnt i, i + cnt = length b -> Forall zrow (firstn i b) -> exists k, lz_loop b i cnt = Some k /\ i <= k <= length b /\
  Forall zrow (firstn k b) /\ (k = length b \/ exists row, nth_error b k = Some row /\ ~ zrow row).
Proof.
  induction cnt as [|cnt IH]; intros i Hi HF; cbn [lz_loop].
  - exists i. split; auto. split; [lia|]. split; auto. left. lia.
  - destruct (nth_error b i) as [row|] eqn:Er; [|apply nth_error_None in Er; lia]. cbn [obind].
    destruct (nv_is_zero row 0) eqn:EZ.
    + destruct (IH (S i) ltac:(lia)) as [k [E [Hk [HF' HN]]]].
      { apply is_zero_iff in EZ. apply Forall_forall. intros x Hx. apply In_nth_error in Hx. destruct Hx as [a Ha].
        assert (a < S i). { assert (X : a < length (firstn (S i) b)) by (apply nth_error_Some; congruence). rewrite firstn_length in X. lia. }
        rewrite nth_error_firstn_lt in Ha by auto. destruct (Nat.eq_dec a i) as [->|X]; [congruence|].
        rewrite Forall_forall in HF. apply HF. apply nth_error_In with (n := a). rewrite nth_error_firstn_lt by lia. auto. }
      exists k. split; auto. split; [lia|]. auto.
    + exists i. split; auto. split; [lia|]. split; auto. right. exists row. split; auto. intros X. apply is_zero_iff in X. congruence.
Qed.

(** rotation by i rows; a matrix that is absent (empty) stays absent *)
Definition rot_at (i : nat) (M : list (list Z)) : list (list Z) := skipn i M ++ firstn i M.

Lemma rot_nil i : rot_at i [] = [].
Proof. unfold rot_at. destruct i; reflexivity. Qed.
Lemma rot_length i M : length (rot_at i M) = length M.
Proof. unfold rot_at. rewrite app_length, skipn_length, firstn_length. lia. Qed.
Lemma cyc_rot i d (M : list (list Z)) : length M = d -> 0 < d -> i <= d -> cyc 0 i (d - 1) M = rot_at i M.
Proof.
  intros HL Hd Hi. unfold cyc, rot_at, slice. replace (S (d - 1)) with (length M) by lia.
  rewrite (skipn_all2 M (n := length M)) by lia. rewrite app_nil_r. simpl. rewrite Nat.sub_0_r.
  rewrite (firstn_all2 (n := length M - i)) by (rewrite skipn_length; lia). auto.
Qed.

Lemma rotate_if_ok i b u ui : i <= length b -> (u = [] \/ length u = length b) -> (ui = [] \/ length ui = length b) ->
  rotate_if i b u ui = Some (rot_at i b, rot_at i u, rot_at i ui).
Proof.
  intros Hi Hu Hui. unfold rotate_if. destruct ((0 <? i) && (i <? length b)) eqn:EB.
  - apply andb_prop in EB. destruct EB as [E1 E2]. apply Nat.ltb_lt in E1. apply Nat.ltb_lt in E2.
    rewrite rotate_cyc by lia. cbn [obind]. rewrite cyc_rot by lia.
    assert (HR : forall M, (M = [] \/ length M = length b) ->
      (if 0 <? length M then rotate_by_swap M 0 i (length b - 1) else Some M) = Some (rot_at i M)).
    { intros M [->|HM]; [rewrite rot_nil; auto|]. rewrite HM. destruct (Nat.ltb_spec 0 (length b)); [|lia].
      rewrite rotate_cyc by lia. rewrite cyc_rot by lia. auto. }
    rewrite (HR u Hu), (HR ui Hui). auto.
  - assert (HE : i = 0 \/ i = length b).
    { apply andb_false_iff in EB. destruct EB as [E|E]; apply Nat.ltb_ge in E; lia. }
    assert (HR : forall M, (M = [] \/ length M = length b) -> M = rot_at i M).
    { intros M [->|HM]; [rewrite rot_nil; auto|]. unfold rot_at. destruct HE as [->| ->]; simpl; [rewrite app_nil_r; auto|].
      rewrite <- HM, skipn_all, firstn_all. auto. }
    rewrite <- (HR b), <- (HR u), <- (HR ui) by auto. auto.
Qed.

(** effect of the rotation on entries *)
Definition rp (i d k : nat) : nat := if k <? d - i then i + k else k - (d - i).
Definition rq (i d k : nat) : nat := if k <? i then k + (d - i) else k - i.
Lemma rp_ok i d : i <= d -> perm_ok d (rp i d) (rq i d).
Proof.
  intros Hi. unfold rp, rq. split; intros k Hk.
  - destruct (Nat.ltb_spec k (d - i)).
    + split; [lia|]. destruct (Nat.ltb_spec (i + k) i); lia.
    + split; [lia|]. destruct (Nat.ltb_spec (k - (d - i)) i); lia.
  - destruct (Nat.ltb_spec k i).
    + split; [lia|]. destruct (Nat.ltb_spec (k + (d - i)) (d - i)); lia.
    + split; [lia|]. destruct (Nat.ltb_spec (k - i) (d - i)); lia.
Qed.
Lemma nth_firstn_lt {A} n : forall (l : list A) k d, k < n -> nth k (firstn n l) d = nth k l d.
Proof. induction n; intros l k d Hk; [lia|]. destruct l; simpl; auto. destruct k; simpl; auto. apply IHn. lia. Qed.
Lemma rot_nth {A} i (M : list A) k d0 : i <= length M -> k < length M ->
  nth k (skipn i M ++ firstn i M) d0 = nth (rp i (length M) k) M d0.
Proof.
  intros Hi Hk. unfold rp. destruct (Nat.ltb_spec k (length M - i)).
  - rewrite app_nth1 by (rewrite skipn_length; lia). rewrite nth_skipn_add. auto.
  - rewrite app_nth2 by (rewrite skipn_length; lia). rewrite skipn_length. apply nth_firstn_lt. lia.
Qed.
Lemma rot_eff i M : i <= length M -> eff_mat (EPerm (rp i (length M)) (rq i (length M))) M (rot_at i M).
Proof.
  intros Hi. split; [apply rot_length|]. intros a k Ha. unfold ent, rot_at. rewrite rot_nth by auto. auto.
Qed.
Lemma rot_dual i M : i <= length M -> eff_dual (EPerm (rp i (length M)) (rq i (length M))) M (rot_at i M).
Proof.
  intros Hi. split; [apply rot_length|]. intros a k Ha. unfold ent, rot_at. rewrite rot_nth by auto. auto.
Qed.
Lemma rot_rect i n M : i <= length M -> rect n M -> rect n (rot_at i M).
Proof.
  intros Hi HR a Ha. rewrite rot_length in Ha. unfold rot_at. rewrite rot_nth by auto. apply HR.
  apply (proj1 (rp_ok i (length M) Hi)). auto.
Qed.

(** ** The matrices tracked across runs *)
(** b generates the lattice of b0; u, if present, is d x d with b = u b0; u_inv_t,
    if present together with u, is the transposed inverse of u. *)
Record track (b0 : list (list Z)) (c : nat) (b u ui : list (list Z)) : Prop := {
  t_len : length b = length b0;
  t_b : rect c b;
  t_lat : same_lattice c b0 b;
  t_u : u = [] \/ (dims (length b0) (length b0) u /\ is_product c b u b0);
  t_ui : ui = [] \/ (dims (length b0) (length b0) ui /\ (u <> [] -> inverse_transposed (length b0) u ui))
}.

Lemma track_valid b0 c b u ui : 1 <= c -> track b0 c b u ui -> valid_input b c u ui.
Proof.
  intros Hc [H1 H2 H3 H4 H5]. split; auto.
  - destruct H4 as [->|[[A B] _]]; [left; auto|right]. split; [congruence|]. exists (length b0).
    intros i Hi. apply B. lia.
  - destruct H5 as [->|[[A B] _]]; [left; auto|right]. split; [congruence|]. exists (length b0).
    intros i Hi. apply B. lia.
Qed.

Lemma is_product_ident b c : is_product c b (ident (length b)) b.
Proof.
  intros i j Hi Hj. rewrite zsum_single with (k := i); auto.
  - rewrite ent_ident by auto. unfold delta. rewrite Nat.eqb_refl. lia.
  - intros k Hk Hne. rewrite ent_ident by auto. unfold delta. destruct (Nat.eqb_spec i k); [congruence|]. lia.
Qed.
Lemma inverse_ident d : inverse_transposed d (ident d) (ident d).
Proof.
  split; intros i j Hi Hj.
  - rewrite zsum_single with (k := i); auto.
    + rewrite !ent_ident by auto. unfold delta. rewrite Nat.eqb_refl. destruct (Nat.eqb_spec j i), (Nat.eqb_spec i j); lia.
    + intros k Hk Hne. rewrite ent_ident by auto. unfold delta. destruct (Nat.eqb_spec i k); [congruence|]. lia.
  - rewrite zsum_single with (k := i); auto.
    + rewrite !ent_ident by auto. unfold delta. rewrite Nat.eqb_refl. lia.
    + intros k Hk Hne. rewrite ent_ident by auto. unfold delta. destruct (Nat.eqb_spec k i); [congruence|]. lia.
Qed.
Lemma dims_ident d : dims d d (ident d).
Proof. split; [apply ident_length|]. intros i Hi. apply rect_ident. rewrite ident_length. auto. Qed.

Lemma track_start b c u ui : rect c b -> (u = [] \/ u = ident (length b)) -> (ui = [] \/ ui = ident (length b)) ->
  track b c b u ui.
Proof.
  intros Hb Hu Hui. split; auto; [apply same_lattice_refl| |].
  - destruct Hu as [->| ->]; [left; auto|right]. split; [apply dims_ident|apply is_product_ident].
  - destruct Hui as [->| ->]; [left; auto|right]. split; [apply dims_ident|]. intros Hn.
    destruct Hu as [->| ->]; [congruence|]. apply inverse_ident.
Qed.

Lemma track_rot b0 c i b u ui : i <= length b0 -> track b0 c b u ui ->
  track b0 c (rot_at i b) (rot_at i u) (rot_at i ui).
Proof.
  intros Hi [H1 H2 H3 H4 H5]. pose proof (rp_ok i (length b0) Hi) as HP.
  assert (HD : forall M, dims (length b0) (length b0) M -> dims (length b0) (length b0) (rot_at i M)).
  { intros M [A B]. split; [rewrite rot_length; auto|]. intros k Hk.
    apply rot_rect; [lia| |rewrite rot_length; lia]. intros a Ha. apply B. lia. }
  split.
  - rewrite rot_length. auto.
  - apply rot_rect; auto. lia.
  - eapply same_lattice_trans; [exact H3|]. eapply eff_mat_lattice; [|apply rot_eff; lia]. cbn. rewrite H1. auto.
  - destruct H4 as [->|[D P]]; [left; apply rot_nil|right]. split; [apply HD; auto|].
    destruct D as [DL _].
    eapply eff_product with (e := EPerm (rp i (length b0)) (rq i (length b0))) (B := b) (U := u); try discriminate.
    + cbn. rewrite H1. auto.
    + congruence.
    + pose proof (rot_eff i b ltac:(lia)) as X. rewrite H1 in X. exact X.
    + pose proof (rot_eff i u ltac:(lia)) as X. rewrite DL in X. exact X.
    + exact P.
  - destruct H5 as [->|[D P]]; [left; apply rot_nil|right]. split; [apply HD; auto|]. intros Hn.
    assert (Hu : u <> []) by (intros ->; rewrite rot_nil in Hn; congruence). specialize (P Hu).
    destruct H4 as [->|[Du _]]; [congruence|]. destruct D as [DL _]. destruct Du as [DuL _].
    eapply eff_inverse with (e := EPerm (rp i (length b0)) (rq i (length b0))) (U := u) (V := ui); auto; try discriminate.
    + pose proof (rot_eff i u ltac:(lia)) as X. rewrite DuL in X. exact X.
    + pose proof (rot_dual i ui ltac:(lia)) as X. rewrite DL in X. exact X.
Qed.

Lemma track_steps b0 c z z' : Inv z -> Steps z z' -> gc z = c -> en_t z = (0 <? length (gu z)) -> en_i z = (0 <? length (gui z)) ->
  track b0 c (gb z) (gu z) (gui z) -> track b0 c (gb z') (gu z') (gui z') /\ length (gu z') = length (gu z) /\ length (gui z') = length (gui z).
Proof.
  intros HI HS <- ET EI [H1 H2 H3 H4 H5].
  destruct (Steps_inv _ _ HI HS) as [I' [[Fc [Fg [Ft [Fi Ff]]]] G']].
  destruct (Steps_shape _ _ HI HS) as [S1 [S2 [S3 S4]]].
  unfold gd in *. rewrite H1 in *.
  assert (HU : gu z = [] /\ gu z' = [] /\ en_t z = false \/ en_t z = true /\ dims (length b0) (length b0) (gu z) /\ dims (length b0) (length b0) (gu z') /\ is_product (gc z) (gb z) (gu z) b0).
  { destruct H4 as [E|[D P]].
    - left. rewrite E in ET. cbn in ET. rewrite S3; auto.
    - destruct (en_t z) eqn:X. { right. auto. } left. symmetry in ET. apply Nat.ltb_ge in ET. rewrite S3 by auto.
      destruct (gu z); [auto|cbn in ET; lia]. }
  assert (HV : gui z = [] /\ gui z' = [] \/ dims (length b0) (length b0) (gui z) /\ dims (length b0) (length b0) (gui z') /\
     (gu z <> [] -> inverse_transposed (length b0) (gu z) (gui z)) /\ (en_i z = true \/ gui z = [])).
  { destruct H5 as [E|[D P]].
    - left. rewrite E in EI. cbn in EI. rewrite S4; auto. rewrite EI. apply andb_false_r.
    - destruct (en_i z) eqn:X.
      + right. split; auto. split; [|auto]. destruct (en_t z) eqn:Y; [auto|rewrite S4; auto].
      + right. symmetry in EI. apply Nat.ltb_ge in EI. destruct (gui z) eqn:Q; [|cbn in EI; lia].
        split; auto. rewrite S4 by apply andb_false_r. auto. }
  split.
  - split.
    + exact G'.
    + intros i Hi. destruct (I_b _ I') as [A B]. rewrite <- Fc. apply B. unfold gd. lia.
    + eapply same_lattice_trans; [exact H3|]. apply Steps_lattice; auto.
    + destruct HU as [[_ [E _]]|[X [_ [D P]]]]; [left; auto|right]. split; auto. apply (Steps_product z z' (gc z) b0); auto.
    + destruct HV as [[_ E]|[D [D' [P Q]]]]; [left; auto|right]. split; auto. intros Hn.
      destruct HU as [[_ [E _]]|[X [Du [Du' _]]]]; [congruence|].
      destruct Q as [Q|Q].
      2:{ destruct D as [DL _]. rewrite Q in DL. cbn in DL. destruct Du' as [DL' _]. rewrite <- DL in DL'. apply length_zero_iff_nil in DL'. congruence. }
      pose proof (Steps_inverse z z' HI HS X Q) as Y. unfold gd in Y. rewrite H1 in Y. apply Y. apply P.
      intros E. rewrite E in ET. cbn in ET. congruence.
  - split.
    + destruct HU as [[A [E _]]|[X [D [D' P]]]]; [rewrite A, E; auto|]. destruct D, D'; congruence.
    + destruct HV as [[A E]|[D [D' _]]]; [rewrite A, E; auto|]. destruct D, D'; congruence.
Qed.

(** ** One run *)
Section Run.
Variable lo : lops.
Variable P : lpar lo.

Lemma update0_ok z s z1 s1 ok : update_gso_row (lf lo) z s 0 0 = Some (z1, s1, ok) -> ok = true.
Proof.
  unfold update_gso_row.
  match goal with |- obind ?A _ = _ -> _ => destruct A as [[z2 s2]|] end; cbn [obind]; [|discriminate].
  destruct (nth_error (fvc s2) 0) as [v|]; cbn [obind]; [|discriminate].
  destruct v as [|v]; cbn [Nat.sub update_loop].
  - destruct (get_gram _ _ _ _ _) as [[g s3]|]; cbn [obind]; [|discriminate].
    destruct (sub_loop _ _ _ _ _) as [a|]; cbn [obind]; [|discriminate].
    destruct (mset _ _ _ _) as [r'|]; cbn [obind]; [|discriminate].
    cbn. intros H. injection H as _ _ <-. auto.
  - cbn. intros H. injection H as _ _ <-. auto.
Qed.

Lemma iter_kappa fuel st kappa kmin kend srs st' o k : lll_iter lo P fuel st kappa kmin kend srs = Some (st', o, k) -> 1 <= kappa -> 1 <= k.
Proof.
  unfold lll_iter. intros H Hk.
  destruct (babai _ _ _ _ _ _ _) as [[st1 o1]|]; cbn [obind fst snd] in H; [|discriminate].
  destruct o1; [|injection H as _ _ <-; auto..].
  destruct (lovasz_tests _ _ _) as [[lt s1]|]; cbn [obind] in H; [|discriminate].
  destruct (scaled_r _ _ _ _ _) as [t|]; cbn [obind] in H; [|discriminate].
  destruct (nth_error lt (tidx lo P kappa)) as [x|]; cbn [obind] in H; [|discriminate].
  destruct (l_gt lo t x).
  - destruct (ins_loop _ _ _ _ _ _ _) as [k1|]; cbn [obind] in H; [|discriminate].
    destruct (nth_error lt k1) as [lk|]; cbn [obind] in H; [|discriminate].
    destruct (l_pos lo lk).
    + destruct (fmove_row _ _ _ _ _ _) as [zs|]; cbn [obind] in H; [|discriminate].
      destruct (set_r _ _ _ _ _) as [s2|]; cbn [obind] in H; [|discriminate]. injection H as _ _ <-. lia.
    + destruct (fmove_row _ _ _ _ _ _) as [zs|]; cbn [obind] in H; [|discriminate]. injection H as _ _ <-. lia.
  - destruct (nth_error lt kappa) as [lk|]; cbn [obind] in H; [|discriminate].
    destruct (set_r _ _ _ _ _) as [s2|]; cbn [obind] in H; [|discriminate]. injection H as _ _ <-. lia.
Qed.

Lemma loop_fk fuel kmin kend srs : forall n st kappa kmax st' o, lll_loop lo P fuel n st kappa kmax kmin kend srs = Some (st', o) ->
  1 <= kappa -> o = OFalse -> 1 <= lfk st' \/ lstat st' = RED_LLL_FAILURE.
Proof.
  induction n as [|n IH]; intros st kappa kmax st' o H Hk Ho; cbn [lll_loop] in H.
  - unfold lll_finish in H. destruct (if en_g (lz st) then _ else _) as [z1|]; cbn [obind] in H; [|discriminate].
    destruct (kappa + lzeros st <? kend); injection H as <- <-; [right; reflexivity|discriminate].
  - destruct (kappa + lzeros st <? kend) eqn:EK.
    + match type of H with obind ?A _ = _ => destruct A as [[st1 o1]|] end; cbn [obind fst snd] in H; [|discriminate].
      destruct o1; [|injection H as <- <-; left; auto..].
      destruct (lll_iter lo P fuel st1 kappa kmin kend srs) as [[[st2 o2] k2]|] eqn:EI; cbn [obind] in H; [|discriminate].
      pose proof (iter_kappa _ _ _ _ _ _ _ _ _ EI Hk) as Hk2.
      destruct o2; [eapply IH; eauto| | |]; injection H as <- <-; try discriminate.
      left. unfold lll_iter in EI.
      destruct (babai _ _ _ _ _ _ _) as [[st3 o3]|]; cbn [obind fst snd] in EI; [|discriminate].
      destruct o3; [|injection EI; intros; subst; cbn; auto..]. exfalso.
      destruct (lovasz_tests _ _ _) as [[lt s1]|]; cbn [obind] in EI; [|discriminate].
      destruct (scaled_r _ _ _ _ _) as [t|]; cbn [obind] in EI; [|discriminate].
      destruct (nth_error lt (tidx lo P kappa)) as [x|]; cbn [obind] in EI; [|discriminate].
      destruct (l_gt lo t x).
      * destruct (ins_loop _ _ _ _ _ _ _) as [k1|]; cbn [obind] in EI; [|discriminate].
        destruct (nth_error lt k1) as [lk|]; cbn [obind] in EI; [|discriminate].
        destruct (l_pos lo lk).
        -- destruct (fmove_row _ _ _ _ _ _) as [zs|]; cbn [obind] in EI; [|discriminate].
           destruct (set_r _ _ _ _ _) as [s2|]; cbn [obind] in EI; discriminate.
        -- destruct (fmove_row _ _ _ _ _ _) as [zs|]; cbn [obind] in EI; discriminate.
      * destruct (nth_error lt kappa) as [lk|]; cbn [obind] in EI; [|discriminate].
        destruct (set_r _ _ _ _ _) as [s2|]; cbn [obind] in EI; discriminate.
    + unfold lll_finish in H. destruct (if en_g (lz st) then _ else _) as [z1|]; cbn [obind] in H; [|discriminate].
      destruct (kappa + lzeros st <? kend); injection H as <- <-; [right; reflexivity|discriminate].
Qed.

(** A failing lll() never reports final_kappa = 0 (so call_lll returns a non-zero value). *)
Lemma lll_fk fuel mi st kend st' o : lll lo P fuel mi st 0 0 kend 0 = Some (st', o) -> o = OFalse ->
  1 <= lfk st' \/ lstat st' = RED_LLL_FAILURE.
Proof.
  unfold lll. cbv zeta. intros H Ho.
  destruct (zeros_loop _ _ _ _ _ _) as [st1|]; cbn [obind] in H; [|discriminate].
  destruct (lzeros st1 <? kend - 0).
  - cbn [Nat.ltb Nat.leb obind fst snd] in H.
    destruct (update_gso_row _ _ _ _ _) as [[[z1 s1] ok]|] eqn:EU; cbn [obind] in H; [|discriminate].
    rewrite (update0_ok _ _ _ _ _ EU) in H. cbn [snd fst] in H. eapply loop_fk; eauto.
  - cbn [obind fst snd] in H. eapply loop_fk; eauto.
Qed.
End Run.

Lemma run_lll_ok E fuel early siegel gf er b0 c b u ui :
  1 <= c -> 0 < length b0 -> track b0 c b u ui ->
  exists r, run_lll E fuel early siegel gf er b c u ui = Some r /\
    track b0 c (r_b r) (r_u r) (r_ui r) /\ length (r_u r) = length u /\ length (r_ui r) = length ui /\
    (r_out r = OTrue -> r_status r = RED_SUCCESS) /\
    (r_out r = OFalse -> r_status r <> RED_SUCCESS /\ (1 <= r_fk r \/ r_status r = RED_LLL_FAILURE)) /\
    (enough fuel -> r_out r <> OFuel).
Proof.
  intros Hc Hd HT. pose proof (track_valid _ _ _ _ _ Hc HT) as HV. unfold run_lll. cbv zeta.
  set (z := gso_new b c u ui (g_intgram gf) (g_long gf)).
  pose proof (valid_input_inv b c u ui (g_intgram gf) (g_long gf) HV) as HI. fold z in HI.
  destruct (fst_new_w (lf (e_lo E)) (g_rowexpo gf) (e_junk E) z HI) as [f [Ef [FD _]]]. rewrite Ef. cbn [obind].
  set (P := lll_par (e_lo E) z (g_rowexpo gf) (e_delta E) (e_eta E) early siegel).
  set (st0 := @set_er (e_lo E) (@lst_new (e_lo E) z f) er).
  assert (HW : W (e_lo E) st0) by (split; auto).
  destruct (lll_w (e_lo E) P fuel (e_iter E) st0 0 0 (gd z) 0 HW) as [st' [o [El [PO Q]]]].
  { split. { split; [lia|]. change (0 < length b). rewrite (t_len _ _ _ _ _ HT). auto. }
    split; [reflexivity|]. split; [reflexivity|]. split; [apply Nat.le_0_l|]. split; [left; auto|].
    unfold P, lll_par. cbn [p_early lz st0 set_er lst_new]. intros X. apply andb_prop in X. destruct X as [_ X].
    destruct (en_g z); [discriminate|auto]. }
  rewrite El. cbn [obind fst snd]. eexists. split; [reflexivity|]. cbn [r_b r_u r_ui r_out r_status r_fk].
  destruct PO as [W' [SS [O1 O2]]].
  destruct (track_steps b0 c z (lz st') HI SS eq_refl eq_refl eq_refl HT) as [T' [L1 L2]].
  split; [exact T'|]. split; [exact L1|]. split; [exact L2|]. split; [exact Q|]. split; [|exact O2].
  intros X. split; [auto|]. eapply lll_fk; eauto.
Qed.
