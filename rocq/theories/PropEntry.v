(** C82: the functions the user calls choose an arithmetic that is wide enough, say so
    truthfully, refuse what they cannot do, and leave the global settings as they found them. *)
From Coq Require Import List ZArith Lia Bool Arith.
From Verif Require Import Util LatticeSpec NumVectModel MatrixModel MatrixProofs GsoModel GsoFModel LllModel WrapperModel WrapperProofs WrapperCalls PropWrapper EntryModel.
From Verif Require PruneCostModel.
Import ListNotations.
Local Open Scope Z_scope.

(** * Specification *)
(** mantissa bits the reduction computed with ([ld]: long double) *)
Definition mantissa (ld : Z) (j : job) : Z :=
  match j_ft j with TDouble | TDpe => 53 | TLongDouble => ld | TDD => 106 | TQD => 212 | TMpfr => j_prec j end.
(** a default precision of MPFR below 2^32 *)
Definition sane (g : glob) : Prop := 0 < g_prec g < 2 ^ 32.
(** the type is part of the build *)
Definition compiled (wld wqd wdpe : bool) (t : ftype) : Prop :=
  match t with TDouble | TMpfr => True | TLongDouble => wld = true | TDpe => wdpe = true | TDD | TQD => wqd = true end.
(** the requests that are served: a precision only for mpfr; "fast" only without a
    precision and only in a type without big exponents; only types that are compiled in *)
Definition served (wld wqd wdpe : bool) (m : meth) (ft : option ftype) (prec : Z) : Prop :=
  (prec <> 0 -> ft = None \/ ft = Some TMpfr) /\
  (m = LM_FAST -> prec = 0 /\ In ft [None; Some TDouble; Some TLongDouble; Some TDD; Some TQD]) /\
  (forall t, ft = Some t -> compiled wld wqd wdpe t).
(** from the cheapest to the most expensive type tried *)
Definition cost_order : list (ftype * Z) := [(TDpe, 53); (TDD, 106); (TQD, 212)].
(** transforms absent or with as many rows as the basis *)
Definition shaped (m : mats) : Prop :=
  let '(b, u, ui) := m in (u = [] \/ length u = length b) /\ (ui = [] \/ length ui = length b).

(** what is promised about the arithmetic [j] used for a request *)
Definition right_arithmetic (wld wqd wdpe : bool) (ld : Z) (m : meth) (ft : option ftype) (prec good : Z) (j : job) : Prop :=
  j_meth j = m /\ compiled wld wqd wdpe (j_ft j) /\
  (forall t, ft = Some t -> j_ft j = t) /\
  (prec <> 0 -> j_ft j = TMpfr /\ mantissa ld j = prec) /\
  (prec = 0 -> j_ft j = TMpfr -> mantissa ld j = match m with LM_PROVED => good | _ => 53 end) /\
  (ft = None -> prec = 0 -> m = LM_FAST -> j_ft j = TDouble) /\
  (ft = None -> prec = 0 -> m = LM_PROVED ->
     good <= mantissa ld j /\
     forall l t p r, cost_order = l ++ (t, p) :: r -> compiled wld wqd wdpe t -> good <= p ->
       exists p', In (j_ft j, p') (l ++ [(t, p)])).

(** * Proofs *)
Lemma sane_back (g : glob) (p : Z) : sane g -> fst (set_prec (s32 (g_prec g)) (fst (set_prec p g))) = g.
Proof.
  intros H. unfold set_prec, u32, s32. cbn. destruct g as [a c]. cbn in *. f_equal.
  unfold sane in H. cbn in H. change (2 ^ 31) with 2147483648. change (2 ^ 32) with 4294967296 in *.
  rewrite Zminus_mod, Zmod_mod, <- Zminus_mod. replace (a + 2147483648 - 2147483648) with a by lia. apply Z.mod_small. lia.
Qed.
Lemma u32_small p : 0 <= p < 2 ^ 32 -> u32 p = p.
Proof. intros H. apply Z.mod_small. auto. Qed.
Lemma zeros_first_some b u ui : shaped (b, u, ui) -> exists m, zeros_first b u ui = Some m.
Proof.
  intros [H1 H2]. unfold zeros_first. destruct (tz_loop_ok b (length b) (le_n _)) as [k [E [Hk _]]]. rewrite E. cbn [obind].
  rewrite rotate_if_ok; auto. eauto.
Qed.
Lemma zeros_last_track n b0 b u ui : track b0 n b u ui ->
  exists b' u' ui', zeros_last b u ui = Some (b', u', ui') /\ track b0 n b' u' ui' /\ length u' = length u /\ length ui' = length ui.
Proof.
  intros HT. pose proof HT as [H1 H2 H3 H4 H5]. unfold zeros_last.
  destruct (lz_loop_ok b (length b) 0) as [k [E [Hk _]]]; auto; [constructor|]. rewrite E. cbn [obind].
  rewrite rotate_if_ok; [|lia| |].
  - exists (rot_at k b), (rot_at k u), (rot_at k ui). split; auto. split; [apply track_rot; auto; lia|]. rewrite !rot_length. auto.
  - destruct H4 as [->|[[A _] _]]; [auto|right; lia].
  - destruct H5 as [->|[[A _] _]]; [auto|right; lia].
Qed.

Section P.
Variables wld wqd wdpe : bool.
Variable ld : Z.
Variable fixcw : Z -> Z.

Lemma sel_served m ft prec good t : sel_ft good wqd wdpe m ft prec = Some t -> ft_built wld wqd wdpe t = true ->
  served wld wqd wdpe m ft prec.
Proof.
  unfold sel_ft, served. cbv zeta. intros H HB.
  destruct (Z.eqb_spec prec 0) as [->|Hp].
  - cbn [negb andb] in H. split; [congruence|]. destruct ft as [x|].
    + destruct m; try (injection H as <-; split; [congruence|]; intros t' [= <-]; destruct x; cbn in *; auto).
      split; [intros _; split; auto; destruct x; cbn in H |- *; try discriminate H; auto 10|].
      destruct (ft_eqb x TDouble || _ || _ || _); [|discriminate]. injection H as <-. intros t' [= <-]. destruct x; cbn in *; auto.
    + split; [intros _; cbn; auto|discriminate].
  - cbn [negb andb] in H. destruct ft as [x|].
    + destruct x; cbn in H; try discriminate H. split; auto. split; [|intros t' [= <-]; cbn; auto]. destruct m; try discriminate; discriminate H.
    + cbn in H. split; auto. split; [|discriminate]. destruct m; try discriminate; discriminate H.
Qed.

Lemma served_sel m ft prec good : served wld wqd wdpe m ft prec ->
  exists t, sel_ft good wqd wdpe m ft prec = Some t /\ ft_built wld wqd wdpe t = true.
Proof.
  intros [H1 [H2 H3]]. unfold sel_ft. cbv zeta. destruct (Z.eqb_spec prec 0) as [->|Hp].
  - cbn [negb andb]. destruct ft as [x|].
    + specialize (H3 x eq_refl). exists x. split.
      * destruct m; auto. destruct (H2 eq_refl) as [_ HI]. cbn in HI.
        destruct HI as [X|[X|[X|[X|[X|[]]]]]]; try discriminate X; injection X as <-; auto.
      * destruct x; auto.
    + destruct m; [| |exists TDouble; auto];
        (destruct wdpe; cbn [andb]; [destruct (_ <=? 53); [exists TDpe; auto|]|]); (destruct wqd; cbn [andb]; [destruct (_ <=? 106); [exists TDD; auto|]; destruct (_ <=? 212); [exists TQD; auto|]|]);
        exists TMpfr; auto.
  - destruct m; [| |destruct (H2 eq_refl); congruence]; (destruct (H1 Hp) as [->| ->]; exists TMpfr; auto).
Qed.

Definition jcw (t : ftype) (cw : Z) : Z := match t with TDD | TQD => fixcw cw | _ => cw end.
Lemma run_as_ok go m t sp w : sane (w_g w) ->
  run_as fixcw go m t sp w =
    let j := mkjob t (match t with TMpfr => u32 sp | _ => g_prec (w_g w) end) (jcw t (g_cw (w_g w))) m in
    (mkw (w_g w) (fst (go j (w_m w))) (w_jobs w ++ [j]) (w_msgs w), snd (go j (w_m w))).
Proof.
  intros HS. unfold run_as. cbv zeta.
  destruct t; cbn [jcw]; try (destruct (go _ _) as [x s] eqn:E; cbn [fst snd]; auto; fail).
  - destruct (go _ _) as [x s] eqn:E. cbn [fst snd g_prec g_cw]. destruct w as [[a c] ? ? ?]; auto.
  - destruct (go _ _) as [x s] eqn:E. cbn [fst snd g_prec g_cw]. destruct w as [[a c] ? ? ?]; auto.
  - destruct (set_prec sp (w_g w)) as [g old] eqn:Es. pose proof Es as Es'. unfold set_prec in Es'. injection Es' as <- <-. cbn [g_prec g_cw].
    destruct (go _ _) as [x s] eqn:E. cbn [fst snd]. f_equal. f_equal. pose proof (sane_back (w_g w) sp HS) as X. unfold set_prec in X |- *. cbn [fst] in X. exact X.
Qed.

Lemma sel_right m ft prec good t g : sel_ft good wqd wdpe m ft prec = Some t -> ft_built wld wqd wdpe t = true ->
  0 <= prec < 2 ^ 31 -> 0 < good < 2 ^ 31 ->
  right_arithmetic wld wqd wdpe ld m ft prec good
    (mkjob t (match t with TMpfr => u32 (type_prec wld wqd wdpe ld t (first_prec m prec good)) | _ => g_prec g end) (jcw t (g_cw g)) m).
Proof.
  intros HS HB Hp Hg. unfold right_arithmetic. cbn [j_meth j_ft j_prec mantissa]. split; auto.
  assert (HC : compiled wld wqd wdpe t) by (destruct t; cbn in *; auto). split; auto.
  unfold sel_ft in HS. cbv zeta in HS. unfold first_prec. destruct (Z.eqb_spec prec 0) as [->|Hp0].
  - cbn [negb andb] in *. split; [|split; [congruence|]].
    { intros x ->. destruct m; try congruence. destruct (_ || _ || _ || _); congruence. }
    split. { intros _ ->. cbn [mantissa j_ft j_prec type_prec]. rewrite u32_small; auto; destruct m; lia. }
    split. { intros -> _ ->. congruence. }
    intros -> _ ->. unfold cost_order.
    assert (K : forall l (t' : ftype) (p' : Z) r, [(TDpe, 53); (TDD, 106); (TQD, 212)] = l ++ (t', p') :: r ->
       (l = [] /\ t' = TDpe /\ p' = 53) \/ (l = [(TDpe, 53)] /\ t' = TDD /\ p' = 106) \/ (l = [(TDpe, 53); (TDD, 106)] /\ t' = TQD /\ p' = 212)).
    { intros l t' p' r E. destruct l as [|y1 [|y2 [|y3 l]]]; cbn in E.
      - injection E as <- <- _. auto.
      - injection E as <- <- <- _. auto.
      - injection E as <- <- <- <- _. auto.
      - injection E as _ _ _ E. destruct l; discriminate E. }
    destruct wdpe eqn:Ed, wqd eqn:Eq; cbn [andb] in HS;
      repeat match type of HS with context [?a <=? ?b] => destruct (Z.leb_spec a b) end; injection HS as <-;
      cbn [mantissa j_ft j_prec type_prec]; rewrite ?u32_small by lia;
      (split; [lia|]; intros l t' p' r E CC LE; destruct (K _ _ _ _ E) as [[-> [-> ->]]|[[-> [-> ->]]|[-> [-> ->]]]]; cbn in CC; try discriminate CC; try lia; cbn; eauto 8).
  - cbn [negb andb] in HS. destruct ft as [x|].
    + destruct x; cbn in HS; try discriminate HS. assert (t = TMpfr) as -> by (destruct m; congruence).
      split; [congruence|]. cbn [mantissa j_ft j_prec type_prec negb]. rewrite u32_small by lia. repeat split; auto; congruence.
    + assert (t = TMpfr) as -> by (destruct m; cbn in HS; congruence).
      split; [discriminate|]. cbn [mantissa j_ft j_prec type_prec negb]. rewrite u32_small by lia. repeat split; auto; congruence.
Qed.

Lemma type_prec_mant m prec good t g : ft_built wld wqd wdpe t = true -> 0 <= prec < 2 ^ 31 -> 0 < good < 2 ^ 31 ->
  mantissa ld (mkjob t (match t with TMpfr => u32 (type_prec wld wqd wdpe ld t (first_prec m prec good)) | _ => g_prec g end) (jcw t (g_cw g)) m)
  = type_prec wld wqd wdpe ld t (first_prec m prec good).
Proof.
  intros HB Hp Hg. unfold mantissa. cbn [j_ft j_prec]. destruct t; cbn in HB |- *; try rewrite HB; auto.
  apply u32_small. unfold first_prec. destruct (Z.eqb_spec prec 0); cbn [negb]; [|lia]. destruct m; lia.
Qed.

(** the common part *)
Lemma front_ok go verbose z m ft prec good w :
  sane (w_g w) -> 0 <= prec < 2 ^ 31 -> 0 < good < 2 ^ 31 ->
  (forall j x, shaped x -> shaped (fst (go j x))) -> shaped (w_m w) ->
  served wld wqd wdpe m ft prec ->
  exists j w' x,
    front wld wqd wdpe ld fixcw go verbose z m ft prec good w = ERet (Red (snd (go j (w_m w)))) w' /\
    w_g w' = w_g w /\ w_jobs w' = w_jobs w ++ [j] /\
    (let '(b, u, ui) := fst (go j (w_m w)) in zeros_first b u ui = Some (w_m w')) /\
    right_arithmetic wld wqd wdpe ld m ft prec good j /\
    j_cw j = (match j_ft j with TDD | TQD => fixcw (g_cw (w_g w)) | _ => g_cw (w_g w) end) /\
    w_msgs w' = w_msgs w ++ (if verbose then [x] else []) /\
    (x = Guaranteed good <-> m = LM_PROVED /\ z = ZMpz /\ j_ft j <> TDouble /\ good <= mantissa ld j).
Proof.
  intros HS Hp Hg Hgo Hsh Hse. destruct (served_sel m ft prec good Hse) as [t [Es HB]].
  unfold front. rewrite Es, HB. cbn [negb]. cbv zeta.
  set (sp := type_prec wld wqd wdpe ld t (first_prec m prec good)). set (x := sentence z m t sp good).
  set (w1 := say verbose x w).
  assert (G1 : w_g w1 = w_g w) by (unfold w1, say; destruct verbose; auto).
  assert (M1 : w_m w1 = w_m w) by (unfold w1, say; destruct verbose; auto).
  assert (J1 : w_jobs w1 = w_jobs w) by (unfold w1, say; destruct verbose; auto).
  assert (S1 : w_msgs w1 = w_msgs w ++ (if verbose then [x] else [])) by (unfold w1, say; destruct verbose; cbn; rewrite ?app_nil_r; auto).
  rewrite (run_as_ok go m t sp w1) by (rewrite G1; auto). cbv zeta. rewrite G1, M1, J1, S1.
  set (j := mkjob t (match t with TMpfr => u32 sp | _ => g_prec (w_g w) end) (jcw t (g_cw (w_g w))) m).
  cbn [fst snd w_m]. pose proof (Hgo j _ Hsh) as Hsh'. destruct (go j (w_m w)) as [[[b u] ui] s] eqn:E. cbn [fst snd] in *.
  destruct (zeros_first_some b u ui Hsh') as [mm Em]. rewrite Em. cbn [w_g w_jobs w_msgs].
  exists j, (mkw (w_g w) mm (w_jobs w ++ [j]) (w_msgs w ++ (if verbose then [x] else []))), x. rewrite E. cbn [fst snd w_g w_m w_jobs w_msgs].
  split; auto. split; auto. split; auto. split; auto.
  split; [apply (sel_right m ft prec good t (w_g w)); auto|]. split; [reflexivity|]. split; auto.
  pose proof (type_prec_mant m prec good t (w_g w) HB Hp Hg) as HM. fold sp in HM. fold j in HM. rewrite HM. change (j_ft j) with t.
  unfold x, sentence.
  destruct m, z, (ft_eqb t TDouble) eqn:ED; cbn [negb orb]; try (split; [discriminate|intros [A [B [C D]]]; try discriminate A; try discriminate B]).
  { exfalso. apply C. destruct t; try discriminate ED; auto. }
  destruct (Z.ltb_spec sp good).
  - split; [discriminate|intros [_ [_ [_ D]]]; lia].
  - split; [intros _|auto]. split; auto. split; auto. split; [|lia]. intros ->. discriminate ED.
Qed.
Lemma front_refuses go verbose z m ft prec good w :
  ~ served wld wqd wdpe m ft prec ->
  exists w', front wld wqd wdpe ld fixcw go verbose z m ft prec good w = EAbort w' /\ w_g w' = w_g w /\ w_m w' = w_m w /\ w_jobs w' = w_jobs w.
Proof.
  intros HN. unfold front. destruct (sel_ft good wqd wdpe m ft prec) as [t|] eqn:E; [|eauto]. cbv zeta.
  destruct (ft_built wld wqd wdpe t) eqn:HB; cbn [negb]; [exfalso; apply HN; eapply sel_served; eauto|].
  eexists. split; [reflexivity|]. unfold say. destruct verbose; auto.
Qed.
Lemma call_back_id p g : sane g -> call_back p g = g.
Proof. intros H. unfold call_back, call_prec. destruct (0 <? p); auto. apply (sane_back g p H). Qed.
Lemma fold_back (L : list (ftype * bool * Z * red_status)) g : sane g -> fold_left (fun g c => call_back (snd (fst c)) g) L g = g.
Proof. intros H. induction L as [|c L IH]; cbn; auto. rewrite call_back_id; auto. Qed.
End P.

(** * LLL and HLLL *)
(** hlll_reduction (proved or fast, no verification): a served request returns the status
    and the matrices of one reduction, run in the right arithmetic; MPFR's default
    precision and the FPU control word are as before; double-double and quad-double run
    with the control word they need; with LLL_VERBOSE exactly one sentence is printed, and
    it promises a guarantee exactly when the method is proved, the integers are exact and
    the mantissa has the bits asked for by the proof (and the type is not double). *)
Theorem hlll_entry_right :
  forall wld wqd wdpe ld fixcw go ver run wm k verbose z m ft prec good w,
  m = LM_PROVED \/ m = LM_FAST ->
  sane (w_g w) -> 0 <= prec < 2 ^ 31 -> 0 < good < 2 ^ 31 ->
  (forall j x, shaped x -> shaped (fst (go j x))) -> shaped (w_m w) ->
  served wld wqd wdpe m ft prec ->
  exists j w' x,
    hlll_reduction_z wld wqd wdpe ld fixcw go ver run wm k verbose false z (Some m) ft prec good w = ERet (Red (snd (go j (w_m w)))) w' /\
    w_g w' = w_g w /\ w_jobs w' = w_jobs w ++ [j] /\
    (let '(b, u, ui) := fst (go j (w_m w)) in zeros_first b u ui = Some (w_m w')) /\
    right_arithmetic wld wqd wdpe ld m ft prec good j /\
    j_cw j = (match j_ft j with TDD | TQD => fixcw (g_cw (w_g w)) | _ => g_cw (w_g w) end) /\
    w_msgs w' = w_msgs w ++ (if verbose then [x] else []) /\
    (x = Guaranteed good <-> m = LM_PROVED /\ z = ZMpz /\ j_ft j <> TDouble /\ good <= mantissa ld j).
Proof.
  intros wld wqd wdpe ld fixcw go ver run wm k verbose z m ft prec good w Hm HS Hp Hg Hgo Hsh Hse.
  unfold hlll_reduction_z. destruct Hm as [-> | ->]; apply front_ok; auto.
Qed.
(** the same for lll_reduction (any method but the wrapper, no early reduction with proved) *)
Theorem lll_entry_right :
  forall wld wqd wdpe ld fixcw go verbose early z m ft prec good w,
  (m = LM_PROVED -> early = false) ->
  sane (w_g w) -> 0 <= prec < 2 ^ 31 -> 0 < good < 2 ^ 31 ->
  (forall j x, shaped x -> shaped (fst (go j x))) -> shaped (w_m w) ->
  served wld wqd wdpe m ft prec ->
  exists j w' x,
    lll_entry wld wqd wdpe ld fixcw go verbose early z m ft prec good w = ERet (Red (snd (go j (w_m w)))) w' /\
    w_g w' = w_g w /\ w_jobs w' = w_jobs w ++ [j] /\
    (let '(b, u, ui) := fst (go j (w_m w)) in zeros_first b u ui = Some (w_m w')) /\
    right_arithmetic wld wqd wdpe ld m ft prec good j /\
    j_cw j = (match j_ft j with TDD | TQD => fixcw (g_cw (w_g w)) | _ => g_cw (w_g w) end) /\
    w_msgs w' = w_msgs w ++ (if verbose then [x] else []) /\
    (x = Guaranteed good <-> m = LM_PROVED /\ z = ZMpz /\ j_ft j <> TDouble /\ good <= mantissa ld j).
Proof.
  intros wld wqd wdpe ld fixcw go verbose early z m ft prec good w He HS Hp Hg Hgo Hsh Hse.
  unfold lll_entry. replace (match m with LM_PROVED => early | _ => false end) with false by (destruct m; auto; symmetry; auto).
  apply front_ok; auto.
Qed.
(** what is not served ends in abort() before any matrix is touched *)
Theorem entry_refuses :
  forall wld wqd wdpe ld fixcw go ver run wm k verbose z m ft prec good w,
  (~ served wld wqd wdpe m ft prec ->
   exists w', hlll_reduction_z wld wqd wdpe ld fixcw go ver run wm k verbose false z (Some m) ft prec good w = EAbort w' /\ w_m w' = w_m w /\ w_jobs w' = w_jobs w) /\
  (forall early, ~ served wld wqd wdpe m ft prec \/ (m = LM_PROVED /\ early = true) ->
   exists w', lll_entry wld wqd wdpe ld fixcw go verbose early z m ft prec good w = EAbort w' /\ w_m w' = w_m w /\ w_jobs w' = w_jobs w) /\
  hlll_reduction_z wld wqd wdpe ld fixcw go ver run wm k verbose false z (Some LM_HEURISTIC) ft prec good w = EAbort w /\
  (z <> ZMpz \/ ft <> None \/ prec <> 0 ->
   hlll_reduction_z wld wqd wdpe ld fixcw go ver run wm k verbose false z None ft prec good w = EAbort w).
Proof.
  intros wld wqd wdpe ld fixcw go ver run wm k verbose z m ft prec good w. split; [|split; [|split]].
  - intros HN. unfold hlll_reduction_z. destruct m.
    + destruct (front_refuses wld wqd wdpe ld fixcw go verbose z LM_PROVED ft prec good w HN) as [w' [E [_ [A B]]]]. eauto.
    + eauto.
    + destruct (front_refuses wld wqd wdpe ld fixcw go verbose z LM_FAST ft prec good w HN) as [w' [E [_ [A B]]]]. eauto.
  - intros early [HN|[-> ->]].
    + unfold lll_entry. destruct (match m with LM_PROVED => early | _ => false end); [eauto|].
      destruct (front_refuses wld wqd wdpe ld fixcw go verbose z m ft prec good w HN) as [w' [E [_ [A B]]]]. eauto.
    + exists w. auto.
  - reflexivity.
  - intros H. unfold hlll_reduction_z, hlll_wrapper_entry. destruct z; auto. destruct ft; auto. destruct (Z.eqb_spec prec 0); auto.
    destruct H as [H|[H|H]]; congruence.
Qed.
(** the verification (nolll): the matrices and the settings are left alone, type and
    method do not matter, the check runs in mpfr with the precision given or else with the
    bits asked for by the proof; the sentence printed first is true *)
Theorem hlll_verify_right :
  forall wld wqd wdpe ld fixcw go ver run wm k verbose z m ft prec good b row u ui g jobs msgs,
  m <> Some LM_HEURISTIC -> sane g -> 0 <= prec < 2 ^ 31 -> 0 < good < 2 ^ 31 -> row <> [] -> hd_error b = Some row ->
  exists j x,
    hlll_reduction_z wld wqd wdpe ld fixcw go ver run wm k verbose true z m ft prec good (mkw g (b, u, ui) jobs msgs)
    = ERet (Red (ver j (b, u, ui))) (mkw g (b, u, ui) (jobs ++ [j])
        (msgs ++ (if verbose then [x; SaysReduced (is_success (ver j (b, u, ui)))] else []))) /\
    j_ft j = TMpfr /\ (prec <> 0 -> mantissa ld j = prec) /\ (prec = 0 -> mantissa ld j = good) /\
    (x = VerGuaranteed good <-> good <= mantissa ld j) /\ (x = VerTooSmall good <-> mantissa ld j < good).
Proof.
  intros wld wqd wdpe ld fixcw go ver run wm k verbose z m ft prec good b row u ui g jobs msgs Hm HS Hp Hg Hr Hb.
  set (sp := if negb (prec =? 0) then prec else good).
  assert (Hsp : 0 <= sp < 2 ^ 32) by (unfold sp; destruct (negb (prec =? 0)); lia).
  exists (mkjob TMpfr sp (g_cw g) LM_PROVED), (if sp <? good then VerTooSmall good else VerGuaranteed good). split.
  - assert (E : hlll_reduction_z wld wqd wdpe ld fixcw go ver run wm k verbose true z m ft prec good (mkw g (b, u, ui) jobs msgs)
       = hlll_verify ver verbose prec good (mkw g (b, u, ui) jobs msgs)).
    { unfold hlll_reduction_z. destruct m as [[| |]|]; auto. congruence. }
    rewrite E. unfold hlll_verify. fold sp. cbv zeta.
    destruct b as [|r b]; [discriminate|]. injection Hb as ->.
    set (x := if sp <? good then VerTooSmall good else VerGuaranteed good).
    assert (G : w_g (say verbose x (mkw g (row :: b, u, ui) jobs msgs)) = g) by (unfold say; destruct verbose; auto).
    rewrite G. destruct (set_prec sp g) as [g1 old] eqn:E1. pose proof E1 as E2. unfold set_prec in E2. injection E2 as <- <-. cbn [g_prec g_cw].
    rewrite u32_small by auto.
    assert (HL : (length row =? 0)%nat = false) by (destruct row; [congruence|auto]).
    pose proof (sane_back g sp HS) as X. unfold set_prec at 2 in X. cbn [fst] in X. rewrite u32_small in X by auto.
    unfold say. destruct verbose; cbn [w_g w_m w_jobs w_msgs fst]; rewrite HL, X; [rewrite <- app_assoc|rewrite app_nil_r]; reflexivity.
  - cbn [j_ft]. unfold mantissa. cbn [j_ft j_prec]. split; auto. unfold sp in *. destruct (Z.eqb_spec prec 0) as [->|]; cbn [negb] in *.
    + split; [congruence|]. split; auto. rewrite Z.ltb_irrefl. split; (split; [|try lia; try discriminate]); auto; try lia; discriminate.
    + split; auto. split; [congruence|]. destruct (Z.ltb_spec prec good); (split; (split; [|try lia; try discriminate])); auto; try lia; discriminate.
Qed.
(** the HLLL wrapper: every call of the wrapper in mpfr computes with the precision it was
    given, the settings are as before afterwards *)
Theorem hlll_wrapper_entry_right :
  forall wld wqd wdpe ld fixcw go ver run wm verbose good b row u ui g jobs msgs,
  sane g -> 0 < good < 2 ^ 31 -> 0 < ld -> row <> [] -> hd_error b = Some row -> shaped (wm (b, u, ui)) ->
  exists w' h,
    hlll_reduction_z wld wqd wdpe ld fixcw go ver run wm (wdepth good) verbose false ZMpz None None 0 good (mkw g (b, u, ui) jobs msgs) = ERet (Red RED_SUCCESS) w' /\
    w_g w' = g /\ w_msgs w' = msgs /\
    hlll_reduction_wrapper run good wld wqd wdpe ld (wdepth good) false = Some (h, RED_SUCCESS) /\
    length (w_jobs w') = (length jobs + length (hcalls h))%nat /\
    (forall i t proved p s, nth_error (hcalls h) i = Some (t, proved, p, s) -> 0 < p < 2 ^ 32 ->
       exists j, nth_error (w_jobs w') (length jobs + i) = Some j /\ j_ft j = t /\ (t = TMpfr -> mantissa ld j = p)).
Proof.
  intros wld wqd wdpe ld fixcw go ver run wm verbose good b row u ui g jobs msgs HS Hg Hld Hr Hb Hsh.
  destruct (hlll_wrapper_status_constant run good wld wqd wdpe ld Hld) as [h [r [_ [E [_ _]]]]].
  unfold hlll_reduction_z, hlll_wrapper_entry. cbn [negb orb Z.eqb w_m fst].
  destruct b as [|r0 b]; [discriminate|]. injection Hb as ->.
  replace (length row =? 0)%nat with false by (destruct row; [congruence|auto]). rewrite E. cbv zeta.
  destruct (wm (row :: b, u, ui)) as [[b1 u1] ui1]. destruct (zeros_first_some b1 u1 ui1 Hsh) as [mm Em]. rewrite Em.
  eexists _, h. split; [reflexivity|]. cbn [w_g w_msgs w_jobs]. rewrite fold_back by auto. split; auto. split; auto. split; auto.
  rewrite app_length, map_length. split; auto. intros i t proved p s Hi Hp.
  exists (call_job g (t, proved, p, s)). split.
  - rewrite nth_error_app2 by lia. replace (length jobs + i - length jobs)%nat with i by lia. rewrite nth_error_map, Hi. auto.
  - unfold call_job, call_prec. replace (0 <? p) with true by (symmetry; apply Z.ltb_lt; lia). cbn [j_ft]. split; auto. intros ->.
    unfold mantissa. cbn [j_ft j_prec fst set_prec g_prec]. unfold set_prec. cbn. apply u32_small. lia.
Qed.

(** no row, or rows without entries: success without a call, nothing changes but the order of
    the rows (zeros first) *)
Theorem hlll_wrapper_entry_empty :
  forall wld wqd wdpe ld fixcw go ver run wm k verbose good b u ui g jobs msgs,
  b = [] \/ hd_error b = Some [] -> shaped (b, u, ui) ->
  exists m', zeros_first b u ui = Some m' /\
    hlll_reduction_z wld wqd wdpe ld fixcw go ver run wm k verbose false ZMpz None None 0 good (mkw g (b, u, ui) jobs msgs)
    = ERet (Red RED_SUCCESS) (mkw g m' jobs msgs).
Proof.
  intros wld wqd wdpe ld fixcw go ver run wm k verbose good b u ui g jobs msgs Hb Hs.
  destruct (zeros_first_some b u ui Hs) as [mm Em]. exists mm. split; auto.
  unfold hlll_reduction_z, hlll_wrapper_entry. cbn [negb orb Z.eqb w_m fst].
  replace (match b with [] => true | r :: _ => (length r =? 0)%nat end) with true
    by (destruct Hb as [->|Hb]; [reflexivity|destruct b as [|r0 b]; [discriminate|injection Hb as ->; reflexivity]]).
  cbv iota. unfold hlll_reduction_wrapper. rewrite Em. cbn. rewrite app_nil_r. reflexivity.
Qed.
Example hlll_wrapper_empty_ex : hd_error ([[]; []] : list (list Z)) = Some [] /\ shaped ([[]; []], [[1; 0]; [0; 1]], []) /\
  zeros_first [[]; []] [[1; 0]; [0; 1]] [] <> None.
Proof. split; [reflexivity|]. split; [split; auto|]. vm_compute. discriminate. Qed.

(** * BKZ *)
Section B.
Variables zlong wld wqd wdpe : bool.
Variable ld : Z.
Variable D : Type.
Variable below1 : D -> bool.
Variables def_delta one_delta : D.
Variable envs : D -> wcall -> nat -> env.
Variable little : D -> Z -> Z -> bool.
Variable good_prec : D -> Z.
Variable lg : nat -> nat -> Z.
Variables fuel k n : nat.
Variable brun : bkzpar D -> D -> job -> mats -> mats * option est.
Notation bkz := (bkz_reduction zlong wld wqd wdpe ld D below1 def_delta envs little good_prec lg fuel k n brun).

(** an inversion: how a call of bkz_reduction can end *)
Lemma bkz_ends par ft prec g b U : sane g -> 0 <= prec < 2 ^ 31 ->
  let t := match ft with Some t => t | None => TDouble end in
  let dl := if below1 (p_delta par) then p_delta par else def_delta in
  let j := mkjob t (match t with TMpfr => prec | _ => g_prec g end) (g_cw g) LM_FAST in
  match bkz par ft prec g (Some b) U with
  | EAbort w => (t = TMpfr /\ prec = 0) \/ ~ compiled wld wqd wdpe t
  | ERet s w => w_g w = g /\ (w_jobs w = [] \/ w_jobs w = [j]) /\ (t = TMpfr -> prec <> 0) /\ (w_jobs w = [j] -> compiled wld wqd wdpe t)
  | EThrow w => w_jobs w = [j] /\ w_g w = (match t with TMpfr => mkglob prec (g_cw g) | _ => g end) /\
                exists m m2, brun par dl j m = (m2, None)
  | _ => True
  end.
Proof.
  intros HS Hp. cbv zeta. unfold bkz_reduction, bkz_reduction_at. cbv zeta.
  set (t := match ft with Some t => t | None => TDouble end).
  set (dl := if below1 (p_delta par) then p_delta par else def_delta).
  set (j := mkjob t (match t with TMpfr => prec | _ => g_prec g end) (g_cw g) LM_FAST).
  set (u := match (match U with Some u => u | None => [] end) with [] => [] | _ => gen_identity (length b) end).
  destruct (ft_eqb t TMpfr && (prec =? 0)) eqn:EC.
  { apply andb_prop in EC. destruct EC as [E1 E2]. apply Z.eqb_eq in E2. left. split; auto. destruct t; try discriminate E1; auto. }
  assert (NC : t = TMpfr -> prec <> 0). { intros -> ->. discriminate EC. }
  assert (HA : forall m, match bkz_in_type wld wqd wdpe D n brun par (lll_delta D below1 def_delta par) t prec g m with
    | EAbort w => (t = TMpfr /\ prec = 0) \/ ~ compiled wld wqd wdpe t
    | ERet s w => w_g w = g /\ (w_jobs w = [] \/ w_jobs w = [j]) /\ (t = TMpfr -> prec <> 0) /\ (w_jobs w = [j] -> compiled wld wqd wdpe t)
    | EThrow w => w_jobs w = [j] /\ w_g w = (match t with TMpfr => mkglob prec (g_cw g) | _ => g end) /\ exists m m2, brun par dl j m = (m2, None)
    | _ => True end).
  { intros m. unfold bkz_in_type. change (lll_delta D below1 def_delta par) with dl.
    destruct (ft_built wld wqd wdpe t) eqn:HB; cbn [negb]; [|right; destruct t; cbn in *; congruence].
    assert (HC : compiled wld wqd wdpe t) by (destruct t; cbn in *; auto).
    set (gb := match t with TMpfr => let '(g1, old) := set_prec prec g in (g1, fst (set_prec old g1)) | _ => (g, g) end).
    assert (HG : gb = (match t with TMpfr => mkglob prec (g_cw g) | _ => g end, g)).
    { unfold gb. destruct t; auto. pose proof (sane_back g prec HS) as X. unfold set_prec in X |- *. cbn [fst] in X |- *. f_equal; [|exact X].
      rewrite u32_small; auto. lia. }
    rewrite HG.
    replace (mkjob t (g_prec (match t with TMpfr => mkglob prec (g_cw g) | _ => g end)) (g_cw (match t with TMpfr => mkglob prec (g_cw g) | _ => g end)) LM_FAST)
      with j by (unfold j; destruct t; auto).
    destruct (if emptyb (fst (fst m)) || (n =? 0)%nat then (m, Some (Red RED_SUCCESS)) else brun par dl j m) as [[[b2 u2] ui2] [s|]] eqn:Er.
    - destruct (zeros_first b2 u2 ui2); auto.
    - cbn [w_g w_jobs]. split; auto. split; auto. destruct (emptyb (fst (fst m)) || (n =? 0)%nat); [congruence|]. eauto. }
  destruct (p_nolll par).
  - destruct (zeros_last b u []) as [m|]; auto. apply HA.
  - destruct (wrapper_new lg n b u []) as [s0|]; auto.
    destruct (wrapper_lll _ _ _ _ _ _ _ _ _ _ _ _ _ _ s0) as [[s [r| |]]|]; auto.
    destruct (r =? 0); [|apply HA]. cbn [w_g w_jobs]. repeat split; auto; discriminate.
Qed.
End B.

(** bkz_reduction: when it returns, the settings are as before; BKZ (if it was reached)
    ran in the type asked for, double by default, and in mpfr with exactly the precision
    given; it refuses mpfr without a precision and types that are not compiled in *)
Theorem bkz_entry_right :
  forall zlong wld wqd wdpe ld D below1 def_delta envs little good_prec lg fuel k n brun (par : bkzpar D) ft prec g b U,
  sane g -> 0 <= prec < 2 ^ 31 ->
  match bkz_reduction zlong wld wqd wdpe ld D below1 def_delta envs little good_prec lg fuel k n brun par ft prec g (Some b) U with
  | EAbort w => (ft = Some TMpfr /\ prec = 0) \/ exists t, ft = Some t /\ ~ compiled wld wqd wdpe t
  | ERet s w => w_g w = g /\ (w_jobs w = [] \/ exists j, w_jobs w = [j] /\ (forall t, ft = Some t -> j_ft j = t) /\ (ft = None -> j_ft j = TDouble) /\
                  compiled wld wqd wdpe (j_ft j) /\ (ft = Some TMpfr -> mantissa ld j = prec /\ prec <> 0))
  | EThrow w => (ft <> Some TMpfr -> w_g w = g) /\ (ft = Some TMpfr -> w_g w = mkglob prec (g_cw g))
  | _ => True
  end.
Proof.
  intros zlong wld wqd wdpe ld D below1 def_delta envs little good_prec lg fuel k n brun par ft prec g b U HS Hp.
  pose proof (bkz_ends zlong wld wqd wdpe ld D below1 def_delta envs little good_prec lg fuel k n brun par ft prec g b U HS Hp) as H.
  cbv zeta in H. destruct (bkz_reduction _ _ _ _ _ _ _ _ _ _ _ _ _ _ _ _ par ft prec g (Some b) U) as [s w|w|w|w|]; auto.
  - destruct H as [H1 [H2 [H3 H4]]]. split; auto. destruct H2 as [H2|H2]; auto. right. eexists. split; [exact H2|]. cbn [j_ft]. specialize (H4 H2).
    split; [intros t ->; auto|]. split; [intros ->; auto|]. split; auto. intros ->. unfold mantissa. cbn. auto.
  - destruct H as [_ [H _]]. split; [|intros ->; auto]. intros HN. rewrite H. destruct ft as [[]|]; auto. congruence.
  - destruct H as [[H1 H2]|H]; [left|right].
    + destruct ft; subst; auto. discriminate.
    + destruct ft as [t|]; [exists t; auto|]. cbn in H. contradiction.
Qed.

(** ** what is not true *)
Definition ex_g : glob := mkglob 53 895.
Definition ex_dd : Z -> Z := fun cw => cw - 256.   (* a control word other than the given one *)
Definition bkz0 (brun : bkzpar unit -> unit -> job -> mats -> mats * option est) :=
  bkz_reduction true true true true 64 unit (fun _ => true) tt (fun _ _ _ => ex_bad) (fun _ _ _ => true) (fun _ => 60) (fun _ _ => 1) 10 3 2 brun.
(** the settings are NOT restored when bkz() throws (which happens, PropBkz.v
    bkz_runtime_error_escapes): with mpfr the default precision of the whole program stays
    the one given to BKZ *)
Theorem bkz_precision_lost_refuted :
  exists brun par prec g b w,
    sane g /\ 0 < prec < 2 ^ 31 /\ bkz0 brun par (Some TMpfr) prec g (Some b) None = EThrow w /\ w_g w <> g /\
    bkz0 (fun _ _ _ m => (m, Some (Red RED_SUCCESS))) par (Some TMpfr) prec g (Some b) None = ERet (Red RED_SUCCESS) (mkw g (w_m w) (w_jobs w) []).
Proof.
  exists (fun _ _ _ m => (m, None)), (mkpar 2 tt true false), 200, ex_g, [[1; 0]; [0; 1]], (mkw (mkglob 200 895) ([[1; 0]; [0; 1]], [], []) [mkjob TMpfr 200 895 LM_FAST] []).
  split; [unfold sane; cbn; lia|]. split; [lia|]. split; [vm_compute; reflexivity|]. split; [discriminate|vm_compute; reflexivity].
Qed.
(** BKZ in double-double runs without the FPU control word that lll_reduction and
    hlll_reduction set for the same type *)
Theorem bkz_dd_control_word_refuted :
  exists brun par g b s w j,
    bkz0 brun par (Some TDD) 0 g (Some b) None = ERet s w /\ w_jobs w = [j] /\ j_ft j = TDD /\ j_cw j <> ex_dd (g_cw g) /\
    exists s' w' j', lll_entry true true true 64 ex_dd (fun _ m => (m, RED_SUCCESS)) false false ZMpz LM_PROVED (Some TDD) 0 60 (mkw g (b, [], []) [] [])
      = ERet s' w' /\ w_jobs w' = [j'] /\ j_ft j' = TDD /\ j_cw j' = ex_dd (g_cw g).
Proof.
  exists (fun _ _ _ m => (m, Some (Red RED_SUCCESS))), (mkpar 2 tt true false), ex_g, [[1; 0]; [0; 1]]. eexists _, _, _.
  split; [vm_compute; reflexivity|]. split; [reflexivity|]. split; [reflexivity|]. split; [discriminate|].
  eexists _, _, _. split; [vm_compute; reflexivity|]. repeat split.
Qed.
(** a negative precision (the option -p takes any integer) becomes an enormous one *)
Theorem negative_precision_refuted :
  exists w s w' j,
    lll_entry true true true 64 ex_dd (fun _ m => (m, RED_SUCCESS)) true false ZMpz LM_PROVED None (-1) 60 w = ERet s w' /\
    w_jobs w' = [j] /\ j_ft j = TMpfr /\ mantissa 64 j = 4294967295 /\ w_msgs w' = [TooSmall 60].
Proof. exists (mkw ex_g ([[1; 0]; [0; 1]], [], []) [] []). eexists _, _, _. split; [vm_compute; reflexivity|]. repeat split. Qed.

(** ** transform of BKZ *)
(** what is required of the run of BKZ (bkz_reduction_f): it keeps the lattice, and applies
    to u what it applies to b *)
Definition keeps (n : nat) (m m2 : mats) : Prop :=
  let '(b, u, ui) := m in let '(b2, u2, ui2) := m2 in
  forall b0, track b0 n b u ui -> track b0 n b2 u2 ui2 /\ length u2 = length u.

(** bkz_reduction with LLL or without, successful, failed or interrupted by an exception:
    the lattice of the output is that of the input, and a non-empty u returned satisfies
    b_out = u b_in; whatever u contained before *)
Theorem bkz_entry_transform :
  forall zlong wld wqd wdpe ld D below1 def_delta envs little good_prec lg fuel n brun (par : bkzpar D) ft prec g b U,
  sane g -> 0 <= prec < 2 ^ 31 -> (1 <= n)%nat -> b <> [] -> rect n b -> 0 <= lg (length b) n ->
  (forall dl j m, keeps n m (fst (brun par dl j m))) ->
  match bkz_reduction zlong wld wqd wdpe ld D below1 def_delta envs little good_prec lg fuel
          (wdepth (good_prec (lll_delta D below1 def_delta par))) n brun par ft prec g (Some b) U with
  | ERet _ w | EThrow w =>
      let '(b', u', _) := w_m w in
      length b' = length b /\ rect n b' /\ same_lattice n b b' /\
      match U with
      | Some (_ :: _) => dims (length b) (length b) u' /\ is_product n b' u' b
      | _ => u' = []
      end
  | EAbort _ => True
  | EStop _ => True
  | EUb => False
  end.
Proof.
  intros zlong wld wqd wdpe ld D below1 def_delta envs little good_prec lg fuel n brun par ft prec g b U HS Hp Hn Hb Hr Hlg HK.
  assert (Hd : (0 < length b)%nat) by (destruct b; [congruence|cbn; lia]).
  set (u := match (match U with Some u => u | None => [] end) with [] => [] | _ => gen_identity (length b) end).
  set (nu := length u).
  assert (HT : track b n b u []).
  { apply track_start; auto. unfold u. destruct (match U with Some u => u | None => [] end); auto. }
  assert (FIN : forall b' u' ui', track b n b' u' ui' -> length u' = nu ->
    length b' = length b /\ rect n b' /\ same_lattice n b b' /\
    match U with Some (_ :: _) => dims (length b) (length b) u' /\ is_product n b' u' b | _ => u' = [] end).
  { intros b' u' ui' [H1 H2 H3 H4 H5] HL. split; auto. split; auto. split; auto. unfold nu, u in HL.
    destruct U as [[|r U]|]; cbn in HL; try (apply length_zero_iff_nil; auto; fail).
    destruct H4 as [->|H4]; auto. change (0%nat = length (gen_identity (length b))) in HL. rewrite gen_identity_ident, ident_length in HL. lia. }
  assert (HA : forall m, (let '(b1, u1, ui1) := m in track b n b1 u1 ui1 /\ length u1 = nu) -> forall dl t,
    match bkz_in_type wld wqd wdpe D n brun par dl t prec g m with
    | ERet _ w | EThrow w => let '(b', u', _) := w_m w in
        length b' = length b /\ rect n b' /\ same_lattice n b b' /\
        match U with Some (_ :: _) => dims (length b) (length b) u' /\ is_product n b' u' b | _ => u' = [] end
    | EUb => False | _ => True end).
  { intros [[b1 u1] ui1] [T1 L1] dl t. unfold bkz_in_type. destruct (negb _); auto.
    destruct (match t with TMpfr => _ | _ => (g, g) end) as [g1 back]. cbv zeta. cbn [fst].
    set (j := mkjob t (g_prec g1) (g_cw g1) LM_FAST).
    assert (K : forall m2 r, (if emptyb b1 || (n =? 0)%nat then ((b1, u1, ui1), Some (Red RED_SUCCESS)) else brun par dl j (b1, u1, ui1)) = (m2, r) ->
      let '(b2, u2, ui2) := m2 in track b n b2 u2 ui2 /\ length u2 = nu).
    { intros m2 r E. destruct (emptyb b1 || (n =? 0)%nat).
      - injection E as <- _. auto.
      - pose proof (HK dl j (b1, u1, ui1)) as X. rewrite E in X. cbn [fst] in X. destruct m2 as [[b2 u2] ui2]. destruct (X b T1) as [A B]. split; auto. congruence. }
    destruct (if emptyb b1 || (n =? 0)%nat then _ else _) as [m2 r]. specialize (K m2 r eq_refl). destruct m2 as [[b2 u2] ui2]. destruct K as [T2 L2].
    destruct r as [s|]; [|cbn [w_m]; apply (FIN b2 u2 ui2); auto].
    destruct (zeros_first_track n b b2 u2 ui2 T2) as [b3 [u3 [ui3 [-> [T3 [L3 _]]]]]]. cbn [w_m]. apply (FIN b3 u3 ui3); auto. congruence. }
  unfold bkz_reduction, bkz_reduction_at. cbv zeta. fold u.
  set (t := match ft with Some t => t | None => TDouble end). set (dl := lll_delta D below1 def_delta par).
  destruct (ft_eqb t TMpfr && (prec =? 0)); auto. destruct (p_nolll par).
  - destruct (zeros_last_track n b b u [] HT) as [b1 [u1 [ui1 [-> [T1 [L1 _]]]]]]. apply HA. auto.
  - unfold wrapper_new, emptyb.
    replace (length b =? 0)%nat with false by (symmetry; apply Nat.eqb_neq; lia).
    replace (n =? 0)%nat with false by (symmetry; apply Nat.eqb_neq; lia). cbn [orb].
    set (s0 := mkwst b u [] [] false RED_SUCCESS 0 (max_exponent lg n b) []).
    destruct (wrapper_top (envs dl) (little dl) (good_prec dl) lg fuel false false zlong wld wqd wdpe ld n b u [] Hn Hd HT s0)
      as [s' [w [E [NL [NF [CL H]]]]]]; auto. unfold t, dl in *. rewrite E.
    destruct w as [kk|o|]; auto.
    destruct H as [[o H]|[L [y [H1 [H2 [_ [H3 _]]]]]]]; [discriminate|].
    destruct (chain_track _ _ _ _ b _ _ _ _ _ _ _ Hn Hd H3 HT) as [T1 [L1 _]].
    destruct (kk =? 0); [cbn [w_m]; apply (FIN _ _ _ T1); auto|]. apply HA. auto.
Qed.

(** when LLL fails, BKZ is not run, and the status of LLL is returned *)
Theorem bkz_stops_on_lll_failure :
  forall zlong wld wqd wdpe ld D below1 def_delta envs little good_prec lg fuel k n brun (par : bkzpar D) ft prec g b U s w,
  bkz_reduction zlong wld wqd wdpe ld D below1 def_delta envs little good_prec lg fuel k n brun par ft prec g (Some b) U = ERet s w ->
  w_jobs w = [] ->
  p_nolll par = false /\ w_g w = g /\
  forall brun', bkz_reduction zlong wld wqd wdpe ld D below1 def_delta envs little good_prec lg fuel k n brun' par ft prec g (Some b) U = ERet s w.
Proof.
  intros zlong wld wqd wdpe ld D below1 def_delta envs little good_prec lg fuel k n brun par ft prec g b U s w.
  unfold bkz_reduction, bkz_reduction_at. cbv zeta.
  set (u := match (match U with Some u => u | None => [] end) with [] => [] | _ => gen_identity (length b) end).
  destruct (ft_eqb _ _ && (prec =? 0)); [discriminate|].
  assert (HA : forall dl t m, bkz_in_type wld wqd wdpe D n brun par dl t prec g m = ERet s w -> w_jobs w <> []).
  { intros dl t m. unfold bkz_in_type. destruct (negb _); [discriminate|].
    destruct (match t with TMpfr => _ | _ => (g, g) end) as [g1 back]. cbv zeta.
    destruct (if emptyb _ || _ then _ else _) as [[[b2 u2] ui2] [s2|]]; [|discriminate].
    destruct (zeros_first b2 u2 ui2); [|discriminate]. intros E. injection E as _ <-. discriminate. }
  destruct (p_nolll par).
  - destruct (zeros_last b u []) as [m|]; [|discriminate]. intros E HJ. destruct (HA _ _ _ E HJ).
  - destruct (wrapper_new lg n b u []) as [s0|]; [|discriminate].
    destruct (wrapper_lll _ _ _ _ _ _ _ _ _ _ _ _ _ _ s0) as [[s1 [r| |]]|]; try discriminate.
    destruct (r =? 0).
    + intros E HJ. split; auto. split; auto. injection E as _ <-. reflexivity.
    + intros E HJ. destruct (HA _ _ _ E HJ).
Qed.

(** ** the pruner *)
(** the rows given to the pruner are rows of the matrix, at least one; a proper sub-range
    asked for is used as it is *)
Theorem prune_window_right :
  forall rows ps pe, 1 <= rows ->
  let '(s, e) := prune_window rows ps pe in
  0 <= s < e /\ e <= rows /\
  (0 <= ps < rows - 1 -> s = ps) /\ (0 <= ps < rows - 1 -> ps < pe <= rows -> e = pe) /\
  (0 <= ps < rows - 1 -> pe <= ps \/ rows < pe -> e = rows).
Proof.
  intros rows ps pe H. unfold prune_window.
  destruct (Z.ltb_spec ps 0), (Z.leb_spec (rows - 1) ps); cbn [orb];
    match goal with |- context [(pe <=? ?a) || _] => destruct (Z.leb_spec pe a), (Z.leb_spec rows pe) end; cbn [orb]; lia.
Qed.
(** run_pruner restores the settings when it returns; it uses the type asked for (double by
    default), and in mpfr the precision asked for *)
Theorem run_pruner_right :
  forall wld wqd wdpe ld go ft prec ps pe w, sane (w_g w) -> 0 <= prec < 2 ^ 31 -> w_jobs w = [] ->
  match run_pruner wld wqd wdpe go ft prec ps pe w with
  | ERet s w' => s = Red RED_SUCCESS /\ w_g w' = w_g w /\ w_m w' = w_m w /\
      forall j, In j (w_jobs w') -> (forall t, ft = Some t -> j_ft j = t) /\ (ft = None -> j_ft j = TDouble) /\
        compiled wld wqd wdpe (j_ft j) /\ (ft = Some TMpfr -> mantissa ld j = prec /\ prec <> 0)
  | EAbort w' => w' = w /\ ((ft = Some TMpfr /\ prec = 0) \/ exists t, ft = Some t /\ ~ compiled wld wqd wdpe t)
  | EThrow w' => (ft <> Some TMpfr -> w_g w' = w_g w)
  | _ => False
  end.
Proof.
  intros wld wqd wdpe ld go ft prec ps pe w HS Hp HJ. unfold run_pruner.
  set (t := match ft with Some t => t | None => TDouble end).
  destruct (ft_eqb t TMpfr && (prec =? 0)) eqn:EC.
  { split; auto. left. apply andb_prop in EC. destruct EC as [E1 E2]. apply Z.eqb_eq in E2. destruct ft as [[]|]; try discriminate E1. auto. }
  assert (NC : t = TMpfr -> prec <> 0). { intros -> ->. discriminate EC. }
  destruct (ft_built wld wqd wdpe t) eqn:HB; cbn [negb].
  2:{ split; auto. right. destruct ft as [t0|]; [|discriminate HB]. exists t0. split; auto. destruct t0; cbn in *; congruence. }
  assert (HC : compiled wld wqd wdpe t) by (destruct t; cbn in *; auto).
  assert (HG : match t with TMpfr => let '(g, old) := set_prec prec (w_g w) in (g, fst (set_prec old g)) | _ => (w_g w, w_g w) end
             = (match t with TMpfr => mkglob prec (g_cw (w_g w)) | _ => w_g w end, w_g w)).
  { destruct t; auto. pose proof (sane_back (w_g w) prec HS) as X. unfold set_prec in X |- *. cbn [fst] in X |- *. f_equal; [|exact X].
    rewrite u32_small; auto. lia. }
  rewrite HG. cbv zeta. rewrite HJ. cbn [app].
  destruct (match fst (fst (w_m w)) with [] => true | r :: _ => (length r =? 0)%nat end).
  { cbn [w_g w_m w_jobs]. repeat split; auto; contradiction. }
  match goal with |- context [go ?j ?p] => destruct (go j p) end.
  - cbn [w_g w_m w_jobs]. split; auto. split; auto. split; auto. intros j [<-|[]]. cbn [j_ft]. split; [intros t0 ->; reflexivity|]. split; [intros ->; reflexivity|].
    split; auto. intros ->. split; [reflexivity|auto].
  - cbn [w_g]. intros HN. destruct ft as [[]|]; auto. congruence.
Qed.
(** but an exception of the pruner leaves the precision changed *)
Theorem run_pruner_precision_lost_refuted :
  exists go prec w w', sane (w_g w) /\ 0 < prec < 2 ^ 31 /\ run_pruner true true true go (Some TMpfr) prec 0 0 w = EThrow w' /\ w_g w' <> w_g w.
Proof.
  exists (fun _ _ => None), 200, (mkw ex_g ([[1; 0]; [0; 1]], [], []) [] []), (mkw (mkglob 200 895) ([[1; 0]; [0; 1]], [], []) [mkjob TMpfr 200 895 LM_FAST] []).
  split; [unfold sane; cbn; lia|]. split; [lia|]. split; [vm_compute; reflexivity|discriminate].
Qed.
(** a window of a single row is accepted; the pruner (metric expected solutions,
    pruner.cpp:98-99) then works with d = 1/2 = 0 coefficients and indexes below its vectors *)
Theorem prune_window_one_row_refuted :
  exists rows ps pe s e, 1 < rows /\ 0 <= ps < pe /\ pe <= rows /\ prune_window rows ps pe = (s, e) /\ Z.to_nat (e - s) = 1%nat /\
  forall fresh ball sym sh cs, PruneCostModel.expected_solutions_evec fresh ball sym (Z.to_nat (e - s) / 2) sh cs = None.
Proof. exists 2, 0, 1, 0, 1. repeat split; try lia. Qed.
(** a window of more rows than the table of ball volumes has entries is accepted: reading
    the volume is out of bounds *)
Theorem prune_window_table_refuted :
  exists rows ps pe s e, 1 < rows /\ prune_window rows ps pe = (s, e) /\
  forall ball sh, length ball = 2047%nat -> PruneCostModel.gaussian_heuristic (Z.to_nat (e - s)) ball sh = None.
Proof.
  exists 2047, 0, 0, 0, 2047. split; [lia|]. split; [reflexivity|]. intros ball sh HL. unfold PruneCostModel.gaussian_heuristic.
  rewrite (proj2 (nth_error_None ball _)); [reflexivity|]. rewrite HL. lia.
Qed.

(** * Examples *)
Definition ex_w : world := mkw ex_g ([[3; 1]; [0; 0]; [1; 2]], [], []) [] [].
Definition ex_go : job -> mats -> mats * red_status := fun _ m => (m, RED_SUCCESS).
Definition ex_lll := lll_entry true true true 64 ex_dd ex_go true false ZMpz.
(** proved, 60 bits needed: double-double *)
Example ex82_lll_dd : ex_lll LM_PROVED None 0 60 ex_w
  = ERet (Red RED_SUCCESS) (mkw ex_g ([[3; 1]; [0; 0]; [1; 2]], [], []) [mkjob TDD 53 639 LM_PROVED] [Guaranteed 60]).
Proof. vm_compute. reflexivity. Qed.
(** proved, 300 bits needed: mpfr with 300 bits, the precision is 53 again afterwards *)
Example ex82_lll_mpfr : ex_lll LM_PROVED None 0 300 ex_w
  = ERet (Red RED_SUCCESS) (mkw ex_g ([[3; 1]; [0; 0]; [1; 2]], [], []) [mkjob TMpfr 300 895 LM_PROVED] [Guaranteed 300]).
Proof. vm_compute. reflexivity. Qed.
(** the hypotheses of lll_entry_right and hlll_entry_right *)
Example ex82_served : sane (w_g ex_w) /\ shaped (w_m ex_w) /\ served true true true LM_PROVED None 0 /\ served true false true LM_PROVED (Some TMpfr) 80 /\
  served false false false LM_FAST (Some TDouble) 0 /\ (forall j x, shaped x -> shaped (fst (ex_go j x))).
Proof.
  split; [unfold sane; cbn; lia|]. split; [cbn; auto|].
  split; [split; [lia|]; split; discriminate|]. split; [split; [auto|]; split; [discriminate|]; intros t E; injection E as <-; exact I|].
  split; [split; [lia|]; split; [cbn; auto|]; intros t E; injection E as <-; exact I|]. auto.
Qed.
(** refused: a precision with double *)
Example ex82_refused : ~ served true true true LM_PROVED (Some TDouble) 80 /\ ex_lll LM_PROVED (Some TDouble) 80 60 ex_w = EAbort ex_w.
Proof. split; [intros [H _]; destruct H as [H|H]; [lia|discriminate H|discriminate H]|vm_compute; reflexivity]. Qed.
Definition ex_hlll := hlll_reduction_z true true true 64 ex_dd ex_go (fun _ _ => RED_LLL_FAILURE)
  (fun t _ p _ => match t with TMpfr => if p <? 100 then RED_LLL_FAILURE else RED_SUCCESS | _ => RED_LLL_FAILURE end) (fun m => m).
(** the verification with 40 bits says that nothing is guaranteed *)
Example ex82_verify : ex_hlll 0 true true ZMpz (Some LM_PROVED) None 40 60 ex_w
  = ERet (Red RED_LLL_FAILURE) (mkw ex_g (w_m ex_w) [mkjob TMpfr 40 895 LM_PROVED] [VerTooSmall 60; SaysReduced false]).
Proof. vm_compute. reflexivity. Qed.
(** the wrapper: every type fails, mpfr succeeds at last; the precision is restored *)
Example ex82_wrapper :
  match ex_hlll (wdepth 120) false false ZMpz None None 0 120 ex_w with
  | ERet s w => s = Red RED_SUCCESS /\ w_g w = ex_g /\ (1 < length (w_jobs w))%nat /\
                exists j, last (map Some (w_jobs w)) None = Some j /\ j_ft j = TMpfr /\ 100 <= j_prec j
  | _ => False
  end.
Proof. vm_compute. repeat split; try lia. eexists. repeat split; discriminate. Qed.

(** BKZ on a basis with a dependent row, after LLL in exact arithmetic, u requested (the
    given u is overwritten); here BKZ rotates the rows *)
Definition ex_brun : bkzpar unit -> unit -> job -> mats -> mats * option est :=
  fun _ _ _ m => let '(b, u, ui) := m in let i := Nat.min 2 (length b) in ((rot_at i b, rot_at i u, rot_at i ui), Some (Other 7)).
Example ex82_keeps : forall n p dl j m, keeps n m (fst (ex_brun p dl j m)).
Proof.
  intros n p dl j [[b u] ui] b0 HT. split; [|apply rot_length]. apply track_rot; auto. destruct HT. lia.
Qed.
Definition ex_bkz (env : env) (brun : bkzpar unit -> unit -> job -> mats -> mats * option est) :=
  bkz_reduction true true true true 64 unit (fun _ => true) tt (fun _ _ _ => env) (fun _ _ _ => true) (fun _ => 60) (fun _ _ => 1) 50 (wdepth 60) 2 brun.
Example ex82_bkz : ex_bkz ex_exact ex_brun (mkpar 2 tt false false) (Some TMpfr) 90 ex_g (Some [[3; 1]; [4; 3]; [1; 2]]) (Some [[9]])
  = ERet (Other 7) (mkw ex_g ([[0; 0]; [-2; 1]; [1; 2]], [[1; -1; 1]; [-2; 1; 0]; [-1; 1; 0]], []) [mkjob TMpfr 90 895 LM_FAST] []).
Proof. vm_compute. reflexivity. Qed.
(** LLL fails: no BKZ *)
Example ex82_bkz_lll_fails :
  match ex_bkz ex_bad ex_brun (mkpar 2 tt false false) (Some TMpfr) 90 ex_g (Some [[3; 1]; [4; 3]; [1; 2]]) (Some [[9]]) with
  | ERet (Red s) w => s <> RED_SUCCESS /\ w_jobs w = []
  | _ => False
  end.
Proof. vm_compute. split; [discriminate|reflexivity]. Qed.
(** hkz_reduction: one block *)
Example ex82_hkz :
  hkz_reduction true true true true 64 unit (fun _ => true) tt tt (fun _ _ _ => ex_exact) (fun _ _ _ => true) (fun _ => 60) (fun _ _ => 1) 50 (wdepth 60) 2
    (fun p _ _ m => (m, Some (Other (p_block p)))) true None 0 ex_g [[3; 1]; [4; 3]; [1; 2]]
  = ERet (Other 3) (mkw ex_g ([[0; 0]; [-2; 1]; [1; 2]], [], []) [mkjob TDouble 53 895 LM_FAST] []).
Proof. vm_compute. reflexivity. Qed.
(** the form with a block size only: what BKZ is called with, when LLL is skipped and rows of zeros are moved *)
Theorem bkz_block_form_right :
  forall zlong wld wqd wdpe ld D below1 def_delta envs little good_prec lg fuel k n brun block verbose g b m m2 s m3,
  b <> [] -> n <> 0%nat -> zeros_last b [] [] = Some m -> fst (fst m) <> [] ->
  brun (mkpar block def_delta true verbose) def_delta (mkjob TDouble (g_prec g) (g_cw g) LM_FAST) m = (m2, Some s) ->
  (let '(b2, u2, ui2) := m2 in zeros_first b2 u2 ui2) = Some m3 ->
  bkz_reduction_b zlong wld wqd wdpe ld D below1 def_delta envs little good_prec lg fuel k n brun block true verbose None 0 g b
  = ERet s (mkw g m3 [mkjob TDouble (g_prec g) (g_cw g) LM_FAST] []).
Proof.
  intros zlong wld wqd wdpe ld D below1 def_delta envs little good_prec lg fuel k n brun block verbose g b m m2 s m3 Hb Hn Hz Hm Hr Hf.
  unfold bkz_reduction_b, bkz_reduction, bkz_reduction_at, lll_delta. cbn [p_delta p_nolll ft_eqb andb].
  replace (if below1 def_delta then def_delta else def_delta) with def_delta by (destruct (below1 def_delta); auto).
  rewrite Hz. unfold bkz_in_type. cbn [ft_built negb].
  replace (n =? 0)%nat with false by (symmetry; now apply Nat.eqb_neq). rewrite orb_false_r.
  replace (emptyb (fst (fst m))) with false by (destruct m as [[[|] ?] ?]; [now destruct Hm|reflexivity]).
  rewrite Hr. destruct m2 as [[b2 u2] ui2]. rewrite Hf. reflexivity.
Qed.
Example ex82_block : bkz_reduction_b true true true true 64 unit (fun _ => true) tt (fun _ _ _ => ex_exact) (fun _ _ _ => true) (fun _ => 60) (fun _ _ => 1) 50 (wdepth 60) 2
    (fun p _ _ m => (m, Some (Other (p_block p + (if p_nolll p then 10 else 0) + (if p_verbose p then 100 else 0))))) 7 true false None 0 ex_g [[0; 0]; [3; 1]; [1; 2]]
  = ERet (Other 17) (mkw ex_g ([[0; 0]; [3; 1]; [1; 2]], [], []) [mkjob TDouble 53 895 LM_FAST] []).
Proof. vm_compute. reflexivity. Qed.
Example ex82_window : prune_window 10 3 7 = (3, 7) /\ prune_window 10 9 4 = (0, 4) /\ prune_window 10 3 3 = (3, 10) /\ prune_window 10 (-5) 50 = (0, 10).
Proof. repeat split. Qed.
Example ex82_pruner : run_pruner true true true (fun _ p => if fst p =? 1 then Some tt else None) (Some TMpfr) 77 1 3 ex_w
  = ERet (Red RED_SUCCESS) (mkw ex_g (w_m ex_w) [mkjob TMpfr 77 895 LM_FAST] []).
Proof. vm_compute. reflexivity. Qed.

Print Assumptions hlll_entry_right.
Print Assumptions lll_entry_right.
Print Assumptions entry_refuses.
Print Assumptions hlll_verify_right.
Print Assumptions hlll_wrapper_entry_right.
Print Assumptions hlll_wrapper_entry_empty.
Print Assumptions bkz_entry_right.
Print Assumptions bkz_block_form_right.
Print Assumptions bkz_entry_transform.
Print Assumptions bkz_stops_on_lll_failure.
Print Assumptions bkz_precision_lost_refuted.
Print Assumptions prune_window_right.
Print Assumptions run_pruner_right.
Print Assumptions prune_window_one_row_refuted.
