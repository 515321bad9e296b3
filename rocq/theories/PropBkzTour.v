(** C66: BKZ stays inside the basis and inside the strategy table; recursive preprocessing,
    the trials of a block and the tours end. *)
From Coq Require Import List ZArith Lia Bool Arith Reals Lra.
From Flocq Require Import Core Relative BinarySingleNaN.
From Verif Require Import Util DblModel DblProofs StratModel PropStrat BkzTourModel.
Import ListNotations.
Local Open Scope Z_scope.

(** ** Specification *)

(** what the entry of the table for blocks of b rows must provide: pruning parameters; no
    coefficients or one for every row; a success probability that double precision can
    tell from 0; preprocessing with smaller blocks only *)
Definition entry_ok (b : Z) (s : strat) : Prop :=
  st_prun s <> [] /\
  (forall p, In p (st_pre s) -> 1 <= Z.of_nat p < b) /\
  (forall p, In p (st_prun s) ->
     (pp_coef p = [] \/ b <= Z.of_nat (length (pp_coef p))) /\
     is_finite (pp_exp p) = true /\ (bp (-52) <= B2R (pp_exp p) <= 1)%R).
(** all entries for 1..n rows are present and good *)
Definition table_ok (n : Z) (table : list strat) : Prop :=
  forall b, 1 <= b <= n -> exists s, nth_error table (Z.to_nat b) = Some s /\ entry_ok b s.
(** a min_success_probability below one; blocks of three rows need no second trial (a second
    trial rerandomises two rows, which never ends) *)
Definition msp_ok (table : list strat) (msp : dbl) : Prop :=
  is_finite msp = true /\ (0 <= B2R msp < 1)%R /\
  forall s p, nth_error table 3 = Some s -> In p (st_prun s) -> (B2R msp <= B2R (pp_exp p))%R.

(** the call concerns rows lo..hi-1 only (LLL and size reduction: rows 0..hi-1), the
    enumeration has a bound for every row, and no two rows are rerandomised *)
Definition inside (lo hi : Z) (c : call) : Prop :=
  match c with
  | CSize a b _ => 0 <= a /\ b <= hi
  | CLll a b e => 0 <= a /\ a <= b /\ e <= hi
  | CBlock k b _ => lo <= k /\ 1 <= b /\ k + b <= hi
  | CRerand a b => lo < a /\ b <= hi /\ b - a <> 2
  | CEnum a b p _ => lo <= a < b /\ b <= hi /\ (pp_coef p = [] \/ b - a <= Z.of_nat (length (pp_coef p)))
  | CPost k b _ => lo <= k /\ 1 <= b /\ k + b <= hi
  end.
(** the run reaches a value or an exception (with [fin = false]: or is cut off), has neither
    undefined behaviour nor an endless loop, and all its calls satisfy P *)
Definition good (fin : bool) (P : call -> Prop) {A} (r : res A) : Prop :=
  match r with
  | Ok _ t | Throw t => Forall P t
  | Fuel t => fin = false /\ Forall P t
  | Ub _ | Hang _ => False
  end.

(** ** Proofs *)

(** [good] for every start, with a condition on the value *)
Definition safe (fin : bool) (P : call -> Prop) {A} (Q : A -> Prop) (m : M A) : Prop :=
  forall t, Forall P t -> good fin P (m t) /\ (forall a t', m t = Ok a t' -> Q a).

Section Safe.
Variables (fin : bool) (P : call -> Prop).
Lemma safe_ret {A} (Q : A -> Prop) a : Q a -> safe fin P Q (ret a).
Proof. intros H t F. split; [exact F|]. intros a' t' E. injection E as <- _. exact H. Qed.
Lemma safe_ask {A} (Q : A -> Prop) (o : trace -> A) : (forall t, Q (o t)) -> safe fin P Q (ask o).
Proof. intros H t F. split; [exact F|]. intros a' t' E. injection E as <- _. apply H. Qed.
Lemma safe_bnd {A B} (Q : A -> Prop) (Q' : B -> Prop) m f :
  safe fin P Q m -> (forall a, Q a -> safe fin P Q' (f a)) -> safe fin P Q' (bnd m f).
Proof.
  intros Hm Hf t F. destruct (Hm t F) as [G V]. unfold bnd. destruct (m t) as [a t1|t1|t1|t1|t1] eqn:E; cbn [good] in *.
  - destruct (Hf a (V a t1 eq_refl) t1 G) as [G' V']. split; [exact G'|exact V'].
  - split; [exact G|discriminate].
  - destruct G.
  - destruct G.
  - split; [exact G|discriminate].
Qed.
Lemma safe_emit (Q : unit -> Prop) c : P c -> Q tt -> safe fin P Q (emit c).
Proof. intros H HQ t F. split; [constructor; auto|]. intros a t' E. injection E as <- _. exact HQ. Qed.
Lemma safe_weaken {A} (Q Q' : A -> Prop) m : safe fin P Q m -> (forall a, Q a -> Q' a) -> safe fin P Q' m.
Proof. intros H W t F. destruct (H t F) as [G V]. split; [exact G|]. intros a t' E. apply W, (V a t' E). Qed.

Lemma safe_for_up (f : Z -> M bool) n : forall lo c, (forall k, lo <= k < lo + Z.of_nat n -> safe fin P (fun _ => True) (f k)) ->
  safe fin P (fun _ => True) (for_up n lo f c).
Proof.
  induction n as [|n IH]; intros lo c H; cbn [for_up]; [apply safe_ret; exact I|].
  eapply safe_bnd; [apply H; lia|]. intros a _. apply IH. intros k K. apply H. lia.
Qed.
Lemma safe_for_down (f : Z -> M bool) n : forall hi c, (forall k, hi - Z.of_nat n < k <= hi -> safe fin P (fun _ => True) (f k)) ->
  safe fin P (fun _ => True) (for_down n hi f c).
Proof.
  induction n as [|n IH]; intros lo c H; cbn [for_down]; [apply safe_ret; exact I|].
  eapply safe_bnd; [apply H; lia|]. intros a _. apply IH. intros k K. apply H. lia.
Qed.
End Safe.

(** *** Probabilities in double precision *)
Local Open Scope R_scope.
Lemma one_val : is_finite d_one = true /\ B2R d_one = 1.
Proof. destruct (d_of_bp 0) as [F V]; [lia|]. split; [exact F|exact V]. Qed.
Lemma RN_le x y : x <= y -> RN x <= RN y.
Proof. intros H. unfold RN. apply round_le; [typeclasses eauto|typeclasses eauto|exact H]. Qed.
Lemma RN_dbl (x : dbl) : RN (B2R x) = B2R x.
Proof. unfold RN. apply round_generic; [typeclasses eauto|apply fmt]. Qed.
Lemma RN_bp e : (-1074 <= e)%Z -> RN (bp e) = bp e.
Proof. intros H. unfold RN. apply round_generic; [typeclasses eauto|apply fe_bp; exact H]. Qed.
Lemma RN_0 : RN 0 = 0. Proof. unfold RN. apply round_0. typeclasses eauto. Qed.
Lemma RN_1 : RN 1 = 1. Proof. change 1 with (bp 0). apply RN_bp. lia. Qed.
Lemma tame_01 x : is_finite x = true -> 0 <= B2R x <= 1 -> tame x.
Proof. intros F H. split; [exact F|]. rewrite Rabs_pos_eq by lra. apply Rle_trans with 1; [lra|]. change 1 with (bp 0). apply bpow_le. lia. Qed.
Lemma one_minus x : is_finite x = true -> 0 <= B2R x <= 1 ->
  is_finite (d_sub d_one x) = true /\ B2R (d_sub d_one x) = RN (1 - B2R x) /\ 0 <= RN (1 - B2R x) <= 1.
Proof.
  intros F H. destruct (sub_tame d_one x) as [F1 V1].
  - apply tame_01; [apply one_val|]. rewrite (proj2 one_val). lra.
  - apply tame_01; assumption.
  - rewrite (proj2 one_val) in V1. split; [exact F1|]. split; [exact V1|]. split.
    + rewrite <- RN_0. apply RN_le. lra.
    + rewrite <- RN_1 at 2. apply RN_le. lra.
Qed.
Lemma mul_01 x y : is_finite x = true -> is_finite y = true -> 0 <= B2R x <= 1 -> 0 <= B2R y <= 1 ->
  is_finite (d_mul x y) = true /\ B2R (d_mul x y) = RN (B2R x * B2R y) /\ 0 <= RN (B2R x * B2R y) <= B2R y.
Proof.
  intros FX FY HX HY.
  assert (B : 0 <= RN (B2R x * B2R y) <= B2R y).
  { split; [rewrite <- RN_0; apply RN_le; apply Rmult_le_pos; lra|].
    rewrite <- (RN_dbl y) at 2. apply RN_le. rewrite <- (Rmult_1_l (B2R y)) at 2. apply Rmult_le_compat_r; lra. }
  pose proof (Bmult_correct 53 1024 _ _ mode_NE x y) as H. rewrite fexp_eq in H. change (round radix2 fe (round_mode mode_NE)) with RN in H.
  rewrite Rlt_bool_true in H.
  - destruct H as (V & F & _). unfold d_mul. rewrite F, FX, FY. split; [reflexivity|]. split; [exact V|exact B].
  - rewrite Rabs_pos_eq by apply B. apply Rle_lt_trans with 1; [lra|]. change 1 with (bp 0). apply bpow_lt. lia.
Qed.

(** the value of a non-negative double as a number of units 2^-1074 *)
Definition units (x : dbl) : nat := Z.to_nat (Ztrunc (B2R x * bp 1074)).
Lemma units_val (x : dbl) : 0 <= B2R x -> INR (units x) = B2R x * bp 1074.
Proof.
  intros H. assert (F : generic_format radix2 (FIX_exp (-1074)) (B2R x)) by (apply (generic_format_FIX_FLT radix2 (-1074) 53), fmt).
  apply FIX_format_generic in F. destruct F as [[m e] E1 E2]. cbn in E2. subst e. unfold units.
  assert (E3 : B2R x * bp 1074 = IZR m).
  { rewrite E1. unfold F2R. cbn [Fnum Fexp]. rewrite Rmult_assoc, <- bp_plus. change (bp (-1074 + 1074)) with 1. ring. }
  rewrite E3, Ztrunc_IZR, INR_IZR_INZ, Z2Nat.id; [reflexivity|]. apply le_IZR. rewrite <- E3. apply Rmult_le_pos; [exact H|apply bpow_ge_0].
Qed.
Lemma units_lt x y : 0 <= B2R x -> B2R x < B2R y -> (units x < units y)%nat.
Proof.
  intros H L. apply INR_lt. rewrite !units_val by lra. apply Rmult_lt_compat_r; [apply bp_pos|exact L].
Qed.

(** a trial lowers the remaining probability *)
Lemma trial_lowers rem e : is_finite rem = true -> is_finite e = true ->
  bp (-53) <= B2R rem <= 1 -> bp (-52) <= B2R e <= 1 ->
  B2R (d_mul rem (d_sub d_one e)) < B2R rem.
Proof.
  intros FR FE HR HE. pose proof (bp_pos (-53)) as P53. pose proof (bp_pos (-52)) as P52.
  destruct (one_minus e FE) as (F1 & V1 & B1); [lra|].
  destruct (mul_01 rem (d_sub d_one e) FR F1) as (F2 & V2 & _); [lra|rewrite V1; exact B1|]. rewrite V2, V1.
  assert (U : RN (1 - B2R e) <= 1 - bp (-52)).
  { assert (G : generic_format radix2 fe (1 - bp (-52))).
    { replace (1 - bp (-52)) with (IZR (2 ^ 52 - 1) * bp (-52)); [apply fe_mant; lia|]. rewrite minus_IZR.
      change (IZR (2 ^ 52)) with (bp 52). rewrite Rmult_minus_distr_r, <- bp_plus. change (bp (52 + -52)) with 1. ring. }
    unfold RN. apply round_le_generic; [typeclasses eauto|typeclasses eauto|exact G|lra]. }
  apply Rle_lt_trans with (pred radix2 fe (B2R rem)).
  - unfold RN at 1. apply round_le_generic; [typeclasses eauto|typeclasses eauto|apply generic_format_pred; [typeclasses eauto|apply fmt]|].
    assert (UL : ulp radix2 fe (B2R rem) <= B2R rem * bp (-52)).
    { assert (NZ : B2R rem <> 0) by lra. rewrite ulp_neq_0 by exact NZ. unfold cexp, FLT_exp.
      pose proof (bpow_mag_le radix2 (B2R rem) NZ) as ML. rewrite Rabs_pos_eq in ML by lra.
      assert (MG : (-53 < mag radix2 (B2R rem))%Z) by (apply mag_gt_bpow; rewrite Rabs_pos_eq; lra).
      rewrite Z.max_l by lia. apply Rle_trans with (bp (mag radix2 (B2R rem) - 1) * bp (-52)); [|apply Rmult_le_compat_r; lra].
      rewrite <- bp_plus. apply bpow_le. lia. }
    assert (PG : B2R rem - ulp radix2 fe (B2R rem) <= pred radix2 fe (B2R rem)).
    { assert (P0 : 0 <= pred radix2 fe (B2R rem)) by (apply pred_ge_0; [typeclasses eauto|lra|apply fmt]).
      pose proof (pred_plus_ulp radix2 fe (B2R rem) ltac:(lra) (fmt rem)) as PP.
      assert (UM : ulp radix2 fe (pred radix2 fe (B2R rem)) <= ulp radix2 fe (B2R rem)).
      { apply ulp_le_pos; [typeclasses eauto|typeclasses eauto|exact P0|apply pred_le_id]. }
      lra. }
    apply Rle_trans with (B2R rem * (1 - bp (-52))); [apply Rmult_le_compat_l; lra|]. lra.
  - apply pred_lt_id. lra.
Qed.
Lemma half_val : is_finite (d_of 1 (-1)) = true /\ B2R (d_of 1 (-1)) = / 2.
Proof. destruct (d_of_bp (-1)) as [F V]; [lia|]. split; [exact F|]. rewrite V. reflexivity. Qed.
(** 1 - min_success_probability *)
Lemma threshold msp : is_finite msp = true -> 0 <= B2R msp < 1 ->
  is_finite (d_sub d_one msp) = true /\ B2R (d_sub d_one msp) = RN (1 - B2R msp) /\ bp (-53) <= RN (1 - B2R msp) <= 1.
Proof.
  intros F H. destruct (one_minus msp F) as (F1 & V1 & B1); [lra|]. split; [exact F1|]. split; [exact V1|]. split; [|apply B1].
  assert (M : B2R msp <= 1 - bp (-53)).
  { pose proof (mant_lt1 msp) as ML. rewrite Rabs_pos_eq in ML by lra. apply ML. lra. }
  rewrite <- (RN_bp (-53)) by lia. apply RN_le. lra.
Qed.
(** one trial with a probability of at least msp is enough *)
Lemma one_trial rem msp e : is_finite rem = true -> is_finite msp = true -> is_finite e = true ->
  0 <= B2R rem <= 1 -> 0 <= B2R msp < 1 -> B2R msp <= B2R e <= 1 ->
  d_lt (d_sub d_one msp) (d_mul rem (d_sub d_one e)) = false.
Proof.
  intros FR FM FE HR HM HE. destruct (threshold msp FM HM) as (FT & VT & _). destruct (one_minus e FE) as (F1 & V1 & B1); [lra|].
  destruct (mul_01 rem (d_sub d_one e) FR F1 HR) as (F2 & V2 & B2); [rewrite V1; exact B1|].
  apply (nlt_dbl _ _ FT F2). rewrite V2, VT. apply Rle_trans with (B2R (d_sub d_one e)); [apply B2|]. rewrite V1. apply RN_le. lra.
Qed.
Local Open Scope Z_scope.

Section Run.
Variables (orc : oracle) (table : list strat) (rows md : Z).
Variables (fin : bool) (N : Z).
Hypothesis TOK : table_ok N table.
Variables lo hi : Z.
Hypothesis Hlo : 0 <= lo. Hypothesis Hhi : hi <= md.
Notation P := (inside lo hi).
Notation sf := (safe fin P (fun _ => True)).

Lemma size_red_safe a b s : 0 <= a -> b <= hi -> sf (size_red orc md a b s).
Proof.
  intros A B t F. split; [|auto]. unfold size_red. cbv zeta.
  destruct (Z.ltb_spec a 0); [lia|]. destruct (Z.ltb_spec md b); [lia|]. cbn [orb]. rewrite andb_false_r.
  cbn [good]. constructor; [cbn; lia|exact F].
Qed.
Lemma size_red_or_throw_safe a b s : 0 <= a -> b <= hi -> sf (size_red_or_throw orc md a b s).
Proof.
  intros A B t F. split; [|auto]. destruct (size_red_safe a b s A B t F) as [G _]. unfold size_red_or_throw.
  destruct (size_red orc md a b s t) as [[]| | | |]; exact G.
Qed.
Lemma lll_safe a b : 0 <= a -> b <= hi -> sf (lll_or_throw orc md a a b).
Proof.
  intros A B t F. split; [|auto]. unfold lll_or_throw. cbv zeta.
  destruct (Z.ltb_spec a 0); [lia|]. destruct (Z.ltb_spec md b); [lia|]. cbn [orb].
  assert (G : Forall P (CLll a a b :: t)) by (constructor; [cbn; lia|exact F]). destruct (o_lll orc _); exact G.
Qed.
Lemma strategy_safe b : 1 <= b <= N -> safe fin P (fun s => nth_error table (Z.to_nat b) = Some s /\ entry_ok b s) (strategy_at table b).
Proof.
  intros B t F. destruct (TOK b B) as (s & E & K). unfold strategy_at. destruct (Z.ltb_spec b 0); [lia|]. rewrite E.
  split; [exact F|]. intros a t' H'. injection H' as <- _. auto.
Qed.
Lemma pruning_safe b : 1 <= b <= N ->
  safe fin P (fun p => exists s, nth_error table (Z.to_nat b) = Some s /\ entry_ok b s /\ In p (st_prun s)) (pruning_at orc table b).
Proof.
  intros B. unfold pruning_at. eapply safe_bnd; [apply (strategy_safe b B)|]. intros s [Es Hs].
  eapply safe_bnd; [apply (safe_ask fin P (fun _ => True)); auto|]. intros rg _ t F.
  destruct (proj2 (get_pruning_defined s (fst rg) (snd rg))) as (p & E & I); [apply Hs|]. rewrite E.
  split; [exact F|]. intros a t' H'. injection H' as <- _. eauto.
Qed.

Section Body.
Variable svp : bpar -> Z -> Z -> bool -> M bool.
(** the blocks the nested calls may reduce *)
Variable bmax : Z.
Hypothesis SVP : forall par k b dual, msp_ok table (b_msp par) -> lo <= k -> 1 <= b <= bmax -> k + b <= hi -> sf (svp par k b dual).

Lemma trunc_tour_safe par mn mx : msp_ok table (b_msp par) -> 1 <= b_bs par -> (b_bs par <= bmax \/ mx - mn <= b_bs par) -> lo <= mn -> mx <= hi -> sf (trunc_tour svp par mn mx).
Proof.
  intros HP B1 B2 L H. unfold trunc_tour. apply safe_for_up. intros k K. apply SVP; [exact HP|lia|lia|lia].
Qed.
Lemma trunc_dtour_safe par mn mx : msp_ok table (b_msp par) -> 1 <= b_bs par -> (b_bs par <= bmax \/ mx - mn <= b_bs par) -> lo <= mn -> mx <= hi -> sf (trunc_dtour svp par mn mx).
Proof.
  intros HP B1 B2 L H. unfold trunc_dtour. apply safe_for_down. intros k K. apply SVP; [exact HP|lia|lia|lia].
Qed.
Lemma hkz_safe par mn mx : msp_ok table (b_msp par) -> mx - mn <= bmax -> lo <= mn -> 1 <= mx <= hi -> sf (hkz orc md svp par mn mx).
Proof.
  intros HP B L H. unfold hkz. eapply safe_bnd.
  - apply safe_for_up. intros k K. apply SVP; [exact HP|lia|lia|lia].
  - intros c _. eapply safe_bnd; [apply size_red_safe; lia|]. intros u _. apply safe_ret. exact I.
Qed.
Lemma tour_safe par mn mx : msp_ok table (b_msp par) -> 1 <= b_bs par -> b_bs par <= bmax \/ mx - mn <= bmax /\ mx - mn <= b_bs par ->
  b_bs par <= mx - mn \/ mn = 0 -> lo <= mn < mx -> mx <= hi -> sf (tour orc md svp par mn mx).
Proof.
  intros HP B1 B2 B3 L H. unfold tour. eapply safe_bnd; [apply trunc_tour_safe; [exact HP|lia|lia|lia|lia]|]. intros c1 _.
  eapply safe_bnd; [apply hkz_safe; [exact HP|lia|lia|lia]|]. intros c2 _. apply safe_ret. exact I.
Qed.
Lemma sd_tour_safe par mn mx : msp_ok table (b_msp par) -> 1 <= b_bs par <= bmax -> lo <= mn -> mx <= hi -> sf (sd_tour svp par mn mx).
Proof.
  intros HP B L H. unfold sd_tour. eapply safe_bnd; [apply trunc_dtour_safe; [exact HP|lia|lia|lia|lia]|]. intros c1 _.
  eapply safe_bnd; [apply trunc_tour_safe; [exact HP|lia|lia|lia|lia]|]. intros c2 _. apply safe_ret. exact I.
Qed.
Lemma pre_tours_safe pre kappa bs : msp_ok table (d_of 1 (-1)) -> (forall p, In p pre -> 1 <= Z.of_nat p < bs) -> bs - 1 <= bmax ->
  lo <= kappa -> kappa + bs <= hi -> sf (pre_tours orc md svp pre kappa bs).
Proof.
  intros HH Hp B L H. induction pre as [|p pre IH]; cbn [pre_tours]; [apply safe_ret; exact I|].
  specialize (Hp p (or_introl eq_refl)) as P1.
  eapply safe_bnd; [apply tour_safe; cbn [b_msp b_bs]; [exact HH|lia|lia|lia|lia|lia]|]. intros c _. apply IH. intros q Q. apply Hp. right. exact Q.
Qed.
Hypothesis HALF : msp_ok table (d_of 1 (-1)).
Lemma preprocessing_safe par kappa bs : 1 <= bs <= N -> bs - 1 <= bmax -> lo <= kappa -> kappa + bs <= hi ->
  sf (svp_preprocessing orc table md svp par kappa bs).
Proof.
  intros B1 B2 L H. unfold svp_preprocessing. cbv zeta. eapply safe_bnd; [apply lll_safe; destruct (b_bounded par); lia|]. intros u _.
  eapply safe_bnd; [apply (strategy_safe bs B1)|]. intros s (_ & _ & Hp & _). apply pre_tours_safe; [exact HALF|exact Hp|lia|lia|lia].
Qed.

Lemma trials_safe par kappa bs dual : msp_ok table (b_msp par) -> 1 <= bs <= N -> bs - 1 <= bmax -> lo <= kappa -> kappa + bs <= hi ->
  forall fuel rem again, is_finite rem = true -> (0 <= B2R rem <= 1)%R -> (fin = true -> S (units rem) <= fuel)%nat ->
    (bs = 3 -> again = true -> d_lt (d_sub d_one (b_msp par)) rem = false) ->
    sf (trials orc table md svp fuel par kappa bs dual rem again).
Proof.
  intros (FM & HM & M3) B1 B2 L H. destruct (threshold _ FM HM) as (FT & VT & BT).
  induction fuel as [|fuel IH]; intros rem again FR HR HF H3; cbn [trials].
  - destruct (d_lt _ rem) eqn:E; cbn [negb]; [|apply safe_ret; exact I]. intros t F. split; [|discriminate]. cbn [good]. split; [|exact F].
    destruct fin; [|reflexivity]. specialize (HF eq_refl). lia.
  - destruct (d_lt _ rem) eqn:E; cbn [negb]; [|apply safe_ret; exact I].
    pose proof (proj1 (lt_dbl _ _ FT FR) E) as LT. rewrite VT in LT.
    eapply safe_bnd with (Q := fun _ => True).
    { destruct again; [|apply safe_ret; exact I]. intros t F. split; [|auto]. unfold rerand. cbv zeta.
      assert (NB : bs <> 3) by (intros Q; specialize (H3 Q eq_refl); congruence).
      destruct (Z.eqb_spec (kappa + bs - (kappa + 1)) 2); [lia|]. cbn [good]. constructor; [cbn; lia|exact F]. }
    intros u1 _. eapply safe_bnd; [apply preprocessing_safe; lia|]. intros u2 _.
    eapply safe_bnd; [apply (pruning_safe bs B1)|]. intros p (s & Es & (S1 & S2 & S3) & Ip). destruct (S3 p Ip) as (C & FE & HE).
    eapply safe_bnd with (Q := fun _ => True).
    { intros t F. split; [|auto]. unfold enum_block. cbv zeta.
      assert (G : Forall P (CEnum kappa (kappa + bs) p dual :: t)).
      { constructor; [|exact F]. cbn. split; [lia|]. split; [lia|]. destruct C as [C|C]; [left; exact C|right; lia]. }
      destruct (pp_coef p) as [|x l] eqn:EC; [exact G|]. destruct C as [C|C]; [discriminate|].
      destruct (Z.ltb_spec (Z.of_nat (length (x :: l))) bs); [lia|exact G]. }
    intros u3 _. eapply safe_bnd; [apply (safe_ask fin P (fun _ => True)); auto|]. intros found _.
    eapply safe_bnd with (Q := fun _ => True).
    { destruct found; [|apply safe_ret; exact I]. apply safe_emit; [cbn; lia|exact I]. }
    intros u4 _. pose proof (bp_pos (-52)) as P52.
    destruct (one_minus (pp_exp p) FE) as (F1 & V1 & O1); [lra|].
    destruct (mul_01 rem (d_sub d_one (pp_exp p)) FR F1 HR) as (F2 & V2 & O2); [rewrite V1; exact O1|].
    apply IH.
    + exact F2.
    + rewrite V2. split; [apply O2|]. apply Rle_trans with (1 := proj2 O2). rewrite V1. apply O1.
    + intros Q. specialize (HF Q).
      assert (D : (units (d_mul rem (d_sub d_one (pp_exp p))) < units rem)%nat).
      { apply units_lt; [rewrite V2; apply O2|]. apply trial_lowers; [exact FR|exact FE|lra|exact HE]. }
      lia.
    + intros Q _. apply one_trial; [exact FR|exact FM|exact FE|exact HR|exact HM|]. split; [|lra]. apply (M3 s p); [|exact Ip].
      rewrite <- Es, Q. reflexivity.
Qed.

Lemma svp_body_safe tfuel par kappa bs dual : msp_ok table (b_msp par) -> 1 <= bs <= N -> bs - 1 <= bmax -> lo <= kappa -> kappa + bs <= hi ->
  (fin = true -> S (units d_one) <= tfuel)%nat -> sf (svp_body orc table md svp tfuel par kappa bs dual).
Proof.
  intros HP B1 B2 L H HF. unfold svp_body. cbv zeta.
  eapply safe_bnd with (Q := fun _ => True); [apply safe_emit; [cbn; lia|exact I]|]. intros u1 _.
  eapply safe_bnd with (Q := fun _ => True).
  { destruct (Z.ltb_spec kappa 0); [lia|]. destruct (Z.ltb_spec md (kappa + bs)); [lia|]. apply safe_ret. exact I. }
  intros u2 _. eapply safe_bnd; [apply size_red_or_throw_safe; destruct dual; lia|]. intros u3 _.
  eapply safe_bnd; [apply trials_safe; try assumption; [apply one_val|rewrite (proj2 one_val); lra|discriminate]|]. intros u4 _.
  eapply safe_bnd; [apply size_red_or_throw_safe; destruct dual; lia|]. intros u5 _. apply safe_ask. auto.
Qed.

Lemma slide_blocks_safe par mn mx p : fin = false -> msp_ok table (b_msp par) -> 1 <= b_bs par -> Z.min (b_bs par) (mx - mn) <= bmax ->
  lo <= mn < mx -> mx <= hi -> (forall i, 0 <= i < p -> i * b_bs par < mx - mn) ->
  forall fuel, sf (slide_blocks orc md svp fuel par mn mx p).
Proof.
  intros NF HP B1 B2 L H HPp. induction fuel as [|fuel IH]; cbn [slide_blocks].
  { intros t F. split; [split; [exact NF|exact F]|discriminate]. }
  eapply safe_bnd.
  - apply safe_for_up. intros i K. specialize (HPp i ltac:(lia)). cbv zeta. apply SVP; [exact HP|nia|nia|lia].
  - intros c _. eapply safe_bnd with (Q := fun _ => True).
    + destruct (b_bounded par); [|apply safe_ret; exact I]. eapply safe_bnd; [apply lll_safe; lia|]. intros u _.
      eapply safe_bnd; [apply (safe_ask fin P (fun _ => True)); auto|]. intros s _. apply safe_ret. exact I.
    + intros c' _. destruct c'; [apply safe_ret; exact I|apply IH].
Qed.
Lemma slide_tour_safe fuel par mn mx : fin = false -> msp_ok table (b_msp par) -> 1 <= b_bs par -> Z.min (b_bs par) (mx - mn) <= bmax ->
  lo <= mn < mx -> mx <= hi -> sf (slide_tour orc md svp fuel par mn mx).
Proof.
  intros NF HP B1 B2 L H. unfold slide_tour. cbv zeta. set (p := _ / _ + _).
  assert (HPp : forall i, 0 <= i < p -> i * b_bs par < mx - mn).
  { intros i K. unfold p in K. pose proof (Z_div_mod_eq_full (mx - mn) (b_bs par)) as DM. pose proof (Z.mod_pos_bound (mx - mn) (b_bs par) ltac:(lia)) as MB.
    destruct (Z.eqb_spec ((mx - mn) mod b_bs par) 0); nia. }
  eapply safe_bnd; [apply slide_blocks_safe; assumption|]. intros u _.
  eapply safe_bnd; [|intros c _; apply safe_ask; auto].
  apply safe_for_up. intros i K. specialize (HPp (i + 1) ltac:(lia)). apply SVP; [exact HP|nia| |nia]. split; [lia|nia].
Qed.
End Body.

Lemma svp_reduction_safe tfuel : msp_ok table (d_of 1 (-1)) -> (fin = true -> S (units d_one) <= tfuel)%nat ->
  forall depth par kappa bs dual, msp_ok table (b_msp par) -> 1 <= bs <= N -> (fin = true -> bs <= Z.of_nat depth) ->
  lo <= kappa -> kappa + bs <= hi -> sf (svp_reduction orc table md depth tfuel par kappa bs dual).
Proof.
  intros HH HF. induction depth as [|depth IH]; intros par kappa bs dual HP B D L H; cbn [svp_reduction].
  - intros t F. split; [|discriminate]. split; [|exact F]. destruct fin; [|reflexivity]. specialize (D eq_refl). lia.
  - apply svp_body_safe with (bmax := bs - 1); try assumption; try lia.
    intros par' k b dual' HP' L' B' H'. apply IH; [exact HP'|lia|intros Q; specialize (D Q); lia|exact L'|exact H'].
Qed.
End Run.

(** ** Theorems *)

(** svp_reduction on rows kappa..kappa+bs-1, for every basis (oracle): with a good table,
    enough trials and one nesting level per row it ends, without undefined behaviour, and all
    its blocks, enumerations, insertions and rerandomisations lie inside the block *)
Theorem svp_reduction_inside : forall orc table md par kappa bs dual tfuel depth,
  table_ok bs table -> msp_ok table (b_msp par) -> msp_ok table (d_of 1 (-1)) ->
  0 <= kappa -> 1 <= bs -> kappa + bs <= md -> (units d_one < tfuel)%nat -> bs <= Z.of_nat depth ->
  good true (inside kappa (kappa + bs)) (svp_reduction orc table md depth tfuel par kappa bs dual []).
Proof.
  intros orc table md par kappa bs dual tfuel depth T M1 M2 K B H F D.
  apply (svp_reduction_safe orc table md true bs T kappa (kappa + bs) K H tfuel M2 (fun _ => F) depth par kappa bs dual M1); [lia|lia|lia|lia|constructor].
Qed.

Section Main.
Variables (orc : oracle) (table : list strat) (rows md : Z) (par : bpar).
Hypothesis R1 : 1 <= rows <= md.
Hypothesis B1 : 2 <= b_bs par.
Hypothesis T : table_ok (Z.min (b_bs par) rows) table.
Hypothesis M1 : msp_ok table (b_msp par).
Hypothesis M2 : msp_ok table (d_of 1 (-1)).


Lemma one_tour_safe fin m depth tfuel sfuel : (fin = true -> S (units d_one) <= tfuel)%nat -> (fin = true -> Z.min (b_bs par) rows <= Z.of_nat depth) ->
  (m = MSd -> b_bs par <= rows) -> (m = MSlide -> fin = false) ->
  safe fin (inside 0 rows) (fun _ => True) (one_tour orc table rows md depth tfuel m sfuel par).
Proof.
  intros HF HD HS HL.
  assert (SV : forall par' k b dual, msp_ok table (b_msp par') -> 0 <= k -> 1 <= b <= Z.min (b_bs par) rows -> k + b <= rows ->
    safe fin (inside 0 rows) (fun _ => True) (svp_reduction orc table md depth tfuel par' k b dual)).
  { intros par' k b dual HP K B H. apply (svp_reduction_safe orc table md fin (Z.min (b_bs par) rows) T 0 rows); try assumption; try lia.
    intros Q. specialize (HD Q). lia. }
  unfold one_tour. destruct m.
  - apply tour_safe with (table := table) (bmax := Z.min (b_bs par) rows); try assumption; lia.
  - apply sd_tour_safe with (table := table) (bmax := Z.min (b_bs par) rows); try assumption; try lia.
    specialize (HS eq_refl). lia.
  - apply slide_tour_safe with (table := table) (bmax := Z.min (b_bs par) rows); try assumption; try lia. auto.
Qed.
Lemma main_loop_safe m depth tfuel sfuel : (m = MSd -> b_bs par <= rows) -> forall loops,
  safe false (inside 0 rows) (fun _ => True) (main_loop orc table rows md depth tfuel loops m sfuel par).
Proof.
  intros HS. induction loops as [|l IH]; cbn [main_loop].
  - intros t F. split; [split; [reflexivity|exact F]|discriminate].
  - eapply safe_bnd; [apply (safe_ask false _ (fun _ => True)); auto|]. intros stop _. destruct stop; [apply safe_ret; exact I|].
    eapply safe_bnd; [apply one_tour_safe; [discriminate|discriminate|exact HS|reflexivity]|]. intros c _.
    destruct (_ || _); [apply safe_ret; exact I|apply IH].
Qed.
Lemma finish_safe fin m depth tfuel : (fin = true -> S (units d_one) <= tfuel)%nat -> (fin = true -> Z.min (b_bs par) rows <= Z.of_nat depth) ->
  (m = MSd -> b_bs par <= rows) ->
  safe fin (inside 0 rows) (fun _ => True) (finish orc table rows md depth tfuel m par).
Proof.
  intros HF HD HS.
  assert (SV : forall par' k b dual, msp_ok table (b_msp par') -> 0 <= k -> 1 <= b <= Z.min (b_bs par) rows -> k + b <= rows ->
    safe fin (inside 0 rows) (fun _ => True) (svp_reduction orc table md depth tfuel par' k b dual)).
  { intros par' k b dual HP K B H. apply (svp_reduction_safe orc table md fin (Z.min (b_bs par) rows) T 0 rows); try assumption; try lia.
    intros Q. specialize (HD Q). lia. }
  unfold finish. destruct m.
  - apply safe_ret. exact I.
  - specialize (HS eq_refl). eapply safe_bnd; [apply hkz_safe with (table := table) (bmax := Z.min (b_bs par) rows); try assumption; lia|].
    intros u _. apply safe_ret. exact I.
  - cbv zeta. set (p := _ / _ + _). eapply safe_bnd; [|intros u _; apply safe_ret; exact I]. apply safe_for_up. intros j K.
    assert (J : j * b_bs par < rows).
    { unfold p in K. pose proof (Z_div_mod_eq_full rows (b_bs par)) as DM. pose proof (Z.mod_pos_bound rows (b_bs par) ltac:(lia)) as MB.
      destruct (Z.eqb_spec (rows mod b_bs par) 0); nia. }
    apply hkz_safe with (table := table) (bmax := Z.min (b_bs par) rows); try assumption; try lia; nia.
Qed.
End Main.

(** a complete run of BKZ, SD-BKZ or slide reduction: with a table that is good up to
    min(block_size, num_rows), however long it runs and whatever the basis answers, there is
    no undefined behaviour and no call outside rows 0..num_rows-1.  SD-BKZ: provided
    block_size <= num_rows. *)
Theorem bkz_run_inside : forall orc table rows md par m loops depth tfuel sfuel,
  1 <= rows <= md -> 2 <= b_bs par -> (m = MSd -> b_bs par <= rows) ->
  table_ok (Z.min (b_bs par) rows) table -> msp_ok table (b_msp par) -> msp_ok table (d_of 1 (-1)) ->
  good false (inside 0 rows) (bkz_run orc table rows md depth tfuel loops m sfuel par []).
Proof.
  intros orc table rows md par m loops depth tfuel sfuel R1 B1 HS T M1 M2.
  enough (S : safe false (inside 0 rows) (fun _ => True) (bkz_run orc table rows md depth tfuel loops m sfuel par)) by (apply S; constructor).
  unfold bkz_run. destruct (Z.ltb_spec (b_bs par) 2); [lia|].
  eapply safe_bnd with (Q := fun _ => True).
  { destruct m; [apply safe_ret; exact I| |apply safe_ret; exact I]. apply safe_emit; [cbn; lia|exact I]. }
  intros u _. eapply safe_bnd; [apply main_loop_safe; assumption|]. intros u2 _. apply finish_safe; try assumption; discriminate.
Qed.

(** each tour of BKZ and SD-BKZ ends *)
Theorem bkz_tour_ends : forall orc table rows md par m depth tfuel sfuel,
  1 <= rows <= md -> 2 <= b_bs par -> m <> MSlide -> (m = MSd -> b_bs par <= rows) ->
  table_ok (Z.min (b_bs par) rows) table -> msp_ok table (b_msp par) -> msp_ok table (d_of 1 (-1)) ->
  (units d_one < tfuel)%nat -> Z.min (b_bs par) rows <= Z.of_nat depth ->
  good true (inside 0 rows) (one_tour orc table rows md depth tfuel m sfuel par []).
Proof.
  intros orc table rows md par m depth tfuel sfuel R1 B1 NM HS T M1 M2 F D.
  apply one_tour_safe; try assumption; auto; congruence.
Qed.

(** HKZ reduction (block_size >= num_rows) ends after one tour *)
Theorem hkz_run_ends : forall orc table rows md par loops depth tfuel sfuel,
  1 <= rows <= md -> 2 <= b_bs par -> rows <= b_bs par ->
  table_ok rows table -> msp_ok table (b_msp par) -> msp_ok table (d_of 1 (-1)) ->
  (units d_one < tfuel)%nat -> rows <= Z.of_nat depth -> (1 <= loops)%nat ->
  good true (inside 0 rows) (bkz_run orc table rows md depth tfuel loops MBkz sfuel par []).
Proof.
  intros orc table rows md par loops depth tfuel sfuel R1 B1 HB T M1 M2 F D L.
  enough (S : safe true (inside 0 rows) (fun _ => True) (bkz_run orc table rows md depth tfuel loops MBkz sfuel par)) by (apply S; constructor).
  assert (T' : table_ok (Z.min (b_bs par) rows) table) by (rewrite Z.min_r by lia; exact T).
  unfold bkz_run. destruct (Z.ltb_spec (b_bs par) 2); [lia|].
  eapply safe_bnd with (Q := fun _ => True); [apply safe_ret; exact I|]. intros u _.
  eapply safe_bnd with (Q := fun _ => True); [|intros u2 _; apply safe_ret; exact I].
  destruct loops as [|l]; [lia|]. cbn [main_loop].
  eapply safe_bnd; [apply (safe_ask true _ (fun _ => True)); auto|]. intros stop _. destruct stop; [apply safe_ret; exact I|].
  eapply safe_bnd; [apply one_tour_safe; try assumption; try discriminate; intros; lia|]. intros c _.
  destruct (Z.leb_spec rows (b_bs par)); [|lia]. rewrite orb_true_r. apply safe_ret. exact I.
Qed.

(** the default table (BKZParam with no strategies) is good for every block up to
    block_size, for every min_success_probability in [0,1) *)
Theorem default_table_ok : forall bs, 1 <= bs ->
  table_ok bs (param_table bs []) /\
  forall msp, is_finite msp = true -> (0 <= B2R msp < 1)%R -> msp_ok (param_table bs []) msp.
Proof.
  intros bs B. destruct (param_table_spec bs [] ltac:(lia)) as [D _]. destruct (D eq_refl) as [L N]. split.
  - intros b K. exists (mkst (Some (Z.to_nat b)) [pp_default] []). split; [apply N; lia|].
    split; [discriminate|]. split; [intros p []|]. intros p [<-|[]]. split; [left; reflexivity|].
    cbn [pp_default pp_exp]. destruct one_val as [F V]. rewrite V. split; [exact F|]. split; [|lra].
    change 1%R with (bp 0). apply bpow_le. lia.
  - intros msp F H. split; [exact F|]. split; [exact H|]. intros s p E I.
    assert (B3 : (3 < length (param_table bs []))%nat) by (apply nth_error_Some; congruence).
    rewrite (N 3%nat) in E by lia. injection E as <-. destruct I as [<-|[]]. cbn [pp_default pp_exp].
    rewrite (proj2 one_val). lra.
Qed.

(** the conditions on a document of load_strategies_json under which the loaded table is good
    for blocks of 1..n rows: it has an entry for at least n rows, every entry preprocesses with
    smaller blocks, and its pruning parameters cover its rows *)
Definition doc_ok (n : Z) (doc : list jentry) : Prop :=
  (exists e, In e doc /\ n <= Z.of_nat (je_bs e)) /\
  forall e, In e doc ->
    (forall l p, je_pre e = Some l -> In p l -> (1 <= p < je_bs e)%nat) /\
    (forall l x, je_prun e = Some l -> In x l ->
       (snd (fst x) = [] \/ (je_bs e <= length (snd (fst x)))%nat) /\
       is_finite (snd x) = true /\ (bp (-52) <= B2R (snd x) <= 1)%R).
Theorem loaded_table_ok : forall n doc, doc_ok n doc -> table_ok n (load_strategies doc).
Proof.
  intros n doc [[e0 [I0 N0]] HD] b B. destruct (load_strategies_table doc) as [L N].
  assert (LT : (Z.to_nat b < length (load_strategies doc))%nat).
  { rewrite L. clear - I0 N0 B. induction doc as [|e doc IH]; [destruct I0|]. cbn [fold_right].
    destruct I0 as [->|I0]; [lia|]. specialize (IH I0). lia. }
  exists (wanted doc (Z.to_nat b)). split; [apply N; exact LT|].
  assert (DF : (pp_coef pp_default = [] \/ b <= Z.of_nat (length (pp_coef pp_default))) /\ is_finite (pp_exp pp_default) = true /\ (bp (-52) <= B2R (pp_exp pp_default) <= 1)%R).
  { split; [left; reflexivity|]. cbn [pp_default pp_exp]. destruct one_val as [F V]. rewrite V. split; [exact F|]. split; [|lra].
    change 1%R with (bp 0). apply bpow_le. lia. }
  unfold wanted. destruct (last_entry doc (Z.to_nat b)) as [e|] eqn:E.
  - unfold last_entry in E. pose proof (find_some _ _ E) as [I1 Eb]. apply in_rev in I1. apply Nat.eqb_eq in Eb.
    destruct (HD e I1) as [H1 H2]. split; [|split]; cbn [st_prun st_pre].
    + destruct (je_prun e) as [[|x l]|]; discriminate.
    + intros p Ip. destruct (je_pre e) as [l|]; [|destruct Ip]. specialize (H1 l p eq_refl Ip). lia.
    + intros p Ip. destruct (je_prun e) as [l|].
      * destruct l as [|x0 l0]; [destruct Ip as [<-|[]]; exact DF|]. apply in_map_iff in Ip. destruct Ip as (x & <- & Ix).
        destruct (H2 _ x eq_refl Ix) as ([C|C] & F & V); cbn [pp_coef pp_exp]; (split; [|split; assumption]); [left; exact C|right; lia].
      * destruct Ip as [<-|[]]; exact DF.
  - split; [discriminate|]. split; [intros p []|]. intros p [<-|[]]. exact DF.
Qed.

(** ** The blocks of a tour *)

(** the blocks (first row, rows, dual) of a run, in the order in which they are reduced *)
Definition block_of (c : call) : list (Z * Z * bool) := match c with CBlock k b d => [(k, b, d)] | _ => [] end.
Definition blocks (t : trace) : list (Z * Z * bool) := flat_map block_of (rev t).
(** no recursive preprocessing *)
Definition plain (table : list strat) : Prop := forall s, In s table -> st_pre s = [].

(** a completed step adds the blocks bl *)
Definition adds {A} (m : M A) (bl : list (Z * Z * bool)) : Prop := forall t a t', m t = Ok a t' -> blocks t' = blocks t ++ bl.
Lemma adds_ret {A} (a : A) : adds (ret a) [].
Proof. intros t a' t' E. injection E as _ <-. symmetry. apply app_nil_r. Qed.
Lemma adds_ask {A} (o : trace -> A) : adds (ask o) [].
Proof. intros t a' t' E. injection E as _ <-. symmetry. apply app_nil_r. Qed.
Lemma blocks_cons c t : blocks (c :: t) = blocks t ++ block_of c.
Proof. unfold blocks. cbn [rev]. rewrite flat_map_app. cbn [flat_map]. rewrite app_nil_r. reflexivity. Qed.
Lemma adds_emit c : adds (emit c) (block_of c).
Proof. intros t a' t' E. injection E as _ <-. apply blocks_cons. Qed.
Lemma adds_bnd {A B} (m : M A) (f : A -> M B) l1 l2 : adds m l1 -> (forall a, adds (f a) l2) -> adds (bnd m f) (l1 ++ l2).
Proof.
  intros H1 H2 t b t' E. unfold bnd in E. destruct (m t) as [a t1| | | |] eqn:E1; try discriminate.
  rewrite (H2 a t1 b t' E), (H1 t a t1 E1), app_assoc. reflexivity.
Qed.
Lemma adds_bnd0 {A B} (m : M A) (f : A -> M B) l : adds m [] -> (forall a, adds (f a) l) -> adds (bnd m f) l.
Proof. intros H1 H2. apply (adds_bnd m f [] l H1 H2). Qed.

(** n consecutive numbers *)
Definition up (n : nat) (lo : Z) : list Z := map (fun i => lo + Z.of_nat i) (seq 0 n).
Definition down (n : nat) (hi : Z) : list Z := map (fun i => hi - Z.of_nat i) (seq 0 n).
Lemma adds_for_up f g n : forall lo c, (forall k, lo <= k < lo + Z.of_nat n -> adds (f k) (g k)) -> adds (for_up n lo f c) (flat_map g (up n lo)).
Proof.
  induction n as [|n IH]; intros lo c H; [apply adds_ret|]. cbn [for_up].
  replace (up (S n) lo) with (lo :: up n (lo + 1)).
  - cbn [flat_map]. apply adds_bnd; [apply H; lia|]. intros a. apply IH. intros k K. apply H. lia.
  - unfold up. cbn [seq map]. f_equal; [lia|]. rewrite <- seq_shift, map_map. apply map_ext. intros i. lia.
Qed.
Lemma adds_for_down f g n : forall hi c, (forall k, hi - Z.of_nat n < k <= hi -> adds (f k) (g k)) -> adds (for_down n hi f c) (flat_map g (down n hi)).
Proof.
  induction n as [|n IH]; intros hi c H; [apply adds_ret|]. cbn [for_down].
  replace (down (S n) hi) with (hi :: down n (hi - 1)).
  - cbn [flat_map]. apply adds_bnd; [apply H; lia|]. intros a. apply IH. intros k K. apply H. lia.
  - unfold down. cbn [seq map]. f_equal; [lia|]. rewrite <- seq_shift, map_map. apply map_ext. intros i. lia.
Qed.

Section Adds.
Variables (orc : oracle) (table : list strat) (md : Z).
Hypothesis PL : plain table.
Lemma size_red_adds a b s : adds (size_red orc md a b s) [].
Proof.
  intros t x t' E. unfold size_red in E. cbv zeta in E. destruct (_ && _); [discriminate|]. injection E as _ <-. apply (blocks_cons (CSize a b s)).
Qed.
Lemma size_red_or_throw_adds a b s : adds (size_red_or_throw orc md a b s) [].
Proof.
  intros t x t' E. unfold size_red_or_throw in E. destruct (size_red orc md a b s t) as [[]| | | |] eqn:E1; try discriminate.
  injection E as _ <-. apply (size_red_adds _ _ _ _ _ _ E1).
Qed.
Lemma lll_adds a b c : adds (lll_or_throw orc md a b c) [].
Proof.
  intros t x t' E. unfold lll_or_throw in E. cbv zeta in E. destruct (_ || _); [discriminate|]. destruct (o_lll _ _); [|discriminate].
  injection E as _ <-. apply (blocks_cons (CLll a b c)).
Qed.
Lemma strategy_in b t s t' : strategy_at table b t = Ok s t' -> In s table /\ nth_error table (Z.to_nat b) = Some s /\ t' = t.
Proof.
  unfold strategy_at. destruct (b <? 0); [discriminate|]. destruct (nth_error table (Z.to_nat b)) as [s'|] eqn:E; [|discriminate].
  intros H. injection H as <- <-. split; [apply nth_error_In with (1 := E)|auto].
Qed.
Lemma preprocessing_adds svp par kappa bs : adds (svp_preprocessing orc table md svp par kappa bs) [].
Proof.
  unfold svp_preprocessing. cbv zeta. apply adds_bnd0; [apply lll_adds|]. intros u t x t' E. unfold bnd in E.
  destruct (strategy_at table bs t) as [s t1| | | |] eqn:E1; try discriminate. destruct (strategy_in _ _ _ _ E1) as (I & _ & ->).
  rewrite (PL s I) in E. apply (adds_ret tt _ _ _ E).
Qed.
Lemma trials_adds svp par kappa bs dual : forall fuel rem again, adds (trials orc table md svp fuel par kappa bs dual rem again) [].
Proof.
  induction fuel as [|fuel IH]; intros rem again; cbn [trials]; destruct (negb _); try apply adds_ret; [intros t x t' E; discriminate|].
  apply adds_bnd0.
  { destruct again; [|apply adds_ret]. intros t x t' E. unfold rerand in E. cbv zeta in E. destruct (_ =? _); [discriminate|].
    injection E as _ <-. apply (blocks_cons (CRerand _ _)). }
  intros u. apply adds_bnd0; [apply preprocessing_adds|]. intros u2. apply adds_bnd0.
  { intros t x t' E. unfold pruning_at, bnd, ask in E. destruct (strategy_at table bs t) as [s t1| | | |] eqn:E1; try discriminate.
    destruct (strategy_in _ _ _ _ E1) as (_ & _ & ->). destruct (get_pruning _ _ _); [|discriminate]. injection E as _ <-. symmetry. apply app_nil_r. }
  intros p. apply adds_bnd0.
  { intros t x t' E. unfold enum_block in E. cbv zeta in E. destruct (pp_coef p); [|destruct (_ <? _); [discriminate|]]; injection E as _ <-; apply (blocks_cons (CEnum _ _ _ _)). }
  intros u3. apply adds_bnd0; [apply adds_ask|]. intros found. apply adds_bnd0; [|intros u4; apply IH].
  destruct found; [apply (adds_emit (CPost _ _ _))|apply adds_ret].
Qed.
Lemma svp_adds depth tfuel par kappa bs dual : adds (svp_reduction orc table md depth tfuel par kappa bs dual) [(kappa, bs, dual)].
Proof.
  destruct depth as [|depth]; cbn [svp_reduction]; [intros t x t' E; discriminate|]. unfold svp_body. cbv zeta.
  apply (adds_bnd _ _ [_] []); [apply (adds_emit (CBlock kappa bs dual))|]. intros u. apply adds_bnd0.
  { destruct (_ || _); [intros t x t' E; discriminate|apply adds_ret]. }
  intros u2. apply adds_bnd0; [apply size_red_or_throw_adds|]. intros u3. apply adds_bnd0; [apply trials_adds|]. intros u4.
  apply adds_bnd0; [apply size_red_or_throw_adds|]. intros u5. apply adds_ask.
Qed.
End Adds.

Lemma flat_map_one {A B} (f : A -> B) l : flat_map (fun x => [f x]) l = map f l.
Proof. induction l as [|x l IH]; cbn [flat_map map app]; congruence. Qed.

(** without recursive preprocessing a completed BKZ tour over n rows reduces the n-1 blocks
    that start at row 0, 1, ..., n-2, in this order, each with as many rows as there are, at
    most block_size *)
Theorem tour_blocks : forall orc table rows md par depth tfuel sfuel c t,
  plain table -> 1 <= b_bs par -> one_tour orc table rows md depth tfuel MBkz sfuel par [] = Ok c t ->
  blocks t = map (fun i => (Z.of_nat i, Z.min (b_bs par) (rows - Z.of_nat i), false)) (seq 0 (Z.to_nat (rows - 1))).
Proof.
  intros orc table rows md par depth tfuel sfuel c t PL B E.
  set (g k := [(k, Z.min (b_bs par) (rows - k), false)] : list (Z * Z * bool)).
  assert (S : forall k, adds (svp_reduction orc table md depth tfuel par k (Z.min (b_bs par) (rows - k)) false) (g k)) by (intros k; apply svp_adds; exact PL).
  assert (A : adds (one_tour orc table rows md depth tfuel MBkz sfuel par)
    (flat_map g (up (Z.to_nat (rows - b_bs par - 0)) 0) ++ flat_map g (up (Z.to_nat (rows - 1 - Z.max (rows - b_bs par) 0)) (Z.max (rows - b_bs par) 0)) ++ [])).
  { unfold one_tour, tour. apply adds_bnd.
    - unfold trunc_tour. apply adds_for_up. intros k K. specialize (S k). rewrite Z.min_l in S by lia. exact S.
    - intros c1. apply adds_bnd; [|intros c2; apply adds_ret]. unfold hkz.
      rewrite <- (app_nil_r (flat_map _ _)). apply adds_bnd.
      + apply adds_for_up. intros k K. specialize (S k). rewrite Z.min_r in S by lia. exact S.
      + intros c2. apply adds_bnd0; [apply size_red_adds|]. intros u. apply adds_ret. }
  rewrite (A [] c t E). cbn [blocks rev flat_map app]. rewrite app_nil_r, <- flat_map_app. unfold g. rewrite flat_map_one.
  assert (U : up (Z.to_nat (rows - b_bs par - 0)) 0 ++ up (Z.to_nat (rows - 1 - Z.max (rows - b_bs par) 0)) (Z.max (rows - b_bs par) 0) = map Z.of_nat (seq 0 (Z.to_nat (rows - 1)))).
  { set (a := Z.to_nat (rows - b_bs par - 0)). set (b := Z.to_nat (rows - 1 - Z.max (rows - b_bs par) 0)).
    replace (Z.to_nat (rows - 1)) with (a + b)%nat by lia. replace (Z.max (rows - b_bs par) 0) with (Z.of_nat a) by lia.
    rewrite seq_app, map_app. f_equal. unfold up.
    rewrite Nat.add_0_l. clear. generalize a. clear a. induction b as [|b IH]; intros a; [reflexivity|]. cbn [seq map]. f_equal; [lia|].
    rewrite <- (IH (S a)). rewrite <- seq_shift, map_map. apply map_ext. intros i. lia. }
  rewrite U, map_map. reflexivity.
Qed.

(** likewise a completed SD-BKZ tour: first the dual blocks downwards from row n - block_size
    to row 1, then the primal blocks upwards from row 0 to row n - block_size - 1 *)
Theorem sd_tour_blocks : forall orc table rows md par depth tfuel sfuel c t,
  plain table -> one_tour orc table rows md depth tfuel MSd sfuel par [] = Ok c t ->
  let n := Z.to_nat (rows - b_bs par) in
  blocks t = map (fun i => (rows - b_bs par - Z.of_nat i, b_bs par, true)) (seq 0 n) ++ map (fun i => (Z.of_nat i, b_bs par, false)) (seq 0 n).
Proof.
  intros orc table rows md par depth tfuel sfuel c t PL E n.
  assert (S : forall k d, adds (svp_reduction orc table md depth tfuel par k (b_bs par) d) [(k, b_bs par, d)]) by (intros k d; apply svp_adds; exact PL).
  assert (A : adds (one_tour orc table rows md depth tfuel MSd sfuel par)
    (flat_map (fun k => [(k, b_bs par, true)]) (down n (rows - b_bs par)) ++ flat_map (fun k => [(k, b_bs par, false)]) (up n 0) ++ [])).
  { unfold n. rewrite <- (Z.sub_0_r (rows - b_bs par)) at 1 3. unfold one_tour, sd_tour. apply adds_bnd; [|intros c1; apply adds_bnd; [|intros c2; apply adds_ret]].
    - unfold trunc_dtour. apply adds_for_down. intros k K. apply S.
    - unfold trunc_tour. apply adds_for_up. intros k K. apply S. }
  rewrite (A [] c t E). cbn [blocks rev flat_map app]. rewrite app_nil_r, !flat_map_one. unfold up, down. rewrite !map_map.
  f_equal.
Qed.

(** ** The trials of a block *)

(** the success probabilities of the enumerations of a run, newest first *)
Definition enum_exp (c : call) : list R := match c with CEnum _ _ p _ => [B2R (pp_exp p)] | _ => [] end.
Definition probs (t : trace) : list R := flat_map enum_exp t.
(** the probability that independent trials all fail *)
Definition all_fail (l : list R) : R := fold_right (fun e a => ((1 - e) * a)%R) 1%R l.

Local Open Scope R_scope.
(** unit roundoff *)
Notation u := (bp (-53)).
Lemma RN_rel x : bp (-1022) <= Rabs x -> (1 - u) * Rabs x <= Rabs (RN x) <= (1 + u) * Rabs x.
Proof.
  intros H. pose proof (relative_error_N_FLT radix2 (-1074) 53 ltac:(lia) (fun x => negb (Z.even x)) x H) as E.
  fold fe in E. assert (E2 : / 2 * bpow radix2 (- (53) + 1) = u) by (change (/ 2) with (bp (-1)); rewrite <- bpow_plus; reflexivity).
  rewrite E2 in E. clear E2. change (round radix2 fe (Znearest _) x) with (RN x) in E.
  split.
  - replace ((1 - u) * Rabs x) with (Rabs x - u * Rabs x) by ring. pose proof (Rabs_triang_inv x (RN x)) as T. rewrite Rabs_minus_sym in T. lra.
  - replace ((1 + u) * Rabs x) with (Rabs x + u * Rabs x) by ring. pose proof (Rabs_triang_inv (RN x) x) as T. lra.
Qed.
Lemma trial_fails (rem e : dbl) : is_finite rem = true -> is_finite e = true -> bp (-53) <= B2R rem <= 1 -> 0 <= B2R e <= 1 ->
  (1 - u) * (1 - u) * (B2R rem * (1 - B2R e)) <= B2R (d_mul rem (d_sub d_one e)).
Proof.
  intros FR FE HR HE. pose proof (bp_pos (-53)) as P53. assert (U1 : u <= 1) by (change 1 with (bp 0); apply bpow_le; lia).
  destruct (one_minus e FE HE) as (F1 & V1 & B1).
  destruct (mul_01 rem (d_sub d_one e) FR F1) as (F2 & V2 & B2); [lra|rewrite V1; exact B1|].
  rewrite V2. destruct (Req_dec (B2R e) 1) as [E1|N1].
  { replace (1 - B2R e) with 0 by lra. rewrite !Rmult_0_r. apply B2. }
  assert (M : B2R e <= 1 - u). { pose proof (mant_lt1 e) as ML. rewrite Rabs_pos_eq in ML by lra. apply ML. lra. }
  assert (S1 : bp (-1022) <= Rabs (1 - B2R e)).
  { rewrite Rabs_pos_eq by lra. apply Rle_trans with u; [apply bpow_le; lia|lra]. }
  pose proof (RN_rel _ S1) as [L1 _]. rewrite (Rabs_pos_eq (1 - B2R e)) in L1 by lra. rewrite (Rabs_pos_eq (RN _)) in L1 by apply B1.
  assert (HH : bp (-1) <= 1 - u). { pose proof (bpow_le radix2 (-53) (-1) ltac:(lia)). change (bp (-1)) with (/2) in *. lra. }
  assert (L0 : bp (-54) <= RN (1 - B2R e)).
  { apply Rle_trans with (2 := L1). change (bp (-54)) with (bp (-1 + -53)). rewrite bpow_plus. apply Rmult_le_compat; try lra; apply bpow_ge_0. }
  rewrite V1. set (x := RN (1 - B2R e)) in *.
  assert (P : bp (-107) <= B2R rem * x).
  { change (bp (-107)) with (bp (-53 + -54)). rewrite bpow_plus. apply Rmult_le_compat; [apply bpow_ge_0|apply bpow_ge_0|apply HR|exact L0]. }
  assert (S2 : bp (-1022) <= Rabs (B2R rem * x)).
  { rewrite Rabs_pos_eq by (pose proof (bp_pos (-107)); lra). apply Rle_trans with (2 := P). apply bpow_le. lia. }
  pose proof (RN_rel _ S2) as [L2 _]. rewrite V1 in B2. fold x in B2. pose proof (bp_pos (-107)) as P107.
  rewrite (Rabs_pos_eq (B2R rem * x)) in L2 by lra. rewrite (Rabs_pos_eq (RN (B2R rem * x))) in L2 by apply B2.
  apply Rle_trans with (2 := L2). replace ((1 - u) * (1 - u) * (B2R rem * (1 - B2R e))) with ((1 - u) * (B2R rem * ((1 - u) * (1 - B2R e)))) by ring.
  apply Rmult_le_compat_l; [lra|]. apply Rmult_le_compat_l; lra.
Qed.

Lemma all_fail_app l1 l2 : all_fail (l1 ++ l2) = all_fail l1 * all_fail l2.
Proof. unfold all_fail. induction l1 as [|e l1 IH]; cbn [app fold_right]; [ring|]. rewrite IH. ring. Qed.

Lemma bnd_ok {A B} (m : M A) (f : A -> M B) t b t' : bnd m f t = Ok b t' -> exists a t1, m t = Ok a t1 /\ f a t1 = Ok b t'.
Proof. unfold bnd. destruct (m t) as [a t1| | | |]; try discriminate. eauto. Qed.

Section Trials.
Variables (orc : oracle) (table : list strat) (md : Z) (s : strat) (par : bpar) (kappa bs : Z) (dual : bool).
Hypothesis ES : nth_error table (Z.to_nat bs) = Some s.
Hypothesis EK : entry_ok bs s.
Hypothesis NP : st_pre s = [].
Hypothesis FM : is_finite (b_msp par) = true.
Hypothesis HM : 0 <= B2R (b_msp par) < 1.

Lemma probs_size_red a b c t x t' : size_red_or_throw orc md a b c t = Ok x t' -> probs t' = probs t.
Proof.
  unfold size_red_or_throw, size_red. cbv zeta. destruct (_ && _); [discriminate|]. destruct (o_size _ _); [|discriminate].
  intros E. injection E as _ <-. reflexivity.
Qed.
Lemma trials_prob svp : forall fuel rem again t x t', is_finite rem = true -> 0 <= B2R rem <= 1 ->
  trials orc table md svp fuel par kappa bs dual rem again t = Ok x t' ->
  exists l, probs t' = l ++ probs t /\ Forall (fun e => e <= 1) l /\ (B2R rem * all_fail l) * (1 - u) ^ (2 * length l) <= (1 + u) * (1 - B2R (b_msp par)).
Proof.
  destruct (threshold _ FM HM) as (FT & VT & BT).
  assert (TU : RN (1 - B2R (b_msp par)) <= (1 + u) * (1 - B2R (b_msp par))).
  { assert (M : B2R (b_msp par) <= 1 - u). { pose proof (mant_lt1 (b_msp par)) as ML. rewrite Rabs_pos_eq in ML by lra. apply ML. lra. }
    pose proof (bp_pos (-53)). assert (S1 : bp (-1022) <= Rabs (1 - B2R (b_msp par))).
    { rewrite Rabs_pos_eq by lra. apply Rle_trans with u; [apply bpow_le; lia|lra]. }
    pose proof (RN_rel _ S1) as [_ L1]. rewrite (Rabs_pos_eq (1 - _)), (Rabs_pos_eq (RN _)) in L1 by lra. exact L1. }
  assert (STOP : forall rem t t' x, d_lt (d_sub d_one (b_msp par)) rem = false -> is_finite rem = true -> ret tt t = Ok x t' ->
    exists l, probs t' = l ++ probs t /\ Forall (fun e => e <= 1) l /\ (B2R rem * all_fail l) * (1 - u) ^ (2 * length l) <= (1 + u) * (1 - B2R (b_msp par))).
  { intros rem t t' x E FR H. injection H as _ <-. exists []. split; [reflexivity|]. split; [constructor|].
    apply (nlt_dbl _ _ FT FR) in E. rewrite VT in E. change (all_fail []) with 1. change ((1 - u) ^ (2 * length (@nil R))) with 1. lra. }
  induction fuel as [|fuel IH]; intros rem again t x t' FR HR E; cbn [trials] in E; destruct (d_lt _ rem) eqn:LT; cbn [negb] in E;
    try (apply (STOP rem t t' x LT FR E)); [discriminate|].
  pose proof (proj1 (lt_dbl _ _ FT FR) LT) as LT'. rewrite VT in LT'.
  unfold bnd at 1 in E. destruct ((if again then rerand (kappa + 1) (kappa + bs) else ret tt) t) as [u1 t1| | | |] eqn:E1; try discriminate.
  assert (P1 : probs t1 = probs t).
  { destruct again; [|injection E1 as _ <-; reflexivity]. unfold rerand in E1. cbv zeta in E1. destruct (_ =? _)%Z; [discriminate|]. injection E1 as _ <-. reflexivity. }
  unfold bnd at 1 in E. destruct (svp_preprocessing _ _ _ _ _ _ _ t1) as [u2 t2| | | |] eqn:E2; try discriminate.
  assert (P2 : probs t2 = probs t1).
  { unfold svp_preprocessing in E2. cbv zeta in E2. unfold bnd at 1 in E2. destruct (lll_or_throw _ _ _ _ _ t1) as [u3 t3| | | |] eqn:E3; try discriminate.
    unfold bnd in E2. destruct (strategy_at table bs t3) as [s' t4| | | |] eqn:E4; try discriminate.
    destruct (strategy_in _ _ _ _ _ E4) as (_ & E5 & ->). rewrite ES in E5. injection E5 as <-. rewrite NP in E2. cbn [pre_tours] in E2. injection E2 as _ <-.
    unfold lll_or_throw in E3. cbv zeta in E3. destruct (_ || _)%bool; [discriminate|]. destruct (o_lll _ _); [|discriminate]. injection E3 as _ <-. reflexivity. }
  unfold bnd at 1 in E. destruct (pruning_at _ _ _ t2) as [p t3| | | |] eqn:E3; try discriminate.
  assert (IP : In p (st_prun s) /\ t3 = t2).
  { unfold pruning_at, bnd, ask in E3. destruct (strategy_at table bs t2) as [s' t4| | | |] eqn:E4; try discriminate.
    destruct (strategy_in _ _ _ _ _ E4) as (_ & E5 & ->). rewrite ES in E5. injection E5 as <-.
    destruct (proj2 (get_pruning_defined s (fst (o_radius orc t2)) (snd (o_radius orc t2))) (proj1 EK)) as (p' & Ep & Ip). rewrite Ep in E3.
    injection E3 as <- <-. auto. }
  destruct IP as [IP ->]. destruct (proj2 (proj2 EK) p IP) as (_ & FE & HE). pose proof (bp_pos (-52)) as P52.
  unfold bnd at 1 in E. destruct (enum_block _ _ _ _ t2) as [u4 t4| | | |] eqn:E4; try discriminate.
  assert (P4 : probs t4 = B2R (pp_exp p) :: probs t2).
  { unfold enum_block in E4. cbv zeta in E4. destruct (pp_coef p); [|destruct (_ <? _)%Z; [discriminate|]]; injection E4 as _ <-; reflexivity. }
  unfold bnd at 1, ask in E. unfold bnd at 1 in E. destruct ((if o_found orc t4 then emit (CPost kappa bs dual) else ret tt) t4) as [u5 t5| | | |] eqn:E5; try discriminate.
  assert (P5 : probs t5 = probs t4). { destruct (o_found orc t4); injection E5 as _ <-; reflexivity. }
  destruct (one_minus (pp_exp p) FE) as (F1 & V1 & O1); [lra|].
  destruct (mul_01 rem (d_sub d_one (pp_exp p)) FR F1 HR) as (F2 & V2 & O2); [rewrite V1; exact O1|].
  assert (H2 : 0 <= B2R (d_mul rem (d_sub d_one (pp_exp p))) <= 1).
  { rewrite V2. split; [apply O2|]. apply Rle_trans with (1 := proj2 O2). rewrite V1. apply O1. }
  destruct (IH _ _ t5 x t' F2 H2 E) as (l & EL & FL & HL). exists (l ++ [B2R (pp_exp p)]). split; [|split].
  - rewrite EL, P5, P4, P2, P1, <- app_assoc. reflexivity.
  - apply Forall_app. split; [exact FL|]. constructor; [lra|constructor].
  - apply Rle_trans with (2 := HL). rewrite all_fail_app, app_length. change (all_fail [B2R (pp_exp p)]) with ((1 - B2R (pp_exp p)) * 1). cbn [length].
    replace (2 * (length l + 1))%nat with (2 + 2 * length l)%nat by lia. rewrite pow_add.
    assert (AF : 0 <= all_fail l * (1 - u) ^ (2 * length l)).
    { apply Rmult_le_pos; [|apply pow_le; assert (u <= 1) by (change 1 with (bp 0); apply bpow_le; lia); lra].
      clear - FL. unfold all_fail. induction FL as [|e l He FL IH]; cbn [fold_right]; [lra|]. apply Rmult_le_pos; [lra|exact IH]. }
    pose proof (trial_fails rem (pp_exp p) FR FE) as TF.
    assert (TF' := TF ltac:(lra) ltac:(lra)). clear TF.
    replace (B2R rem * (all_fail l * ((1 - B2R (pp_exp p)) * 1)) * ((1 - u) ^ 2 * (1 - u) ^ (2 * length l)))
      with ((all_fail l * (1 - u) ^ (2 * length l)) * ((1 - u) * (1 - u) * (B2R rem * (1 - B2R (pp_exp p))))) by ring.
    replace (B2R (d_mul rem (d_sub d_one (pp_exp p))) * all_fail l * (1 - u) ^ (2 * length l))
      with ((all_fail l * (1 - u) ^ (2 * length l)) * B2R (d_mul rem (d_sub d_one (pp_exp p)))) by ring.
    apply Rmult_le_compat_l; assumption.
Qed.
End Trials.

(** a completed svp_reduction without recursive preprocessing tried often enough: if the
    trials are independent and have the probabilities of the table, the probability that all
    of them failed is at most 1 - min_success_probability, up to the rounding errors of two
    operations per trial *)
Theorem svp_success_probability : forall orc table md par kappa bs dual depth tfuel s c t,
  nth_error table (Z.to_nat bs) = Some s -> entry_ok bs s -> st_pre s = [] ->
  is_finite (b_msp par) = true -> 0 <= B2R (b_msp par) < 1 ->
  svp_reduction orc table md depth tfuel par kappa bs dual [] = Ok c t ->
  all_fail (probs t) * (1 - u) ^ (2 * length (probs t)) <= (1 + u) * (1 - B2R (b_msp par)).
Proof.
  intros orc table md par kappa bs dual depth tfuel s c t ES EK NP FM HM E.
  destruct depth as [|depth]; [discriminate|]. cbn [svp_reduction] in E. unfold svp_body in E. cbv zeta in E.
  set (first := if dual then _ else _) in E.
  apply bnd_ok in E. destruct E as (u0 & t0 & E0 & E). injection E0 as _ <-.
  apply bnd_ok in E. destruct E as (u1 & t1 & E1 & E).
  assert (P1 : probs t1 = []). { destruct (_ || _)%bool; [discriminate|]. injection E1 as _ <-. reflexivity. }
  apply bnd_ok in E. destruct E as (u2 & t2 & E2 & E). apply probs_size_red in E2.
  apply bnd_ok in E. destruct E as (u3 & t3 & E3 & E).
  destruct one_val as [F1 V1].
  destruct (trials_prob orc table md s par kappa bs dual ES EK NP FM HM _ _ _ _ _ _ _ F1 ltac:(rewrite V1; lra) E3) as (l & EL & _ & HL).
  apply bnd_ok in E. destruct E as (u4 & t4 & E4 & E). apply probs_size_red in E4. injection E as _ <-.
  rewrite E4, EL, E2, P1, app_nil_r. rewrite V1, Rmult_1_l in HL. exact HL.
Qed.
Local Open Scope Z_scope.

(** ** What fails *)

(** everything succeeds, the enumeration finds a vector or not *)
Definition calm (found : bool) : oracle :=
  mkor (fun _ => true) (fun _ => true) (fun _ => false) (fun _ => (d_one, d_one)) (fun _ => found) (fun _ => true) (fun _ => true) (fun _ => false).
Definition half : dbl := d_of 1 (-1).
Definition is_ub {A} (r : res A) : bool := match r with Ub _ => true | _ => false end.
Definition is_hang {A} (r : res A) : bool := match r with Hang _ => true | _ => false end.
Definition is_fuel {A} (r : res A) : bool := match r with Fuel _ => true | _ => false end.

(** a document with entries up to two rows and block_size 3: the run reads beyond the table *)
Theorem short_table_refuted : exists orc doc rows par, 1 <= rows /\ 2 <= b_bs par /\
  forall depth tfuel sfuel, is_ub (bkz_run orc (param_table (b_bs par) (load_strategies doc)) rows rows (S depth) (S tfuel) 1 MBkz sfuel par []) = true.
Proof.
  exists (calm true), [mkje 2 None None], 3, (mkbp 3 half false). split; [lia|]. split; [cbn; lia|]. intros depth tfuel sfuel. vm_compute. reflexivity.
Qed.

(** an entry for two rows that preprocesses with blocks of two rows: svp_reduction calls
    itself without end, whatever nesting is allowed *)
Theorem preprocessing_endless_refuted : exists table kappa bs par, 0 <= kappa /\ 1 <= bs /\
  (forall s, In s table -> st_prun s = [pp_default]) /\
  forall depth tfuel, is_fuel (svp_reduction (calm true) table (kappa + bs) depth (S tfuel) par kappa bs false []) = true.
Proof.
  set (table := [empty_strategy 0; empty_strategy 1; mkst (Some 2%nat) [pp_default] [2%nat]]).
  exists table, 0, 2, (mkbp 2 half false). split; [lia|]. split; [lia|]. split.
  { intros s [<-|[<-|[<-|[]]]]; reflexivity. }
  assert (G : forall depth tfuel par t, d_lt (d_sub d_one (b_msp par)) d_one = true -> b_bounded par = false ->
    is_fuel (svp_reduction (calm true) table 2 depth (S tfuel) par 0 2 false t) = true).
  { induction depth as [|depth IH]; intros tfuel par t HL HB; [reflexivity|]. cbn [svp_reduction]. unfold svp_body. cbv zeta.
    change (0 <? 0) with false. change (2 <? 0 + 2) with false. cbn [orb].
    unfold bnd at 1, emit. unfold bnd at 1, ret at 1. unfold bnd at 1, size_red_or_throw at 1, size_red at 1. cbv zeta. change (0 + 1) with 1.
    change ((0 <? 1) && ((0 <? 0) || (2 <? 1))) with false. cbn match. change (o_size (calm true) _) with true. cbn match.
    unfold bnd at 1. cbn [trials]. rewrite HL. cbn [negb]. unfold bnd at 1, ret at 1. unfold bnd at 1. unfold svp_preprocessing. cbv zeta. rewrite HB.
    unfold bnd at 1, lll_or_throw. cbv zeta. change ((0 <? 0) || (2 <? 0 + 2)) with false. cbn match. change (o_lll (calm true) _) with true. cbn match.
    unfold bnd at 1. progress change (strategy_at table 2) with (fun t => Ok (mkst (Some 2%nat) [pp_default] [2%nat]) t : res strat). cbv beta. cbn match. cbn [st_pre pre_tours].
    unfold bnd at 1. unfold tour. unfold bnd at 1. unfold trunc_tour. cbn [b_bs]. change (Z.to_nat (0 + 2 - Z.of_nat 2 - 0)) with 0%nat. cbn [for_up]. unfold ret at 1.
    unfold bnd at 1. unfold hkz. unfold bnd at 1. change (Z.max (0 + 2 - Z.of_nat 2) 0) with 0. change (Z.to_nat (0 + 2 - 1 - 0)) with 1%nat. cbn [for_up].
    unfold bnd at 1. change (0 + 2 - 0) with 2.
    match goal with |- context [svp_reduction (calm true) table 2 depth (S tfuel) ?pr 0 2 false ?tr] =>
      specialize (IH tfuel pr tr ltac:(vm_compute; reflexivity) eq_refl); destruct (svp_reduction (calm true) table 2 depth (S tfuel) pr 0 2 false tr); try discriminate IH end.
    reflexivity. }
  intros depth tfuel. apply G; [vm_compute; reflexivity|reflexivity].
Qed.

(** preprocessing with blocks larger than the block: rows before the block are reduced (the
    HKZ part of a tour starts at max_row - block_size, not at min_row) *)
Definition starts_before (k : Z) (c : call) : bool := match c with CBlock k' _ _ => k' <? k | _ => false end.
Theorem preprocessing_outside_refuted : exists table kappa bs par depth t,
  svp_reduction (calm true) table (kappa + bs) depth 9 par kappa bs false [] = Fuel t /\ existsb (starts_before kappa) t = true.
Proof.
  set (table := [empty_strategy 0; empty_strategy 1; mkst (Some 2%nat) [pp_default] [3%nat]; empty_strategy 3]).
  destruct (svp_reduction (calm true) table (2 + 2) 2 9 (mkbp 2 half false) 2 2 false []) as [a t|t|t|t|t] eqn:E;
    try (apply (f_equal is_fuel) in E; vm_compute in E; discriminate).
  exists table, 2, 2, (mkbp 2 half false), 2%nat, t. split; [exact E|].
  apply (f_equal (fun r => match r with Fuel t => existsb (starts_before 2) t | _ => false end)) in E. rewrite <- E. vm_compute. reflexivity.
Qed.

(** a basis of zero vectors (num_rows = 0): the final size reduction of a tour is called for
    row -1 *)
Theorem zero_basis_refuted : exists orc md par, 1 <= md /\ 2 <= b_bs par /\
  forall depth tfuel sfuel loops m, m <> MSlide -> is_ub (bkz_run orc (param_table (b_bs par) []) 0 md (S depth) tfuel (S loops) m sfuel par []) = true.
Proof.
  exists (calm true), 2, (mkbp 2 half false). split; [lia|]. split; [cbn; lia|]. intros depth tfuel sfuel loops m H.
  destruct m; [vm_compute; reflexivity|vm_compute; reflexivity|congruence].
Qed.

(** SD-BKZ with block_size > num_rows: the final HKZ reduction starts at a negative row *)
Theorem sd_large_block_refuted : exists orc rows par, 1 <= rows /\ 2 <= b_bs par /\
  forall depth tfuel sfuel loops, is_ub (bkz_run orc (param_table (b_bs par) []) rows rows (S depth) tfuel (S loops) MSd sfuel par []) = true.
Proof.
  exists (calm true), 2, (mkbp 3 half false). split; [lia|]. split; [cbn; lia|]. intros depth tfuel sfuel loops. vm_compute. reflexivity.
Qed.

(** pruning parameters with fewer coefficients than the block has rows are read beyond *)
Theorem short_pruning_refuted : exists table rows par, 1 <= rows /\ 2 <= b_bs par /\
  (forall b, 1 <= b <= rows -> exists s, nth_error table (Z.to_nat b) = Some s /\ st_prun s <> [] /\ st_pre s = []) /\
  forall depth tfuel sfuel, is_ub (bkz_run (calm true) table rows rows (S depth) (S tfuel) 1 MBkz sfuel par []) = true.
Proof.
  exists [empty_strategy 0; empty_strategy 1; mkst (Some 2%nat) [mkpp d_one [d_one] d_one] []], 2, (mkbp 2 half false).
  split; [lia|]. split; [cbn; lia|]. split.
  { intros b B. assert (C : b = 1 \/ b = 2) by lia. destruct C as [->| ->]; eexists; (split; [reflexivity|]); split; [discriminate|reflexivity|discriminate|reflexivity]. }
  intros depth tfuel sfuel. vm_compute. reflexivity.
Qed.

(** blocks of three rows whose table entry promises probability 1/4, and an enumeration that
    finds nothing: the second trial rerandomises two rows, which does not end *)
Theorem three_rows_refuted : exists table par, 2 <= b_bs par /\ table_ok 3 table /\
  is_finite (b_msp par) = true /\ (0 <= B2R (b_msp par) < 1)%R /\
  forall depth tfuel sfuel, is_hang (bkz_run (calm false) table 3 3 (S depth) (S (S tfuel)) 1 MBkz sfuel par []) = true.
Proof.
  exists [empty_strategy 0; empty_strategy 1; empty_strategy 2; mkst (Some 3%nat) [mkpp d_one [] (d_of 1 (-2))] []], (mkbp 3 half false).
  split; [cbn; lia|]. split.
  { destruct (default_table_ok 2 ltac:(lia)) as [D _]. intros b B. assert (C : b <= 2 \/ b = 3) by lia. destruct C as [C| ->].
    - destruct (D b ltac:(lia)) as (s & E & K). exists s. split; [|exact K]. rewrite <- E.
      assert (C' : b = 1 \/ b = 2) by lia. destruct C' as [->| ->]; reflexivity.
    - eexists. split; [reflexivity|]. split; [discriminate|]. split; [intros p []|]. intros p [<-|[]]. split; [left; reflexivity|].
      cbn [pp_exp]. destruct (d_of_bp (-2)) as [F V]; [lia|]. rewrite V. split; [exact F|]. split; [apply bpow_le; lia|].
      change 1%R with (bp 0). apply bpow_le. lia. }
  split; [apply half_val|]. split; [cbn [b_msp]; unfold half; rewrite (proj2 half_val); lra|].
  intros depth tfuel sfuel. vm_compute. reflexivity.
Qed.

(** an expectation of 2^-54: 1 - 2^-54 is rounded to 1, and the trials never end *)
Theorem small_expectation_refuted : exists table par kappa bs, 0 <= kappa /\ 1 <= bs /\
  (forall s p, nth_error table (Z.to_nat bs) = Some s -> In p (st_prun s) -> is_finite (pp_exp p) = true /\ (0 < B2R (pp_exp p) <= 1)%R) /\
  forall depth tfuel, is_fuel (svp_reduction (calm true) table (kappa + bs) depth tfuel par kappa bs false []) = true.
Proof.
  set (p54 := mkpp d_one [] (d_of 1 (-54))).
  set (table := [empty_strategy 0; empty_strategy 1; mkst (Some 2%nat) [p54] []]).
  exists table, (mkbp 2 half false), 0, 2. split; [lia|]. split; [lia|]. split.
  { intros s p E. injection E as <-. intros [<-|[]]. cbn [p54 pp_exp]. destruct (d_of_bp (-54)) as [F V]; [lia|]. rewrite V. split; [exact F|].
    split; [apply bp_pos|]. change 1%R with (bp 0). apply bpow_le. lia. }
  assert (SAME : d_mul (d_one : dbl) (d_sub d_one (d_of 1 (-54))) = d_one) by (apply B2SF_inj; vm_compute; reflexivity).
  assert (LT : d_lt (d_sub d_one half) d_one = true) by (vm_compute; reflexivity).
  assert (GP : forall t, pruning_at (calm true) table 2 t = Ok p54 t).
  { intros t. unfold pruning_at, bnd, ask. change (strategy_at table 2 t) with (Ok (mkst (Some 2%nat) [p54] []) t). cbn match.
    unfold get_pruning. cbn [st_prun fold_left]. unfold closer. destruct (d_lt _ _); reflexivity. }
  assert (G : forall svp fuel t, exists t', trials (calm true) table 2 svp fuel (mkbp 2 half false) 0 2 false d_one false t = Fuel t').
  { intros svp. induction fuel as [|fuel IH]; intros t; cbn [trials]; cbn [b_msp]; rewrite LT; cbn [negb]; [eexists; reflexivity|].
    unfold bnd at 1, ret at 1. unfold bnd at 1, svp_preprocessing. cbv zeta. cbn [b_bounded].
    unfold bnd at 1, lll_or_throw. cbv zeta. change ((0 <? 0) || (2 <? 0 + 2)) with false. cbn match. change (o_lll (calm true) _) with true. cbn match.
    unfold bnd at 1. progress change (strategy_at table 2) with (fun t => Ok (mkst (Some 2%nat) [p54] []) t : res strat). cbv beta. cbn match. cbn [st_pre pre_tours]. unfold ret at 1.
    unfold bnd at 1. rewrite GP. unfold bnd at 1, enum_block. cbv zeta. cbn [p54 pp_coef]. unfold bnd at 1, ask. change (o_found (calm true) _) with true.
    unfold bnd at 1, emit. cbn [negb]. change (pp_exp p54) with (d_of 1 (-54)).
    rewrite SAME. apply IH. }
  intros [|depth] tfuel; [reflexivity|]. cbn [svp_reduction]. unfold svp_body. cbv zeta.
  change (0 <? 0) with false. change (0 + 2 <? 0 + 2) with false. cbn [orb].
  unfold bnd at 1, emit. unfold bnd at 1, ret at 1. unfold bnd at 1, size_red_or_throw at 1, size_red at 1. cbv zeta. change (0 + 1) with 1. change (0 + 2) with 2.
  change ((0 <? 1) && ((0 <? 0) || (2 <? 1))) with false. cbn match. change (o_size (calm true) _) with true. cbn match.
  unfold bnd at 1. match goal with |- context [trials ?a ?b ?c ?d ?e ?f ?g ?h ?i ?j ?k ?t] => destruct (G d e t) as [t' ->] end. reflexivity.
Qed.

(** ** Cases *)

(** the default table with block_size 3 and min_success_probability 1/2: the hypotheses of
    bkz_run_inside, bkz_tour_ends and hkz_run_ends *)
Example ex_default : table_ok 3 (param_table 3 []) /\ msp_ok (param_table 3 []) half /\ msp_ok (param_table 3 []) (d_of 1 (-1)).
Proof.
  destruct (default_table_ok 3 ltac:(lia)) as [T M]. split; [exact T|].
  assert (H : msp_ok (param_table 3 []) half) by (apply M; [apply half_val|unfold half; rewrite (proj2 half_val); lra]). auto.
Qed.
(** a document with preprocessing and pruning: the entry for four rows preprocesses with
    blocks of three rows *)
Definition ex_doc2 : list jentry :=
  [mkje 4 (Some [3%nat]) (Some [(d_one, [d_one; d_one; half; half], half)]); mkje 3 None None].
Example ex_doc2_ok : doc_ok 4 ex_doc2.
Proof.
  split; [exists (mkje 4 (Some [3%nat]) (Some [(d_one, [d_one; d_one; half; half], half)])); split; [left; reflexivity|cbn; lia]|].
  intros e [<-|[<-|[]]]; (split; [|]); cbn [je_pre je_prun je_bs]; try discriminate.
  - intros l p E. injection E as <-. intros [<-|[]]. lia.
  - intros l x E. injection E as <-. intros [<-|[]]. cbn [fst snd]. split; [right; cbn; lia|]. destruct half_val as [F V]. split; [exact F|].
    unfold half. rewrite V. change (/ 2)%R with (bp (-1)). split; [apply bpow_le; lia|]. change 1%R with (bp 0). apply bpow_le. lia.
Qed.
Example ex_doc2_table : table_ok 4 (load_strategies ex_doc2) /\ msp_ok (load_strategies ex_doc2) half.
Proof.
  split; [apply loaded_table_ok, ex_doc2_ok|]. split; [apply half_val|]. split; [unfold half; rewrite (proj2 half_val); lra|].
  intros s p E. injection E as <-. intros [<-|[]]. cbn [pp_default pp_exp]. unfold half. rewrite (proj2 half_val), (proj2 one_val). lra.
Qed.
(** the recursive run with this document on five rows: blocks of four rows, each preprocessed
    by a tour with blocks of three rows over its four rows *)
Example ex_run : exists c t, one_tour (calm true) (load_strategies ex_doc2) 5 5 4 9 MBkz 0 (mkbp 4 half false) [] = Ok c t /\
  firstn 8 (blocks t) = [(0, 4, false); (0, 3, false); (1, 3, false); (2, 2, false); (1, 4, false); (1, 3, false); (2, 3, false); (3, 2, false)].
Proof.
  destruct (one_tour (calm true) (load_strategies ex_doc2) 5 5 4 9 MBkz 0 (mkbp 4 half false) []) as [c t| | | |] eqn:E;
    try (apply (f_equal (fun r => match r with Ok _ _ => true | _ => false end)) in E; vm_compute in E; discriminate).
  exists c, t. split; [reflexivity|].
  apply (f_equal (fun r => match r with Ok _ t => firstn 8 (blocks t) | _ => [] end)) in E. rewrite <- E. vm_compute. reflexivity.
Qed.
(** the hypotheses of tour_blocks *)
Example ex_plain : plain (param_table 3 []) /\
  exists c t, one_tour (calm true) (param_table 3 []) 5 5 1 9 MBkz 0 (mkbp 3 half false) [] = Ok c t /\
  blocks t = [(0, 3, false); (1, 3, false); (2, 3, false); (3, 2, false)].
Proof.
  split; [intros s [<-|[<-|[<-|[<-|[]]]]]; reflexivity|].
  destruct (one_tour (calm true) (param_table 3 []) 5 5 1 9 MBkz 0 (mkbp 3 half false) []) as [c t| | | |] eqn:E;
    try (apply (f_equal (fun r => match r with Ok _ _ => true | _ => false end)) in E; vm_compute in E; discriminate).
  exists c, t. split; [reflexivity|].
  apply (f_equal (fun r => match r with Ok _ t => blocks t | _ => [] end)) in E. rewrite <- E. vm_compute. reflexivity.
Qed.
(** success probability 1/4, wanted 1/2: three trials are made, (3/4)^3 < 1/2 *)
Example ex_trials : exists c t, svp_reduction (calm true) [empty_strategy 0; empty_strategy 1; mkst (Some 2%nat) [mkpp d_one [] (d_of 1 (-2))] []] 2 1 9 (mkbp 2 half false) 0 2 false [] = Ok c t /\
  length (probs t) = 3%nat.
Proof.
  destruct (svp_reduction (calm true) [empty_strategy 0; empty_strategy 1; mkst (Some 2%nat) [mkpp d_one [] (d_of 1 (-2))] []] 2 1 9 (mkbp 2 half false) 0 2 false []) as [c t| | | |] eqn:E;
    try (apply (f_equal (fun r => match r with Ok _ _ => true | _ => false end)) in E; vm_compute in E; discriminate).
  exists c, t. split; [reflexivity|].
  apply (f_equal (fun r => match r with Ok _ t => length (filter (fun c => match c with CEnum _ _ _ _ => true | _ => false end) t) | _ => 0%nat end)) in E.
  assert (L : length (probs t) = length (filter (fun c => match c with CEnum _ _ _ _ => true | _ => false end) t)).
  { clear. induction t as [|x t IH]; [reflexivity|]. cbn [probs flat_map filter]. fold (probs t). rewrite app_length, IH. destruct x; reflexivity. }
  rewrite L, <- E. vm_compute. reflexivity.
Qed.

Print Assumptions svp_reduction_inside.
Print Assumptions bkz_run_inside.
Print Assumptions bkz_tour_ends.
Print Assumptions hkz_run_ends.
Print Assumptions default_table_ok.
Print Assumptions loaded_table_ok.
Print Assumptions tour_blocks.
Print Assumptions sd_tour_blocks.
Print Assumptions svp_success_probability.
Print Assumptions short_table_refuted.
Print Assumptions preprocessing_endless_refuted.
Print Assumptions preprocessing_outside_refuted.
Print Assumptions zero_basis_refuted.
Print Assumptions sd_large_block_refuted.
Print Assumptions short_pruning_refuted.
Print Assumptions three_rows_refuted.
Print Assumptions small_expectation_refuted.
