(** C65: the strategy table of BKZ and the choice of the pruning parameters.

    The specification speaks of real numbers: [B2R] (Flocq) is the value of a double, [RN]
    rounding to nearest (ties to even) in binary64. *)
From Coq Require Import List ZArith Lia Bool Arith Reals Lra.
From Flocq Require Import Core BinarySingleNaN.
From Verif Require Import Util DblModel DblProofs StratModel.
From Verif Require MatrixModel PrunerModel PropPruner.
Import ListNotations.
Local Open Scope R_scope.

(** rounding of a real number to binary64 *)
Definition RN (x : R) : R := round radix2 (FLT_exp (-1074) 53) ZnearestE x.
(** the distance the choice is about: | gh_factor - q |, rounded *)
Definition dist (q : dbl) (p : pparams) : R := RN (Rabs (B2R (pp_gh p) - B2R q)).
(** finite and far from overflow *)
Definition tame (x : dbl) : Prop := is_finite x = true /\ Rabs (B2R x) <= bp 1022.

Lemma RN_abs x : RN (Rabs x) = Rabs (RN x).
Proof. unfold RN. apply round_NE_abs. typeclasses eauto. Qed.
Lemma sub_tame x y : tame x -> tame y ->
  is_finite (d_sub x y) = true /\ B2R (d_sub x y) = RN (B2R x - B2R y).
Proof.
  intros [FX AX] [FY AY]. unfold d_sub.
  pose proof (Bminus_correct 53 1024 _ _ mode_NE x y FX FY) as H.
  rewrite fexp_eq in H. change (round radix2 fe (round_mode mode_NE)) with RN in H.
  assert (A : Rabs (RN (B2R x - B2R y)) <= bp 1023).
  { rewrite <- RN_abs. unfold RN. apply round_le_generic; [typeclasses eauto|typeclasses eauto|apply (fe_bp 1023); lia|].
    eapply Rle_trans; [apply Rabs_triang|]. rewrite Rabs_Ropp. replace (bp 1023) with (bp 1022 + bp 1022); [lra|].
    change 1023%Z with (1022 + 1)%Z. rewrite bp_plus. change (bp 1) with 2. lra. }
  rewrite Rlt_bool_true in H.
  - destruct H as (V & F & _). split; [exact F|exact V].
  - eapply Rle_lt_trans; [exact A|]. apply bpow_lt. lia.
Qed.
Lemma dist_dbl q p : tame q -> tame (pp_gh p) ->
  is_finite (Babs (d_sub (pp_gh p) q)) = true /\ B2R (Babs (d_sub (pp_gh p) q)) = dist q p.
Proof.
  intros TQ TP. destruct (sub_tame (pp_gh p) q TP TQ) as [F V]. rewrite is_finite_Babs, B2R_Babs, V. split; [exact F|].
  unfold dist. symmetry. apply RN_abs.
Qed.
Lemma lt_dbl x y : is_finite x = true -> is_finite y = true -> d_lt x y = true <-> B2R x < B2R y.
Proof.
  intros FX FY. unfold d_lt. rewrite (Bltb_correct _ _ x y FX FY). destruct (Rlt_bool_spec (B2R x) (B2R y)); split; auto; try discriminate; lra.
Qed.
Lemma nlt_dbl x y : is_finite x = true -> is_finite y = true -> d_lt x y = false <-> B2R y <= B2R x.
Proof.
  intros FX FY. unfold d_lt. rewrite (Bltb_correct _ _ x y FX FY). destruct (Rlt_bool_spec (B2R x) (B2R y)); split; auto; try discriminate; lra.
Qed.

(** ** Choice of the pruning parameters *)

(** the state of the loop after the parameters [seen]: [b] is the first one of least
    distance among those at distance less than 2^80, or still the initial value *)
Lemma closer_run q : tame q -> forall rest seen (c : dbl * pparams) p0,
  Forall (fun p => tame (pp_gh p)) (seen ++ rest) -> is_finite (fst c) = true ->
  (B2R (fst c) = bp 80 /\ snd c = p0 /\ (forall p, In p seen -> bp 80 <= dist q p) \/
   exists l1 l2, seen = l1 ++ snd c :: l2 /\ B2R (fst c) = dist q (snd c) /\ dist q (snd c) < bp 80 /\
     (forall p, In p l1 -> dist q (snd c) < dist q p) /\ (forall p, In p seen -> dist q (snd c) <= dist q p)) ->
  let r := fold_left (closer q) rest c in
  (snd r = p0 /\ (forall p, In p (seen ++ rest) -> bp 80 <= dist q p)) \/
  exists l1 l2, seen ++ rest = l1 ++ snd r :: l2 /\ dist q (snd r) < bp 80 /\
     (forall p, In p l1 -> dist q (snd r) < dist q p) /\ (forall p, In p (seen ++ rest) -> dist q (snd r) <= dist q p).
Proof.
  intros TQ. induction rest as [|x rest IH]; intros seen c p0 FA FC H; cbn [fold_left].
  - rewrite app_nil_r. destruct H as [(_ & E & A)|(l1 & l2 & E & _ & L & A & B)]; [left; auto|right; exists l1, l2; auto].
  - assert (TX : tame (pp_gh x)) by (rewrite Forall_app in FA; destruct FA as [_ FA]; inversion FA; auto).
    destruct (dist_dbl q x TQ TX) as [FD VD].
    replace (seen ++ x :: rest) with ((seen ++ [x]) ++ rest) in * by (rewrite <- app_assoc; reflexivity).
    assert (IX : forall p, In p (seen ++ [x]) -> In p seen \/ p = x) by (intros p I; apply in_app_or in I; destruct I as [I|[I|[]]]; auto).
    destruct (d_lt (Babs (d_sub (pp_gh x) q)) (fst c)) eqn:E.
    + assert (EC : closer q c x = (Babs (d_sub (pp_gh x) q), x)) by (unfold closer; cbv zeta; rewrite E; reflexivity).
      rewrite EC. pose proof (proj1 (lt_dbl _ _ FD FC) E) as LT. rewrite VD in LT.
      apply (IH _ _ p0); [exact FA|exact FD|]. right. exists seen, []. cbn [fst snd]. split; [reflexivity|]. split; [exact VD|].
      destruct H as [(VC & _ & A)|(l1 & l2 & ES & VC & L & A & B)].
      * rewrite VC in LT. split; [exact LT|]. split; [intros p I; specialize (A p I); lra|].
        intros p I. destruct (IX p I) as [I'| ->]; [specialize (A p I'); lra|lra].
      * rewrite VC in LT. split; [lra|]. split; [intros p I; specialize (B p I); lra|].
        intros p I. destruct (IX p I) as [I'| ->]; [specialize (B p I'); lra|lra].
    + assert (EC : closer q c x = c) by (unfold closer; cbv zeta; rewrite E; reflexivity).
      rewrite EC. pose proof (proj1 (nlt_dbl _ _ FD FC) E) as GE. rewrite VD in GE.
      apply (IH _ _ p0); [exact FA|exact FC|].
      destruct H as [(VC & EP & A)|(l1 & l2 & ES & VC & L & A & B)].
      * left. split; [exact VC|]. split; [exact EP|]. intros p I. destruct (IX p I) as [I'| ->]; [auto|lra].
      * right. exists l1, (l2 ++ [x]). split; [rewrite ES, <- app_assoc; reflexivity|]. split; [exact VC|]. split; [exact L|]. split; [exact A|].
        intros p I. destruct (IX p I) as [I'| ->]; [auto|lra].
Qed.

Lemma bp80 : is_finite (d_of 1 80) = true /\ B2R (d_of 1 80) = bp 80.
Proof. apply d_of_bp. lia. Qed.

(** Strategy::get_pruning returns the first of the parameters whose gh_factor has the least
    (rounded) distance to radius / gh, provided some distance is below 2^80. *)
Theorem get_pruning_nearest : forall s radius gh,
  tame (d_div radius gh) -> Forall (fun p => tame (pp_gh p)) (st_prun s) ->
  (exists p, In p (st_prun s) /\ dist (d_div radius gh) p < bp 80) ->
  exists l1 p l2, get_pruning s radius gh = Some p /\ st_prun s = l1 ++ p :: l2 /\
    (forall p', In p' l1 -> dist (d_div radius gh) p < dist (d_div radius gh) p') /\
    (forall p', In p' (st_prun s) -> dist (d_div radius gh) p <= dist (d_div radius gh) p').
Proof.
  intros s radius gh TQ FA (p1 & I1 & D1). unfold get_pruning. destruct (st_prun s) as [|p0 rest] eqn:ES; [destruct I1|].
  set (l := p0 :: rest) in *. set (q := d_div radius gh) in *.
  destruct (closer_run q TQ l [] (d_of 1 80, p0) p0 FA (proj1 bp80)) as [(E & A)|(l1 & l2 & E & L & A & B)].
  - left. cbn [fst snd]. split; [apply bp80|]. split; [reflexivity|]. intros p [].
  - specialize (A p1 I1). lra.
  - exists l1, (snd (fold_left (closer q) l (d_of 1 80, p0))), l2. auto.
Qed.

(** in terms of real distances: no other parameter is nearer, up to one rounding *)
Corollary get_pruning_nearest_real : forall s radius gh p p',
  tame (d_div radius gh) -> Forall (fun p => tame (pp_gh p)) (st_prun s) ->
  (exists p, In p (st_prun s) /\ dist (d_div radius gh) p < bp 80) ->
  get_pruning s radius gh = Some p -> In p' (st_prun s) ->
  let q := B2R (d_div radius gh) in
  Rabs (B2R (pp_gh p') - q) < Rabs (B2R (pp_gh p) - q) ->
  RN (Rabs (B2R (pp_gh p') - q)) = RN (Rabs (B2R (pp_gh p) - q)).
Proof.
  intros s radius gh p p' TQ FA EX E I q L.
  destruct (get_pruning_nearest s radius gh TQ FA EX) as (l1 & p2 & l2 & E2 & _ & _ & B). rewrite E in E2. injection E2 as <-.
  apply Rle_antisym; [|exact (B p' I)]. apply round_le; [typeclasses eauto|typeclasses eauto|lra].
Qed.

(** the call is defined exactly if there are parameters *)
Theorem get_pruning_defined : forall s radius gh,
  (exists p, get_pruning s radius gh = Some p /\ In p (st_prun s)) <-> st_prun s <> [].
Proof.
  intros s radius gh. unfold get_pruning. destruct (st_prun s) as [|p0 rest]; split.
  - intros (p & E & _). discriminate.
  - intros H. congruence.
  - intros _. discriminate.
  - intros _. eexists. split; [reflexivity|]. set (l := p0 :: rest).
    assert (G : forall l' c, (forall x, In x l' -> In x l) -> In (snd c) l -> In (snd (fold_left (closer (d_div radius gh)) l' c)) l).
    { induction l' as [|x l' IH]; intros c S I; [exact I|]. cbn [fold_left]. apply IH; [intros y Y; apply S; right; exact Y|].
      unfold closer. destruct (d_lt _ _); [apply S; left; reflexivity|exact I]. }
    apply G; [auto|left; reflexivity].
Qed.

(** beyond 2^80 the first parameters are returned, however far away: for the factors 1 and
    2^81 and the quotient 2^83 it is the farther one *)
Definition far_strategy : strat := mkst (Some 2%nat) [mkpp d_one [] d_one; mkpp (d_of 1 81) [] d_one] [].
Theorem get_pruning_far_refuted : exists s radius gh p p',
  Forall (fun p => tame (pp_gh p)) (st_prun s) /\ tame (d_div radius gh) /\ In p' (st_prun s) /\
  get_pruning s radius gh = Some p /\
  dist (d_div radius gh) p' < dist (d_div radius gh) p.
Proof.
  set (q := d_div (d_of 1 83) d_one).
  assert (E : q = d_of 1 83) by (apply B2SF_inj; vm_compute; reflexivity).
  destruct (d_of_bp 83) as [F83 V83]; [lia|]. destruct (d_of_bp 81) as [F81 V81]; [lia|]. destruct (d_of_bp 0) as [F0 V0]; [lia|].
  assert (T : forall e, (0 <= e <= 1022)%Z -> tame (d_of 1 e)).
  { intros e H. destruct (d_of_bp e) as [F V]; [lia|]. split; [exact F|]. rewrite V, Rabs_pos_eq by apply bpow_ge_0. apply bpow_le. lia. }
  exists far_strategy, (d_of 1 83), d_one, (mkpp d_one [] d_one), (mkpp (d_of 1 81) [] d_one).
  split; [apply Forall_cons; [apply T; lia|apply Forall_cons; [apply T; lia|apply Forall_nil]]|]. split; [fold q; rewrite E; apply T; lia|]. split; [right; left; reflexivity|].
  split.
  - unfold get_pruning. cbn [far_strategy st_prun fold_left].
    assert (C1 : closer q (d_of 1 80, mkpp d_one [] d_one) (mkpp d_one [] d_one) = (d_of 1 80, mkpp d_one [] d_one)).
    { unfold closer. replace (d_lt _ _) with false by (vm_compute; reflexivity). reflexivity. }
    assert (C2 : closer q (d_of 1 80, mkpp d_one [] d_one) (mkpp (d_of 1 81) [] d_one) = (d_of 1 80, mkpp d_one [] d_one)).
    { unfold closer. replace (d_lt _ _) with false by (vm_compute; reflexivity). reflexivity. }
    fold q. rewrite C1, C2. reflexivity.
  - unfold dist. fold q. rewrite E. cbn [pp_gh]. unfold d_one. rewrite V83, V81, V0.
    assert (P81 : bp 81 = 2 * bp 80) by (change 81%Z with (1 + 80)%Z; rewrite bp_plus; reflexivity).
    assert (P83 : bp 83 = 8 * bp 80) by (change 83%Z with (3 + 80)%Z; rewrite bp_plus; reflexivity).
    assert (G80 : bp 80 >= 1) by (apply Rle_ge; change 1 with (bp 0); apply bpow_le; lia). change (bp 0) with 1.
    assert (F1 : generic_format radix2 fe (bp 83 - bp 81)).
    { replace (bp 83 - bp 81) with (IZR 6 * bp 80) by (rewrite P81, P83; ring). apply fe_mant; lia. }
    assert (F2 : generic_format radix2 fe (7 * bp 80)) by (apply (fe_mant 7); lia).
    rewrite (Rabs_left (bp 81 - bp 83)), (Rabs_left (1 - bp 83)) by lra.
    apply Rlt_le_trans with (7 * bp 80).
    + replace (- (bp 81 - bp 83)) with (bp 83 - bp 81) by ring. unfold RN. rewrite round_generic; [lra|typeclasses eauto|exact F1].
    + unfold RN. apply round_ge_generic; [typeclasses eauto|typeclasses eauto|exact F2|lra].
Qed.

(** ** The table *)

(** the last entry of the document with block size b *)
Definition last_entry (doc : list jentry) (b : nat) : option jentry :=
  find (fun e => (je_bs e =? b)%nat) (rev doc).
(** what the table should hold at index b *)
Definition wanted (doc : list jentry) (b : nat) : strat :=
  match last_entry doc b with
  | None => mkst None [pp_default] []
  | Some e =>
      mkst (Some b)
        (match je_prun e with
         | Some (x :: l) => map (fun x => mkpp (fst (fst x)) (snd (fst x)) (snd x)) (x :: l)
         | _ => [pp_default]
         end)
        (match je_pre e with None => [] | Some l => l end)
  end.

Lemma store_length t e : length (store_entry t e) = Nat.max (length t) (S (je_bs e)).
Proof. unfold store_entry. rewrite upd_length, app_length, repeat_length. lia. Qed.
Lemma store_nth t e b : (b < length (store_entry t e))%nat -> nth_error (store_entry t e) b =
  Some (if (b =? je_bs e)%nat then entry_strategy e else if (b <? length t)%nat then nth b t st_new else st_new).
Proof.
  intros H. rewrite store_length in H. unfold store_entry. set (t1 := t ++ _).
  assert (L : length t1 = Nat.max (length t) (S (je_bs e))) by (unfold t1; rewrite app_length, repeat_length; lia).
  rewrite nth_error_upd. destruct (Nat.eqb_spec b (je_bs e)) as [-> |N].
  - rewrite L. destruct (Nat.ltb_spec (je_bs e) (Nat.max (length t) (S (je_bs e)))); [reflexivity|lia].
  - cbn [andb]. unfold t1. destruct (Nat.ltb_spec b (length t)) as [B|B].
    + rewrite nth_error_app1 by exact B. apply nth_error_nth'. exact B.
    + rewrite nth_error_app2 by exact B. apply nth_error_repeat. lia.
Qed.

(** load_strategies_json: the table is long enough for every block size of the document and
    not longer; at each index it holds the last entry for that block size, and no pruning
    where there is no entry or no pruning parameters *)
Theorem load_strategies_table : forall doc,
  length (load_strategies doc) = fold_right (fun e n => Nat.max (S (je_bs e)) n) 0%nat doc /\
  (forall b, (b < length (load_strategies doc))%nat -> nth_error (load_strategies doc) b = Some (wanted doc b)).
Proof.
  intros doc. unfold load_strategies. rewrite map_length.
  assert (G : forall d, length (fold_left store_entry d []) = fold_right (fun e n => Nat.max (S (je_bs e)) n) 0%nat d /\
    (forall b, (b < length (fold_left store_entry d []))%nat -> option_map sound (nth_error (fold_left store_entry d []) b) = Some (wanted d b))).
  { induction d as [|e d IH] using rev_ind; [split; [reflexivity|intros b H; cbn in H; lia]|].
    destruct IH as [IL IN]. rewrite fold_left_app. cbn [fold_left]. split.
    - rewrite store_length, IL, fold_right_app. cbn [fold_right]. clear. induction d as [|x d IH]; cbn [fold_right]; lia.
    - intros b H. rewrite (store_nth _ _ _ H). cbn [option_map]. f_equal. unfold wanted, last_entry.
      rewrite rev_app_distr. cbn [rev app find]. rewrite (Nat.eqb_sym (je_bs e) b). destruct (Nat.eqb_spec b (je_bs e)) as [-> |N].
      + unfold sound, entry_strategy. cbn [st_prun st_bs st_pre]. destruct (je_prun e) as [[|x l]|]; reflexivity.
      + destruct (Nat.ltb_spec b (length (fold_left store_entry d []))) as [B|B].
        * specialize (IN b B). rewrite (nth_error_nth' _ st_new B) in IN. cbn [option_map] in IN. injection IN as IN. exact IN.
        * assert (LN : find (fun e0 => (je_bs e0 =? b)%nat) (rev d) = None).
          { destruct (find _ (rev d)) as [x|] eqn:FE; [|reflexivity]. apply find_some in FE. destruct FE as [FI FB].
            apply Nat.eqb_eq in FB. apply in_rev in FI. rewrite IL in B. exfalso. clear - FI FB B.
            induction d as [|y d IH]; [destruct FI|]. cbn [fold_right] in B. destruct FI as [-> |FI]; [lia|apply IH; [lia|exact FI]]. }
          rewrite LN. reflexivity. }
  destruct (G doc) as [GL GN]. split; [exact GL|]. intros b H. rewrite nth_error_map. apply GN. exact H.
Qed.

(** every block size below the length of a loaded table gets pruning parameters *)
Theorem load_strategies_pruning : forall doc b s radius gh,
  nth_error (load_strategies doc) b = Some s -> exists p, get_pruning s radius gh = Some p /\ In p (st_prun s).
Proof.
  intros doc b s radius gh E. apply get_pruning_defined.
  assert (B : (b < length (load_strategies doc))%nat) by (apply nth_error_Some; congruence).
  destruct (load_strategies_table doc) as [_ N]. rewrite (N b B) in E. injection E as <-. unfold wanted.
  destruct (last_entry doc b) as [e|]; [|discriminate]. cbn [st_prun]. destruct (je_prun e) as [[|x l]|]; discriminate.
Qed.

(** the constructor of BKZParam: an empty table is filled for all sizes 0..block_size with
    strategies without pruning and without preprocessing, another table is kept *)
Theorem param_table_spec : forall block_size table, (0 <= block_size)%Z ->
  (table = [] -> Z.of_nat (length (param_table block_size table)) = (block_size + 1)%Z /\
     forall b, (Z.of_nat b <= block_size)%Z ->
       nth_error (param_table block_size table) b = Some (mkst (Some b) [pp_default] [])) /\
  (table <> [] -> param_table block_size table = table).
Proof.
  intros bs table H. split.
  - intros ->. cbn [param_table]. rewrite map_length, seq_length. split; [lia|]. intros b B.
    rewrite nth_error_map, nth_error_nth' with (d := 0%nat) by (rewrite seq_length; lia). rewrite seq_nth by lia. reflexivity.
  - destruct table; [congruence|reflexivity].
Qed.

(** ** LinearPruningParams *)

Lemma ofor_write {A} (f : nat -> A) off n : forall v : list A, (off + n <= length v)%nat ->
  exists v', MatrixModel.ofor (seq 0 n) (fun k v => PrunerModel.vset v (off + k) (f k)) v = Some v' /\ length v' = length v /\
    forall i, nth_error v' i = if ((off <=? i) && (i <? off + n))%nat then Some (f (i - off)%nat) else nth_error v i.
Proof.
  induction n as [|n IH]; intros v H.
  - exists v. split; [reflexivity|]. split; [reflexivity|]. intros i. destruct (Nat.leb_spec off i); destruct (Nat.ltb_spec i (off + 0)); try lia; reflexivity.
  - destruct (IH v) as (v1 & E1 & L1 & N1); [lia|]. exists (upd v1 (off + n) (f n)). rewrite seq_S, PropPruner.ofor_app, E1.
    cbn [MatrixModel.obind Nat.add MatrixModel.ofor]. rewrite PropPruner.vset_at by lia. cbn [MatrixModel.obind]. split; [reflexivity|].
    split; [rewrite upd_length; exact L1|]. intros i. rewrite nth_error_upd, N1, L1.
    destruct (Nat.eqb_spec i (off + n)) as [-> |N].
    + destruct (Nat.ltb_spec (off + n) (length v)); [|lia]. cbn [andb].
      destruct (Nat.leb_spec off (off + n)); [|lia]. destruct (Nat.ltb_spec (off + n) (off + S n)); [|lia]. cbn [andb]. repeat f_equal. lia.
    + cbn [andb]. destruct (Nat.leb_spec off i); destruct (Nat.ltb_spec i (off + n)); destruct (Nat.ltb_spec i (off + S n)); cbn [andb]; try lia; reflexivity.
Qed.

Lemma d_of_int m : (Z.abs m <= 2 ^ 53)%Z -> is_finite (d_of m 0) = true /\ B2R (d_of m 0) = IZR m.
Proof.
  intros H. destruct (d_of_val m 0) as [F V]; [apply fe_mant; lia| |split; [exact F|rewrite V; change (bp 0) with 1; ring]].
  rewrite abs_bp. change (bp 0) with 1. rewrite Rmult_1_r, <- abs_IZR. apply Rle_lt_trans with (bp 53); [|apply bpow_lt; lia].
  change (bp 53) with (IZR (2 ^ 53)). apply IZR_le. exact H.
Qed.
Lemma div_frac a b : (0 < a <= b)%Z -> (b < 2 ^ 31)%Z ->
  is_finite (d_div (d_of a 0) (d_of b 0)) = true /\ B2R (d_div (d_of a 0) (d_of b 0)) = RN (IZR a / IZR b) /\
  0 < RN (IZR a / IZR b) <= 1.
Proof.
  intros A B. destruct (d_of_int a) as [FA VA]; [lia|]. destruct (d_of_int b) as [FB VB]; [lia|].
  assert (PB : 0 < IZR b) by (apply IZR_lt; lia). assert (PA : 0 < IZR a) by (apply IZR_lt; lia).
  assert (LE1 : RN (IZR a / IZR b) <= 1).
  { unfold RN. apply round_le_generic; [typeclasses eauto|typeclasses eauto|apply (fe_bp 0); lia|].
    apply Rmult_le_reg_r with (IZR b); [exact PB|]. unfold Rdiv. rewrite Rmult_assoc, Rinv_l, Rmult_1_r, Rmult_1_l by lra. apply IZR_le. lia. }
  assert (GT0 : bp (-31) <= RN (IZR a / IZR b)).
  { unfold RN. apply round_ge_generic; [typeclasses eauto|typeclasses eauto|apply fe_bp; lia|].
    apply Rmult_le_reg_r with (IZR b); [exact PB|]. unfold Rdiv. rewrite Rmult_assoc, Rinv_l, Rmult_1_r by lra.
    apply Rle_trans with 1; [|apply (IZR_le 1); lia]. apply Rmult_le_reg_l with (bp 31); [apply bp_pos|].
    rewrite Rmult_1_r, <- Rmult_assoc, <- bp_plus. change (bp (31 + -31)) with 1. rewrite Rmult_1_l. change (bp 31) with (IZR (2 ^ 31)). apply IZR_le. lia. }
  pose proof (bp_pos (-31)) as P31.
  pose proof (Bdiv_correct 53 1024 _ _ mode_NE (d_of a 0) (d_of b 0)) as H. rewrite VB, VA, fexp_eq in H.
  change (round radix2 fe (round_mode mode_NE)) with RN in H. specialize (H ltac:(lra)). rewrite Rlt_bool_true in H.
  - destruct H as (V & F & _). unfold d_div. rewrite F, V. split; [exact FA|]. split; [reflexivity|]. lra.
  - rewrite Rabs_pos_eq by lra. apply Rle_lt_trans with 1; [exact LE1|]. change 1 with (bp 0). apply bpow_lt. lia.
Qed.

(** LinearPruningParams(block_size, level): the first block_size - level coefficients (at
    least one, at most all) are 1, the k-th after them is (block_size - 1 - k) / block_size
    rounded: a descent with slope -1 / block_size *)
Theorem linear_pruning_spec : forall bs level, (1 <= bs < 2 ^ 31)%Z -> (- 2 ^ 31 <= bs - level < 2 ^ 31)%Z ->
  exists v, linear_pruning bs level = Some v /\ Z.of_nat (length v) = bs /\
    forall i x, nth_error v i = Some x ->
      let start := Z.max 1 (Z.min bs (bs - level)) in
      is_finite x = true /\
      ((Z.of_nat i < start)%Z -> B2R x = 1) /\
      ((start <= Z.of_nat i)%Z -> B2R x = RN (IZR (bs - 1 - (Z.of_nat i - start)) / IZR bs)).
Proof.
  intros bs level B L. unfold linear_pruning. rewrite i32_in by lia.
  set (sd := if (_ <? 1)%Z then _ else _).
  assert (ES : sd = Z.max 1 (Z.min bs (bs - level))).
  { unfold sd. destruct (Z.ltb_spec bs (bs - level)); [destruct (Z.ltb_spec bs 1)|destruct (Z.ltb_spec (bs - level) 1)]; lia. }
  rewrite <- ES. destruct (Z.ltb_spec bs 0); [lia|].
  destruct (ofor_write (fun _ => d_one) 0 (Z.to_nat sd) (repeat d_zero (Z.to_nat bs))) as (v1 & E1 & L1 & N1); [rewrite repeat_length; lia|].
  cbn [Nat.add] in E1. rewrite E1. cbn [bind]. rewrite repeat_length in L1.
  destruct (ofor_write (fun k => d_div (d_of (bs - Z.of_nat k - 1) 0) (d_of bs 0)) (Z.to_nat sd) (Z.to_nat (bs - sd)) v1) as (v2 & E2 & L2 & N2); [lia|].
  exists v2. split; [exact E2|]. split; [lia|]. intros i x Ei. cbv zeta.
  assert (I : (i < length v2)%nat) by (apply nth_error_Some; congruence). rewrite N2, N1 in Ei.
  destruct (Nat.leb_spec (Z.to_nat sd) i) as [G|G]; cbn [andb] in Ei.
  - destruct (Nat.ltb_spec i (Z.to_nat sd + Z.to_nat (bs - sd))); [|lia]. injection Ei as <-.
    destruct (div_frac (bs - Z.of_nat (i - Z.to_nat sd) - 1) bs) as (F & V & _); [lia|lia|]. split; [exact F|]. split; [lia|].
    intros _. rewrite V. do 3 f_equal. lia.
  - cbn [Nat.leb andb Nat.add] in Ei. destruct (Nat.ltb_spec i (Z.to_nat sd)); [|lia]. injection Ei as <-.
    destruct (d_of_bp 0) as [F V]; [lia|]. split; [exact F|]. split; [intros _; exact V|lia].
Qed.

(** the coefficients are a valid pruning vector: the first is 1, all are in (0, 1], none is
    larger than the one before it *)
Theorem linear_pruning_valid : forall bs level v, (1 <= bs < 2 ^ 31)%Z -> (- 2 ^ 31 <= bs - level < 2 ^ 31)%Z ->
  linear_pruning bs level = Some v ->
  (exists x, nth_error v 0 = Some x /\ B2R x = 1) /\
  (forall x, In x v -> 0 < B2R x <= 1) /\
  (forall i x y, nth_error v i = Some x -> nth_error v (S i) = Some y -> B2R y <= B2R x).
Proof.
  intros bs level v B L E. destruct (linear_pruning_spec bs level B L) as (v' & E' & LV & N). rewrite E in E'. injection E' as <-.
  set (st := Z.max 1 (Z.min bs (bs - level))) in N. cbv zeta in N.
  assert (F : forall i x, nth_error v i = Some x -> 0 < B2R x <= 1).
  { intros i x Ei. assert (I : (i < length v)%nat) by (apply nth_error_Some; congruence). destruct (N i x Ei) as (_ & H1 & H2).
    destruct (Z_lt_le_dec (Z.of_nat i) st) as [C|C]; [rewrite (H1 C); lra|]. rewrite (H2 C). apply (div_frac _ bs); lia. }
  split; [|split].
  - destruct (nth_error v 0) as [x|] eqn:E0; [|apply nth_error_None in E0; lia]. exists x. split; [reflexivity|]. apply (N 0%nat x E0). lia.
  - intros x I. apply In_nth_error in I. destruct I as [i I]. exact (F i x I).
  - intros i x y Ex Ey. destruct (N i x Ex) as (_ & X1 & X2). destruct (N (S i) y Ey) as (_ & Y1 & Y2).
    destruct (Z_lt_le_dec (Z.of_nat i) st) as [C|C]; [rewrite (X1 C); apply (F (S i) y Ey)|].
    rewrite (X2 C), (Y2 ltac:(lia)). unfold RN. apply round_le; [typeclasses eauto|typeclasses eauto|].
    apply Rmult_le_compat_r; [apply Rlt_le, Rinv_0_lt_compat, IZR_lt; lia|]. apply IZR_le. lia.
Qed.

(** block_size = 0: coefficients[0] is written in an empty vector *)
Theorem linear_pruning_zero_refuted : exists bs level, (0 <= bs < 2 ^ 31)%Z /\ (- 2 ^ 31 <= bs - level < 2 ^ 31)%Z /\
  linear_pruning bs level = None.
Proof. exists 0%Z, 0%Z. split; [lia|]. split; [lia|]. reflexivity. Qed.

(** ** Cases *)
(** a strategy with the factors 1, 4, 16 and the quotient 6 / 2 = 3: the second is chosen,
    and 2^80 does not matter *)
Definition ex_strategy : strat := mkst (Some 3%nat)
  [mkpp d_one [] d_one; mkpp (d_of 4 0) [d_one; d_one; d_of 1 (-1)] (d_of 1 (-1)); mkpp (d_of 16 0) [] d_one] [].
Example ex_get_pruning : option_map pp_coef (get_pruning ex_strategy (d_of 6 0) (d_of 2 0)) = Some [d_one; d_one; d_of 1 (-1)].
Proof.
  unfold get_pruning. cbn [ex_strategy st_prun fold_left].
  set (q := d_div (d_of 6 0) (d_of 2 0)). set (p1 := mkpp d_one [] d_one). set (p2 := mkpp (d_of 4 0) _ _). set (p3 := mkpp (d_of 16 0) [] d_one).
  assert (C1 : closer q (d_of 1 80, p1) p1 = (Babs (d_sub (pp_gh p1) q), p1)).
  { unfold closer. replace (d_lt _ _) with true by (vm_compute; reflexivity). reflexivity. }
  rewrite C1. assert (C2 : closer q (Babs (d_sub (pp_gh p1) q), p1) p2 = (Babs (d_sub (pp_gh p2) q), p2)).
  { unfold closer. replace (d_lt _ _) with true by (vm_compute; reflexivity). reflexivity. }
  rewrite C2. assert (C3 : closer q (Babs (d_sub (pp_gh p2) q), p2) p3 = (Babs (d_sub (pp_gh p2) q), p2)).
  { unfold closer. replace (d_lt _ _) with false by (vm_compute; reflexivity). reflexivity. }
  rewrite C3. reflexivity.
Qed.
Example ex_get_pruning_hyps : tame (d_div (d_of 6 0) (d_of 2 0)) /\ Forall (fun p => tame (pp_gh p)) (st_prun ex_strategy) /\
  exists p, In p (st_prun ex_strategy) /\ dist (d_div (d_of 6 0) (d_of 2 0)) p < bp 80.
Proof.
  assert (T : forall m, (0 <= m <= 16)%Z -> tame (d_of m 0)).
  { intros m H. destruct (d_of_int m) as [F V]; [lia|]. split; [exact F|]. rewrite V, <- abs_IZR. apply Rle_trans with (IZR 16); [apply IZR_le; lia|].
    change (IZR 16) with (bp 4). apply bpow_le. lia. }
  assert (E : d_div (d_of 6 0) (d_of 2 0) = d_of 3 0) by (apply B2SF_inj; vm_compute; reflexivity). rewrite E.
  split; [apply T; lia|]. split; [repeat (apply Forall_cons; [apply T; lia|]); apply Forall_nil|].
  exists (mkpp d_one [] d_one). split; [left; reflexivity|]. unfold dist. cbn [pp_gh]. unfold d_one.
  destruct (d_of_int 3) as [_ V3]; [lia|]. destruct (d_of_int 1) as [_ V1]; [lia|]. rewrite V3, V1.
  replace (1 - 3) with (- IZR 2) by lra. rewrite Rabs_Ropp, Rabs_pos_eq by lra. unfold RN. rewrite round_generic; [|typeclasses eauto|].
  - change (IZR 2) with (bp 1). apply bpow_lt. lia.
  - change (IZR 2) with (bp 1). apply fe_bp. lia.
Qed.
(** a document with entries for 4, 2 and again 4, the last without pruning parameters *)
Definition ex_doc : list jentry :=
  [mkje 4 (Some [3%nat]) (Some [(d_one, [d_one; d_one; d_one; d_one], d_one)]); mkje 2 None (Some []); mkje 4 (Some [2%nat]) None].
Example ex_load : load_strategies ex_doc =
  [mkst None [pp_default] []; mkst None [pp_default] []; mkst (Some 2%nat) [pp_default] []; mkst None [pp_default] [];
   mkst (Some 4%nat) [pp_default] [2%nat]].
Proof. reflexivity. Qed.
(** LinearPruningParams(4, 2) is 1, 1, 3/4, 1/2 *)
Example ex_linear : option_map (map B2SF) (linear_pruning 4 2) = Some (map B2SF [d_one; d_one; d_of 3 (-2); d_of 1 (-1)]).
Proof. vm_compute. reflexivity. Qed.

Print Assumptions get_pruning_nearest.
Print Assumptions get_pruning_nearest_real.
Print Assumptions get_pruning_defined.
Print Assumptions get_pruning_far_refuted.
Print Assumptions load_strategies_table.
Print Assumptions load_strategies_pruning.
Print Assumptions param_table_spec.
Print Assumptions linear_pruning_spec.
Print Assumptions linear_pruning_valid.
Print Assumptions linear_pruning_zero_refuted.
