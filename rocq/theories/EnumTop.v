(** From prepare_enumeration to the cache-free description: the whole call of [enumerate]. *)
From Coq Require Import List ZArith Arith Bool Lia.
From Verif Require Import Util EnumModel EnumPure EnumRefine EnumIter.
Import ListNotations.

Section Top.
Context (o : eops) {EV : Type}.
Notation E := (E o).
Notation gst := (gst o EV).
Notation est := (est o EV).
Variable evalS : list Z -> E -> E -> EV -> EV * E.
Variable evalSub : nat -> list Z -> E -> EV -> EV.
Variable rst : list Z -> nat -> option (option (list Z * E)).
Variable inp : einput o.
Notation d := (i_d inp).
Notation kend := (i_d inp - length (i_subtree inp)).
Notation pstp := (prep_step o kend (i_mut inp) (i_rdiag inp) (i_dual inp) (i_subtree inp) (i_subreset inp)).
Notation plp := (prep_loop o kend (i_mut inp) (i_rdiag inp) (i_dual inp) (i_subtree inp) (i_subreset inp) (i_maxdist inp)).

(** the subtree levels kend+m-1, ..., kend *)
Fixpoint hsteps (m : nat) (q : pst o) : pst o :=
  match m with O => q | S m' => hsteps m' (pstp (kend + m') q) end.

Lemma prep_high : forall m q k0 q', plp (kend + m) q = (k0, q') -> k0 < kend -> plp kend (hsteps m q) = (k0, q').
Proof.
  induction m; intros q k0 q' H Hk.
  - rewrite Nat.add_0_r in H. exact H.
  - rewrite Nat.add_succ_r in H. cbn [prep_loop] in H. destruct (e_le o (p_nd q) (i_maxdist inp)).
    + cbn [hsteps]. auto.
    + injection H as <- <-. lia.
Qed.

Lemma pstep_low_facts k q : k < kend ->
  p_cp (pstp k q) = p_cp q /\ p_svp (pstp k q) = p_svp q /\
  (forall j, j <> k -> p_x (pstp k q) j = p_x q j) /\ (forall j, j <> k -> p_center (pstp k q) j = p_center q j) /\
  (forall j, j <> k -> p_partdist (pstp k q) j = p_partdist q j) /\ (forall j, j <> k -> p_dx (pstp k q) j = p_dx q j) /\
  p_center (pstp k q) k = prep_center o kend (i_mut inp) (i_dual inp) q k /\ p_partdist (pstp k q) k = p_nd q /\
  p_x (pstp k q) k = e_round o (p_center (pstp k q) k) /\
  p_dx (pstp k q) k = dx0 o (p_center (pstp k q) k) (p_x (pstp k q) k).
Proof.
  intros H. unfold prep_step. destruct (Nat.leb_spec kend k); [lia|].
  destruct (negb (i_subreset inp) || (k <? kend)); cbn; rewrite ?fset_eq; repeat split; intros; rewrite ?fset_neq by auto; auto.
Qed.

Lemma prep_low : forall n q k0 q', n <= kend -> plp n q = (k0, q') ->
  p_cp q' = p_cp q /\ p_svp q' = p_svp q /\ (forall j, n <= j -> p_x q' j = p_x q j) /\
  (forall j, n <= j -> p_center q' j = p_center q j) /\ (forall j, n <= j -> p_partdist q' j = p_partdist q j) /\
  (forall j, n <= j -> p_dx q' j = p_dx q j).
Proof.
  induction n; intros q k0 q' Hn H; cbn [prep_loop] in H.
  - injection H as <- <-. repeat split; auto.
  - destruct (e_le o (p_nd q) (i_maxdist inp)).
    + destruct (pstep_low_facts n q ltac:(lia)) as (A1 & A2 & A3 & A4 & A5 & A6 & _).
      destruct (IHn _ _ _ ltac:(lia) H) as (B1 & B2 & B3 & B4 & B5 & B6).
      repeat split; try congruence; intros; (rewrite B3 || rewrite B4 || rewrite B5 || rewrite B6); try lia;
      (apply A3 || apply A4 || apply A5 || apply A6); lia.
    + injection H as <- <-. repeat split; auto.
Qed.

Lemma hsteps_facts : forall m q, m <= length (i_subtree inp) ->
  (forall j, j < m -> p_x (hsteps m q) (kend + j) = nth j (i_subtree inp) 0%Z) /\
  (forall j, kend + m <= j -> p_x (hsteps m q) j = p_x q j).
Proof.
  induction m; intros q Hm; cbn [hsteps]; [split; intros; [lia|auto]|].
  destruct (IHm (pstp (kend + m) q) ltac:(lia)) as [A B].
  assert (X : p_x (pstp (kend + m) q) = fset (p_x q) (kend + m) (nth m (i_subtree inp) 0%Z)).
  { unfold prep_step. destruct (Nat.leb_spec kend (kend + m)); [|lia].
    replace (kend + m - kend) with m by lia.
    destruct (negb (i_subreset inp) || (kend + m <? kend)); reflexivity. }
  split.
  - intros j Hj. destruct (Nat.eq_dec j m) as [->|]; [|apply A; lia].
    rewrite B by lia. rewrite X. apply fset_eq.
  - intros j Hj. rewrite B by lia. rewrite X. apply fset_neq. lia.
Qed.

(** the state of prepare_enumeration once the subtree coordinates are folded in *)
Definition qsub : pst o := hsteps (length (i_subtree inp)) (junkp o inp).

Hypothesis Hlen : length (i_subtree inp) <= d.

Record prepfacts (k0 : nat) (q : pst o) : Prop := {
  pf_cp : p_cp q = p_cp qsub;
  pf_svp : p_svp q = p_svp qsub;
  pf_tl : forall j, j < length (i_subtree inp) -> p_x q (kend + j) = nth j (i_subtree inp) 0%Z;
  pf_ce : p_center q (kend - 1) = p_cp qsub (kend - 1);
  pf_pd : p_partdist q (kend - 1) = p_nd qsub;
  pf_x : p_x q (kend - 1) = e_round o (p_cp qsub (kend - 1));
  pf_dx : p_dx q (kend - 1) = dx0 o (p_cp qsub (kend - 1)) (e_round o (p_cp qsub (kend - 1))) }.

Lemma prepared_facts k0 q : prepared o inp = (k0, q) -> k0 < kend -> prepfacts k0 q.
Proof.
  intros H Hk. unfold prepared in H.
  assert (H' : plp (kend + length (i_subtree inp)) (junkp o inp) = (k0, q)) by (rewrite <- H; f_equal; lia).
  clear H. rename H' into H. apply prep_high in H; auto. fold qsub in H.
  destruct (hsteps_facts (length (i_subtree inp)) (junkp o inp) (le_n _)) as [HT _]. fold qsub in HT.
  assert (exists n, kend = S n) as [n Hn] by (destruct kend; [lia|eauto]).
  assert (H' : plp (S n) qsub = (k0, q)) by (rewrite <- H; f_equal; lia).
  clear H. rename H' into H. cbn [prep_loop] in H.
  destruct (e_le o (p_nd qsub) (i_maxdist inp)); [|injection H as <- <-; lia].
  destruct (pstep_low_facts n qsub ltac:(lia)) as (A1 & A2 & A3 & A4 & A5 & A6 & A7 & A8 & A9 & A10).
  destruct (prep_low n _ _ _ ltac:(lia) H) as (B1 & B2 & B3 & B4 & B5 & B6).
  assert (C : prep_center o kend (i_mut inp) (i_dual inp) qsub n = p_cp qsub n).
  { unfold prep_center. replace (kend - S n) with 0 by lia. reflexivity. }
  assert (Hn1 : kend - 1 = n) by lia.
  constructor; try congruence; rewrite ?Hn1.
  - intros j Hj. rewrite B3, A3 by lia. auto.
  - rewrite B4 by lia. congruence.
  - rewrite B5 by lia. congruence.
  - rewrite B3 by lia. congruence.
  - rewrite B6 by lia. congruence.
Qed.

(** *** entry of the top level *)
Definition ecfg0 : ecfg o := cfg_of o inp qsub.
Definition x_top : Z := if p_svp qsub && Nat.eqb kend 1 then 1%Z else e_round o (p_cp qsub (kend - 1)).
Definition dx_top : Z := dx0 o (p_cp qsub (kend - 1)) (e_round o (p_cp qsub (kend - 1))).
(** global state when the search starts (node counters already adjusted) *)
Definition g_start (k0 : nat) (ev : EV) : gst :=
  {| g_max := i_maxdist inp; g_bounds := set_bounds o ecfg0 (i_maxdist inp) (fun _ => e_zero o); g_subd := i_rdiag inp;
     g_nodes := fun i => if Nat.ltb k0 i && Nat.ltb i kend then (0 - 1)%Z else 0%Z; g_ev := ev; g_log := [] |}.

Definition pure_run (rec : bool) (fuel : nat) (k0 : nat) (ev : EV) : option gst :=
  plev o evalS evalSub ecfg0 rst rec (i_subtree inp) fuel kend [] (p_nd qsub) x_top dx_top dx_top (g_start k0 ev).

Lemma cfg_same q k0 : prepfacts k0 q -> cfg_of o inp q = ecfg0.
Proof. intros P. unfold ecfg0, cfg_of. rewrite (pf_cp _ _ P), (pf_svp _ _ P). reflexivity. Qed.

Lemma entry_ok k0 q ev : prepared o inp = (k0, q) -> k0 < kend ->
  let s := loop_init o ecfg0 k0 (init_state o inp q ev) in
  exists kk, kend = S kk /\ cinv o ecfg0 s kk /\ alok o ecfg0 s (S kk) /\
    s_center s kk = cen o ecfg0 kk (suf o ecfg0 s (S kk)) /\
    suf o ecfg0 s (S kk) = [] /\ tlof o ecfg0 s = i_subtree inp /\ s_partdist s kk = p_nd qsub /\
    s_x s kk = x_top /\ s_dx s kk = dx_top /\ s_ddx s kk = dx_top /\ s_g s = g_start k0 ev /\
    s_partdist s kend = e_zero o.
Proof.
  intros H Hk s. pose proof (prepared_facts _ _ H Hk) as P.
  assert (exists n, kend = S n) as [n Hn] by (destruct kend; [lia|eauto]).
  exists n. split; auto.
  assert (Hn1 : kend - 1 = n) by lia.
  assert (SF : suf o ecfg0 s (S n) = []).
  { unfold suf. cbn [c_kend ecfg0 cfg_of]. rewrite Hn, Nat.sub_diag. reflexivity. }
  assert (HX : forall j, j <> 0 \/ p_svp qsub = false -> s_x s j = p_x q j).
  { intros j Hj. cbn -[Nat.ltb Nat.leb Nat.eqb Nat.sub]. rewrite (pf_svp _ _ P). destruct (p_svp qsub); auto. rewrite fset_neq; auto. destruct Hj; congruence. }
  split; [constructor|].
  - intros i Hi. cbn -[Nat.ltb Nat.leb Nat.eqb Nat.sub] in Hi |- *. destruct (Nat.ltb_spec i kend); [|lia]. rewrite Nat.eqb_refl. reflexivity.
  - intros m Hm. cbn -[Nat.ltb Nat.leb Nat.eqb Nat.sub]. destruct (Nat.eqb_spec m 0); [lia|]. destruct (Nat.leb_spec m kend); lia.
  - intros i j Hi Hj Hm. exfalso. cbn -[Nat.ltb Nat.leb Nat.eqb Nat.sub] in Hj. specialize (Hm n ltac:(lia)). cbn -[Nat.ltb Nat.leb Nat.eqb Nat.sub] in Hm.
    destruct (Nat.eqb_spec n 0); [lia|]. destruct (Nat.leb_spec n kend); lia.
  - split. { intros j Hj. cbn -[Nat.ltb Nat.leb Nat.eqb Nat.sub] in Hj. lia. }
    split. { rewrite SF. cbn -[Nat.ltb Nat.leb Nat.eqb Nat.sub]. rewrite <- Hn1. apply (pf_ce _ _ P). }
    split; auto. split.
    { unfold tlof. cbn [c_kend c_d ecfg0 cfg_of]. replace (d - kend) with (length (i_subtree inp)) by lia.
      apply (list_ext _ _ 0%Z).
      - now rewrite map_length, seq_length.
      - intros j Hj. rewrite map_length, seq_length in Hj.
        rewrite (map_nth_lt _ _ _ 0 _) by (rewrite seq_length; auto). rewrite seq_nth by auto.
        rewrite HX by lia. apply (pf_tl _ _ P); auto. }
    split. { cbn -[Nat.ltb Nat.leb Nat.eqb Nat.sub]. rewrite fset_neq by lia. rewrite <- Hn1. apply (pf_pd _ _ P). }
    split.
    { unfold x_top. destruct (p_svp qsub) eqn:Sv; cbn [andb].
      - destruct (Nat.eqb_spec kend 1) as [e|ne].
        + assert (Hn0 : n = 0) by lia. rewrite Hn0. cbn -[Nat.ltb Nat.leb Nat.eqb Nat.sub]. rewrite (pf_svp _ _ P), Sv. reflexivity.
        + rewrite HX by lia. rewrite <- (pf_x _ _ P), Hn1. reflexivity.
      - rewrite HX by auto. rewrite <- (pf_x _ _ P), Hn1. reflexivity. }
    split. { cbn -[Nat.ltb Nat.leb Nat.eqb Nat.sub]. unfold dx_top. rewrite <- (pf_dx _ _ P), Hn1. reflexivity. }
    split. { cbn -[Nat.ltb Nat.leb Nat.eqb Nat.sub]. unfold dx_top. rewrite <- (pf_dx _ _ P), Hn1. reflexivity. }
    split. { unfold g_start. cbn -[Nat.ltb Nat.leb Nat.eqb Nat.sub]. reflexivity. }
    cbn -[Nat.ltb Nat.leb Nat.eqb Nat.sub]. apply fset_eq.
Qed.

Theorem run_rec_pure fuel ev k0 q : prepared o inp = (k0, q) -> k0 < kend ->
  match pure_run true fuel k0 ev with
  | None => run_enum o evalS evalSub rst true fuel inp ev = None
  | Some g => exists s, run_enum o evalS evalSub rst true fuel inp ev = Some s /\ s_g s = g
  end.
Proof.
  intros H Hk. unfold run_enum. rewrite H. rewrite (cfg_same q k0) by (now apply prepared_facts).
  unfold enum_loop. cbn [c_kend ecfg0 cfg_of]. destruct (Nat.leb_spec kend k0); [lia|].
  destruct (entry_ok k0 q ev H Hk) as (kk & Hkk & CI & AL & CE & SF & TL & PD & X & DX & DDX & G & _).
  pose proof (enum_rec_ok o evalS evalSub ecfg0 rst ltac:(cbn; lia) fuel (S kk) kk _ eq_refl ltac:(cbn; lia) CI AL CE) as R.
  rewrite SF, TL, PD, X, DX, DDX, G in R. unfold pure_run. 
  unfold goodres in R.
  replace (plev o evalS evalSub ecfg0 rst true (i_subtree inp) fuel kend) with (plev o evalS evalSub ecfg0 rst true (i_subtree inp) fuel (S kk)) by (f_equal; lia).
  replace (enum_rec o evalS evalSub ecfg0 rst fuel kend) with (enum_rec o evalS evalSub ecfg0 rst fuel (S kk)) by (f_equal; lia).
  destruct (plev o evalS evalSub ecfg0 rst true (i_subtree inp) fuel (S kk) [] (p_nd qsub) x_top dx_top dx_top (g_start k0 ev)).
  - destruct R as (s' & A & B & _). exists s'. auto.
  - exact R.
Qed.

Theorem run_iter_pure fuel ev k0 q g : e_le o (e_zero o) (e_zero o) = true ->
  prepared o inp = (k0, q) -> k0 < kend -> pure_run false fuel k0 ev = Some g ->
  exists f s, run_enum o evalS evalSub rst false f inp ev = Some s /\ s_g s = g.
Proof.
  intros Hz H Hk HP. unfold run_enum. rewrite H. rewrite (cfg_same q k0) by (now apply prepared_facts).
  unfold enum_loop. cbn [c_kend ecfg0 cfg_of]. destruct (Nat.leb_spec kend k0); [lia|].
  destruct (entry_ok k0 q ev H Hk) as (kk & Hkk & CI & AL & CE & SF & TL & PD & X & DX & DDX & G & PT).
  pose proof (enum_iter_ok o evalS evalSub ecfg0 rst ltac:(cbn; lia) fuel (S kk) kk _ eq_refl ltac:(cbn; lia) CI AL CE) as R.
  rewrite SF, TL, PD, X, DX, DDX, G in R. unfold pure_run in HP. 
  replace (plev o evalS evalSub ecfg0 rst false (i_subtree inp) fuel kend) with (plev o evalS evalSub ecfg0 rst false (i_subtree inp) fuel (S kk)) in HP by (f_equal; lia).
  rewrite HP in R. destruct R as (m & s' & A & B & F & _).
  exists (m + 0), s'. split; auto.
  replace (kend - 1) with kk by lia. fold ecfg0. rewrite A. unfold resume, next_pos.
  rewrite (fr_pd _ _ _ _ F) by lia. rewrite Hkk in PT. rewrite PT. unfold is0. rewrite Hz. cbn [negb andb].
  cbn [c_kend ecfg0 cfg_of]. rewrite Hkk, Nat.leb_refl. reflexivity.
Qed.

(** conversely, a finished iterative run is the cache-free one *)
Theorem run_iter_pure_inv f ev k0 q s : e_le o (e_zero o) (e_zero o) = true ->
  prepared o inp = (k0, q) -> k0 < kend -> run_enum o evalS evalSub rst false f inp ev = Some s ->
  pure_run false f k0 ev = Some (s_g s).
Proof.
  intros Hz H Hk HR. unfold run_enum in HR. rewrite H in HR. rewrite (cfg_same q k0) in HR by (now apply prepared_facts).
  unfold enum_loop in HR. cbn [c_kend ecfg0 cfg_of] in HR. destruct (Nat.leb_spec kend k0); [lia|].
  destruct (entry_ok k0 q ev H Hk) as (kk & Hkk & CI & AL & CE & SF & TL & PD & X & DX & DDX & G & PT).
  pose proof (enum_iter_ok o evalS evalSub ecfg0 rst ltac:(cbn; lia) f (S kk) kk _ eq_refl ltac:(cbn; lia) CI AL CE) as R.
  rewrite SF, TL, PD, X, DX, DDX, G in R. unfold pure_run.
  replace (plev o evalS evalSub ecfg0 rst false (i_subtree inp) f kend) with (plev o evalS evalSub ecfg0 rst false (i_subtree inp) f (S kk)) by (f_equal; lia).
  replace (kend - 1) with kk in HR by lia. fold ecfg0 in HR.
  destruct (plev o evalS evalSub ecfg0 rst false (i_subtree inp) f (S kk) [] (p_nd qsub) x_top dx_top dx_top (g_start k0 ev)) as [g|].
  - destruct R as (m & s' & A & B & F & _).
    assert (HS : enum_iter o evalS evalSub ecfg0 rst (m + 0) kk (loop_init o ecfg0 k0 (init_state o inp q ev)) = Some s').
    { rewrite A. unfold resume, next_pos.
      rewrite (fr_pd _ _ _ _ F) by lia. rewrite Hkk in PT. rewrite PT. unfold is0. rewrite Hz. cbn [negb andb].
      cbn [c_kend ecfg0 cfg_of]. rewrite Hkk, Nat.leb_refl. reflexivity. }
    rewrite (iter_det _ _ _ _ _ _ _ _ _ _ _ HR HS). congruence.
  - exfalso. cbn [iterto] in R. unfold iterto in R. rewrite R in HR by lia. discriminate.
Qed.

Lemma run_iter_det f f' ev s s' : run_enum o evalS evalSub rst false f inp ev = Some s ->
  run_enum o evalS evalSub rst false f' inp ev = Some s' -> s = s'.
Proof.
  unfold run_enum. destruct (prepared o inp) as [k0 q]. unfold enum_loop.
  destruct (c_kend (cfg_of o inp q) <=? k0); [congruence|]. apply iter_det.
Qed.
End Top.
