(** Invariants of the transition system of ParEnumModel.v. *)
From Coq Require Import List ZArith Arith Bool Lia Permutation Sorted.
From Verif Require Import Util EvalModel EvalProofs PropEval ParEnumModel PropPool.
Import ListNotations.

Definition leaf_eq_dec (a b : leaf) : {a = b} + {a <> b}.
Proof. decide equality; try apply Z.eq_dec. apply (list_eq_dec Z.eq_dec). Defined.
(** occurrences of a leaf *)
Definition lc (l : leaf) (ls : list leaf) : nat := count_occ leaf_eq_dec ls l.
Definition il (l k : leaf) : nat := if leaf_eq_dec k l then 1 else 0.
Lemma lc_app l a b : lc l (a ++ b) = lc l a + lc l b.
Proof. apply count_occ_app. Qed.
Lemma lc_cons l k a : lc l (k :: a) = il l k + lc l a.
Proof. unfold lc, il. cbn. destruct (leaf_eq_dec k l); reflexivity. Qed.
Lemma lc_nil l : lc l [] = 0. Proof. reflexivity. Qed.
Arguments lc : simpl never.
Arguments cnt : simpl never.

(** threads holding the mutex *)
Definition tlk (t : thr) : nat :=
  match t_pc t with TCrit _ _ | TCmp _ | TSet _ _ | TOwn _ | TOwnC _ | TOwnL _ | TMergeC => 1 | _ => 0 end.
(** leaves in hand *)
Definition todo (t : thr) : list leaf :=
  match t_pc t with
  | TSig ls | TClr ls | TLoad ls | TRun ls | TCmp ls | TSet _ ls | TOwn ls | TOwnC ls | TOwnL ls => ls
  | TWait l ls | TCrit l ls => l :: ls
  | _ => []
  end.
Definition ltodo (l : leaf) (t : thr) : nat := lc l (todo t).
(** item in hand *)
Definition hand (i : nat) (t : thr) : nat :=
  match t_pc t with TStart | TCopied | TFetch | TMerge | TMergeC | TDone => 0 | _ => cnt i (t_hand t) end.
Definition left_loop (t : thr) : bool := match t_pc t with TMerge | TMergeC | TDone => true | _ => false end.

Section Proofs.
Variable f : fops Z.
Variable strat : strategy.
Variable N : nat.

Record Inv1 (y : sys f) : Prop := {
  V_lock : lsum tlk (ths f y) = if glock f (sh f y) then 1 else 0;
  V_leaf : forall l, lc l (past f y) = lc l (glog f (sh f y)) + lc l (gskip f (sh f y)) + lsum (ltodo l) (ths f y)
                     + lc l (concat (skipn (gnext f (sh f y)) (gitems f (sh f y))));
  V_idx : forall i, cnt i (seq 0 (Nat.min (gnext f (sh f y)) (length (gitems f (sh f y))))) =
                    cnt i (gfin f (sh f y)) + lsum (hand i) (ths f y);
  V_out : forall t, In t (ths f y) -> left_loop t = true -> length (gitems f (sh f y)) <= gnext f (sh f y) }.

Lemma skipn_nth_error {A} (l : list A) n x : nth_error l n = Some x -> skipn n l = x :: skipn (S n) l.
Proof.
  revert n; induction l as [|a l IH]; intros [|n] H; cbn in *; try discriminate.
  - injection H as ->. reflexivity.
  - rewrite (IH n H). reflexivity.
Qed.

Lemma seq_snoc n : seq 0 (S n) = seq 0 n ++ [n].
Proof. rewrite seq_S. reflexivity. Qed.

Lemma Inv1_thread y i t s' t' :
  nth_error (ths f y) i = Some t -> tstep f strat N (sh f y) t s' t' -> Inv1 y ->
  Inv1 (mkY f s' (upd (ths f y) i t') (more f y) (past f y)).
Proof.
  intros Hn St [Hl Hf Hx Ho].
  pose proof (lsum_ge tlk _ _ _ Hn) as Glk.
  assert (Out : forall u, In u (upd (ths f y) i t') -> left_loop u = true -> left_loop t' = false \/ left_loop t = true \/ length (gitems f (sh f y)) <= gnext f (sh f y) ->
                length (gitems f (sh f y)) <= gnext f (sh f y)).
  { intros u Hu Lu [E|[E|E]]; [|eapply Ho; [eapply nth_error_In; exact Hn|exact E]|exact E].
    apply In_upd in Hu. destruct Hu as [->|Hu]; [congruence|eauto]. }
  constructor; cbn [sh ths more past].
  - (* lock *)
    pose proof (lsum_upd tlk _ _ _ t' Hn) as E.
    inversion St; subst; cbn in E, Glk |- *; rewrite <- ?H in *; repeat match goal with H : glock _ _ = _ |- _ => rewrite H in * end;
      try lia; destruct (glock f (sh f y)); lia.
  - (* leaves *)
    intro l. specialize (Hf l). pose proof (lsum_upd (ltodo l) _ _ _ t' Hn) as E.
    assert (E1 : ltodo l t = lc l (todo t)) by reflexivity. assert (E2 : ltodo l t' = lc l (todo t')) by reflexivity.
    rewrite E1, E2 in E. clear E1 E2.
    inversion St; subst; cbn [todo t_pc glog gskip gnext gitems set_A set_sig set_lock inc_next inc_id add_skip add_fin] in *;
      rewrite ?lc_cons, ?lc_nil in *; try lia.
    + rewrite (skipn_nth_error _ _ _ H) in Hf. cbn [concat] in Hf. rewrite lc_app in Hf. lia.
    + rewrite !skipn_all2 in * by lia. lia.
  - (* indices *)
    intro k. specialize (Hx k). pose proof (lsum_upd (hand k) _ _ _ t' Hn) as E.
    pose (h := fun t => match t_pc t with TStart | TCopied | TFetch | TMerge | TMergeC | TDone => 0 | _ => cnt k (t_hand t) end).
    assert (E1 : hand k t = h t) by reflexivity. assert (E2 : hand k t' = h t') by reflexivity.
    rewrite E1, E2 in E. clear E1 E2. unfold h in E. clear h.
    inversion St; subst; cbn [t_pc t_hand gfin gnext gitems set_A set_sig set_lock inc_next inc_id add_skip add_fin] in *;
      rewrite ?cnt_app, ?cnt_nil in *; try lia.
    + assert (L : gnext f (sh f y) < length (gitems f (sh f y))) by (apply nth_error_Some; rewrite H; discriminate).
      rewrite Nat.min_l in Hx by lia. rewrite Nat.min_l by lia. rewrite seq_snoc, cnt_app. lia.
    + rewrite Nat.min_r in Hx by lia. rewrite Nat.min_r by lia. lia.
  - (* loop left *)
    intros u Hu Lu. specialize (Out u Hu Lu).
    inversion St; subst; cbn [gnext gitems set_A set_sig set_lock inc_next inc_id add_skip add_fin] in *;
      try (apply Out; auto; fail); try (assert (length (gitems f (sh f y)) <= gnext f (sh f y)) by (apply Out; auto); lia); lia.
Qed.

Lemma Inv1_batch y b m :
  (forall t, In t (ths f y) -> t_pc t = TDone) -> more f y = b :: m -> 1 <= length (ths f y) ->
  Inv1 y ->
  Inv1 (mkY f (mkS f (gA f (sh f y)) (gev f (sh f y)) (gsig f (sh f y)) (glock f (sh f y)) 0 0 (mA f (sh f y)) b
                      (glog f (sh f y)) (gskip f (sh f y)) [])
                 (repeat fresh_thr (length (ths f y))) m (past f y ++ concat b)).
Proof.
  intros Hd Hm Hn [Hl Hf Hx Ho].
  assert (Z : forall g : thr -> nat, (forall t, t_pc t = TDone -> g t = 0) -> lsum g (ths f y) = 0).
  { intros g Hg. clear -Hd Hg. induction (ths f y) as [|t l IH]; cbn; [reflexivity|].
    rewrite Hg by (apply Hd; left; reflexivity). rewrite IH; [reflexivity|]. intros u Hu. apply Hd. right. exact Hu. }
  constructor; cbn [sh ths more past gnext gitems glog gskip gfin glock].
  - rewrite lsum_repeat by reflexivity. rewrite <- Hl. symmetry. apply Z. intros t E. unfold tlk. rewrite E. reflexivity.
  - intro l. specialize (Hf l). rewrite lsum_repeat by reflexivity. rewrite Z in Hf.
    2:{ intros t E. unfold ltodo, todo. rewrite E. reflexivity. }
    destruct (ths f y) as [|t0 l0] eqn:Et; [cbn in Hn; lia|].
    assert (L : length (gitems f (sh f y)) <= gnext f (sh f y)).
    { apply (Ho t0); [left; reflexivity|]. unfold left_loop. rewrite (Hd t0) by (left; reflexivity). reflexivity. }
    rewrite skipn_all2 in Hf by exact L. cbn [concat skipn] in *. rewrite lc_app. rewrite lc_nil in Hf. lia.
  - intro i. rewrite lsum_repeat by reflexivity. reflexivity.
  - intros t Ht Lt. apply repeat_spec in Ht. subst t. discriminate.
Qed.

Lemma ths_length y y' : ystep f strat N y y' -> length (ths f y') = length (ths f y).
Proof. intros [y0 i t s' t' Hn St|y0 b m Hd Hm]; cbn; [apply upd_length|apply repeat_length]. Qed.

Lemma reach_length y0 y : yreach f strat N y0 y -> length (ths f y) = length (ths f y0).
Proof. induction 1 as [|y y' R IH St]; [reflexivity|]. rewrite (ths_length _ _ St). exact IH. Qed.

Lemma Inv1_init nsig n A0 b m : Inv1 (par_init f nsig n A0 b m).
Proof.
  constructor; cbn.
  - apply lsum_repeat. reflexivity.
  - intro l. rewrite lsum_repeat by reflexivity. reflexivity.
  - intro i. rewrite lsum_repeat by reflexivity. reflexivity.
  - intros t Ht. apply repeat_spec in Ht. subst t. discriminate.
Qed.

Lemma Inv1_reach nsig n A0 b m y : 1 <= n -> yreach f strat N (par_init f nsig n A0 b m) y -> Inv1 y.
Proof.
  intros Hn R. induction R as [|y y' R IH St]; [apply Inv1_init|].
  destruct St as [y i t s' t' Ht St|y b' m' Hd Hm].
  - eapply Inv1_thread; eauto.
  - apply Inv1_batch; auto. rewrite (reach_length _ _ R). cbn. rewrite repeat_length. exact Hn.
Qed.
End Proofs.

(** ** The radius, strategy BestN *)
Section Best.
Variable N : nat.
Hypothesis HN : 1 <= N.
Notation f := z_fops.
Local Open Scope Z_scope.

Definition report (l : leaf) : list Z * Z := (lf_x l, lf_d l).

Lemma best_mono ev m0 m all v d :
  store_ok f N ev all -> bound_ok f N ev m0 m -> (forall p, In p (ev_sols ev) -> fst p <= m0) -> d <= m0 ->
  snd (eval_sol f BestN N v d m ev) <= m.
Proof.
  intros [HS (dr & HP & HL & HD)] HB HK Hd.
  assert (LK : (length (ev_sols ev) <= N)%nat) by lia.
  unfold eval_sol, process_sol. cbn zeta.
  set (p := (f_of f d, v)). pose proof (emplace_len f p (ev_sols ev)) as EL.
  pose proof (emplace_perm f p (ev_sols ev)) as EP.
  unfold bound_ok in HB.
  destruct (Nat.ltb_spec (length (emplace f p (ev_sols ev))) N) as [H|H]; [apply Z.le_refl|].
  destruct (Nat.ltb_spec N (length (emplace f p (ev_sols ev)))) as [H'|H'].
  - destruct (Nat.ltb_spec (length (ev_sols ev)) N) as [H1|H1]; [lia|].
    destruct (ev_sols ev) as [|hd tl] eqn:Es; [contradiction|]. cbn [emplace] in *.
    cbn [f_lt z_fops] in *. destruct (fst hd <? fst p) eqn:C.
    + cbn. cbn in HB. subst m. reflexivity.
    + cbn [List.tl snd]. destruct (emplace f p tl) as [|x k] eqn:Ee; [cbn in H'; lia|].
      cbn [f_bnd z_fops] in *. subst m.
      assert (Hx : In x (p :: tl)) by (apply (Permutation_in _ (emplace_perm f p tl)); rewrite Ee; left; reflexivity).
      destruct Hx as [<-|Hx]; [apply Z.ltb_ge in C; exact C|].
      pose proof (sorted_hd f _ _ HS x Hx) as K. unfold key_le in K. cbn in K. apply Z.ltb_ge in K. exact K.
  - destruct (Nat.ltb_spec (length (ev_sols ev)) N) as [H1|H1]; [|lia]. subst m.
    destruct (emplace f p (ev_sols ev)) as [|x k] eqn:Ee; [cbn in *; lia|]. cbn [snd f_bnd z_fops].
    assert (Hx : In x (p :: ev_sols ev)) by (apply (Permutation_in _ EP); left; reflexivity).
    destruct Hx as [<-|Hx]; [exact Hd|apply HK; exact Hx].
Qed.

(** the leaf handed to process_sol next *)
Definition held (t : thr) : list leaf := match t_pc t with TWait l _ | TCrit l _ => [l] | _ => [] end.
Definition copied (t : thr) : bool := match t_pc t with TStart => false | _ => true end.

Record Inv2 (A0 : Z) (y : sys f) : Prop := {
  W_mA : mA f (sh f y) = A0;
  W_ev : eval_all f BestN N (map report (rev (glog f (sh f y)))) (ev_init f) A0 = (gev f (sh f y), gA f (sh f y));
  W_log : forall l, In l (glog f (sh f y)) -> lf_d l <= A0;
  W_held : forall t l, In t (ths f y) -> In l (held t) -> lf_d l <= A0;
  W_loc : forall t, In t (ths f y) -> copied t = true -> gA f (sh f y) <= t_loc t <= A0;
  W_skip : forall l, In l (gskip f (sh f y)) -> gA f (sh f y) < lf_need l;
  W_A : gA f (sh f y) <= A0 }.

Lemma eval_log A0 log ev A :
  eval_all f BestN N (map report (rev log)) (ev_init f) A0 = (ev, A) ->
  store_ok f N ev (items f (map report (rev log))) /\ bound_ok f N ev A0 A.
Proof.
  intro E. split.
  - pose proof (store_all f z_asym z_trans N HN BestN (map report (rev log)) ltac:(discriminate) (ev_init f) A0 [] (store_init f N HN)) as S.
    rewrite E in S. exact S.
  - assert (B0 : bound_ok f N (ev_init f) A0 A0).
    { unfold bound_ok. cbn [ev_sols ev_init length]. destruct (Nat.ltb_spec 0 N); [reflexivity|lia]. }
    pose proof (bound_all f z_asym z_trans N HN (map report (rev log)) (ev_init f) A0 A0 [] (store_init f N HN) B0) as B.
    rewrite E in B. exact B.
Qed.

Lemma eval_log_mono A0 log ev A l ev' A' :
  eval_all f BestN N (map report (rev log)) (ev_init f) A0 = (ev, A) ->
  (forall k, In k log -> lf_d k <= A0) -> lf_d l <= A0 ->
  eval_sol f BestN N (lf_x l) (lf_d l) A ev = (ev', A') ->
  A' <= A /\ eval_all f BestN N (map report (rev (l :: log))) (ev_init f) A0 = (ev', A').
Proof.
  intros E Hlog Hl Es. destruct (eval_log _ _ _ _ E) as [S B]. split.
  - pose proof (best_mono ev A0 A _ (lf_x l) (lf_d l) S B) as M. rewrite Es in M. apply M; [|exact Hl].
    intros p Hp. destruct S as [_ (dr & HP & _)].
    assert (Hp' : In p (items f (map report (rev log)))) by (apply (Permutation_in _ HP); apply in_or_app; left; exact Hp).
    unfold items in Hp'. apply in_map_iff in Hp'. destruct Hp' as (q & <- & Hq). apply in_map_iff in Hq.
    destruct Hq as (k & <- & Hk). apply in_rev in Hk. cbn. auto.
  - cbn [rev]. rewrite map_app, (eval_all_app f N BestN), E. cbn [map eval_all report]. rewrite Es. reflexivity.
Qed.

Lemma Inv2_thread A0 y i t s' t' :
  nth_error (ths f y) i = Some t -> tstep f BestN N (sh f y) t s' t' -> Inv2 A0 y ->
  Inv2 A0 (mkY f s' (upd (ths f y) i t') (more f y) (past f y)) /\ gA f s' <= gA f (sh f y).
Proof.
  intros Hn St [Hm0 He Hg Hh Ho Hs HA].
  assert (Hm : mA f (sh f y) = A0 /\ True) by auto. clear Hm0.
  pose proof (nth_error_In _ _ Hn) as Hin.
  assert (Hh' : forall l, In l (held t) -> lf_d l <= A0) by (intros; eapply Hh; eauto).
  pose proof (Ho t Hin) as Ho'.
  assert (Up : forall (P : thr -> Prop), (forall u, In u (ths f y) -> P u) -> P t' -> forall u, In u (upd (ths f y) i t') -> P u).
  { intros P H1 H2 u Hu. apply In_upd in Hu. destruct Hu as [->|Hu]; auto. }
  assert (K : gA f s' = gA f (sh f y) /\ gev f s' = gev f (sh f y) /\ glog f s' = glog f (sh f y) \/
              exists l ls j a h, t = mkT (TCrit l ls) j a h /\
                eval_sol f BestN N (lf_x l) (lf_d l) (gA f (sh f y)) (gev f (sh f y)) = (gev f s', gA f s') /\ glog f s' = l :: glog f (sh f y)).
  { inversion St; subst; cbn; auto. right. exists l, ls, i0, a, h. auto. }
  assert (MA : mA f s' = A0) by (destruct Hm as [Hm _]; rewrite <- Hm; inversion St; subst; reflexivity).
  assert (HL : forall l, In l (held t') -> lf_d l <= A0).
  { intros l Hl. inversion St; subst; cbn in Hl, Hh', Ho'; try contradiction; try (apply Hh'; exact Hl).
    destruct Hl as [<-|[]]. specialize (Ho' eq_refl). lia. }
  assert (SK : forall l, In l (gskip f s') -> gA f (sh f y) < lf_need l).
  { intros l Hl. inversion St; subst; cbn in Hl; auto. destruct Hl as [<-|Hl]; [|auto]. specialize (Ho' eq_refl). cbn in Ho'. lia. }
  assert (LC : copied t' = true -> gA f s' <= gA f (sh f y) -> gA f s' <= t_loc t' <= A0).
  { intros Hc HL'. destruct Hm as [Hm _]. rewrite <- Hm in *. clear Hm. inversion St; subst; cbn in Ho', Hc |- *; try (specialize (Ho' eq_refl)); try lia; cbn in HL'; lia. }
  destruct K as [(E1 & E2 & E3)|(l & ls & j & a & h & -> & Es & Elog)].
  - split; [|lia]. constructor; cbn [sh ths].
    + exact MA.
    + rewrite E1, E2, E3. exact He.
    + rewrite E3. exact Hg.
    + intros u l9 Hu. revert u Hu l9. apply (Up (fun u => forall l, In l (held u) -> lf_d l <= A0)); [exact (fun u Hu l => Hh u l Hu)|exact HL].
    + rewrite E1 in *. apply (Up (fun u => copied u = true -> gA f (sh f y) <= t_loc u <= A0)); [exact Ho|]. intro Hc. apply LC; [exact Hc|lia].
    + rewrite E1. exact SK.
    + rewrite E1. exact HA.
  - destruct (eval_log_mono A0 _ _ _ l (gev f s') (gA f s') He Hg) as [M1 M2].
    + apply Hh'. left. reflexivity.
    + exact Es.
    + split; [|exact M1]. constructor; cbn [sh ths].
      * exact MA.
      * rewrite Elog. exact M2.
      * rewrite Elog. intros k [<-|Hk]; [|auto]. apply Hh'. left. reflexivity.
      * intros u l9 Hu. revert u Hu l9. apply (Up (fun u => forall l, In l (held u) -> lf_d l <= A0)); [exact (fun u Hu l => Hh u l Hu)|exact HL].
      * apply (Up (fun u => copied u = true -> gA f s' <= t_loc u <= A0)); [|intro Hc; apply LC; [exact Hc|exact M1]].
        intros u Hu Hc. specialize (Ho u Hu Hc). lia.
      * intros k Hk. specialize (SK k Hk). lia.
      * lia.
Qed.

Lemma Inv2_step A0 y y' : ystep f BestN N y y' -> Inv2 A0 y -> Inv2 A0 y' /\ gA f (sh f y') <= gA f (sh f y).
Proof.
  intros [y0 i t s' t' Hn St|y0 b m Hd Hm] HI.
  - cbn [sh]. eapply Inv2_thread; eauto.
  - cbn [sh gA]. split; [|lia]. destruct HI as [Im Ie Ig Ih Io Is IA]. constructor; cbn [sh ths mA gev gA glog gskip]; auto.
    + intros t l Ht Hl. apply repeat_spec in Ht. subst t. destruct Hl.
    + intros t Ht Hc. apply repeat_spec in Ht. subst t. discriminate.
Qed.

Lemma Inv2_reach A0 nsig n b m y : yreach f BestN N (par_init f nsig n A0 b m) y -> Inv2 A0 y.
Proof.
  induction 1 as [|y y' R IH St]; [|apply (Inv2_step A0 y y' St IH)].
  constructor; cbn.
  - reflexivity.
  - reflexivity.
  - intros l [].
  - intros t l Ht Hl. apply repeat_spec in Ht. subst t. destruct Hl.
  - intros t Ht Hc. apply repeat_spec in Ht. subst t. discriminate.
  - intros l [].
  - lia.
Qed.
End Best.
