(** C69: incr_prob and decr_prob in binary64 arithmetic.

    In an odd dimension the last entry of detailed_cost is never written.  Its
    weight is then infinite, all other weights are divided by infinity, and the
    functions return the profile as it was, whatever the target is.  In an even
    dimension no coefficient becomes a NaN or leaves the interval (0, 1]. *)
From Coq Require Import List ZArith Reals Lra Lia Arith Bool.
From Flocq Require Import Core BinarySingleNaN.
From Verif Require Import Util PrunerModel PropPruner OptModel OptProofs DblModel DblProofs ProbDblModel ProbDblProofs.
Import ListNotations.

(** ** Loops *)
Lemma collect_ret {A} (f : nat -> out A) (g : nat -> A) l :
  (forall i, In i l -> f i = Ret (g i)) -> collect f l = Ret (map g l).
Proof.
  induction l as [|i l IH]; intros H; [reflexivity|]. cbn [collect map].
  rewrite (H i) by (left; auto). cbn [obnd]. rewrite IH by (intros; apply H; right; auto). reflexivity.
Qed.
Lemma each_same {S} (f : nat -> S -> out S) s l : (forall i, In i l -> f i s = Ret s) -> each l f s = Ret s.
Proof.
  induction l as [|i l IH]; intros H; [reflexivity|]. cbn [each]. rewrite (H i) by (left; auto). cbn [obnd].
  apply IH. intros; apply H; right; auto.
Qed.
(** a loop without exceptions *)
Lemma each_runs {S} (Inv : nat -> S -> Prop) (f : nat -> S -> out S) k : forall a s,
  Inv a s -> (forall i s, (a <= i < a + k)%nat -> Inv i s -> exists s', f i s = Ret s' /\ Inv (Datatypes.S i) s') ->
  exists s', each (seq a k) f s = Ret s' /\ Inv (a + k)%nat s'.
Proof.
  induction k as [|k IH]; intros a s H Hf; cbn [seq each].
  - exists s. split; auto. now rewrite Nat.add_0_r.
  - destruct (Hf a s) as (s1 & E & I); auto; [lia|]. rewrite E. cbn [obnd].
    destruct (IH (Datatypes.S a) s1 I) as (s' & E' & I'); [intros; apply Hf; auto; lia|].
    exists s'. split; auto. now replace (a + Datatypes.S k)%nat with (Datatypes.S a + k)%nat by lia.
Qed.
Lemma osub_at a b : (b <= a)%nat -> osub a b = Some (a - b)%nat.
Proof. intros H. unfold osub. destruct (Nat.leb_spec b a); auto; lia. Qed.
Lemma nth_err {A} (l : list A) i x : (i < length l)%nat -> nth_error l i = Some (nth i l x).
Proof. apply nth_error_nth'. Qed.

(** ** The costs of the levels *)
Section Store.
  Variables n d : nat.
  Hypothesis room : (2 * d <= n)%nat.
  Lemma store_spec costs det : length costs = (2 * d)%nat -> length det = n ->
    exists det', dstore n d costs det = Ret det' /\ length det' = n /\
      (forall j, (j < 2 * d)%nat -> nth j det' d_zero = nth (2 * d - 1 - j) costs d_zero) /\
      (forall j, (2 * d <= j)%nat -> nth j det' d_zero = nth j det d_zero).
  Proof.
    intros Lc Ld. unfold dstore.
    assert (R : dresize n det = det).
    { unfold dresize. rewrite firstn_all2 by lia. replace (n - length det)%nat with 0%nat by lia. apply app_nil_r. }
    rewrite R.
    destruct (each_runs (fun i s => length s = n /\
        (forall j, (2 * d - i <= j < 2 * d)%nat -> nth j s d_zero = nth (2 * d - 1 - j) costs d_zero) /\
        (forall j, (2 * d <= j)%nat -> nth j s d_zero = nth j det d_zero))
      (fun i det => t <~ ub (nth_error costs i);; k <~ ub (osub (2 * d) (i + 1));; ub (vset det k t)) (2 * d) 0 det)
      as (s' & E & L & I1 & I2).
    - split; auto. split; auto. intros; lia.
    - intros i s Hi (L & I1 & I2). rewrite (nth_err costs i d_zero) by lia. cbn [ub obnd].
      rewrite osub_at by lia. cbn [ub obnd]. rewrite vset_at by lia. cbn [ub].
      eexists. split; [reflexivity|]. split; [now rewrite upd_length|]. split; intros j Hj.
      + destruct (Nat.eq_dec j (2 * d - (i + 1))) as [-> |N].
        * rewrite nth_upd_eq by lia. f_equal. lia.
        * rewrite nth_upd_neq by auto. apply I1. lia.
      + rewrite nth_upd_neq by lia. auto.
    - exists s'. split; auto. split; auto. split; auto. intros j Hj. apply I1. lia.
  Qed.
  Lemma half_runs o b : (o < 2)%nat -> length b = n -> exists v, dhalf d o b = Ret v /\ length v = d.
  Proof.
    intros Ho L. unfold dhalf. rewrite (collect_ret _ (fun i => nth (2 * i + o) b d_zero)).
    - eexists. split; [reflexivity|]. now rewrite map_seq_length.
    - intros i Hi. apply in_seq in Hi. rewrite (nth_err b _ d_zero) by lia. reflexivity.
  Qed.
End Store.

(** the half of a profile that decides the detailed costs (pruner_cost.cpp:89-93) *)
Definition odd_entries (d : nat) (b : list dbl) : list dbl := map (fun i => nth (2 * i + 1) b d_zero) (seq 0 d).
(** the other half *)
Definition even_entries (d : nat) (b : list dbl) : list dbl := map (fun i => nth (2 * i) b d_zero) (seq 0 d).

(** ** Sums and weights *)
(** the sum of the costs from level [i] on *)
Lemma sum_spec (P : dbl -> Prop) det dn i : (i <= dn)%nat -> length det = dn -> P d_zero ->
  (forall a j, (i <= j < dn)%nat -> P a -> P (d_add a (nth j det d_zero))) ->
  exists s, each (seq i (dn - i)) (fun j a => x <~ ub (nth_error det j);; Ret (d_add a x)) d_zero = Ret s /\ P s.
Proof.
  intros Hi L P0 H.
  destruct (each_runs (fun _ s => P s) (fun j a => x <~ ub (nth_error det j);; Ret (d_add a x)) (dn - i) i d_zero) as (s & E & I); eauto.
  intros j a Hj Pa. rewrite (nth_err det j d_zero) by lia. cbn [ub obnd]. eexists. split; [reflexivity|]. apply H; auto. lia.
Qed.
Lemma zero_nneg : nneg d_zero. Proof. split; reflexivity. Qed.

Lemma sum_sizable det dn i : length det = dn -> (i < dn)%nat ->
  sizable (nth i det d_zero) -> (forall j, (i < j < dn)%nat -> nneg (nth j det d_zero)) ->
  exists s, each (seq i (dn - i)) (fun j a => x <~ ub (nth_error det j);; Ret (d_add a x)) d_zero = Ret s /\ sizable s.
Proof.
  intros L Hi S N. replace (dn - i)%nat with (Datatypes.S (dn - Datatypes.S i)) by lia. cbn [seq each].
  rewrite (nth_err det i d_zero) by lia. cbn [ub obnd].
  destruct (each_runs (fun _ s => sizable s) (fun j a => x <~ ub (nth_error det j);; Ret (d_add a x)) (dn - Datatypes.S i) (Datatypes.S i)
    (d_add d_zero (nth i det d_zero))) as (s & E & I).
  - apply add_sizable_r; auto. apply zero_nneg.
  - intros j a Hj Sa. rewrite (nth_err det j d_zero) by lia. cbn [ub obnd]. eexists. split; [reflexivity|].
    apply add_sizable_l; auto. apply N. lia.
  - exists s. auto.
Qed.
Lemma raw_sizable det dn i : length det = dn -> (i < dn)%nat ->
  sizable (nth i det d_zero) -> (forall j, (i < j < dn)%nat -> nneg (nth j det d_zero)) ->
  exists w, draw det dn i = Ret w /\ is_finite w = true /\ (0 < B2R w)%R.
Proof.
  intros L Hi S N. destruct (sum_sizable det dn i L Hi S N) as (s & E & Ss). unfold draw. rewrite E. cbn [obnd].
  fold (damp s). exists (damp s). split; [reflexivity|]. now apply damp_sizable.
Qed.

Lemma total_nneg (w : list dbl) : Forall nneg w -> forall a, nneg a -> nneg (fold_left d_add w a).
Proof. induction 1 as [|x w Hx Hw IH]; intros a Ha; cbn [fold_left]; auto. apply IH. now apply add_nneg. Qed.

Lemma collect_fits {A} (f : nat -> out A) (P : nat -> A -> Prop) k : forall a,
  (forall i, (a <= i < a + k)%nat -> exists x, f i = Ret x /\ P i x) ->
  exists l, collect f (seq a k) = Ret l /\ length l = k /\ forall i dflt, (i < k)%nat -> P (a + i)%nat (nth i l dflt).
Proof.
  induction k as [|k IH]; intros a H; cbn [seq collect].
  - exists []. repeat split; auto. intros; lia.
  - destruct (H a) as (x & E & Px); [lia|]. rewrite E. cbn [obnd].
    destruct (IH (S a)) as (l & El & Ll & Pl); [intros; apply H; lia|]. rewrite El. cbn [obnd].
    exists (x :: l). split; [reflexivity|]. split; [cbn; lia|]. intros [|i] dflt Hi; cbn [nth].
    + now rewrite Nat.add_0_r.
    + replace (a + S i)%nat with (S a + i)%nat by lia. apply Pl. lia.
Qed.

Lemma seq_last k : seq 0 (S k) = seq 0 k ++ [k].
Proof. now rewrite seq_S. Qed.
Lemma collect_app {A} (f : nat -> out A) l1 l2 : collect f (l1 ++ l2) = (r1 <~ collect f l1;; r2 <~ collect f l2;; Ret (r1 ++ r2)).
Proof.
  induction l1 as [|i l1 IH]; cbn [app collect obnd].
  - destruct (collect f l2); reflexivity.
  - destruct (f i) as [x|e| |]; cbn [obnd]; auto. rewrite IH.
    destruct (collect f l1) as [r1|e| |]; cbn [obnd]; auto. destruct (collect f l2); reflexivity.
Qed.

(** the weights in an odd dimension: zeros and a NaN *)
Lemma odd_weights det k : length det = S k -> (forall j, (j < k)%nat -> sizable (nth j det d_zero)) -> nth k det d_zero = d_zero ->
  dweights det (S k) = Ret (repeat d_zero k ++ [B754_nan]).
Proof.
  intros L Sz Z. unfold dweights. rewrite seq_last, collect_app.
  destruct (collect_fits (draw det (S k)) (fun _ w => is_finite w = true /\ (0 < B2R w)%R) k 0) as (w & E & Lw & Pw).
  { intros i Hi. apply raw_sizable; auto; [lia|apply Sz; lia|]. intros j Hj.
    destruct (Nat.eq_dec j k) as [-> |N]; [rewrite Z; apply zero_nneg|apply sizable_nneg, Sz; lia]. }
  rewrite E. cbn [obnd collect].
  assert (R : draw det (S k) k = Ret (B754_infinity false)).
  { unfold draw. replace (S k - k)%nat with 1%nat by lia. cbn [seq each]. rewrite (nth_err det k d_zero) by lia. rewrite Z. cbn [ub obnd].
    change (d_add d_zero d_zero) with d_zero. fold (damp d_zero). now rewrite damp_zero. }
  rewrite R. cbn [obnd]. rewrite fold_left_app. cbn [fold_left].
  rewrite add_inf.
  2:{ apply total_nneg; [|apply zero_nneg]. apply Forall_nth. intros i dflt Hi. destruct (Pw i dflt) as (F & P); [lia|].
      now apply val_nneg. }
  f_equal. rewrite map_app. cbn [map]. f_equal.
  apply (nth_ext _ _ d_zero d_zero); [now rewrite map_length, repeat_length|].
  rewrite map_length. intros i Hi. rewrite nth_repeat.
  rewrite (nth_indep _ _ (d_div d_zero (B754_infinity false))) by (now rewrite map_length).
  rewrite (map_nth (fun x => d_div x (B754_infinity false))). destruct (Pw i d_zero) as (F & P); [lia|]. now apply div_inf.
Qed.

(** the weights in an even dimension are not NaN *)
Lemma even_weights det dn : length det = dn -> (forall j, (j < dn)%nat -> sizable (nth j det d_zero)) ->
  exists w, dweights det dn = Ret w /\ length w = dn /\ forall i, (i < dn)%nat -> nneg (nth i w d_zero).
Proof.
  intros L Sz. unfold dweights.
  destruct (collect_fits (draw det dn) (fun _ w => is_finite w = true /\ (0 < B2R w)%R) dn 0) as (w & E & Lw & Pw).
  { intros i Hi. apply raw_sizable; auto; [lia|apply Sz; lia|]. intros j Hj. apply sizable_nneg, Sz. lia. }
  rewrite E. cbn [obnd]. eexists. split; [reflexivity|]. split; [now rewrite map_length|]. intros i Hi.
  set (t := fold_left d_add w d_zero).
  rewrite (nth_indep _ _ (d_div d_zero t)) by (rewrite map_length; lia).
  rewrite (map_nth (fun x => d_div x t)). destruct (Pw i d_zero) as (F & P); [lia|]. apply div_nneg; auto.
  apply total_nneg; [|apply zero_nneg]. apply Forall_nth. intros j dflt Hj. destruct (Pw j dflt) as (Fj & Pj); [lia|].
  now apply val_nneg.
Qed.

(** ** Loading and saving *)
Lemma load_is_rev n d pr : length pr = n -> n <> d -> dload n d n pr = Ret (rev pr).
Proof.
  intros <- H. unfold dload. replace (length pr =? d)%nat with false by (symmetry; now apply Nat.eqb_neq).
  rewrite (collect_ret _ (fun i => nth (length pr - S i) pr d_zero)).
  - f_equal. apply (nth_ext _ _ d_zero d_zero); [now rewrite map_seq_length, rev_length|].
    rewrite map_seq_length. intros i Hi. rewrite nth_map_seq by auto. now rewrite rev_nth.
  - intros i Hi. apply in_seq in Hi. rewrite osub_at by lia. cbn [ub obnd].
    rewrite (nth_err pr _ d_zero) by lia. cbn [ub]. do 2 f_equal. lia.
Qed.
Lemma save_is_rev n d pr b : length pr = n -> length b = n -> n <> d -> (0 < n)%nat -> dsave n d pr b = Ret (upd (rev b) 0 d_one).
Proof.
  intros Lp Lb H Pn. unfold dsave. replace (length b =? d)%nat with false by (symmetry; apply Nat.eqb_neq; lia).
  assert (R : dresize n pr = pr).
  { unfold dresize. rewrite firstn_all2 by lia. replace (n - length pr)%nat with 0%nat by lia. apply app_nil_r. }
  rewrite R.
  destruct (each_runs (fun i s => length s = n /\ forall j, (n - i <= j < n)%nat -> nth j s d_zero = nth (n - S j) b d_zero)
    (fun i pr => x <~ ub (nth_error b i);; k <~ ub (osub n (1 + i));; ub (vset pr k x)) n 0 pr) as (s & E & L & I).
  - split; auto. intros; lia.
  - intros i s Hi (L & I). rewrite (nth_err b i d_zero) by lia. cbn [ub obnd]. rewrite osub_at by lia. cbn [ub obnd].
    rewrite vset_at by lia. cbn [ub]. eexists. split; [reflexivity|]. split; [now rewrite upd_length|].
    intros j Hj. destruct (Nat.eq_dec j (n - (1 + i))) as [-> |N].
    + rewrite nth_upd_eq by lia. f_equal. lia.
    + rewrite nth_upd_neq by auto. apply I. lia.
  - rewrite E. cbn [obnd]. rewrite vset_at by lia. cbn [ub]. do 2 f_equal.
    apply (nth_ext _ _ d_zero d_zero); [rewrite rev_length; lia|]. intros i Hi. rewrite I by lia.
    rewrite rev_nth by lia. f_equal. lia.
Qed.

(** ** The theorem for odd dimensions *)

(** a profile that the pruner may get: it starts with 1.0, does not increase, and
    has entries above zero *)
Definition good_profile (pr : list dbl) : Prop :=
  nth 0 pr d_zero = d_one /\
  (forall i, (i < length pr)%nat -> unit_dbl (nth i pr d_zero)) /\
  (forall i, (S i < length pr)%nat -> d_le (nth (S i) pr d_zero) (nth i pr d_zero) = true).
(** it respects the minimal coefficients, which are stored from the last entry on, one
    for two entries *)
Definition respects (d : nat) (mins pr : list dbl) : Prop :=
  length mins = d /\
  forall i, (i < 2 * d)%nat -> d_le (nth (i / 2) mins d_zero) (nth (length pr - S i) pr d_zero) = true.

Section Odd.
  Variable d : nat.
  Let n := (2 * d + 1)%nat.
  Variable M : list dbl -> option dbl.
  Variable half_cost : list dbl -> option (dbl * list dbl).
  Variable target : dbl.
  Variable mins : list dbl.
  Hypothesis some_levels : (0 < d)%nat.

  (** one turn leaves the loop with the old profile and a NaN in the last entry *)
  Lemma odd_turn up fu pr p l u lc uc : length pr = n -> good_profile pr -> respects d mins pr ->
    (up = false -> forall i, (i < n)%nat -> d_le d_minstep (nth i pr d_zero) = true) ->
    M (rev pr) = Some p -> (if up then d_le target p else d_le p target) = false ->
    half_cost (even_entries d (rev pr)) = Some (l, lc) -> length lc = (2 * d)%nat ->
    half_cost (odd_entries d (rev pr)) = Some (u, uc) -> length uc = (2 * d)%nat -> Forall sizable uc ->
    dprob_turn n d M half_cost target mins up n fu (0%Z, rev pr, repeat d_zero n)
      = Ret (inr (firstn (2 * d) (rev pr) ++ [B754_nan])).
  Proof.
    intros Ln (G0 & G1 & G2) (Lm & Rm) Low EM Off El Llc Eu Luc Su.
    set (b := rev pr) in *. assert (Lb : length b = n) by (unfold b; now rewrite rev_length).
    assert (Ub : forall i, (i < n)%nat -> unit_dbl (nth i b d_zero)).
    { intros i Hi. unfold b. rewrite rev_nth by lia. apply G1. lia. }
    assert (Mb : forall i, (S i < n)%nat -> d_le (nth i b d_zero) (nth (S i) b d_zero) = true).
    { intros i Hi. unfold b. rewrite !rev_nth by lia. replace (length pr - S i)%nat with (S (length pr - S (S i))) by lia. apply G2. lia. }
    assert (Rb : forall i, (i < 2 * d)%nat -> d_le (nth (i / 2) mins d_zero) (nth i b d_zero) = true).
    { intros i Hi. unfold b. rewrite rev_nth by (unfold n in *; lia). now apply Rm. }
    assert (Lowb : up = false -> forall i, (i < n)%nat -> d_le d_minstep (nth i b d_zero) = true).
    { intros Hu i Hi. unfold b. rewrite rev_nth by lia. apply Low; auto. lia. }
    clearbody b. unfold dprob_turn. replace (10000 <? 0)%Z with false by reflexivity. rewrite EM. cbn [call obnd]. rewrite Off.
    (* the costs *)
    unfold dcost. replace (length b =? d)%nat with false by (symmetry; apply Nat.eqb_neq; unfold n in *; lia).
    assert (H0 : dhalf d 0 b = Ret (even_entries d b)).
    { unfold dhalf, even_entries. apply collect_ret. intros i Hi. apply in_seq in Hi. rewrite Nat.add_0_r.
      rewrite (nth_err b _ d_zero) by (unfold n in *; lia). reflexivity. }
    assert (H1 : dhalf d 1 b = Ret (odd_entries d b)).
    { unfold dhalf, odd_entries. apply collect_ret. intros i Hi. apply in_seq in Hi.
      rewrite (nth_err b _ d_zero) by (unfold n in *; lia). reflexivity. }
    rewrite H0. cbn [obnd]. unfold dcost_evec at 1. rewrite El. cbn [call obnd snd fst].
    destruct (store_spec n d ltac:(unfold n; lia) lc (repeat d_zero n) Llc (repeat_length _ _)) as (det1 & E1 & L1 & A1 & B1).
    rewrite E1. cbn [obnd snd fst]. rewrite H1. cbn [obnd]. unfold dcost_evec. rewrite Eu. cbn [call obnd snd fst].
    destruct (store_spec n d ltac:(unfold n; lia) uc det1 Luc L1) as (det2 & E2 & L2 & A2 & B2).
    rewrite E2. cbn [obnd snd fst].
    (* the weights *)
    assert (W : dweights det2 n = Ret (repeat d_zero (2 * d) ++ [B754_nan])).
    { unfold n in *. rewrite Nat.add_1_r in *. apply odd_weights; auto.
      - intros j Hj. rewrite A2 by auto. rewrite Forall_forall in Su. apply Su, nth_In. lia.
      - rewrite B2, B1 by lia. apply nth_repeat. }
    rewrite W. cbn [obnd].
    (* the move *)
    set (nb := firstn (2 * d) b ++ [B754_nan]).
    assert (Lf : length (firstn (2 * d) b) = (2 * d)%nat) by (rewrite firstn_length; unfold n in *; lia).
    assert (Lnb : length nb = n) by (unfold nb; rewrite app_length, Lf; cbn; unfold n; lia).
    assert (Nb : forall i, (i < 2 * d)%nat -> nth i nb d_zero = nth i b d_zero).
    { intros i Hi. unfold nb. rewrite app_nth1 by lia. rewrite <- (firstn_skipn (2 * d) b) at 2. now rewrite app_nth1 by lia. }
    assert (Nl : nth (2 * d) nb d_zero = B754_nan).
    { unfold nb. rewrite app_nth2 by lia. now rewrite Lf, Nat.sub_diag. }
    assert (Mv : collect (fun i => x <~ ub (nth_error b i);; y <~ ub (nth_error (repeat d_zero (2 * d) ++ [B754_nan]) i);;
                    Ret (if up then dup x y else ddown x y)) (seq 0 n) = Ret nb).
    { rewrite (collect_ret _ (fun i => nth i nb d_zero)).
      - f_equal. apply (nth_ext _ _ d_zero d_zero); rewrite map_seq_length; auto. intros i Hi. now rewrite nth_map_seq by auto.
      - intros i Hi. apply in_seq in Hi. rewrite (nth_err b i d_zero) by lia. cbn [ub obnd].
        rewrite (nth_err (repeat d_zero (2 * d) ++ [B754_nan]) i d_zero) by (rewrite app_length, repeat_length; cbn; unfold n in *; lia).
        cbn [ub obnd]. destruct (Nat.eq_dec i (2 * d)) as [-> |N].
        + rewrite app_nth2 by (rewrite repeat_length; lia). rewrite repeat_length, Nat.sub_diag. cbn [nth]. rewrite Nl.
          destruct (Ub (2 * d)%nat) as (U1 & U2); [unfold n; lia|].
          destruct up; unfold dup, ddown; cbv zeta; destruct (nth (2 * d) b d_zero) as [|[]| |[]]; try discriminate; reflexivity.
        + rewrite app_nth1 by (rewrite repeat_length; unfold n in *; lia). rewrite nth_repeat.
          rewrite Nb by (unfold n in *; lia). f_equal. destruct (Ub i) as (U1 & U2); [lia|]. destruct up.
          * unfold dup. rewrite add_zero_r by (split; auto). cbv zeta. destruct (d_le d_one (nth i b d_zero)) eqn:E; auto.
            apply le_antisym; auto. apply unit_one.
          * unfold ddown. rewrite sub_zero_r by (split; auto). cbv zeta. now rewrite lt_le_false by (apply Lowb; auto; lia). }
    rewrite Mv. cbn [obnd].
    (* enforce *)
    assert (En : denforce d mins nb = Ret nb).
    { unfold denforce. rewrite Lnb. replace (n =? d)%nat with false by (symmetry; apply Nat.eqb_neq; unfold n; lia).
      rewrite osub_at by (unfold n; lia). cbn [ub obnd]. replace (n - 1)%nat with (2 * d)%nat by (unfold n; lia).
      rewrite (nth_err nb _ d_zero) by (rewrite Lnb; unfold n; lia). cbn [ub obnd]. rewrite Nl.
      replace (d_lt B754_nan (d_quo 999 1000)) with false by (vm_compute; reflexivity). cbn [andb obnd].
      rewrite (each_same (dclip d mins 2) nb).
      - cbn [obnd]. apply each_same. intros i Hi. apply in_seq in Hi. unfold draise.
        rewrite (nth_err nb i d_zero), (nth_err nb (S i) d_zero) by (rewrite Lnb; unfold n; lia). cbn [ub obnd].
        destruct (Nat.eq_dec (S i) (2 * d)) as [Es|Es].
        + rewrite Es, Nl. unfold d_lt. destruct (nth i nb d_zero) as [|[]| |[]]; reflexivity.
        + rewrite !Nb by lia. rewrite lt_le_false; auto. apply Mb. unfold n; lia.
      - intros i Hi. apply in_seq in Hi. unfold dclip. rewrite (nth_err nb i d_zero) by lia. cbn [ub obnd].
        destruct (Nat.eq_dec i (2 * d)) as [-> |N].
        + rewrite Nl. replace (d_lt d_one B754_nan) with false by (vm_compute; reflexivity).
          rewrite Nat.mul_comm, Nat.div_mul, Nat.ltb_irrefl by lia. rewrite vset_at by (rewrite Lnb; unfold n; lia). cbn [ub].
          f_equal. rewrite Nat.mul_comm. rewrite <- Nl. apply upd_same.
        + assert (Hi' : (i < 2 * d)%nat) by (unfold n in *; lia). rewrite Nb by auto. destruct (Ub i) as (U1 & U2); [lia|].
          rewrite (lt_le_false _ _ U2).
          assert (Hd : (i / 2 < d)%nat) by (apply Nat.div_lt_upper_bound; lia).
          replace (i / 2 <? d)%nat with true by (symmetry; now apply Nat.ltb_lt).
          rewrite (nth_err mins _ d_zero) by lia. cbn [ub obnd].
          assert (V : (if d_le (nth i b d_zero) (nth (i / 2) mins d_zero) then nth (i / 2) mins d_zero else nth i b d_zero) = nth i nb d_zero).
          { rewrite Nb by auto. destruct (d_le (nth i b d_zero) (nth (i / 2) mins d_zero)) eqn:E; auto.
            symmetry. apply le_antisym; auto. split; auto. }
          rewrite V, vset_at by lia. cbn [ub]. f_equal. apply upd_same. }
    rewrite En. cbn [obnd].
    replace (dunchanged nb b) with true; [reflexivity|]. symmetry. unfold dunchanged. apply forallb_forall.
    intros i Hi. apply in_seq in Hi. destruct (Nat.eq_dec i (2 * d)) as [-> |N].
    - now rewrite Nl, nan_cmp.
    - rewrite Nb by (unfold n in *; lia). unfold d_ne, d_cmp. now rewrite lt_irrefl.
  Qed.

  (** In an odd dimension the profile is returned as it was after one turn, whatever
      the target. *)
  Theorem odd_profile_unchanged up fuel pr p l u lc uc : length pr = n -> good_profile pr -> respects d mins pr ->
    (up = false -> forall i, (i < n)%nat -> d_le d_minstep (nth i pr d_zero) = true) ->
    M (rev pr) = Some p -> (if up then d_le target p else d_le p target) = false ->
    half_cost (even_entries d (rev pr)) = Some (l, lc) -> length lc = (2 * d)%nat ->
    half_cost (odd_entries d (rev pr)) = Some (u, uc) -> length uc = (2 * d)%nat -> Forall sizable uc ->
    (0 < fuel)%nat -> dchange_prob n d M half_cost target mins up fuel pr = Ret pr.
  Proof.
    intros Ln G Rs Low EM Off El Llc Eu Luc Su Hf. unfold dchange_prob. rewrite Ln.
    rewrite load_is_rev by (auto; unfold n; lia). cbn [obnd].
    destruct fuel as [|fu]; [lia|]. cbn [wloop]. rewrite (odd_turn up fu pr p l u lc uc) by auto. cbn [obnd].
    assert (Lf : length (firstn (2 * d) (rev pr)) = (2 * d)%nat) by (rewrite firstn_length, rev_length; unfold n in *; lia).
    rewrite save_is_rev; auto; try (rewrite app_length, Lf; reflexivity); try (unfold n; lia).
    f_equal. rewrite rev_app_distr. cbn [rev app upd].
    destruct G as (G0 & _ & _). destruct pr as [|x pr]; [unfold n in Ln; cbn in Ln; lia|]. cbn [nth] in G0. subst x. f_equal.
    cbn [rev]. rewrite firstn_app. rewrite rev_length. cbn [length] in Ln. unfold n in Ln.
    replace (2 * d - length pr)%nat with 0%nat by lia. cbn [firstn]. rewrite app_nil_r, firstn_all2 by (rewrite rev_length; lia).
    apply rev_involutive.
  Qed.
End Odd.

(** ** The theorem for even dimensions *)
Lemma le_mono m x y : unit_dbl x -> unit_dbl y -> (B2R x <= B2R y)%R -> d_le m x = true -> d_le m y = true.
Proof.
  intros Ux Uy H L. apply unit_val in Ux. apply unit_val in Uy. destruct Ux as (Fx & Px). destruct Uy as (Fy & Py).
  destruct (is_finite m) eqn:Fm.
  - apply le_finite; auto. apply le_finite in L; auto. lra.
  - destruct (pos_shape x Fx (proj1 Px)) as (m1 & e1 & B1 & ->). destruct (pos_shape y Fy (proj1 Py)) as (m2 & e2 & B2 & ->).
    destruct m as [|[]| |]; try discriminate; reflexivity.
Qed.
Lemma le_total x y : unit_dbl x -> d_le y d_one = true -> d_le x y = false -> d_le y x = true.
Proof.
  intros Ux L H. apply unit_val in Ux. destruct Ux as (Fx & Px). destruct (is_finite y) eqn:Fy.
  - apply le_finite; auto. apply le_finite_f in H; auto. lra.
  - destruct (pos_shape x Fx (proj1 Px)) as (m1 & e1 & B1 & ->). destruct y as [|[]| |]; try discriminate; reflexivity.
Qed.
Lemma le_unit x y : unit_dbl x -> d_le x y = true -> d_le y d_one = true -> unit_dbl y /\ (B2R x <= B2R y)%R.
Proof.
  intros Ux L H. pose proof Ux as Ux'. apply unit_val in Ux. destruct Ux as (Fx & Px). destruct one_val as (F1 & V1).
  assert (Fy : is_finite y = true).
  { destruct (pos_shape x Fx (proj1 Px)) as (m1 & e1 & B1 & ->). destruct y as [|[]| |]; auto; discriminate. }
  apply le_finite in L; auto. apply le_finite in H; auto. rewrite V1 in H. split; auto. apply unit_val. split; auto. lra.
Qed.
Lemma le_B2R x y : unit_dbl x -> unit_dbl y -> (d_le x y = true <-> (B2R x <= B2R y)%R).
Proof. intros Ux Uy. apply unit_val in Ux. apply unit_val in Uy. apply le_finite; tauto. Qed.
Lemma le_one x : unit_dbl x -> (B2R x <= B2R d_one)%R.
Proof. intros U. apply unit_val in U. rewrite (proj2 one_val). lra. Qed.

Section Even.
  Variable d : nat.
  Let n := (2 * d)%nat.
  Variable M : list dbl -> option dbl.
  Variable half_cost : list dbl -> option (dbl * list dbl).
  Variable target : dbl.
  Variable mins : list dbl.
  Hypothesis some_levels : (0 < d)%nat.
  Hypothesis minima : length mins = d /\ Forall (fun m => d_le m d_one = true) mins.
  Hypothesis costs_sizable : forall b c, half_cost b = Some c -> length (snd c) = n /\ Forall sizable (snd c).

  Let e (b : list dbl) i := nth i b d_zero.
  (** entries in (0, 1] *)
  Let units (b : list dbl) : Prop := length b = n /\ forall i, (i < n)%nat -> unit_dbl (e b i).
  (** no entry is smaller *)
  Let up_from (b b' : list dbl) : Prop := forall i, (i < n)%nat -> (B2R (e b i) <= B2R (e b' i))%R.

  Lemma units_upd b i x : units b -> (i < n)%nat -> unit_dbl x -> (B2R (e b i) <= B2R x)%R -> units (upd b i x) /\ up_from b (upd b i x).
  Proof.
    intros (L & U) Hi Ux Le. split; [split|].
    - now rewrite upd_length.
    - intros j Hj. unfold e. destruct (Nat.eq_dec j i) as [-> |N]; [rewrite nth_upd_eq by lia; auto|rewrite nth_upd_neq by auto; now apply U].
    - intros j Hj. unfold e. destruct (Nat.eq_dec j i) as [-> |N]; [rewrite nth_upd_eq by lia; auto|rewrite nth_upd_neq by auto; lra].
  Qed.
  Lemma up_trans b1 b2 b3 : up_from b1 b2 -> up_from b2 b3 -> up_from b1 b3.
  Proof. intros H1 H2 i Hi. eapply Rle_trans; [apply H1|apply H2]; auto. Qed.
  Lemma up_refl b : up_from b b. Proof. intros i Hi. lra. Qed.

  Lemma enforce_even b : units b -> exists b', denforce d mins b = Ret b' /\ units b' /\ up_from b b' /\
    (forall i, (S i < n)%nat -> (B2R (e b' i) <= B2R (e b' (S i)))%R) /\
    (forall i, (i < n)%nat -> d_le (nth (i / 2) mins d_zero) (e b' i) = true).
  Proof.
    intros Ub. pose proof Ub as (L & U). destruct minima as (Lm & Fm). unfold denforce. rewrite L.
    replace (n =? d)%nat with false by (symmetry; apply Nat.eqb_neq; unfold n; lia).
    rewrite osub_at by (unfold n; lia). cbn [ub obnd]. rewrite (nth_err b _ d_zero) by (unfold n in *; lia). cbn [ub obnd].
    assert (S1 : exists b1, (if d_lt (nth (n - 1) b d_zero) (d_quo 999 1000) && negb (0 =? n - 1)%nat then ub (vset b (n - 1) d_one) else Ret b) = Ret b1 /\
      units b1 /\ up_from b b1).
    { destruct (d_lt _ _ && _).
      - rewrite vset_at by (unfold n in *; lia). cbn [ub]. eexists. split; [reflexivity|]. apply units_upd; auto; [unfold n; lia|apply unit_one|].
        apply le_one. apply U. unfold n; lia.
      - exists b. split; auto. split; auto. apply up_refl. }
    destruct S1 as (b1 & -> & U1 & P1). cbn [obnd].
    destruct (each_runs (fun i s => units s /\ up_from b1 s /\ forall j, (j < i)%nat -> d_le (nth (j / 2) mins d_zero) (e s j) = true)
      (dclip d mins 2) n 0 b1) as (b2 & E2 & U2 & P2 & M2).
    { split; auto. split; [apply up_refl|]. intros; lia. }
    { intros i s Hi ((Ls & Us) & Ps & Ms). unfold dclip. rewrite (nth_err s i d_zero) by lia. cbn [ub obnd].
      destruct (Us i) as (Ui1 & Ui2); [lia|]. unfold e in Ui1, Ui2. rewrite (lt_le_false _ _ Ui2).
      assert (Hd : (i / 2 < d)%nat) by (apply Nat.div_lt_upper_bound; unfold n in *; lia).
      replace (i / 2 <? d)%nat with true by (symmetry; now apply Nat.ltb_lt).
      rewrite (nth_err mins _ d_zero) by lia. cbn [ub obnd]. rewrite vset_at by lia. cbn [ub].
      set (m := nth (i / 2) mins d_zero).
      assert (Hm : d_le m d_one = true) by (rewrite Forall_forall in Fm; apply Fm, nth_In; lia).
      assert (Ux : unit_dbl (nth i s d_zero)) by (split; auto).
      assert (V : unit_dbl (if d_le (nth i s d_zero) m then m else nth i s d_zero) /\
                  (B2R (nth i s d_zero) <= B2R (if d_le (nth i s d_zero) m then m else nth i s d_zero))%R /\
                  d_le m (if d_le (nth i s d_zero) m then m else nth i s d_zero) = true).
      { destruct (d_le (nth i s d_zero) m) eqn:C.
        - destruct (le_unit _ _ Ux C Hm) as (Um & Lem). split; auto. split; auto. apply le_B2R; auto. lra.
        - split; auto. split; [lra|]. now apply le_total. }
      destruct V as (V1 & V2 & V3).
      destruct (units_upd s i _ (conj Ls Us) ltac:(lia) V1 V2) as (W1 & W2).
      eexists. split; [reflexivity|]. split; auto. split; [eapply up_trans; eauto|].
      intros j Hj. destruct (Nat.eq_dec j i) as [-> |N]; unfold e; [rewrite nth_upd_eq by lia; auto|rewrite nth_upd_neq by auto; apply Ms; lia]. }
    rewrite E2. cbn [obnd].
    destruct (each_runs (fun i s => units s /\ up_from b2 s /\ forall j, (j < i)%nat -> (S j < n)%nat -> (B2R (e s j) <= B2R (e s (S j)))%R)
      draise (n - 1) 0 b2) as (b3 & E3 & U3 & P3 & M3).
    { split; auto. split; [apply up_refl|]. intros; lia. }
    { intros i s Hi ((Ls & Us) & Ps & Ms). unfold draise.
      rewrite (nth_err s i d_zero), (nth_err s (S i) d_zero) by lia. cbn [ub obnd].
      assert (Ui : unit_dbl (nth i s d_zero)) by (apply Us; lia). assert (Uj : unit_dbl (nth (S i) s d_zero)) by (apply Us; lia).
      destruct (d_lt (nth (S i) s d_zero) (nth i s d_zero)) eqn:C.
      - rewrite vset_at by lia. cbn [ub]. assert (Le : (B2R (nth (S i) s d_zero) <= B2R (nth i s d_zero))%R).
        { apply lt_finite in C; [lra|apply unit_val in Uj; tauto|apply unit_val in Ui; tauto]. }
        destruct (units_upd s (S i) (nth i s d_zero) (conj Ls Us) ltac:(lia) Ui Le) as (W1 & W2).
        eexists. split; [reflexivity|]. split; auto. split; [eapply up_trans; eauto|].
        intros j Hj Hj2. unfold e. destruct (Nat.eq_dec j i) as [-> |N].
        + rewrite nth_upd_eq, nth_upd_neq by lia. lra.
        + rewrite !nth_upd_neq by lia. apply Ms; lia.
      - eexists. split; [reflexivity|]. split; [split; auto|]. split; auto. intros j Hj Hj2. destruct (Nat.eq_dec j i) as [-> |N]; [|apply Ms; lia].
        apply lt_finite_f in C; auto; [apply unit_val in Uj; tauto|apply unit_val in Ui; tauto]. }
    exists b3. split; auto. split; auto. split; [eapply up_trans; [apply P1|eapply up_trans; eauto]|]. split.
    - intros i Hi. apply M3; lia.
    - intros i Hi. destruct U2 as (L2 & U2). destruct U3 as (L3 & U3). apply (le_mono _ (e b2 i)); auto.
  Qed.

  (** what the loop keeps: entries in (0, 1], in order, above the minima *)
  Let proper_dbl (b : list dbl) : Prop := units b /\
    (forall i, (S i < n)%nat -> (B2R (e b i) <= B2R (e b (S i)))%R) /\
    (forall i, (i < n)%nat -> d_le (nth (i / 2) mins d_zero) (e b i) = true).

  Lemma even_turn up fu t b det : proper_dbl b -> length det = n ->
    fine (fun r => match r with
          | inl (t', b', det') => (t <= 10000)%Z /\ t' = (t + 1)%Z /\ length det' = n /\ proper_dbl b' /\ (up = true -> up_from b b')
          | inr b' => proper_dbl b' /\ (up = true -> up_from b b') end)
      (dprob_turn n d M half_cost target mins up n fu (t, b, det)).
  Proof.
    intros Pb Ld. pose proof Pb as ((L & U) & _). unfold dprob_turn.
    destruct (10000 <? t)%Z eqn:Et; [cbn; split; auto; intros _; apply up_refl|]. apply Z.ltb_ge in Et.
    destruct (M b) as [p|]; [|exact I]. cbn [call obnd].
    destruct (if up then d_le target p else d_le p target); [cbn; split; auto; intros _; apply up_refl|].
    unfold dcost. replace (length b =? d)%nat with false by (symmetry; apply Nat.eqb_neq; unfold n in *; lia).
    destruct (half_runs n d ltac:(unfold n; lia) 0 b ltac:(lia) L) as (lo & -> & _). cbn [obnd].
    destruct (half_runs n d ltac:(unfold n; lia) 1 b ltac:(lia) L) as (hi & -> & _).
    unfold dcost_evec at 1. destruct (half_cost lo) as [cl|] eqn:El; [|exact I]. cbn [call obnd].
    destruct (costs_sizable lo cl El) as (Lc & Sc).
    destruct (store_spec n d ltac:(unfold n; lia) (snd cl) det Lc Ld) as (det1 & -> & L1 & _). cbn [obnd snd fst].
    unfold dcost_evec. destruct (half_cost hi) as [cu|] eqn:Eu; [|exact I]. cbn [call obnd].
    destruct (costs_sizable hi cu Eu) as (Lu & Su).
    destruct (store_spec n d ltac:(unfold n; lia) (snd cu) det1 Lu L1) as (det2 & -> & L2 & A2 & _). cbn [obnd snd fst].
    destruct (even_weights det2 n L2) as (w & -> & Lw & Pw).
    { intros j Hj. rewrite A2 by auto. rewrite Forall_forall in Su. apply Su, nth_In. unfold n in *. lia. }
    cbn [obnd].
    destruct (collect_fits (fun i => x <~ ub (nth_error b i);; y <~ ub (nth_error w i);; Ret (if up then dup x y else ddown x y))
      (fun i x => unit_dbl x /\ (up = true -> (B2R (e b i) <= B2R x)%R)) n 0) as (nb & -> & Ln & Pn).
    { intros i Hi. rewrite (nth_err b i d_zero), (nth_err w i d_zero) by lia. cbn [ub obnd]. eexists. split; [reflexivity|].
      destruct up; [|split; [|discriminate]].
      - destruct (dup_unit (nth i b d_zero) (nth i w d_zero)) as (V1 & V2); [apply U; lia|apply Pw; lia|]. split; auto.
      - apply ddown_unit; [apply U; lia|apply Pw; lia]. }
    cbn [obnd].
    destruct (enforce_even nb) as (nb' & -> & U' & P' & M' & R').
    { split; auto. intros i Hi. destruct (Pn i d_zero Hi) as (V & _). exact V. }
    cbn [obnd].
    assert (G : proper_dbl nb' /\ (up = true -> up_from b nb')).
    { split; [split; auto|]. intros Hu i Hi. eapply Rle_trans; [|apply P'; auto]. destruct (Pn i d_zero Hi) as (_ & V). now apply V. }
    destruct (dunchanged nb' b); cbn; [exact G|]. destruct G. auto.
  Qed.

  Lemma loop_even up b : proper_dbl b ->
    does (fun b' => proper_dbl b' /\ (up = true -> up_from b b'))
      (fun fu => wloop (dprob_turn n d M half_cost target mins up n) fu (0%Z, b, repeat d_zero n)).
  Proof.
    intros Pb.
    apply (does_wloop (fun k s => let '(t, b', det) := s in (0 <= t)%Z /\ (Z.of_nat k = Z.max 0 (10001 - t))%Z /\ length det = n /\ proper_dbl b' /\ (up = true -> up_from b b')) _ _)
      with (k := Z.to_nat 10001).
    - intros k [[t b'] det] (Ht & Hk & Ld & Pb' & Hu).
      apply (does_ext _ (fun _ => dprob_turn n d M half_cost target mins up n 0 (t, b', det))); [|reflexivity]. apply does_fine.
      eapply fine_weak; [apply even_turn; auto|]. intros [[[t' b''] det']|b''].
      + intros (H1 & -> & Ld' & P'' & Hu'). exists (Z.to_nat (Z.max 0 (10001 - (t + 1)))).
        split; [lia|]. split; [lia|]. split; [lia|]. split; [auto|]. split; [auto|]. intros E. eapply up_trans; eauto.
      + intros (P'' & Hu'). split; auto. intros E. eapply up_trans; eauto.
    - split; [lia|]. split; [lia|]. split; [apply repeat_length|]. split; [auto|]. intros _. apply up_refl.
  Qed.

  (** In an even dimension the functions terminate; what they return is again a
      profile that starts with 1.0, does not increase, has entries in (0, 1] (in
      particular no NaN) and respects the minima; incr_prob lowers no coefficient. *)
  Theorem even_profile_good up pr : length pr = n -> good_profile pr -> respects d mins pr ->
    does (fun pr' => length pr' = n /\ good_profile pr' /\ respects d mins pr' /\
            (up = true -> forall i, (i < n)%nat -> d_le (nth i pr d_zero) (nth i pr' d_zero) = true))
      (fun fuel => dchange_prob n d M half_cost target mins up fuel pr).
  Proof.
    intros Ln (G0 & G1 & G2) (Lm & Rm).
    assert (Pb : proper_dbl (rev pr)).
    { split; [split|split].
      - now rewrite rev_length.
      - intros i Hi. unfold e. rewrite rev_nth by lia. apply G1. lia.
      - intros i Hi. unfold e. rewrite !rev_nth by lia. apply le_B2R; [apply G1; lia|apply G1; lia|].
        replace (length pr - S i)%nat with (S (length pr - S (S i))) by lia. apply G2. lia.
      - intros i Hi. unfold e. rewrite rev_nth by lia. apply Rm. unfold n in *. lia. }
    unfold dchange_prob. rewrite Ln. rewrite load_is_rev by (auto; unfold n; lia). cbn [obnd].
    apply (does_bnd (fun b' => proper_dbl b' /\ (up = true -> up_from (rev pr) b')) _
      (fun fuel => wloop (dprob_turn n d M half_cost target mins up n) fuel (0%Z, rev pr, repeat d_zero n))
      (fun b _ => dsave n d pr b)); [now apply loop_even|].
    intros b' (((L & U) & Mo & Re) & Hu). apply does_fine. rewrite save_is_rev by (auto; unfold n; lia). cbn [fine].
    set (pr' := upd (rev b') 0 d_one). assert (Lr : length (rev b') = n) by now rewrite rev_length.
    assert (L' : length pr' = n) by (unfold pr'; now rewrite upd_length).
    assert (E0 : nth 0 pr' d_zero = d_one) by (unfold pr'; apply nth_upd_eq; unfold n in *; lia).
    assert (Ei : forall i, (0 < i < n)%nat -> nth i pr' d_zero = e b' (n - S i)).
    { intros i Hi. unfold pr'. rewrite nth_upd_neq by lia. rewrite rev_nth by lia. now rewrite L. }
    assert (U' : forall i, (i < n)%nat -> unit_dbl (nth i pr' d_zero)).
    { intros i Hi. destruct (Nat.eq_dec i 0) as [-> |N]; [rewrite E0; apply unit_one|]. rewrite Ei by lia. apply U. lia. }
    split; auto. split; [split; [auto|split]|split; [split; auto|]].
    - intros i Hi. apply U'. lia.
    - intros i Hi. apply le_B2R; try (apply U'; lia). rewrite (Ei (S i)) by lia.
      destruct (Nat.eq_dec i 0) as [-> |N]; [rewrite E0; apply le_one, U; lia|]. rewrite Ei by lia.
      replace (n - S i)%nat with (S (n - S (S i))) by lia. apply Mo. lia.
    - intros i Hi. fold n in Hi. rewrite L'. destruct (Nat.eq_dec (n - S i) 0) as [Z|N].
      + rewrite Z, E0. apply (le_mono _ (e b' i)); [apply U; auto|apply unit_one|apply le_one, U; auto|apply Re; auto].
      + rewrite Ei by lia. replace (n - S (n - S i))%nat with i by lia. now apply Re.
    - intros Hup i Hi. apply le_B2R; [apply G1; lia|apply U'; auto|].
      destruct (Nat.eq_dec i 0) as [-> |N]; [rewrite E0; apply le_one, G1; lia|]. rewrite Ei by lia.
      specialize (Hu Hup (n - S i)%nat ltac:(lia)). unfold e at 1 in Hu. rewrite rev_nth in Hu by lia.
      replace (length pr - S (n - S i))%nat with i in Hu by lia. exact Hu.
  Qed.
End Even.

(** ** Cases *)

(** a metric that reads the smallest coefficient *)
Definition first_entry (b : list dbl) : option dbl := nth_error b 0.
(** two levels of cost one *)
Definition unit_costs (b : list dbl) : option (dbl * list dbl) := Some (d_of 2 0, [d_one; d_one]).
(** one half *)
Definition d_half : dbl := d_of 1 (-1).
(** a profile of dimension three *)
Definition flat3 : list dbl := [d_one; d_half; d_half].

Lemma flat3_good : good_profile flat3 /\ respects 1 [d_zero] flat3.
Proof.
  split; [split; [reflexivity|split]|split; [reflexivity|]].
  - intros [|[|[|i]]] Hi; cbn in Hi; try lia; split; vm_compute; reflexivity.
  - intros [|[|i]] Hi; cbn in Hi; try lia; vm_compute; reflexivity.
  - intros [|[|i]] Hi; cbn in Hi; try lia; vm_compute; reflexivity.
Qed.
Lemma unit_costs_sizable : Forall sizable [d_one; d_one].
Proof. repeat constructor; vm_compute; reflexivity. Qed.

(** "incr_prob raises the profile until the metric reaches the target, if the
    profile of ones does": false in dimension three. *)
Theorem incr_prob_reaches_target_refuted : exists (pr mins : list dbl) (target p : dbl),
  length pr = 3%nat /\ good_profile pr /\ respects 1 mins pr /\
  first_entry (rev pr) = Some p /\ d_lt p target = true /\
  (exists q, first_entry [d_one; d_one; d_one] = Some q /\ d_le target q = true) /\
  forall fuel, (0 < fuel)%nat -> dchange_prob 3 1 first_entry unit_costs target mins true fuel pr = Ret pr.
Proof.
  exists flat3, [d_zero], (d_of 3 (-2)), d_half. destruct flat3_good as (G & R).
  split; [reflexivity|]. split; [auto|]. split; [auto|]. split; [reflexivity|]. split; [vm_compute; reflexivity|].
  split; [exists d_one; split; [reflexivity|vm_compute; reflexivity]|]. intros fuel Hf.
  apply (odd_profile_unchanged 1 first_entry unit_costs (d_of 3 (-2)) [d_zero] ltac:(lia) true fuel flat3 d_half (d_of 2 0) (d_of 2 0) [d_one; d_one] [d_one; d_one]);
    auto; try reflexivity; try discriminate; try apply unit_costs_sizable.
Qed.

(** "decr_prob lowers the profile until the metric is at most the target, if the
    smallest profile has such a metric": false in dimension three. *)
Theorem decr_prob_reaches_target_refuted : exists (pr mins : list dbl) (target p : dbl),
  length pr = 3%nat /\ good_profile pr /\ respects 1 mins pr /\
  first_entry (rev pr) = Some p /\ d_lt target p = true /\
  (exists q, first_entry [d_minstep; d_minstep; d_one] = Some q /\ d_le q target = true) /\
  forall fuel, (0 < fuel)%nat -> dchange_prob 3 1 first_entry unit_costs target mins false fuel pr = Ret pr.
Proof.
  exists flat3, [d_zero], (d_of 1 (-2)), d_half. destruct flat3_good as (G & R).
  split; [reflexivity|]. split; [auto|]. split; [auto|]. split; [reflexivity|]. split; [vm_compute; reflexivity|].
  split; [exists d_minstep; split; [reflexivity|vm_compute; reflexivity]|]. intros fuel Hf.
  apply (odd_profile_unchanged 1 first_entry unit_costs (d_of 1 (-2)) [d_zero] ltac:(lia) false fuel flat3 d_half (d_of 2 0) (d_of 2 0) [d_one; d_one] [d_one; d_one]);
    auto; try reflexivity; try apply unit_costs_sizable.
  intros _ [|[|[|i]]] Hi; try lia; vm_compute; reflexivity.
Qed.

(** dimension two for contrast: the same metric, costs and targets are reached *)
Example incr_even_case :
  match dchange_prob 2 1 first_entry unit_costs (d_of 3 (-2)) [d_zero] true 5 [d_one; d_half] with
  | Ret [x; y] => d_le x d_one && d_le d_one x && d_le (d_of 3 (-2)) y && d_lt y d_one
  | _ => false end = true.
Proof. vm_compute. reflexivity. Qed.
Example decr_even_case :
  match dchange_prob 2 1 first_entry unit_costs (d_of 1 (-2)) [d_zero] false 5 [d_one; d_half] with
  | Ret [x; y] => d_le x d_one && d_le d_one x && d_le y (d_of 1 (-2)) && d_lt d_zero y
  | _ => false end = true.
Proof. vm_compute. reflexivity. Qed.
(** the theorem for even dimensions applies to it *)
Example even_good_case : does (fun pr' => length pr' = 2%nat /\ good_profile pr' /\ respects 1 [d_zero] pr' /\
    (true = true -> forall i, (i < 2)%nat -> d_le (nth i [d_one; d_half] d_zero) (nth i pr' d_zero) = true))
  (fun fuel => dchange_prob 2 1 first_entry unit_costs (d_of 3 (-2)) [d_zero] true fuel [d_one; d_half]).
Proof.
  apply (even_profile_good 1 first_entry unit_costs (d_of 3 (-2)) [d_zero]); try reflexivity; try lia.
  - split; [reflexivity|]. repeat constructor; vm_compute; reflexivity.
  - intros b c E. injection E as <-. split; [reflexivity|apply unit_costs_sizable].
  - split; [reflexivity|split].
    + intros [|[|i]] Hi; cbn in Hi; try lia; split; vm_compute; reflexivity.
    + intros [|i] Hi; cbn in Hi; try lia; vm_compute; reflexivity.
  - split; [reflexivity|]. intros [|[|i]] Hi; cbn in Hi; try lia; vm_compute; reflexivity.
Qed.

Print Assumptions odd_profile_unchanged.
Print Assumptions even_profile_good.
Print Assumptions incr_prob_reaches_target_refuted.
Print Assumptions decr_prob_reaches_target_refuted.
